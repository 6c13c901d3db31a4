(** What the curve theorems say, apart from the model's functions. *)
From Coq Require Import List QArith Qabs Sorted.
From Verif Require Import CurveModel.
Import ListNotations.
Local Open Scope Q_scope.

(** Keys in non-decreasing and in strictly increasing order of their times. *)
Definition ordered (ks : list key) : Prop := StronglySorted (fun a b => input a <= input b) ks.
Definition increasing (ks : list key) : Prop := StronglySorted (fun a b => input a < input b) ks.

(** [v] lies on the straight line through the keys [s] and [e] at time [x]. *)
Definition on_line (s e : key) (x v : Q) : Prop :=
  (v - output s) * (input e - input s) == (x - input s) * (output e - output s).
(** The Bernstein form with the control numbers p0 ... p3. *)
Definition Bernstein (p0 p1 p2 p3 t : Q) : Q :=
  (1 - t) ^ 3 * p0 + 3 * (1 - t) ^ 2 * t * p1 + 3 * (1 - t) * t ^ 2 * p2 + t ^ 3 * p3.
(** [v] is on the Bezier segment between [s] and [e] at a parameter whose time is within 1/1000 of [x], or which
    is within 1/1000 of parameters whose times enclose [x]. *)
Definition on_bezier (s e : key) (x v : Q) : Prop :=
  let time t := Bernstein (input s) (fst (outTangent s)) (fst (inTangent e)) (input e) t in
  exists t, 0 < t < 1 /\
    v == Bernstein (output s) (snd (outTangent s)) (snd (inTangent e)) (output e) t /\
    (Qabs (time t - x) <= 1 # 1000 \/
     exists lo hi, 0 <= lo <= t /\ t <= hi <= 1 /\ hi - lo <= 1 # 1000 /\ time lo <= x <= time hi).
(** What a segment between two neighbouring keys has to give at time [x].  Nothing is said about segments in
    which a TCB key takes part with a BEZIER or TCB key. *)
Definition on_segment (s e : key) (x v : Q) : Prop :=
  match interp s, interp e with
  | LINEAR, _ | BEZIER, LINEAR | TCB, LINEAR => on_line s e x v
  | BEZIER, BEZIER => on_bezier s e x v
  | STEP, _ | UNKNOWN, _ | BEZIER, STEP | BEZIER, UNKNOWN | TCB, STEP | TCB, UNKNOWN => v == output s
  | _, _ => True
  end.
(** The value of the keys at a time inside their range. *)
Definition value_at (ks : list key) (x v : Q) : Prop :=
  (exists k0 rest, ks = k0 :: rest /\ x == input k0 /\ v == output k0) \/
  (exists l s e r, ks = l ++ s :: e :: r /\ input s < x <= input e /\ on_segment s e x v).

(** [y] is [x] moved by [n] whole lengths of the range between the keys [a] and [z]. *)
Definition moved (a z : key) (x : Q) (n : Z) (y : Q) : Prop := y == x + inject_Z n * (input z - input a).
(** The value an infinity mode gives for a time that [n] whole lengths bring to the time [y] in the range. *)
Definition repeated (ks : list key) (mode : infinity) (a z : key) (n : Z) (y v : Q) : Prop :=
  match mode with
  | CYCLE => value_at ks y v
  | CYCLE_RELATIVE => value_at ks y (v + inject_Z n * (output z - output a))
  | OSCILLATE => exists y', y' == (if Z.even n then y else input a + input z - y) /\ value_at ks y' v
  | _ => False
  end.
(** Before the first key [a] (next key [b], last key [z]). *)
Definition before_first (ks : list key) (mode : infinity) (a b z : key) (x v : Q) : Prop :=
  match mode with
  | CONSTANT | UNKNOWN_INFINITY => v == output a
  | LINEAR_INFINITY => on_line a b x v
  | _ => exists n y, (0 < n)%Z /\ moved a z x n y /\ input a <= y < input z /\ repeated ks mode a z n y v
  end.
(** From the last key [z] on (key before it [w], first key [a]). *)
Definition after_last (ks : list key) (mode : infinity) (a w z : key) (x v : Q) : Prop :=
  match mode with
  | CONSTANT | UNKNOWN_INFINITY => v == output z
  | LINEAR_INFINITY => on_line w z x v
  | _ => exists n y, (n <= 0)%Z /\ moved a z x n y /\ input a < y <= input z /\ repeated ks mode a z n y v
  end.
