(** Specification vocabulary for C78: decimal texts of numbers and closeness; nothing here refers to the
    model.  A text is a list of byte values. *)
From Coq Require Import List ZArith QArith Qabs.
From Verif Require Import TextSpec.
Import ListNotations.
Local Open Scope Z_scope.

Definition is_digit (c : Z) : Prop := 48 <= c <= 57.
(** The number written by a sequence of digits, most significant first (leading zeros allowed). *)
Definition number (ds : list Z) : Z := fold_left (fun v c => v * 10 + (c - 48)) ds 0.

(** A mantissa: "123", "12.34", ".5", "12." ... *)
Inductive mantissa : list Z -> Q -> Prop :=
| M_integer : forall ds, Forall is_digit ds -> ds <> [] -> mantissa ds (inject_Z (number ds))
| M_decimal : forall ds fs, Forall is_digit ds -> Forall is_digit fs ->
    mantissa (ds ++ [46] ++ fs) (inject_Z (number (ds ++ fs)) / inject_Z (10 ^ Z.of_nat (length fs))).
(** An exponent: nothing, or "e5", "E5", "e-05" ... *)
Inductive exponent : list Z -> Z -> Prop :=
| X_none : exponent [] 0
| X_positive : forall c xs, c = 101 \/ c = 69 -> Forall is_digit xs -> xs <> [] -> number xs <= 2147483599 ->
    exponent (c :: xs) (number xs)
| X_negative : forall c xs, c = 101 \/ c = 69 -> Forall is_digit xs -> xs <> [] -> number xs <= 2147483599 ->
    exponent (c :: 45 :: xs) (- number xs).
(** [t] is a decimal notation of [q]. *)
Inductive float_text : list Z -> Q -> Prop :=
| F_positive : forall tm m tx x, mantissa tm m -> exponent tx x -> float_text (tm ++ tx) (m * Qpower 10 x)
| F_negative : forall tm m tx x, mantissa tm m -> exponent tx x -> float_text (45 :: tm ++ tx) (- m * Qpower 10 x).

(** [sep] separates a number from what follows: blanks, at least one of them not a carriage return, or
    the end of the text. *)
Definition separator (sep rest : list Z) : Prop :=
  Forall blank_or_cr sep /\ (rest = [] \/ Exists blank sep) /\ begins_not blank_or_cr rest.

(** [q] has at most six significant decimal digits. *)
Definition six_digits (q : Q) : Prop :=
  exists m e, 100000 <= m < 1000000 /\ (Qabs q == inject_Z m * Qpower 10 (e - 5))%Q.
(** [r] is [q] to six digits: at most half a unit of the sixth digit away, and [q] itself if it has no more
    digits. *)
Definition close6 (q r : Q) : Prop :=
  (Qabs (r - q) <= Qabs q / 200000)%Q /\ (six_digits q -> r == q)%Q.
