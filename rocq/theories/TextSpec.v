(** Specification vocabulary for the text/number properties (C11, C12, C13, C21, C44, C53, C57, C58):
    nothing here refers to the model.  A text is a list of byte values. *)
From Coq Require Import List ZArith.
Import ListNotations.
Local Open Scope Z_scope.

(** Space, tabulation, line feed. *)
Definition blank (c : Z) : Prop := c = 32 \/ c = 9 \/ c = 10.
(** ... or carriage return. *)
Definition blank_or_cr (c : Z) : Prop := blank c \/ c = 13.

(** [rest] is the end of the text or starts with a character that is not [P]. *)
Definition begins_not (P : Z -> Prop) (rest : list Z) : Prop :=
  match rest with [] => True | c :: _ => ~ P c end.

(** [t] is the decimal notation of [n]: no sign, no leading zero. *)
Inductive decimal : Z -> list Z -> Prop :=
| D_digit : forall d, 0 <= d < 10 -> decimal d [48 + d]
| D_more : forall n t d, decimal n t -> 0 < n -> 0 <= d < 10 -> decimal (10 * n + d) (t ++ [48 + d]).

(** [t] is the decimal notation of the integer [n]. *)
Definition signed_decimal (n : Z) (t : list Z) : Prop :=
  (0 <= n /\ decimal n t) \/ (n < 0 /\ exists t', t = 45 :: t' /\ decimal (- n) t').

(** [c] is a hexadecimal digit of value [d]. *)
Definition hex_digit (d c : Z) : Prop :=
  (0 <= d <= 9 /\ c = 48 + d) \/ (10 <= d <= 15 /\ (c = 65 + (d - 10) \/ c = 97 + (d - 10))).
(** Value of a sequence of hexadecimal digits, most significant first. *)
Definition hex_value (ds : list Z) : Z := fold_left (fun v d => 16 * v + d) ds 0.

(** The words of a text: maximal runs of non-blank characters, in order. *)
Inductive words_of : list Z -> list (list Z) -> Prop :=
| W_nil : forall s, Forall blank_or_cr s -> words_of s []
| W_cons : forall lead w rest ws, Forall blank_or_cr lead -> w <> [] ->
    Forall (fun c => ~ blank_or_cr c) w -> begins_not (fun c => ~ blank_or_cr c) rest ->
    words_of rest ws -> words_of (lead ++ w ++ rest) (w :: ws).
