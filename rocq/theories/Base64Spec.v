(** RFC 4648 base64, stated with arithmetic only. *)
From Coq Require Import List ZArith.
Import ListNotations.
Local Open Scope Z_scope.

(** The character for a 6-bit value: A-Z, a-z, 0-9, '+', '/'. *)
Definition sym (v c : Z) : Prop :=
  (0 <= v < 26 /\ c = 65 + v) \/ (26 <= v < 52 /\ c = 97 + (v - 26)) \/
  (52 <= v < 62 /\ c = 48 + (v - 52)) \/ (v = 62 /\ c = 43) \/ (v = 63 /\ c = 47).

Definition is_byte (b : Z) : Prop := 0 <= b < 256.

(** [base64 bytes text]: groups of three bytes are four symbols; a last group of two or one bytes is
    completed with zero bits and padded with '='. *)
Inductive base64 : list Z -> list Z -> Prop :=
| B64_nil : base64 [] []
| B64_one : forall b v0 v1 c0 c1, is_byte b ->
    b * 16 = v0 * 64 + v1 -> sym v0 c0 -> sym v1 c1 -> base64 [b] [c0; c1; 61; 61]
| B64_two : forall a b v0 v1 v2 c0 c1 c2, is_byte a -> is_byte b ->
    (a * 256 + b) * 4 = (v0 * 64 + v1) * 64 + v2 -> sym v0 c0 -> sym v1 c1 -> sym v2 c2 ->
    base64 [a; b] [c0; c1; c2; 61]
| B64_three : forall a b c v0 v1 v2 v3 c0 c1 c2 c3 bytes text, is_byte a -> is_byte b -> is_byte c ->
    (a * 256 + b) * 256 + c = ((v0 * 64 + v1) * 64 + v2) * 64 + v3 ->
    sym v0 c0 -> sym v1 c1 -> sym v2 c2 -> sym v3 c3 -> base64 bytes text ->
    base64 (a :: b :: c :: bytes) (c0 :: c1 :: c2 :: c3 :: text).

(** The characters that have a meaning in a base64 text. *)
Definition base64_char (c : Z) : Prop := c = 61 \/ exists v, sym v c.

(** [spread t' t]: [t'] is [t] with other characters inserted anywhere. *)
Inductive spread : list Z -> list Z -> Prop :=
| Sp_nil : spread [] []
| Sp_keep : forall c t' t, base64_char c -> spread t' t -> spread (c :: t') (c :: t)
| Sp_drop : forall c t' t, ~ base64_char c -> spread t' t -> spread (c :: t') t.
