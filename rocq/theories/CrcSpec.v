(** The standard CRC-32 (ITU-T V.42, zlib) computed bit by bit. *)
From Coq Require Import List NArith.
Import ListNotations.
Local Open Scope N_scope.

(** One step of the reflected shift register with polynomial 0xEDB88320. *)
Definition shift_bit (c : N) : N :=
  if N.odd c then N.lxor (c / 2) 3988292384 else c / 2.
(** Feed the eight bits of a byte, least significant first. *)
Definition feed (c b : N) : N :=
  shift_bit (shift_bit (shift_bit (shift_bit (shift_bit (shift_bit (shift_bit (shift_bit (N.lxor c b)))))))).
(** Initial and final complement. *)
Definition crc32 (s : list N) : N := N.lxor (fold_left feed s (2 ^ 32 - 1)) (2 ^ 32 - 1).
