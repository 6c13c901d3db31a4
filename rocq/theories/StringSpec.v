(** Specification vocabulary for C60, independent of the model: texts and positions in them. *)
From Coq Require Import List ZArith.
Import ListNotations.
Local Open Scope Z_scope.

(** A text: characters (values of type char) other than the terminator. *)
Definition text (s : list Z) : Prop := Forall (fun c => c <> 0 /\ -128 <= c <= 127) s.
(** [t] occurs in [s] at position [i]. *)
Definition occurs_at (t s : list Z) (i : nat) : Prop := exists u v, s = u ++ t ++ v /\ length u = i.
(** [r] is the first / the last position from [from] on satisfying [P], or [None] if there is none. *)
Definition is_first (P : nat -> Prop) (from : nat) (r : option nat) : Prop :=
  match r with
  | Some i => (from <= i)%nat /\ P i /\ forall j, (from <= j < i)%nat -> ~ P j
  | None => forall j, (from <= j)%nat -> ~ P j
  end.
Definition is_last (P : nat -> Prop) (from : nat) (r : option nat) : Prop :=
  match r with
  | Some i => (from <= i)%nat /\ P i /\ forall j, (i < j)%nat -> ~ P j
  | None => forall j, (from <= j)%nat -> ~ P j
  end.
(** Lexicographic order. *)
Inductive lex : list Z -> list Z -> Prop :=
| lex_end : forall c t, lex [] (c :: t)
| lex_head : forall c d s t, c < d -> lex (c :: s) (d :: t)
| lex_tail : forall c s t, lex s t -> lex (c :: s) (c :: t).
