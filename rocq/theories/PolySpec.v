(** What a polygon set means: a list of faces, each with its number of corners and the numbers of corners of its holes. *)
From Coq Require Import List Arith Bool.
From Verif Require Import PolyModel.
Import ListNotations.

Definition face := (nat * list nat)%type.
Definition corners (f : face) : list nat := fst f :: snd f.
(** The list of corner counts: each face followed by its holes. *)
Definition entries (F : list face) : list nat := flat_map corners F.
(** The positions of the holes in that list, which starts at position k. *)
Fixpoint hole_positions (k : nat) (F : list face) : list nat :=
  match F with [] => [] | f :: r => seq (k + 1) (length (snd f)) ++ hole_positions (k + 1 + length (snd f)) r end.
Definition represents (p : polys) (F : list face) : Prop := counts p = entries F /\ holes p = hole_positions 0 F.
Definition size (F : list face) : nat := sum (entries F).
(** Entry number x of the list of counts turned from a face into a hole of the face before (with its own holes). *)
Fixpoint join (F : list face) (x : nat) : list face :=
  match F with
  | f :: r =>
      match r with
      | g :: t => if Nat.eqb x (length (corners f)) then (fst f, snd f ++ corners g) :: t else f :: join r (x - length (corners f))
      | [] => F
      end
  | [] => F
  end.
(** The indices are in step with the faces: each input sees as many indices as there are corners. *)
Definition in_step (p : polys) (F : list face) : Prop :=
  forall i, i < length (inputs p) -> length (get_indices (inputs p) i) = size F.
