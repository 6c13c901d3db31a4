(** Property C45: 8-bit colours survive the conversion to floats and back. *)
From Coq Require Import ZArith List SpecFloat Lia.
From Verif Require Import ColorModel.
Import ListNotations.
Local Open Scope Z_scope.

Definition byte (v : Z) : Prop := 0 <= v < 256.

Lemma component_round_trip : forall v, byte v -> scaled (component v) = Some v.
Proof.
  intros v Hv.
  assert (E : forallb (fun v => match scaled (component v) with Some x => Z.eqb x v | None => false end)
     (map Z.of_nat (seq 0 256)) = true) by (vm_compute; reflexivity).
  rewrite forallb_forall in E. specialize (E v).
  assert (Hin : In v (map Z.of_nat (seq 0 256))).
  { apply in_map_iff. exists (Z.to_nat v). unfold byte in Hv. split; [lia|]. apply in_seq. lia. }
  specialize (E Hin). destruct (scaled (component v)); [|discriminate]. apply Z.eqb_eq in E. congruence.
Qed.

(** All four components; with fewer components the missing ones take their defaults. *)
Theorem C45_color_round_trip : forall c, byte (r c) -> byte (g c) -> byte (b c) -> byte (a c) ->
  FromFloats (ToFloats c 4) 4 = Some c /\
  FromFloats (ToFloats c 3) 3 = Some {| r := r c; g := g c; b := b c; a := 255 |} /\
  FromFloats (ToFloats c 2) 2 = Some {| r := r c; g := g c; b := 0; a := 255 |} /\
  FromFloats (ToFloats c 1) 1 = Some {| r := r c; g := 0; b := 0; a := 255 |}.
Proof.
  intros [r g b a] Hr Hg Hb Ha. cbn [ColorModel.r ColorModel.g ColorModel.b ColorModel.a] in *.
  unfold ToFloats, FromFloats. cbn [ColorModel.r ColorModel.g ColorModel.b ColorModel.a].
  rewrite !component_round_trip by assumption. repeat split; reflexivity.
Qed.
Print Assumptions C45_color_round_trip.
Example C45_demo :
  let c := {| r := 1; g := 127; b := 254; a := 255 |} in
  component 1 = S754_finite false 8421505 (-31) /\ FromFloats (ToFloats c 4) 4 = Some c.
Proof. split; vm_compute; reflexivity. Qed.
