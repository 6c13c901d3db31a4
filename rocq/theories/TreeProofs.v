(** Lemmas about the [fm::tree] model. *)
From Coq Require Import ZArith List Bool Lia.
From Verif Require Import TreeModel TreeSpec.
Import ListNotations.
Open Scope Z_scope.

Section Shape.
Context {K V : Type}.
Notation tree := (tree K V).
Notation path := (path K V).

Fixpoint elements (t : tree) : list (K * V) :=
  match t with
  | Leaf => []
  | Node _ l k v _ r => elements l ++ (k, v) :: elements r
  end.

Fixpoint lctx (p : path) : list (K * V) :=
  match p with
  | [] => []
  | InLeft _ _ _ _ _ :: p' => lctx p'
  | InRight _ l k v _ :: p' => lctx p' ++ elements l ++ [(k, v)]
  end.

Fixpoint rctx (p : path) : list (K * V) :=
  match p with
  | [] => []
  | InLeft _ k v _ r :: p' => (k, v) :: elements r ++ rctx p'
  | InRight _ _ _ _ _ :: p' => rctx p'
  end.

Lemma elements_plug : forall (p : path) (t : tree), elements (plug t p) = lctx p ++ elements t ++ rctx p.
Proof.
  induction p as [|[i k v w r|i l k v w] p IH]; intros t; cbn [plug lctx rctx up].
  - now rewrite app_nil_r.
  - rewrite IH. cbn [elements]. rewrite <- !app_assoc. reflexivity.
  - rewrite IH. cbn [elements]. rewrite <- !app_assoc. cbn. reflexivity.
Qed.

Lemma height_nonneg : forall t : tree, 0 <= height t.
Proof. induction t; cbn [height]; lia. Qed.

(** [path_ok p h]: plugging an AVL tree of height [h] at the end of [p] gives an AVL tree. *)
Fixpoint path_ok (p : path) (h : Z) : Prop :=
  match p with
  | [] => True
  | InLeft _ _ _ w r :: p' =>
      avl r /\ w = height r - h /\ -1 <= w <= 1 /\ path_ok p' (1 + Z.max h (height r))
  | InRight _ l _ _ w :: p' =>
      avl l /\ w = h - height l /\ -1 <= w <= 1 /\ path_ok p' (1 + Z.max (height l) h)
  end.

Lemma plug_avl : forall (p : path) (t : tree), avl t -> path_ok p (height t) -> avl (plug t p).
Proof.
  induction p as [|[i k v w r|i l k v w] p IH]; intros t Ht Hp; cbn [plug up path_ok] in *; auto.
  - apply IH; cbn [avl height]; tauto.
  - apply IH; cbn [avl height]; tauto.
Qed.

Lemma avl_path_ok : forall (p : path) (t : tree), avl (plug t p) -> avl t /\ path_ok p (height t).
Proof.
  induction p as [|[i k v w r|i l k v w] p IH]; intros t H; cbn [plug up path_ok] in *; auto.
  - apply IH in H. cbn [avl height] in H. tauto.
  - apply IH in H. cbn [avl height] in H. tauto.
Qed.

(** A node whose children are AVL and whose weight is exact but may be out of range. *)
Definition pre (t : tree) : Prop :=
  match t with
  | Leaf => False
  | Node _ l _ _ w r => avl l /\ avl r /\ w = height r - height l /\ -2 <= w <= 2
  end.

Definition wt (t : tree) : Z := match t with Leaf => 0 | Node _ _ _ _ w _ => w end.
Definition lt_ (t : tree) : tree := match t with Leaf => Leaf | Node _ l _ _ _ _ => l end.
Definition rt_ (t : tree) : tree := match t with Leaf => Leaf | Node _ _ _ _ _ r => r end.

Ltac noif a := lazymatch a with context [if _ then _ else _] => fail | _ => idtac end.
Ltac zb :=
  repeat match goal with
  | |- context [Z.gtb ?a ?b] => noif a; noif b; destruct (Z.gtb_spec a b)
  | |- context [Z.ltb ?a ?b] => noif a; noif b; destruct (Z.ltb_spec a b)
  | |- context [Z.eqb ?a ?b] => noif a; noif b; destruct (Z.eqb_spec a b)
  end.

Lemma fix_right_spec : forall t : tree, pre t -> wt t = 2 ->
  exists t', fix_right_heavy t = Some t' /\ avl t' /\ elements t' = elements t /\ t' <> Leaf /\
    ((wt (rt_ t) = 0 -> wt t' <> 0 /\ height t' = height t) /\
     (wt (rt_ t) <> 0 -> wt t' = 0 /\ height t' = height t - 1)).
Proof.
  intros [|i l k v w r] Hpre Hw; cbn [pre wt] in *; [tauto|].
  destruct Hpre as (Hl & Hr & Hwe & Hb).
  pose proof (height_nonneg l).
  destruct r as [|j rl k2 v2 w2 rr]; [cbn [height] in *; lia|].
  cbn [avl height] in *. destruct Hr as (Hrl & Hrr & Hw2 & Hb2).
  cbn [fix_right_heavy rt_ wt].
  pose proof (height_nonneg rl). pose proof (height_nonneg rr).
  destruct (Z.ltb_spec w2 0).
  - destruct rl as [|m rll k3 v3 w3 rlr]; [cbn [height] in *; lia|].
    cbn [avl height] in *. destruct Hrl as (Hrll & Hrlr & Hw3 & Hb3).
    pose proof (height_nonneg rll). pose proof (height_nonneg rlr).
    cbn [rotate_right rotate_left].
    eexists; split; [reflexivity|]. cbn [avl elements wt height].
    split; [|split; [|split; [discriminate|]]].
    + repeat split; auto; zb; lia.
    + repeat (rewrite <- ?app_assoc; cbn [app]); reflexivity.
    + zb; lia.
  - cbn [rotate_left]. eexists; split; [reflexivity|]. cbn [avl elements wt height].
    split; [|split; [|split; [discriminate|]]].
    + repeat split; auto; zb; lia.
    + repeat (rewrite <- ?app_assoc; cbn [app]); reflexivity.
    + zb; lia.
Qed.

Lemma fix_left_spec : forall t : tree, pre t -> wt t = -2 ->
  exists t', fix_left_heavy t = Some t' /\ avl t' /\ elements t' = elements t /\ t' <> Leaf /\
    ((wt (lt_ t) = 0 -> wt t' <> 0 /\ height t' = height t) /\
     (wt (lt_ t) <> 0 -> wt t' = 0 /\ height t' = height t - 1)).
Proof.
  intros [|i l k v w r] Hpre Hw; cbn [pre wt] in *; [tauto|].
  destruct Hpre as (Hl & Hr & Hwe & Hb).
  pose proof (height_nonneg r).
  destruct l as [|j ll k2 v2 w2 lr]; [cbn [height] in *; lia|].
  cbn [avl height] in *. destruct Hl as (Hll & Hlr & Hw2 & Hb2).
  cbn [fix_left_heavy lt_ wt].
  pose proof (height_nonneg ll). pose proof (height_nonneg lr).
  destruct (Z.gtb_spec w2 0).
  - destruct lr as [|m lrl k3 v3 w3 lrr]; [cbn [height] in *; lia|].
    cbn [avl height] in *. destruct Hlr as (Hlrl & Hlrr & Hw3 & Hb3).
    pose proof (height_nonneg lrl). pose proof (height_nonneg lrr).
    cbn [rotate_right rotate_left].
    eexists; split; [reflexivity|]. cbn [avl elements wt height].
    split; [|split; [|split; [discriminate|]]].
    + repeat split; auto; zb; lia.
    + repeat (rewrite <- ?app_assoc; cbn [app]); reflexivity.
    + zb; lia.
  - cbn [rotate_right]. eexists; split; [reflexivity|]. cbn [avl elements wt height].
    split; [|split; [|split; [discriminate|]]].
    + repeat split; auto; zb; lia.
    + repeat (rewrite <- ?app_assoc; cbn [app]); reflexivity.
    + zb; lia.
Qed.

Lemma insert_up_spec : forall (p : path) (t : tree) h,
  pre t -> path_ok p h ->
  (wt t = 0 -> height t = h) -> (wt t <> 0 -> height t = h + 1) ->
  (wt t = 2 -> wt (rt_ t) <> 0) -> (wt t = -2 -> wt (lt_ t) <> 0) ->
  exists t', insert_up t p = Some t' /\ avl t' /\ elements t' = lctx p ++ elements t ++ rctx p.
Proof.
  induction p as [|f p IH]; intros t h Hpre Hp H0 H1 H2 H3.
  - destruct t as [|i l k v w r]; [destruct Hpre|].
    cbn [insert_up lctx rctx app]. rewrite app_nil_r.
    destruct (Z.gtb_spec w 1).
    { destruct (fix_right_spec (Node i l k v w r)) as (t' & E & A & El & _); auto.
      cbn [pre wt] in *; lia.
      rewrite E. cbn. eauto. }
    destruct (Z.ltb_spec w (-1)).
    { destruct (fix_left_spec (Node i l k v w r)) as (t' & E & A & El & _); auto.
      cbn [pre wt] in *; lia.
      rewrite E. cbn. eauto. }
    destruct (Z.eqb_spec w 0); eexists; (split; [reflexivity|]); cbn [plug]; split; auto;
      cbn [pre avl] in *; intuition lia.
  - destruct t as [|i l k v w r]; [destruct Hpre|].
    cbn [insert_up].
    destruct (Z.gtb_spec w 1).
    { destruct (fix_right_spec (Node i l k v w r)) as (t' & E & A & El & _ & _ & Hh); auto.
      cbn [pre wt] in *; lia.
      assert (w = 2) by (cbn [pre] in Hpre; lia).
      destruct Hh as [_ Hh]; [apply H2; auto|].
      rewrite E. cbn [option_map]. eexists; split; [reflexivity|]. split.
      - apply plug_avl; auto. rewrite Hh. rewrite H1 by (cbn [wt]; lia).
        replace (h + 1 - 1) with h by lia. auto.
      - rewrite elements_plug, El. reflexivity. }
    destruct (Z.ltb_spec w (-1)).
    { destruct (fix_left_spec (Node i l k v w r)) as (t' & E & A & El & _ & _ & Hh); auto.
      cbn [pre wt] in *; lia.
      assert (w = -2) by (cbn [pre] in Hpre; lia).
      destruct Hh as [_ Hh]; [apply H3; auto|].
      rewrite E. cbn [option_map]. eexists; split; [reflexivity|]. split.
      - apply plug_avl; auto. rewrite Hh. rewrite H1 by (cbn [wt]; lia).
        replace (h + 1 - 1) with h by lia. auto.
      - rewrite elements_plug, El. reflexivity. }
    assert (Hav : avl (Node i l k v w r)) by (cbn [pre avl] in *; intuition lia).
    destruct (Z.eqb_spec w 0).
    { eexists; split; [reflexivity|]. split.
      - apply plug_avl; auto. rewrite H0; auto.
      - rewrite elements_plug. reflexivity. }
    assert (Hh : height (Node i l k v w r) = h + 1) by (apply H1; cbn [wt]; auto).
    destruct f as [i2 k2 v2 w2 r2|i2 l2 k2 v2 w2].
    + cbn [path_ok] in Hp. destruct Hp as (Hr2 & Hw2 & Hb2 & Hp).
      destruct (IH (Node i2 (Node i l k v w r) k2 v2 (w2 - 1) r2) (1 + Z.max h (height r2)))
        as (t' & E & A & El); auto.
      * cbn [pre]. rewrite Hh. split; [exact Hav|split; [exact Hr2|split; lia]].
      * cbn [wt]. change (height (Node i2 (Node i l k v w r) k2 v2 (w2 - 1) r2))
          with (1 + Z.max (height (Node i l k v w r)) (height r2)). rewrite Hh. lia.
      * cbn [wt]. change (height (Node i2 (Node i l k v w r) k2 v2 (w2 - 1) r2))
          with (1 + Z.max (height (Node i l k v w r)) (height r2)). rewrite Hh. lia.
      * cbn [wt]. lia.
      * exists t'. split; [exact E|]. split; auto. rewrite El. cbn [elements lctx rctx].
        repeat (rewrite <- ?app_assoc; cbn [app]). reflexivity.
    + cbn [path_ok] in Hp. destruct Hp as (Hl2 & Hw2 & Hb2 & Hp).
      destruct (IH (Node i2 l2 k2 v2 (w2 + 1) (Node i l k v w r)) (1 + Z.max (height l2) h))
        as (t' & E & A & El); auto.
      * cbn [pre]. rewrite Hh. split; [exact Hl2|split; [exact Hav|split; lia]].
      * cbn [wt]. change (height (Node i2 l2 k2 v2 (w2 + 1) (Node i l k v w r)))
          with (1 + Z.max (height l2) (height (Node i l k v w r))). rewrite Hh. lia.
      * cbn [wt]. change (height (Node i2 l2 k2 v2 (w2 + 1) (Node i l k v w r)))
          with (1 + Z.max (height l2) (height (Node i l k v w r))). rewrite Hh. lia.
      * cbn [wt]. lia.
      * exists t'. split; [exact E|]. split; auto. rewrite El. cbn [elements lctx rctx].
        repeat (rewrite <- ?app_assoc; cbn [app]). reflexivity.
Qed.

Lemma erase_up_spec : forall (p : path) (t : tree) h,
  pre t -> path_ok p h ->
  (wt t = 0 -> height t = h - 1) -> (wt t <> 0 -> height t = h) ->
  exists t', erase_up t p = Some t' /\ avl t' /\ elements t' = lctx p ++ elements t ++ rctx p.
Proof.
  induction p as [|f p IH]; intros t h Hpre Hp H0 H1.
  - destruct t as [|i l k v w r]; [destruct Hpre|].
    cbn [erase_up lctx rctx app]. rewrite app_nil_r.
    assert (Hbal : exists t', (if w >? 1 then fix_right_heavy (Node i l k v w r)
                 else if w <? -1 then fix_left_heavy (Node i l k v w r)
                 else Some (Node i l k v w r)) = Some t' /\ avl t' /\
                 elements t' = elements (Node i l k v w r) /\ t' <> Leaf).
    { destruct (Z.gtb_spec w 1).
      { destruct (fix_right_spec (Node i l k v w r)) as (t' & E & A & El & N & _); auto.
        cbn [pre wt] in *; lia. eauto. }
      destruct (Z.ltb_spec w (-1)).
      { destruct (fix_left_spec (Node i l k v w r)) as (t' & E & A & El & N & _); auto.
        cbn [pre wt] in *; lia. eauto. }
      eexists; split; [reflexivity|]. split; [|split; [auto|discriminate]].
      cbn [pre avl] in *; intuition lia. }
    destruct Hbal as (t' & E & A & El & N). rewrite E.
    destruct t' as [|i' l' k' v' w' r']; [congruence|].
    destruct (Z.eqb_spec w' 0); cbn [negb plug]; eauto.
  - destruct t as [|i l k v w r]; [destruct Hpre|].
    cbn [erase_up].
    assert (Hbal : exists t', (if w >? 1 then fix_right_heavy (Node i l k v w r)
                 else if w <? -1 then fix_left_heavy (Node i l k v w r)
                 else Some (Node i l k v w r)) = Some t' /\ avl t' /\
                 elements t' = elements (Node i l k v w r) /\ t' <> Leaf /\
                 (wt t' = 0 -> height t' = h - 1) /\ (wt t' <> 0 -> height t' = h)).
    { destruct (Z.gtb_spec w 1).
      { assert (w = 2) by (cbn [pre] in Hpre; lia).
        destruct (fix_right_spec (Node i l k v w r)) as (t' & E & A & El & N & Ha & Hb); auto.
        exists t'. do 4 (split; auto).
        rewrite H1 in Ha, Hb by (cbn [wt]; lia).
        destruct (Z.eq_dec (wt (rt_ (Node i l k v w r))) 0) as [e|e];
          [specialize (Ha e)|specialize (Hb e)]; intuition lia. }
      destruct (Z.ltb_spec w (-1)).
      { assert (w = -2) by (cbn [pre] in Hpre; lia).
        destruct (fix_left_spec (Node i l k v w r)) as (t' & E & A & El & N & Ha & Hb); auto.
        exists t'. do 4 (split; auto).
        rewrite H1 in Ha, Hb by (cbn [wt]; lia).
        destruct (Z.eq_dec (wt (lt_ (Node i l k v w r))) 0) as [e|e];
          [specialize (Ha e)|specialize (Hb e)]; intuition lia. }
      eexists; split; [reflexivity|]. split; [|split; [auto|split; [discriminate|auto]]].
      cbn [pre avl] in *; intuition lia. }
    destruct Hbal as (t' & E & A & El & N & Hz & Hnz). rewrite E. rewrite <- El. clear E.
    clear Hpre H0 H1 El.
    destruct t' as [|i' l' k' v' w' r']; [congruence|].
    cbn [wt] in Hz, Hnz.
    destruct (Z.eqb_spec w' 0); cbn [negb].
    + assert (Hh : height (Node i' l' k' v' w' r') = h - 1) by auto.
      destruct f as [i2 k2 v2 w2 r2|i2 l2 k2 v2 w2].
      * cbn [path_ok] in Hp. destruct Hp as (Hr2 & Hw2 & Hb2 & Hp).
        destruct (IH (Node i2 (Node i' l' k' v' w' r') k2 v2 (w2 + 1) r2) (1 + Z.max h (height r2)))
          as (t2 & E & A2 & El); auto.
        -- cbn [pre]. rewrite Hh. split; [exact A|split; [exact Hr2|split; lia]].
        -- cbn [wt]. change (height (Node i2 (Node i' l' k' v' w' r') k2 v2 (w2 + 1) r2))
             with (1 + Z.max (height (Node i' l' k' v' w' r')) (height r2)). rewrite Hh. lia.
        -- cbn [wt]. change (height (Node i2 (Node i' l' k' v' w' r') k2 v2 (w2 + 1) r2))
             with (1 + Z.max (height (Node i' l' k' v' w' r')) (height r2)). rewrite Hh. lia.
        -- exists t2. split; [exact E|]. split; auto. rewrite El. cbn [elements lctx rctx].
           repeat (rewrite <- ?app_assoc; cbn [app]). reflexivity.
      * cbn [path_ok] in Hp. destruct Hp as (Hl2 & Hw2 & Hb2 & Hp).
        destruct (IH (Node i2 l2 k2 v2 (w2 - 1) (Node i' l' k' v' w' r')) (1 + Z.max (height l2) h))
          as (t2 & E & A2 & El); auto.
        -- cbn [pre]. rewrite Hh. split; [exact Hl2|split; [exact A|split; lia]].
        -- cbn [wt]. change (height (Node i2 l2 k2 v2 (w2 - 1) (Node i' l' k' v' w' r')))
             with (1 + Z.max (height l2) (height (Node i' l' k' v' w' r'))). rewrite Hh. lia.
        -- cbn [wt]. change (height (Node i2 l2 k2 v2 (w2 - 1) (Node i' l' k' v' w' r')))
             with (1 + Z.max (height l2) (height (Node i' l' k' v' w' r'))). rewrite Hh. lia.
        -- exists t2. split; [exact E|]. split; auto. rewrite El. cbn [elements lctx rctx].
           repeat (rewrite <- ?app_assoc; cbn [app]). reflexivity.
    + eexists; split; [reflexivity|]. split.
      * apply plug_avl; auto. rewrite Hnz; auto.
      * rewrite elements_plug. reflexivity.
Qed.

Lemma unlink_spec : forall (p : path) h,
  path_ok p h -> h = 1 ->
  exists t', unlink p = Some t' /\ avl t' /\ elements t' = lctx p ++ rctx p.
Proof.
  intros [|[i k v w r|i l k v w] p] h Hp Hh; cbn [unlink path_ok lctx rctx] in *.
  - exists Leaf; cbn; auto.
  - destruct Hp as (Hr & Hw & Hb & Hp). pose proof (height_nonneg r).
    destruct (erase_up_spec p (Node i Leaf k v (w + 1) r) (1 + Z.max h (height r)))
      as (t' & E & A & El); auto.
    + cbn [pre avl height]. repeat split; auto; lia.
    + cbn [wt height]. lia.
    + cbn [wt height]. lia.
    + exists t'. split; [exact E|split; auto].
  - destruct Hp as (Hl & Hw & Hb & Hp). pose proof (height_nonneg l).
    destruct (erase_up_spec p (Node i l k v (w - 1) Leaf) (1 + Z.max (height l) h))
      as (t' & E & A & El); auto.
    + cbn [pre avl height]. repeat split; auto; lia.
    + cbn [wt height]. lia.
    + cbn [wt height]. lia.
    + exists t'. split; [exact E|split; auto]. rewrite El. cbn [elements].
      repeat (rewrite <- ?app_assoc; cbn [app]). reflexivity.
Qed.

(** go_right / go_left: the zipper moved, the whole tree is unchanged. *)
Lemma plug_go_right : forall (t : tree) (p : path), plug (fst (go_right t p)) (snd (go_right t p)) = plug t p.
Proof.
  induction t as [|i l _ k v w r IHr]; intros p; [reflexivity|].
  cbn [go_right]. destruct r; [reflexivity|]. rewrite IHr. reflexivity.
Qed.

Lemma plug_go_left : forall (t : tree) (p : path), plug (fst (go_left t p)) (snd (go_left t p)) = plug t p.
Proof.
  induction t as [|i l IHl k v w r _]; intros p; [reflexivity|].
  cbn [go_left]. destruct l; [reflexivity|]. rewrite IHl. reflexivity.
Qed.

Lemma go_right_node : forall (t : tree) (p : path), t <> Leaf ->
  exists i l k v w, fst (go_right t p) = Node i l k v w Leaf.
Proof.
  induction t as [|i l _ k v w r IHr]; intros p H; [congruence|].
  cbn [go_right]. destruct r as [|]; [cbn; eauto 6|]. apply IHr. discriminate.
Qed.

Lemma go_left_node : forall (t : tree) (p : path), t <> Leaf ->
  exists i k v w r, fst (go_left t p) = Node i Leaf k v w r.
Proof.
  induction t as [|i l IHl k v w r _]; intros p H; [congruence|].
  cbn [go_left]. destruct l as [|]; [cbn; eauto 6|]. apply IHl. discriminate.
Qed.

Lemma go_right_fst : forall (t : tree) (p q : path), fst (go_right t p) = fst (go_right t q).
Proof.
  induction t as [|i l _ k v w r IHr]; intros p q; [reflexivity|].
  cbn [go_right]. destruct r; [reflexivity|]. apply IHr.
Qed.

Lemma go_left_fst : forall (t : tree) (p q : path), fst (go_left t p) = fst (go_left t q).
Proof.
  induction t as [|i l IHl k v w r _]; intros p q; [reflexivity|].
  cbn [go_left]. destruct l; [reflexivity|]. apply IHl.
Qed.

Lemma go_right_ctx : forall t p,
  rctx (snd (go_right t p)) = rctx p /\
  lctx (snd (go_right t p)) ++ elements (fst (go_right t p)) = lctx p ++ elements t.
Proof.
  induction t as [|i l _ k v w r IHr]; intros p; [cbn; auto|].
  cbn [go_right]. destruct r as [|ri rl rk rv rw rr]; [cbn; auto|].
  destruct (IHr (InRight i l k v w :: p)) as [H1 H2]. cbn [rctx lctx] in H1, H2.
  split; [exact H1|]. rewrite H2. cbn [elements].
  repeat (rewrite <- ?app_assoc; cbn [app]). reflexivity.
Qed.

Lemma go_left_ctx : forall t p,
  lctx (snd (go_left t p)) = lctx p /\
  elements (fst (go_left t p)) ++ rctx (snd (go_left t p)) = elements t ++ rctx p.
Proof.
  induction t as [|i l IHl k v w r _]; intros p; [cbn; auto|].
  cbn [go_left]. destruct l as [|li ll lk lv lw lr]; [cbn; auto|].
  destruct (IHl (InLeft i k v w r :: p)) as [H1 H2]. cbn [rctx lctx] in H1, H2.
  split; [exact H1|]. rewrite H2. cbn [elements].
  repeat (rewrite <- ?app_assoc; cbn [app]). reflexivity.
Qed.

Lemma go_right_path_ok : forall (t : tree) (p : path), avl t -> path_ok p (height t) ->
  avl (fst (go_right t p)) /\ path_ok (snd (go_right t p)) (height (fst (go_right t p))).
Proof.
  induction t as [|i l _ k v w r IHr]; intros p Ht Hp; [cbn; auto|].
  cbn [go_right]. destruct r as [|ri rl rk rv rw rr]; [cbn [fst snd]; auto|].
  apply IHr.
  - cbn [avl] in *; tauto.
  - cbn [path_ok]. cbn [avl] in Ht.
    change (height (Node i l k v w (Node ri rl rk rv rw rr)))
      with (1 + Z.max (height l) (height (Node ri rl rk rv rw rr))) in Hp.
    tauto.
Qed.

Lemma go_left_path_ok : forall (t : tree) (p : path), avl t -> path_ok p (height t) ->
  avl (fst (go_left t p)) /\ path_ok (snd (go_left t p)) (height (fst (go_left t p))).
Proof.
  induction t as [|i l IHl k v w r _]; intros p Ht Hp; [cbn; auto|].
  cbn [go_left]. destruct l as [|li ll lk lv lw lr]; [cbn [fst snd]; auto|].
  apply IHl.
  - cbn [avl] in *; tauto.
  - cbn [path_ok]. cbn [avl] in Ht.
    change (height (Node i (Node li ll lk lv lw lr) k v w r))
      with (1 + Z.max (height (Node li ll lk lv lw lr)) (height r)) in Hp.
    tauto.
Qed.

Lemma height_0 : forall t : tree, height t <= 0 -> t = Leaf.
Proof.
  intros [|i l k v w r] H; [reflexivity|]. cbn [height] in H.
  pose proof (height_nonneg l). pose proof (height_nonneg r). lia.
Qed.

Lemma height_1 : forall t : tree, t <> Leaf -> height t <= 1 -> exists i k v w, t = Node i Leaf k v w Leaf.
Proof.
  intros [|i l k v w r] N H; [congruence|]. cbn [height] in H.
  rewrite (height_0 l), (height_0 r) by lia. eauto.
Qed.

Lemma erase_at_spec : forall i l k v w r p,
  avl (Node i l k v w r) -> path_ok p (height (Node i l k v w r)) ->
  exists t', erase_at (Node i l k v w r) p = Some t' /\ avl t' /\
    elements t' = lctx p ++ elements l ++ elements r ++ rctx p.
Proof.
  intros i l k v w r p Ht Hp.
  assert (Hcase : (l = Leaf /\ r = Leaf) \/ (l <> Leaf /\ w <= 0) \/ (r <> Leaf /\ (w > 0 \/ l = Leaf))).
  { destruct l; destruct r; auto; right.
    - right; split; [discriminate|auto].
    - left; split; [discriminate|]. cbn [avl height] in Ht.
      destruct Ht as (_ & _ & Hw & Hb).
      match goal with |- _ => pose proof (height_nonneg l1); pose proof (height_nonneg l2) end. lia.
    - destruct (Z_le_gt_dec w 0); [left|right]; split; auto; discriminate. }
  destruct Hcase as [[-> ->]|[[Hl Hw]|[Hr Hw]]].
  - cbn [erase_at]. destruct (unlink_spec p _ Hp) as (t' & E & A & El); [reflexivity|].
    exists t'. cbn [elements app]. auto.
  - (* left *)
    assert (E0 : erase_at (Node i l k v w r) p =
      match fst (go_right l []) with
        | Node _ _ rk rv _ _ =>
            match go_right l (InLeft i rk rv w r :: p) with
            | (Node j (Node _ _ ck cv _ _) _ _ jw jr, rp) => unlink (InLeft j ck cv jw jr :: rp)
            | (Node _ Leaf _ _ _ _, rp) => unlink rp
            | (Leaf, _) => None
            end
        | Leaf => None
        end).
    { cbn [erase_at]. destruct l; [congruence|].
      assert (H : (w <=? 0) = true) by lia. rewrite H. cbn [andb].
      destruct r; reflexivity. }
    rewrite E0. clear E0.
    destruct (go_right_node l [] Hl) as (j & jl & rk & rv & jw & Ej). rewrite Ej.
    set (P := InLeft i rk rv w r :: p).
    assert (Ef : fst (go_right l P) = Node j jl rk rv jw Leaf)
      by (rewrite (go_right_fst l P []); exact Ej).
    destruct (go_right_ctx l P) as [Hrc Hlc].
    assert (HP : path_ok P (height l)).
    { unfold P. cbn [path_ok]. cbn [avl] in Ht. cbn [height] in Hp. tauto. }
    assert (Hal : avl l) by (cbn [avl] in Ht; tauto).
    destruct (go_right_path_ok l P Hal HP) as [Haj Hpj].
    destruct (go_right l P) as [tj rp]. cbn [fst snd] in *. subst tj.
    assert (Helem : elements l = (fun x => x) (elements l)) by reflexivity.
    (* elements of l end with (rk,rv) *)
    destruct (go_right_ctx l []) as [_ Hl0]. rewrite Ej in Hl0. cbn [elements lctx app] in Hl0.
    unfold P in Hrc, Hlc. cbn [rctx lctx] in Hrc, Hlc. cbn [elements] in Hlc.
    destruct jl as [|c cl ck cv cw cr].
    + destruct (unlink_spec rp _ Hpj) as (t' & E & A & El); [reflexivity|].
      exists t'. split; [exact E|]. split; [exact A|]. rewrite El, Hrc.
      cbn [elements] in Hlc. cbn [app] in Hlc.
      change ((rk, rv) :: elements r ++ rctx p) with ([(rk,rv)] ++ elements r ++ rctx p).
      rewrite !app_assoc. rewrite Hlc. rewrite <- !app_assoc. reflexivity.
    + cbn [avl] in Haj. destruct Haj as (Hac & _ & Hjw & Hjb).
      assert (Hc1 : height (Node c cl ck cv cw cr) <= 1).
      { change (height (@Leaf K V)) with 0 in Hjw. lia. }
      destruct (height_1 (Node c cl ck cv cw cr)) as (c' & ck' & cv' & cw' & Ec); [discriminate|auto|].
      inversion Ec; subst c' ck' cv' cw' cl cr.
      destruct (unlink_spec (InLeft j ck cv jw Leaf :: rp) 1) as (t' & E & A & El).
      { cbn [path_ok avl height]. cbn [height] in Hjw, Hpj. repeat split; auto; try lia. }
      { reflexivity. }
      exists t'. split; [exact E|]. split; [exact A|]. rewrite El. cbn [lctx rctx elements app].
      rewrite Hrc. cbn [elements app] in Hlc.
      transitivity ((lctx rp ++ [(ck, cv); (rk, rv)]) ++ elements r ++ rctx p).
      { rewrite <- !app_assoc. reflexivity. }
      rewrite Hlc. rewrite <- !app_assoc. reflexivity.
  - (* right *)
    assert (E0 : erase_at (Node i l k v w r) p =
      match fst (go_left r []) with
        | Node _ _ rk rv _ _ =>
            match go_left r (InRight i l rk rv w :: p) with
            | (Node j jl _ _ jw (Node _ _ ck cv _ _), rp) => unlink (InRight j jl ck cv jw :: rp)
            | (Node _ _ _ _ _ Leaf, rp) => unlink rp
            | (Leaf, _) => None
            end
        | Leaf => None
        end).
    { cbn [erase_at]. destruct Hw as [Hw| ->].
      - assert (H : (w <=? 0) = false) by lia. rewrite H. cbn [andb].
        destruct l; [destruct r; [congruence|]|]; reflexivity.
      - destruct r; [congruence|]. rewrite andb_false_r. reflexivity. }
    rewrite E0. clear E0.
    destruct (go_left_node r [] Hr) as (j & rk & rv & jw & jr & Ej). rewrite Ej.
    set (P := InRight i l rk rv w :: p).
    assert (Ef : fst (go_left r P) = Node j Leaf rk rv jw jr)
      by (rewrite (go_left_fst r P []); exact Ej).
    destruct (go_left_ctx r P) as [Hlc Hrc].
    assert (HP : path_ok P (height r)).
    { unfold P. cbn [path_ok]. cbn [avl] in Ht. cbn [height] in Hp. tauto. }
    assert (Har : avl r) by (cbn [avl] in Ht; tauto).
    destruct (go_left_path_ok r P Har HP) as [Haj Hpj].
    destruct (go_left r P) as [tj rp]. cbn [fst snd] in *. subst tj.
    unfold P in Hrc, Hlc. cbn [rctx lctx] in Hrc, Hlc. cbn [elements app] in Hrc.
    destruct jr as [|c cl ck cv cw cr].
    + destruct (unlink_spec rp _ Hpj) as (t' & E & A & El); [reflexivity|].
      exists t'. split; [exact E|]. split; [exact A|]. rewrite El, Hlc.
      cbn [elements app] in Hrc. rewrite <- Hrc. repeat (rewrite <- ?app_assoc; cbn [app]).
      reflexivity.
    + cbn [avl] in Haj. destruct Haj as (_ & Hac & Hjw & Hjb).
      assert (Hc1 : height (Node c cl ck cv cw cr) <= 1).
      { change (height (@Leaf K V)) with 0 in Hjw. lia. }
      destruct (height_1 (Node c cl ck cv cw cr)) as (c' & ck' & cv' & cw' & Ec); [discriminate|auto|].
      inversion Ec; subst c' ck' cv' cw' cl cr.
      destruct (unlink_spec (InRight j Leaf ck cv jw :: rp) 1) as (t' & E & A & El).
      { cbn [path_ok avl height]. cbn [height] in Hjw, Hpj. repeat split; auto; try lia. }
      { reflexivity. }
      exists t'. split; [exact E|]. split; [exact A|]. rewrite El. cbn [lctx rctx elements app].
      rewrite Hlc. cbn [elements app] in Hrc. rewrite <- Hrc.
      repeat (rewrite <- ?app_assoc; cbn [app]). reflexivity.
Qed.

Lemma count_elements : forall t : tree, count t = length (elements t).
Proof.
  induction t; [reflexivity|]. cbn [count elements]. rewrite app_length. cbn [length]. lia.
Qed.

(** Height bound: an AVL tree of height h has at least 2^(h/2)-1 nodes. *)
Lemma avl_count : forall t : tree, avl t -> 2 ^ (height t / 2) <= Z.of_nat (count t) + 1.
Proof.
  assert (H : forall n (t : tree), (count t <= n)%nat -> avl t ->
            2 ^ (height t / 2) <= Z.of_nat (count t) + 1).
  { induction n as [|n IH]; intros t Hn Ht.
    - destruct t; [cbn; lia|cbn in Hn; lia].
    - destruct t as [|i l k v w r]; [cbn; lia|].
      cbn [avl] in Ht. destruct Ht as (Hl & Hr & Hw & Hb).
      cbn [count] in Hn.
      pose proof (IH l ltac:(lia) Hl) as IHl. pose proof (IH r ltac:(lia) Hr) as IHr.
      pose proof (height_nonneg l) as Pl. pose proof (height_nonneg r) as Pr.
      cbn [height count].
      assert (Hmin : height (Node i l k v w r) <= 2 + Z.min (height l) (height r))
        by (cbn [height]; lia).
      cbn [height] in Hmin.
      set (m := Z.min (height l) (height r)) in *.
      set (H := 1 + Z.max (height l) (height r)) in *.
      assert (2 ^ (H / 2) <= 2 ^ (1 + m / 2)).
      { apply Z.pow_le_mono_r; [lia|]. replace (1 + m/2) with ((2 + m)/2).
        - apply Z.div_le_mono; lia.
        - replace (2 + m) with (m + 1 * 2) by lia. rewrite Z.div_add by lia. lia. }
      rewrite Z.pow_add_r in H0 by (try lia; apply Z.div_pos; lia).
      assert (2 ^ (m/2) <= 2 ^ (height l / 2)).
      { apply Z.pow_le_mono_r; [lia|]. apply Z.div_le_mono; lia. }
      assert (2 ^ (m/2) <= 2 ^ (height r / 2)).
      { apply Z.pow_le_mono_r; [lia|]. apply Z.div_le_mono; lia. }
      lia. }
  intros t Ht. eapply H; eauto.
Qed.

(** *** Iteration *)
Lemma climb_right_spec : forall (p : path) (t : tree), elements t <> [] ->
  match climb_right t p with
  | None => rctx p = []
  | Some (t', p') => plug t' p' = plug t p /\
      exists i l k v w r, t' = Node i l k v w r /\
        lctx p' ++ elements l = lctx p ++ elements t /\ (k,v) :: elements r ++ rctx p' = rctx p
  end.
Proof.
  induction p as [|[i k v w r|i l k v w] p IH]; intros t Ht; cbn [climb_right].
  - reflexivity.
  - split; [reflexivity|]. do 6 eexists; split; [reflexivity|]. cbn [lctx rctx]. auto.
  - specialize (IH (Node i l k v w t)).
    destruct (climb_right (Node i l k v w t) p) as [[t' p']|].
    + destruct IH as (Hp & i' & l' & k' & v' & w' & r' & -> & H1 & H2).
      { cbn [elements]. intros H; apply app_eq_nil in H; destruct H; discriminate. }
      split; [exact Hp|]. do 6 eexists; split; [reflexivity|]. cbn [lctx rctx].
      rewrite H1. cbn [elements]. split; [|exact H2].
      repeat (rewrite <- ?app_assoc; cbn [app]). reflexivity.
    + cbn [rctx]. apply IH. cbn [elements]. intros H; apply app_eq_nil in H; destruct H; discriminate.
Qed.

Lemma climb_left_spec : forall (p : path) (t : tree), elements t <> [] ->
  match climb_left t p with
  | None => lctx p = []
  | Some (t', p') => plug t' p' = plug t p /\
      exists i l k v w r, t' = Node i l k v w r /\
        lctx p' ++ elements l ++ [(k,v)] = lctx p /\ elements r ++ rctx p' = elements t ++ rctx p
  end.
Proof.
  induction p as [|[i k v w r|i l k v w] p IH]; intros t Ht; cbn [climb_left].
  - reflexivity.
  - specialize (IH (Node i t k v w r)).
    destruct (climb_left (Node i t k v w r) p) as [[t' p']|].
    + destruct IH as (Hp & i' & l' & k' & v' & w' & r' & -> & H1 & H2).
      { cbn [elements]. intros H; apply app_eq_nil in H; destruct H; discriminate. }
      split; [exact Hp|]. do 6 eexists; split; [reflexivity|]. cbn [lctx rctx].
      split; [exact H1|]. rewrite H2. cbn [elements].
      repeat (rewrite <- ?app_assoc; cbn [app]). reflexivity.
    + cbn [lctx]. apply IH. cbn [elements]. intros H; apply app_eq_nil in H; destruct H; discriminate.
  - split; [reflexivity|]. do 6 eexists; split; [reflexivity|]. cbn [lctx rctx]. auto.
Qed.

(** The pairs at and after / before an iterator position. *)
Definition suffix (t : tree) (p : path) : list (K * V) :=
  match t with
  | Leaf => rctx p
  | Node _ _ k v _ r => (k, v) :: elements r ++ rctx p
  end.
Definition prefix (t : tree) (p : path) : list (K * V) :=
  match t with
  | Leaf => lctx p
  | Node _ l k v _ _ => lctx p ++ elements l ++ [(k, v)]
  end.

Lemma next_spec : forall i l k v w r p,
  match next (Node i l k v w r) p with
  | None => elements r ++ rctx p = []
  | Some (t', p') => t' <> Leaf /\ suffix t' p' = elements r ++ rctx p
  end.
Proof.
  intros i l k v w r p. cbn [next].
  destruct r as [|ri rl rk rv rw rr].
  - pose proof (climb_right_spec p (Node i l k v w Leaf)) as H.
    destruct (climb_right (Node i l k v w Leaf) p) as [[t' p']|].
    + destruct H as (_ & i' & l' & k' & v' & w' & r' & -> & H1 & H2).
      { cbn [elements]. intros H; apply app_eq_nil in H; destruct H; discriminate. }
      split; [discriminate|]. exact H2.
    + apply H. cbn [elements]. intros H0; apply app_eq_nil in H0; destruct H0; discriminate.
  - set (R := Node ri rl rk rv rw rr).
    destruct (go_left_node R (InRight i l k v w :: p)) as (i' & k' & v' & w' & r' & E); [discriminate|].
    destruct (go_left_ctx R (InRight i l k v w :: p)) as [H1 H2].
    destruct (go_left R (InRight i l k v w :: p)) as [t' p'].
    cbn [fst snd] in *. subst t'. split; [discriminate|]. cbn [elements app] in H2.
    cbn [suffix]. rewrite H2. reflexivity.
Qed.

Lemma prev_spec : forall i l k v w r p,
  match prev (Node i l k v w r) p with
  | None => lctx p ++ elements l = []
  | Some (t', p') => t' <> Leaf /\ prefix t' p' = lctx p ++ elements l
  end.
Proof.
  intros i l k v w r p. cbn [prev].
  destruct l as [|li ll lk lv lw lr].
  - pose proof (climb_left_spec p (Node i Leaf k v w r)) as H.
    destruct (climb_left (Node i Leaf k v w r) p) as [[t' p']|].
    + destruct H as (_ & i' & l' & k' & v' & w' & r' & -> & H1 & H2).
      { cbn [elements]. intros H; apply app_eq_nil in H; destruct H; discriminate. }
      split; [discriminate|]. cbn [elements prefix]. rewrite app_nil_r. exact H1.
    + cbn [elements]. rewrite app_nil_r.
      apply H. cbn [elements]. intros H0; apply app_eq_nil in H0; destruct H0; discriminate.
  - set (L := Node li ll lk lv lw lr).
    destruct (go_right_node L (InLeft i k v w r :: p)) as (i' & l' & k' & v' & w' & E); [discriminate|].
    destruct (go_right_ctx L (InLeft i k v w r :: p)) as [H1 H2].
    destruct (go_right L (InLeft i k v w r :: p)) as [t' p'].
    cbn [fst snd] in *. subst t'. split; [discriminate|]. cbn [elements] in H2.
    cbn [prefix]. rewrite H2. reflexivity.
Qed.

Lemma walk_next : forall fuel t p, t <> Leaf -> (length (suffix t p) <= fuel)%nat ->
  walk next fuel (Some (t, p)) = Some (suffix t p).
Proof.
  induction fuel as [|fuel IH]; intros t p Ht Hf.
  - destruct t; [congruence|]. cbn in Hf. lia.
  - destruct t as [|i l k v w r]; [congruence|].
    cbn [walk deref fst].
    pose proof (next_spec i l k v w r p) as H.
    destruct (next (Node i l k v w r) p) as [[t' p']|].
    + destruct H as [N E]. rewrite IH; auto.
      * cbn [suffix]. rewrite E. reflexivity.
      * rewrite E. cbn [suffix length] in Hf. lia.
    + destruct fuel; cbn [walk suffix]; rewrite H; reflexivity.
Qed.

Lemma walk_prev : forall fuel t p, t <> Leaf -> (length (prefix t p) <= fuel)%nat ->
  walk prev fuel (Some (t, p)) = Some (rev (prefix t p)).
Proof.
  induction fuel as [|fuel IH]; intros t p Ht Hf.
  - destruct t; [congruence|]. cbn [prefix] in Hf. rewrite !app_length in Hf. cbn in Hf. lia.
  - destruct t as [|i l k v w r]; [congruence|].
    cbn [walk deref fst].
    pose proof (prev_spec i l k v w r p) as H.
    assert (EP : prefix (Node i l k v w r) p = (lctx p ++ elements l) ++ [(k, v)]).
    { cbn [prefix]. rewrite app_assoc. reflexivity. }
    destruct (prev (Node i l k v w r) p) as [[t' p']|].
    + destruct H as [N E]. rewrite EP in *. rewrite <- E in *. rewrite IH; auto.
      * rewrite rev_app_distr. reflexivity.
      * rewrite app_length in Hf. cbn in Hf. lia.
    + rewrite EP, H. destruct fuel; reflexivity.
Qed.

Lemma begin_walk : forall (m : map K V) fuel, (length (elements (root m)) <= fuel)%nat ->
  walk next fuel (begin m) = Some (elements (root m)).
Proof.
  intros m fuel Hf. unfold begin. destruct (root m) as [|i l k v w r] eqn:E.
  - destruct fuel; reflexivity.
  - rewrite <- E in *. assert (N : root m <> Leaf) by (rewrite E; discriminate). clear E.
    destruct (go_left_node (root m) [] N) as (i' & k' & v' & w' & r' & E).
    destruct (go_left_ctx (root m) []) as [H1 H2].
    destruct (go_left (root m) []) as [t' p']. cbn [fst snd] in *. subst t'.
    cbn [elements app rctx] in H2. rewrite app_nil_r in H2.
    assert (S' : suffix (Node i' Leaf k' v' w' r') p' = elements (root m)) by (cbn [suffix]; auto).
    rewrite walk_next; [rewrite S'; auto|discriminate|rewrite S'; auto].
Qed.

Lemma last_walk : forall (m : map K V) fuel, (length (elements (root m)) <= fuel)%nat ->
  walk prev fuel (last m) = Some (rev (elements (root m))).
Proof.
  intros m fuel Hf. unfold last. destruct (root m) as [|i l k v w r] eqn:E.
  - destruct fuel; reflexivity.
  - rewrite <- E in *. assert (N : root m <> Leaf) by (rewrite E; discriminate). clear E.
    destruct (go_right_node (root m) [] N) as (i' & l' & k' & v' & w' & E).
    destruct (go_right_ctx (root m) []) as [H1 H2].
    destruct (go_right (root m) []) as [t' p']. cbn [fst snd] in *. subst t'.
    cbn [elements app lctx] in H2.
    assert (S' : prefix (Node i' l' k' v' w' Leaf) p' = elements (root m)) by (cbn [prefix]; auto).
    rewrite walk_prev; [rewrite S'; auto|discriminate|rewrite S'; auto].
Qed.

End Shape.

(** *** Ordered keys *)
Section Ordered.
Context {K V : Type} (ltb eqb : K -> K -> bool).
Hypothesis eqb_ok : forall a b, eqb a b = true <-> a = b.
Hypothesis lt_irrefl : forall a, ltb a a = false.
Hypothesis lt_trans : forall a b c, ltb a b = true -> ltb b c = true -> ltb a c = true.
Hypothesis lt_total : forall a b, ltb a b = true \/ a = b \/ ltb b a = true.

Definition all_lt (l : list (K * V)) (k : K) := forall x, In x l -> ltb (fst x) k = true.
Definition all_gt (l : list (K * V)) (k : K) := forall x, In x l -> ltb k (fst x) = true.

Notation sorted := (increasing ltb).

Lemma sorted_app : forall (a : list (K * V)) x b, sorted (a ++ x :: b) <->
  sorted a /\ sorted b /\ all_lt a (fst x) /\ all_gt b (fst x) .
Proof.
  induction a as [|y a IH]; intros x b; cbn [app increasing].
  - unfold all_lt. cbn. intuition.
  - rewrite IH. unfold all_lt, all_gt. split.
    + intros (H & Ha & Hb & Hl & Hg). repeat split; auto.
      * intros z Hz. apply H. apply in_or_app. auto.
      * intros z [->|Hz]; auto. apply H. apply in_or_app. cbn. auto.
    + intros ((H & Ha) & Hb & Hl & Hg). repeat split; auto.
      * intros z Hz. apply in_app_or in Hz. destruct Hz as [Hz|[<-|Hz]]; auto.
        { apply Hl. cbn; auto. }
        { apply lt_trans with (fst x); auto. apply Hl; cbn; auto. }
      * intros z Hz. apply Hl. cbn; auto.
Qed.

Lemma sorted_remove : forall (a : list (K * V)) x b, sorted (a ++ x :: b) -> sorted (a ++ b).
Proof.
  induction a as [|y a IH]; intros x b H; cbn [app increasing] in *.
  - tauto.
  - destruct H as [H1 H2]. split; [|eapply IH; eauto].
    intros z Hz. apply H1. apply in_app_or in Hz. apply in_or_app. cbn. tauto.
Qed.

Lemma lt_neq : forall a b, ltb a b = true -> eqb a b = false /\ eqb b a = false /\ ltb b a = false.
Proof.
  intros a b H. repeat split.
  - destruct (eqb a b) eqn:E; auto. apply eqb_ok in E. subst. rewrite lt_irrefl in H. discriminate.
  - destruct (eqb b a) eqn:E; auto. apply eqb_ok in E. subst. rewrite lt_irrefl in H. discriminate.
  - destruct (ltb b a) eqn:E; auto. pose proof (lt_trans _ _ _ H E) as X.
    rewrite lt_irrefl in X. discriminate.
Qed.

Fixpoint assoc (k : K) (l : list (K * V)) : option V :=
  match l with
  | [] => None
  | (k', v) :: l' => if eqb k k' then Some v else assoc k l'
  end.

Lemma assoc_app : forall a b k, assoc k (a ++ b) =
  match assoc k a with Some v => Some v | None => assoc k b end.
Proof.
  induction a as [|[k' v] a IH]; intros b k; cbn; auto. destruct (eqb k k'); auto.
Qed.

Lemma assoc_lt : forall l k, all_lt l k -> assoc k l = None.
Proof.
  induction l as [|[k' v] l IH]; intros k H; cbn; auto.
  destruct (eqb k k') eqn:E.
  - apply eqb_ok in E. subst. specialize (H (k', v)). cbn in H. rewrite lt_irrefl in H.
    discriminate H; auto.
  - apply IH. intros x Hx. apply H. cbn; auto.
Qed.

Lemma assoc_gt : forall l k, all_gt l k -> assoc k l = None.
Proof.
  induction l as [|[k' v] l IH]; intros k H; cbn; auto.
  destruct (eqb k k') eqn:E.
  - apply eqb_ok in E. subst. specialize (H (k', v)). cbn in H. rewrite lt_irrefl in H.
    discriminate H; auto.
  - apply IH. intros x Hx. apply H. cbn; auto.
Qed.

Notation descend := (descend ltb eqb).

Lemma descend_spec : forall (t : tree K V) (p : path K V) k,
  sorted (lctx p ++ elements t ++ rctx p) -> all_lt (lctx p) k -> all_gt (rctx p) k ->
  let '(t', p') := descend k t p in
  plug t' p' = plug t p /\ all_lt (lctx p') k /\ all_gt (rctx p') k /\
  match t' with
  | Leaf => True
  | Node i l k' v w r => k' = k
  end.
Proof.
  induction t as [|i l IHl k0 v w r IHr]; intros p k Hs Hl Hg.
  - cbn. auto.
  - cbn [TreeModel.descend].
    cbn [elements] in Hs.
    destruct (ltb k k0) eqn:E1.
    + pose proof (IHl (InLeft i k0 v w r :: p) k) as IH.
      destruct (descend k l (InLeft i k0 v w r :: p)) as [t' p'].
      cbn [lctx rctx plug up] in IH. apply IH; auto.
      * rewrite <- app_assoc in Hs. cbn [app] in Hs. exact Hs.
      * intros x [<-|Hx]; auto. apply in_app_or in Hx. destruct Hx as [Hx|Hx]; auto.
        apply lt_trans with k0; auto.
        rewrite <- app_assoc in Hs. cbn [app] in Hs.
        rewrite app_assoc in Hs. apply sorted_app in Hs. destruct Hs as (_ & _ & _ & Hs).
        apply (Hs x). apply in_or_app; auto.
    + destruct (eqb k k0) eqn:E2.
      * apply eqb_ok in E2. subst. repeat split; auto.
      * assert (Hlt : ltb k0 k = true).
        { destruct (lt_total k k0) as [H|[H|H]]; [congruence| |auto].
          apply eqb_ok in H. congruence. }
        pose proof (IHr (InRight i l k0 v w :: p) k) as IH.
        destruct (descend k r (InRight i l k0 v w :: p)) as [t' p'].
        cbn [lctx rctx plug up] in IH. apply IH; auto.
        -- repeat (rewrite <- ?app_assoc in *; cbn [app] in * ). exact Hs.
        -- intros x Hx. apply in_app_or in Hx. destruct Hx as [Hx|Hx]; auto.
           apply in_app_or in Hx. destruct Hx as [Hx|[<-|[]]]; auto.
           apply lt_trans with k0; auto.
           rewrite <- app_assoc in Hs. cbn [app] in Hs.
           rewrite app_assoc in Hs. apply sorted_app in Hs. destruct Hs as (_ & _ & Hs & _).
           apply (Hs x). apply in_or_app; auto.
Qed.

Definition inv (m : map K V) : Prop :=
  avl (root m) /\ sorted (elements (root m)) /\ sized m = length (elements (root m)).

Lemma all_lt_nil : forall k, all_lt [] k. Proof. intros k x []. Qed.
Lemma all_gt_nil : forall k, all_gt [] k. Proof. intros k x []. Qed.

Lemma descend_root : forall m k, inv m ->
  let '(t', p') := descend k (root m) [] in
  plug t' p' = root m /\ all_lt (lctx p') k /\ all_gt (rctx p') k /\
  avl t' /\ path_ok p' (height t') /\
  elements (root m) = lctx p' ++ elements t' ++ rctx p' /\
  match t' with
  | Leaf => True
  | Node i l k' v w r => k' = k
  end.
Proof.
  intros m k (Ha & Hs & _).
  pose proof (descend_spec (root m) [] k) as H. cbn [lctx rctx app] in H.
  rewrite app_nil_r in H. specialize (H Hs (all_lt_nil k) (all_gt_nil k)).
  destruct (descend k (root m) []) as [t' p']. cbn [plug] in H.
  destruct H as (Hp & H1 & H2 & H3).
  rewrite <- Hp in Ha. apply avl_path_ok in Ha. destruct Ha as [Ha1 Ha2].
  repeat split; auto. rewrite <- Hp. apply elements_plug.
Qed.

Lemma find_assoc : forall m k, inv m ->
  option_map snd (find ltb eqb m k) = assoc k (elements (root m)).
Proof.
  intros m k Hi. unfold find. pose proof (descend_root m k Hi) as H.
  destruct Hi as (Ha & Hs & _).
  destruct (descend k (root m) []) as [t' p']. cbn [fst].
  destruct H as (Hp & H1 & H2 & _ & _ & He & H3). rewrite He in *.
  destruct t' as [|i l k' v w r].
  - cbn [elements app option_map]. rewrite assoc_app, (assoc_lt _ _ H1), (assoc_gt _ _ H2). reflexivity.
  - subst k'. cbn [option_map snd elements]. cbn [elements] in Hs.
    rewrite assoc_app, (assoc_lt _ _ H1).
    rewrite <- app_assoc in Hs. cbn [app] in Hs. rewrite app_assoc in Hs.
    apply sorted_app in Hs. destruct Hs as (_ & _ & Hs & _).
    rewrite <- app_assoc. rewrite assoc_app. rewrite assoc_lt.
    + cbn. assert (E : eqb k k = true) by (apply eqb_ok; auto). rewrite E. reflexivity.
    + intros x Hx. apply (Hs x). apply in_or_app; auto.
Qed.

(** Replacing the value at an existing key. *)
Lemma set_elements : forall m k v i l k0 v0 w r p,
  inv m -> descend k (root m) [] = (Node i l k0 v0 w r, p) ->
  inv {| root := plug (Node i l k0 v w r) p; sized := sized m; fresh := fresh m |} /\
  forall k', assoc k' (elements (plug (Node i l k0 v w r) p)) =
             if eqb k' k then Some v else assoc k' (elements (root m)).
Proof.
  intros m k v i l k0 v0 w r p Hi Hd.
  pose proof (descend_root m k Hi) as H. rewrite Hd in H.
  destruct H as (Hp & H1 & H2 & Ha & Hok & He & ->).
  destruct Hi as (Hi1 & Hi2 & Hi3).
  assert (E1 : elements (root m) = (lctx p ++ elements l) ++ (k, v0) :: elements r ++ rctx p).
  { rewrite He. cbn [elements]. repeat (rewrite <- ?app_assoc; cbn [app]). reflexivity. }
  assert (E2 : elements (plug (Node i l k v w r) p)
             = (lctx p ++ elements l) ++ (k, v) :: elements r ++ rctx p).
  { rewrite elements_plug. cbn [elements]. repeat (rewrite <- ?app_assoc; cbn [app]). reflexivity. }
  split.
  - split; [|split]; cbn [root sized].
    + apply plug_avl; auto.
    + rewrite E2. rewrite E1 in Hi2. rewrite sorted_app in *. exact Hi2.
    + rewrite Hi3, E1, E2, !app_length. reflexivity.
  - intros k'. rewrite E1, E2. rewrite E1 in Hi2. apply sorted_app in Hi2. cbn [fst] in Hi2.
    destruct Hi2 as (_ & _ & Hl & Hg).
    rewrite !assoc_app. cbn [assoc].
    destruct (eqb k' k) eqn:E.
    + apply eqb_ok in E. subst k'.
      assert (X : all_lt (lctx p ++ elements l) k) by exact Hl.
      pose proof (assoc_lt _ _ X) as Y. rewrite assoc_app in Y. rewrite Y. reflexivity.
    + reflexivity.
Qed.

Lemma assoc_insert : forall a b k v k', all_lt a k -> all_gt b k ->
  assoc k' (a ++ (k, v) :: b) = if eqb k' k then Some v else assoc k' (a ++ b).
Proof.
  intros a b k v k' Ha Hb. rewrite !assoc_app. cbn [assoc].
  destruct (eqb k' k) eqn:E; [|destruct (assoc k' a); reflexivity].
  apply eqb_ok in E. subst. rewrite (assoc_lt _ _ Ha). reflexivity.
Qed.

Lemma insert_spec : forall m k v, inv m ->
  exists m', insert ltb eqb m k v = Some m' /\ inv m' /\
    forall k', assoc k' (elements (root m')) =
               if eqb k' k then Some v else assoc k' (elements (root m)).
Proof.
  intros m k v Hi. unfold insert.
  pose proof (descend_root m k Hi) as H.
  destruct (descend k (root m) []) as [t' p] eqn:Hd.
  destruct t' as [|i l k0 v0 w r].
  - destruct H as (Hp & H1 & H2 & Ha & Hok & He & _).
    cbn [elements app] in He.
    assert (G : exists t, match p with
        | [] => Some (Node (fresh m) Leaf k v 0 Leaf)
        | InLeft i k1 v1 w r :: p' =>
            insert_up (Node i (Node (fresh m) Leaf k v 0 Leaf) k1 v1 (w - 1) r) p'
        | InRight i l k1 v1 w :: p' =>
            insert_up (Node i l k1 v1 (w + 1) (Node (fresh m) Leaf k v 0 Leaf)) p'
        end = Some t /\ avl t /\ elements t = lctx p ++ (k, v) :: rctx p).
    { destruct p as [|[i k1 v1 w r|i l k1 v1 w] p'].
      - eexists; split; [reflexivity|]. cbn. repeat split; lia.
      - cbn [path_ok height] in Hok. destruct Hok as (Hr & Hw & Hb & Hok).
        pose proof (height_nonneg r).
        destruct (insert_up_spec p' (Node i (Node (fresh m) Leaf k v 0 Leaf) k1 v1 (w - 1) r)
                    (1 + Z.max 0 (height r))) as (t & E & A & El); auto;
          try (cbn [pre avl height wt rt_ lt_]; first [lia | repeat split; auto; lia]).
        exists t. split; [exact E|]. split; [exact A|]. rewrite El. cbn [elements lctx rctx app].
        reflexivity.
      - cbn [path_ok height] in Hok. destruct Hok as (Hr & Hw & Hb & Hok).
        pose proof (height_nonneg l).
        destruct (insert_up_spec p' (Node i l k1 v1 (w + 1) (Node (fresh m) Leaf k v 0 Leaf))
                    (1 + Z.max (height l) 0)) as (t & E & A & El); auto;
          try (cbn [pre avl height wt rt_ lt_]; first [lia | repeat split; auto; lia]).
        exists t. split; [exact E|]. split; [exact A|]. rewrite El. cbn [elements lctx rctx app].
        repeat (rewrite <- ?app_assoc; cbn [app]). reflexivity. }
    destruct G as (t & E & A & El). rewrite E. cbn [option_map].
    eexists; split; [reflexivity|].
    destruct Hi as (Hi1 & Hi2 & Hi3). cbn [root].
    split; [split; [|split]|]; cbn [root sized].
    + exact A.
    + rewrite El. apply sorted_app. rewrite He in Hi2.
      cbn [fst]. repeat split; auto.
      * clear - Hi2. induction (lctx p) as [|x a IH]; cbn in *; auto.
        destruct Hi2 as [Hx Hi2]. split; auto. intros y Hy. apply Hx. apply in_or_app; auto.
      * clear - Hi2. induction (lctx p) as [|x a IH]; cbn in *; auto. tauto.
    + rewrite El, Hi3, He, !app_length. cbn [length]. lia.
    + intros k'. rewrite El, He. apply assoc_insert; auto.
  - destruct (set_elements m k v i l k0 v0 w r p Hi Hd) as [G1 G2].
    eexists; split; [reflexivity|]. auto.
Qed.

Lemma set_value_spec : forall m k v, inv m -> find ltb eqb m k <> None ->
  exists m', set_value ltb eqb m k v = Some m' /\ inv m' /\
    forall k', assoc k' (elements (root m')) =
               if eqb k' k then Some v else assoc k' (elements (root m)).
Proof.
  intros m k v Hi Hf. unfold set_value. unfold find in Hf.
  destruct (descend k (root m) []) as [t' p] eqn:Hd. cbn [fst] in Hf.
  destruct t' as [|i l k0 v0 w r]; [congruence|].
  destruct (set_elements m k v i l k0 v0 w r p Hi Hd) as [G1 G2].
  eexists; split; [reflexivity|]. auto.
Qed.

Lemma assign_spec : forall m k d v, inv m ->
  exists m', assign ltb eqb m k d v = Some m' /\ inv m' /\
    forall k', assoc k' (elements (root m')) =
               if eqb k' k then Some v else assoc k' (elements (root m)).
Proof.
  intros m k d v Hi. unfold assign.
  destruct (find ltb eqb m k) eqn:E.
  - apply set_value_spec; auto. congruence.
  - destruct (insert_spec m k d Hi) as (m1 & E1 & I1 & A1). rewrite E1.
    destruct (set_value_spec m1 k v I1) as (m2 & E2 & I2 & A2).
    + pose proof (find_assoc m1 k I1) as F. rewrite A1 in F.
      assert (X : eqb k k = true) by (apply eqb_ok; auto). rewrite X in F.
      intros N. rewrite N in F. discriminate.
    + exists m2. split; [auto|split; [auto|]]. intros k'. rewrite A2, A1.
      destruct (eqb k' k); reflexivity.
Qed.

Lemma assoc_remove : forall a b k (v : V) k', sorted (a ++ (k, v) :: b) ->
  assoc k' (a ++ b) = if eqb k' k then None else assoc k' (a ++ (k, v) :: b).
Proof.
  intros a b k v k' Hs. apply sorted_app in Hs. cbn [fst] in Hs. destruct Hs as (_ & _ & Hl & Hg).
  rewrite !assoc_app. cbn [assoc].
  destruct (eqb k' k) eqn:E; [|reflexivity].
  apply eqb_ok in E. subst. rewrite (assoc_lt _ _ Hl), (assoc_gt _ _ Hg). reflexivity.
Qed.

Lemma erase_spec : forall m k, inv m ->
  exists m', erase ltb eqb m k = Some m' /\ inv m' /\
    forall k', assoc k' (elements (root m')) =
               if eqb k' k then None else assoc k' (elements (root m)).
Proof.
  intros m k Hi. unfold erase.
  pose proof (descend_root m k Hi) as H. pose proof (find_assoc m k Hi) as F. unfold find in F.
  destruct (descend k (root m) []) as [t' p] eqn:Hd. cbn [fst] in F.
  destruct t' as [|i l k0 v0 w r].
  - exists m. split; [auto|split; [auto|]]. intros k'. destruct (eqb k' k) eqn:E; auto.
    apply eqb_ok in E. subst. rewrite <- F. reflexivity.
  - destruct H as (Hp & H1 & H2 & Ha & Hok & He & ->).
    destruct (erase_at_spec i l k v0 w r p Ha Hok) as (t & E & A & El).
    rewrite E. cbn [option_map]. eexists; split; [reflexivity|].
    destruct Hi as (Hi1 & Hi2 & Hi3).
    assert (E1 : elements (root m) = (lctx p ++ elements l) ++ (k, v0) :: elements r ++ rctx p).
    { rewrite He. cbn [elements]. repeat (rewrite <- ?app_assoc; cbn [app]). reflexivity. }
    assert (E2 : elements t = (lctx p ++ elements l) ++ elements r ++ rctx p).
    { rewrite El. repeat (rewrite <- ?app_assoc; cbn [app]). reflexivity. }
    rewrite E1 in Hi2.
    split; [split; [|split]|]; cbn [root sized].
    + exact A.
    + rewrite E2. eapply sorted_remove; eauto.
    + rewrite Hi3, E1, E2, !app_length. cbn [length]. rewrite !app_length. lia.
    + intros k'. rewrite E1, E2. apply assoc_remove; auto.
Qed.

Lemma inv_empty : inv empty_map.
Proof. repeat split; cbn; auto. Qed.

Lemma inv_clear : forall m, inv m -> inv (clear m).
Proof.
  intros m (_ & _ & H). split; [|split]; cbn; auto. rewrite H, count_elements. lia.
Qed.

Lemma assoc_in : forall l k, assoc k l <> None <-> In k (List.map fst l).
Proof.
  induction l as [|[k' v] l IH]; intros k; cbn.
  - tauto.
  - destruct (eqb k k') eqn:E.
    + apply eqb_ok in E. subst. split; [auto|discriminate].
    + rewrite IH. split; [auto|]. intros [->|H]; auto.
      assert (X : eqb k k = true) by (apply eqb_ok; auto). congruence.
Qed.

Lemma sorted_nodup : forall l : list (K * V), sorted l -> NoDup (List.map fst l).
Proof.
  induction l as [|[k v] l IH]; intros H; cbn in *; constructor; [|tauto].
  intros Hin. apply in_map_iff in Hin. destruct Hin as ([k' v'] & E & Hin). cbn in E. subst k'.
  destruct H as [H _]. apply H in Hin. cbn in Hin. rewrite lt_irrefl in Hin. discriminate.
Qed.


Lemma run_snoc : forall (d : V) ops o m, run ltb eqb d (ops ++ [o]) m =
  match run ltb eqb d ops m with Some m' => step ltb eqb d m' o | None => None end.
Proof.
  induction ops as [|a ops IH]; intros o m; cbn [app run].
  - destruct (step ltb eqb d m o); reflexivity.
  - destruct (step ltb eqb d m a); auto.
Qed.

Lemma run_spec : forall (d : V) hist,
  exists m, run ltb eqb d (rev hist) empty_map = Some m /\ inv m /\
    forall k, assoc k (elements (root m)) = meaning eqb hist k.
Proof.
  induction hist as [|o h IH]; cbn [rev].
  - exists empty_map. split; [reflexivity|]. split; [apply inv_empty|]. reflexivity.
  - destruct IH as (m & E & I & A). rewrite run_snoc, E.
    destruct o as [k v|k v|k|]; cbn [step meaning].
    + destruct (insert_spec m k v I) as (m' & E' & I' & A'). exists m'. repeat split; try apply I'; auto.
      intros k'. rewrite A'. destruct (eqb k' k); auto.
    + destruct (assign_spec m k d v I) as (m' & E' & I' & A'). exists m'. repeat split; try apply I'; auto.
      intros k'. rewrite A'. destruct (eqb k' k); auto.
    + destruct (erase_spec m k I) as (m' & E' & I' & A'). exists m'. repeat split; try apply I'; auto.
      intros k'. rewrite A'. destruct (eqb k' k); auto.
    + exists (clear m). split; [reflexivity|]. split; [apply inv_clear; auto|]. reflexivity.
Qed.

End Ordered.

Section Wrap.
Context {K V : Type} (ltb eqb : K -> K -> bool) (law : lawful ltb eqb).

Lemma run_inv : forall (d : V) ops,
  exists m, run ltb eqb d ops empty_map = Some m /\ inv ltb m /\
    forall k, assoc eqb k (elements (root m)) = meaning eqb (rev ops) k.
Proof.
  destruct law as (L1 & L2 & L3 & L4). intros d ops.
  destruct (run_spec ltb eqb L1 L2 L3 L4 d (rev ops)) as (m & E & I & A).
  rewrite rev_involutive in E. eauto.
Qed.

Lemma tree_find_correct : forall (d : V) ops,
  exists m, run ltb eqb d ops empty_map = Some m /\
    (forall k, option_map snd (find ltb eqb m k) = meaning eqb (rev ops) k) /\
    exists keys, NoDup keys /\ (forall k, In k keys <-> meaning eqb (rev ops) k <> None) /\
    sized m = length keys.
Proof.
  intros d ops. destruct (run_inv d ops) as (m & E & I & A).
  destruct law as (L1 & L2 & L3 & L4).
  exists m. split; [auto|]. split.
  - intros k. rewrite <- A. apply find_assoc; auto.
  - exists (List.map fst (elements (root m))). split; [|split].
    + eapply sorted_nodup; eauto. apply I.
    + intros k. rewrite <- A. symmetry. apply assoc_in; auto.
    + rewrite map_length. apply I.
Qed.

Lemma tree_iteration : forall (d : V) ops m, run ltb eqb d ops empty_map = Some m ->
  exists l, walk next (sized m) (begin m) = Some l /\
    walk prev (sized m) (last m) = Some (rev l) /\
    length l = sized m /\ increasing ltb l /\
    forall k v, In (k, v) l <-> meaning eqb (rev ops) k = Some v.
Proof.
  intros d ops m Hr. destruct (run_inv d ops) as (m' & E & I & A).
  rewrite Hr in E. inversion E; subst m'. clear E.
  destruct law as (L1 & L2 & L3 & L4). destruct I as (I1 & I2 & I3).
  exists (elements (root m)). split; [|split; [|split; [|split]]]; auto.
  - apply begin_walk. lia.
  - apply last_walk. lia.
  - intros k v. rewrite <- A. clear - I2 L1 L2. induction (elements (root m)) as [|[k' v'] l IH].
    + cbn. split; [tauto|discriminate].
    + cbn [increasing fst] in I2. destruct I2 as [G S]. specialize (IH S). cbn [In assoc].
      destruct (eqb k k') eqn:Q.
      * apply L1 in Q. subst k'. split.
        -- intros [H|H]; [congruence|]. apply G in H. cbn in H. rewrite L2 in H. discriminate.
        -- intros H. left. congruence.
      * rewrite <- IH. split; [|tauto]. intros [H|H]; auto. inversion H; subst.
        assert (X : eqb k k = true) by (apply L1; auto). congruence.
Qed.

Lemma descend_length : forall (t : tree K V) (p : path K V) k,
  Z.of_nat (length (snd (descend ltb eqb k t p))) +
  (match fst (descend ltb eqb k t p) with Leaf => 0 | _ => 1 end) <= Z.of_nat (length p) + height t.
Proof.
  induction t as [|i l IHl k0 v w r IHr]; intros p k; cbn [descend height].
  - cbn. lia.
  - pose proof (height_nonneg l). pose proof (height_nonneg r).
    destruct (ltb k k0).
    + specialize (IHl (InLeft i k0 v w r :: p) k). cbn [length] in IHl. lia.
    + destruct (eqb k k0).
      * cbn [fst snd]. lia.
      * specialize (IHr (InRight i l k0 v w :: p) k). cbn [length] in IHr. lia.
Qed.

Lemma tree_balanced : forall (d : V) ops m, run ltb eqb d ops empty_map = Some m ->
  avl (root m) /\ 2 ^ (height (root m) / 2) <= Z.of_nat (sized m) + 1 /\
    forall k, Z.of_nat (length (snd (descend ltb eqb k (root m) []))) <= height (root m).
Proof.
  intros d ops m Hr. destruct (run_inv d ops) as (m' & E & I & A).
  rewrite Hr in E. inversion E; subst m'. clear E.
  destruct I as (I1 & I2 & I3). split; [auto|]. split.
  - rewrite I3, <- count_elements. apply avl_count. auto.
  - intros k. pose proof (descend_length (root m) [] k). cbn [length] in H.
    destruct (fst (descend ltb eqb k (root m) [])); lia.
Qed.

(** *** Node addresses through an erase of a node without children. *)
Fixpoint ielements (t : tree K V) : list (nat * (K * V)) :=
  match t with
  | Leaf => []
  | Node i l k v _ r => ielements l ++ (i, (k, v)) :: ielements r
  end.
Fixpoint ilctx (p : path K V) : list (nat * (K * V)) :=
  match p with
  | [] => []
  | InLeft _ _ _ _ _ :: p' => ilctx p'
  | InRight i l k v _ :: p' => ilctx p' ++ ielements l ++ [(i, (k, v))]
  end.
Fixpoint irctx (p : path K V) : list (nat * (K * V)) :=
  match p with
  | [] => []
  | InLeft i k v _ r :: p' => (i, (k, v)) :: ielements r ++ irctx p'
  | InRight _ _ _ _ _ :: p' => irctx p'
  end.

Lemma ielements_plug : forall (p : path K V) (t : tree K V),
  ielements (plug t p) = ilctx p ++ ielements t ++ irctx p.
Proof.
  induction p as [|[i k v w r|i l k v w] p IH]; intros t; cbn [plug ilctx irctx up].
  - now rewrite app_nil_r.
  - rewrite IH. cbn [ielements]. rewrite <- !app_assoc. reflexivity.
  - rewrite IH. cbn [ielements]. rewrite <- !app_assoc. cbn. reflexivity.
Qed.

Ltac asc := repeat (rewrite <- ?app_assoc; cbn [app]); reflexivity.

Lemma irot_l : forall t t', rotate_left t = Some t' -> ielements t' = ielements t.
Proof.
  intros [|i l k v w [|j rl k2 v2 w2 rr]] t' H; cbn in H; try discriminate.
  inversion H; subst. cbn [ielements]. asc.
Qed.
Lemma irot_r : forall t t', rotate_right t = Some t' -> ielements t' = ielements t.
Proof.
  intros [|i [|j rl k2 v2 w2 rr] k v w r] t' H; cbn in H; try discriminate.
  inversion H; subst. cbn [ielements]. asc.
Qed.
Lemma ifix_r : forall t t', fix_right_heavy t = Some t' -> ielements t' = ielements t.
Proof.
  intros [|i l k v w r] t' H; [discriminate|].
  destruct r as [|j rl k2 v2 w2 rr]; [discriminate|]. unfold fix_right_heavy in H.
  destruct (w2 <? 0); [|apply irot_l; auto].
  destruct (rotate_right (Node j rl k2 v2 w2 rr)) eqn:E; [|discriminate].
  apply irot_r in E. apply irot_l in H. rewrite H.
  change (ielements l ++ (i,(k,v)) :: ielements t = ielements (Node i l k v w (Node j rl k2 v2 w2 rr))).
  rewrite E. reflexivity.
Qed.
Lemma ifix_l : forall t t', fix_left_heavy t = Some t' -> ielements t' = ielements t.
Proof.
  intros [|i l k v w r] t' H; [discriminate|].
  destruct l as [|j ll k2 v2 w2 lr]; [discriminate|]. unfold fix_left_heavy in H.
  destruct (w2 >? 0); [|apply irot_r; auto].
  destruct (rotate_left (Node j ll k2 v2 w2 lr)) eqn:E; [|discriminate].
  apply irot_l in E. apply irot_r in H. rewrite H.
  change (ielements t ++ (i,(k,v)) :: ielements r = ielements (Node i (Node j ll k2 v2 w2 lr) k v w r)).
  rewrite E. reflexivity.
Qed.

Lemma ierase_up : forall (p : path K V) (t t' : tree K V), erase_up t p = Some t' ->
  ielements t' = ilctx p ++ ielements t ++ irctx p.
Proof.
  induction p as [|f p IH]; intros t t' H; (destruct t as [|i l k v w r]; [discriminate|]);
    cbn [erase_up] in H;
    (destruct (if w >? 1 then fix_right_heavy (Node i l k v w r)
              else if w <? -1 then fix_left_heavy (Node i l k v w r)
              else Some (Node i l k v w r)) as [tb|] eqn:E; [|discriminate]);
    (assert (Eb : ielements tb = ielements (Node i l k v w r))
      by (destruct (w >? 1); [apply ifix_r; auto|];
          destruct (w <? -1); [apply ifix_l; auto|congruence]));
    (destruct tb as [|i' l' k' v' w' r']; [discriminate|]);
    rewrite <- Eb; destruct (w' =? 0); cbn [negb] in H.
  - inversion H. cbn. rewrite app_nil_r. reflexivity.
  - inversion H. cbn. rewrite app_nil_r. reflexivity.
  - destruct f as [i2 k2 v2 w2 r2|i2 l2 k2 v2 w2]; apply IH in H; rewrite H;
      cbn [ielements ilctx irctx]; asc.
  - injection H as <-. apply (ielements_plug (f :: p)). 
Qed.

Lemma iunlink : forall (p : path K V) t', unlink p = Some t' -> ielements t' = ilctx p ++ irctx p.
Proof.
  intros [|[i k v w r|i l k v w] p] t' H; cbn [unlink] in H.
  - inversion H; reflexivity.
  - apply ierase_up in H. rewrite H. cbn [ielements ilctx irctx]. asc.
  - apply ierase_up in H. rewrite H. cbn [ielements ilctx irctx]. asc.
Qed.

Fixpoint ifind (i : nat) (l : list (nat * (K * V))) : option (K * V) :=
  match l with
  | [] => None
  | (j, x) :: l' => if Nat.eqb i j then Some x else ifind i l'
  end.
Lemma ifind_app : forall i a b, ifind i (a ++ b) =
  match ifind i a with Some x => Some x | None => ifind i b end.
Proof. induction a as [|[j x] a IH]; intros b; cbn; auto. destruct (Nat.eqb i j); auto. Qed.
Lemma ifind_in : forall i l, ifind i l <> None <-> In i (List.map fst l).
Proof.
  induction l as [|[j x] l IH]; cbn; [tauto|].
  destruct (Nat.eqb_spec i j); [subst; split; [auto|discriminate]|].
  rewrite IH. split; [auto|]. intros [->|H]; [congruence|auto].
Qed.
Definition ids (t : tree K V) := List.map fst (ielements t).

Lemma node_at_ifind : forall i t, NoDup (ids t) -> node_at i t = ifind i (ielements t).
Proof.
  unfold ids. induction t as [|j l IHl k v w r IHr]; intros H; [reflexivity|].
  cbn [node_at ielements]. cbn [ielements] in H. rewrite map_app in H. cbn [List.map] in H.
  rewrite ifind_app. cbn [ifind].
  pose proof (NoDup_remove _ _ _ H) as [H1 H2].
  assert (Hl : NoDup (List.map fst (ielements l))).
  { clear - H1. induction (List.map fst (ielements l)); cbn in *; constructor; inversion H1; subst; auto.
    intros X. apply H2. apply in_or_app; auto. }
  assert (Hr : NoDup (List.map fst (ielements r))).
  { clear - H1. induction (List.map fst (ielements l)); cbn in *; auto. inversion H1; auto. }
  rewrite IHl, IHr by auto.
  destruct (Nat.eqb_spec i j); [subst|reflexivity].
  cbn [fst] in H2.
  destruct (ifind j (ielements l)) eqn:E; auto.
  exfalso. apply H2. apply in_or_app. left. apply ifind_in. congruence.
Qed.

Lemma erase_childless_keeps : forall (m m' : map K V) key i j k v w p,
  NoDup (ids (root m)) ->
  descend ltb eqb key (root m) [] = (Node i Leaf k v w Leaf, p) ->
  plug (Node i Leaf k v w Leaf) p = root m ->
  erase ltb eqb m key = Some m' ->
  j <> i -> node_at j (root m') = node_at j (root m).
Proof.
  intros m m' key i j k v w p Hn Hd Hp He Hj. unfold erase in He. rewrite Hd in He.
  cbn [erase_at] in He. destruct (unlink p) eqn:U; [|discriminate].
  cbn [option_map] in He. inversion He; subst m'; clear He. cbn [root].
  apply iunlink in U.
  assert (Er : ielements (root m) = ilctx p ++ (i, (k, v)) :: irctx p)
    by (rewrite <- Hp, ielements_plug; reflexivity).
  rewrite !node_at_ifind; auto.
  - rewrite U, Er, !ifind_app. cbn [ifind]. destruct (Nat.eqb_spec j i); [congruence|reflexivity].
  - unfold ids in *. rewrite U. rewrite Er in Hn. rewrite map_app in *. cbn [List.map] in Hn.
    eapply NoDup_remove_1. eauto.
Qed.


(** Addresses stay distinct and below the allocator's next address. *)
Lemma iinsert_up : forall (p : path K V) (t t' : tree K V), insert_up t p = Some t' ->
  ielements t' = ilctx p ++ ielements t ++ irctx p.
Proof.
  induction p as [|f p IH]; intros t t' H; (destruct t as [|i l k v w r]; [discriminate|]);
    cbn [insert_up] in H.
  - destruct (w >? 1).
    { destruct (fix_right_heavy (Node i l k v w r)) eqn:E; [|discriminate]. apply ifix_r in E.
      cbn in H. injection H as <-. rewrite E. cbn [ilctx irctx app]. rewrite app_nil_r. reflexivity. }
    destruct (w <? -1).
    { destruct (fix_left_heavy (Node i l k v w r)) eqn:E; [|discriminate]. apply ifix_l in E.
      cbn in H. injection H as <-. rewrite E. cbn [ilctx irctx app]. rewrite app_nil_r. reflexivity. }
    destruct (w =? 0); injection H as <-; cbn [plug ilctx irctx app]; rewrite app_nil_r; reflexivity.
  - destruct (w >? 1).
    { destruct (fix_right_heavy (Node i l k v w r)) eqn:E; [|discriminate]. apply ifix_r in E.
      cbn [option_map] in H. injection H as <-. rewrite <- E. apply (ielements_plug (f :: p)). }
    destruct (w <? -1).
    { destruct (fix_left_heavy (Node i l k v w r)) eqn:E; [|discriminate]. apply ifix_l in E.
      cbn [option_map] in H. injection H as <-. rewrite <- E. apply (ielements_plug (f :: p)). }
    destruct (w =? 0).
    + injection H as <-. apply (ielements_plug (f :: p)).
    + destruct f as [i2 k2 v2 w2 r2|i2 l2 k2 v2 w2]; apply IH in H; rewrite H;
        cbn [ielements ilctx irctx]; asc.
Qed.

Definition il (l : list (nat * (K * V))) : list nat := List.map fst l.

Lemma igo_right_ctx : forall (t : tree K V) (p : path K V),
  irctx (snd (go_right t p)) = irctx p /\
  ilctx (snd (go_right t p)) ++ ielements (fst (go_right t p)) = ilctx p ++ ielements t.
Proof.
  induction t as [|i l _ k v w r IHr]; intros p; [cbn; auto|].
  cbn [go_right]. destruct r as [|ri rl rk rv rw rr]; [cbn; auto|].
  destruct (IHr (InRight i l k v w :: p)) as [H1 H2]. cbn [irctx ilctx] in H1, H2.
  split; [exact H1|]. rewrite H2. cbn [ielements]. asc.
Qed.

Lemma igo_left_ctx : forall (t : tree K V) (p : path K V),
  ilctx (snd (go_left t p)) = ilctx p /\
  ielements (fst (go_left t p)) ++ irctx (snd (go_left t p)) = ielements t ++ irctx p.
Proof.
  induction t as [|i l IHl k v w r _]; intros p; [cbn; auto|].
  cbn [go_left]. destruct l as [|li ll lk lv lw lr]; [cbn; auto|].
  destruct (IHl (InLeft i k v w r :: p)) as [H1 H2]. cbn [irctx ilctx] in H1, H2.
  split; [exact H1|]. rewrite H2. cbn [ielements]. asc.
Qed.

Lemma unlink_ids : forall (p : path K V) t', unlink p = Some t' -> ids t' = il (ilctx p) ++ il (irctx p).
Proof. intros p t' H. unfold ids, il. rewrite (iunlink p t' H), map_app. reflexivity. Qed.


Inductive sub : list nat -> list nat -> Prop :=
| sub_nil : forall l, sub [] l
| sub_take : forall x a b, sub a b -> sub (x :: a) (x :: b)
| sub_skip : forall x a b, sub a b -> sub a (x :: b).

Lemma sub_refl : forall a, sub a a.
Proof. induction a; constructor; auto. Qed.
Lemma sub_app : forall a b c d, sub a b -> sub c d -> sub (a ++ c) (b ++ d).
Proof.
  intros a b c d H. revert c d. induction H; intros c d Hc; cbn.
  - induction l; cbn; auto. constructor; auto.
  - constructor; auto.
  - constructor; auto.
Qed.
Lemma sub_in : forall a b x, sub a b -> In x a -> In x b.
Proof. intros a b x H. induction H; cbn; intuition. Qed.
Lemma sub_nodup : forall a b, sub a b -> NoDup b -> NoDup a.
Proof.
  intros a b H. induction H; intros N; [constructor| |]; inversion N; subst; auto.
  constructor; auto. intros X. eapply sub_in in X; eauto.
Qed.

Lemma erase_at_ids : forall i l k v w r (p : path K V) t',
  erase_at (Node i l k v w r) p = Some t' -> sub (ids t') (ids (plug (Node i l k v w r) p)).
Proof.
  intros i l k v w r p t' H.
  assert (E0 : ids (plug (Node i l k v w r) p)
     = il (ilctx p) ++ (ids l ++ i :: ids r) ++ il (irctx p)).
  { unfold ids, il. rewrite ielements_plug. cbn [ielements]. rewrite !map_app. reflexivity. }
  rewrite E0. clear E0.
  assert (GL : l <> Leaf ->
     (match fst (go_right l []) with
        | Node _ _ rk rv _ _ =>
            match go_right l (InLeft i rk rv w r :: p) with
            | (Node j (Node _ _ ck cv _ _) _ _ jw jr, rp) => unlink (InLeft j ck cv jw jr :: rp)
            | (Node _ Leaf _ _ _ _, rp) => unlink rp
            | (Leaf, _) => None
            end
        | Leaf => None
        end) = Some t' ->
     sub (ids t') (il (ilctx p) ++ (ids l ++ i :: ids r) ++ il (irctx p))).
  { intros Hl HH. destruct (go_right_node l [] Hl) as (j & jl & rk & rv & jw & Ej).
    rewrite Ej in HH. set (P := InLeft i rk rv w r :: p) in *.
    assert (Ef : fst (go_right l P) = Node j jl rk rv jw Leaf)
      by (rewrite (go_right_fst l P []); exact Ej).
    destruct (igo_right_ctx l P) as [Hrc Hlc].
    destruct (go_right l P) as [tj rp]. cbn [fst snd] in *. subst tj.
    unfold P in Hrc, Hlc. cbn [irctx ilctx ielements] in Hrc, Hlc.
    assert (Eall : il (ilctx p) ++ (ids l ++ i :: ids r) ++ il (irctx p)
       = il (ilctx rp) ++ (ids jl ++ [j]) ++ il (irctx rp)).
    { rewrite Hrc. transitivity (il (ilctx p ++ ielements l) ++ i :: ids r ++ il (irctx p)).
      - unfold ids, il. rewrite !map_app. repeat (rewrite <- ?app_assoc; cbn [app]). reflexivity.
      - rewrite <- Hlc. unfold ids, il. rewrite !map_app. cbn [List.map fst].
        rewrite !map_app. repeat (rewrite <- ?app_assoc; cbn [app]). reflexivity. }
    rewrite Eall. clear Eall Hrc Hlc.
    destruct jl as [|c cl ck cv cw cr]; apply unlink_ids in HH; rewrite HH.
    - apply sub_app; [apply sub_refl|]. cbn. apply sub_skip, sub_refl.
    - cbn [ilctx irctx]. apply sub_app; [apply sub_refl|].
      unfold il; cbn [List.map fst ielements app]. fold (il (irctx rp)).
      rewrite <- app_assoc.
      apply (sub_app [] (ids (Node c cl ck cv cw cr))); [constructor|]. apply sub_refl. }
  assert (GR : r <> Leaf ->
     (match fst (go_left r []) with
        | Node _ _ rk rv _ _ =>
            match go_left r (InRight i l rk rv w :: p) with
            | (Node j jl _ _ jw (Node _ _ ck cv _ _), rp) => unlink (InRight j jl ck cv jw :: rp)
            | (Node _ _ _ _ _ Leaf, rp) => unlink rp
            | (Leaf, _) => None
            end
        | Leaf => None
        end) = Some t' ->
     sub (ids t') (il (ilctx p) ++ (ids l ++ i :: ids r) ++ il (irctx p))).
  { intros Hl HH. destruct (go_left_node r [] Hl) as (j & rk & rv & jw & jr & Ej).
    rewrite Ej in HH. set (P := InRight i l rk rv w :: p) in *.
    assert (Ef : fst (go_left r P) = Node j Leaf rk rv jw jr)
      by (rewrite (go_left_fst r P []); exact Ej).
    destruct (igo_left_ctx r P) as [Hlc Hrc].
    destruct (go_left r P) as [tj rp]. cbn [fst snd] in *. subst tj.
    unfold P in Hrc, Hlc. cbn [irctx ilctx ielements app] in Hrc, Hlc.
    assert (Eall : il (ilctx p) ++ (ids l ++ i :: ids r) ++ il (irctx p)
       = il (ilctx rp) ++ ([j] ++ ids jr) ++ il (irctx rp)).
    { rewrite Hlc. transitivity ((il (ilctx p) ++ ids l ++ [i]) ++ il (ielements r ++ irctx p)).
      - unfold ids, il. rewrite !map_app. repeat (rewrite <- ?app_assoc; cbn [app]). reflexivity.
      - rewrite <- Hrc. unfold ids, il. repeat (rewrite ?map_app; cbn [List.map fst]).
        repeat (rewrite <- ?app_assoc; cbn [app]). reflexivity. }
    rewrite Eall. clear Eall Hrc Hlc.
    destruct jr as [|c cl ck cv cw cr]; apply unlink_ids in HH; rewrite HH.
    - apply sub_app; [apply sub_refl|]. cbn. apply sub_skip, sub_refl.
    - cbn [ilctx irctx ielements app]. unfold il at 1. rewrite map_app. cbn [List.map fst].
      rewrite <- app_assoc. apply sub_app; [apply sub_refl|]. cbn [app]. apply sub_take.
      apply (sub_app [] (ids (Node c cl ck cv cw cr))); [constructor|]. apply sub_refl. }
  cbn [erase_at] in H.
  destruct l as [|li ll lk lv lw lr].
  - destruct r as [|ri rl rk rv rw rr].
    + apply unlink_ids in H. rewrite H. apply sub_app; [apply sub_refl|].
      cbn. apply sub_skip, sub_refl.
    + rewrite andb_false_r in H. apply GR; [discriminate|exact H].
  - destruct ((w <=? 0) && true).
    + apply GL; [discriminate|]. destruct r; exact H.
    + destruct r as [|ri rl rk rv rw rr].
      * cbn in H. discriminate.
      * apply GR; [discriminate|exact H].
Qed.

Definition idinv (m : map K V) := NoDup (ids (root m)) /\ forall i, In i (ids (root m)) -> (i < fresh m)%nat.

Lemma plug_descend : forall (t : tree K V) p k,
  plug (fst (descend ltb eqb k t p)) (snd (descend ltb eqb k t p)) = plug t p.
Proof.
  induction t as [|i l IHl k0 v w r IHr]; intros p k; cbn [descend]; [reflexivity|].
  destruct (ltb k k0); [rewrite IHl; reflexivity|].
  destruct (eqb k k0); [reflexivity|]. rewrite IHr. reflexivity.
Qed.

Lemma ids_plug_value : forall i l k v v' w r (p : path K V),
  ids (plug (Node i l k v w r) p) = ids (plug (Node i l k v' w r) p).
Proof. intros. unfold ids. rewrite !ielements_plug. cbn [ielements]. rewrite !map_app. reflexivity. Qed.

Lemma insert_idinv : forall m m' k v, idinv m -> insert ltb eqb m k v = Some m' -> idinv m'.
Proof.
  intros m m' k v [N L] H. unfold insert in H.
  pose proof (plug_descend (root m) [] k) as Hp.
  destruct (descend ltb eqb k (root m) []) as [t p]. cbn [fst snd plug] in Hp.
  destruct t as [|i l k0 v0 w r].
  - assert (G : exists t, (match p with
        | [] => Some (Node (fresh m) Leaf k v 0 Leaf)
        | InLeft i k1 v1 w r :: p' =>
            insert_up (Node i (Node (fresh m) Leaf k v 0 Leaf) k1 v1 (w - 1) r) p'
        | InRight i l k1 v1 w :: p' =>
            insert_up (Node i l k1 v1 (w + 1) (Node (fresh m) Leaf k v 0 Leaf)) p'
        end) = Some t /\ m' = {| root := t; sized := S (sized m); fresh := S (fresh m) |}).
    { match type of H with option_map _ ?x = _ => destruct x; [|discriminate] end.
      cbn in H. injection H as <-. eauto. }
    destruct G as (t & E & ->).
    assert (Ei : ids t = il (ilctx p) ++ fresh m :: il (irctx p)).
    { unfold ids, il. destruct p as [|[i k1 v1 w r|i l k1 v1 w] p'].
      - injection E as <-. reflexivity.
      - apply iinsert_up in E. rewrite E. cbn [ielements ilctx irctx app List.map fst].
        repeat (rewrite ?map_app; cbn [List.map fst app]). reflexivity.
      - apply iinsert_up in E. rewrite E. cbn [ielements ilctx irctx app List.map fst].
        repeat (rewrite ?map_app; cbn [List.map fst]). repeat (rewrite <- ?app_assoc; cbn [app]).
        reflexivity. }
    assert (Er : ids (root m) = il (ilctx p) ++ il (irctx p)).
    { unfold ids, il. rewrite <- Hp, ielements_plug. cbn [ielements app]. apply map_app. }
    split; cbn [root fresh]; rewrite Ei; rewrite Er in *.
    + apply NoDup_Add with (a := fresh m) (l := il (ilctx p) ++ il (irctx p)).
      * apply Add_app.
      * split; [exact N|]. intros X. apply L in X. lia.
    + intros i Hi. apply in_app_or in Hi. destruct Hi as [Hi|[<-|Hi]]; [|lia|];
        (assert (i < fresh m)%nat by (apply L; apply in_or_app; auto)); lia.
  - injection H as <-. split; cbn [root fresh]; rewrite (ids_plug_value i l k0 v v0 w r p), Hp; auto.
Qed.

Lemma set_value_idinv : forall m m' k v, idinv m -> set_value ltb eqb m k v = Some m' -> idinv m'.
Proof.
  intros m m' k v [N L] H. unfold set_value in H.
  pose proof (plug_descend (root m) [] k) as Hp.
  destruct (descend ltb eqb k (root m) []) as [t p]. cbn [fst snd plug] in Hp.
  destruct t as [|i l k0 v0 w r]; [discriminate|].
  injection H as <-. split; cbn [root fresh]; rewrite (ids_plug_value i l k0 v v0 w r p), Hp; auto.
Qed.

Lemma step_idinv : forall d m o m', idinv m -> step ltb eqb d m o = Some m' -> idinv m'.
Proof.
  intros d m [k v|k v|k|] m' I H; cbn [step] in H.
  - eapply insert_idinv; eauto.
  - unfold assign in H. destruct (find ltb eqb m k).
    + eapply set_value_idinv; eauto.
    + destruct (insert ltb eqb m k d) eqn:E; [|discriminate].
      eapply set_value_idinv; [|eauto]. eapply insert_idinv; eauto.
  - unfold erase in H. pose proof (plug_descend (root m) [] k) as Hp.
    destruct (descend ltb eqb k (root m) []) as [t p]. cbn [fst snd plug] in Hp.
    destruct t as [|i l k0 v0 w r]; [injection H as <-; auto|].
    destruct (erase_at (Node i l k0 v0 w r) p) eqn:E; [|discriminate].
    injection H as <-. apply erase_at_ids in E. rewrite Hp in E. destruct I as [N L].
    split; cbn [root fresh].
    + eapply sub_nodup; eauto.
    + intros j Hj. apply L. eapply sub_in; eauto.
  - injection H as <-. split; cbn; [constructor|tauto].
Qed.

Lemma run_idinv : forall d ops m m', idinv m -> run ltb eqb d ops m = Some m' -> idinv m'.
Proof.
  induction ops as [|o ops IH]; intros m m' I H; cbn [run] in H.
  - injection H as <-; auto.
  - destruct (step ltb eqb d m o) eqn:E; [|discriminate]. eapply IH; [|eauto].
    eapply step_idinv; eauto.
Qed.

Lemma erase_childless : forall (d : V) ops m m' key i w p,
  run ltb eqb d ops empty_map = Some m ->
  (exists k v, descend ltb eqb key (root m) [] = (Node i Leaf k v w Leaf, p)) ->
  erase ltb eqb m key = Some m' ->
  forall j, j <> i -> node_at j (root m') = node_at j (root m).
Proof.
  intros d ops m m' key i w p Hr (k & v & Hd) He j Hj.
  assert (I : idinv m).
  { eapply run_idinv; [|eauto]. split; cbn; [constructor|tauto]. }
  pose proof (plug_descend (root m) [] key) as Hp. rewrite Hd in Hp. cbn [fst snd plug] in Hp.
  eapply erase_childless_keeps; eauto. apply I.
Qed.

Lemma find_node_at : forall (d : V) ops m key i v,
  run ltb eqb d ops empty_map = Some m -> find ltb eqb m key = Some (i, v) ->
  node_at i (root m) = Some (key, v).
Proof.
  intros d ops m key i v Hr Hf.
  assert (I : idinv m).
  { eapply run_idinv; [|eauto]. split; cbn; [constructor|tauto]. }
  destruct (run_inv d ops) as (m' & E & Iv & _). rewrite Hr in E. injection E as <-.
  destruct law as (L1 & L2 & L3 & L4).
  pose proof (descend_root ltb eqb L1 L3 L4 m key Iv) as H. unfold find in Hf.
  destruct (descend ltb eqb key (root m) []) as [t p]. cbn [fst] in Hf.
  destruct t as [|i' l k0 v0 w r]; [discriminate|]. injection Hf as -> ->.
  destruct H as (Hp & _ & _ & _ & _ & _ & ->).
  rewrite node_at_ifind by apply I. destruct I as [N _]. unfold ids in N.
  rewrite <- Hp in *. rewrite ielements_plug in *. cbn [ielements] in *.
  rewrite <- app_assoc in *. cbn [app] in *. rewrite app_assoc in *.
  rewrite map_app in N. cbn [List.map fst] in N. rewrite ifind_app. cbn [ifind].
  rewrite Nat.eqb_refl.
  destruct (ifind i (ilctx p ++ ielements l)) eqn:F; auto.
  exfalso. apply NoDup_remove_2 in N. apply N. apply in_or_app. left. apply ifind_in. congruence.
Qed.

End Wrap.
