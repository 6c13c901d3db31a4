(** What a <channel> element means, and what is kept of a curve that is written and read back.  Only the types of the model (xml,
    key, curve, channel), the notions of RigSpec.v for XML and numbers and CRC32 are used. *)
From Coq Require Import List ZArith NArith QArith Qabs Bool String.
From Verif Require Import TextModel TextSpec FloatModel FloatSpec DaeModel DaeSpec RigModel RigSpec CrcModel AnimModel.
Import ListNotations.
Local Open Scope nat_scope.
Local Open Scope list_scope.

(** *** Finding elements by their ids *)
(** scopes are the children of an animation, of the animation around it and so on.  n is the nearest element with the id, in
    document order ... *)
Definition bytes (t : list Z) : list N := map Z.to_N t.
(** ... and no element with another id or without one can be taken for one with this id. *)
Definition unmistakable (scopes : list (list xml)) (id : list Z) : Prop :=
  forall l c, In l scopes -> In c l ->
    (forall v, has_attr c "id" v -> CRC32 (bytes v) = CRC32 (bytes id) -> v = id) /\ (no_attr c "id" -> CRC32 (bytes id) <> 0%N).
Definition refers (scopes : list (list xml)) (id : list Z) (n : xml) : Prop :=
  proper_id id /\ exists inner l outer, scopes = inner ++ l :: outer /\ Forall (Forall (fun c => ~ with_id id c)) inner /\
    first_child l (with_id id) n /\ unmistakable (inner ++ [l]) id.

(** *** Sources *)
(** The accessor of a source has this stride and this count. *)
Definition accessor (n : xml) (stride count : nat) : Prop :=
  exists tc acc t1 t2, first_child (children_of n) (is_elem "technique_common") tc /\ first_child (children_of tc) (is_elem "accessor") acc /\
    has_attr acc "stride" t1 /\ decimal (Z.of_nat stride) t1 /\ has_attr acc "count" t2 /\ decimal (Z.of_nat count) t2 /\
    (Z.of_nat stride < 4294967296)%Z /\ (Z.of_nat count < 4294967296)%Z.
(** A source whose array holds these rows of [stride] numbers; the accessor has [count] of them. *)
Definition table (n : xml) (stride count : nat) (rows : list (list Q)) : Prop :=
  0 < stride /\ accessor n stride count /\ Forall (fun r => List.length r = stride) rows /\
  exists name attrs ch e t, n = Elem name attrs ch /\ has_text e t /\ first_child ch (is_elem "float_array") e /\ numbers_of float_text t (List.concat rows).
(** A source of words; the accessor takes one of every [stride]. *)
Definition interpolation_source (n : xml) (taken : list (list Z)) : Prop :=
  exists stride l, 0 < stride /\ accessor n stride (List.length taken) /\ (Z.of_nat (List.length taken * stride) < 4294967296)%Z /\
    (forall i, i < List.length taken -> nth_error l (i * stride) = nth_error taken i) /\
    exists name attrs ch e t, n = Elem name attrs ch /\ has_text e t /\ first_child ch (is_elem "Name_array") e /\ words_of t l.

(** *** The meaning of a <channel> *)
(** The data of a sampler for [dim] curves: times; for each key a row of [dim] values; words for the interpolations; tangents in
    rows of [dim] pairs (or [dim] numbers, relative to the values, in old documents); TCB values in rows of [dim] triples, eases in
    rows of [dim] pairs; the infinities and the driver with its index. *)
Inductive tangents := Pairs (rows : list (list Q)) | Relative (rows : list (list Q)).
Record channel_data := ChannelData { d_times : list Q; d_values : list (list Q); d_words : list (list Z);
  d_in : option tangents; d_out : option tangents; d_tcb : option (list (list Q)); d_ease : option (list (list Q));
  d_pre : Z; d_post : Z; d_driver : option (list Z * Z) }.
(** Exactly one of the inputs has the semantic, with the source "#id"; or none has it. *)
Definition wired (ins : list xml) (semantic : string) (id : option (list Z)) : Prop :=
  match id with
  | Some id => exists l i r, ins = l ++ i :: r /\ has_attr i "semantic" (tx semantic) /\ has_attr i "source" (35%Z :: id) /\
      Forall (fun i => ~ has_attr i "semantic" (tx semantic)) (l ++ r)
  | None => Forall (fun i => ~ has_attr i "semantic" (tx semantic)) ins
  end.
(** The input with the semantic, if there is one, names a source with P. *)
Definition sampled (scopes : list (list xml)) (ins : list xml) (semantic : string) {A} (P : xml -> A -> Prop) (x : option A) : Prop :=
  match x with
  | Some x => exists id n, wired ins semantic (Some id) /\ refers scopes id n /\ P n x
  | None => wired ins semantic None
  end.
Definition tangent_table (dim : nat) (n : xml) (t : tangents) : Prop :=
  match t with
  | Pairs rows => exists count, table n (2 * dim) count rows /\ count <= List.length rows
  | Relative rows => exists count, table n dim count rows /\ count <= List.length rows
  end.
(** The infinities are in the <technique> for Maya of the source of the times. *)
Definition infinity_code (w : string) (z : Z) : Prop :=
  In (w, z) [("CONSTANT", 0); ("LINEAR", 1); ("CYCLE", 2); ("CYCLE_RELATIVE", 3); ("OSCILLATE", 4)]%string%Z.
Definition is_maya (n : xml) : Prop := is_elem "technique" n /\ has_attr n "profile" (tx "MAYA").
Definition infinities (n : xml) (pre post : Z) : Prop :=
  (forall c v, In c (children_of n) -> has_attr c "profile" v -> plain v) /\
  ((Forall (fun c => ~ is_maya c) (children_of n) /\ pre = 0%Z /\ post = 0%Z) \/
   exists m e1 e2 w1 w2, first_child (children_of n) is_maya m /\ (children_of m = [e1; e2] \/ children_of m = [e2; e1]) /\
     is_elem "pre_infinity" e1 /\ has_text e1 (tx w1) /\ infinity_code w1 pre /\ is_elem "post_infinity" e2 /\ has_text e2 (tx w2) /\ infinity_code w2 post).
(** A pointer to a value: it has none of the characters that begin a qualifier. *)
Definition proper_pointer (p : list Z) : Prop := proper_id p /\ Forall (fun c => c <> 40 /\ c <> 91 /\ c <> 46)%Z p.
(** The reference "#p(i)" to a driver. *)
Definition driver_reference (t : list Z) (p : list Z) (i : Z) : Prop :=
  proper_pointer p /\ (0 <= i <= 2147483599)%Z /\ exists ds rest, t = p ++ 40%Z :: ds ++ 41%Z :: rest /\ decimal i ds /\ plain rest.
Definition driven (ins : list xml) (d : option (list Z * Z)) : Prop :=
  match d with
  | Some (p, i) => exists t, wired ins "DRIVER" (Some t) /\ driver_reference t p i
  | None => wired ins "DRIVER" None
  end.
(** The channel n reads these data for [dim] curves and targets the pointer with the qualifier. *)
Record describes (scopes : list (list xml)) (n : xml) (dim : nat) (d : channel_data) (pointer qualifier : list Z) : Prop := Describes {
  e_target : has_attr n "target" (pointer ++ qualifier) /\ plain pointer /\ plain qualifier /\
    Forall (fun c => c <> 40 /\ c <> 91 /\ c <> 46)%Z pointer /\ (qualifier = [] \/ In (hd 0%Z qualifier) [40; 91; 46]%Z);
  e_sampler : exists id s attrs ch ins, has_attr n "source" (35%Z :: id) /\ refers scopes id s /\ s = Elem (tx "sampler") attrs ch /\
    inputs_among ch ins /\ (forall i v, In i ins -> has_attr i "semantic" v -> plain v) /\
    sampled scopes ins "INPUT" (fun n l => float_source n l /\ infinities n (d_pre d) (d_post d)) (Some (d_times d)) /\
    sampled scopes ins "OUTPUT" (fun n l => exists count, table n dim count l /\ count <= List.length l) (Some (d_values d)) /\
    sampled scopes ins "INTERPOLATION" interpolation_source (match d_words d with [] => None | l => Some l end) /\
    sampled scopes ins "IN_TANGENT" (tangent_table dim) (d_in d) /\ sampled scopes ins "OUT_TANGENT" (tangent_table dim) (d_out d) /\
    sampled scopes ins "TCB" (fun n l => table n (3 * dim) (List.length l) l) (d_tcb d) /\
    sampled scopes ins "EASE_IN_OUT" (fun n l => exists count, table n (2 * dim) count l /\ count <= List.length l) (d_ease d) /\
    driven ins (d_driver d);
  e_filled : d_times d <> [] /\ (Z.of_nat dim < 2147483648)%Z
}.
(** *** The curves of a channel *)
(** The number at column i of row j; 0 where there is none. *)
Definition at_row (rows : list (list Q)) (j i : nat) : Q := nth i (nth j rows []) 0%Q.
(** The interpolation at key j: BEZIER where no word is given. *)
Definition word_is (words : list (list Z)) (j : nat) (w : string) : Prop := nth_error words j = Some (tx w).
Definition known_word (words : list (list Z)) (j : nat) : Prop :=
  List.length words <= j \/ word_is words j "STEP" \/ word_is words j "LINEAR" \/ word_is words j "BEZIER" \/ word_is words j "TCB".
(** The tangents at key j of curve i: those of the document; otherwise a third of the way to the previous or the next time (one
    second before the first and after the last), at the value of the key.  [sign]: 1 for incoming, -1 for outgoing. *)
Definition third_in (times : list Q) (j : nat) : Q :=
  let t := nth j times 0%Q in ((match j with O => t - 1 | S i => nth i times 0 end + 2 * t) / 3)%Q.
Definition third_out (times : list Q) (j : nat) : Q :=
  let t := nth j times 0%Q in let next := if S j =? List.length times then (t + 1)%Q else nth (S j) times 0%Q in ((next + 2 * t) / 3)%Q.
Definition tangent_is (d : option tangents) (sign : Q) (default : Q) (i j : nat) (value : Q) (uv : Q * Q) : Prop :=
  match d with
  | Some (Pairs rows) => if j <? List.length rows then (fst uv == at_row rows j (2 * i) /\ snd uv == at_row rows j (2 * i + 1))%Q
                         else (fst uv == default /\ snd uv == value)%Q
  | Some (Relative rows) => if j <? List.length rows then (fst uv == default /\ snd uv == value - sign * at_row rows j i)%Q
                            else (fst uv == default /\ snd uv == value)%Q
  | None => (fst uv == default /\ snd uv == value)%Q
  end.
(** The TCB values and eases at key j of curve i: those of the document, otherwise 1/2, 1/2, 1/2 and 0, 0. *)
Definition numbers_or (rows : option (list (list Q))) (w i j : nat) (default l : list Q) : Prop :=
  match rows with
  | Some rows => if j <? List.length rows then Forall2 Qeq (map (fun c => at_row rows j (w * i + c)) (seq 0 w)) l else Forall2 Qeq default l
  | None => Forall2 Qeq default l
  end.
(** The key j of curve i. *)
Definition key_is (d : channel_data) (i j : nat) (k : key) : Prop :=
  let t := nth j (d_times d) 0%Q in
  let v := at_row (d_values d) j i in
  (input k == t)%Q /\ (output k == v)%Q /\
  (word_is (d_words d) j "STEP" -> kind k = Plain 0) /\
  (word_is (d_words d) j "LINEAR" -> kind k = Plain 1) /\
  (word_is (d_words d) j "BEZIER" \/ List.length (d_words d) <= j -> exists ti to, kind k = Bezier ti to /\
     tangent_is (d_in d) 1 (third_in (d_times d) j) i j v ti /\ tangent_is (d_out d) (-1) (third_out (d_times d) j) i j v to) /\
  (word_is (d_words d) j "TCB" -> exists te co bi ei eo, kind k = Tcb te co bi ei eo /\
     numbers_or (d_tcb d) 3 i j [1 # 2; 1 # 2; 1 # 2]%Q [te; co; bi] /\ numbers_or (d_ease d) 2 i j [0; 0]%Q [ei; eo]) /\
  (~ known_word (d_words d) j -> kind k = Plain 4).
Definition curve_is (d : channel_data) (i : nat) (c : curve) : Prop :=
  List.length (keys c) = List.length (d_times d) /\ (forall j k, nth_error (keys c) j = Some k -> key_is d i j k) /\
  pre_infinity c = d_pre d /\ post_infinity c = d_post d /\ driver c = d_driver d.
Definition channel_is (dim : nat) (d : channel_data) (pointer qualifier : list Z) (c : channel) : Prop :=
  target_pointer c = pointer /\ target_qualifier c = qualifier /\ List.length (curves c) = dim /\
  forall i x, nth_error (curves c) i = Some x -> curve_is d i x.

(** *** The channels of an animation *)
(** l are the elements with this name in a list, in order. *)
Inductive among (name : string) : list xml -> list xml -> Prop :=
| A_nil : among name [] []
| A_skip : forall c l l', ~ is_elem name c -> among name l l' -> among name (c :: l) l'
| A_keep : forall c l l', is_elem name c -> among name l l' -> among name (c :: l) (c :: l').
(** A channel and what it means. *)
Record meaning := Meaning { m_dim : nat; m_data : channel_data; m_pointer : list Z; m_qualifier : list Z }.
Definition means (scopes : list (list xml)) (n : xml) (m : meaning) : Prop := describes scopes n (m_dim m) (m_data m) (m_pointer m) (m_qualifier m).
Definition loaded (m : meaning) (c : channel) : Prop := channel_is (m_dim m) (m_data m) (m_pointer m) (m_qualifier m) c.
(** A channel whose sampler does not exist: no element has an id that could be taken for it. *)
Definition dangling (scopes : list (list xml)) (n : xml) : Prop :=
  exists id, has_attr n "source" (35%Z :: id) /\ proper_id id /\ CRC32 (bytes id) <> 0%N /\
    forall l c v, In l scopes -> In c l -> has_attr c "id" v -> CRC32 (bytes v) <> CRC32 (bytes id).

(** *** Writing animations and reading them back *)
(** A number well within the range of the texts. *)
Definition number (q : Q) : Prop := (Qabs q <= Qpower 10 308)%Q.
(** A key as AddKey makes it: STEP, LINEAR and UNKNOWN keys are plain. *)
Definition proper_key (k : key) : Prop :=
  number (input k) /\ number (output k) /\
  match kind k with
  | Plain z => In z [0; 1; 4]%Z
  | Bezier i o => number (fst i) /\ number (snd i) /\ number (fst o) /\ number (snd o)
  | Tcb t c b i o => number t /\ number c /\ number b /\ number i /\ number o
  end.
Definition proper_infinity (z : Z) : Prop := (0 <= z <= 4)%Z.
Definition proper_driver (d : option (list Z * Z)) : Prop := match d with Some (p, i) => proper_pointer p /\ (0 <= i <= 2147483599)%Z | None => True end.
(** The target: a pointer to a value, an element or -1, and a qualifier such as ".X". *)
Definition proper_target (pointer : list Z) (element : Z) (qualifier : list Z) : Prop :=
  plain pointer /\ Forall (fun c => c <> 40 /\ c <> 91 /\ c <> 46)%Z pointer /\ plain qualifier /\
  ((0 <= element)%Z \/ qualifier = [] \/ In (hd 0%Z qualifier) [40; 91; 46]%Z).
(** The memory met when a curve with n keys is written holds n numbers. *)
Definition proper_curve (pointer : list Z) (c : targeted) : Prop :=
  let x := t_curve c in
  keys x <> [] /\ (Z.of_nat (List.length (keys x)) < 2147483648)%Z /\ Forall proper_key (keys x) /\ proper_infinity (pre_infinity x) /\
  proper_infinity (post_infinity x) /\ proper_driver (driver x) /\ proper_target pointer (element c) (qualifier c) /\
  List.length (memory c) = List.length (keys x).
(** All dimensions of a merged key have its time and its interpolation. *)
Definition proper_mkey (dim : nat) (k : mkey) : Prop :=
  List.length (m_cells k) = dim /\ Forall (fun x => proper_key x /\ input x = m_input k /\ interpolation (kind x) = m_interpolation k) (m_cells k).
Definition proper_multi (pointer memory : list Z) (m : multi) : Prop :=
  0 < dimension m /\ (Z.of_nat (3 * dimension m) < 4294967296)%Z /\ m_keys m <> [] /\ (Z.of_nat (List.length (m_keys m)) < 2147483648)%Z /\
  Forall (proper_mkey (dimension m)) (m_keys m) /\ proper_infinity (m_pre m) /\ proper_infinity (m_post m) /\ proper_target pointer (m_element m) [] /\
  List.length memory = List.length (m_keys m).
Definition proper_track (t : track) : Prop :=
  match t with
  | Separate pointer cs => Forall (proper_curve pointer) cs
  | Merged pointer _ memory m => proper_multi pointer memory m
  end.
Inductive proper_tree : tree -> Prop :=
| PT : forall id tracks subs, Forall proper_track tracks -> Forall proper_tree subs -> proper_tree (Tree id tracks subs).
(** No two of the elements have ids with the same CRC, and no CRC is 0. *)
Definition distinct_ids (ch : list xml) : Prop :=
  (forall l c m c' r v v', ch = l ++ c :: m ++ c' :: r -> has_attr c "id" v -> has_attr c' "id" v' -> CRC32 (bytes v) <> CRC32 (bytes v')) /\
  (forall c v, In c ch -> has_attr c "id" v -> CRC32 (bytes v) <> 0%N).
(** No CRC of an id is 0 and different ids have different CRCs. *)
Definition faithful_ids (ch : list xml) : Prop :=
  (forall c c' v v', In c ch -> In c' ch -> has_attr c "id" v -> has_attr c' "id" v' -> CRC32 (bytes v) = CRC32 (bytes v') -> v = v') /\
  (forall c v, In c ch -> has_attr c "id" v -> CRC32 (bytes v) <> 0%N).
Inductive clear_ids : xml -> Prop :=
| CI : forall name attrs ch, distinct_ids ch -> (forall c, In c ch -> is_elem "animation" c -> clear_ids c) -> clear_ids (Elem name attrs ch).
(** What is kept of a key when the memory held [code]: time and value; the interpolation is that of the memory; if that happens to be
    the interpolation of the key, all the rest. *)
Definition pair_remains (eps : Q) (a b : Q * Q) : Prop := remains eps (fst a) (fst b) /\ remains eps (snd a) (snd b).
Definition shape_remains (eps : Q) (s s' : shape) : Prop :=
  match s, s' with
  | Plain z, Plain z' => z' = z
  | Bezier i o, Bezier i' o' => pair_remains eps i i' /\ pair_remains eps o o'
  | Tcb t c b i o, Tcb t' c' b' i' o' => remains eps t t' /\ remains eps c c' /\ remains eps b b' /\ remains eps i i' /\ remains eps o o'
  | _, _ => False
  end.
Definition code_of (z : Z) : Z := if (0 <=? z)%Z && (z <=? 3)%Z then z else 4%Z.
Definition key_remains (eps : Q) (code : Z) (k k' : key) : Prop :=
  remains eps (input k) (input k') /\ remains eps (output k) (output k') /\ interpolation (kind k') = code_of code /\
  (code = interpolation (kind k) -> shape_remains eps (kind k) (kind k')).
Definition keys_remain (eps : Q) (codes : list Z) (ks ks' : list key) : Prop :=
  List.length ks' = List.length ks /\
  forall j code k k', nth_error codes j = Some code -> nth_error ks j = Some k -> nth_error ks' j = Some k' -> key_remains eps code k k'.
(** The qualifier of the target: "(element)" and the qualifier of the curve. *)
Definition qualifier_is (element : Z) (qualifier q : list Z) : Prop :=
  ((0 <= element)%Z -> exists ds, decimal element ds /\ q = 40%Z :: ds ++ 41%Z :: qualifier) /\ ((element < 0)%Z -> q = qualifier).
Definition curve_kept (eps : Q) (pointer : list Z) (c : targeted) (ch : channel) : Prop :=
  target_pointer ch = pointer /\ qualifier_is (element c) (qualifier c) (target_qualifier ch) /\
  exists x, curves ch = [x] /\ keys_remain eps (memory c) (keys (t_curve c)) (keys x) /\ pre_infinity x = pre_infinity (t_curve c) /\
    post_infinity x = post_infinity (t_curve c) /\ driver x = driver (t_curve c).
(** Curve i of merged keys. *)
Definition dimension_of (m : multi) (i : nat) (ks : list key) : Prop := Forall2 (fun k x => nth_error (m_cells k) i = Some x) (m_keys m) ks.
Definition multi_kept (eps : Q) (pointer memory : list Z) (m : multi) (ch : channel) : Prop :=
  target_pointer ch = pointer /\ qualifier_is (m_element m) [] (target_qualifier ch) /\ List.length (curves ch) = dimension m /\
  forall i x, nth_error (curves ch) i = Some x -> pre_infinity x = m_pre m /\ post_infinity x = m_post m /\ driver x = None /\
    exists ks, dimension_of m i ks /\ keys_remain eps memory ks (keys x).
Definition track_kept (eps : Q) (t : track) (chs : list channel) : Prop :=
  match t with
  | Separate pointer cs => Forall2 (curve_kept eps pointer) cs chs
  | Merged pointer _ memory m => exists ch, chs = [ch] /\ multi_kept eps pointer memory m ch
  end.
Inductive tree_kept (eps : Q) : tree -> animation -> Prop :=
| TK : forall id tracks subs groups anims, Forall2 (track_kept eps) tracks groups -> Forall2 (tree_kept eps) subs anims ->
    tree_kept eps (Tree id tracks subs) (Animation true (List.concat groups) anims).
