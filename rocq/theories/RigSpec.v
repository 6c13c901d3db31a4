(** What a <skin> or <morph> element means, and what is kept of a controller that is written and read back.  Only the types of the
    model (xml, skin, morph, mat) and the notations of numbers (TextSpec.v, FloatSpec.v) are used. *)
From Coq Require Import List ZArith QArith Qabs Bool String Permutation.
From Verif Require Import TextModel TextSpec FloatModel FloatSpec SkinModel DaeModel DaeSpec RigModel.
Import ListNotations.
Local Open Scope nat_scope.
Local Open Scope list_scope.

(** *** XML *)
Definition is_elem (name : string) (n : xml) : Prop := exists a ch, n = Elem (tx name) a ch.
Definition is_text (n : xml) : Prop := exists t, n = Text t.
(** The first attribute named k is v. *)
Definition has_attr (n : xml) (k : string) (v : list Z) : Prop :=
  exists name ch pre post, n = Elem name (pre ++ (tx k, v) :: post) ch /\ Forall (fun a => fst a <> tx k) pre.
Definition no_attr (n : xml) (k : string) : Prop := forall name attrs ch, n = Elem name attrs ch -> Forall (fun a => fst a <> tx k) attrs.
(** The text of an element; an element without children has the empty text. *)
Definition has_text (n : xml) (t : list Z) : Prop :=
  exists name attrs ch, n = Elem name attrs ch /\ ((t = [] /\ ch = []) \/ exists r, ch = Text t :: r).
(** c is the first in ch of its kind. *)
Definition first_child (ch : list xml) (P : xml -> Prop) (c : xml) : Prop :=
  exists pre post, ch = pre ++ c :: post /\ P c /\ Forall (fun d => ~ P d) pre.
(** ins are the <input> elements in a list, in order. *)
Inductive inputs_among : list xml -> list xml -> Prop :=
| I_nil : inputs_among [] []
| I_skip : forall c l ins, ~ is_elem "input" c -> inputs_among l ins -> inputs_among (c :: l) ins
| I_keep : forall c l ins, is_elem "input" c -> inputs_among l ins -> inputs_among (c :: l) (c :: ins).
(** An input with its semantic, the source "#id" and its offset. *)
Definition input_is (n : xml) (semantic : string) (id : list Z) (offset : option Z) : Prop :=
  has_attr n "semantic" (tx semantic) /\ has_attr n "source" (35%Z :: id) /\
  match offset with Some o => exists t, has_attr n "offset" t /\ signed_decimal o t | None => no_attr n "offset" end.

(** *** Lists of numbers *)
(** sep is what separates a number from the next one: spaces, tabulations and line feeds (libxml2 turns other line ends into line
    feeds), or the end of the text. *)
Definition gap (sep rest : list Z) : Prop := Forall blank sep /\ (sep = [] -> rest = []) /\ begins_not blank_or_cr rest.
(** t is a list of numbers separated by blanks, with or without blanks around it. *)
Inductive numbers_of {A} (one : list Z -> A -> Prop) : list Z -> list A -> Prop :=
| N_nil : numbers_of one [] []
| N_cons : forall lead t v sep rest vs, Forall blank lead -> one t v -> gap sep rest -> numbers_of one rest vs ->
    numbers_of one (lead ++ t ++ sep ++ rest) (v :: vs).
Definition unsigned (t : list Z) (n : Z) : Prop := decimal n t.
Definition integer (t : list Z) (n : Z) : Prop := signed_decimal n t.
(** The sixteen components of a matrix in the order of a document: row after row; mat is indexed by column, then row. *)
Definition components (m : mat) : list Q := flat_map (fun row => map (fun col => m col row) [0; 1; 2; 3]) [0; 1; 2; 3].
Definition same_matrix (m m' : mat) : Prop := forall i j, i < 4 -> j < 4 -> (m' i j == m i j)%Q.
Definition unit_matrix : mat := fun i j => if i =? j then 1%Q else 0%Q.

(** *** The meaning of a <skin> *)
(** An id as used here: not empty, and neither libxml2 nor the %-decoding of attributes changes it. *)
Definition proper_id (t : list Z) : Prop := plain t /\ t <> [].
(** A child of the element has the id. *)
Definition with_id (id : list Z) (n : xml) : Prop := has_attr n "id" id.
(** A source of words or of floats, given by the array in it. *)
Definition word_source (n : xml) (l : list (list Z)) : Prop :=
  exists name attrs ch e t, n = Elem name attrs ch /\ has_text e t /\ words_of t l /\
    (first_child ch (is_elem "Name_array") e \/ (Forall (fun c => ~ is_elem "Name_array" c) ch /\ first_child ch (is_elem "IDREF_array") e)).
Definition float_source (n : xml) (l : list Q) : Prop :=
  exists name attrs ch e t, n = Elem name attrs ch /\ has_text e t /\ numbers_of float_text t l /\ first_child ch (is_elem "float_array") e.
(** The data of a skin: joint names, inverse bind poses, weights, bind shape, and for each vertex pairs of a joint number and a
    weight number. *)
Record skin_data := SkinData { d_names : list (list Z); d_poses : list mat; d_weights : list Q; d_shape : mat; d_rows : list (list (Z * Z)) }.
(** A <skin> element with these data.  [jfirst]: the joint number comes first in <v>. *)
Record holds (n : xml) (d : skin_data) (jfirst : bool) : Prop := Holds {
  e_children : exists attrs ch J B W jn wn, n = Elem (tx "skin") attrs ch /\ proper_id J /\ proper_id B /\ proper_id W /\
    (forall c v, In c ch -> has_attr c "id" v -> plain v) /\
    (* the bind shape *)
    ((exists e t, first_child ch (is_elem "bind_shape_matrix") e /\ has_text e t /\ numbers_of float_text t (components (d_shape d))) \/
     (Forall (fun c => ~ is_elem "bind_shape_matrix" c) ch /\ same_matrix unit_matrix (d_shape d))) /\
    (* the sources *)
    (exists s, first_child ch (with_id J) s /\ word_source s (d_names d)) /\
    (exists s, first_child ch (with_id B) s /\ float_source s (flat_map components (d_poses d))) /\
    (exists s, first_child ch (with_id W) s /\ float_source s (d_weights d)) /\
    (* <joints> *)
    first_child ch (is_elem "joints") jn /\
    (exists l ins i1 i2, children_of jn = l /\ inputs_among l ins /\ Permutation [i1; i2] ins /\
       input_is i1 "JOINT" J None /\ input_is i2 "INV_BIND_MATRIX" B None) /\
    (* <vertex_weights> *)
    first_child ch (is_elem "vertex_weights") wn /\
    (exists pre vc mid v post ins i1 i2 tc t1 t2, children_of wn = pre ++ vc :: mid ++ v :: post /\
       Forall (fun c => ~ is_elem "v" c /\ ~ is_elem "vcount" c) pre /\ inputs_among pre ins /\ Permutation [i1; i2] ins /\
       input_is i1 "JOINT" J (Some (if jfirst then 0 else 1)%Z) /\ input_is i2 "WEIGHT" W (Some (if jfirst then 1 else 0)%Z) /\
       is_elem "vcount" vc /\ Forall is_text mid /\ is_elem "v" v /\
       has_attr wn "count" tc /\ decimal (Z.of_nat (List.length (d_rows d))) tc /\
       has_text vc t1 /\ numbers_of unsigned t1 (map (fun r => Z.of_nat (List.length r)) (d_rows d)) /\
       has_text v t2 /\ numbers_of integer t2 (flat_map (fun p => if jfirst then [fst p; snd p] else [snd p; fst p]) (List.concat (d_rows d))));
  e_weights : d_weights d <> [];
  (* the numbers fit the int32 and uint32 variables *)
  e_small : (Z.of_nat (List.length (d_names d)) < 2147483600)%Z /\ (Z.of_nat (List.length (d_weights d)) < 2147483600)%Z /\
    (Z.of_nat (List.length (d_rows d)) < 4294967296)%Z /\ Forall (fun r => Z.of_nat (List.length r) < 4294967296)%Z (d_rows d) /\
    Forall (fun p => -2147483599 <= fst p <= 2147483599 /\ -2147483599 <= snd p <= 2147483599)%Z (List.concat (d_rows d))
}.
(** ... and there is a pose for every joint. *)
Definition describes (n : xml) (d : skin_data) (jfirst : bool) : Prop := holds n d jfirst /\ List.length (d_names d) <= List.length (d_poses d).

(** *** The weights of a vertex *)
Definition sum_of (l : list Q) : Q := fold_right Qplus 0%Q l.
Definition tolerance : Q := 1 # 10000.
(** The weights out are the weights l divided by their sum, unless the sum is within the tolerance of 0 or of 1. *)
Definition normalized (l out : list Q) : Prop :=
  ((Qabs (sum_of l) < tolerance \/ Qabs (sum_of l - 1) < tolerance)%Q /\ Forall2 Qeq l out) \/
  ((tolerance <= Qabs (sum_of l) /\ tolerance <= Qabs (sum_of l - 1))%Q /\ Forall2 (fun w o => o * sum_of l == w)%Q l out).
(** The joint and the weight that a pair of numbers stands for: numbers that do not exist stand for -1 and for the first weight. *)
Definition stands_for (d : skin_data) (p : Z * Z) (r : Z * Q) : Prop :=
  ((-1 <= fst p < Z.of_nat (List.length (d_names d)))%Z -> fst r = fst p) /\
  (~ (-1 <= fst p < Z.of_nat (List.length (d_names d)))%Z -> fst r = (-1)%Z) /\
  ((0 <= snd p < Z.of_nat (List.length (d_weights d)))%Z -> snd r == nth (Z.to_nat (snd p)) (d_weights d) 0)%Q /\
  (~ (0 <= snd p < Z.of_nat (List.length (d_weights d)))%Z -> snd r == nth 0 (d_weights d) 0)%Q.
Definition vertex_of (d : skin_data) (row : list (Z * Z)) (ps : list pair) : Prop :=
  exists raw, Forall2 (stands_for d) row raw /\ map joint ps = map fst raw /\ normalized (map snd raw) (map weight ps).
(** The skin s has the data d; poses without a name are left out. *)
Definition skin_of (d : skin_data) (s : skin) : Prop :=
  map fst (joints s) = d_names d /\ Forall2 same_matrix (firstn (List.length (d_names d)) (d_poses d)) (map snd (joints s)) /\ same_matrix (d_shape d) (bind_shape s) /\
  Forall2 (vertex_of d) (d_rows d) (influences s).

(** *** Writing a skin and reading it back *)
(** What remains of a number: see FloatProps.v; the same definition. *)
Definition remains (eps q r : Q) : Prop := ((Qabs q < eps)%Q -> (r == 0)%Q) /\ ((eps <= Qabs q)%Q -> close6 q r).
Definition finite (q : Q) : Prop := (Qabs q <= Qpower 10 309)%Q.
Definition word (t : list Z) : Prop := t <> [] /\ Forall (fun c => (1 <= c <= 255)%Z /\ ~ blank_or_cr c) t.
Definition matrix_remains (eps : Q) (m m' : mat) : Prop := forall i j, i < 4 -> j < 4 -> remains eps (m i j) (m' i j).
(** A skin within the limits of the format: numbers are finite, joint numbers exist or are -1, there are fewer than 2^31 of
    everything. *)
Record proper_skin (s : skin) : Prop := {
  p_finite : (forall i j, finite (bind_shape s i j)) /\ Forall (fun x => forall i j, finite (snd x i j)) (joints s) /\
             Forall (Forall (fun p => finite (weight p))) (influences s);
  p_joints : Forall (Forall (fun p => -1 <= joint p < Z.of_nat (List.length (joints s))))%Z (influences s);
  p_small : (Z.of_nat (List.length (joints s)) < 2147483600)%Z /\ (Z.of_nat (List.length (influences s)) < 4294967296)%Z /\
            (Z.of_nat (List.length (List.concat (influences s))) < 2147483599)%Z
}.
(** The weights within the tolerance of 1 become 1, the others keep six digits. *)
Definition weight_remains (eps w r : Q) : Prop :=
  ((Qabs (w - 1) < tolerance)%Q -> (r == 1)%Q) /\ ((tolerance <= Qabs (w - 1))%Q -> remains eps w r).
Definition vertex_remains (eps : Q) (ps ps' : list pair) : Prop :=
  map joint ps' = map joint ps /\
  exists ws, Forall2 (weight_remains eps) (map weight ps) ws /\ normalized ws (map weight ps').
Definition skin_remains (eps : Q) (s s' : skin) : Prop :=
  map fst (joints s') = map fst (joints s) /\ Forall2 (matrix_remains eps) (map snd (joints s)) (map snd (joints s')) /\
  matrix_remains eps (bind_shape s) (bind_shape s') /\ Forall2 (vertex_remains eps) (influences s) (influences s').
