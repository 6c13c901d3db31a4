(** What the <asset> of a document says, and which assets a document can hold. *)
From Coq Require Import String List ZArith QArith Bool.
From Verif Require Import TextModel XmlModel FloatSpec UriSpec DaeModel DaeSpec RigSpec CustomSpec LampSpec AssetModel.
Import ListNotations.
Local Open Scope Z_scope.
Local Open Scope list_scope.

(** *** The format *)
(** The texts of an asset and of a contributor, and the elements that hold them. *)
Inductive label := Keywords | Revision | Subject | Title.
Definition label_word (k : label) : string := match k with Keywords => "keywords" | Revision => "revision" | Subject => "subject" | Title => "title" end.
Definition text_of (k : label) (x : asset) : list Z :=
  match k with Keywords => keywords x | Revision => revision x | Subject => subject x | Title => title x end.
Inductive credit := Author | Tool | Comments | Copyright | Source.
Definition credit_word (k : credit) : string :=
  match k with Author => "author" | Tool => "authoring_tool" | Comments => "comments" | Copyright => "copyright" | Source => "source_data" end.
Definition credit_of (k : credit) (c : contributor) : list Z :=
  match k with Author => author c | Tool => authoringTool c | Comments => comments c | Copyright => copyright c | Source => sourceData c end.
(** A date and time: "2007-04-30T09:05:00Z". *)
Definition date_text (t : list Z) (d : datetime) : Prop :=
  exists y mo da h mi s, t = y ++ [45] ++ mo ++ [45] ++ da ++ [84] ++ h ++ [58] ++ mi ++ [58] ++ s ++ [90] /\
    List.length y = 4%nat /\ Forall (fun u => List.length u = 2%nat) [mo; da; h; mi; s] /\ Forall (Forall is_digit) [y; mo; da; h; mi; s] /\
    d = {| year := number y; month := number mo; day := number da; hour := number h; minutes := number mi; seconds := number s |}.

(** *** Documents *)
(** The text of an element: those of all nodes below it, with %xx for other characters. *)
Definition holds (n : xml) (t : list Z) : Prop := exists ts, text_at n ts /\ t = XmlToString ts.
(** The last child with a name. *)
Definition last_child (ch : list xml) (name : string) (c : xml) : Prop :=
  exists before after, ch = before ++ c :: after /\ is_elem name c /\ forall d, In d after -> ~ is_elem name d.
Definition no_child (ch : list xml) (name : string) : Prop := forall d, In d ch -> ~ is_elem name d.
(** A contributor as the document has it: the last element of each name counts. *)
Definition contributor_is (n : xml) (c : contributor) : Prop :=
  forall k, (forall d t, last_child (children_of n) (credit_word k) d -> holds d t -> credit_of k c = t) /\
            (no_child (children_of n) (credit_word k) -> credit_of k c = []).
(** The contributors of the document, in order. *)
Inductive contributors_are : list xml -> list contributor -> Prop :=
| C_nil : contributors_are [] []
| C_skip n l cs : ~ is_elem "contributor" n -> contributors_are l cs -> contributors_are (n :: l) cs
| C_cons n l c cs : is_elem "contributor" n -> contributor_is n c -> contributors_are l cs -> contributors_are (n :: l) (c :: cs).
(** The axes. *)
Inductive axis_named : string -> vec -> Prop :=
| A_x : axis_named "X_UP" (1, 0, 0)%Q
| A_y : axis_named "Y_UP" (0, 1, 0)%Q
| A_z : axis_named "Z_UP" (0, 0, 1)%Q.

(** *** What can be written *)
(** The address of a file: "file:///folder/file". *)
Definition file_address (t : list Z) : Prop := exists l, Forall name l /\ l <> [] /\ t = tx "file://" ++ path_of l.
Definition proper_contributor (c : contributor) : Prop :=
  (forall k, plain (credit_of k c)) /\ (sourceData c = [] \/ file_address (sourceData c)).
Definition proper_date (d : datetime) : Prop :=
  0 <= year d < 10000 /\ Forall (fun v => 0 <= v < 100) [month d; day d; hour d; minutes d; seconds d].
(** A unit of more than a tenth of a millimetre (0.11 mm) with a name, and one of the three axes. *)
Record proper_asset (x : asset) : Prop := {
  p_contributors : Forall proper_contributor (contributors x);
  p_created : proper_date (created x);
  p_texts : forall k, plain (text_of k x);
  p_finite : finite (unitFactor x);
  p_unit : hasUnits x = true -> (11 # 100000 <= unitFactor x)%Q /\ plain (unitName x) /\ unitName x <> [];
  p_axis : hasUpAxis x = true -> exists s, axis_named s (upAxis x) }.
(** Contributors that say something. *)
Definition with_credits (c : contributor) : bool :=
  match c with Contributor [] [] [] [] [] => false | _ => true end.

(** *** What an import makes of them *)
(** The last element that names one of the three axes. *)
Definition says_axis (n : xml) (v : vec) : Prop := is_elem "up_axis" n /\ exists s, axis_named s v /\ holds n (tx s).
Definition last_axis (ch : list xml) (v : vec) : Prop :=
  exists before n after, ch = before ++ n :: after /\ says_axis n v /\ forall d w, In d after -> ~ says_axis d w.
(** The unit of an asset as the element has it: without a name it is called UNKNOWN, less than a tenth of a millimetre becomes a metre. *)
Definition unit_is (n : xml) (name : list Z) (factor : Q) : Prop :=
  (forall t, has_attr n "name" t -> plain t -> t <> [] -> name = t) /\
  (has_attr n "name" [] \/ no_attr n "name" -> name = tx "UNKNOWN") /\
  (forall m q, has_attr n "meter" m -> plain m -> one_number m q ->
     ((1 # 10000 <= q)%Q -> (factor == q)%Q) /\ ((q < 1 # 10000)%Q -> factor = 1%Q)) /\
  name <> [] /\ (1 # 10000 <= factor)%Q.
(** A text by its last element, or as before. *)
Definition last_or {T} (ch : list xml) (name : string) (says : xml -> T -> Prop) (before after : T) : Prop :=
  (forall n t, last_child ch name n -> says n t -> after = t) /\ (no_child ch name -> after = before).
Definition says_date (n : xml) (d : datetime) : Prop := exists t, holds n t /\ date_text t d.
