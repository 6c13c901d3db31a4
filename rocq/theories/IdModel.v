(** Model of the ids and names of COLLADA objects: FCDocument/FCDObjectWithId.cpp, and the name cleaners of
    FCDocument/FCDEntity.cpp and FCDocument/FCDExtra.cpp.  A string is a list of non-zero byte values;
    values above 127 are the negative chars, which fail every range test like their signed forms. *)
From Coq Require Import String List ZArith Bool.
From Verif Require Import TextModel UniqueModel.
Import ListNotations.
Local Open Scope Z_scope.

(** (c >= 'a' && c <= 'z') || (c >= 'A' && c <= 'Z'), FCDObjectWithId.cpp:93, 103. *)
Definition alpha (c : Z) : bool := ((97 <=? c) && (c <=? 122)) || ((65 <=? c) && (c <=? 90)).
(** First character: FCDObjectWithId.cpp:93-94, 121-122, FCDEntity.cpp:77-78, FCDExtra.cpp:261-264. *)
Definition clean_first (c : Z) : Z := if alpha c || (c =? 95) then c else 95.
(** Other characters: FCDObjectWithId.cpp:103-104 (with '-' and '.'). *)
Definition clean_id_char (c : Z) : Z :=
  if alpha c || digit c || (c =? 95) || (c =? 45) || (c =? 46) then c else 95.
(** FCDObjectWithId.cpp:131-132 and FCDEntity.cpp:85-86 (with '-'). *)
Definition clean_name_char (c : Z) : Z :=
  if alpha c || digit c || (c =? 95) || (c =? 45) then c else 95.
(** FCDExtra.cpp:270-273 (neither). *)
Definition clean_enode_char (c : Z) : Z :=
  if alpha c || digit c || (c =? 95) then c else 95.

(** The common shape of the cleaners: the first character, then the others one by one. *)
Definition clean_with (other : Z -> Z) (s : list Z) : list Z :=
  match s with
  | [] => []
  | c :: s' => clean_first c :: map other s'
  end.
(** FCDObjectWithId.cpp:14 and 86-87, FCDEntity.cpp:25 and 69-70: only the first 512 characters count. *)
Definition MAX_ID_LENGTH : nat := 512.
(** FCDObjectWithId.cpp:84-110, CleanId. *)
Definition CleanId (c : list Z) : list Z := clean_with clean_id_char (firstn MAX_ID_LENGTH c).
(** FCDObjectWithId.cpp:112-138, CleanSubId. *)
Definition CleanSubId (c : list Z) : list Z := clean_with clean_name_char (firstn MAX_ID_LENGTH c).
(** FCDEntity.cpp:67-91, FCDEntity::CleanName. *)
Definition CleanName (c : list Z) : list Z := clean_with clean_name_char (firstn MAX_ID_LENGTH c).
(** FCDExtra.cpp:255-275, FCDENode::CleanName. *)
Definition CleanENodeName (n : list Z) : list Z := clean_with clean_enode_char n.

(** *** Objects with an id *)
(** An FCDObjectWithId: the parameter daeId and the "unique id" flag; [alive] is false once it is
    released. *)
Record object := { daeId : list Z; unique : bool; alive : bool }.
(** One document: its unique name map (FCDocument::GetUniqueNameMap) and the objects created in it. *)
Record document := { doc_names : names; objects : list object }.

Definition object_at (d : document) (i : nat) : option object :=
  match nth_error (objects d) i with
  | Some o => if alive o then Some o else None
  | None => None
  end.
Fixpoint set_nth (os : list object) (i : nat) (o : object) : list object :=
  match os, i with
  | [], _ => []
  | _ :: os', O => o :: os'
  | x :: os', S i' => x :: set_nth os' i' o
  end.
Definition put (d : document) (m : names) (i : nat) (o : object) : document :=
  {| doc_names := m; objects := set_nth (objects d) i o |}.

(** FCDObjectWithId.cpp:22-27, constructor. *)
Definition NewObject (d : document) (baseId : list Z) : document :=
  {| doc_names := doc_names d;
     objects := objects d ++ [{| daeId := baseId; unique := false; alive := true |}] |}.

(** FCDObjectWithId.cpp:47: the replacement for an empty id. *)
Definition unknown_object : list Z := tx "unknown_object"%string.
(** FCDObjectWithId.cpp:40-52, GetDaeId ([None]: there is no such object). *)
Definition GetDaeId (d : document) (i : nat) : option (list Z) * document :=
  match object_at d i with
  | None => (None, d)
  | Some o =>
      if unique o then (Some (daeId o), d)
      else let wanted := match daeId o with [] => unknown_object | s => s end in
           let '(s, m) := insert (doc_names d) wanted in
           (Some s, put d m i {| daeId := s; unique := true; alive := true |})
  end.

(** FCDObjectWithId.cpp:72-81, RemoveDaeId. *)
Definition RemoveDaeId (d : document) (i : nat) : document :=
  match object_at d i with
  | None => d
  | Some o =>
      if unique o
      then put d (erase (doc_names d) (daeId o)) i {| daeId := daeId o; unique := false; alive := true |}
      else d
  end.

(** FCDObjectWithId.cpp:54-64, SetDaeId. *)
Definition SetDaeId (d : document) (i : nat) (id : list Z) : document :=
  let d1 := RemoveDaeId d i in
  match object_at d1 i with
  | None => d1
  | Some o => let '(s, m) := insert (doc_names d1) (CleanId id) in
              put d1 m i {| daeId := s; unique := true; alive := true |}
  end.

(** FCDObjectWithId.cpp:34-38, Clone (of object [i] into object [j]): the flag of the clone is not
    touched, the source gives up its id. *)
Definition CloneObject (d : document) (i j : nat) : document :=
  match object_at d i, object_at d j with
  | Some src, Some dst =>
      RemoveDaeId (put d (doc_names d) j {| daeId := daeId src; unique := unique dst; alive := true |}) i
  | _, _ => d
  end.

(** FCDObjectWithId.cpp:29-32, destructor. *)
Definition ReleaseObject (d : document) (i : nat) : document :=
  let d1 := RemoveDaeId d i in
  match object_at d1 i with
  | None => d1
  | Some o => put d1 (doc_names d1) i {| daeId := daeId o; unique := unique o; alive := false |}
  end.

(** Histories of calls on the objects of one document.  Calls on objects that do not exist (any more) are
    not expressible in the API and have no effect here. *)
Inductive call :=
| New (baseId : list Z) | Get (i : nat) | Set_ (i : nat) (id : list Z) | Remove (i : nat)
| Clone (i j : nat) | Release (i : nat).
Definition do_call (d : document) (c : call) : document :=
  match c with
  | New b => NewObject d b
  | Get i => snd (GetDaeId d i)
  | Set_ i id => SetDaeId d i id
  | Remove i => RemoveDaeId d i
  | Clone i j => CloneObject d i j
  | Release i => ReleaseObject d i
  end.
Definition calls (d : document) (h : list call) : document := fold_left do_call h d.
Definition empty_document : document := {| doc_names := []; objects := [] |}.
