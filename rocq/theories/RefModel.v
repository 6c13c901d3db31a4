(** Model of entity references and document placeholders: FCDocument/FCDEntityReference.cpp, FCDPlaceHolder.cpp,
    FCDExternalReferenceManager.cpp.
    Document 0 owns all the references and placeholders here; the other documents are the externally referenced ones.
    Simplifications: a URI is given as the absolute file path it resolves to, if it names a file, and its
    fragment (resolution itself: UriModel); a file on the disk is the list of the ids of its entities, or
    nothing when it cannot be loaded; FindEntity goes through the entities of a document in order of creation
    (FCDocument.cpp:222-246 goes library by library; the ids of one document are unique, C15).  Not modelled: a
    placeholder for the URL of document 0 itself, references owned by the external documents, and the dirty flags. *)
From Coq Require Import List Arith ZArith Bool.
From Verif Require Import TextModel IdModel.
Import ListNotations.

(** fm::string contents without the terminator. *)
Definition str := list Z.
(** Equality of strings, FUString.h:536-539. *)
Definition str_eqb (a b : str) : bool := if list_eq_dec Z.eq_dec a b then true else false.

(** The memory.  References: entity, entityId, placeHolder (FCDEntityReference.h:58-60).  Placeholders: target,
    references, fileUrl (FCDPlaceHolder.h:38-40).  [tracked d]: something besides placeholders tracks document d
    (such as the list of top documents, FCollada.cpp:33). *)
Record world := World {
  files : str -> option (list str); dereference : bool;
  docs : nat; doc_alive : nat -> bool; doc_url : nat -> str; tracked : nat -> bool;
  ents : nat; ent_alive : nat -> bool; ent_doc : nat -> nat; ent_id : nat -> str;
  holders : nat; ph_alive : nat -> bool; ph_target : nat -> option nat; ph_url : nat -> str; ph_refs : nat -> list nat;
  ref_entity : nat -> option nat; ref_id : nat -> str; ref_ph : nat -> option nat }.

(** Writing one cell. *)
Definition upd {A} (f : nat -> A) (i : nat) (v : A) : nat -> A := fun x => if x =? i then v else f x.
(** Comparing pointers. *)
Definition eqo (a b : option nat) : bool :=
  match a, b with Some x, Some y => x =? y | None, None => true | _, _ => false end.

(** Document 0 with nothing in it, the given disk and FCollada::GetDereferenceFlag (FCollada.cpp:142). *)
Definition start (fs : str -> option (list str)) (d : bool) : world :=
  World fs d 1 (fun x => x =? 0) (fun _ => []) (fun _ => true) 0 (fun _ => false) (fun _ => 0) (fun _ => [])
        0 (fun _ => false) (fun _ => None) (fun _ => []) (fun _ => []) (fun _ => None) (fun _ => []) (fun _ => None).

(** Setters for one field of the record at a time. *)
Definition set_ref_entity (w : world) f := World (files w) (dereference w) (docs w) (doc_alive w) (doc_url w) (tracked w)
  (ents w) (ent_alive w) (ent_doc w) (ent_id w) (holders w) (ph_alive w) (ph_target w) (ph_url w) (ph_refs w) f (ref_id w) (ref_ph w).
(** See above. *)
Definition set_ref_id (w : world) f := World (files w) (dereference w) (docs w) (doc_alive w) (doc_url w) (tracked w)
  (ents w) (ent_alive w) (ent_doc w) (ent_id w) (holders w) (ph_alive w) (ph_target w) (ph_url w) (ph_refs w) (ref_entity w) f (ref_ph w).
(** See above. *)
Definition set_ref_ph (w : world) f := World (files w) (dereference w) (docs w) (doc_alive w) (doc_url w) (tracked w)
  (ents w) (ent_alive w) (ent_doc w) (ent_id w) (holders w) (ph_alive w) (ph_target w) (ph_url w) (ph_refs w) (ref_entity w) (ref_id w) f.
(** See above. *)
Definition set_ph_refs (w : world) f := World (files w) (dereference w) (docs w) (doc_alive w) (doc_url w) (tracked w)
  (ents w) (ent_alive w) (ent_doc w) (ent_id w) (holders w) (ph_alive w) (ph_target w) (ph_url w) f (ref_entity w) (ref_id w) (ref_ph w).
(** See above. *)
Definition set_ph_alive (w : world) f := World (files w) (dereference w) (docs w) (doc_alive w) (doc_url w) (tracked w)
  (ents w) (ent_alive w) (ent_doc w) (ent_id w) (holders w) f (ph_target w) (ph_url w) (ph_refs w) (ref_entity w) (ref_id w) (ref_ph w).
(** See above. *)
Definition set_ph_target (w : world) f := World (files w) (dereference w) (docs w) (doc_alive w) (doc_url w) (tracked w)
  (ents w) (ent_alive w) (ent_doc w) (ent_id w) (holders w) (ph_alive w) f (ph_url w) (ph_refs w) (ref_entity w) (ref_id w) (ref_ph w).

(** The destruction of the entities for which [dies] holds: each reference that has one is told,
    FCDEntityReference::OnObjectReleased, FCDEntityReference.cpp:186-191. *)
Definition release_entities (w : world) (dies : nat -> bool) : world :=
  World (files w) (dereference w) (docs w) (doc_alive w) (doc_url w) (tracked w)
        (ents w) (fun e => ent_alive w e && negb (dies e)) (ent_doc w) (ent_id w)
        (holders w) (ph_alive w) (ph_target w) (ph_url w) (ph_refs w)
        (fun r => match ref_entity w r with Some e => if dies e then None else Some e | None => None end)
        (fun r => match ref_entity w r with
                  | Some e => if dies e then match ref_ph w r with None => [] | Some _ => ent_id w e end else ref_id w r
                  | None => ref_id w r
                  end)
        (ref_ph w).
(** Release of an entity. *)
Definition ReleaseEntity (w : world) (e : nat) : world := release_entities w (Nat.eqb e).
(** FCDPlaceHolder::GetFileUrl, FCDPlaceHolder.cpp:46-49. *)
Definition GetFileUrl (w : world) (p : nat) : str :=
  match ph_target w p with Some d => doc_url w d | None => ph_url w p end.
(** Release of a document: placeholders keep the URL and drop the target (FCDPlaceHolder.cpp:117-124), then
    the entities go (FCDocument.cpp:125-159). *)
Definition ReleaseDocument (w : world) (d : nat) : world :=
  let w1 := release_entities w (fun e => ent_alive w e && (ent_doc w e =? d)) in
  World (files w1) (dereference w1) (docs w1) (upd (doc_alive w1) d false) (doc_url w1) (tracked w1)
        (ents w1) (ent_alive w1) (ent_doc w1) (ent_id w1)
        (holders w1) (ph_alive w1) (fun p => if eqo (ph_target w1 p) (Some d) then None else ph_target w1 p)
        (fun p => if eqo (ph_target w1 p) (Some d) then doc_url w1 d else ph_url w1 p) (ph_refs w1)
        (ref_entity w1) (ref_id w1) (ref_ph w1).
(** GetTrackerCount() == 0 for a document, FCDPlaceHolder.cpp:39. *)
Definition has_trackers (w : world) (d : nat) : bool :=
  tracked w d || existsb (fun p => ph_alive w p && eqo (ph_target w p) (Some d)) (seq 0 (holders w)).
(** Release of a placeholder: FCDPlaceHolder::~FCDPlaceHolder, FCDPlaceHolder.cpp:34-44. *)
Definition ReleasePlaceHolder (w : world) (p : nat) : world :=
  let w1 := set_ph_alive w (upd (ph_alive w) p false) in
  match ph_target w p with
  | Some d => if has_trackers w1 d then w1 else ReleaseDocument w1 d
  | None => w1
  end.

(** FCDEntityReference::SetPlaceHolder, FCDEntityReference.cpp:112-133.  The member placeHolder still points to
    the old placeholder while that is released. *)
Definition SetPlaceHolder (w : world) (r : nat) (q : option nat) : world :=
  if eqo q (ref_ph w r) then w else
  let w1 := match ref_ph w r with
            | Some p => let w1 := set_ph_refs w (upd (ph_refs w) p (remove Nat.eq_dec r (ph_refs w p))) in
                        match ph_refs w1 p with [] => ReleasePlaceHolder w1 p | _ => w1 end
            | None => w
            end in
  let w2 := set_ref_ph w1 (upd (ref_ph w1) r q) in
  match q with
  | Some p => set_ph_refs w2 (upd (ph_refs w2) p (ph_refs w2 p ++ [r]))
  | None => w2
  end.

(** Adding a placeholder: FCDExternalReferenceManager.cpp:31-38 (a URL), 50-55 with FCDPlaceHolder.cpp:23-32 (a document). *)
Definition AddPlaceHolder (w : world) (target : option nat) (url : str) : world :=
  let p := holders w in
  World (files w) (dereference w) (docs w) (doc_alive w) (doc_url w) (tracked w)
        (ents w) (ent_alive w) (ent_doc w) (ent_id w)
        (S p) (upd (ph_alive w) p true) (upd (ph_target w) p target) (upd (ph_url w) p url) (upd (ph_refs w) p [])
        (ref_entity w) (ref_id w) (ref_ph w).
(** The first live placeholder that satisfies [test]; placeholders stand in the list in order of creation. *)
Definition find_holder (w : world) (test : nat -> bool) : option nat :=
  find (fun p => ph_alive w p && test p) (seq 0 (holders w)).
(** FindPlaceHolder or AddPlaceHolder for a URL, FCDEntityReference.cpp:76-80 with FCDExternalReferenceManager.cpp:31-48. *)
Definition holder_for_url (w : world) (u : str) : world * nat :=
  match find_holder w (fun p => str_eqb (GetFileUrl w p) u) with
  | Some p => (w, p)
  | None => (AddPlaceHolder w None u, holders w)
  end.
(** The same for a document, FCDEntityReference.cpp:171-175 with FCDExternalReferenceManager.cpp:50-64. *)
Definition holder_for_doc (w : world) (d : nat) : world * nat :=
  match find_holder w (fun p => eqo (ph_target w p) (Some d)) with
  | Some p => (w, p)
  | None => (AddPlaceHolder w (Some d) (doc_url w d), holders w)
  end.

(** FCDEntityReference::SetUri, FCDEntityReference.cpp:66-84. *)
Definition SetUri (w : world) (r : nat) (file : option str) (fragment : str) : world :=
  let w1 := set_ref_id w (upd (ref_id w) r (CleanId fragment)) in
  match file with
  | Some u => let (w2, p) := holder_for_url w1 u in SetPlaceHolder w2 r (Some p)
  | None => SetPlaceHolder w1 r None
  end.
(** FCDEntityReference::SetEntityDocument, FCDEntityReference.cpp:166-178. *)
Definition SetEntityDocument (w : world) (r : nat) (d : option nat) : world :=
  match d with
  | Some (S d') => let (w1, p) := holder_for_doc w (S d') in SetPlaceHolder w1 r (Some p)
  | _ => SetPlaceHolder w r None
  end.
(** FCDEntityReference::SetEntity, FCDEntityReference.cpp:88-109. *)
Definition SetEntity (w : world) (r : nat) (e : option nat) : world :=
  let w1 := set_ref_entity w (upd (ref_entity w) r e) in
  match e with
  | Some x => SetEntityDocument (set_ref_id w1 (upd (ref_id w1) r (ent_id w1 x))) r (Some (ent_doc w1 x))
  | None => SetEntityDocument w1 r None
  end.
(** FCDEntityReference::SetEntityId, FCDEntityReference.h:100. *)
Definition SetEntityId (w : world) (r : nat) (i : str) : world := set_ref_id w (upd (ref_id w) r i).
(** FCDEntityReference::~FCDEntityReference, FCDEntityReference.cpp:34-40; the number may then stand for a new reference,
    FCDEntityReference.cpp:23-32. *)
Definition ReleaseReference (w : world) (r : nat) : world :=
  let w1 := SetPlaceHolder w r None in
  set_ref_id (set_ref_entity w1 (upd (ref_entity w1) r None)) (upd (ref_id w1) r []).

(** A new document, top or not (FCollada.cpp:68-80, FCDPlaceHolder.cpp:69). *)
Definition NewDocument (w : world) (url : str) (top : bool) : world :=
  World (files w) (dereference w) (S (docs w)) (upd (doc_alive w) (docs w) true) (upd (doc_url w) (docs w) url)
        (upd (tracked w) (docs w) top)
        (ents w) (ent_alive w) (ent_doc w) (ent_id w) (holders w) (ph_alive w) (ph_target w) (ph_url w) (ph_refs w)
        (ref_entity w) (ref_id w) (ref_ph w).
(** A new entity with an id in a document (FCDLibrary AddEntity, and loading). *)
Definition NewEntity (w : world) (d : nat) (i : str) : world :=
  World (files w) (dereference w) (docs w) (doc_alive w) (doc_url w) (tracked w)
        (S (ents w)) (upd (ent_alive w) (ents w) true) (upd (ent_doc w) (ents w) d) (upd (ent_id w) (ents w) i)
        (holders w) (ph_alive w) (ph_target w) (ph_url w) (ph_refs w) (ref_entity w) (ref_id w) (ref_ph w).
(** FCDocument::FindEntity, FCDocument.cpp:222-246 (see the simplification above). *)
Definition FindEntity (w : world) (d : nat) (i : str) : option nat :=
  find (fun e => ent_alive w e && (ent_doc w e =? d) && str_eqb (ent_id w e) i) (seq 0 (ents w)).
(** FCDPlaceHolder::LoadTarget(NULL), FCDPlaceHolder.cpp:63-109: a new document with the entities of the file;
    FArchiveXML::RegisterLoadedDocument (FAXEntityImport.cpp:268-284) gives it to all the placeholders of that URL
    that have no target. *)
Definition LoadTarget (w : world) (p : nat) : world :=
  match files w (ph_url w p) with
  | None => w
  | Some ids =>
      let d := docs w in
      let w1 := fold_left (fun x i => NewEntity x d i) ids (NewDocument w (ph_url w p) false) in
      set_ph_target w1 (fun x => if ph_alive w1 x && eqo (ph_target w1 x) None && str_eqb (ph_url w1 x) (ph_url w p)
                                 then Some d else ph_target w1 x)
  end.
(** FCDEntityReference::LoadEntity, FCDEntityReference.cpp:135-164.  LoadEntity by id: *)
Definition load_from (w : world) (r d : nat) : world :=
  match ref_id w r with
  | [] => w
  | _ => match FindEntity w d (ref_id w r) with
         | Some e => set_ref_entity w (upd (ref_entity w) r (Some e))
         | None => w
         end
  end.
(** FCDEntityReference::LoadEntity, FCDEntityReference.cpp:135-164 with FCDPlaceHolder::GetTarget, FCDPlaceHolder.cpp:57-61. *)
Definition LoadEntity (w : world) (r : nat) : world :=
  match ref_ph w r with
  | None => load_from w r 0
  | Some p =>
      let w1 := match ph_target w p with None => if dereference w then LoadTarget w p else w | Some _ => w end in
      match ph_target w1 p with
      | None => w1
      | Some d => load_from w1 r d
      end
  end.
(** FCDEntityReference::GetEntity, FCDEntityReference.cpp:56-64. *)
Definition GetEntity (w : world) (r : nat) : world * option nat :=
  let w1 := match ref_entity w r with None => LoadEntity w r | Some _ => w end in (w1, ref_entity w1 r).
(** FCDEntityReference::GetUri, FCDEntityReference.cpp:42-54: the file, if any, and the fragment. *)
Definition GetUri (w : world) (r : nat) : option str * str :=
  (match ref_ph w r with Some p => Some (GetFileUrl w p) | None => None end,
   match ref_entity w r with Some e => ent_id w e | None => ref_id w r end).

(** The calls of a history. *)
Inductive op :=
| ONewDocument (url : str) (top : bool) | ONewEntity (d : nat) (i : str) | OReleaseEntity (e : nat) | OReleaseDocument (d : nat)
| OSetUri (r : nat) (file : option str) (fragment : str) | OSetEntity (r : nat) (e : option nat)
| OSetEntityId (r : nat) (i : str) | OGetEntity (r : nat) | OReleaseReference (r : nat).
(** Using a destroyed object, or destroying document 0, is an error of the caller. *)
Definition step (w : world) (o : op) : option world :=
  match o with
  | ONewDocument u t => Some (NewDocument w u t)
  | ONewEntity d i => if doc_alive w d then Some (NewEntity w d i) else None
  | OReleaseEntity e => if ent_alive w e then Some (ReleaseEntity w e) else None
  | OReleaseDocument d => if doc_alive w d && negb (d =? 0) then Some (ReleaseDocument w d) else None
  | OSetUri r f i => Some (SetUri w r f i)
  | OSetEntity r (Some e) => if ent_alive w e then Some (SetEntity w r (Some e)) else None
  | OSetEntity r None => Some (SetEntity w r None)
  | OSetEntityId r i => Some (SetEntityId w r i)
  | OGetEntity r => Some (fst (GetEntity w r))
  | OReleaseReference r => Some (ReleaseReference w r)
  end.
(** Any history. *)
Fixpoint run (w : world) (os : list op) : option world :=
  match os with
  | [] => Some w
  | o :: r => match step w o with Some w' => run w' r | None => None end
  end.
