(** Model of the text side of FUXmlWriter.cpp and FUXmlParser.cpp, and of AddChildSorted.
    A text is a list of byte values 1..255; storing a text in a libxml2 node or attribute and reading it
    back is taken to be the identity (libxml2 is not modelled). *)
From Coq Require Import List ZArith Lia Bool.
From Verif Require Import TextModel StringModel.
Import ListNotations.
Local Open Scope Z_scope.

(** FUXmlWriter.cpp:17-35. *)
Definition filenameValidityTable : list bool := [
  false; false; false; false; false; false; false; false; false; false; false; false; false; false; false; false;
  false; false; false; false; false; false; false; false; false; false; false; false; false; false; false; false;
  false; false; false; false; false; false; false; false; false; false; false; false; false; true; true; true;
  true; true; true; true; true; true; true; true; true; true; true; false; false; false; false; false;
  false; true; true; true; true; true; true; true; true; true; true; true; true; true; true; true;
  true; true; true; true; true; true; true; true; true; true; true; false; false; false; false; true;
  false; true; true; true; true; true; true; true; true; true; true; true; true; true; true; true;
  true; true; true; true; true; true; true; true; true; true; true; false; false; false; false; false;
  false; false; false; false; false; false; false; false; false; false; false; false; false; false; false; false;
  false; false; false; false; false; false; false; false; false; false; false; false; false; false; false; false;
  false; false; false; false; false; false; false; false; false; false; false; false; false; false; false; false;
  false; false; false; false; false; false; false; false; false; false; false; false; false; false; false; false;
  false; false; false; false; false; false; false; false; false; false; false; false; false; false; false; false;
  false; false; false; false; false; false; false; false; false; false; false; false; false; false; false; false;
  false; false; false; false; false; false; false; false; false; false; false; false; false; false; false; false;
  false; false; false; false; false; false; false; false; false; false; false; false; false; false; false; false].
(** FUXmlWriter.cpp:37-55. *)
Definition xmlValidityTable : list bool := [
  false; false; false; false; false; false; false; false; false; false; true; false; false; true; false; false;
  false; false; false; false; false; false; false; false; false; false; false; false; false; false; false; false;
  true; true; false; true; true; true; true; false; true; true; true; true; true; true; true; true;
  true; true; true; true; true; true; true; true; true; true; true; true; false; true; false; true;
  false; true; true; true; true; true; true; true; true; true; true; true; true; true; true; true;
  true; true; true; true; true; true; true; true; true; true; true; true; false; true; false; true;
  false; true; true; true; true; true; true; true; true; true; true; true; true; true; true; true;
  true; true; true; true; true; true; true; true; true; true; true; true; true; true; false; false;
  false; false; false; false; false; false; false; false; false; false; false; false; false; false; false; false;
  false; false; false; false; false; false; false; false; false; false; false; false; false; false; false; false;
  false; false; false; false; false; false; false; false; false; false; false; false; false; false; false; false;
  false; false; false; false; false; false; false; false; false; false; false; false; false; false; false; false;
  false; false; false; false; false; false; false; false; false; false; false; false; false; false; false; false;
  false; false; false; false; false; false; false; false; false; false; false; false; false; false; false; false;
  false; false; false; false; false; false; false; false; false; false; false; false; false; false; false; false;
  false; false; false; false; false; false; false; false; false; false; false; false; false; false; false; false].
Definition valid (table : list bool) (c : Z) : bool := nth (Z.to_nat c) table false.

(** FUXmlWriter.cpp:143-157 and 177-185: valid characters are copied, others become '%' and two
    hexadecimal digits (appendHex is FUStringBuilder.hpp:297-305). *)
Definition encode_char (table : list bool) (c : Z) : list Z :=
  if valid table c then [c] else 37 :: appendHex8 c.
Definition encode (table : list bool) (s : list Z) : list Z := concat (map (encode_char table) s).
(** FUXmlWriter.cpp:135-161: the text AddContent puts into the node. *)
Definition AddContent (s : list Z) : list Z := encode xmlValidityTable s.
(** FUXmlWriter.cpp:172-187. *)
Definition ConvertFilename (s : list Z) : list Z := encode filenameValidityTable s.
(** FUXmlWriter.cpp:194-200: the text AddAttribute puts into the attribute: it is not encoded. *)
Definition AddAttribute (s : list Z) : list Z := s.

(** FUXmlParser.cpp:28-41: the loop; the characters appended to the builder.  Every turn consumes a
    character, so the length of the text suffices as fuel. *)
Fixpoint decode (fuel : nat) (s : list Z) : list Z :=
  match fuel, s with
  | S k, c :: r =>
      if c =? 37 then let '(v, r') := HexToUInt32 2 r in (v mod 256) :: decode k r'
      else c :: decode k r
  | _, _ => []
  end.
(** FUXmlParser.cpp:23-43: XmlToString.  ToString (FUStringBuilder.cpp:56-59) makes a string from the
    builder's C string, which ends at the first 0 (FUString.h:64-68). *)
Definition XmlToString (s : list Z) : list Z := c_text (decode (length s) s).

(** *** Children *)
(** A child node as far as AddChildSorted looks at it: an element with a name, or another node (text,
    comment); the number identifies the node. *)
Inductive kind := Element (name : list Z) | Other.
Record node := { ident : Z; what : kind }.
(** strcmp(a, b) <= 0 on unsigned bytes (C standard 7.24.4). *)
Fixpoint strcmp_le (a b : list Z) : bool :=
  match a, b with
  | [], _ => true
  | _ :: _, [] => false
  | x :: a', y :: b' => if x =? y then strcmp_le a' b' else x <? y
  end.
(** FUXmlWriter.cpp:225-233: the walk backwards from the last child; [before] is in reverse order, i.e.
    its head is p, and [after] are the children behind p. *)
Fixpoint insert_back (child : node) (name : list Z) (before after : list node) : option (list node) :=
  match before with
  | [] => None
  | p :: b => match what p with
              | Element n => if strcmp_le n name then Some (rev b ++ p :: child :: after)
                             else insert_back child name b (p :: after)
              | Other => insert_back child name b (p :: after)
              end
  end.
(** FUXmlWriter.cpp:219-244: AddChildSorted of an element. *)
Definition AddChildSorted (children : list node) (id : Z) (name : list Z) : list node :=
  let child := {| ident := id; what := Element name |} in
  match insert_back child name (rev children) [] with
  | Some l => l
  | None => match children with
            | {| what := Element _ |} :: _ => child :: children
            | _ => children ++ [child]
            end
  end.

(** FUXmlParser.cpp:71-84: FindChildByType; FUXmlParser.cpp:133-145: FindChildrenByType, which appends to
    a list. *)
Fixpoint FindChildByType (children : list node) (type : list Z) : option node :=
  match children with
  | [] => None
  | c :: r => match what c with
              | Element n => if text_eq n type then Some c else FindChildByType r type
              | Other => FindChildByType r type
              end
  end.
Fixpoint FindChildrenByType (children : list node) (type : list Z) (nodes : list node) : list node :=
  match children with
  | [] => nodes
  | c :: r => FindChildrenByType r type
                (match what c with
                 | Element n => if text_eq n type then nodes ++ [c] else nodes
                 | Other => nodes
                 end)
  end.
(** FUXmlWriter.cpp:97-106: AddChildOnce without content; [id] is the identity a new node would get. *)
Definition AddChildOnce (children : list node) (name : list Z) (id : Z) : list node * node :=
  match FindChildByType children name with
  | Some c => (children, c)
  | None => let c := {| ident := id; what := Element name |} in (children ++ [c], c)
  end.
