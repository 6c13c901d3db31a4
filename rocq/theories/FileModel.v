(** Model of the file-name helpers and the root-path stack of FCollada/FUtils/FUFileManager.cpp.
    A string is the list of its bytes, without NUL. *)
From Coq Require Import List ZArith Bool.
Import ListNotations.
Local Open Scope Z_scope.

(** FUtils/Platforms.h:205. *)
Definition MAX_PATH : nat := 1024.

(** strrchr: the offset of the last occurrence. *)
Fixpoint strrchr (s : list Z) (c : Z) : option nat :=
  match s with
  | [] => None
  | x :: s' => match strrchr s' c with
               | Some i => Some (S i)
               | None => if x =? c then Some O else None
               end
  end.
(** [max(lastSlash, lastBackslash)] on pointers into the same buffer, NULL being the least. *)
Definition ptr_max (a b : option nat) : option nat :=
  match a, b with
  | Some i, Some j => Some (Nat.max i j)
  | Some i, None => Some i
  | None, _ => b
  end.
(** FUFileManager.cpp:256-266, StripFileFromPath; strncpy keeps MAX_PATH characters. *)
Definition StripFileFromPath (filename : list Z) : list Z :=
  let fullPath := firstn MAX_PATH filename in
  match ptr_max (strrchr fullPath 47) (strrchr fullPath 92) with
  | Some i => firstn (S i) fullPath
  | None => fullPath
  end.

(** tolower in the "C" locale; bytes above 127 are unchanged (glibc). *)
Definition tolower (c : Z) : Z := if (65 <=? c) && (c <=? 90) then c + 32 else c.
(** FUFileManager.cpp:269-285, GetFileExtension; fstrlower is Platforms.h:111. *)
Definition GetFileExtension (name : list Z) : list Z :=
  let filename := firstn (MAX_PATH - 1) name in
  match strrchr filename 46 with
  | None => []
  | Some period =>
      match ptr_max (strrchr filename 47) (strrchr filename 92) with
      | Some slash => if (period <? slash)%nat then [] else map tolower (skipn (S period) filename)
      | None => map tolower (skipn (S period) filename)
      end
  end.

(** The path stack; the last element of pathStack is the head of the list.  [make_absolute cur path] stands
    for GetCurrentUri().MakeAbsolute(path) with the final slash added (FUFileManager.cpp:123-125). *)
Section Stack.
  Variable uri : Type.
  Variable make_absolute : uri -> list Z -> uri.
  (** FUFileManager.cpp:87-110: the constructor; [None] when getcwd fails. *)
  Definition initial (cwd : option uri) : list uri := match cwd with Some u => [u] | None => [] end.
  (** FUFileManager.cpp:121-126, PushRootPath; back() of an empty stack is undefined. *)
  Definition push_root (st : list uri) (path : list Z) : option (list uri) :=
    match st with
    | [] => None
    | cur :: _ => Some (make_absolute cur path :: st)
    end.
  (** FUFileManager.cpp:129-135, PopRootPath. *)
  Definition pop_root (st : list uri) : list uri :=
    match st with
    | _ :: (_ :: _) as rest => rest
    | _ => st
    end.
  Inductive root_op := Push (path : list Z) | Pop.
  Definition run_op (st : option (list uri)) (o : root_op) : option (list uri) :=
    match st with
    | None => None
    | Some s => match o with Push p => push_root s p | Pop => Some (pop_root s) end
    end.
End Stack.
