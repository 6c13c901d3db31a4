(** Specification vocabulary for C17, C59 and C61, independent of the model. *)
From Coq Require Import List ZArith.
Import ListNotations.
Local Open Scope Z_scope.

(** A plain character: not 0 and none of the URI delimiters / \ : ? # | *)
Definition plain_char (c : Z) : Prop := ~ In c [0; 47; 92; 58; 63; 35; 124].
(** A folder or file name; "." and ".." are names, [ordinary] excludes them. *)
Definition name (s : list Z) : Prop := s <> [] /\ Forall plain_char s.
Definition dot : list Z := [46].
Definition dotdot : list Z := [46; 46].
Definition ordinary (s : list Z) : Prop := name s /\ s <> dot /\ s <> dotdot.
(** "/n1/n2/.../nk"; the root is the empty text. *)
Definition path_of (l : list (list Z)) : list Z := concat (map (fun n => 47 :: n) l).
(** The text [s] consists of the names [l] separated by one or more slashes. *)
Inductive names : list Z -> list (list Z) -> Prop :=
| N_end : names [] []
| N_slash : forall s l, names s l -> names (47 :: s) l
| N_last : forall n, name n -> names n [n]
| N_name : forall n s l, name n -> names s l -> names (n ++ 47 :: s) (n :: l).
(** Walking from a folder along names, with "." and "..", staying at the root when already there. *)
Inductive walk : list (list Z) -> list (list Z) -> list (list Z) -> Prop :=
| W_end : forall d, walk d [] d
| W_dot : forall d l r, walk d l r -> walk d (dot :: l) r
| W_up : forall d x l r, walk d l r -> walk (d ++ [x]) (dotdot :: l) r
| W_root : forall l r, walk [] l r -> walk [] (dotdot :: l) r
| W_down : forall d n l r, ordinary n -> walk (d ++ [n]) l r -> walk d (n :: l) r.
