(** Model of FUUri (FCollada/FUtils/FUUri.cpp), Linux branches.
    Strings are texts (lists of character values without 0): C60 shows that the string operations used
    here (find of a character, substr, append of a C string, erase) agree with texts.  The exception is
    Escape, modelled on cells (StringModel.v) because it uses push_back.  User name and password are
    left out: no constructor that parses sets them. *)
From Coq Require Import String Ascii List ZArith Lia Bool.
From Verif Require Import TextModel StringModel.
Import ListNotations.
Local Open Scope Z_scope.
Local Notation length := List.length.

(** FUUri.h:37-44: enum Scheme. *)
Inductive scheme_t := NONE | FILE | FTP | HTTP | HTTPS.
Definition scheme_eqb (a b : scheme_t) : bool :=
  match a, b with NONE, NONE | FILE, FILE | FTP, FTP | HTTP, HTTP | HTTPS, HTTPS => true | _, _ => false end.
(** FUUri.h:47-66: the fields. *)
Record uri := { scheme : scheme_t; delim : list Z; host : list Z; port : Z;
                path : list Z; query : list Z; fragment : list Z }.

(** FUUri.cpp:23-28: the default constructor, also the result for an empty text (35). *)
Definition uri_empty : uri :=
  {| scheme := NONE; delim := []; host := []; port := 0; path := []; query := []; fragment := [] |}.

(** fm::stringT::find of a character from [off] (FUString.h:216-226). *)
Fixpoint index_from (c : Z) (s : list Z) : option nat :=
  match s with [] => None | x :: r => if x =? c then Some O else option_map S (index_from c r) end.
Definition find_char (c : Z) (s : list Z) (off : nat) : option nat :=
  option_map (fun i => (off + i)%nat) (index_from c (skipn off s)).
(** fm::stringT::substr with a size_t count computed by a subtraction (FUString.h:124-129 and 74-93):
    a difference that wraps around is larger than any length. *)
Definition substr (s : list Z) (start : nat) (count : Z) : list Z :=
  if count <? 0 then skipn start s else firstn (Z.to_nat count) (skipn start s).
(** FMArray.h:225-231: replace. *)
Definition replace (old new : Z) (s : list Z) : list Z := map (fun c => if c =? old then new else c) s.
(** IsEquivalent, strcmp = 0 (FUString.h:536-539). *)
Fixpoint same (a b : list Z) : bool :=
  match a, b with
  | [], [] => true
  | x :: a', y :: b' => (x =? y) && same a' b'
  | _, _ => false
  end.

(** FUUri.cpp:629-632: IsFile, on the path. *)
Definition IsFile (p : list Z) : bool := (1 <? length p)%nat && negb (last p 0 =? 47).

(** FUUri.cpp:59-81: the scheme named before the ':'. *)
Definition scheme_named (s : list Z) : scheme_t :=
  if same s (tx "FILE") || same s (tx "file") then FILE
  else if same s (tx "FTP") || same s (tx "ftp") then FTP
  else if same s (tx "HTTP") || same s (tx "http") then HTTP
  else if same s (tx "HTTPS") || same s (tx "https") then HTTPS else NONE.

(** FUUri.cpp:187-213: query, fragment, path, drive letter, final '/'.  [h] is hostDelimiterIndex. *)
Definition bar_to_colon (p : list Z) : list Z :=
  if (1 <? length p)%nat && (nth 1 p 0 =? 124) then upd p 1 58
  else if (2 <? length p)%nat && (nth 2 p 0 =? 124) then upd p 2 58 else p.
Definition parse_tail (u : list Z) (sch : scheme_t) (dl hostname : list Z) (prt : Z) (h : nat) : uri :=
  let q := find_char 63 u 0 in
  let f := find_char 35 u 0 in
  let zn := fun o => match o with Some i => Z.of_nat i | None => -1 end in
  let qt := match q with
            | Some i => match f with
                        | Some j => substr u (i + 1) (Z.of_nat j - Z.of_nat i)
                        | None => skipn (i + 1) u
                        end
            | None => []
            end in
  let ft := match f with Some j => skipn (j + 1) u | None => [] end in
  let p := match q, f with
           | None, None => skipn h u
           | None, Some j => substr u h (Z.of_nat j - Z.of_nat h)
           | Some i, _ => substr u h (Z.of_nat i - Z.of_nat h)
           end in
  let p := bar_to_colon p in
  {| scheme := sch; delim := dl; host := hostname; port := prt;
     path := if IsFile p then p else p ++ [47]; query := qt; fragment := ft |}.

(** FUUri.cpp:160-163: the loop over slashes. *)
Fixpoint skip_slashes (fuel : nat) (u : list Z) (h : nat) : nat :=
  match fuel with
  | O => h
  | S k => if (h + 1 <? length u)%nat && (nth h u 0 =? 47) then skip_slashes k u (S h) else h
  end.
(** FUUri.cpp:142-184: host and port, when the text from [hi] to the next '/' at [h] is not empty; [sd]
    is schemeDelimiterIndex.  [None] is undefined behaviour in ToInt32 on the port. *)
Definition parse_host (a : arith) (u : list Z) (sch : scheme_t) (dl : list Z) (sd hi h : nat) : option uri :=
  let name := firstn (h - hi) (skipn hi u) in
  match (match find_char 58 name 0 with
         | Some i => match ToInt32 a (skipn (i + 1) name) with
                     | Some (v, _) => Some (u32 v, firstn i name)
                     | None => None
                     end
         | None => Some (0, name)
         end) with
  | None => None
  | Some (prt, name) =>
      let finish := fun name h =>
        if (1 <? length name)%nat && ((nth 1 name 0 =? 58) || (nth 1 name 0 =? 124))
        then Some (parse_tail u sch dl [] prt (sd + 2))
        else Some (parse_tail u sch dl name prt h) in
      if match name with [] => true | _ => false end && (h + 1 <? length u)%nat && (nth (h + 1) u 0 =? 47) then
        let h := skip_slashes (length u) u h in
        match find_char 47 u h with
        | None => Some {| scheme := FILE; delim := dl; host := name; port := prt; path := u; query := []; fragment := [] |}
        | Some r => finish (firstn (r - h) (skipn h u)) r
        end
      else finish name h
  end.
(** FUUri.cpp:30-214: the parsing constructor without escaping. *)
Definition parse (a : arith) (text : list Z) : option uri :=
  match text with
  | [] => Some uri_empty
  | _ =>
      let u := replace 92 47 text in
      let rest := fun sch dl sd hi =>
        if scheme_eqb sch NONE then Some (parse_tail u NONE dl [] 0 0)
        else
          let h := match find_char 47 u hi with Some h => h | None => length u end in
          if (hi <? h)%nat then parse_host a u sch dl sd hi h
          else Some (parse_tail u sch dl [] 0 h) in
      let no_scheme := Some (parse_tail u NONE [] [] 0 0) in
      match find_char 58 u 0 with
      | Some sd =>
          if (1 <? sd)%nat
          then rest (scheme_named (firstn sd u)) (firstn 3 (skipn sd u)) sd (sd + 3)%nat
          else no_scheme
      | None =>
          if nth 0 u 0 =? 47 then
            match find_char 35 u 0 with
            | Some j => Some {| scheme := FILE; delim := tx "://"; host := []; port := 0;
                                path := firstn j u; query := []; fragment := skipn (j + 1) u |}
            | None => Some {| scheme := FILE; delim := tx "://"; host := []; port := 0;
                              path := u; query := []; fragment := [] |}
            end
          else no_scheme
      end
  end.

(** FUUri.cpp:259-279: GetAuthority, without user information. *)
Definition GetAuthority (x : uri) : list Z :=
  host x ++ (if port x =? 0 then [] else 58 :: append_u32 (port x)).
(** FUUri.cpp:281-369: GetAbsolutePath. *)
Definition GetAbsolutePath (x : uri) : list Z :=
  if scheme_eqb (scheme x) FILE && match host x with [] => true | _ => false end then path x
  else if scheme_eqb (scheme x) FILE then
    if same (host x) (tx "localhost") then replace 92 47 (path x)
    else replace 92 47 (tx "\\" ++ GetAuthority x ++ path x)
  else
    (match scheme x with FTP => tx "ftp" | HTTP => tx "http" | HTTPS => tx "https" | _ => [] end)
      ++ delim x ++ GetAuthority x ++ path x
      ++ (if (scheme_eqb (scheme x) HTTP || scheme_eqb (scheme x) HTTPS)
          then match query x with [] => [] | _ => 63 :: query x end else []).
(** FUUri.cpp:371-409: GetAbsoluteUri. *)
Definition GetAbsoluteUri (x : uri) : list Z :=
  (match scheme x with FILE => tx "file" | FTP => tx "ftp" | HTTP => tx "http" | HTTPS => tx "https" | NONE => [] end)
    ++ delim x ++ GetAuthority x ++ path x
    ++ (match query x with [] => [] | _ => 63 :: query x end)
    ++ (match fragment x with [] => [] | _ => 35 :: fragment x end).

(** FUUri.cpp:699-727: ExtractPathStack; [None] is lack of fuel (excluded by lemma). *)
Fixpoint extract_loop (fuel : nat) (split : list Z) (filename : bool) : option (list (list Z)) :=
  match split, fuel with
  | [], _ => Some []
  | _, O => None
  | _, S k =>
      match index_from 47 split with
      | Some O => extract_loop k (skipn 1 split) filename
      | Some i => option_map (cons (firstn i split)) (extract_loop k (skipn (i + 1) split) filename)
      | None => Some (if filename then [split] else [])
      end
  end.
Definition ExtractPathStack (name : list Z) (filename : bool) : option (list (list Z)) :=
  let split := replace 92 47 name in extract_loop (length split) split filename.

(** FUUri.cpp:597-609: one step of the walk. *)
Definition step (folders : list (list Z)) (name : list Z) : list (list Z) :=
  if same name (tx ".") then folders
  else if same name (tx "..") then removelast folders
  else folders ++ [name].
(** FUUri.cpp:611-618: the path is rebuilt. *)
Definition rebuild (folders : list (list Z)) : list Z := concat (map (cons 47) folders).

(** FUUri.cpp:540-621: MakeAbsolute on an URI. *)
Definition MakeAbsoluteUri (base x : uri) : option uri :=
  if negb (scheme_eqb (scheme x) NONE) then Some x
  else
    let p := path x in
    let x' := {| scheme := scheme base; delim := delim base; host := host base; port := port base;
                 path := p; query := query x; fragment := fragment x |} in
    let absolute_file :=
      match p with c :: _ => (c =? 92) || (c =? 47) | [] => false end ||
      ((1 <? length p)%nat && (nth 1 p 0 =? 58)) in
    if (scheme_eqb (scheme base) FILE || scheme_eqb (scheme base) NONE) && absolute_file then Some x'
    else if scheme_eqb (scheme base) HTTP && (nth 0 p 0 =? 47) then Some x'
    else
      match ExtractPathStack (path base) false, ExtractPathStack p true with
      | Some d, Some l =>
          Some {| scheme := scheme base; delim := delim base; host := host base; port := port base;
                  path := rebuild (fold_left step l d); query := query x; fragment := fragment x |}
      | _, _ => None
      end.
(** FUUri.cpp:531-538: MakeAbsolute on a text. *)
Definition MakeAbsolute (a : arith) (base : uri) (relative : list Z) : option (list Z) :=
  match relative with
  | [] => Some []
  | _ => match parse a relative with
         | Some x => option_map GetAbsolutePath (MakeAbsoluteUri base x)
         | None => None
         end
  end.
(** FUUri.cpp:623-627: Resolve. *)
Definition Resolve (a : arith) (base : uri) (relative : list Z) : option uri :=
  match MakeAbsolute a base relative with Some t => parse a t | None => None end.

(** FUUri.cpp:488-496: the number of leading folders in common. *)
Fixpoint common (d l : list (list Z)) : nat :=
  match d, l with
  | x :: d', y :: l' => if same x y then S (common d' l') else O
  | _, _ => O
  end.
(** FUUri.cpp:439-529: MakeRelative.  front() and back() of an empty list are undefined: [None]. *)
Definition MakeRelative (a : arith) (base : uri) (p : list Z) : option (list Z) :=
  match p with
  | [] => Some []
  | _ =>
      match MakeAbsolute a base p with
      | None => None
      | Some file =>
          match parse a file with
          | None => None
          | Some x =>
              if negb (same (host base) (host x)) then Some p
              else
                match ExtractPathStack (path base) false, ExtractPathStack (path x) true with
                | Some d, Some l =>
                    let relative :=
                      match l with
                      | [] => None (* localPaths.back() *)
                      | _ =>
                          let filename := last l [] in
                          let l' := removelast l in
                          let m := common d l' in
                          let out :=
                            if (0 <? m)%nat then
                              (if (m <? length d)%nat then concat (repeat (tx "../") (length d - m)) else tx "./")
                                ++ concat (map (fun s => s ++ [47]) (skipn m l')) ++ filename
                            else path x in
                          Some (replace 92 47 out)
                      end in
                    if match host base with [] => true | _ => false end && scheme_eqb (scheme base) FILE then
                      match d, l with
                      | d0 :: _, l0 :: _ => if same d0 l0 then relative else Some p
                      | _, _ => None (* front() of an empty list *)
                      end
                    else relative
                | _, _ => None
                end
          end
      end
  end.

(** FUUri.cpp:634-663: the character classes. *)
Definition IsAlphaNumeric (c : Z) : bool :=
  ((65 <=? c) && (c <=? 90)) || ((97 <=? c) && (c <=? 122)) || ((48 <=? c) && (c <=? 57)).
Definition IsMark (c : Z) : bool := among (tx "-_.!~*'()") c.
Definition IsReserved (c : Z) : bool := among (tx ";/?:@&=+$,") c.
Definition IsHex (c : Z) : bool :=
  ((65 <=? c) && (c <=? 70)) || ((97 <=? c) && (c <=? 102)) || ((48 <=? c) && (c <=? 57)).
(** FUUri.cpp:665-697: Escape, on cells.  The loop runs over all the cells, terminator included.
    [number] is FUStringConversion::ToString(int); [None]: an access outside the cells (a final '%'). *)
Fixpoint escape_loop (number : Z -> list Z) (junk : nat -> Z) (rest : buffer) (escaped : buffer) : option buffer :=
  match rest with
  | [] => Some escaped
  | c :: r =>
      let e := if IsAlphaNumeric c || IsMark c || IsReserved c then str_push_back escaped c else escaped in
      match (if c =? 37
             then match r with
                  | [] => None
                  | n :: _ => Some (if IsHex n then str_push_back e c else e)
                  end
             else Some e) with
      | None => None
      | Some e => match str_append_c junk (str_push_back e 37) (number c) with
                  | Some e => escape_loop number junk r e
                  | None => None
                  end
      end
  end.
Definition Escape (number : Z -> list Z) (junk : nat -> Z) (p : buffer) : option buffer :=
  escape_loop number junk p str_default.
