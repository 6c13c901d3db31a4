(** FUEvent (FUtils/FUEvent.h) and the reports of FUError (FUtils/FUError.cpp:15-72).  Functions and objects are named
    by numbers; an entry of the handler list is (object, function), the function being None when the std::function is
    empty because its content was moved elsewhere (libstdc++).  What a function does to the event while it runs is
    given by [body].  The destruction or relocation of a std::function during its own call is not tracked. *)
From Coq Require Import List Arith.
Import ListNotations.

(** FUEvent.h:32. *)
Definition handler : Type := (nat * option nat)%type.
(** FUEvent.h:47-50. *)
Definition InsertHandler (h : list handler) (o f : nat) : list handler := h ++ [(o, Some f)].
(** std::remove_if: entries that stay are moved to the front one by one.  [done]: the final front part; [gap]: what is in
    the cells between the write and the read position. *)
Fixpoint remove_if (o : nat) (done gap todo : list handler) : list handler * list handler :=
  match todo with
  | [] => (done, gap)
  | x :: r =>
      if fst x =? o then remove_if o done (gap ++ [x]) r
      else match gap with
           | [] => remove_if o (done ++ [x]) [] r
           | _ :: g => remove_if o (done ++ [x]) (g ++ [(fst x, None)]) r
           end
  end.
(** FUEvent.h:56-60: erase is given the position remove_if returns and removes one entry; None: there is none at that
    position (it is the end). *)
Definition ReleaseHandler (h : list handler) (o : nat) : option (list handler) :=
  let (done, gap) := remove_if o [] [] h in
  match gap with [] => None | _ :: g => Some (done ++ g) end.

(** What a function can do to the event that is calling it. *)
Inductive action := AInsert (o f : nat) | ARelease (o : nat).
Fixpoint act (h : list handler) (l : list action) : option (list handler) :=
  match l with
  | [] => Some h
  | AInsert o f :: r => act (InsertHandler h o f) r
  | ARelease o :: r => match ReleaseHandler h o with None => None | Some h1 => act h1 r end
  end.
(** The result of raising an event: the functions called and the handlers afterwards; the exception of calling an empty
    std::function; undefined behaviour. *)
Inductive raised := Raised (calls : list nat) (h : list handler) | BadCall (calls : list nat) | Undefined.
(** FUEvent.h:67-71: i runs from the number of handlers down to 1. *)
Fixpoint raise_loop (body : nat -> list action) (i : nat) (h : list handler) (calls : list nat) : raised :=
  match i with
  | O => Raised calls h
  | S j => match nth_error h j with
           | None => Undefined
           | Some (_, None) => BadCall calls
           | Some (_, Some f) => match act h (body f) with
                                 | None => Undefined
                                 | Some h1 => raise_loop body j h1 (calls ++ [f])
                                 end
           end
  end.
Definition Raise (body : nat -> list action) (h : list handler) : raised := raise_loop body (length h) h [].

(** *** FUError *)
(** FUError.h:231-238: the levels, in increasing order. *)
Inductive level := DEBUG_LEVEL | WARNING_LEVEL | ERROR_LEVEL.
Definition level_number (l : level) : nat := match l with DEBUG_LEVEL => 0 | WARNING_LEVEL => 1 | ERROR_LEVEL => 2 end.
(** FUError.cpp:15-22: the mutex, the events and the fatality level. *)
Record errors := Errors { locked : bool; on_error : list handler; on_warning : list handler; on_debug : list handler; fatal : level }.
Definition event_of (s : errors) (l : level) : list handler :=
  match l with WARNING_LEVEL => on_warning s | ERROR_LEVEL => on_error s | DEBUG_LEVEL => on_debug s end.
Definition set_event (s : errors) (l : level) (h : list handler) : errors :=
  match l with
  | WARNING_LEVEL => Errors (locked s) (on_error s) h (on_debug s) (fatal s)
  | ERROR_LEVEL => Errors (locked s) h (on_warning s) (on_debug s) (fatal s)
  | DEBUG_LEVEL => Errors (locked s) (on_error s) (on_warning s) h (fatal s)
  end.
(** Taking the mutex (FUError.cpp:34, 50, 63). *)
Definition set_lock (s : errors) (b : bool) : errors := Errors b (on_error s) (on_warning s) (on_debug s) (fatal s).
(** What a callback can ask of FUError. *)
Inductive request := RError (l : level) | RAdd (l : level) (o f : nat) | RRemove (l : level) (o : nat).
(** Deadlock: a std::mutex is locked by the thread that already holds it. *)
Inductive outcome := Done (s : errors) (calls : list nat) | Deadlock | Exception | Undef | OutOfFuel.
(** FUError.cpp:34, 50, 63: std::lock_guard takes the mutex, ... *)
Definition with_lock (s : errors) (k : errors -> outcome) : outcome :=
  if locked s then Deadlock else
  match k (set_lock s true) with Done s1 calls => Done (set_lock s1 false) calls | x => x end.
(** FUError.cpp:47-59. *)
Definition AddErrorCallback (s : errors) (l : level) (o f : nat) : outcome :=
  with_lock s (fun s => Done (set_event s l (InsertHandler (event_of s l) o f)) []).
(** FUError.cpp:61-72. *)
Definition RemoveErrorCallback (s : errors) (l : level) (o : nat) : outcome :=
  with_lock s (fun s => match ReleaseHandler (event_of s l) o with None => Undef | Some h => Done (set_event s l h) [] end).
(** The requests of one callback; [report] is Error. *)
Fixpoint ask_all (report : errors -> level -> outcome) (s : errors) (qs : list request) : outcome :=
  match qs with
  | [] => Done s []
  | q :: r =>
      match match q with
            | RError l => report s l
            | RAdd l o f => AddErrorCallback s l o f
            | RRemove l o => RemoveErrorCallback s l o
            end with
      | Done s1 c1 => match ask_all report s1 r with Done s2 c2 => Done s2 (c1 ++ c2) | x => x end
      | x => x
      end
  end.
(** FUEvent.h:67-71 with the callbacks of FUError. *)
Fixpoint report_loop (report : errors -> level -> outcome) (does : nat -> list request) (l : level) (i : nat) (s : errors)
    (calls : list nat) : outcome :=
  match i with
  | O => Done s calls
  | S j => match nth_error (event_of s l) j with
           | None => Undef
           | Some (_, None) => Exception
           | Some (_, Some f) => match ask_all report s (does f) with
                                 | Done s1 c => report_loop report does l j s1 (calls ++ f :: c)
                                 | x => x
                                 end
           end
  end.
(** FUError.cpp:32-45: Error; the value it returns is [is_fatal].  [fuel] bounds the nesting of reports. *)
Fixpoint Error (fuel : nat) (does : nat -> list request) (s : errors) (l : level) : outcome :=
  match fuel with
  | O => OutOfFuel
  | S m => with_lock s (fun s => report_loop (Error m does) does l (length (event_of s l)) s [])
  end.
(** FUError.cpp:44. *)
Definition is_fatal (s : errors) (l : level) : bool := level_number (fatal s) <=? level_number l.
