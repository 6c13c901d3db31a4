(** Model of the floating point text conversions: FUStringConversion::ToFloat, ToVector2/3/4, ToMatrix and
    ToFloatList (FUtils/FUStringConversion.hpp:55-129, 181-192, 213-252, 366-382), FloatToString and
    append(float/double) (FUtils/FUStringBuilder.hpp:26-57, 206-260) and the ToString functions of vectors,
    matrices and float lists (FUStringConversion.hpp:256-283, 558-568).

    Texts are as in TextModel.v.  Numbers are exact rationals: the rounding of the accumulator [val] (a
    double, exact up to 2^53), of [decimals] (a float, exact up to 10^10), of the final division, of [powf]
    and of the product with it are not modelled, nor is their overflow to infinity (more than 38 digits
    after the point, or exponents outside the float range); a floating point variable is [Fin q], an
    infinity or a NaN.  The text produced by the external library call fmt::format("{:.6g}", f) is not
    computed but specified by the relation [formatted], after the library's documentation (the "%g"
    conversion of C, ISO C 7.21.6.1).  NULL pointers are not modelled.  [None] is a read beyond the
    terminator, or (from ToInt32) a signed overflow under the [Strict] reading of the standard. *)
From Coq Require Import List ZArith Bool QArith Qabs.
From Verif Require Import TextModel.
Import ListNotations.
Local Open Scope Z_scope.

(** FUStringConversion.hpp:73-99, the loop over "plausible numerical characters".  The result is val,
    decimals, exponent, infinity and the pointer [s] after the loop.
    - a digit: lines 80-89; - '.': line 79 (also a second one);
    - 'e', 'E': lines 90-91: [++s; exponent = ToInt32(&s); s -= 2] and the [++s] of line 95 leave [s] one
      character before the place where ToInt32 stopped;
    - 'I' and anything else: lines 92-93, [s] stays on the character. *)
Definition back_one (whole rest : list Z) : list Z := skipn (length whole - S (length rest)) whole.
Fixpoint num_loop (a : arith) (val decimals : Q) (s : list Z) : option (Q * Q * Z * bool * list Z) :=
  match s with
  | [] => Some (val, decimals, 0, false, [])
  | c :: s' =>
      if c =? 46 then num_loop a val 1 s'
      else if digit c then num_loop a (val * 10 + inject_Z (c - 48))%Q (decimals * 10)%Q s'
      else if (c =? 101) || (c =? 69) then
        match ToInt32 a s' with
        | Some (x, rest) => Some (val, decimals, x, false, back_one s rest)
        | None => None
        end
      else Some (val, decimals, 0, c =? 73, s)
  end.

(** [c = *(s++)]: the character and the pointer after it; reading the terminator gives 0 and leaves the
    pointer beyond it ([None]).  FUStringConversion.hpp:105, 109, 113. *)
Definition read_inc (s : list Z) : Z * option (list Z) :=
  match s with [] => (0, None) | c :: s' => (c, Some s') end.
(** FUStringConversion.hpp:102-118, the test for "INF"; only the pointer matters, since line 104 sets
    [infinity] to false and no line sets it to true, so that line 119 always recomputes [out]. *)
Definition test_inf (s : list Z) : option (list Z) :=
  let '(c, p) := read_inc s in
  if negb (c =? 73) then p
  else match p with
       | None => None
       | Some s1 => let '(c, p) := read_inc s1 in
                    if negb (c =? 78) then p
                    else match p with None => None | Some s2 => snd (read_inc s2) end
       end.

(** FUStringConversion.hpp:119-125: the value; [out *= powf(10, exponent)] unless the exponent is 0. *)
Definition make_value (val sign decimals : Q) (exponent : Z) : Q :=
  let decimals := if Qeq_bool decimals 0 then 1%Q else decimals in
  let out := (val * sign / decimals)%Q in
  if exponent =? 0 then out else (out * Qpower 10 exponent)%Q.

(** FUStringConversion.hpp:55-129, ToFloat (pointer advancing version): value and advanced pointer. *)
Definition ToFloat (a : arith) (s : list Z) : option (Q * list Z) :=
  match s with
  | [] => Some (0%Q, [])
  | _ =>
      let s := skip_while ws4 s in
      let '(sign, s) := match s with
                        | c :: s' => if c =? 45 then ((-1)%Q, s') else (1%Q, s)
                        | [] => (1%Q, s)
                        end in
      match num_loop a 0 0 s with
      | None => None
      | Some (val, decimals, exponent, infinity, s) =>
          match (if infinity then test_inf s else Some s) with
          | None => None
          | Some s =>
              Some (make_value val sign decimals exponent,
                    skip_while ws4 (skip_while (fun c => negb (ws4 c)) s))
          end
      end
  end.

(** FUStringConversion.hpp:366-382, ToFloatList: the shape is that of ToInt32List (TextModel.v, [ToList]);
    the reservation of memory is not modelled. *)
Definition ToFloatList (a : arith) (value : list Z) (array : list Q) : option (list Q) :=
  ToList (ToFloat a) value array.

(** [n] consecutive calls [ToFloat(value)]. *)
Fixpoint ToFloats (a : arith) (n : nat) (s : list Z) : option (list Q * list Z) :=
  match n with
  | O => Some ([], s)
  | S n => match ToFloat a s with
           | Some (q, s) => match ToFloats a n s with
                            | Some (l, s) => Some (q :: l, s)
                            | None => None
                            end
           | None => None
           end
  end.
(** FUStringConversion.hpp:213-223 and 225-236, ToVector2 and ToVector3; an empty text gives the value of
    the default constructor, which is uninitialised: the outer [option] of the result. *)
Definition ToVector2 (a : arith) (s : list Z) : option (option (Q * Q) * list Z) :=
  match s with
  | [] => Some (None, [])
  | _ => match ToFloats a 2 s with Some ([x; y], s) => Some (Some (x, y), s) | _ => None end
  end.
Definition ToVector3 (a : arith) (s : list Z) : option (option (Q * Q * Q) * list Z) :=
  match s with
  | [] => Some (None, [])
  | _ => match ToFloats a 3 s with Some ([x; y; z], s) => Some (Some (x, y, z), s) | _ => None end
  end.
(** FUStringConversion.hpp:238-252, ToVector4: the fourth component is 1 if the text ends before it. *)
Definition ToVector4 (a : arith) (s : list Z) : option (option (Q * Q * Q * Q) * list Z) :=
  match s with
  | [] => Some (None, [])
  | _ => match ToFloats a 3 s with
         | Some ([x; y; z], s) =>
             match s with
             | [] => Some (Some (x, y, z, 1%Q), [])
             | _ => match ToFloat a s with Some (w, s) => Some (Some (x, y, z, w), s) | None => None end
             end
         | _ => None
         end
  end.
(** FUStringConversion.hpp:181-192, ToMatrix: the sixteen values are stored at mx[0][0], mx[1][0], mx[2][0],
    mx[3][0], mx[0][1] ...; an empty text leaves the matrix as it is. *)
Definition mat := nat -> nat -> Q.
Definition ToMatrix (a : arith) (s : list Z) (mx : mat) : option (mat * list Z) :=
  match s with
  | [] => Some (mx, [])
  | _ => match ToFloats a 16 s with
         | Some (l, s) => Some (fun i j => if (i <? 4)%nat && (j <? 4)%nat then nth (4 * j + i) l 0%Q else mx i j, s)
         | None => None
         end
  end.

(** *** Writers *)
(** A floating point value. *)
Inductive fval := Fin (q : Q) | PInf | NInf | NaN.

(** Specification of the external call fmt::format("{:.6g}", f), FUStringBuilder.hpp:32, for a finite
    non-zero [f].  [ds] are six significant digits and [x] is the exponent of the first one: they are the
    nearest such decimal number (which of two equally near ones is left open).  Between 10^-4 and 10^6
    the fixed notation is used, otherwise the scientific one with at least two exponent digits; trailing
    zeros of the fraction, and then the point, are removed. *)
Definition digits_value (ds : list Z) : Z := fold_left (fun v c => v * 10 + (c - 48)) ds 0.
Fixpoint trim (ds : list Z) : list Z :=
  match ds with
  | [] => []
  | c :: t => match trim t with [] => if c =? 48 then [] else [c] | t' => c :: t' end
  end.
Definition fraction (ds : list Z) : list Z := match trim ds with [] => [] | t => 46 :: t end.
Definition two_digits (n : Z) : list Z := if n <? 10 then 48 :: dec n else dec n.
Definition layout (ds : list Z) (x : Z) : list Z :=
  if (x <? -4) || (6 <=? x)
  then firstn 1 ds ++ fraction (skipn 1 ds) ++ [101] ++ [if x <? 0 then 45 else 43] ++ two_digits (Z.abs x)
  else if x <? 0 then [48] ++ fraction (repeat 48 (Z.to_nat (- x - 1)) ++ ds)
  else firstn (Z.to_nat (x + 1)) ds ++ fraction (skipn (Z.to_nat (x + 1)) ds).
Definition nearest6 (f : Q) (ds : list Z) (x : Z) : Prop :=
  length ds = 6%nat /\ Forall (fun c => digit c = true) ds /\ 100000 <= digits_value ds /\
  forall m e, 100000 <= m < 1000000 ->
    (Qabs (inject_Z (digits_value ds) * Qpower 10 (x - 5) - Qabs f) <=
     Qabs (inject_Z m * Qpower 10 (e - 5) - Qabs f))%Q.
Definition formatted (f : Q) (t : list Z) : Prop :=
  exists ds x, nearest6 f ds x /\ t = (if Qle_bool 0 f then [] else [45]) ++ layout ds x.

(** FUStringBuilder.hpp:26-57, FloatToString: the loop over the characters of the formatted text, which
    drops every '+' and the zeros that immediately follow the 'e' of an exponent. *)
Fixpoint filter_loop (expFound clearLeading : bool) (t : list Z) : list Z :=
  match t with
  | [] => []
  | c :: t' =>
      if c =? 43 then filter_loop expFound clearLeading t'
      else if expFound then
        if clearLeading then
          if c =? 48 then filter_loop expFound clearLeading t' else c :: filter_loop expFound false t'
        else c :: filter_loop expFound clearLeading t'
      else c :: filter_loop (c =? 101) clearLeading t'
  end.
Definition FloatToString (formatted_text : list Z) : list Z := filter_loop false true formatted_text.

(** FUStringBuilder.hpp:206-231 (float, [eps] = 2^-23) and 233-260 (double, [eps] = 2^-52): the texts that
    append may write for [f].  A NaN differs from every number, so it takes the first branch and is written
    by the format library as "nan"; IsEquivalent is FMFloat.h:35,46 (strict comparisons). *)
Definition eps_float : Q := 1 # 8388608.
Definition eps_double : Q := 1 # 4503599627370496.
Definition appends (eps : Q) (f : fval) (t : list Z) : Prop :=
  match f with
  | Fin q => if negb (Qle_bool eps (Qabs q)) then t = [48]
             else exists u, formatted q u /\ t = FloatToString u
  | PInf => t = [73; 78; 70]
  | NInf => t = [45; 73; 78; 70]
  | NaN => t = FloatToString [110; 97; 110]
  end.

(** FUStringConversion.hpp:558-568, ToString(builder, FloatList); [b] is the content of the builder. *)
Inductive appends_rest (eps : Q) : list fval -> list Z -> Prop :=
| AR_nil : appends_rest eps [] []
| AR_cons : forall v vs t u, appends eps v t -> appends_rest eps vs u -> appends_rest eps (v :: vs) (32 :: t ++ u).
Inductive ToString_floats (eps : Q) (b : list Z) : list fval -> list Z -> Prop :=
| TS_nil : ToString_floats eps b [] b
| TS_cons : forall v vs t u, appends eps v t -> appends_rest eps vs u ->
    ToString_floats eps b (v :: vs) ((match b with [] => b | _ => b ++ [32] end) ++ t ++ u).
(** FUStringConversion.hpp:256-263, ToString(builder, FMMatrix44), on an empty builder: the order of the
    components, separated by blanks. *)
Definition matrix_order (m : nat -> nat -> fval) : list fval :=
  [m 0 0; m 1 0; m 2 0; m 3 0; m 0 1; m 1 1; m 2 1; m 3 1;
   m 0 2; m 1 2; m 2 2; m 3 2; m 0 3; m 1 3; m 2 3; m 3 3]%nat.
Definition ToString_matrix (eps : Q) (m : nat -> nat -> fval) (t : list Z) : Prop :=
  ToString_floats eps [] (matrix_order m) t.
(** FUStringConversion.hpp:265-283, ToString of FMVector2, FMVector3 and FMVector4, on an empty builder. *)
Definition ToString_vector (eps : Q) (v : list fval) (t : list Z) : Prop := ToString_floats eps [] v t.
