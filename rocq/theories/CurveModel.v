(** FCDAnimationCurve: key insertion and removal, clip selection and Evaluate
    (FCDocument/FCDAnimationCurve.cpp) in exact rational arithmetic.  Every finite float is a rational, so
    stored times and comparisons are exact; rounding and overflow of computed values are not modelled.  A
    division by zero (infinity or NaN in the code) is a separate outcome. *)
From Coq Require Import List QArith Qround Qabs Arith.
Import ListNotations.
Local Open Scope Q_scope.

(** The C++ operators < and <= on floats. *)
Definition flt (a b : Q) : bool := if Qlt_le_dec a b then true else false.
Definition fle (a b : Q) : bool := negb (flt b a).

(** FUDaeEnum.h:29-42: Interpolation. *)
Inductive interpolation := STEP | LINEAR | BEZIER | TCB | UNKNOWN.
(** FCDAnimationKey.h:26-71: one record for the three key classes.  [kid] is the address of the key.  The
    code casts a key to the class its [interpolation] names; the model always has the fields of that class. *)
Record key := Key {
  kid : nat; input : Q; output : Q; interp : interpolation;
  inTangent : Q * Q; outTangent : Q * Q;
  tension : Q; continuity : Q; bias : Q }.

(** *** Inserting and deleting keys *)
(** FCDAnimationCurve.cpp:160-185 (lines 172-182): AddKey at a given input; the new list and the index. *)
Fixpoint AddKey (keys : list key) (k : key) : list key * nat :=
  match keys with
  | [] => ([k], O)
  | x :: r => if flt (input k) (input x) then (k :: x :: r, O)
              else let '(r', i) := AddKey r k in (x :: r', S i)
  end.
(** FCDAnimationCurve.cpp:187-195: DeleteKey: the first entry with that address is erased. *)
Fixpoint DeleteKey (keys : list key) (id : nat) : list key * bool :=
  match keys with
  | [] => ([], false)
  | x :: r => if (kid x =? id)%nat then (r, true) else let '(r', b) := DeleteKey r id in (x :: r', b)
  end.

(** *** Evaluation *)
(** FUDaeEnum.h:231-250: Infinity. *)
Inductive infinity := CONSTANT | LINEAR_INFINITY | CYCLE | CYCLE_RELATIVE | OSCILLATE | UNKNOWN_INFINITY.
Record curve := Curve { keys : list key; preInfinity : infinity; postInfinity : infinity }.
(** A float that may be NaN or infinite after a division by zero. *)
Inductive number := Num (q : Q) | NaN.
(** The outcome of Evaluate: a value, a NaN or infinity, or a read behind the last key. *)
Inductive outcome := Value (q : Q) | NotANumber | OutOfBounds.

(** Float division; the divisor 0 gives NaN or an infinity. *)
Definition fdiv (a b : Q) : number := if Qeq_dec b 0 then NaN else Num (a / b).

(** FCDAnimationCurve.cpp:34-56: FindT.  [first] is the variable [once].  The interval is at most 0.9 long
    after the first turn and is halved by each of the others; 12 turns suffice and the fuel is never used up. *)
Definition localTolerance : Q := 1 # 1000.
Fixpoint FindT_loop (fuel : nat) (cp0x cp1x cp2x cp3x inp : Q) (first : bool) (midT lowT highT : Q) : option Q :=
  if flt localTolerance (highT - lowT) then
    match fuel with
    | O => None
    | S f =>
        let midT := if first then midT else (highT - lowT) / 2 + lowT in
        let ti := 1 - midT in
        let calculatedTime := cp0x * ti * ti * ti + 3 * cp1x * midT * ti * ti + 3 * cp2x * midT * midT * ti + cp3x * midT * midT * midT in
        if fle (Qabs (calculatedTime - inp)) localTolerance then Some midT
        else if flt inp calculatedTime then FindT_loop f cp0x cp1x cp2x cp3x inp false midT lowT midT
        else FindT_loop f cp0x cp1x cp2x cp3x inp false midT midT highT
    end
  else Some midT.
Definition FindT (cp0x cp1x cp2x cp3x inp initialGuess : Q) : option Q :=
  let midT := if fle initialGuess (1 # 10) then 1 # 10 else if fle (9 # 10) initialGuess then 9 # 10 else initialGuess in
  FindT_loop 12 cp0x cp1x cp2x cp3x inp true midT 0 1.

(** FCDAnimationCurve.cpp:58-97: ComputeTCBTangent; the left and the right tangent. *)
Definition ComputeTCBTangent (previousKey : option key) (currentKey : key) (nextKey : option key) : (Q * Q) * (Q * Q) :=
  let '(px, py) :=
    match previousKey with
    | None => (match nextKey with Some n => input n - input currentKey | None => 1 # 2 end, 0)
    | Some p => (input p - input currentKey, output p - output currentKey)
    end in
  let '(nx, ny) :=
    match nextKey with
    | None => (match previousKey with Some p => input currentKey - input p | None => 1 # 2 end, 0)
    | Some n => (input n - input currentKey, output n - output currentKey)
    end in
  let tens := tension currentKey in let cont := continuity currentKey in let bias := bias currentKey in
  let k1 := ((1 - tens) * (1 - cont) * (1 + bias)) / 2 in
  let k2 := ((1 - tens) * (1 + cont) * (1 - bias)) / 2 in
  let k3 := ((1 - tens) * (1 + cont) * (1 + bias)) / 2 in
  let k4 := ((1 - tens) * (1 - cont) * (1 - bias)) / 2 in
  ((k1 * px + k2 * nx, k1 * py + k2 * ny), (k3 * px + k4 * nx, k3 * py + k4 * ny)).

(** FCDAnimationCurve.cpp:429 and 475-478: the Bezier polynomial (br = cr = 3 when is2DEvaluation). *)
Definition bezier (p0 p1 p2 p3 t : Q) : Q :=
  let ti := 1 - t in p0 * ti * ti * ti + 3 * p1 * ti * ti * t + 3 * p2 * ti * t * t + p3 * t * t * t.

(** FCDAnimationCurve.cpp:383, 388, 433: the straight line between the two keys. *)
Definition straight (s e : key) (inp : Q) : number :=
  match fdiv (inp - input s) (input e - input s) with
  | Num r => Num (output s + r * (output e - output s))
  | NaN => NaN
  end.
(** FCDAnimationCurve.cpp:371-485: the switch over the interpolation, with is2DEvaluation (line 29) true.
    [previousKey] and [nextKey] are the neighbours of the two keys, if any (lines 407, 446, 454); [inputStart] is the
    first input of the curve (line 465 uses it). *)
Definition interpolate (previousKey : option key) (startKey endKey : key) (nextKey : option key) (inputStart inp : Q) : number :=
  let inputInterval := input endKey - input startKey in
  match interp startKey with
  | LINEAR => straight startKey endKey inp
  | BEZIER =>
      match interp endKey with
      | LINEAR => straight startKey endKey inp
      | STEP | UNKNOWN => Num (output startKey)
      | _ =>
          let inT := match interp endKey with
                     | BEZIER => inTangent endKey
                     | _ => let '(l, _) := ComputeTCBTangent (Some startKey) endKey nextKey in
                            (input endKey + fst l, output endKey + snd l)
                     end in
          match fdiv (inp - input startKey) inputInterval with
          | NaN => NaN
          | Num t =>
              match FindT (input startKey) (fst (outTangent startKey)) (fst inT) (input endKey) inp t with
              | None => NaN
              | Some t => Num (bezier (output startKey) (snd (outTangent startKey)) (snd inT) (output endKey) t)
              end
          end
      end
  | TCB =>
      match interp endKey with
      | LINEAR => straight startKey endKey inp
      | STEP | UNKNOWN => Num (output startKey)
      | _ =>
          let '(_, startTangent) := ComputeTCBTangent previousKey startKey (Some endKey) in
          let '(cx, cy) := match interp endKey with
                           | TCB => let '(l, _) := ComputeTCBTangent (Some startKey) endKey nextKey in
                                    (output endKey + fst l, output endKey + snd l)
                           | _ => inTangent endKey
                           end in
          match fdiv (inp - inputStart) inputInterval with
          | NaN => NaN
          | Num t =>
              let by_ := output startKey - snd startTangent in
              let bx := input startKey - fst startTangent in
              match FindT (input startKey) bx cx (input endKey) inp t with
              | None => NaN
              | Some t => Num (bezier (output startKey) by_ cy (output endKey) t)
              end
          end
      end
  | STEP | UNKNOWN => Num (output startKey)
  end.

(** Comparing a key's input with a possibly undefined input: with NaN every comparison is false. *)
Definition key_after (k : key) (inp : number) : bool := match inp with Num q => flt q (input k) | NaN => false end.
Definition key_reaches (k : key) (inp : number) : bool := match inp with Num q => fle q (input k) | NaN => false end.
(** FCDAnimationCurve.cpp:356-363: the binary search on positions.  The keys are pointers in one array whose
    address is a multiple of sizeof(size_t) = sizeof(void pointer), so line 360 computes the middle position rounded down. *)
Fixpoint binary_search (fuel : nat) (ks : list key) (inp : number) (start terminate : nat) : nat * nat :=
  match fuel with
  | O => (start, terminate)
  | S f =>
      if (3 <? terminate - start)%nat then
        let it := ((terminate + start) / 2)%nat in
        match nth_error ks it with
        | Some k => if key_after k inp then binary_search f ks inp start it else binary_search f ks inp it terminate
        | None => (start, terminate)
        end
      else (start, terminate)
  end.
(** FCDAnimationCurve.cpp:365-368: the linear search; [count] is terminate - it. *)
Fixpoint linear_search (count : nat) (ks : list key) (inp : number) (it : nat) : nat :=
  match count with
  | O => it
  | S c => match nth_error ks it with
           | Some k => if key_reaches k inp then it else linear_search c ks inp (S it)
           | None => it
           end
  end.
(** FCDAnimationCurve.cpp:355-368: both searches. *)
Definition find_key (ks : list key) (inp : number) : nat :=
  let '(start, terminate) := binary_search (length ks) ks inp 0 (length ks) in
  linear_search (terminate - start) ks inp start.

(** FCDAnimationCurve.cpp:355-486: from the search on. *)
Definition evaluate_inside (ks : list key) (inp : number) (outputOffset : Q) : outcome :=
  match ks with
  | [] => Value 0
  | k0 :: _ =>
      match find_key ks inp with
      | O => Value (outputOffset + output k0)
      | S i =>
          match nth_error ks i, nth_error ks (S i) with
          | Some s, Some e =>
              match inp with
              | NaN => NotANumber
              | Num q =>
                  match interpolate (match i with O => None | S j => nth_error ks j end) s e (nth_error ks (S (S i))) (input k0) q with
                  | Num v => Value (outputOffset + v)
                  | NaN => NotANumber
                  end
              end
          | _, _ => OutOfBounds
          end
      end
  end.

(** ceilf. *)
Definition ceil (q : Q) : Q := inject_Z (Qceiling q).
(** FCDAnimationCurve.cpp:311-487: Evaluate. *)
Definition Evaluate (c : curve) (inp : Q) : outcome :=
  match keys c with
  | [] => Value 0
  | [k] => Value (output k)
  | k0 :: k1 :: _ =>
      let ks := keys c in
      let kn := last ks k0 in
      let inputStart := input k0 in
      let inputEnd := input kn in
      let inputSpan := inputEnd - inputStart in
      let outputStart := output k0 in
      let outputEnd := output kn in
      let outputSpan := outputEnd - outputStart in
      if flt inp inputStart then
        let inputDifference := inputStart - inp in
        match preInfinity c with
        | CONSTANT | UNKNOWN_INFINITY => Value outputStart
        | LINEAR_INFINITY =>
            match fdiv (inputDifference * (output k1 - outputStart)) (input k1 - inputStart) with
            | Num v => Value (outputStart + v)
            | NaN => NotANumber
            end
        | CYCLE =>
            match fdiv inputDifference inputSpan with
            | Num r => evaluate_inside ks (Num (inp + ceil r * inputSpan)) 0
            | NaN => evaluate_inside ks NaN 0
            end
        | CYCLE_RELATIVE =>
            match fdiv inputDifference inputSpan with
            | Num r => evaluate_inside ks (Num (inp + ceil r * inputSpan)) (0 - ceil r * outputSpan)
            | NaN => evaluate_inside ks NaN 0
            end
        | OSCILLATE =>
            match fdiv inputDifference (2 * inputSpan) with
            | Num r => let i := inp + ceil r * 2 * inputSpan in
                       evaluate_inside ks (Num (inputEnd - Qabs (i - inputEnd))) 0
            | NaN => evaluate_inside ks NaN 0
            end
        end
      else if fle inputEnd inp then
        let inputDifference := inp - inputEnd in
        match postInfinity c with
        | CONSTANT | UNKNOWN_INFINITY => Value outputEnd
        | LINEAR_INFINITY =>
            match nth_error ks (length ks - 2) with
            | Some k =>
                match fdiv (inputDifference * (output k - outputEnd)) (input k - inputEnd) with
                | Num v => Value (outputEnd + v)
                | NaN => NotANumber
                end
            | None => OutOfBounds
            end
        | CYCLE =>
            match fdiv inputDifference inputSpan with
            | Num r => evaluate_inside ks (Num (inp - ceil r * inputSpan)) 0
            | NaN => evaluate_inside ks NaN 0
            end
        | CYCLE_RELATIVE =>
            match fdiv inputDifference inputSpan with
            | Num r => evaluate_inside ks (Num (inp - ceil r * inputSpan)) (0 + ceil r * outputSpan)
            | NaN => evaluate_inside ks NaN 0
            end
        | OSCILLATE =>
            match fdiv inputDifference (2 * inputSpan) with
            | Num r => let i := inp - ceil r * 2 * inputSpan in
                       evaluate_inside ks (Num (inputStart + Qabs (i - inputStart))) 0
            | NaN => evaluate_inside ks NaN 0
            end
        end
      else evaluate_inside ks (Num inp) 0
  end.

(** *** Clips *)
(** FCDAnimationCurve.h: the members keys (only the inputs), clips, clipOffsets, currentClip, currentOffset.
    A clip is its address. *)
Record clipped := Clipped {
  inputs : list Q; clips : list nat; clipOffsets : list Q; currentClip : option nat; currentOffset : Q }.
(** FCDAnimationCurve.cpp:105-114: the constructor, and keys with the given inputs. *)
Definition new_clipped (ins : list Q) : clipped := Clipped ins [] [] None 0.
(** FCDAnimationCurve.cpp:598-603: RegisterAnimationClip; [start] is the start of the clip. *)
Definition RegisterAnimationClip (c : clipped) (clip : nat) (start : Q) : clipped :=
  Clipped (inputs c) (clips c ++ [clip]) (clipOffsets c ++ [- start]) (currentClip c) (currentOffset c).
(** FCDAnimationCurve.cpp:197-200: AddClip. *)
Definition AddClip (c : clipped) (clip : nat) : clipped :=
  Clipped (inputs c) (clips c ++ [clip]) (clipOffsets c) (currentClip c) (currentOffset c).
(** FCDAnimationCurve.cpp:286-294, 587-594: the position of the clip. *)
Fixpoint clip_index (l : list nat) (clip : nat) : option nat :=
  match l with
  | [] => None
  | x :: r => if (x =? clip)%nat then Some O else option_map S (clip_index r clip)
  end.
(** The assignment clipOffsets[i] = a. *)
Fixpoint set_nth {A} (l : list A) (i : nat) (a : A) : list A :=
  match l, i with
  | [], _ => []
  | _ :: r, O => a :: r
  | x :: r, S j => x :: set_nth r j a
  end.
(** FCDAnimationCurve.cpp:585-596: SetClipOffset; None: clipOffsets is accessed behind its end. *)
Definition SetClipOffset (c : clipped) (offset : Q) (clip : nat) : option clipped :=
  match clip_index (clips c) clip with
  | None => Some c
  | Some i => if (i <? length (clipOffsets c))%nat
              then Some (Clipped (inputs c) (clips c) (set_nth (clipOffsets c) i offset) (currentClip c) (currentOffset c))
              else None
  end.
(** Comparison of two clip pointers. *)
Definition same_clip (a b : option nat) : bool :=
  match a, b with Some x, Some y => (x =? y)%nat | None, None => true | _, _ => false end.
(** FCDAnimationCurve.cpp:280-307: SetCurrentAnimationClip; the argument may be NULL (None).  The result None:
    clipOffsets is read behind its end. *)
Definition SetCurrentAnimationClip (c : clipped) (clip : option nat) : option clipped :=
  if same_clip (currentClip c) clip then Some c else
  match match clip with None => None | Some x => clip_index (clips c) x end with
  | None => Some (Clipped (inputs c) (clips c) (clipOffsets c) None (currentOffset c))
  | Some i =>
      match nth_error (clipOffsets c) i with
      | None => None
      | Some clipOffset =>
          let offset := clipOffset - currentOffset c in
          Some (Clipped (map (fun x => x + offset) (inputs c)) (clips c) (clipOffsets c) clip clipOffset)
      end
  end.

(** *** Merging curves *)
(** FMFloat.h:29 with FLT_TOLERANCE = 0.0001 (FMFloat.h:24). *)
Definition tolerance : Q := 1 # 10000.
Definition IsEquivalent (a b : Q) : bool := flt (a - b) tolerance && flt (b - a) tolerance.
(** Comparison of two interpolation values. *)
Definition interp_eqb (a b : interpolation) : bool :=
  match a, b with
  | STEP, STEP | LINEAR, LINEAR | BEZIER, BEZIER | TCB, TCB | UNKNOWN, UNKNOWN => true
  | _, _ => false
  end.
(** FCDAnimationCurveTools.cpp:58-84: one curve's keys are merged into mergedInputs and mergedInterpolations
    (here one list of pairs; the entries before position m are final, so the list from m on is rebuilt). *)
Fixpoint merge_keys (merged : list (Q * interpolation)) : list key -> list (Q * interpolation) :=
  fix go (cs : list key) : list (Q * interpolation) :=
    match merged, cs with
    | [], _ => map (fun c => (input c, interp c)) cs
    | _, [] => merged
    | (m, mi) :: M, c :: C =>
        if IsEquivalent m (input c) then
          (m, if interp_eqb mi (interp c) then mi else BEZIER) :: merge_keys M C
        else if flt m (input c) then (m, mi) :: merge_keys M (c :: C)
        else (input c, interp c) :: go C
    end.
(** FCDAnimationCurveTools.cpp:49-85: all the curves; None: a NULL curve. *)
Definition merge_all (curves : list (option curve)) : list (Q * interpolation) :=
  fold_left (fun merged oc => match oc with None => merged | Some c => merge_keys merged (keys c) end) curves [].
(** FCDAnimationCurveTools.cpp:121-201: the values of one curve at the merged inputs (key->output only; the
    tangents are not modelled): the value of the next key of the curve if its input is equivalent, else a sample. *)
Fixpoint sample_keys (c : curve) (times : list Q) (rest : list key) : list outcome :=
  match times with
  | [] => []
  | t :: T =>
      match rest with
      | k :: r => if IsEquivalent t (input k) then Value (output k) :: sample_keys c T r
                  else Evaluate c t :: sample_keys c T rest
      | [] => Evaluate c t :: sample_keys c T []
      end
  end.
(** FCDAnimationCurveTools.cpp:96-202: the values for dimension i, default value [d]. *)
Definition merged_values (times : list Q) (oc : option curve) (d : Q) : list outcome :=
  match oc with
  | None => map (fun _ => Value d) times
  | Some c => match keys c with [] => map (fun _ => Value d) times | _ => sample_keys c times (keys c) end
  end.

(** *** Evaluating a multi-dimensional curve *)
(** FCDAnimationMultiCurve.cpp:80-171 for one dimension (the dimensions are independent: only the values and
    tangents of that dimension are used).  The linear search at lines 103-106 stops at the first input greater
    than the evaluation input. *)
Fixpoint linear_search_m (count : nat) (ks : list key) (inp : Q) (it : nat) : nat :=
  match count with
  | O => it
  | S c => match nth_error ks it with
           | Some k => if flt inp (input k) then it else linear_search_m c ks inp (S it)
           | None => it
           end
  end.
(** FCDAnimationMultiCurve.cpp:93-107. *)
Definition find_key_m (ks : list key) (inp : Q) : nat :=
  let '(start, terminate) := binary_search (length ks) ks (Num inp) 0 (length ks) in
  linear_search_m (terminate - start) ks inp start.
(** FMath::Clamp. *)
Definition clamp (v mn mx : Q) : Q := if flt mx v then mx else if flt v mn then mn else v.
(** FCDAnimationMultiCurve.cpp:151-154: a tangent weight; the division by 0 gives an infinity, which is clamped to
    100 (for the positive interval of sorted keys). *)
Definition weight (interval d : Q) : Q :=
  match fdiv interval d with Num q => clamp q (1 # 100) 100 | NaN => 100 end.
(** FCDAnimationMultiCurve.cpp:129-167. *)
Definition interpolate_m (s e : key) (inp : Q) : number :=
  let interval := input e - input s in
  match interp s with
  | LINEAR => straight s e inp
  | BEZIER =>
      let inT := match interp e with BEZIER => inTangent e | _ => (input e, 0) end in
      match fdiv (inp - input s) interval with
      | NaN => NaN
      | Num t =>
          match FindT (input s) (fst (outTangent s)) (fst inT) (input e) inp t with
          | None => NaN
          | Some t =>
              let ti := 1 - t in
              Num (output s * ti * ti * ti + weight interval (fst (outTangent s) - input s) * snd (outTangent s) * ti * ti * t
                   + weight interval (input e - fst inT) * snd inT * ti * t * t + output e * t * t * t)
          end
      end
  | _ => Num (output s)
  end.
(** FCDAnimationMultiCurve.cpp:80-171. *)
Definition EvaluateMulti (ks : list key) (inp : Q) : outcome :=
  match ks with
  | [] => Value 0
  | [k] => Value (output k)
  | k0 :: _ =>
      match find_key_m ks inp with
      | O => Value (output k0)
      | S i =>
          if (S i =? length ks)%nat then Value (output (last ks k0))
          else match nth_error ks i, nth_error ks (S i) with
               | Some s, Some e => match interpolate_m s e inp with Num v => Value v | NaN => NotANumber end
               | _, _ => OutOfBounds
               end
      end
  end.
