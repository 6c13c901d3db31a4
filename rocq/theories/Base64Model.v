(** Model of FCollada/FUtils/FUBase64.cpp.  Bytes are integers 0..255; a byte list (UInt8List) is a
    [list Z]; a pointer into the input is the remaining suffix, so reading [*p] at the end of the
    buffer is the outcome [None]; so are a write outside the output buffer, a signed overflow and a
    resize to a negative size.  Little-endian host, as assumed by the temp[3..0] accesses. *)
From Coq Require Import List ZArith Bool String.
From Verif Require Import TextModel.
Import ListNotations.
Local Open Scope Z_scope.

(** FUBase64.cpp:14-23. *)
Definition ALPHABET : list Z :=
  tx "ABCDEFGHIJKLMNOPQRSTUVWXYZabcdefghijklmnopqrstuvwxyz0123456789+/".
(** FUBase64.cpp:25-40. *)
Definition DEALPHABET : list Z :=
  [0; 0; 0; 0; 0; 0; 0; 0; 0; 0;
   0; 0; 0; 0; 0; 0; 0; 0; 0; 0;
   0; 0; 0; 0; 0; 0; 0; 0; 0; 0;
   0; 0; 0; 0; 0; 0; 0; 0; 0; 0;
   0; 0; 0; 62; 0; 0; 0; 63; 52; 53;
   54; 55; 56; 57; 58; 59; 60; 61; 0; 0;
   0; 61; 0; 0; 0; 0; 1; 2; 3; 4;
   5; 6; 7; 8; 9; 10; 11; 12; 13; 14;
   15; 16; 17; 18; 19; 20; 21; 22; 23; 24;
   25; 0; 0; 0; 0; 0; 0; 26; 27; 28;
   29; 30; 31; 32; 33; 34; 35; 36; 37; 38;
   39; 40; 41; 42; 43; 44; 45; 46; 47; 48;
   49; 50; 51; 0; 0; 0; 0; 0].

(** FUBase64.cpp:43-51: div((int) n, 3); [result.quot * 4] is int arithmetic and may overflow. *)
Definition EncodeSize (n : Z) : option Z :=
  let i := s32 n in
  let quot := Z.quot i 3 in
  let rem := Z.rem i 3 in
  if in_int32 (quot * 4) then
    let required := quot * 4 in
    Some (if 0 <? rem then required + 4 else required)
  else None.

(** FUBase64.cpp:53-74: reads inputBufferString[bufferLength - 1] and [- 2]. *)
Definition DecodeSize (input : list Z) : option Z :=
  let n := Z.of_nat (List.length input) in
  let quot := Z.quot (s32 n) 4 in
  match rev input with
  | [] => None
  | last :: before =>
      if negb (last =? 61) then Some (quot * 3)
      else match before with
           | [] => None
           | c :: _ => if c =? 61 then Some (quot * 3 - 2) else Some (quot * 3 - 1)
           end
  end.

(** FUBase64.cpp:90 and the like: BASE64_ALPHABET[(buffer & mask) >> 26]. *)
Definition top6 (buffer : Z) : Z := nth (Z.to_nat (Z.shiftr (Z.land buffer 4227858432) 26)) ALPHABET 0.
(** [buffer = buffer << 6] on uint32. *)
Definition shl (buffer k : Z) : Z := u32 (Z.shiftl buffer k).
(** FUBase64.cpp:76-122.  The uint32 is filled through a byte pointer (81-84). *)
Definition EncodeByteTriple (input : list Z) : option (list Z) :=
  match input with
  | [b0; b1; b2] =>
      let buffer := b0 * 16777216 + b1 * 65536 + b2 * 256 in
      let buffer1 := shl buffer 6 in
      let buffer2 := shl buffer1 6 in
      let buffer3 := shl buffer2 6 in
      Some [top6 buffer; top6 buffer1; top6 buffer2; top6 buffer3]
  | [b0; b1] =>
      let buffer := b0 * 16777216 + b1 * 65536 in
      let buffer1 := shl buffer 6 in
      let buffer2 := shl buffer1 6 in
      Some [top6 buffer; top6 buffer1; top6 buffer2; 61]
  | [b0] =>
      let buffer := b0 * 16777216 in
      let buffer1 := shl buffer 6 in
      Some [top6 buffer; top6 buffer1; 61; 61]
  | _ => None
  end.

(** BASE64_DEALPHABET[c]; an index outside the table is undefined behaviour, hence [None]. *)
Definition dealpha (c : Z) : option Z := nth_error DEALPHABET (Z.to_nat c).
(** [buffer = (buffer | BASE64_DEALPHABET[c]) << 6]. *)
Definition shift_in (buffer : option Z) (c : Z) : option Z :=
  match buffer, dealpha c with
  | Some b, Some v => Some (shl (Z.lor b v) 6)
  | _, _ => None
  end.
(** temp[k] with temp the bytes of the uint32. *)
Definition byte_of (buffer k : Z) : Z := (buffer / 2 ^ (8 * k)) mod 256.
(** FUBase64.cpp:124-169: the bytes written, in order. *)
Definition DecodebyteQuartet (c0 c1 c2 c3 : Z) : option (list Z) :=
  if c3 =? 61 then
    if c2 =? 61 then
      match shift_in (shift_in (Some 0) c0) c1 with
      | Some b => let b := shl b 14 in Some [byte_of b 3]
      | None => None
      end
    else
      match shift_in (shift_in (shift_in (Some 0) c0) c1) c2 with
      | Some b => let b := shl b 8 in Some [byte_of b 3; byte_of b 2]
      | None => None
      end
  else
    match shift_in (shift_in (shift_in (shift_in (Some 0) c0) c1) c2) c3 with
    | Some b => let b := shl b 2 in Some [byte_of b 3; byte_of b 2; byte_of b 1]
    | None => None
    end.

(** Store [vs] at outputBuffer[idx..]; outside the buffer is undefined behaviour. *)
Fixpoint store (out : list Z) (idx : nat) (vs : list Z) : option (list Z) :=
  match vs with
  | [] => Some out
  | v :: vs' => if (idx <? List.length out)%nat then store (upd out idx v) (S idx) vs' else None
  end.

(** FUBase64.cpp:185-200: the while loop of encode. *)
Fixpoint encode_loop (fuel : nat) (s : list Z) (idx : nat) (out : list Z) : option (list Z) :=
  match s with
  | [] => Some out
  | _ => match fuel with
         | O => None
         | S f =>
             if (List.length s <=? 2)%nat then
               match EncodeByteTriple s with Some t => store out idx t | None => None end
             else
               match EncodeByteTriple (firstn 3 s) with
               | Some t => match store out idx t with
                           | Some out' => encode_loop f (skipn 3 s) (idx + 4)%nat out'
                           | None => None
                           end
               | None => None
               end
         end
  end.
(** FUBase64.cpp:171-201: encode; the previous output content is cleared. *)
Definition encode (input : list Z) : option (list Z) :=
  match input with
  | [] => Some []
  | _ => match EncodeSize (Z.of_nat (List.length input)) with
         | Some n => if n <? 0 then None
                     else encode_loop (List.length input) input O (repeat 0 (Z.to_nat n))
         | None => None
         end
  end.

(** FUBase64.cpp:225-229: the characters that are kept. *)
Definition kept (c : Z) : bool :=
  ((48 <=? c) && (c <=? 57)) || ((65 <=? c) && (c <=? 90)) || ((97 <=? c) && (c <=? 122)) ||
  (c =? 43) || (c =? 47) || (c =? 61).
(** FUBase64.cpp:221-237: one round of the for loop until a kept character; reads on without testing
    for the end of the input. *)
Fixpoint next_kept (s : list Z) : option (Z * list Z) :=
  match s with
  | [] => None
  | c :: s' => if kept c then Some (c, s') else next_kept s'
  end.
(** FUBase64.cpp:219-240. *)
Fixpoint decode_loop (fuel : nat) (s : list Z) (idx : nat) (out : list Z) : option (list Z) :=
  match s with
  | [] => Some out
  | _ => match fuel with
         | O => None
         | S f =>
             match next_kept s with
             | None => None
             | Some (c0, s0) => match next_kept s0 with
             | None => None
             | Some (c1, s1) => match next_kept s1 with
             | None => None
             | Some (c2, s2) => match next_kept s2 with
             | None => None
             | Some (c3, s3) =>
                 match DecodebyteQuartet c0 c1 c2 c3 with
                 | None => None
                 | Some bytes =>
                     match store out idx bytes with
                     | Some out' => decode_loop f s3 (idx + List.length bytes)%nat out'
                     | None => None
                     end
                 end
             end end end end
         end
  end.
(** FUBase64.cpp:203-241: decode. *)
Definition decode (input : list Z) : option (list Z) :=
  match DecodeSize input with
  | Some n => if n <? 0 then None
              else decode_loop (List.length input) input O (repeat 0 (Z.to_nat n))
  | None => None
  end.
