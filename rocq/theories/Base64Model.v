(** Model of Util/Base64.hpp and Util/Base64.cpp (class B64Converter).

    Bytes and characters are [N] values below 256; C++ memory is a list of
    bytes, and every access outside it is the outcome [UB].  Shifts of an
    [unsigned char] are done in [int] by C++, so no wrap-around occurs before the
    masks; [N] arithmetic is exact here. *)
From Coq Require Import List Arith NArith String Ascii Bool.
From Verif Require Import Outcome.
Import ListNotations.
Local Open Scope N_scope.

(** Characters of a string literal as byte values (modelling device) (the literals of Util/Base64.cpp:4-6) *)
Fixpoint bytes_of_string (s : string) : list N :=
  match s with
  | EmptyString => []
  | String c r => N_of_ascii c :: bytes_of_string r
  end.

(** Util/Base64.cpp:4-6, kwsysBase64EncodeTable (65 entries with the NUL). *)
Definition EncodeTable : list N :=
  bytes_of_string "ABCDEFGHIJKLMNOPQRSTUVWXYZabcdefghijklmnopqrstuvwxyz0123456789+/" ++ [0].

(** Util/Base64.cpp:8-23, kwsysBase64DecodeTable. *)
Definition DecodeTable : list N := [
    0xFF; 0xFF; 0xFF; 0xFF; 0xFF; 0xFF; 0xFF; 0xFF; 0xFF; 0xFF; 0xFF; 0xFF; 0xFF; 0xFF; 0xFF; 0xFF; 0xFF; 0xFF; 0xFF;
    0xFF; 0xFF; 0xFF; 0xFF; 0xFF; 0xFF; 0xFF; 0xFF; 0xFF; 0xFF; 0xFF; 0xFF; 0xFF; 0xFF; 0xFF; 0xFF; 0xFF; 0xFF; 0xFF;
    0xFF; 0xFF; 0xFF; 0xFF; 0xFF; 0x3E; 0xFF; 0xFF; 0xFF; 0x3F; 0x34; 0x35; 0x36; 0x37; 0x38; 0x39; 0x3A; 0x3B; 0x3C;
    0x3D; 0xFF; 0xFF; 0xFF; 0x00; 0xFF; 0xFF; 0xFF; 0x00; 0x01; 0x02; 0x03; 0x04; 0x05; 0x06; 0x07; 0x08; 0x09; 0x0A;
    0x0B; 0x0C; 0x0D; 0x0E; 0x0F; 0x10; 0x11; 0x12; 0x13; 0x14; 0x15; 0x16; 0x17; 0x18; 0x19; 0xFF; 0xFF; 0xFF; 0xFF;
    0xFF; 0xFF; 0x1A; 0x1B; 0x1C; 0x1D; 0x1E; 0x1F; 0x20; 0x21; 0x22; 0x23; 0x24; 0x25; 0x26; 0x27; 0x28; 0x29; 0x2A;
    0x2B; 0x2C; 0x2D; 0x2E; 0x2F; 0x30; 0x31; 0x32; 0x33; 0xFF; 0xFF; 0xFF; 0xFF; 0xFF;
    0xFF; 0xFF; 0xFF; 0xFF; 0xFF; 0xFF; 0xFF; 0xFF; 0xFF; 0xFF; 0xFF; 0xFF; 0xFF; 0xFF; 0xFF; 0xFF; 0xFF; 0xFF; 0xFF;
    0xFF; 0xFF; 0xFF; 0xFF; 0xFF; 0xFF; 0xFF; 0xFF; 0xFF; 0xFF; 0xFF; 0xFF; 0xFF; 0xFF; 0xFF; 0xFF; 0xFF; 0xFF; 0xFF;
    0xFF; 0xFF; 0xFF; 0xFF; 0xFF; 0xFF; 0xFF; 0xFF; 0xFF; 0xFF; 0xFF; 0xFF; 0xFF; 0xFF; 0xFF; 0xFF; 0xFF; 0xFF; 0xFF;
    0xFF; 0xFF; 0xFF; 0xFF; 0xFF; 0xFF; 0xFF; 0xFF; 0xFF; 0xFF; 0xFF; 0xFF; 0xFF; 0xFF; 0xFF; 0xFF; 0xFF; 0xFF; 0xFF;
    0xFF; 0xFF; 0xFF; 0xFF; 0xFF; 0xFF; 0xFF; 0xFF; 0xFF; 0xFF; 0xFF; 0xFF; 0xFF; 0xFF; 0xFF; 0xFF; 0xFF; 0xFF; 0xFF;
    0xFF; 0xFF; 0xFF; 0xFF; 0xFF; 0xFF; 0xFF; 0xFF; 0xFF; 0xFF; 0xFF; 0xFF; 0xFF; 0xFF; 0xFF; 0xFF; 0xFF; 0xFF; 0xFF;
    0xFF; 0xFF; 0xFF; 0xFF; 0xFF; 0xFF; 0xFF; 0xFF; 0xFF; 0xFF; 0xFF; 0xFF; 0xFF; 0xFF ].

(** Util/Base64.hpp:31, kwsysBase64EncodeChar (argument truncated to a byte;
    an index beyond the 65-entry table would be an out-of-bounds read). *)
Definition EncodeChar (c : N) : outcome N := mread EncodeTable (N.to_nat (c mod 256)).

(** Util/Base64.hpp:33, kwsysBase64DecodeChar. *)
Definition DecodeChar (c : N) : outcome N := mread DecodeTable (N.to_nat c).

(** The character '=' used in Util/Base64.hpp:58,70,71,102,105,179. *)
Definition pad : N := 61.

(** Util/Base64.hpp:41-46, kwsysBase64_Encode3 (result: the four chars in dest). *)
Definition Encode3 (s0 s1 s2 : N) : outcome (list N) :=
  do d0 <- EncodeChar (N.land (N.shiftr s0 2) 0x3F);
  do d1 <- EncodeChar (N.lor (N.land (N.shiftl s0 4) 0x30) (N.land (N.shiftr s1 4) 0x0F));
  do d2 <- EncodeChar (N.lor (N.land (N.shiftl s1 2) 0x3C) (N.land (N.shiftr s2 6) 0x03));
  do d3 <- EncodeChar (N.land s2 0x3F);
  Done [d0; d1; d2; d3].

(** Util/Base64.hpp:54-59, kwsysBase64_Encode2. *)
Definition Encode2 (s0 s1 : N) : outcome (list N) :=
  do d0 <- EncodeChar (N.land (N.shiftr s0 2) 0x3F);
  do d1 <- EncodeChar (N.lor (N.land (N.shiftl s0 4) 0x30) (N.land (N.shiftr s1 4) 0x0F));
  do d2 <- EncodeChar (N.land (N.shiftl s1 2) 0x3C);
  Done [d0; d1; d2; pad].

(** Util/Base64.hpp:67-72, kwsysBase64_Encode1. *)
Definition Encode1 (s0 : N) : outcome (list N) :=
  do d0 <- EncodeChar (N.land (N.shiftr s0 2) 0x3F);
  do d1 <- EncodeChar (N.land (N.shiftl s0 4) 0x30);
  Done [d0; d1; pad; pad].

(** Util/Base64.hpp:140-182, the body of kwsysBase64_Encode from the pointer
    [ptr] on: the [while] over complete triplets and the three-way tail; [input]
    is the range [ptr, end), [output] the string built so far. *)
Fixpoint encode_loop (input : list N) (output : list N) (mark_end : bool) : outcome (list N) :=
  match input with
  | s0 :: s1 :: s2 :: rest =>
      do q <- Encode3 s0 s1 s2; encode_loop rest (output ++ q)%list mark_end
  | [s0; s1] => do q <- Encode2 s0 s1; Done (output ++ q)%list
  | [s0] => do q <- Encode1 s0; Done (output ++ q)%list
  | [] => Done (if mark_end then output ++ [pad; pad; pad; pad] else output)%list
  end.

(** Util/Base64.hpp:135-185, kwsysBase64_Encode: number of chars written and
    the new value of the by-reference string [output]. *)
Definition kwsysBase64_Encode (input : list N) (output : list N) (mark_end : bool)
  : outcome (nat * list N) :=
  let s0 := List.length output in
  do out <- encode_loop input output mark_end;
  Done ((List.length out - s0)%nat, out).

(** Util/Base64.hpp:80-109, kwsysBase64_Decode3, reading src[ptr..ptr+3] and
    writing dest[optr..optr+2]; result: the int returned and the new memory. *)
Definition Decode3 (src : list N) (ptr : nat) (dest : list N) (optr : nat)
  : outcome (nat * list N) :=
  do c0 <- mread src ptr;
  do c1 <- mread src (ptr + 1);
  do c2 <- mread src (ptr + 2);
  do c3 <- mread src (ptr + 3);
  do d0 <- DecodeChar c0;
  do d1 <- DecodeChar c1;
  do d2 <- DecodeChar c2;
  do d3 <- DecodeChar c3;
  if (d0 =? 0xFF) || (d1 =? 0xFF) || (d2 =? 0xFF) || (d3 =? 0xFF) then Done (0%nat, dest)
  else
    do dest <- mwrite dest optr
                 (N.lor (N.land (N.shiftl d0 2) 0xFC) (N.land (N.shiftr d1 4) 0x03) mod 256);
    do dest <- mwrite dest (optr + 1)
                 (N.lor (N.land (N.shiftl d1 4) 0xF0) (N.land (N.shiftr d2 2) 0x0F) mod 256);
    do dest <- mwrite dest (optr + 2)
                 (N.lor (N.land (N.shiftl d2 6) 0xC0) (N.land (N.shiftr d3 0) 0x3F) mod 256);
    if c2 =? pad then Done (1%nat, dest)
    else if c3 =? pad then Done (2%nat, dest)
    else Done (3%nat, dest).

(** Util/Base64.hpp:205-212, the loop of kwsysBase64_Decode used when
    max_input_length is non-zero ([end_] is the index of [end]). *)
Fixpoint decode_loop_input (fuel : nat) (input : list N) (ptr end_ : nat)
  (output : list N) (optr : nat) : outcome (nat * list N) :=
  if (ptr <? end_)%nat then
    match fuel with
    | O => NoFuel
    | S fuel =>
        do r <- Decode3 input ptr output optr;
        let (len, output) := (r : nat * list N) in
        if (len <? 3)%nat then Done ((optr + len)%nat, output)
        else decode_loop_input fuel input (ptr + 4) end_ output (optr + len)
    end
  else Done (optr, output).

(** Util/Base64.hpp:214-244, the loop and tail used when max_input_length is
    zero ([oend] is the index of [oend]).  The three-byte array [temp] is the
    list [[0;0;0]] (its uninitialised content is never read when the call
    returns 0, and is fully written otherwise). *)
Fixpoint decode_loop_length (fuel : nat) (input : list N) (ptr oend : nat)
  (output : list N) (optr : nat) : outcome (nat * list N) :=
  if (3 <=? oend - optr)%nat then
    match fuel with
    | O => NoFuel
    | S fuel =>
        do r <- Decode3 input ptr output optr;
        let (len, output) := (r : nat * list N) in
        if (len <? 3)%nat then Done ((optr + len)%nat, output)
        else decode_loop_length fuel input (ptr + 4) oend output (optr + len)
    end
  else if (oend - optr =? 2)%nat then
    do r <- Decode3 input ptr [0; 0; 0] 0;
    let (len, temp) := (r : nat * list N) in
    do t0 <- mread temp 0;
    do t1 <- mread temp 1;
    if (2 <=? len)%nat then
      do output <- mwrite output optr t0;
      do output <- mwrite output (optr + 1) t1;
      Done ((optr + 2)%nat, output)
    else if (0 <? len)%nat then
      do output <- mwrite output optr t0;
      Done ((optr + 1)%nat, output)
    else Done (optr, output)
  else if (oend - optr =? 1)%nat then
    do r <- Decode3 input ptr [0; 0; 0] 0;
    let (len, temp) := (r : nat * list N) in
    do t0 <- mread temp 0;
    if (0 <? len)%nat then
      do output <- mwrite output optr t0;
      Done ((optr + 1)%nat, output)
    else Done (optr, output)
  else Done (optr, output).

(** Util/Base64.hpp:196-248, kwsysBase64_Decode: bytes decoded (the returned
    size_t) and the final content of the caller's output buffer.  The fuel is
    one more than any possible number of iterations, each of which advances by
    four chars (first mode) or three bytes (second mode). *)
Definition kwsysBase64_Decode (input : list N) (length_ : nat) (output : list N)
  (max_input_length : nat) : outcome (nat * list N) :=
  if (max_input_length =? 0)%nat
  then decode_loop_length (S length_) input 0 length_ output 0
  else decode_loop_input (S max_input_length) input 0 max_input_length output 0.

(** Little-endian object representation of a uint32_t, as seen through
    [reinterpret_cast<const unsigned char *>(&length)] on the little-endian
    targets of the library (Util/Base64.hpp:264). *)
Definition uint32_bytes (v : N) : list N :=
  [ v mod 256; (v / 256) mod 256; (v / 65536) mod 256; (v / 16777216) mod 256 ].

(** Util/Base64.hpp:257-268, getBase64FromVector.  [mem] is the memory image of
    the vector, [elts] its size() and [szT] sizeof(T); the uint32_t conversion
    of the byte count is the explicit [mod 2^32]. *)
Definition getBase64FromVector (elts szT : N) (mem : list N) (result : list N)
  : outcome (list N) :=
  let length_ := (elts * szT) mod 4294967296 in
  do r1 <- kwsysBase64_Encode (uint32_bytes length_) result false;
  do r2 <- kwsysBase64_Encode mem (snd r1) false;
  Done (snd r2).
