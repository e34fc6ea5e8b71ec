(** Independent specification of base64 (RFC 4648, sections 3 and 4): the bit
    string of the data, most significant bit first, zero-padded to a multiple
    of six bits, cut into 6-bit numbers, written in the 64-letter alphabet and
    filled with '=' to a multiple of four characters. *)
From Coq Require Import List Arith NArith Bool.
Import ListNotations.
Local Open Scope N_scope.

Definition is_byte (b : N) : Prop := b < 256.

(** Letters A-Z a-z 0-9 + / for the values 0..63. *)
Definition letter (v : N) : N :=
  if v <? 26 then 65 + v
  else if v <? 52 then 97 + (v - 26)
  else if v <? 62 then 48 + (v - 52)
  else if v =? 62 then 43 else 47.

Definition equals_sign : N := 61.

Definition bits_of_byte (b : N) : list bool :=
  [ N.testbit b 7; N.testbit b 6; N.testbit b 5; N.testbit b 4;
    N.testbit b 3; N.testbit b 2; N.testbit b 1; N.testbit b 0 ].

Definition bit_string (data : list N) : list bool := flat_map bits_of_byte data.

Definition bit_value (b : bool) : N := if b then 1 else 0.

(** Six bits at a time; a short last group is filled with zero bits. *)
Fixpoint sextets (bs : list bool) : list N :=
  match bs with
  | b5 :: b4 :: b3 :: b2 :: b1 :: b0 :: rest =>
      (32 * bit_value b5 + 16 * bit_value b4 + 8 * bit_value b3 +
       4 * bit_value b2 + 2 * bit_value b1 + bit_value b0) :: sextets rest
  | [] => []
  | l => [fold_left (fun v b => 2 * v + bit_value b) (l ++ repeat false (6 - length l)) 0]
  end.

Definition base64_text (data : list N) : list N :=
  let letters := map letter (sextets (bit_string data)) in
  letters ++ repeat equals_sign ((4 - length letters mod 4) mod 4).

(** The optional end mark documented at kwsysBase64_Encode: four extra '='
    exactly when requested and the data length is a multiple of three. *)
Definition base64_text_marked (mark_end : bool) (data : list N) : list N :=
  base64_text data ++
  (if mark_end && (length data mod 3 =? 0)%nat then repeat equals_sign 4 else []).

Definition is_letter (c : N) : Prop := exists v, v < 64 /\ c = letter v.
