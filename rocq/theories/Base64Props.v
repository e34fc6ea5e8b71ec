(** Properties C01, C02, C03 (base64 codec and VTK inline blocks). *)
From Coq Require Import List Arith NArith Lia Bool String.
From Verif Require Import Outcome Base64Model Base64Spec Base64Proofs.
Import ListNotations.
Local Open Scope string_scope.
Local Open Scope list_scope.
Local Open Scope N_scope.

(** ** C01 *)

(** The encoder appends exactly the RFC 4648 text (plus the optional end mark)
    to whatever was in the string and reports its length; it never reads its
    table out of bounds. *)
Theorem C01_encode_is_rfc4648 : forall data prior mark_end,
  Forall is_byte data ->
  kwsysBase64_Encode data prior mark_end
  = Done (List.length (base64_text_marked mark_end data),
          (prior ++ base64_text_marked mark_end data)%list).
Proof. exact encode_spec. Qed.
Print Assumptions C01_encode_is_rfc4648.

Theorem C01_text_length : forall data, Forall is_byte data ->
  List.length (base64_text data) = (4 * ((List.length data + 2) / 3))%nat.
Proof. exact base64_text_length. Qed.
Print Assumptions C01_text_length.

Theorem C01_text_alphabet : forall data, Forall is_byte data ->
  Forall (fun c => is_letter c \/ c = equals_sign) (base64_text data).
Proof. exact base64_text_alphabet. Qed.
Print Assumptions C01_text_alphabet.

(** Decoding the produced text (whatever follows it in memory) into any buffer
    that has room for the data returns the data length, the data in front, and
    touches nothing behind it. *)
Theorem C01_roundtrip : forall data mark_end rest out,
  Forall is_byte data -> (List.length data <= List.length out)%nat ->
  kwsysBase64_Decode (base64_text_marked mark_end data ++ rest)%list (List.length data) out 0
  = Done (List.length data, (data ++ skipn (List.length data) out)%list).
Proof. exact roundtrip_length. Qed.
Print Assumptions C01_roundtrip.

Example C01_example :
  Forall is_byte [255; 0; 17; 128; 3]
  /\ kwsysBase64_Encode [255; 0; 17; 128; 3] [33] false
     = Done (8%nat, [33; 47; 119; 65; 82; 103; 65; 77; 61])
  /\ kwsysBase64_Decode [47; 119; 65; 82; 103; 65; 77; 61] 5 [9; 9; 9; 9; 9; 9] 0
     = Done (5%nat, [255; 0; 17; 128; 3; 9]).
Proof. split; [repeat constructor; reflexivity | split; vm_compute; reflexivity]. Qed.

(** ** C02 *)

(** Bounded by the number of characters of a text that is not empty: the
    original bytes come back whatever follows the text, and one zero byte more
    exactly if the text has an end mark group (behind full groups).  The buffer
    needs room for whole groups: the unused bytes of the last group are
    overwritten with zeros. *)
Theorem C02_decode_by_input : forall data mark_end rest out n,
  let marked := andb mark_end (List.length data mod 3 =? 0)%nat in
  let groups := ((List.length data + 2) / 3 + (if marked then 1 else 0))%nat in
  Forall is_byte data -> base64_text_marked mark_end data <> [] -> (3 * groups <= List.length out)%nat ->
  kwsysBase64_Decode (base64_text_marked mark_end data ++ rest)%list n out
    (List.length (base64_text_marked mark_end data))
  = Done ((List.length data + (if marked then 1 else 0))%nat,
          (data ++ repeat 0 (3 * groups - List.length data) ++ skipn (3 * groups) out)%list).
Proof. exact decode_by_input. Qed.
Print Assumptions C02_decode_by_input.

(** Full groups followed by a group with a character outside the alphabet. *)
Theorem C02_malformed_stops : forall data g rest out n end_,
  Forall is_byte data -> (List.length data mod 3 = 0)%nat ->
  (List.length g = 4%nat /\ Forall is_byte g /\ Exists (fun c => ~ is_letter c /\ c <> equals_sign) g) ->
  (List.length data <= List.length out)%nat -> (List.length (base64_text data) < end_)%nat ->
  kwsysBase64_Decode (base64_text data ++ g ++ rest)%list n out end_
  = Done (List.length data, (data ++ skipn (List.length data) out)%list).
Proof. exact malformed_input. Qed.
Print Assumptions C02_malformed_stops.

(** The reading without the extra byte is false with the documented end mark
    ('=' is mapped to the value 0, not to an invalid marker). *)
Theorem C02_decode_by_input_refuted : exists data mark_end rest out n k out',
  Forall is_byte data /\
  kwsysBase64_Decode (base64_text_marked mark_end data ++ rest)%list n out
    (List.length (base64_text_marked mark_end data)) = Done (k, out') /\ k <> List.length data.
Proof.
  exists [1; 2; 3], true, [], [7; 7; 7; 7; 7; 7], 0%nat, 4%nat, [1; 2; 3; 0; 0; 0].
  split; [repeat constructor; reflexivity|]. split; [vm_compute; reflexivity | discriminate].
Qed.
Print Assumptions C02_decode_by_input_refuted.

(** For the empty string the character bound is 0, which the code reads as "no
    bound given" and then decodes past the end of the text. *)
Theorem C02_empty_text_refuted : exists n out,
  kwsysBase64_Decode (base64_text_marked false []) n out (List.length (base64_text_marked false [])) = UB.
Proof. exists 5%nat, [7; 7; 7; 7; 7]. vm_compute. reflexivity. Qed.
Print Assumptions C02_empty_text_refuted.

Example C02_example :
  kwsysBase64_Decode (base64_text_marked false [1; 2; 3; 4]) 0 [7; 7; 7; 7; 7; 7; 7]
    (List.length (base64_text_marked false [1; 2; 3; 4])) = Done (4%nat, [1; 2; 3; 4; 0; 0; 7])
  /\ kwsysBase64_Decode (base64_text [1; 2; 3] ++ [65; 42; 65; 65])%list 0 [7; 7; 7; 7; 7; 7] 8
     = Done (3%nat, [1; 2; 3; 7; 7; 7]).
Proof. split; vm_compute; reflexivity. Qed.

(** ** C03 *)

(** The block is the RFC text of a 4-byte header followed by the RFC text of
    the payload; when the byte count fits the header, the header's four bytes
    (little endian) are the payload's byte count, and decoding the 8 header
    characters and then the rest gives back header and payload. *)
Theorem C03_block_self_describing : forall elts szT mem prior,
  Forall is_byte mem -> N.of_nat (List.length mem) = elts * szT -> elts * szT < 2 ^ 32 ->
  exists h0 h1 h2 h3 htext ptext,
    getBase64FromVector elts szT mem prior = Done (prior ++ htext ++ ptext)%list /\
    List.length htext = 8%nat /\
    h0 + 2 ^ 8 * h1 + 2 ^ 16 * h2 + 2 ^ 24 * h3 = N.of_nat (List.length mem) /\
    Forall is_byte [h0; h1; h2; h3] /\
    (forall out, (4 <= List.length out)%nat ->
       kwsysBase64_Decode (htext ++ ptext)%list 4 out 0 = Done (4%nat, [h0; h1; h2; h3] ++ skipn 4 out)%list) /\
    (forall out, (List.length mem <= List.length out)%nat ->
       kwsysBase64_Decode ptext (List.length mem) out 0 = Done (List.length mem, mem ++ skipn (List.length mem) out)%list).
Proof. exact block_self_describing. Qed.
Print Assumptions C03_block_self_describing.

(** Beyond the guard the header wraps: 2^29 doubles announce zero bytes. *)
Theorem C03_header_wraps_refuted : exists elts szT,
  2 ^ 32 <= elts * szT /\ uint32_bytes ((elts * szT) mod 4294967296) = [0; 0; 0; 0].
Proof. exists (2 ^ 29), 8. split; [vm_compute; discriminate | vm_compute; reflexivity]. Qed.
Print Assumptions C03_header_wraps_refuted.

Example C03_example :
  N.of_nat (List.length [1; 0; 0; 0; 2; 0; 0; 0]) = 2 * 4 /\
  getBase64FromVector 2 4 [1; 0; 0; 0; 2; 0; 0; 0] []
  = Done (bytes_of_string "CAAAAA==AQAAAAIAAAA=").
Proof. split; vm_compute; reflexivity. Qed.
