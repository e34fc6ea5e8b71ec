(** C95: the text of a key in base two is the key. *)
From Coq Require Import String Ascii List ZArith.
From Verif Require Import BinTextModel BinTextSpec BinTextProofs.
Import ListNotations.
Local Notation length := List.length.
Local Open Scope Z_scope.

Theorem C95_text32 : forall v, 0 <= v < 2 ^ 32 -> length (getBin32 v) = 32%nat /\ readBin (getBin32 v) = Some v.
Proof. exact text32. Qed.
Print Assumptions C95_text32.

Theorem C95_text64 : forall v, 0 <= v < 2 ^ 64 -> length (getBin64 v) = 64%nat /\ readBin (getBin64 v) = Some v.
Proof. exact text64. Qed.
Print Assumptions C95_text64.

(** sorting the texts sorts the numbers *)
Theorem C95_order32 : forall u v, 0 <= u < 2 ^ 32 -> 0 <= v < 2 ^ 32 -> (before (getBin32 u) (getBin32 v) <-> u < v).
Proof. exact order32. Qed.
Print Assumptions C95_order32.

Theorem C95_order64 : forall u v, 0 <= u < 2 ^ 64 -> 0 <= v < 2 ^ 64 -> (before (getBin64 u) (getBin64 v) <-> u < v).
Proof. exact order64. Qed.
Print Assumptions C95_order64.

(** examples *)
Example C95_example_32 : map (fun v => string_of_list_ascii (getBin32 v)) [0; 6; 2 ^ 31] =
  ["00000000000000000000000000000000"; "00000000000000000000000000000110"; "10000000000000000000000000000000"]%string.
Proof. vm_compute. reflexivity. Qed.
Example C95_example_64 : string_of_list_ascii (getBin64 (2 ^ 63 + 5)) = "1000000000000000000000000000000000000000000000000000000000000101"%string.
Proof. vm_compute. reflexivity. Qed.
Example C95_example_read : readBin (getBin64 1234567890123456789) = Some 1234567890123456789.
Proof. vm_compute. reflexivity. Qed.
