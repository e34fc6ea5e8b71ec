(** Property C04 (sorting data by tag). *)
From Coq Require Import List Arith ZArith Lia Permutation Sorted Bool.
From Verif Require Import Outcome SortModel SortSpec SortProofs.
Import ListNotations.

(** The result is the stable sort of the tag/datum pairs, and the call never
    reads out of range. *)
Theorem C04_sorted_stably : forall (Tag Data : Type) (lt : Tag -> Tag -> bool),
  strict_weak_order lt -> forall (tags : list Tag) (data : list Data),
  length tags = length data ->
  exists tags' data', sortDataWithTag lt tags data = Done (tags', data') /\
    length tags' = length data' /\
    sorted_stably lt (combine tags data) (combine tags' data').
Proof. exact @sortDataWithTag_spec. Qed.
Print Assumptions C04_sorted_stably.

(** The specification leaves no freedom: any stably sorted result is this one,
    so the choice of sorting algorithm in the model is immaterial. *)
Theorem C04_result_unique : forall (Tag Data : Type) (lt : Tag -> Tag -> bool),
  strict_weak_order lt -> forall (tags : list Tag) (data : list Data) tags' data',
  length tags = length data -> length tags' = length data' ->
  sorted_stably lt (combine tags data) (combine tags' data') ->
  sortDataWithTag lt tags data = Done (tags', data').
Proof. exact @sortDataWithTag_complete. Qed.
Print Assumptions C04_result_unique.

(** Sorting again changes nothing. *)
Theorem C04_idempotent : forall (Tag Data : Type) (lt : Tag -> Tag -> bool),
  strict_weak_order lt -> forall (tags : list Tag) (data : list Data) tags' data',
  sortDataWithTag lt tags data = Done (tags', data') ->
  sortDataWithTag lt tags' data' = Done (tags', data').
Proof. exact @sortDataWithTag_idem. Qed.
Print Assumptions C04_idempotent.

(** int tags are a strict weak order *)
Lemma Zltb_swo : strict_weak_order Z.ltb.
Proof. split; intros; rewrite ?Z.ltb_lt, ?Z.ltb_ge in *; lia. Qed.

Example C04_example :
  strict_weak_order Z.ltb /\
  sortDataWithTag Z.ltb [3; 1; 3; -2; 1]%Z [10; 11; 12; 13; 14]
  = Done ([-2; 1; 1; 3; 3]%Z, [13; 11; 14; 10; 12]).
Proof. split; [exact Zltb_swo | vm_compute; reflexivity]. Qed.

(** A partially filled call (sizes differ) is outside the contract. *)
Example C04_size_mismatch : sortDataWithTag Z.ltb [3; 1]%Z [10] = UB.
Proof. reflexivity. Qed.
