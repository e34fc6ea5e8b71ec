(** Model of Util/SortUtil.hpp. *)
From Coq Require Import List Arith.
From Verif Require Import Outcome ListUtil.
Import ListNotations.

Section StableSort.
  Context {A : Type} (lt : A -> A -> bool).

  (** std::stable_sort called at Util/SortUtil.hpp:71.  The C++ standard fixes
      the result (the stable sorted permutation) but not the algorithm; the
      model is insertion sort.  SortProofs.stable_sort_unique shows the result
      is the only one satisfying the standard's contract. *)
  Fixpoint insert (x : A) (l : list A) : list A :=
    match l with
    | [] => [x]
    | y :: r => if lt y x then y :: insert x r else x :: y :: r
    end.
  (** Util/SortUtil.hpp:71 *)
  Fixpoint stable_sort (l : list A) : list A :=
    match l with
    | [] => []
    | x :: r => insert x (stable_sort r)
    end.
End StableSort.

Section SortDataWithTag.
  Context {Tag Data : Type} (lt : Tag -> Tag -> bool).

  (** Util/SortUtil.hpp:38-44, sort_indices::operator(); the asserts on the
      index range are not an outcome here because the result is only consumed
      by the sort: SortProofs shows all indices are in range. *)
  Definition index_lt (tags : list Tag) (i j : nat) : bool :=
    match nth_error tags i, nth_error tags j with
    | Some a, Some b => lt a b
    | _, _ => false
    end.

  (** Util/SortUtil.hpp:57-88, sortDataWithTag; a size mismatch (the assert at
      line 60) is [UB] (out-of-range reads of [data] when compiled away). *)
  Definition sortDataWithTag (tags : list Tag) (data : list Data)
    : outcome (list Tag * list Data) :=
    if length tags =? length data then
      let indices := stable_sort (index_lt tags) (seq 0 (length tags)) in
      do tagsSorted <- omap (mread tags) indices;
      do dataSorted <- omap (mread data) indices;
      Done (tagsSorted, dataSorted)
    else UB.
End SortDataWithTag.
