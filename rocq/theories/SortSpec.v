(** What a user means by "sort both vectors by tag, stably". *)
From Coq Require Import List Arith Permutation Sorted Bool.
Import ListNotations.

Section Spec.
  Context {K D : Type} (lt : K -> K -> bool).

  (** a strict weak ordering, the C++ requirement on operator< *)
  Record strict_weak_order : Prop := {
    swo_irrefl : forall a, lt a a = false;
    swo_trans : forall a b c, lt a b = true -> lt b c = true -> lt a c = true;
    swo_incomp : forall a b c, lt a b = false -> lt b a = false ->
                               lt b c = false -> lt c b = false ->
                               lt a c = false /\ lt c a = false }.

  (** two tags neither of which is smaller *)
  Definition same (a b : K) : bool := negb (lt a b) && negb (lt b a).

  (** [out] is [inp] sorted by tag, stably: no later tag is smaller than an
      earlier one, and for each tag the sub-sequence of entries with an
      equivalent tag is the same, in the same order. *)
  Definition sorted_stably (inp out : list (K * D)) : Prop :=
    StronglySorted (fun p q => lt (fst q) (fst p) = false) out /\
    (forall t, filter (fun p => same t (fst p)) out = filter (fun p => same t (fst p)) inp) /\
    Permutation inp out.
End Spec.
