(** What distributing a flat list of points evenly means. *)
From Coq Require Import List Arith.
Import ListNotations.

Section Spec.
  Context {A : Type}.

  (** [blocks] cuts [root] (points of [dim] values each) evenly over [n] ranks:
      in rank order and without loss; every block but the last is whole points,
      their number is the average rounded down or up; the last block also takes
      the values of an incomplete point. *)
  Definition even_cut (dim n : nat) (root : list A) (blocks : list (list A)) : Prop :=
    length blocks = n /\
    concat blocks = root /\
    forall r b, nth_error blocks r = Some b ->
      exists c, (length root / dim) / n <= c <= (length root / dim) / n + 1 /\
        length b = dim * c + (if S r =? n then length root mod dim else 0).
End Spec.
