(** What the all-to-all exchange is supposed to do, on the ranks' addressed
    items: [items] has one list per rank of (destination, datum) pairs. *)
From Coq Require Import List Arith ZArith.
From Verif Require Import CommModel.
Import ListNotations.

Section Spec.
  Context {D : Type}.

  (** what one source addresses to rank r, in its order *)
  Definition addressed_to (r : nat) (src : list (Z * D)) : list D :=
    map snd (filter (fun p => Z.eqb (fst p) (Z.of_nat r)) src).

  (** what rank r must receive: (source rank, datum), by source rank, each
      source in its order *)
  Definition delivery (items : list (list (Z * D))) (r : nat) : list (Z * D) :=
    concat (map (fun s => map (fun d => (Z.of_nat s, d)) (addressed_to r (nth s items [])))
                (seq 0 (length items))).

  (** every destination is a rank *)
  Definition well_addressed (items : list (list (Z * D))) : Prop :=
    Forall (Forall (fun p => (0 <= fst p < Z.of_nat (length items))%Z)) items.

  (** a rank's (destination, datum) pairs, and the caller's obligation that the
      two send vectors have the same size *)
  Definition xitems (a : xarg D) : list (Z * D) := combine (xa_dest a) (xa_send a).
  Definition xsizes_ok (args : list (xarg D)) : Prop :=
    Forall (fun a => length (xa_dest a) = length (xa_send a)) args.

  (** the reply call: destinations = received source ranks, data = received data *)
  Definition reply (res : list (xres D)) (old : list (list Z * list D)) : list (xarg D) :=
    map (fun p => Build_xarg (xr_src (fst p)) (xr_recv (fst p)) (fst (snd p)) (snd (snd p)))
        (combine res old).
End Spec.
