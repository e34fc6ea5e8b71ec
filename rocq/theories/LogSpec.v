(** What the records of the constraint stress hold. *)
From Coq Require Import List Reals Bool Permutation.
From Verif Require Import Arith ConModel ConSpec.
Import ListNotations.
Local Open Scope R_scope.

(** entry (i,j) of the sum of magnitude times stress per unit magnitude, over the constraints between two objects that are
    bilateral (or unilateral) *)
Definition virial (bi : bool) (bgs : list (block R_arith * R)) (i j : nat) : R :=
  Rsum (map (fun bg => snd bg * comp i j (fst bg)) (filter (fun bg => negb (oneSide (fst bg)) && Bool.eqb (bilateral (fst bg)) bi) bgs)).
(** a record of nine numbers by rows *)
Definition record (l : list R) (f : nat -> nat -> R) : Prop :=
  l = [f 0 0; f 0 1; f 0 2; f 1 0; f 1 1; f 1 2; f 2 0; f 2 1; f 2 2]%nat.
(** the queues of a rank are reduced in some order, every block has nine stress entries *)
Definition rank_ok (r : list nat * pool R_arith) : Prop :=
  Permutation (fst r) (seq 0 (length (snd r))) /\ Forall (Forall (fun b => length (stress b) = 9%nat)) (snd r).

(** the constraints of all ranks *)
Definition all_blocks (ranks : list (list nat * pool R_arith)) : list (block R_arith) := concat (map (fun r => concat (snd r)) ranks).

(** one rank between the solve and the record: the schedules of the two loops, its constraints as collected, its part of the solution *)
Record solved := Solved { s_ord1 : list nat; s_ord2 : list nat; s_pool : pool R_arith; s_gamma : list R }.
Definition solved_ok (s : solved) : Prop :=
  Permutation (s_ord1 s) (seq 0 (length (s_pool s))) /\ Permutation (s_ord2 s) (seq 0 (length (s_pool s))) /\
  length (s_gamma s) = length (concat (s_pool s)) /\ Forall (Forall (fun b => length (stress b) = 9%nat)) (s_pool s).
(** the constraints of all ranks with their magnitudes *)
Definition solution (ss : list solved) : list (block R_arith * R) := flat_map (fun s => combine (concat (s_pool s)) (s_gamma s)) ss.
