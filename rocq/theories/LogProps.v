(** C84: the constraint stress in the log. *)
From Coq Require Import List Arith ZArith Reals Bool Permutation Lra.
From Verif Require Import Outcome ListUtil F64 ParticleModel Arith ConModel ConSpec ConProps LogModel LogSpec LogProofs.
Import ListNotations.
Local Open Scope R_scope.

(** after the magnitudes of the solution are written back on every rank, the two records hold the sums over all constraints
    between two objects, on all ranks, of magnitude times unit stress, over number of objects times kT *)
Theorem C84_record : forall level (KBT : R) n (ss : list solved), (level <= 2)%Z -> Forall solved_ok ss -> IZR n * KBT <> 0 ->
  exists ps, omap (fun s => writeBackGamma (N := R_arith) (s_ord1 s) (s_gamma s) (s_pool s)) ss = Done ps /\
  exists uni bi, calcConStress (N := R_arith) level KBT n (combine (map s_ord2 ss) ps) = Done (Some (uni, bi)) /\
    record uni (fun i j => virial false (solution ss) i j / (IZR n * KBT)) /\
    record bi (fun i j => virial true (solution ss) i j / (IZR n * KBT)).
Proof. exact after_solve. Qed.
Print Assumptions C84_record.

(** they do not depend on how the constraints are split over ranks and threads *)
Theorem C84_split : forall level (KBT : R) n ranks ranks', Forall rank_ok ranks -> Forall rank_ok ranks' ->
  Permutation (all_blocks ranks) (all_blocks ranks') ->
  calcConStress (N := R_arith) level KBT n ranks = calcConStress (N := R_arith) level KBT n ranks'.
Proof. exact log_split. Qed.
Print Assumptions C84_split.

(** above log level info nothing is computed or recorded *)
Theorem C84_quiet : forall (N : arith) level (KBT : N) n ranks, (2 < level)%Z -> calcConStress level KBT n ranks = Done None.
Proof. exact @log_quiet. Qed.
Print Assumptions C84_quiet.

(** without Brownian motion, kT = 0: the records are not numbers even if there is no constraint at all *)
Theorem C84_athermal_refuted : exists (KBT : f64) n (ranks : list (list nat * pool F_arith)),
  feq KBT (f_ofZ 0) = true /\ (n = 3)%Z /\ concat (map (fun r => concat (snd r)) ranks) = [] /\
  match calcConStress (N := F_arith) 2 KBT n ranks with
  | Done (Some (uni, bi)) => length uni = 9%nat /\ forallb (fun x => negb (feq x x)) (uni ++ bi) = true
  | _ => False
  end.
Proof. exists (f_ofZ 0), 3%Z, [([0%nat], [[]])]. split; [vm_compute; reflexivity|]. split; [reflexivity|]. split; [reflexivity|]. vm_compute. auto. Qed.
Print Assumptions C84_athermal_refuted.

(** three objects on two ranks, kT = 1/4; stress xx 3 and 4 of bilateral blocks, one one-sided block: 4 / 3 * 7 *)
Example C84_example :
  match calcConStress (N := F_arith) 1 (f_lit 1 (-2)) 3 [([1; 0]%nat, [[exS (f_ofZ 3)]; []]); ([0]%nat, [[exS (f_ofZ 4); exB2]])] with
  | Done (Some (uni, bi)) => flt (fabs (fsub (nth 0 bi (f_ofZ 0)) (fdiv (f_ofZ 28) (f_ofZ 3)))) (f_lit 1 (-40)) && forallb (fun x => feq x (f_ofZ 0)) (uni ++ skipn 1 bi) = true
  | _ => False
  end.
Proof. vm_compute. reflexivity. Qed.
(** the hypotheses of C84_record can be met *)
Example C84_example_hypotheses : exists s, solved_ok s /\ length (solution [s; s]) = 4%nat /\ IZR 2 * (1 / 2) <> 0.
Proof.
  set (v := Vec 1 0 0). set (k := withGammaStress (N := R_arith) (mkBlock (N := R_arith) (-1) 0 7 9 0 2 v v v v v v false true 1 0) 0 [1; 0; 0; 0; 0; 0; 0; 0; 0]).
  exists (Solved [1; 0]%nat [0; 1]%nat [[k]; [k]] [2; 3]). split; [|split; [reflexivity|intro H; lra]].
  split; [apply perm_swap|]. split; [apply Permutation_refl|]. split; [reflexivity|repeat constructor].
Qed.
