(** C87: interaction of two kinds of particles on all ranks, in doubles, when no axis is periodic. *)
From Coq Require Import List Arith ZArith Bool Reals Permutation Lia Lra.
From Flocq Require Import Core BinarySingleNaN.
From Verif Require Import Outcome ListUtil F64 Arith ParticleModel TreeModel TreeSpec TreeProps LetModel LetSpec LetProps MortonModel CallModel CallSpec CallProps CallOpenSpec CallOpenRoot CallOpenProps MixModel MixSpec MixRankModel MixRankProps MixOpenSpec MixOpenProofs.
Import ListNotations.
Local Open Scope Z_scope.

(** the forces of a rank are in the order of its targets; each is made of sources that the functor takes, on whatever rank they are, none twice, and of all of these that are in sight *)
Theorem C87_forces : forall (EPT EPS FPT FPS Force : Type) (PT : particle (vec F_arith) F_arith EPT) (PS : particle (vec F_arith) F_arith EPS) (copyT : FPT -> EPT) (copyS : FPS -> EPS) near (zero : Force) add k q root doms limit grpLimit data,
  lawful PT -> lawful PS -> ready_open PT PS copyT copyS root doms limit grpLimit k q data ->
  forall fuel, exists res,
    mixForces (N := F_arith) PT PS copyT copyS (nearKernel near zero add) (fun _ => zero) k q f_cast fuel open root doms limit grpLimit data = Done res /\ length res = length data /\
    forall r d forces, nth_error data r = Some d -> nth_error res r = Some forces -> forces_open PT PS copyT copyS near zero add data (fst d) forces.
Proof. exact @mix_open. Qed.
Print Assumptions C87_forces.

(** if what the functor takes is in sight, the force of a target does not depend, bit by bit, on the ranks, on the box and its domains, on the parameters of the tree, on threads *)
Theorem C87_ranks : forall (EPT EPS FPT FPS Force : Type) (PT : particle (vec F_arith) F_arith EPT) (PS : particle (vec F_arith) F_arith EPS) (copyT : FPT -> EPT) (copyS : FPS -> EPS) near (zero : Force) add
  (k k' : nat -> stage F_arith EPT EPS Force) q q' root root' doms doms' limit limit' grpLimit grpLimit' (data data' : list (list FPT * list FPS)),
  lawful PT -> lawful PS -> (forall t x y (f : Force), add t x (add t y f) = add t y (add t x f)) ->
  ready_open PT PS copyT copyS root doms limit grpLimit k q data -> ready_open PT PS copyT copyS root' doms' limit' grpLimit' k' q' data' -> Permutation (sources copyS data) (sources copyS data') ->
  forall fuel, exists res res',
    mixForces (N := F_arith) PT PS copyT copyS (nearKernel near zero add) (fun _ => zero) k q f_cast fuel open root doms limit grpLimit data = Done res /\
    mixForces (N := F_arith) PT PS copyT copyS (nearKernel near zero add) (fun _ => zero) k' q' f_cast fuel open root' doms' limit' grpLimit' data' = Done res' /\
    forall r r' d d' forces forces' i i' p, nth_error data r = Some d -> nth_error data' r' = Some d' -> nth_error res r = Some forces -> nth_error res' r' = Some forces' ->
      nth_error (fst d) i = Some p -> nth_error (fst d') i' = Some p ->
      (forall y, In y (sources copyS data) -> near (copyT p) (getRSearch PT (copyT p)) y (getRSearch PS y) = true -> in_sight PT PS (copyT p) y) ->
      nth_error forces i = nth_error forces' i'.
Proof. exact @mix_open_same. Qed.
Print Assumptions C87_ranks.

(** targets 1 at 1/8 and 2 at 15/8 on rank 0, 3 at 30/8 on rank 1; sources 11 at 1/8 and 12 at 10/8 on rank 0, 13 at 17/8 and 14 at 31/8 on rank 1. Target 2 gets source 13 from the other rank,
    target 1 does not get 14, which is near only across the face of the box *)
Definition exOpenData : list (list dot * list dot) := [([dotAt 1 1 3; dotAt 2 15 3], [dotAt 11 1 2; dotAt 12 10 6]); ([dotAt 3 30 3], [dotAt 13 17 1; dotAt 14 31 1])].
Definition exMixOpen (doms : list (ort F_arith)) (data : list (list dot * list dot)) : outcome (list (list (list (nat * Z)))) :=
  mixForces exDot exDot (fun t => t) (fun s => s) (nearKernel exMixNear [] exKeep) (fun _ => []) (exStage data) (exCast data) f_cast 0 open (exBox 0 4) doms 1 1 data.
Example C87_example : exMixOpen [exBox 0 2; exBox 2 4] exOpenData = Done [[[(11%nat, 1)]; [(12%nat, 10); (13%nat, 17)]]; [[(14%nat, 31)]]].
Proof. vm_compute. reflexivity. Qed.
(** the hypotheses of the theorems hold *)
Example C87_example_ready : lawful exDot /\ ready_open exDot exDot (fun t => t) (fun s => s) (exBox 0 4) [exBox 0 2; exBox 2 4] 1 1 (exStage exOpenData) (exCast exOpenData) exOpenData.
Proof.
  assert (P4 : (4 <= 2 ^ 100)%R) by (apply (Rle_trans _ (2 ^ 2)); [lra|apply Rle_pow; [lra|lia]]).
  split; [repeat split; intros []; reflexivity|]. set (E := map (fun d => map (member_item exDot exDot) (members (fun t => t) (fun s => s) d)) exOpenData).
  assert (B : forall e, In e (concat E) -> (forall c, In c coords -> finite (c (s_pos (i_site e))) /\ (Rabs (real (c (s_pos (i_site e)))) <= 4)%R) /\ finite (s_rad (i_site e)) /\ (0 <= real (s_rad (i_site e)) <= 4)%R).
  { intros e He. cbn in He. repeat (destruct He as [<-|He]); [..|destruct He]; (split; [intros c [<-|[<-|[<-|[]]]]; apply (exBound 4); [lia|vm_compute; reflexivity|lia|vm_compute; reflexivity|lia|vm_compute; reflexivity]|]); (split; [reflexivity|]);
      (split; [apply (fle_R (f_ofZ 0)); reflexivity|]); match goal with |- (real ?x <= _)%R => destruct (exBound 4 x) as (_ & X); [lia|vm_compute; reflexivity|]; apply Rabs_le_inv in X; lra end. }
  constructor.
  - fold E. constructor.
    + intros c [<-|[<-|[<-|[]]]]; (split; [reflexivity|]); (split; [reflexivity|]); (split; [vm_compute; reflexivity|apply flt_R; reflexivity]).
    + intros d [<-|[<-|[]]] c [<-|[<-|[<-|[]]]]; split; reflexivity.
    + reflexivity.
    + intros r own d e Hr Hd He. destruct r as [|[|[|r]]]; try discriminate Hr; cbn in Hr, Hd; injection Hr as <-; injection Hd as <-; repeat (destruct He as [<-|He]); try (destruct He); split; intros c [<-|[<-|[<-|[]]]]; (split; [apply fle_R; reflexivity|apply flt_R; reflexivity]).
    + split; cbn; lia.
    + intros e c He Hc. destruct (B e He) as (H & _). destruct (H c Hc). split; [assumption|lra].
    + intros e He. destruct (B e He) as (_ & H1 & H2). split; [exact H1|lra].
    + intros _. exists (member_item exDot exDot (inr (dotAt 12 10 6))). split; [cbn; tauto|]. assert (R : (/ 2 <= real (s_rad (i_site (member_item exDot exDot (inr (dotAt 12 10 6))))))%R).
      { rewrite <- (proj1 half_lit). apply fle_R; reflexivity. }
      split; [apply (Rle_trans _ (/ 2)); [apply Rinv_le; lra|exact R]|]. intros e c He Hc. destruct (B e He) as (H & _). destruct (H c Hc) as (_ & X). lra.
  - lia.
  - intros [|[|r]] d Hd; cbn in Hd; [| |destruct r; discriminate]; injection Hd as <-; repeat split; try reflexivity; apply perm_swap.
  - exists 2%nat. intros [|[|[|r]]]; apply exTeam_any.
Qed.
