(** C74: a whole step on all ranks. *)
From Coq Require Import List Arith ZArith Bool Reals Lra Permutation.
From Verif Require Import Outcome ListUtil F64 Arith ParticleModel VecModel VecSpec PointsModel SylModel SylSpec ConModel ConSpec StepModel StepSpec QPModel QPSpec PipeModel PipeSpec PipeProps WholeModel WholeSpec WholeMain.
Import ListNotations.
Local Open Scope R_scope.

(** when the solver has seen a residual below the tolerance: each object has the forces of the blocks and moves by its total velocity, and each block, with the collected geometry, fits to the motion of its two objects *)
Theorem C74_step : forall threads tenth c v fuel y fNB vNB collect ranks ms r1 r2 pools hist, in_order threads c v y fNB vNB collect ranks -> plain c ranks ->
  calcMobOperator (N := R_arith) ln PI (c_viscosity c) y ranks = Done ms -> runStepAll (N := R_arith) ln sin cos PI tenth c v fuel y ms fNB vNB collect ranks = Done (Some (r1, r2, pools, hist)) -> below v hist ->
  let ks := concat (concat pools) in
  kept ranks r1 /\ kept ranks r2 /\
  (forall g s, nth_error (objects ranks) g = Some s -> exists t, nth_error (objects r1) g = Some t /\ carried (c_viscosity c) ks g s t /\
    nth_error (objects r2) g = Some (if c_fixed c then t else stepEuler (N := R_arith) sin cos (c_dt c) t)) /\
  (forall k, In k ks -> exists sI sJ, bodies (objects r1) k sI sJ /\ resolved (c_dt c) (v_tol v) k (mot sI) (mot sJ)) /\
  exists ranks0 pools0, same_bodies ranks ranks0 /\ collect ranks0 = Done (Some pools0) /\ Forall2 (fun k k' => scaled (N := R_arith) k (gamma k') k') (concat (concat pools0)) ks.
Proof. intros threads tenth c v fuel y fNB vNB collect ranks ms r1 r2 pools hist ([H1 H2 H3 H4 H5 H6] & H7) (H8 & H9). exact (main_ok tenth c v fuel y threads fNB vNB collect ranks H1 H2 H3 H4 H5 H6 H7 H8 H9 ms r1 r2 pools hist). Qed.
Print Assumptions C74_step.

(** the step always ends, with the default solver *)
Theorem C74_runs : forall threads tenth c v fuel y fNB vNB collect ranks, in_order threads c v y fNB vNB collect ranks -> v_choice v <> 1%Z ->
  (forall ranks', same_bodies ranks ranks' -> exists pools, collect ranks' = Done (Some pools)) ->
  exists ms r1 r2 pools hist, calcMobOperator (N := R_arith) ln PI (c_viscosity c) y ranks = Done ms /\
    runStepAll (N := R_arith) ln sin cos PI tenth c v fuel y ms fNB vNB collect ranks = Done (Some (r1, r2, pools, hist)).
Proof.
  intros threads tenth c v fuel y fNB vNB collect ranks ([H1 H2 H3 H4 H5 H6] & H7) Hv Hc. eexists. pose proof (mobs_ok c y threads fNB vNB ranks H5) as Em.
  destruct (main_total tenth c v fuel y threads fNB vNB collect ranks H1 H2 H3 H4 H5 H6 H7 _ (proj2 (Z.eqb_neq _ _) Hv) Hc Em) as (r1 & r2 & pools & hist & E). exists r1, r2, pools, hist. split; [exact Em|exact E].
Qed.
Print Assumptions C74_runs.

(** the forces of the two-sided blocks add up to nothing, over all objects of all ranks *)
Theorem C74_momentum : forall threads tenth c v fuel y fNB vNB collect ranks ms r1 r2 pools hist, in_order threads c v y fNB vNB collect ranks -> plain c ranks ->
  calcMobOperator (N := R_arith) ln PI (c_viscosity c) y ranks = Done ms -> runStepAll (N := R_arith) ln sin cos PI tenth c v fuel y ms fNB vNB collect ranks = Done (Some (r1, r2, pools, hist)) -> below v hist ->
  Forall opposed (concat (concat pools)) -> forall d, (d < 3)%nat ->
  Rsum (map (fun t => vget (forceCol (mot t)) d) (objects r1)) = Rsum (map (fun k => gamma k * vget (normI k) d) (filter (fun k => negb (bilateral k) && oneSide k) (concat (concat pools)))) /\
  Rsum (map (fun t => vget (forceBi (mot t)) d) (objects r1)) = Rsum (map (fun k => gamma k * vget (normI k) d) (filter (fun k => bilateral k && oneSide k) (concat (concat pools)))).
Proof. exact whole_momentum. Qed.
Print Assumptions C74_momentum.

(** two balls of radius 1/2 on two ranks, their centres 7/8 apart, and a third one at rest *)
Definition exBallAt (g x : Z) : sylinder F_arith :=
  let o := f3 0 0 0 0 in
  @Syl F_arith g g 0 (-1) false (f_lit 1 (-1)) (f_lit 1 (-1)) (f_ofZ 0) (f_ofZ 0) (f_ofZ 1) (f_ofZ 1) (f_ofZ 0) (f3 x 0 0 (-3)) (@Quat F_arith (f_ofZ 0) (f_ofZ 0) (f_ofZ 0) (f_ofZ 1))
    (@Motion F_arith o o o o o o o o o o o o o o o o o o).
Definition exThree : list (@prank (sylinder F_arith)) := [exRank [exBallAt 0 0]; exRank [exBallAt 1 7; exBallAt 2 80]].
Definition exFate (n : nat) : fate F_arith := Fate (N := F_arith) (rev (seq 0 n)) (9%nat, f_ofZ 7) [1; 0]%nat [0; 1]%nat [1; 0]%nat (77%Z, f_ofZ 5) 5%Z (fun _ => rev (seq 0 n)) (fun _ => @Draws F_arith (f3 0 0 0 0) (f3 0 0 0 0) (f3 0 0 0 0) (f3 0 0 0 0)).
Definition exBlock : block F_arith := mkBlock (N := F_arith) (f_lit (-1) (-3)) (f_lit 1 (-3)) 0 1 0 1 (f3 (-1) 0 0 0) (f3 1 0 0 0) (f3 0 0 0 0) (f3 0 0 0 0) (f3 0 0 0 0) (f3 7 0 0 (-3)) false false (f_ofZ 0) (f_ofZ 0).
Definition exWhole : outcome (option (list (@prank (sylinder F_arith)) * list (@prank (sylinder F_arith)) * list (pool F_arith) * list (hrec F_arith))) :=
  let y := fun r => exFate (S r) in let c := exSettings false in
  do ms <- calcMobOperator (N := F_arith) (fun x => x) (f_ofZ 3) (c_viscosity c) y exThree;
  runStepAll (N := F_arith) (fun x => x) (fun _ => f_ofZ 0) (fun _ => f_ofZ 1) (f_ofZ 3) (f_lit 1 (-3)) c (SolveConfig (N := F_arith) (f_lit 1 (-20)) 100 0) 200 y ms (fun _ => None) (fun _ => None)
    (fun _ => Done (Some [[[]; [exBlock]]; [[]; []]])) exThree.
(** the two balls are pushed apart by opposite forces of 9/16 (with 3 for pi, a drag of 9 in a step of 1) and touch at the end: at -1/16 and 15/16 *)
Example C74_example : match exWhole with Done (Some (r1, r2, pools, hist)) =>
    Some (map (fun s => f_trunc (fmul (f_ofZ 1000) (vx (forceCol (mot s))))) (concat (map pr_ptcl r1)), map (fun s => f_trunc (fmul (f_ofZ 1000) (vx (spos s)))) (concat (map pr_ptcl r2)),
      map (fun k => f_trunc (fmul (f_ofZ 1000) (gamma k))) (concat (concat pools)), existsb (fun h => flt (h_res h) (f_lit 1 (-20))) hist) | _ => None end
  = Some ([-562; 562; 0], [-62; 937; 10000], [562], true)%Z.
Proof. vm_compute. reflexivity. Qed.
