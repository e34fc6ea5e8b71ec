(** C75: a step with the blocks collected by the code. *)
From Coq Require Import List Arith ZArith Lia Bool Reals Lra Permutation.
From Flocq Require Import Core.
From Verif Require Import Outcome ListUtil F64 Arith ParticleModel VecModel VecSpec PointsModel SylModel SylSpec ConModel ConSpec BoundaryModel BoundarySpec LinkModel LinkSpec NearModel NearSpec StepModel StepSpec TreeModel TreeSpec LetModel LetSpec CallModel CallSpec CallContact QPModel QPSpec PipeModel PipeSpec PipeProofs PipeCollect PipeProps WholeModel WholeSpec WholeProps FullSpec FullMain.
Import ListNotations.
Local Open Scope R_scope.

(** prepareStep makes everything ready *)
Theorem C75_prepare : forall (k : luck R_arith) c pa m b nx ny nz dmax stepCount (ranks : list ranked), any_luck k -> c_monolayer c = false -> fit_box pa (b_root b) -> tidy b nx ny nz ranks ->
  (Z.rem stepCount 50 = 0%Z -> sampled k ranks) -> (b_doms b = None -> Z.rem stepCount 50 = 0%Z) -> (6 * Z.of_nat (length (objects ranks)) <= INT_MAX)%Z ->
  (forall s, In s (objects ranks) -> fit_object pa (b_root b) m c s) -> (Z.of_nat m <= 9000)%Z -> treeable (length (objects ranks) * S (copies pa m)) ->
  exists n, forall fuel, (n <= fuel)%nat -> exists b' out, prepareStep k fuel dmax c stepCount b ranks = Done (Some (b', out)) /\ b_root b' = b_root b /\ length out = length ranks /\ prepared pa m b' out /\
    exists before, Permutation before (objects ranks) /\ Forall2 (ready_object (b_root b) c) before (objects out).
Proof. exact prepared_ok. Qed.
Print Assumptions C75_prepare.

(** resolveConstraints collects, on each rank, the contacts, the wall contacts and the links of its objects, and the solver gets what it needs *)
Theorem C75_collect : forall {Fo} (x : gear Fo) m ls ranks, set_up x m ls ranks ->
  exists n, forall fuel fuel', (n <= fuel)%nat -> (n <= fuel')%nat -> exists pools, (forall ranks', same_bodies ranks ranks' -> gather x fuel fuel' ranks' = Done (Some pools)) /\ length pools = length ranks /\
    (forall r p pool, nth_error ranks r = Some p -> nth_error pools r = Some pool -> length pool = x_threads x /\ gathered (x_pa x) (b_root (x_doms x)) (x_buf x) (x_bounds x) (x_link x) ls ranks (pr_ptcl p) (concat pool)) /\
    Forall (posed (length (objects ranks))) (concat (concat pools)) /\ Forall opposed (concat (concat pools)).
Proof. exact (@gear_collect). Qed.
Print Assumptions C75_collect.

(** the step ends *)
Theorem C75_runs : forall {Fo} (x : gear Fo) m ls ranks, set_up x m ls ranks ->
  exists n, forall fuel fuel', (n <= fuel)%nat -> (n <= fuel')%nat -> forall tenth c v fuel2 y fNB vNB, steady (fun _ => x_threads x) c v y fNB vNB ranks -> countable (gather x fuel fuel') ranks -> v_choice v <> 1%Z ->
    exists ms r1 r2 pools hist, calcMobOperator (N := R_arith) ln PI (c_viscosity c) y ranks = Done ms /\ runStepAll (N := R_arith) ln sin cos PI tenth c v fuel2 y ms fNB vNB (gather x fuel fuel') ranks = Done (Some (r1, r2, pools, hist)).
Proof. exact (@gear_runs). Qed.
Print Assumptions C75_runs.

(** two spheres, on whatever ranks, one of them possibly a periodic image, that are within the collision limit before a converged step do not overlap by more than dt tol after it *)
Theorem C75_apart : forall {Fo} (x : gear Fo) m ls ranks, set_up x m ls ranks ->
  exists n, forall fuel fuel', (n <= fuel)%nat -> (n <= fuel')%nat -> forall tenth c v fuel2 y fNB vNB r1 r2, converged_step x fuel fuel' tenth c v fuel2 y fNB vNB ranks r1 r2 ->
    forall i j s u z, nth_error (objects ranks) i = Some s -> nth_error (objects ranks) j = Some u -> (s_gid s < s_gid u)%Z -> lattice (x_pa x) z -> round (rod s) -> round (rod u) ->
      dist3 (spos s) (away (b_root (x_doms x)) z (spos u)) < NearSpec.limit (rod s) (rod u) ->
      exists s' u', nth_error (objects r2) i = Some s' /\ nth_error (objects r2) j = Some u' /\ skin (rod s) + skin (rod u) - c_dt c * v_tol v < dist3 (spos s') (away (b_root (x_doms x)) z (spos u')).
Proof. intros Fo x m ls ranks Hx. destruct (gear_step x m ls ranks Hx) as (n & H). exists n. intros fuel fuel' F1 F2 tenth c v fuel2 y fNB vNB r1 r2 Hc. apply (H fuel fuel' F1 F2 tenth c v fuel2 y fNB vNB r1 r2 Hc). Qed.
Print Assumptions C75_apart.

(** a sphere near a plane wall, or beyond it, does not overlap with it by more than dt tol after a converged step *)
Theorem C75_wall : forall {Fo} (x : gear Fo) m ls ranks, set_up x m ls ranks ->
  exists n, forall fuel fuel', (n <= fuel)%nat -> (n <= fuel')%nat -> forall tenth c v fuel2 y fNB vNB r1 r2, converged_step x fuel fuel' tenth c v fuel2 y fNB vNB ranks r1 r2 ->
    forall i s wc wn, nth_error (objects ranks) i = Some s -> In (Wall (N := R_arith) wc wn) (x_bounds x) -> unit3 wn -> round (rod s) -> 0 <= x_buf x -> 0 < radiusCol s ->
      dot3 (sub3 (spos s) wc) wn <> 0 -> dot3 (sub3 (spos s) wc) wn < (1 + 2 * x_buf x) * radiusCol s ->
      exists s', nth_error (objects r2) i = Some s' /\ skin (rod s) - c_dt c * v_tol v < dot3 (sub3 (spos s') wc) wn.
Proof. intros Fo x m ls ranks Hx. destruct (gear_step x m ls ranks Hx) as (n & H). exists n. intros fuel fuel' F1 F2 tenth c v fuel2 y fNB vNB r1 r2 Hc. apply (H fuel fuel' F1 F2 tenth c v fuel2 y fNB vNB r1 r2 Hc). Qed.
Print Assumptions C75_wall.

(** the forces of all links add up to zero, and without walls those of all contacts *)
Theorem C75_momentum : forall {Fo} (x : gear Fo) m ls ranks, set_up x m ls ranks ->
  exists n, forall fuel fuel', (n <= fuel)%nat -> (n <= fuel')%nat -> forall tenth c v fuel2 y fNB vNB r1 r2, converged_step x fuel fuel' tenth c v fuel2 y fNB vNB ranks r1 r2 ->
    forall d, (d < 3)%nat -> Rsum (map (fun t => vget (forceBi (mot t)) d) (objects r1)) = 0 /\ (x_bounds x = [] -> Rsum (map (fun t => vget (forceCol (mot t)) d) (objects r1)) = 0).
Proof. intros Fo x m ls ranks Hx. destruct (gear_step x m ls ranks Hx) as (n & H). exists n. intros fuel fuel' F1 F2 tenth c v fuel2 y fNB vNB r1 r2 Hc. apply (H fuel fuel' F1 F2 tenth c v fuel2 y fNB vNB r1 r2 Hc). Qed.
Print Assumptions C75_momentum.

(** ** Example *)

(** as in C73_example, with a wall at z = -3/8 and a link between the objects 1 and 2: initialize, prepareStep and runStep *)
Definition exPer : vec bool := Vec true false false.
Definition exDeal (ls : list (Z * Z)) (n : nat) : dealing := Dealing [(rev (seq 0 n), fun i => (i mod 2)%nat)] (seq 0 n) (fun _ => 1%nat) ls.
Definition exGather (b : domains F_arith) (ranks : list (@prank (sylinder F_arith))) : outcome (option (list (pool F_arith))) :=
  let e := copyFromFP (N := F_arith) (exObject 99 9 9 9) in
  collectConstraints (N := F_arith) (exCollect exPer b) 9 (f_ofZ 3) (f_lit 1 (-2)) [Wall (N := F_arith) (f3 0 0 (-3) (-3)) (f3 0 0 1 0)]
    (LinkConfig (N := F_arith) exPer (f3 0 0 0 0) (f3 4 4 4 0) (f_lit 1 (-3)) (f_ofZ 2)) e (fun _ => e) [] (fun _ => []) (fun r => exDeal [(1, 2)%Z] (length (pr_ptcl (nth r ranks (exRank []))))) ranks.
Definition exFull :=
  let c := exSettings false in
  do s <- exStart false exPer 4 (2, 1, 1)%nat [exRank [exObject 0 (-2) 3 (-5); exObject 1 20 1 2; exObject 2 40 (-30) 0; exObject 3 65 3 (-5)]; exRank []];
  match s with
  | None => UB
  | Some (b, ranks) =>
      let y := fun r => exFate (length (pr_ptcl (nth r ranks (exRank [])))) in
      do ms <- calcMobOperator (N := F_arith) (fun x => x) (f_ofZ 3) (c_viscosity c) y ranks;
      runStepAll (N := F_arith) (fun x => x) (fun _ => f_ofZ 0) (fun _ => f_ofZ 1) (f_ofZ 3) (f_lit 1 (-3)) c (SolveConfig (N := F_arith) (f_lit 1 (-20)) 100 0) 200 y ms (fun _ => None) (fun _ => None) (exGather b) ranks
  end.
Definition exPlace (s : sylinder F_arith) := (s_gid s, map (fun c => f_trunc (fmul (f_ofZ 1024) (c (spos s)))) [vx; vy; vz]).
(** the spheres 0 and 3 overlapped across the boundary and with the wall, with centres at -128 and 64 and -320 in units of 1/1024; the radius is 128 *)
Example C75_example :
  match exFull with
  | Done (Some (r1, r2, pools, hist)) => Some (map (fun p => map exPlace (pr_ptcl p)) r2, map (map (map (fun k => (gidI k, gidJ k, oneSide k, bilateral k, f_trunc (fmul (f_ofZ 1024) (gamma k)))))) pools, existsb (fun h => flt (h_res h) (f_lit 1 (-20))) hist)
  | _ => None
  end = Some ([[(1, [1623; -467; 93]); (3, [96; 192; -256])]; [(0, [3935; 192; -256]); (2, [2216; -1388; 34])]],
    [[[]; [(3, 3, true, false, 143); (1, 2, false, true, -1425)]]; [[(0, 3, false, false, 72); (0, 0, true, false, 143)]; []]], true)%Z.
Proof. vm_compute. reflexivity. Qed.

(** what the theorems ask for, from the spheres of C73_example_reals, with a wall and a link *)
Definition exGear (b : domains R_arith) (out : list ranked) : gear unit :=
  let e := copyFromFP (N := R_arith) (exSphere 99 0) in
  Gear unit (fun _ _ f => f) (fun f => f) (fun r => CallProps.exTeam (fun _ => @initMoment R_arith) (exR3 7 7 7) (CallProps.exBall 9 9) tt 1 2 (nth r (PipeSpec.sizes out) 0%nat)) 2 (Vec true false false) 1 1 b 0
    [Wall (N := R_arith) (exR3 0 0 (3 / 4)) (exR3 0 0 1)] (LinkConfig (N := R_arith) (Vec true false false) (exR3 0 0 0) (exR3 4 4 4) (/ 8) 2) e (fun _ => e) [] (fun _ => [])
    (fun r => exDeal [(0, 1)%Z] (nth r (PipeSpec.sizes out) 0%nat)).
Definition exYield (out : list ranked) (r : nat) : fate R_arith := let n := nth r (PipeSpec.sizes out) 0%nat in
  @Fate R_arith (seq 0 n) (0%nat, 0) [0; 1]%nat [1; 0]%nat [0; 1]%nat (0%Z, 0) 0%Z (fun _ => seq 0 n) (fun _ => @Draws R_arith (exR3 0 0 0) (exR3 0 0 0) (exR3 0 0 0) (exR3 0 0 0)).
Example C75_example_reals : exists n, forall fuel, (n <= fuel)%nat -> exists b out, prepareStep exAny fuel (0 : R_arith) exReals 0 exWorld exSpheres = Done (Some (b, out)) /\
  set_up (exGear b out) 1 [(0, 1)%Z] out /\ steady (fun _ => 2%nat) exReals (SolveConfig (N := R_arith) (/ 1024) 100 0) (exYield out) (fun _ => None) (fun _ => None) out.
Proof.
  assert (P100 : 8 <= 2 ^ 100) by (apply (Rle_trans _ (2 ^ 3)); [lra|apply Rle_pow; [lra|lia]]).
  assert (PW : 2 ^ 100 < exWide) by (unfold exWide; lra).
  destruct (C75_prepare exAny exReals (Vec true false false) 1 exWorld 2 1 1 (0 : R_arith) 0 exSpheres) as (n & Hn).
  - split; [intros; cbn; lia|]. split; [apply R_sorts|]. split; intros; apply Permutation_refl.
  - reflexivity.
  - intros b c [H|[H|[H|[]]]]; injection H as <- <-; cbn [exWorld b_root olow ohigh exR3 vx vy vz]; (split; [lra|]); rewrite ?Rabs_R0, ?(Rabs_pos_eq 4) by lra; lra.
  - repeat split; try (cbn; lia); cbn; lra.
  - intros _. split; [cbn; lia|]. split; [cbn; unfold INT_MAX; lia|]. intros [|[|[|r]]] m Hm; cbn in Hm; inversion Hm; subst; cbn; lia.
  - reflexivity.
  - cbn. unfold INT_MAX. lia.
  - assert (X : reach (/ 2) 0 (0 * 1) 0 = 1) by (unfold reach; rewrite Rmax_left; lra).
    intros s Hs. cbn in Hs. assert (Y : exists g x, s = exSphere g x /\ Rabs x <= 1) by (destruct Hs as [<-|[<-|[]]]; do 2 eexists; (split; [reflexivity|]); rewrite ?Rabs_Ropp, Rabs_pos_eq; lra). destruct Y as (g & x & -> & Hx).
    unfold fit_object, fit. cbn [exSphere spos orient radius slength exReals c_diameterRatio c_lengthRatio c_colBuf exR3]. rewrite X. split.
    { intros b c [H|[H|[H|[]]]] Hb; injection H as <- <-; try discriminate Hb; cbn; rewrite Rabs_pos_eq; lra. }
    repeat (split; [lra|]). split; [unfold unitq; cbn; lra|]. split; [lra|]. split; [split; [intros _; unfold edge; cbn; lra|split; discriminate]|]. split; [left; reflexivity|]. left. lra.
  - lia.
  - split; vm_compute; congruence.
  - exists n. intros fuel Hf. destruct (Hn fuel Hf) as (b & out & E & Rt & L & P & before & PM & F). exists b, out. split; [exact E|]. clear Hn E.
    assert (G : Permutation (map s_gid (objects out)) [0; 1]%Z).
    { assert (X : map s_gid before = map s_gid (objects out)) by (clear -F; induction F as [|s t l l' H _ IH]; [reflexivity|]; cbn; rewrite IH; f_equal; symmetry; apply H). rewrite <- X. exact (Permutation_map s_gid PM). }
    assert (S : forall r p, nth_error out r = Some p -> nth r (PipeSpec.sizes out) 0%nat = length (pr_ptcl p)) by (intros r p Hp; apply nth_error_nth; unfold PipeSpec.sizes; rewrite (map_nth_error _ _ _ Hp); reflexivity).
    split; constructor; cbn [exGear x_pa x_doms x_link x_cast x_threads x_limit x_group x_func x_deal x_bounds].
    + exact P.
    + constructor.
      * apply (Permutation_NoDup (Permutation_sym G)). repeat constructor; cbn; intuition discriminate.
      * intros l [<-|[]] _. apply (Permutation_in _ (Permutation_sym G)). cbn. auto.
      * rewrite Rt. intros [|[|[|d]]] Hd Hp; try lia; try discriminate Hp. split; reflexivity.
      * cbn. lra.
    + intros r. rewrite L. apply CallProps.exTeam_any.
    + lia.
    + auto.
    + intros r p Hp. rewrite (S r p Hp). set (m := length (pr_ptcl p)). repeat split; cbn [exDeal g_plan g_order g_who g_links fst snd].
      * constructor; [|constructor]. split; [symmetry; apply Permutation_rev|]. intros i _. apply Nat.mod_upper_bound. lia.
      * apply Permutation_refl.
      * lia.
      * apply Permutation_refl.
    + cbn. lra.
    + cbn. lra.
    + apply Forall_forall. intros t Ht. apply In_nth_error in Ht. destruct Ht as (i & Hi). destruct (CallSort.Forall2_nth _ _ _ F _ _ Hi) as (s & Hs & (_ & _ & _ & R1 & R2 & _ & _ & _ & x & _ & _ & R3)).
      apply nth_error_In in Hs. apply (Permutation_in _ PM) in Hs. unfold SylSpec.proper. rewrite R1, R2, R3. unfold unitq. destruct Hs as [<-|[<-|[]]]; cbn; lra.
    + assert (X := Permutation_length G). rewrite map_length in X. cbn in X. unfold INT_MAX. lia.
    + intros r p Hp. unfold any_fate, exYield. rewrite (S r p Hp). cbn [y_mob y_fill1 y_fill2 y_back y_ord]. repeat split; try reflexivity; try (apply Permutation_refl); try (apply perm_swap). 
    + cbn. unfold most. assert (1 <= bpow radix2 971) by (apply (bpow_le radix2 0); lia). lra.
Qed.
