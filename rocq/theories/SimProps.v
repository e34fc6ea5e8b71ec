(** C76: the main loop on all ranks. *)
From Coq Require Import List Arith ZArith Lia Bool Reals Lra Permutation.
From Flocq Require Import Core.
From Verif Require CallSort CallProps MortonModel.
From Verif Require Import Outcome ListUtil F64 Arith ParticleModel VecModel VecSpec PointsModel SylModel SylSpec ConModel ConSpec BoundaryModel LinkModel LinkSpec NearModel NearSpec StepModel StepSpec TreeModel TreeSpec LetModel LetSpec CallModel CallSpec CallContact QPModel QPSpec PipeModel PipeSpec PipeProofs PipeCollect PipeProps WholeModel WholeSpec WholeProps FullSpec FullProps SimModel SimSpec SimMain.
Import ListNotations.
Local Open Scope R_scope.

(** a step from a healthy state ends, is a good one, and leaves a healthy state, unless there are more than INT_MAX blocks *)
Theorem C76_step : forall {Fo} (z : rsetting Fo) root m nx ny nz n ls s k (w : list ranked -> play R_arith Fo), sensible z root m n -> healthy z root m nx ny nz n ls s -> near (z_pa z) (t_ranks s) ->
  fair (nx * ny * nz) n k -> onward z s = true -> (forall ranks, length ranks = (nx * ny * nz)%nat -> length (objects ranks) = n -> any_play z ls ranks (w ranks)) ->
  exists f, forall fuel, (f <= fuel)%nat -> crowded z k w s \/ exists o, oneStep z k w fuel s = Done (Some o) /\ good_step z root s o /\ healthy z root m nx ny nz n ls (next s o).
Proof. intros Fo z root m nx ny nz n ls s k w HZ. exact (sim_step z root m nx ny nz n ls HZ s k w). Qed.
Print Assumptions C76_step.

(** the main loop ends, all its steps are good ones and the objects are those of the start, unless an object gets absurdly far along an open axis or there are more than INT_MAX blocks *)
Theorem C76_main_loop : forall {Fo} (z : rsetting Fo) root m nx ny nz n ls (ks : Z -> luck R_arith) (ws : Z -> list ranked -> play R_arith Fo) s cnt, sensible z root m n ->
  (forall t, fair (nx * ny * nz) n (ks t)) -> (forall t ranks, length ranks = (nx * ny * nz)%nat -> length (objects ranks) = n -> any_play z ls ranks (ws t ranks)) ->
  healthy z root m nx ny nz n ls s -> z_total z <= (IZR (t_count s) + INR cnt) * c_dt (z_step z) ->
  (exists fuel os s', run z ks ws fuel cnt s = Done (Some (os, s')) /\ steps z root s os s' /\ healthy z root m nx ny nz n ls s' /\ onward z s' = false) \/
  (exists fuel os s', run z ks ws fuel (length os) s = Done (Some (os, s')) /\ steps z root s os s' /\ (~ near (z_pa z) (t_ranks s') \/ crowded z (ks (t_count s')) (ws (t_count s')) s')).
Proof. intros Fo z root m nx ny nz n ls ks ws s cnt HZ HK HW. exact (sim_ends z root m nx ny nz n ls HZ ks ws HK HW s cnt). Qed.
Print Assumptions C76_main_loop.

(** no object is lost, doubled or changed in its id, group or sizes by any number of steps, and steps are counted *)
Theorem C76_same_objects : forall {Fo} (z : rsetting Fo) root s os s', steps z root s os s' ->
  Permutation (map ident (objects (t_ranks s'))) (map ident (objects (t_ranks s))) /\ t_count s' = (t_count s + Z.of_nat (length os))%Z.
Proof. intros Fo z root s os s' H. split; [exact (steps_same z root s os s' H)|exact (steps_count z root s os s' H)]. Qed.
Print Assumptions C76_same_objects.

(** in a box that is periodic along all axes nothing gets far *)
Theorem C76_periodic : forall {Fo} (z : rsetting Fo) s, z_pa z = Vec true true true -> near (z_pa z) (t_ranks s).
Proof. intros Fo z s. exact (all_near z s). Qed.
Print Assumptions C76_periodic.

(** what initialize leaves is a healthy state *)
Theorem C76_initialize : forall {Fo} (z : rsetting Fo) root m nx ny nz n ls s k, sensible z root m n -> healthy z root m nx ny nz n ls s -> fair (nx * ny * nz) n k ->
  exists f, forall fuel, (f <= fuel)%nat -> exists b out, distribute k fuel (t_doms s) (t_ranks s) = Done (Some (b, out)) /\ healthy z root m nx ny nz n ls (State (t_count s) b out).
Proof. intros Fo z root m nx ny nz n ls s k HZ. exact (sim_start z root m nx ny nz n ls HZ s k). Qed.
Print Assumptions C76_initialize.

(** ** Examples *)

(** the objects of C75_example, with the wall and the link; the user pushes object 2, away from the others, and nothing else *)
Definition exPlay (ranks : list (@prank (sylinder F_arith))) : play F_arith unit :=
  let e := copyFromFP (N := F_arith) (exObject 99 9 9 9) in let size r := length (pr_ptcl (nth r ranks (exRank []))) in
  @Play F_arith unit (fun r => exHelp (length ranks) (size r)) e (fun _ => e) [] (fun _ => []) (fun r => exDeal [(1, 2)%Z] (size r)) (fun r => exFate (size r))
    (fun r => Some (flat_map (fun s => map f_ofZ (if (s_gid s =? 2)%Z then [4; 0; 0; 0; 0; 0] else [0; 0; 0; 0; 0; 0])%Z) (pr_ptcl (nth r ranks (exRank []))))) (fun _ => None).
Definition exSetting : setting F_arith unit :=
  @Setting F_arith unit (fun _ _ f => f) (fun f => f) (fun x => x) (fun _ => f_ofZ 0) (fun _ => f_ofZ 1) MortonModel.f_cast (f_ofZ 3) (f_lit 1 (-3)) (f_ofZ 0) 2 exPer 1 4 (f_lit 1 (-2))
    [Wall (N := F_arith) (f3 0 0 (-3) (-3)) (f3 0 0 1 0)] (LinkConfig (N := F_arith) exPer (f3 0 0 0 0) (f3 4 4 4 0) (f_lit 1 (-3)) (f_ofZ 2)) (exSettings false)
    (SolveConfig (N := F_arith) (f_lit 1 (-20)) 100 0) (f_lit 5 (-1)).
Definition exSim (n : nat) : outcome (option (list (report F_arith) * state F_arith)) :=
  match exDomains exPer 4 (2, 1, 1)%nat with
  | Some b => do x <- distribute exLuck 9 b [exRank [exObject 0 (-2) 3 (-5); exObject 1 20 1 2; exObject 2 40 (-30) 0; exObject 3 65 3 (-5)]; exRank []];
              match x with Some (b, ranks) => run exSetting (fun _ => exLuck) (fun _ => exPlay) (fun _ => 200%nat) n (@State F_arith 0 b ranks) | None => Done None end
  | None => Done None
  end.
(** three steps until 5/2, in units of 1/1024: object 2 leaves the box at 4096, is put back in by the next step and then moves to the first rank *)
Example C76_example :
  match exSim 9 with
  | Done (Some (os, s)) => Some (map (fun o => (map (fun p => map exPlace (pr_ptcl p)) (o_after o), length (concat (concat (o_pools o))), existsb (fun h => flt (h_res h) (f_lit 1 (-20))) (o_hist o))) os, t_count s)
  | _ => None
  end = Some ([
    ([[(1, [1793; -732; 76]); (3, [96; 192; -256])]; [(0, [3935; 192; -256]); (2, [3866; -1123; 51])]], 4%nat, true);
    ([[(1, [1828; -725; 77]); (3, [96; 192; -255])]; [(0, [3935; 192; -255]); (2, [5652; -1130; 50])]], 4%nat, true);
    ([[(1, [1990; -484; 92]); (3, [96; 192; -255]); (2, [3214; -1371; 35])]; [(0, [3935; 192; -255])]], 4%nat, true)], 3)%Z.
Proof. vm_compute. reflexivity. Qed.

(** what the theorems ask for, from the spheres of C75_example_reals, with its wall and link *)
Definition exRun : rsetting unit :=
  @Setting R_arith unit (fun _ _ f => f) (fun f => f) ln sin cos Ztrunc PI (/ 10) 0 2 (Vec true false false) 1 1 0 [Wall (N := R_arith) (exR3 0 0 (3 / 4)) (exR3 0 0 1)]
    (LinkConfig (N := R_arith) (Vec true false false) (exR3 0 0 0) (exR3 4 4 4) (/ 8) 2) exReals (SolveConfig (N := R_arith) (/ 1024) 100 0) (5 / 2).
Definition exAct (ranks : list ranked) : play R_arith unit :=
  let x := exGear exWorld ranks in
  @Play R_arith unit (x_cast x) (x_fresh x) (x_junk x) (x_dir x) (x_data x) (x_deal x) (exYield ranks) (fun r => Some (repeat 1 (6 * nth r (PipeSpec.sizes ranks) 0%nat))) (fun _ => None).
Definition exBegin : rstate := @State R_arith 0 exWorld exSpheres.
Lemma exRun_sensible : sensible exRun (b_root exWorld) 1 2.
Proof.
  assert (P100 : 8 <= 2 ^ 100) by (apply (Rle_trans _ (2 ^ 3)); [lra|apply Rle_pow; [lra|lia]]).
  assert (PW : 2 ^ 100 < exWide) by (unfold exWide; lra).
  constructor; cbn [exRun z_log z_sin z_cos z_trunc z_Pi z_func z_limit z_group z_pa z_link z_step z_solve z_total].
  - auto.
  - auto.
  - lia.
  - intros b c [H|[H|[H|[]]]]; injection H as <- <-; cbn [exWorld b_root olow ohigh exR3 vx vy vz]; (split; [lra|]); rewrite ?Rabs_R0, ?(Rabs_pos_eq 4) by lra; lra.
  - split; [|cbn; lra]. intros [|[|[|d]]] Hd Hp; try lia; try discriminate Hp. split; reflexivity.
  - reflexivity.
  - cbn. lra.
  - split; [|discriminate]. cbn. unfold most. assert (1 <= bpow radix2 971) by (apply (bpow_le radix2 0); lia). lra.
  - lia.
  - split; vm_compute; congruence.
  - unfold INT_MAX. lia.
  - cbn. unfold INT_MAX. lra.
Qed.
Lemma exBegin_healthy : healthy exRun (b_root exWorld) 1 2 1 1 2 [(0, 1)%Z] exBegin.
Proof.
  assert (P100 : 8 <= 2 ^ 100) by (apply (Rle_trans _ (2 ^ 3)); [lra|apply Rle_pow; [lra|lia]]).
  constructor; cbn [exBegin t_doms t_ranks t_count].
  - reflexivity.
  - repeat split; try (cbn; lia); cbn; lra.
  - lia.
  - reflexivity.
  - reflexivity.
  - lia.
  - repeat constructor; cbn; intuition discriminate.
  - intros l [<-|[]] _. cbn. auto.
  - assert (X : reach (/ 2) 0 (0 * 1) 0 = 1) by (unfold reach; rewrite Rmax_left; lra).
    intros s Hs. cbn in Hs. assert (Y : exists g x, s = exSphere g x) by (destruct Hs as [<-|[<-|[]]]; do 2 eexists; reflexivity). destruct Y as (g & x & ->). split; [|unfold unitq; cbn; lra].
    unfold fit_size. cbn [exSphere spos orient radius slength exReals exRun z_pa z_step c_diameterRatio c_lengthRatio c_colBuf exR3]. rewrite X. repeat (split; [lra|]). split; [split; [intros _; unfold edge; cbn; lra|split; discriminate]|]. left. lra.
Qed.
Lemma exAny_fair : fair 2 2 exAny.
Proof.
  split.
  - split; [intros; cbn; lia|]. split; [apply R_sorts|]. split; intros; apply Permutation_refl.
  - intros [|a [|b [|c l]]] r m HL HS Hm; try discriminate HL. cbn in HS. cbn [exAny k_wanted]. split; [lia|]. destruct r as [|[|r]]; cbn in Hm; [injection Hm as <-|injection Hm as <-|destruct r; discriminate Hm]; lia.
Qed.
Lemma exAct_any ranks : length ranks = 2%nat -> any_play exRun [(0, 1)%Z] ranks (exAct ranks).
Proof.
  intros L. assert (S : forall r p, nth_error ranks r = Some p -> nth r (PipeSpec.sizes ranks) 0%nat = length (pr_ptcl p)) by (intros r p Hp; apply nth_error_nth; unfold PipeSpec.sizes; rewrite (map_nth_error _ _ _ Hp); reflexivity).
  split; [intros r; rewrite L; apply CallProps.exTeam_any|]. intros r p Hp. cbn [exAct w_deal w_fate w_force w_vel exGear x_deal]. rewrite (S r p Hp). set (m := length (pr_ptcl p)). split; [|split; [|split]].
  - repeat split; cbn [exDeal g_plan g_order g_who g_links fst snd].
    + constructor; [|constructor]. split; [symmetry; apply Permutation_rev|]. intros i _. apply Nat.mod_upper_bound. discriminate.
    + apply Permutation_refl.
    + cbn; lia.
    + apply Permutation_refl.
  - unfold any_fate, exYield. rewrite (S r p Hp). cbn [y_mob y_fill1 y_fill2 y_back y_ord]. repeat split; try reflexivity; try (apply Permutation_refl); try (apply perm_swap).
  - cbn. apply repeat_length.
  - cbn. trivial.
Qed.
(** so the main loop does its three steps, or one is left in a state that the theorem names *)
Example C76_example_reals :
  (exists fuel os s', run exRun (fun _ => exAny) (fun _ => exAct) fuel 3 exBegin = Done (Some (os, s')) /\ steps exRun (b_root exWorld) exBegin os s' /\ Permutation (map s_gid (objects (t_ranks s'))) [0; 1]%Z /\ length os = 3%nat) \/
  (exists fuel os s', run exRun (fun _ => exAny) (fun _ => exAct) fuel (length os) exBegin = Done (Some (os, s')) /\ (~ near (Vec true false false) (t_ranks s') \/ crowded exRun exAny exAct s')).
Proof.
  destruct (C76_main_loop exRun (b_root exWorld) 1 2 1 1 2 [(0, 1)%Z] (fun _ => exAny) (fun _ => exAct) exBegin 3 exRun_sensible (fun _ => exAny_fair)
    (fun _ ranks L _ => exAct_any ranks L) exBegin_healthy) as [(fuel & os & s' & E & St & H & On)|(fuel & os & s' & E & St & H)].
  - cbn. lra.
  - left. exists fuel, os, s'. split; [exact E|]. split; [exact St|]. destruct (C76_same_objects _ _ _ _ _ St) as (P & C). split.
    + apply (Permutation_map (fun i : Z * Z * bool * R * R => let '(g, _, _, _, _) := i in g)) in P. rewrite !map_map in P. exact P.
    + cbn [exBegin t_count] in C. rewrite Z.add_0_l in C.
      assert (LE : (length os <= 3)%nat).
      { assert (X : forall n ks ws f s o s1, run exRun ks ws f n s = Done (Some (o, s1)) -> (length o <= n)%nat).
        { clear. induction n as [|n IH]; intros ks ws f s o s1 HR; cbn [run] in HR; [injection HR as <- _; auto|]. destruct (onward exRun s); [|injection HR as <- _; cbn; lia].
          destruct (oneStep _ _ _ _ s) as [[x|]| |]; try discriminate HR. cbn [obind] in HR. destruct (run _ _ _ _ _ (next s x)) as [[(o2 & s2)|]| |] eqn:E2; try discriminate HR. cbn in HR. injection HR as <- _. cbn. apply le_n_S. eapply IH. exact E2. }
        exact (X _ _ _ _ _ _ _ E). }
      revert On. unfold onward. rewrite C. cbn [exRun z_step z_total exReals c_dt]. rarith. destruct (Rlt_bool_spec (IZR (Z.of_nat (length os)) * 1) (5 / 2)) as [|G]; [discriminate|]. intros _.
      assert (2 < length os)%nat; [|lia]. apply Nat2Z.inj_lt, lt_IZR. change (Z.of_nat 2) with 2%Z. lra.
  - right. exists fuel, os, s'. auto.
Qed.
