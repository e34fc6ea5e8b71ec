(** A step of a run, and runs. *)
From Coq Require Import List Arith ZArith Lia Bool Reals Lra Permutation.
From Flocq Require Import Core.
From Verif Require CallSort.
From Verif Require Import Outcome ListUtil Arith ParticleModel VecModel VecSpec VecProofs PointsModel SylModel SylSpec SylProofs ConModel ConSpec BoundaryModel LinkModel LinkSpec NearModel NearSpec StepModel StepSpec TreeModel TreeSpec LetModel LetSpec CallModel CallSpec CallContact QPModel QPSpec PipeModel PipeSpec PipeProofs PipeCollect WholeModel WholeSpec WholeSolve WholeStep WholeMain FullSpec FullProofs FullMain SimModel SimSpec SimProofs.
Import ListNotations.
Local Open Scope R_scope.

Definition gear_of {Fo} (z : rsetting Fo) (w : play R_arith Fo) (b : domains R_arith) : gear Fo :=
  Gear Fo (z_func z) (z_clear z) (w_cast w) (z_threads z) (z_pa z) (z_limit z) (z_group z) b (z_buf z) (z_bounds z) (z_link z) (w_fresh w) (w_junk w) (w_dir w) (w_data w) (w_deal w).
Lemma gather_of {Fo} (z : rsetting Fo) w b fuel : z_trunc z = Ztrunc -> z_Pi z = PI -> collectAll z w fuel b = gather (gear_of z w b) fuel fuel.
Proof. intros H1 H2. unfold collectAll, gather. rewrite H1, H2. reflexivity. Qed.

(** ** Objects *)

Lemma fit_of pa root m c (s : syl) : fit_size pa root m c s -> unitq (orient s) -> (forall b x, In (b, x) [(vx pa, vx); (vy pa, vy); (vz pa, vz)] -> b = false -> Rabs (x (spos s)) <= 2 ^ 100) -> fit_object pa root m c s.
Proof.
  intros (F1 & F2 & F3 & F4 & F5 & F6 & F7 & F8) HQ HN. unfold fit_object, fit. split; [exact HN|].
  split; [lra|]. split; [exact F2|]. split; [apply Rmult_le_pos; lra|]. split; [apply Rmult_le_pos; lra|]. split; [exact F5|]. split; [exact HQ|]. split; [exact F6|]. split; [exact F7|]. split; [|exact F8].
  right. unfold reach. apply Rmult_lt_0_compat; [|lra]. eapply Rlt_le_trans; [|apply Rmax_l]. lra.
Qed.

Lemma ident_map (Q : syl -> syl -> Prop) : (forall s t, Q s t -> ident t = ident s) -> forall l l', Forall2 Q l l' -> map ident l' = map ident l.
Proof. intros H. induction 1 as [|s t l l' HQ F IH]; [reflexivity|]. cbn [map]. rewrite (H _ _ HQ), IH. reflexivity. Qed.
Lemma ready_ident root c (s t : syl) : ready_object root c s t -> ident t = ident s.
Proof. intros (A1 & A2 & A3 & A4 & A5 & _). unfold ident. rewrite A1, A2, A3, A4, A5. reflexivity. Qed.
Lemma gid_ident l : map s_gid l = map (fun i : Z * Z * bool * R * R => let '(g, _, _, _, _) := i in g) (map ident l).
Proof. rewrite map_map. reflexivity. Qed.
Lemma size_ident pa root m c s t : ident t = ident s -> fit_size pa root m c s -> fit_size pa root m c t.
Proof. intros H. injection H as _ _ _ Hr Hl. unfold fit_size. rewrite Hr, Hl. auto. Qed.

(** ** Geometry *)

Lemma dist_sym a b : dist3 a b = dist3 b a.
Proof. unfold dist3, norm3, dot3, sub3. f_equal. destruct a, b; cbn. ring. Qed.
Lemma dist_away root k p q : dist3 (away root k p) (away root k q) = dist3 p q.
Proof. unfold dist3, norm3, dot3, sub3, away. f_equal. destruct p, q; cbn. ring. Qed.
Lemma dist_back root k p q : dist3 p (away root (opposite k) q) = dist3 q (away root k p).
Proof. unfold dist3, norm3, dot3, sub3, away, opposite. f_equal. destruct p, q, k; cbn. rewrite !opp_IZR. ring. Qed.
Lemma lattice_back pa k : lattice pa k -> lattice pa (opposite k).
Proof. intros (A & B & C). unfold lattice, opposite. cbn. repeat split; intro H; [rewrite (A H)|rewrite (B H)|rewrite (C H)]; reflexivity. Qed.
Lemma opposite_back k : opposite (opposite k) = k.
Proof. destruct k. unfold opposite. cbn. rewrite !Z.opp_involutive. reflexivity. Qed.

(** ** A step *)

Section Step.
  Context {Fo : Type} (z : rsetting Fo) (root : ort R) (m nx ny nz n : nat) (ls : list (Z * Z)).
  Hypothesis (HZ : sensible z root m n).

  Lemma onward_less s : onward z s = true -> (t_count s < INT_MAX)%Z.
  Proof using HZ.
    intros H. unfold onward in H. destruct HZ as [_ _ _ _ _ _ (Hdt & _) _ _ _ _ Htot].
    revert H. rarith. destruct (Rlt_bool_spec (IZR (t_count s) * c_dt (z_step z)) (z_total z)) as [H|H]; [|discriminate]. intros _. apply lt_IZR. apply (Rmult_lt_reg_r (c_dt (z_step z))); [exact Hdt|]. lra.
  Qed.

  Lemma sim_step s k (w : list ranked -> play R_arith Fo) : healthy z root m nx ny nz n ls s -> near (z_pa z) (t_ranks s) -> fair (nx * ny * nz) n k -> onward z s = true ->
    (forall ranks, length ranks = (nx * ny * nz)%nat -> length (objects ranks) = n -> any_play z ls ranks (w ranks)) ->
    exists f, forall fuel, (f <= fuel)%nat -> crowded z k w s \/ exists o, oneStep z k w fuel s = Done (Some o) /\ good_step z root s o /\ healthy z root m nx ny nz n ls (next s o).
  Proof using HZ.
    intros HS HN (HK & HF) Hon HW. pose proof (onward_less s Hon) as Hcount. destruct HZ as [(Z1 & Z2 & Z3 & Z4 & Z5) Zf Zl Zb (Zk & Zg) Zm (Zdt & Zmu) (Zt & Zv) Zfar Zroom Zfew _].
    destruct HS as [S1 S2 S3 S4 S5 S6 S7 S8 S9]. subst root.
    destruct (prepare_ok k HK (z_step z) (t_doms s) nx ny nz) with (dmax := z_dmax z) (stepCount := t_count s) (ranks := t_ranks s) as (n1 & Hn1).
    { intros x Hx. destruct (three_axes (z_pa z) x Hx) as (bb & Hb). exact (proj1 (Zb bb x Hb)). }
    { exact S2. }
    { intros _. pose proof S2 as (_ & _ & _ & _ & L & _). unfold sampled. rewrite L, S5. split; [exact S6|]. split; [lia|]. intros r q Hr. apply (HF _ _ _); [unfold PipeSpec.sizes; rewrite map_length; exact L|rewrite objects_sizes; exact S5|exact Hr]. }
    { intros H. rewrite (S4 H). reflexivity. }
    { rewrite S5. exact Zfew. }
    { rewrite Zm. discriminate. }
    destruct (Hn1 n1 (le_n _)) as (b & out & E & B1 & B2 & B3 & B4 & Se & Lo & (before & P & F) & Ix). clear Hn1.
    pose proof (prepare_rest _ _ _ _ _ _ _ _ _ HK E) as Rest.
    assert (LL : length (objects out) = n) by (rewrite <- (CallSort.Forall2_len _ _ _ F), (Permutation_length P); exact S5).
    assert (LO : length out = (nx * ny * nz)%nat) by (rewrite Lo; apply S2).
    assert (ID : Permutation (map ident (objects out)) (map ident (objects (t_ranks s)))).
    { rewrite (ident_map _ (ready_ident _ _) _ _ F). apply Permutation_map. exact P. }
    assert (GI : Permutation (map s_gid (objects out)) (map s_gid (objects (t_ranks s)))) by (rewrite !gid_ident; apply Permutation_map; exact ID).
    assert (OB : forall t, In t (objects out) -> exists a, In a (objects (t_ranks s)) /\ ready_object (b_root (t_doms s)) (z_step z) a t).
    { intros t Ht. apply In_nth_error in Ht. destruct Ht as (i & Hi). destruct (CallSort.Forall2_nth _ _ _ F _ _ Hi) as (a & Ha & Q). exists a. split; [|exact Q]. apply (Permutation_in _ P). eapply nth_error_In. exact Ha. }
    assert (Pd : prepared (z_pa z) m b out).
    { constructor; rewrite ?B1, ?LL; try assumption; [|rewrite S5 in Ix; exact Ix].
      intros t Ht. destruct (OB t Ht) as (a & Ha & Q). apply (ready_fit (z_pa z) (b_root (t_doms s)) m (z_step z) a t Zm Zb); [|exact Q]. destruct (S9 a Ha) as (X1 & X2). apply fit_of; try assumption. exact (HN a Ha). }
    destruct (HW out LO LL) as (W1 & W2). set (wo := w out) in *. set (x := gear_of z wo b).
    assert (SU : set_up x m ls out).
    { constructor; cbn [x gear_of x_pa x_doms x_link x_cast x_threads x_limit x_group x_func x_deal x_bounds]; try assumption.
      - constructor; [exact (Permutation_NoDup (Permutation_sym GI) S7)| |rewrite B1; exact Zk|exact Zg].
        intros l Hl H1. apply (Permutation_in _ (Permutation_sym GI)). apply S8; [exact Hl|]. apply (Permutation_in _ GI). exact H1.
      - intros r p Hr. apply (W2 r p Hr). }
    assert (Q : forall t, In t (objects out) -> SylSpec.proper t /\ fit_size (z_pa z) (b_root (t_doms s)) m (z_step z) t).
    { intros t Ht. destruct (OB t Ht) as (a & Ha & (A1 & A2 & A3 & A4 & A5 & _ & _ & _ & p & _ & A6)). rewrite Zm in A6. destruct A6 as (_ & A6). destruct (S9 a Ha) as (X1 & X2). split.
      - unfold SylSpec.proper. rewrite A4, A5, A6. split; [apply X1|]. split; [apply X1|exact X2].
      - apply (size_ident _ _ _ _ a); [|exact X1]. unfold ident. rewrite A1, A2, A3, A4, A5. reflexivity. }
    assert (ST : steady (fun _ => z_threads z) (z_step z) (z_solve z) (w_fate wo) (w_force wo) (w_vel wo) out).
    { constructor; try assumption; [apply Forall_forall; intros t Ht; apply Q, Ht|rewrite LL; exact Zfew|]. intros r p Hr. apply (W2 r p Hr). }
    destruct (gear_collect x m ls out SU) as (n2 & G2). destruct (gear_step x m ls out SU) as (n3 & G3).
    exists (Nat.max n1 (Nat.max n2 n3)). intros fuel Hf. pose proof (lasting_prepare k (z_dmax z) (z_step z) (t_count s) (t_doms s) (t_ranks s) n1 fuel _ ltac:(lia) E) as E'.
    destruct (G2 fuel fuel ltac:(lia) ltac:(lia)) as (pools0 & E0 & L0 & K0 & P0 & O0). cbn beta in E'.
    destruct (Z_le_gt_dec (Z.of_nat (length (concat (concat pools0)))) INT_MAX) as [Few|Many].
    2: { left. exists fuel, b, out, pools0. split; [exact E'|]. split; [|lia]. rewrite gather_of by assumption. apply E0, same_refl. }
    right.
    assert (IO : in_order (fun _ => z_threads z) (z_step z) (z_solve z) (w_fate wo) (w_force wo) (w_vel wo) (gather x fuel fuel) out).
    { split; [exact ST|]. intros ranks' pools Sm Ec. rewrite (E0 ranks' Sm) in Ec. injection Ec as <-. split; [exact L0|]. split; [|split; assumption].
      intros r pool Hr. destruct (nth_error out r) as [p|] eqn:Ep; [exact (proj1 (K0 r p pool Ep Hr))|]. exfalso. apply nth_error_None in Ep. apply (Nat.lt_irrefl r). eapply Nat.lt_le_trans; [exact (nth_error_lt _ _ _ Hr)|]. rewrite L0. exact Ep. }
    destruct (main_moves _ (z_tenth z) _ _ fuel _ _ _ _ _ IO Zv (fun r Sm => ex_intro _ pools0 (E0 r Sm))) as (ms & r1 & r2 & pools & hist & Em & Er & K1 & K2 & Mv).
    set (o := Report b out r1 r2 pools hist). exists o. split.
    { unfold oneStep. rewrite E'. cbn [obind]. fold wo. rewrite Z1, Z2, Z3, Z5, Em. cbn [obind]. rewrite gather_of by assumption. fold x. rewrite Er. cbn [obind]. replace (Z.eqb (t_count s) INT_MAX) with false by (symmetry; apply Z.eqb_neq; lia). reflexivity. }
    assert (L2 : length (objects r2) = length (objects out)).
    { clear -K2. unfold objects. induction K2 as [|p p' l l' (ss & -> & H) _ IH]; [reflexivity|]. cbn [map concat withPtcl pr_ptcl]. rewrite !app_length, IH, H. reflexivity. }
    assert (MV : Forall2 (fun t t' => ident t' = ident t /\ colBuf t' = colBuf t /\ radiusCol t' = radiusCol t /\ lengthCol t' = lengthCol t /\ unitq (orient t')) (objects out) (objects r2)).
    { apply Forall2_nth_intro; [auto|]. intros i t Ht. destruct (Mv i t Ht) as (t1 & T1 & T2 & T3). eexists. split; [exact T3|]. destruct (Q t (nth_error_In _ _ Ht)) as ((_ & _ & U) & _).
      assert (U1 : unitq (orient t1)) by (rewrite T2; exact U). assert (X : ident t1 = ident t /\ colBuf t1 = colBuf t /\ radiusCol t1 = radiusCol t /\ lengthCol t1 = lengthCol t) by (rewrite T2; repeat split). destruct X as (X1 & X2 & X3 & X4).
      destruct (c_fixed (z_step z)); [auto|]. destruct (stepEuler_R t1 (c_dt (z_step z))) as (_ & _ & Y & _). split; [exact X1|]. split; [exact X2|]. split; [exact X3|]. split; [exact X4|exact (Y U1)]. }
    assert (CV : converged z o -> converged_step x fuel fuel (z_tenth z) (z_step z) (z_solve z) fuel (w_fate wo) (w_force wo) (w_vel wo) out r1 r2).
    { intros (C1 & C2 & C3). split; [exact ST|]. split; [split; [left; exact Zm|intros _; exact Rest]|]. split; [exact C3|]. split; [intros pl Ep; rewrite (E0 out (same_refl out)) in Ep; injection Ep as <-; exact Few|].
      exists ms, pools, hist. auto. }
    pose proof (fun C => G3 fuel fuel ltac:(lia) ltac:(lia) _ _ _ _ _ _ _ _ _ (CV C)) as G. clear G2 G3. cbn [x gear_of x_pa x_doms x_bounds x_buf] in G. rewrite B1 in G.
    assert (ID2 : map ident (objects r2) = map ident (objects out)) by (refine (ident_map _ _ _ _ MV); intros t t' X; exact (proj1 X)).
    assert (GI2 : Permutation (map s_gid (objects r2)) (map s_gid (objects (t_ranks s)))) by (rewrite gid_ident, ID2, <- gid_ident; exact GI).
    pose proof Se as (mx & my & mz & doms & D1 & D2 & D3 & D4 & D5).
    assert (NE : forall i j t u, i <> j -> nth_error (objects out) i = Some t -> nth_error (objects out) j = Some u -> s_gid t <> s_gid u).
    { intros i j t u Hij Hi Hj Heq. apply Hij. pose proof (Permutation_NoDup (Permutation_sym GI) S7) as ND. rewrite NoDup_nth_error in ND. apply ND; [rewrite map_length; exact (nth_error_lt _ _ _ Hi)|]. rewrite !nth_error_map, Hi, Hj. cbn. rewrite Heq. reflexivity. }
    assert (NEAR : converged z o -> forall i j t u t' u' kk, nth_error (objects out) i = Some t -> nth_error (objects out) j = Some u -> i <> j ->
      nth_error (objects r2) i = Some t' -> nth_error (objects r2) j = Some u' -> lattice (z_pa z) kk -> round (rod t) -> round (rod u) ->
      dist3 (spos t) (away (b_root (t_doms s)) kk (spos u)) < NearSpec.limit (rod t) (rod u) ->
      skin (rod t) + skin (rod u) - c_dt (z_step z) * v_tol (z_solve z) < dist3 (spos t') (away (b_root (t_doms s)) kk (spos u'))).
    { intros C i j t u t' u' kk Hi Hj Hij Hi' Hj' Hk Rt Ru Hd. destruct (G C) as (X & _). destruct (Z_lt_ge_dec (s_gid t) (s_gid u)) as [Hg|Hg].
      - destruct (X i j t u kk Hi Hj Hg Hk Rt Ru Hd) as (t2 & u2 & Y1 & Y2 & Y3). rewrite Hi' in Y1. rewrite Hj' in Y2. injection Y1 as <-. injection Y2 as <-. exact Y3.
      - assert (Hg' : (s_gid u < s_gid t)%Z) by (pose proof (NE i j t u Hij Hi Hj); lia). rewrite <- dist_back in Hd |- *. 
        destruct (X j i u t (opposite kk) Hj Hi Hg' (lattice_back _ _ Hk) Ru Rt) as (u2 & t2 & Y1 & Y2 & Y3); [unfold NearSpec.limit in *; lra|].
        rewrite Hj' in Y1. rewrite Hi' in Y2. injection Y1 as <-. injection Y2 as <-. lra. }
    split.
    - constructor; cbn [o o_prepared o_after o_before].
      + exact ID.
      + intros t Ht. unfold objects in Ht. apply in_concat in Ht. destruct Ht as (l & Hl & Ht). apply in_map_iff in Hl. destruct Hl as (p & <- & Hp). apply In_nth_error in Hp. destruct Hp as (r & Hr).
        destruct (nth_error doms r) as [d|] eqn:Ed; [|exfalso; apply nth_error_None in Ed; pose proof (nth_error_lt _ _ _ Hr); lia]. rewrite <- B1. apply (D5 r p d t Hr Ed Ht).
      + exact MV.
      + exact NEAR.
      + intros C HG Htol i j t u t' u' kk Hij Hi Hj Hi' Hj' Hk Rt Ru. destruct (Rlt_le_dec (dist3 (spos t) (away (b_root (t_doms s)) kk (spos u))) (NearSpec.limit (rod t) (rod u))) as [Hd|Hd]; [apply (NEAR C i j t u t' u' kk); assumption|].
        pose proof (HG i t t' Hi Hi') as M1. pose proof (HG j u u' Hj Hj') as M2.
        pose proof (dist3_triangle (spos t) (spos t') (away (b_root (t_doms s)) kk (spos u))) as T1. pose proof (dist3_triangle (spos t') (away (b_root (t_doms s)) kk (spos u')) (away (b_root (t_doms s)) kk (spos u))) as T2.
        rewrite dist_away, (dist_sym (spos u') (spos u)) in T2. unfold NearSpec.limit in Hd. change (e_colBuf (rod t)) with (colBuf t) in Hd. change (e_colBuf (rod u)) with (colBuf u) in Hd.
        pose proof (Rmult_lt_0_compat _ _ Zdt Htol) as Hpos. change (num R_arith) with R in *. lra.
      + intros C Hb i t t' wc wn Hi Hi' HW1 Hu Rt Hr H0 Hd. destruct (G C) as (_ & X & _). destruct (X i t wc wn Hi HW1 Hu Rt Hb Hr H0 Hd) as (t2 & Y1 & Y2). rewrite Hi' in Y1. injection Y1 as <-. exact Y2.
      + intros C. exact (proj2 (proj2 (G C))).
    - constructor; cbn [next o o_doms o_after t_count t_doms t_ranks].
      + exact B1.
      + destruct S2 as (A1 & A2 & A3 & A4 & A5 & A6 & _). unfold tidy. rewrite B2, B3, B1, D2. repeat (split; [assumption|]). split; [rewrite <- A5, <- Lo; symmetry; exact (CallSort.Forall2_len _ _ _ K2)|]. split; [exact A6|].
        rewrite B2, A1 in D1. injection D1 as <- <- <-. rewrite B1 in D3. exact D3.
      + lia.
      + rewrite D2. discriminate.
      + rewrite L2. exact LL.
      + exact S6.
      + exact (Permutation_NoDup (Permutation_sym GI2) S7).
      + intros l Hl H1. apply (Permutation_in _ (Permutation_sym GI2)). apply S8; [exact Hl|]. apply (Permutation_in _ GI2). exact H1.
      + intros t' Ht'. apply In_nth_error in Ht'. destruct Ht' as (i & Hi). destruct (CallSort.Forall2_nth _ _ _ MV _ _ Hi) as (t & Ht & X1 & _ & _ & _ & X2). split; [|exact X2].
        apply (size_ident _ _ _ _ t); [exact X1|]. apply Q. eapply nth_error_In. exact Ht.
  Qed.

  (** initialize: the objects are put on their ranks *)
  Lemma sim_start s k : healthy z root m nx ny nz n ls s -> fair (nx * ny * nz) n k ->
    exists f, forall fuel, (f <= fuel)%nat -> exists b out, distribute k fuel (t_doms s) (t_ranks s) = Done (Some (b, out)) /\ healthy z root m nx ny nz n ls (State (t_count s) b out).
  Proof using HZ.
    intros HS (HK & HF). destruct HZ as [_ _ _ Zb _ _ _ _ _ _ Zfew _]. destruct HS as [S1 S2 S3 S4 S5 S6 S7 S8 S9]. subst root.
    destruct (distribute_ok k HK (t_doms s) nx ny nz) with (ranks := t_ranks s) as (f & Hf).
    { intros x Hx. destruct (three_axes (z_pa z) x Hx) as (bb & Hb). exact (proj1 (Zb bb x Hb)). }
    { exact S2. }
    { pose proof S2 as (_ & _ & _ & _ & L & _). unfold sampled. rewrite L, S5. split; [exact S6|]. split; [lia|]. intros r q Hr. apply (HF _ _ _); [unfold PipeSpec.sizes; rewrite map_length; exact L|rewrite objects_sizes; exact S5|exact Hr]. }
    exists f. intros fuel Hfuel. destruct (Hf fuel Hfuel) as (b & out & E & B1 & B2 & B3 & Se & Lo & before & P & F). exists b, out. split; [exact E|].
    assert (Fi : Forall2 (fun s t : syl => ident t = ident s /\ orient t = orient s) before (objects out)) by (eapply Forall2_imp; [|exact F]; intros a t (x & r & _ & ->); split; reflexivity).
    assert (ID : Permutation (map ident (objects out)) (map ident (objects (t_ranks s)))).
    { rewrite (ident_map _ (fun a t H => proj1 H) _ _ Fi). apply Permutation_map. exact P. }
    assert (GI : Permutation (map s_gid (objects out)) (map s_gid (objects (t_ranks s)))) by (rewrite !gid_ident; apply Permutation_map; exact ID).
    destruct Se as (mx & my & mz & doms & D1 & D2 & D3 & D4 & D5).
    constructor; cbn [t_count t_doms t_ranks]; try assumption.
    - destruct S2 as (A1 & A2 & A3 & A4 & A5 & A6 & _). unfold tidy. rewrite B2, B3, B1, D2. repeat (split; [assumption|]). split; [rewrite <- A5; exact Lo|]. split; [exact A6|].
      rewrite B2, A1 in D1. injection D1 as <- <- <-. rewrite B1 in D3. exact D3.
    - rewrite D2. discriminate.
    - rewrite <- (CallSort.Forall2_len _ _ _ F), (Permutation_length P). exact S5.
    - exact (Permutation_NoDup (Permutation_sym GI) S7).
    - intros l Hl H1. apply (Permutation_in _ (Permutation_sym GI)). apply S8; [exact Hl|]. apply (Permutation_in _ GI). exact H1.
    - intros t Ht. apply In_nth_error in Ht. destruct Ht as (i & Hi). destruct (CallSort.Forall2_nth _ _ _ Fi _ _ Hi) as (a & Ha & X1 & X2). apply nth_error_In in Ha. apply (Permutation_in _ P) in Ha. destruct (S9 a Ha) as (Y1 & Y2).
      split; [exact (size_ident _ _ _ _ _ _ X1 Y1)|rewrite X2; exact Y2].
  Qed.
End Step.

(** ** Runs *)

Section Run.
  Context {Fo : Type} (z : rsetting Fo) (root : ort R) (m nx ny nz n : nat) (ls : list (Z * Z)).
  Hypothesis (HZ : sensible z root m n).
  Context (ks : Z -> luck R_arith) (ws : Z -> list ranked -> play R_arith Fo).
  Hypothesis (HK : forall t, fair (nx * ny * nz) n (ks t)).
  Hypothesis (HW : forall t ranks, length ranks = (nx * ny * nz)%nat -> length (objects ranks) = n -> any_play z ls ranks (ws t ranks)).

  Lemma run_ext : forall cnt (f g : Z -> nat) s, (forall t, (t_count s <= t)%Z -> f t = g t) -> run z ks ws f cnt s = run z ks ws g cnt s.
  Proof using.
    induction cnt as [|cnt IH]; intros f g s H; [reflexivity|]. cbn [run]. destruct (onward z s); [|reflexivity]. rewrite (H (t_count s)) by lia.
    destruct (oneStep z (ks (t_count s)) (ws (t_count s)) (g (t_count s)) s) as [[o|]| |]; try reflexivity. cbn [obind]. rewrite (IH f g (next s o)); [reflexivity|]. intros t Ht. apply H. cbn [next t_count] in Ht. lia.
  Qed.

  Lemma sim_run : forall cnt s, healthy z root m nx ny nz n ls s -> exists fuel os s', (length os <= cnt)%nat /\ run z ks ws fuel (length os) s = Done (Some (os, s')) /\ steps z root s os s' /\ healthy z root m nx ny nz n ls s' /\
    (length os = cnt \/ onward z s' = false \/ ~ near (z_pa z) (t_ranks s') \/ crowded z (ks (t_count s')) (ws (t_count s')) s').
  Proof using HZ HK HW.
    induction cnt as [|cnt IH]; intros s HS.
    - exists (fun _ => 0%nat), [], s. split; [cbn; lia|]. split; [reflexivity|]. split; [constructor|]. split; [exact HS|]. left. reflexivity.
    - assert (Stop : onward z s = false \/ ~ near (z_pa z) (t_ranks s) \/ crowded z (ks (t_count s)) (ws (t_count s)) s -> exists fuel os s', (length os <= S cnt)%nat /\ run z ks ws fuel (length os) s = Done (Some (os, s')) /\ steps z root s os s' /\ healthy z root m nx ny nz n ls s' /\
        (length os = S cnt \/ onward z s' = false \/ ~ near (z_pa z) (t_ranks s') \/ crowded z (ks (t_count s')) (ws (t_count s')) s')).
      { intros H. exists (fun _ => 0%nat), [], s. split; [cbn; lia|]. split; [reflexivity|]. split; [constructor|]. split; [exact HS|]. right. exact H. }
      destruct (onward z s) eqn:Hon; [|apply Stop; auto]. destruct (Classical_Prop.classic (near (z_pa z) (t_ranks s))) as [HN|HN]; [|apply Stop; auto].
      destruct (sim_step z root m nx ny nz n ls HZ s (ks (t_count s)) (ws (t_count s)) HS HN (HK _) Hon (HW _)) as (f & Hf). destruct (Hf f (le_n _)) as [HC|(o & Eo & Go & Ho)]; [apply Stop; auto|]. clear Stop.
      destruct (IH (next s o) Ho) as (fuel & os & s' & L & E & St & Hy & End). exists (fun t => if Z.eqb t (t_count s) then f else fuel t), (o :: os), s'. cbn [length]. split; [lia|].
      split; [|split; [constructor; assumption|split; [exact Hy|]]]; [|destruct End as [End|End]; [left; rewrite End; reflexivity|right; exact End]].
      cbn [run]. rewrite Hon, Z.eqb_refl, Eo. cbn [obind]. rewrite (run_ext _ _ fuel); [rewrite E; reflexivity|]. intros t Ht. cbn [next t_count] in Ht. replace (Z.eqb t (t_count s)) with false by (symmetry; apply Z.eqb_neq; lia). reflexivity.
  Qed.

  Lemma steps_count s os s' : steps z root s os s' -> t_count s' = (t_count s + Z.of_nat (length os))%Z.
  Proof using. induction 1 as [|s o os s' _ _ _ _ IH]; [cbn; lia|]. rewrite IH. cbn [next t_count length]. lia. Qed.
  Lemma steps_same s os s' : steps z root s os s' -> Permutation (map ident (objects (t_ranks s'))) (map ident (objects (t_ranks s))).
  Proof using.
    induction 1 as [|s o os s' _ _ G _ IH]; [reflexivity|]. rewrite IH. cbn [next t_ranks]. refine (Permutation_trans _ (gs_same _ _ _ _ G)). apply Permutation_refl'. refine (ident_map _ _ _ _ (gs_moved _ _ _ _ G)). intros t t' X; exact (proj1 X).
  Qed.

  Lemma run_more fuel : forall os cnt s s', (length os <= cnt)%nat -> run z ks ws fuel (length os) s = Done (Some (os, s')) -> onward z s' = false -> run z ks ws fuel cnt s = Done (Some (os, s')).
  Proof using.
    induction os as [|o os IH]; intros cnt s s' L E Hoff; cbn [length run] in E.
    - injection E as ->. destruct cnt; [reflexivity|]. cbn [run]. rewrite Hoff. reflexivity.
    - destruct cnt as [|cnt]; [cbn in L; lia|]. cbn [run]. destruct (onward z s); [|discriminate E].
      destruct (oneStep z (ks (t_count s)) (ws (t_count s)) (fuel (t_count s)) s) as [[o1|]| |]; try discriminate E. cbn [obind] in *.
      destruct (run z ks ws fuel (length os) (next s o1)) as [[[os1 s1]|]| |] eqn:E1; try discriminate E. cbn [obind option_map fst snd] in E. injection E as -> -> ->.
      rewrite (IH cnt _ s'); [reflexivity|cbn in L; lia|exact E1|exact Hoff].
  Qed.

  Lemma sim_ends s cnt : healthy z root m nx ny nz n ls s -> z_total z <= (IZR (t_count s) + INR cnt) * c_dt (z_step z) ->
    (exists fuel os s', run z ks ws fuel cnt s = Done (Some (os, s')) /\ steps z root s os s' /\ healthy z root m nx ny nz n ls s' /\ onward z s' = false) \/
    (exists fuel os s', run z ks ws fuel (length os) s = Done (Some (os, s')) /\ steps z root s os s' /\ (~ near (z_pa z) (t_ranks s') \/ crowded z (ks (t_count s')) (ws (t_count s')) s')).
  Proof using HZ HK HW.
    intros HS HT. destruct (sim_run cnt s HS) as (fuel & os & s' & L & E & St & Hy & [End|[End|End]]).
    - left. exists fuel, os, s'. rewrite <- End. split; [exact E|]. split; [exact St|]. split; [exact Hy|]. unfold onward. rarith. apply Rlt_bool_false. rewrite (steps_count _ _ _ St), plus_IZR, <- INR_IZR_INZ, End. exact HT.
    - left. exists fuel, os, s'. split; [apply run_more; assumption|]. auto.
    - right. exists fuel, os, s'. auto.
  Qed.
  Lemma all_near s : z_pa z = Vec true true true -> near (z_pa z) (t_ranks s).
  Proof using. intros -> o _ b x [H|[H|[H|[]]]] Hb; injection H as <- _; discriminate Hb. Qed.
End Run.
