(** A step on all ranks as a whole. *)
From Coq Require Import List Arith ZArith Bool Reals Lia Lra Permutation.
From Flocq Require Import Core.
From Verif Require Import Outcome ListUtil Arith ParticleModel VecModel VecSpec VecProofs PointsModel SylModel SylSpec MobProofs ConModel ConSpec StepModel StepSpec StepProofs QPModel QPSpec LinProofs QPReal PipeModel PipeSpec PipeProofs WholeModel WholeSpec WholeProofs WholeSolve WholeStep.
Import ListNotations.
Local Open Scope R_scope.

Lemma lin_axpy (a b : list R) g : length a = length b -> lin_R (axpy 1 a b) g = add3 (lin_R b g) (lin_R a g) /\ rot_R (axpy 1 a b) g = add3 (rot_R b g) (rot_R a g).
Proof. intros L. unfold lin_R, rot_R, lin, rot. rarith. rewrite !axpy_nth by auto. split; veq; ring. Qed.

Lemma total_vel (m : motion R_arith) (A B C D : vec R) : totals (N := R_arith) m -> A = add3 (velNonB m) (velBrown m) -> B = velCol m -> C = velBi m -> vel m = add3 A (add3 C B).
Proof.
  intros (E & _) -> -> ->. rewrite E. unfold vadd. destruct (velNonB m), (velBrown m), (velCol m), (velBi m). veq; rarith; ring.
Qed.
Lemma total_omega (m : motion R_arith) (A B C D : vec R) : totals (N := R_arith) m -> A = add3 (omegaNonB m) (omegaBrown m) -> B = omegaCol m -> C = omegaBi m -> omega m = add3 A (add3 C B).
Proof.
  intros (_ & E & _) -> -> ->. rewrite E. unfold vadd. destruct (omegaNonB m), (omegaBrown m), (omegaCol m), (omegaBi m). veq; rarith; ring.
Qed.

Lemma vget_lin (x : list R) g d : (d < 3)%nat -> vget (lin_R x g) d = nth (6 * g + d) x 0 /\ vget (rot_R x g) d = nth (6 * g + (d + 3)) x 0.
Proof.
  intros H. destruct d as [|[|[|d]]]; [| | |lia]; unfold lin_R, rot_R, lin, rot, vget; cbn [vx vy vz]; rarith; split; f_equal; lia.
Qed.

Section Main.
  Variables (tenth : R) (c : stepConfig R_arith) (v : solveConfig R_arith) (fuel : nat) (y : nat -> fate R_arith) (threads : nat -> nat) (fNB vNB : nat -> option (list R))
    (collect : list ranked -> outcome (option (list (pool R_arith)))) (ranks : list ranked).
  Hypotheses (Hdt : 0 < c_dt c) (Hmu : 0 < c_viscosity c) (Hp : Forall proper (objects ranks)) (H6 : (6 * Z.of_nat (length (objects ranks)) <= INT_MAX)%Z)
    (Hy : forall r p, nth_error ranks r = Some p -> any_fate (length (pr_ptcl p)) (threads r) (y r) /\ sized (N := R_arith) (length (pr_ptcl p)) (fNB r) /\ sized (N := R_arith) (length (pr_ptcl p)) (vNB r))
    (Htol : v_tol v <= most * 10) (Hcol : collecting threads collect ranks).
  Let n := length (objects ranks).
  Notation step ms := (runStepAll (N := R_arith) ln sin cos PI tenth c v fuel y ms fNB vNB collect ranks).

  Lemma mobs_ok : calcMobOperator (N := R_arith) ln PI (c_viscosity c) y ranks = Done (mobAll (c_viscosity c) ranks).
  Proof using Hy. apply mobAll_ok. intros r p H. apply (Hy r p H). Qed.

  Lemma solve_hyps ranks0 pools : same_bodies ranks ranks0 -> collect ranks0 = Done (Some pools) ->
    length pools = length (PipeSpec.sizes ranks) /\ (Z.of_nat (length (concat (concat pools))) <= INT_MAX)%Z /\
    (forall r p, nth_error pools r = Some p -> Permutation (y_fill1 (y r)) (seq 0 (length p)) /\ Permutation (y_fill2 (y r)) (seq 0 (length p)) /\ Permutation (y_back (y r)) (seq 0 (length p))) /\
    Forall (posed (sum_list (PipeSpec.sizes ranks))) (concat (concat pools)).
  Proof using Hy Hcol.
    intros S E. destruct (Hcol _ _ S E) as (A & B & C & D). rewrite sizes_sum. split; [unfold PipeSpec.sizes; rewrite map_length; exact A|]. split; [exact D|]. split; [|exact C].
    intros r p Hr. rewrite (B r p Hr). destruct (nth_error ranks r) as [q|] eqn:Eq; [|exfalso; apply nth_error_None in Eq; pose proof (nth_error_lt _ _ _ Hr); lia].
    destruct (Hy r q Eq) as ((_ & F1 & F2 & F3 & _) & _). auto.
  Qed.

  Lemma main_total ms : (v_choice v =? 1)%Z = false -> (forall ranks', same_bodies ranks ranks' -> exists pools, collect ranks' = Done (Some pools)) ->
    calcMobOperator (N := R_arith) ln PI (c_viscosity c) y ranks = Done ms -> exists r1 r2 pools hist, step ms = Done (Some (r1, r2, pools, hist)).
  Proof using All.
    intros Hc HC Em. rewrite mobs_ok in Em. injection Em as <-.
    destruct (whole_step tenth c v fuel y fNB vNB ranks) as (ranks0 & vnc & S & K & L & W); [intros r p k H; apply (Hy r p H)|intros r p H; apply (Hy r p H)|intros r p H; apply (Hy r p H)|].
    destruct (HC ranks0 S) as (pools & Ec). destruct (solve_hyps _ _ S Ec) as (A1 & A2 & A3 & A4). destruct (W collect) as (W1 & _).
    destruct (solve_total fuel y (c_dt c) v (mobilityApply (N := R_arith) (mobAll (c_viscosity c) ranks) (PipeSpec.sizes ranks)) (PipeSpec.sizes ranks) vnc pools Hdt Htol) as (pools' & fu & vu & fb & vb & hist & Es & L1 & L2 & L3 & L4);
      rewrite ?sizes_sum in *; try assumption; [apply mobility_psd; assumption|].
    destruct (W1 pools pools' fu vu fb vb hist Ec Es L1 L2 L3 L4) as (r1 & r2 & E & _). exists r1, r2, pools', hist. exact E.
  Qed.

  Hypotheses (Hmono : c_monolayer c = false \/ c_KBT c <= 0)
    (Hbrown : c_KBT c <= 0 -> Forall (fun s => velBrown (mot s) = zero3 /\ omegaBrown (mot s) = zero3) (objects ranks)).

  Lemma main_ok ms r1 r2 pools' hist : calcMobOperator (N := R_arith) ln PI (c_viscosity c) y ranks = Done ms -> step ms = Done (Some (r1, r2, pools', hist)) -> below v hist ->
    let ks := concat (concat pools') in
    kept ranks r1 /\ kept ranks r2 /\
    (forall g s, nth_error (objects ranks) g = Some s -> exists t, nth_error (objects r1) g = Some t /\ carried (c_viscosity c) ks g s t /\
      nth_error (objects r2) g = Some (if c_fixed c then t else stepEuler (N := R_arith) sin cos (c_dt c) t)) /\
    (forall k, In k ks -> exists sI sJ, bodies (objects r1) k sI sJ /\ resolved (c_dt c) (v_tol v) k (mot sI) (mot sJ)) /\
    exists ranks0 pools, same_bodies ranks ranks0 /\ collect ranks0 = Done (Some pools) /\ Forall2 (fun k k' => scaled (N := R_arith) k (gamma k') k') (concat (concat pools)) ks.
  Proof using All.
    intros Em E Hb ks. rewrite mobs_ok in Em. injection Em as <-.
    destruct (whole_step tenth c v fuel y fNB vNB ranks) as (ranks0 & vnc & S & K & L & W); [intros r p k H; apply (Hy r p H)|intros r p H; apply (Hy r p H)|intros r p H; apply (Hy r p H)|].
    destruct (W collect) as (W1 & W2). destruct (W2 _ _ _ _ E) as (pools & fu & vu & fb & vb & Ec & Es). destruct (solve_hyps _ _ S Ec) as (A1 & A2 & A3 & A4).
    assert (Hm : sym_psd (6 * sum_list (PipeSpec.sizes ranks)) (mobilityApply (N := R_arith) (mobAll (c_viscosity c) ranks) (PipeSpec.sizes ranks))) by (rewrite sizes_sum; apply mobility_psd; assumption).
    destruct (solve_ok fuel y (c_dt c) v (mobilityApply (N := R_arith) (mobAll (c_viscosity c) ranks) (PipeSpec.sizes ranks)) (PipeSpec.sizes ranks) vnc pools Hdt Htol Hm) with (pools' := pools') (fu := fu) (vu := vu) (fb := fb) (vb := vb) (hist := hist)
      as (L1 & L2 & V1 & V2 & P1 & P2 & P3 & P4 & P5); try assumption; try (rewrite sizes_sum; assumption).
    rewrite sizes_sum in L1, L2, P4, Hm, A4. fold n in L1, L2, P4, Hm, A4. fold ks in P2, P3, P4, P5.
    assert (L3 : length vu = (6 * n)%nat) by (rewrite V1; apply (sp_len _ _ Hm); exact L1). assert (L4 : length vb = (6 * n)%nat) by (rewrite V2; apply (sp_len _ _ Hm); exact L2).
    destruct (W1 pools pools' fu vu fb vb hist Ec Es L1 L3 L2 L4) as (r1' & r2' & E' & (K1 & K2 & RS)).
    rewrite E' in E. injection E as -> ->.
    split; [exact K1|]. split; [exact K2|].
    assert (LD : forall bi (X : list R), (forall g d, (g < n)%nat -> (d < 6)%nat -> nth (6 * g + d) X 0 = kind_load bi ks (Z.of_nat g) d) -> forall g, (g < n)%nat -> loaded bi ks g (lin_R X g) (rot_R X g)).
    { intros bi X H g Hg d Hd. destruct (vget_lin X g d Hd) as (-> & ->). split; apply H; try assumption; lia. }
    split; [|split].
    - intros g s Hg. destruct (RS g s Hg) as (t & T1 & T2 & T3 & T4 & T5 & _). exists t. split; [exact T1|]. split; [|exact T2].
      pose proof (nth_error_lt _ _ _ Hg) as Hgn. fold n in Hgn. destruct T5 as (C1 & C2 & C3 & C4 & C5 & C6 & C7 & C8). unfold carried. cbv zeta. split; [exact T3|]. split; [exact T4|].
      rewrite C1, C2, C3, C4, C5, C6, C7, C8. split; [apply (LD false fu); [intros; apply P4; assumption|exact Hgn]|]. split; [apply (LD true fb); [intros; apply P4; assumption|exact Hgn]|].
      rewrite V1, V2. split; apply mobility_responds; assumption.
    - intros k Hk. destruct (P5 k Hk) as (B1 & B2 & B3).
      assert (Hpk : posed n k).
      { apply In_nth_error in Hk. destruct Hk as (i & Hi). pose proof (nth_error_lt _ _ _ Hi) as Hil. rewrite P3 in Hil.
        destruct (nth_error (concat (concat pools)) i) as [k0|] eqn:Ek; [|apply nth_error_None in Ek; lia].
        assert (Hg : nth_error (map (fun k => gamma k) ks) i = Some (gamma k)) by (apply (map_nth_error (fun k => gamma k)); exact Hi).
        pose proof (Forall2_nth_error _ _ _ i _ _ P2 (nth_combine _ _ _ _ _ Ek Hg) Hi) as Sc. cbn [fst snd] in Sc.
        rewrite Forall_forall in A4. specialize (A4 k0 (nth_error_In _ _ Ek)). destruct A4 as (Q1 & Q2 & Q3). destruct Sc as (_ & _ & _ & _ & _ & _ & S2 & S3 & S4 & _).
        split; [rewrite S2; exact Q1|]. split; [rewrite S3, S4; exact Q2|]. exact B1. }
      destruct Hpk as (Q1 & Q2 & _).
      assert (F : forall g, (0 <= g < Z.of_nat n)%Z -> exists t, body (objects r1) g t /\ vel (mot t) = lin_R (axpy 1 (axpy 1 vu vb) vnc) (Z.to_nat g) /\ omega (mot t) = rot_R (axpy 1 (axpy 1 vu vb) vnc) (Z.to_nat g)).
      { intros g Hg. destruct (nth_error (objects ranks) (Z.to_nat g)) as [s|] eqn:Eg; [|apply nth_error_None in Eg; fold n in Eg; lia].
        destruct (RS _ s Eg) as (t & T1 & _ & T3 & T4 & T5 & T6). exists t. split; [split; [lia|exact T1]|].
        assert (Hbs : c_KBT c <= 0 -> velBrown (mot s) = zero3 /\ omegaBrown (mot s) = zero3) by (intro Hk0; specialize (Hbrown Hk0); rewrite Forall_forall in Hbrown; apply Hbrown; eapply nth_error_In; exact Eg).
        destruct (T6 Hmono Hbs) as (U1 & U2).
        assert (Lvv : length (axpy 1 vu vb) = (6 * n)%nat) by (apply axpy_length; assumption).
        destruct (lin_axpy (axpy 1 vu vb) vnc (Z.to_nat g)) as (-> & ->); [exact (eq_trans Lvv (eq_sym L))|]. destruct (lin_axpy vu vb (Z.to_nat g)) as (-> & ->); [exact (eq_trans L3 (eq_sym L4))|].
        destruct T5 as (C1 & C2 & C3 & C4 & _). split.
        - apply total_vel; auto. exact zero3.
        - apply total_omega; auto. exact zero3. }
      destruct (F _ Q1) as (sI & I1 & I2 & I3).
      assert (FJ : exists sJ, (oneSide k = false -> body (objects r1) (globalIndexJ k) sJ /\ vel (mot sJ) = lin_R (axpy 1 (axpy 1 vu vb) vnc) (Z.to_nat (globalIndexJ k)) /\ omega (mot sJ) = rot_R (axpy 1 (axpy 1 vu vb) vnc) (Z.to_nat (globalIndexJ k)))).
      { destruct (oneSide k); [exists sI; discriminate|]. destruct (F _ (Q2 eq_refl)) as (sJ & HJ). exists sJ. intros _. exact HJ. }
      destruct FJ as (sJ & HJ). exists sI, sJ. split; [split; [exact I1|intro H; apply HJ, H]|].
      assert (EO : opening k (mot sI) (mot sJ) = rate k (axpy 1 (axpy 1 vu vb) vnc)).
      { unfold opening, rate, point_vel. rewrite I2, I3. f_equal. destruct (oneSide k); [reflexivity|]. destruct (HJ eq_refl) as (_ & -> & ->). reflexivity. }
      unfold resolved, next_gap. rewrite EO. split; [exact B1|]. split; [exact B2|exact B3].
    - exists ranks0, pools. split; [exact S|]. split; [exact Ec|]. apply Forall2_nth_intro; [symmetry; exact P3|]. intros i k Hi.
      pose proof (nth_error_lt _ _ _ Hi) as Hil. rewrite <- P3 in Hil. destruct (nth_error ks i) as [k'|] eqn:Ek; [|apply nth_error_None in Ek; lia]. exists k'. split; [reflexivity|].
      assert (Hg : nth_error (map (fun k => gamma k) ks) i = Some (gamma k')) by (apply (map_nth_error (fun k => gamma k)); exact Ek).
      exact (Forall2_nth_error _ _ _ i _ _ P2 (nth_combine _ _ _ _ _ Hi Hg) Ek).
  Qed.
End Main.

(** ** Momentum *)

Lemma Rsum_plus {A} (f g : A -> R) l : Rsum (map (fun a => f a + g a) l) = Rsum (map f l) + Rsum (map g l).
Proof. unfold Rsum. induction l as [|a l IH]; cbn; [lra|]. rewrite IH. lra. Qed.
Lemma Rsum_0 {A} (l : list A) : Rsum (map (fun _ => 0) l) = 0.
Proof. unfold Rsum. induction l as [|a l IH]; cbn; [lra|]. rewrite IH. lra. Qed.
Lemma Rsum_swap {A B} (f : A -> B -> R) l m : Rsum (map (fun a => Rsum (map (f a) m)) l) = Rsum (map (fun b => Rsum (map (fun a => f a b) l)) m).
Proof.
  induction l as [|a l IH]; cbn [map]; [symmetry; apply Rsum_0|]. change (Rsum (map (f a) m) + Rsum (map (fun a => Rsum (map (f a) m)) l) = Rsum (map (fun b => f a b + Rsum (map (fun a => f a b) l)) m)).
  rewrite Rsum_plus, IH. reflexivity.
Qed.
Lemma Rsum_app l m : Rsum (l ++ m) = Rsum l + Rsum m.
Proof. unfold Rsum. induction l as [|a l IH]; cbn; [lra|]. rewrite IH. lra. Qed.
Lemma Rsum_one (x : R) g n : (0 <= g < Z.of_nat n)%Z -> Rsum (map (fun i => if (g =? Z.of_nat i)%Z then x else 0) (seq 0 n)) = x.
Proof.
  induction n as [|n IH]; intros H; [lia|]. rewrite seq_S, map_app, Rsum_app. cbn [map]. unfold Rsum at 2. cbn [fold_right Nat.add].
  destruct (Z.eqb_spec g (Z.of_nat n)) as [->|N].
  - replace (Rsum _) with 0; [lra|]. symmetry. transitivity (Rsum (map (fun _ => 0) (seq 0 n))); [|apply Rsum_0]. f_equal. apply map_ext_in. intros i Hi. apply in_seq in Hi. destruct (Z.eqb_spec (Z.of_nat n) (Z.of_nat i)); [lia|reflexivity].
  - rewrite IH by lia. lra.
Qed.

Lemma opp_sum (a b : R) : a * b + a * (- b) = 0.
Proof. ring. Qed.
Lemma opp_get (a : vec R) d : (d < 3)%nat -> vget (scale3 (-1) a) d = - vget a d.
Proof. intros Hd. destruct d as [|[|[|d]]]; [| | |lia]; unfold vget, scale3; cbn [vx vy vz]; ring. Qed.
Lemma momentum bi n (ks : list (block R_arith)) d : (d < 3)%nat -> Forall (posed n) ks -> Forall opposed ks ->
  Rsum (map (fun g => kind_load bi ks (Z.of_nat g) d) (seq 0 n)) = Rsum (map (fun k => gamma k * vget (normI k) d) (filter (fun k => Bool.eqb (bilateral k) bi && oneSide k) ks)).
Proof.
  intros Hd HP HO. unfold kind_load. rewrite Rsum_swap.
  induction ks as [|k ks IH]; [reflexivity|]. inversion HP as [|? ? (P1 & P2 & _) HP']; subst. inversion HO as [|? ? O1 HO']; subst. specialize (IH HP' HO').
  cbn [filter]. destruct (Bool.eqb (bilateral k) bi); cbn [andb]; [|exact IH].
  change (map ?f (k :: ?l)) with (f k :: map f l). change (Rsum (?a :: ?l)) with (a + Rsum l). rewrite IH.
  assert (E : Rsum (map (fun g => block_load k (gamma k) (Z.of_nat g) d) (seq 0 n)) = gamma k * vget (normI k) d + (if oneSide k then 0 else gamma k * vget (normJ k) d)).
  { unfold block_load. rewrite Rsum_plus. unfold load. replace (d <? 3)%nat with true by (symmetry; apply Nat.ltb_lt; exact Hd). rewrite Rsum_one by exact P1. f_equal.
    destruct (oneSide k); cbn [negb andb]; [apply Rsum_0|]. apply Rsum_one. apply P2. reflexivity. }
  rewrite E. unfold opposed in O1. destruct (oneSide k); cbn [map]; [match goal with |- ?a + 0 + ?b = _ => exact (f_equal (fun z => z + b) (Rplus_0_r a)) end|].
  assert (V : vget (normJ k) d = - vget (normI k) d). { rewrite (O1 eq_refl). apply opp_get; exact Hd. }
  match goal with |- ?a + _ + ?b = _ => refine (eq_trans (f_equal (fun z => z + b) (_ : _ = 0)) (Rplus_0_l b)) end. exact (eq_trans (f_equal (fun z => gamma k * vget (normI k) d + gamma k * z) V) (opp_sum _ _)).
Qed.

Lemma Rsum_nth (A : Type) (l : list A) (F : A -> R) (G : nat -> R) : (forall g t, nth_error l g = Some t -> F t = G g) -> Rsum (map F l) = Rsum (map G (seq 0 (length l))).
Proof.
  revert G. induction l as [|a l IH]; intros G H; [reflexivity|]. cbn [map length seq]. change (Rsum (?a :: ?l)) with (a + Rsum l).
  rewrite <- seq_shift, map_map, (IH (fun g => G (S g))) by (intros g t Hg; apply (H (S g)); exact Hg). f_equal. apply (H 0%nat). reflexivity.
Qed.

Lemma whole_momentum threads tenth c v fuel y fNB vNB collect ranks ms r1 r2 pools hist : in_order threads c v y fNB vNB collect ranks -> plain c ranks ->
  calcMobOperator (N := R_arith) ln PI (c_viscosity c) y ranks = Done ms -> runStepAll (N := R_arith) ln sin cos PI tenth c v fuel y ms fNB vNB collect ranks = Done (Some (r1, r2, pools, hist)) -> below v hist ->
  Forall opposed (concat (concat pools)) -> forall d, (d < 3)%nat ->
  Rsum (map (fun t => vget (forceCol (mot t)) d) (objects r1)) = Rsum (map (fun k => gamma k * vget (normI k) d) (filter (fun k => negb (bilateral k) && oneSide k) (concat (concat pools)))) /\
  Rsum (map (fun t => vget (forceBi (mot t)) d) (objects r1)) = Rsum (map (fun k => gamma k * vget (normI k) d) (filter (fun k => bilateral k && oneSide k) (concat (concat pools)))).
Proof.
  intros ([H1 H2 H3 H4 H5 H6] & H7) (H8 & H9) Em E Hb HO d Hd.
  destruct (main_ok tenth c v fuel y threads fNB vNB collect ranks H1 H2 H3 H4 H5 H6 H7 H8 H9 ms r1 r2 pools hist Em E Hb) as (K1 & _ & A & B & _).
  assert (L : length (objects r1) = length (objects ranks)).
  { unfold objects. rewrite !concat_length. f_equal. apply (kept_sizes ranks r1 K1). }
  set (ks := concat (concat pools)) in *.
  assert (HP : Forall (posed (length (objects r1))) ks).
  { apply Forall_forall. intros k Hk. destruct (B k Hk) as (sI & sJ & (B1 & B2) & B3 & _). split; [|split; [|exact B3]].
    - destruct B1 as (X & Y). apply nth_error_lt in Y. lia.
    - intros Ho. destruct (B2 Ho) as (X & Y). apply nth_error_lt in Y. lia. }
  assert (C : forall g t, nth_error (objects r1) g = Some t -> vget (forceCol (mot t)) d = kind_load false ks (Z.of_nat g) d /\ vget (forceBi (mot t)) d = kind_load true ks (Z.of_nat g) d).
  { intros g t Hg. destruct (nth_error (objects ranks) g) as [s|] eqn:Es; [|exfalso; apply nth_error_None in Es; apply nth_error_lt in Hg; lia].
    destruct (A g s Es) as (t' & Ht & (_ & _ & C1 & C2 & _) & _). assert (t' = t) by congruence. subst t'. split; [apply (C1 d Hd)|apply (C2 d Hd)]. }
  split.
  - rewrite (Rsum_nth _ _ _ (fun g => kind_load false ks (Z.of_nat g) d)) by (intros; apply C; assumption). rewrite (momentum false _ ks d Hd HP HO). reflexivity.
  - rewrite (Rsum_nth _ _ _ (fun g => kind_load true ks (Z.of_nat g) d)) by (intros; apply C; assumption). rewrite (momentum true _ ks d Hd HP HO). do 2 f_equal. apply filter_ext. intros k. destruct (bilateral k); reflexivity.
Qed.
