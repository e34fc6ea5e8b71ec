(** The solution of the constraints of all ranks. *)
From Coq Require Import List Arith ZArith Bool Reals Lia Lra Permutation.
From Flocq Require Import Core.
From Verif Require StepProofs.
From Verif Require Import Outcome ListUtil Arith ParticleModel VecModel VecSpec PointsModel IndexModel SylModel SylSpec ConModel ConSpec ConProofs StepModel StepSpec QPModel QPSpec LinProofs QPProofs QPSolver QPReal QPTerm PipeModel PipeSpec PipeProofs WholeModel WholeSpec WholeProofs.
Import ListNotations.
Local Open Scope R_scope.

(** ** Magnitudes of the blocks *)

Notation wrote := (fun (kx : block R_arith * R) (k' : block R_arith) => scaled (N := R_arith) (fst kx) (snd kx) k').

Lemma Forall2_nth_intro {A B} (Q : A -> B -> Prop) : forall l m, length l = length m -> (forall i a, nth_error l i = Some a -> exists b, nth_error m i = Some b /\ Q a b) -> Forall2 Q l m.
Proof.
  induction l as [|a l IH]; intros [|b m] L H; try discriminate; constructor.
  - destruct (H 0%nat a eq_refl) as (b' & E & Q1). injection E as <-. exact Q1.
  - apply IH; [cbn in L; lia|]. intros i. exact (H (S i)).
Qed.

Lemma nth_error_combine {A B} : forall (l : list A) (m : list B) i x, nth_error (combine l m) i = Some x -> nth_error l i = Some (fst x) /\ nth_error m i = Some (snd x).
Proof. induction l as [|a l IH]; intros [|b m] [|i] x H; cbn in *; try discriminate; [injection H as <-; auto|]. apply IH, H. Qed.

Lemma combine_split {A B} : forall (a b : list A) (g : list B), (length a <= length g)%nat -> combine (a ++ b) g = combine a (firstn (length a) g) ++ combine b (skipn (length a) g).
Proof. induction a as [|x a IH]; intros b g H; [reflexivity|]. destruct g as [|y g]; [cbn in H; lia|]. cbn. f_equal. apply IH. cbn in H. lia. Qed.

Lemma written_all : forall (pools out : list (pool R_arith)) (g : list R), length g = length (concat (concat pools)) -> length out = length pools ->
  (forall r p x p', nth_error pools r = Some p -> nth_error (parts (map (@getLocalNumberOfConstraints R_arith) pools) g) r = Some x -> nth_error out r = Some p' -> Forall2 wrote (combine (concat p) x) (concat p')) ->
  Forall2 wrote (combine (concat (concat pools)) g) (concat (concat out)).
Proof.
  induction pools as [|p ps IH]; intros [|o os] g Lg L H; try discriminate; [destruct g; [constructor|discriminate]|].
  cbn [concat] in *. rewrite !concat_app in *. rewrite app_length in Lg. rewrite combine_split by lia. apply Forall2_app.
  - apply (H 0%nat p _ o); [reflexivity| |reflexivity]. cbn [map parts nth_error]. rewrite num_ok. reflexivity.
  - apply IH; [rewrite skipn_length; lia|cbn in L; lia|]. intros r p0 x p' Hp Hx Ho. apply (H (S r) p0 x p'); [exact Hp| |exact Ho]. cbn [map parts nth_error]. rewrite num_ok. exact Hx.
Qed.

(** ** Rows of the matrix *)

Lemma bent_nonneg (b : block R_arith) e : block_fits b -> In e (bent b) -> (0 <= fst e)%Z.
Proof.
  intros ((A & _) & HJ) He. unfold bent in He. apply in_app_or in He. destruct He as [He|He].
  - unfold six in He. cbn [In] in He. cbv zeta in He. repeat (destruct He as [<-|He]; [cbn [fst]; lia|]). destruct He.
  - destruct (oneSide b) eqn:E; [destruct He|]. destruct (HJ eq_refl) as (B & _). unfold six in He. cbn [In] in He. cbv zeta in He. repeat (destruct He as [<-|He]; [cbn [fst]; lia|]). destruct He.
Qed.

Lemma posed_fits n (k : block R_arith) : (6 * Z.of_nat n <= INT_MAX)%Z -> posed n k -> block_fits k.
Proof. unfold INT_MAX. intros H (A & B & _). split; [split; lia|]. intro E. specialize (B E). split; lia. Qed.

Lemma cols_ok n ks : (6 * Z.of_nat n <= INT_MAX)%Z -> Forall (posed n) ks -> cols_below (map rowNat ks) (6 * n).
Proof.
  intros H6 H row e Hr He. apply in_map_iff in Hr. destruct Hr as (b & <- & Hb). rewrite Forall_forall in H. destruct (H b Hb) as (A & B & _).
  unfold rowNat in He. apply in_map_iff in He. destruct He as (e0 & <- & He). cbn [fst]. unfold bent in He. apply in_app_or in He. destruct He as [He|He].
  - unfold six in He. cbn [In] in He. cbv zeta in He. repeat (destruct He as [<-|He]; [cbn [fst]; lia|]). destruct He.
  - destruct (oneSide b) eqn:E; [destruct He|]. specialize (B eq_refl). unfold six in He. cbn [In] in He. cbv zeta in He. repeat (destruct He as [<-|He]; [cbn [fst]; lia|]). destruct He.
Qed.

Lemma entry_load (ks : list (block R_arith)) i k g d : Forall block_fits ks -> nth_error ks i = Some k -> (d < 6)%nat -> entry (map rowNat ks) i (6 * g + d) = block_load k 1 (Z.of_nat g) d.
Proof.
  intros HF Hi Hd. rewrite <- bent_load by exact Hd. unfold entry. rewrite (nth_error_nth _ _ _ (map_nth_error rowNat _ _ Hi)). unfold rowNat. rewrite map_map. unfold Rsum. f_equal. apply map_ext_in. intros e He. cbn [fst snd].
  assert (F : block_fits k) by (rewrite Forall_forall in HF; apply HF; eapply nth_error_In; exact Hi). pose proof (bent_nonneg k e F He).
  destruct e as (z, a). cbn [fst snd] in *. match goal with |- context [Nat.eqb ?p ?q] => destruct (Nat.eqb_spec p q) end; match goal with |- context [Z.eqb ?p ?q] => destruct (Z.eqb_spec p q) end; try lia; [symmetry; apply Rmult_1_r|reflexivity].
Qed.

Lemma load_linear n p x d : load n p x d = load n p 1 d * x.
Proof. unfold load. destruct (d <? 3); ring. Qed.
Lemma block_load_linear k x g d : block_load k x g d = block_load k 1 g d * x.
Proof. unfold block_load. rewrite (load_linear (normI k) (posI k) x), (load_linear (normJ k) (posJ k) x). destruct (_ =? _)%Z, (negb (oneSide k) && _); ring. Qed.

Lemma big_combine (ks : list (block R_arith)) (F : block R_arith -> R) : forall (h : nat -> R) (x : list R), length x = length ks -> (forall i k, nth_error ks i = Some k -> h i = F k) ->
  big (length ks) (fun i => h i * at_ x i) = Rsum (map (fun kx => F (fst kx) * snd kx) (combine ks x)).
Proof.
  induction ks as [|k ks IH]; intros h x L H; [reflexivity|]. destruct x as [|a x]; [discriminate|]. unfold big in *. cbn [length seq map fold_right combine Rsum fst snd].
  rewrite (H 0%nat k eq_refl). unfold at_ at 1. cbn [nth]. f_equal. rewrite <- seq_shift, map_map. exact (IH (fun i => h (S i)) x ltac:(cbn in L; lia) (fun i k' Hi => H (S i) k' Hi)).
Qed.

Lemma force_total (ks : list (block R_arith)) m (x f : list R) g d : Forall block_fits ks -> length x = length ks -> is_force (map rowNat ks) m x f -> (d < 6)%nat -> (6 * g + d < m)%nat ->
  nth (6 * g + d) f 0 = total_load ks x (Z.of_nat g) d.
Proof.
  intros HF L (_ & H) Hd Hg. specialize (H _ Hg). unfold at_ at 1 in H. rewrite H, map_length. unfold total_load.
  rewrite (big_combine ks (fun k => block_load k 1 (Z.of_nat g) d)); [|exact L|intros i k Hk; apply entry_load; assumption].
  unfold Rsum. f_equal. apply map_ext. intros (k, a). cbn [fst snd]. symmetry. apply block_load_linear.
Qed.

(** of the magnitudes of one kind *)
Lemma scaled_load (k k' : block R_arith) x y g d : scaled (N := R_arith) k x k' -> block_load k' y g d = block_load k y g d.
Proof. intros (_ & _ & _ & _ & _ & _ & A & B & C & _ & _ & D & E & F & G & _). unfold block_load. rewrite A, B, C, D, E, F, G. reflexivity. Qed.

Lemma kind_total (bi : bool) (ks ks' : list (block R_arith)) (g : list R) b d : length g = length ks -> Forall2 wrote (combine ks g) ks' ->
  total_load ks (of_kind (if bi then 1 else 0) (map (fun k => if bilateral k then 1 else 0) ks) g) b d = kind_load bi ks' b d.
Proof.
  revert g ks'. induction ks as [|k ks IH]; intros [|x g] ks' L H; try discriminate; [inversion H; subst; reflexivity|].
  inversion H as [|? b' ? ks1 S F]; subst. cbn [fst snd] in S. unfold kind_load, total_load, of_kind in *. cbn [combine map filter fst snd].
  assert (E : bilateral b' = bilateral k) by apply S. assert (G : gamma b' = x) by apply S. rewrite E.
  pose proof (IH g ks1 ltac:(cbn in L; lia) F) as I. cbn [Rsum fold_right]. unfold Rsum in *. rewrite I. clear I IH H.
  destruct (bilateral k) eqn:Eb, bi; cbn [Bool.eqb map fold_right]; try (rewrite Req_bool_true by reflexivity; rewrite G, (scaled_load _ _ _ x b d S); reflexivity); rewrite Req_bool_false by lra; rewrite block_load_linear, Rmult_0_r; lra.
Qed.

Lemma nth_error_lt {A} (l : list A) i a : nth_error l i = Some a -> (i < length l)%nat.
Proof. intro H. apply nth_error_Some. rewrite H. discriminate. Qed.

(** the velocity of the gap of a block under the velocities w *)
Definition rate (k : block R_arith) (w : list R) : R :=
  dot3 (normI k) (add3 (lin_R w (Z.to_nat (globalIndexI k))) (cross3 (rot_R w (Z.to_nat (globalIndexI k))) (posI k))) +
  (if oneSide k then 0 else dot3 (normJ k) (add3 (lin_R w (Z.to_nat (globalIndexJ k))) (cross3 (rot_R w (Z.to_nat (globalIndexJ k))) (posJ k)))).

Lemma rowdot_app a b w : rowdot (a ++ b) w = rowdot a w + rowdot b w.
Proof. unfold rowdot. induction a as [|e a IH]; cbn [app map fold_right]; [lra|]. rewrite IH. lra. Qed.
Lemma six_rate g (n p : vec R) w : (0 <= g)%Z -> rowdot (map (fun e : Z * R => (Z.to_nat (fst e), snd e)) (@six R_arith g n p)) w = dot3 n (add3 (lin_R w (Z.to_nat g)) (cross3 (rot_R w (Z.to_nat g)) p)).
Proof.
  intros H. unfold six, rowdot, lin_R, rot_R, lin, rot. cbn [map fst snd fold_right]. rarith.
  replace (Z.to_nat (6 * g)) with (6 * Z.to_nat g)%nat by lia. replace (Z.to_nat (6 * g + 1)) with (6 * Z.to_nat g + 1)%nat by lia. replace (Z.to_nat (6 * g + 2)) with (6 * Z.to_nat g + 2)%nat by lia.
  replace (Z.to_nat (6 * g + 3)) with (6 * Z.to_nat g + 3)%nat by lia. replace (Z.to_nat (6 * g + 4)) with (6 * Z.to_nat g + 4)%nat by lia. replace (Z.to_nat (6 * g + 5)) with (6 * Z.to_nat g + 5)%nat by lia.
  unfold dot3, add3, cross3. cbn [vx vy vz]. ring.
Qed.
Lemma row_rate k w : block_fits k -> rowdot (rowNat k) w = rate k w.
Proof.
  intros ((A & _) & B). unfold rowNat, bent, rate. rewrite map_app, rowdot_app, six_rate by exact A. f_equal. destruct (oneSide k); [reflexivity|]. apply six_rate. destruct (B eq_refl). assumption.
Qed.

(** ** The residual *)

Lemma ip_entry : forall (q : list R) i c, nth_error q i = Some c -> c * c <= ip q q.
Proof.
  induction q as [|a q IH]; intros [|i] c H; try discriminate; cbn in *.
  - injection H as ->. assert (0 <= ip q q) by (clear; induction q as [|a q IH]; cbn; [lra|nra]). lra.
  - specialize (IH i c H). nra.
Qed.
Lemma norm_entry (q : list R) i c : nth_error q i = Some c -> Rabs c <= norm2 (N := R_arith) q.
Proof. intros H. rewrite norm2_ip. rewrite <- sqrt_Rsqr_abs. apply sqrt_le_1_alt. exact (ip_entry q i c H). Qed.

Lemma resid_bound lb ub x y r i l u a b : residual lb ub x y r -> nth_error lb i = Some l -> nth_error ub i = Some u -> nth_error x i = Some a -> nth_error y i = Some b ->
  (a <= u - margin -> - r <= b) /\ (l + margin <= a -> b <= r).
Proof.
  intros (q & Eq & ->) Hl Hu Ha Hb. unfold projResidual in Eq. apply allSome_Some in Eq.
  assert (E : nth_error (map Some q) i = Some (projectGradient (N := R_arith) l u a b)).
  { assert (C : forall (A B : Type) (l : list A) (m : list B) i a b, nth_error l i = Some a -> nth_error m i = Some b -> nth_error (combine l m) i = Some (a, b)).
    { induction l0 as [|z l0 IH]; intros [|z' m] [|j] a0 b0 X Y; cbn in *; try discriminate; [congruence|]. apply IH; assumption. }
    rewrite <- Eq. erewrite map_nth_error; [|apply C; apply C; eassumption]. reflexivity. }
  rewrite nth_error_map in E. destruct (nth_error q i) as [c|] eqn:Ec; [|discriminate]. cbn in E. injection E as E. pose proof (norm_entry q i c Ec) as N1. symmetry in E. rewrite coord_R in E.
  assert (- norm2 (N := R_arith) q <= c <= norm2 (N := R_arith) q) by (revert N1; unfold Rabs; destruct (Rcase_abs c); lra).
  pose proof margin_pos. revert E. case Rlt_bool_spec; intros H1.
  - intro E. injection E as <-. split; [|intros; lra]. intros _. revert H. unfold Rmin. destruct (Rle_dec b 0); lra.
  - case Rlt_bool_spec; intros H2; [intro E; injection E as <-; split; [intros; lra|]; intros _; revert H; unfold Rmax; destruct (Rle_dec b 0); lra|].
    destruct (_ && _); intro E; [|discriminate]. injection E as <-. lra.
Qed.

(** ** The solution *)

Lemma most_big : 1000000000 < most.
Proof. unfold most. assert (1 <= bpow radix2 971) by (apply (bpow_le radix2 0); lia). lra. Qed.
Lemma upper_eq : upper (N := R_arith) = most.
Proof. unfold upper, most, dblMax. rarith. reflexivity. Qed.

Lemma wrote_gamma : forall (ks : list (block R_arith)) (g : list R) ks', length g = length ks -> Forall2 wrote (combine ks g) ks' -> map (fun k => gamma k) ks' = g.
Proof.
  induction ks as [|k l IH]; intros [|a g] ks' Lg W; try discriminate; cbn in W; inversion W as [|? k' ? l' S F]; subst; [reflexivity|]. cbn. f_equal; [apply S|]. apply IH; [cbn in Lg; lia|exact F].
Qed.

Section Solve.
  Variables (fuel : nat) (y : nat -> fate R_arith) (dt : R) (v : solveConfig R_arith) (mob : list R -> list R) (sizes : list nat) (velnc : list R) (pools : list (pool R_arith)).
  Let n := sum_list sizes.
  Let ks := concat (concat pools).
  Hypotheses (Hdt : 0 < dt) (Htol : v_tol v <= most * 10) (Hmob : sym_psd (6 * n) mob) (Hvel : length velnc = (6 * n)%nat) (HL : length pools = length sizes)
    (H6 : (6 * Z.of_nat n <= INT_MAX)%Z) (HN : (Z.of_nat (length ks) <= INT_MAX)%Z)
    (HO : forall r p, nth_error pools r = Some p -> Permutation (y_fill1 (y r)) (seq 0 (length p)) /\ Permutation (y_fill2 (y r)) (seq 0 (length p)) /\ Permutation (y_back (y r)) (seq 0 (length p)))
    (HP : Forall (posed n) ks).

  Lemma fits_all : Forall block_fits ks.
  Proof using H6 HP. eapply Forall_impl; [|exact HP]. intros k. apply posed_fits, H6. Qed.
  Lemma fits_pools : Forall (Forall (Forall block_fits)) pools.
  Proof using H6 HP.
    pose proof fits_all as F. unfold ks in F. rewrite Forall_forall in F. apply Forall_forall. intros p Hp. apply Forall_forall. intros q Hq. apply Forall_forall. intros k Hk. apply F.
    apply in_concat. exists q. split; [|exact Hk]. apply in_concat. exists p. split; assumption.
  Qed.

  Lemma rows_of : map (@r_delta0 R_arith) (map rowOf ks) = map (fun k => delta0 k) ks /\ map (@r_gammaGuess R_arith) (map rowOf ks) = map (fun k => gamma k) ks /\
    map (@r_biFlag R_arith) (map rowOf ks) = map (fun k => if bilateral k then 1 else 0) ks /\ map (@r_invKappa R_arith) (map rowOf ks) = map compliance ks.
  Proof using.
    clear. rewrite !map_map. repeat split; apply map_ext; intro k; unfold rowOf, fillRow; cbn; try reflexivity. unfold compliance. rarith.
    destruct (bilateral k); [|reflexivity]. destruct (Rlt_dec 0 (kappa k)); [rewrite Rlt_bool_true by assumption; lra|rewrite Rlt_bool_false by lra; reflexivity].
  Qed.

  Definition slow : list R := setupLb (N := R_arith) (map (fun k => if bilateral k then 1 else 0) ks).
  Lemma slow_eq : slow = map least ks.
  Proof using. clear. unfold slow, setupLb. rewrite map_map. apply map_ext. intro k. unfold least. rarith. destruct (bilateral k); lra. Qed.
  Lemma box_ok : Forall2 Rle slow (repeat most (length ks)).
  Proof using. rewrite slow_eq. pose proof most_big as MB. clear -MB. induction ks as [|k l IH]; [constructor|]. cbn. constructor; [|exact IH]. unfold least. destruct (bilateral k); lra. Qed.
  Lemma guess_ok : QPSpec.in_box slow (repeat most (length ks)) (map (fun k => gamma k) ks).
  Proof using HP.
    rewrite slow_eq. split; [clear -HP|clear -HP]; induction HP as [|k l (A & B & C & D)]; cbn; constructor; auto.
  Qed.

  Lemma solve_ok pools' fu vu fb vb hist : solveAll (N := R_arith) fuel y dt v mob sizes velnc pools = Done (Some (pools', (fu, vu, fb, vb), hist)) -> below v hist ->
    let ks' := concat (concat pools') in
    length fu = (6 * n)%nat /\ length fb = (6 * n)%nat /\ vu = mob fu /\ vb = mob fb /\
    Forall2 (fun p p' => map (@length _) p' = map (@length _) p) pools pools' /\
    Forall2 wrote (combine ks (map (fun k => gamma k) ks')) ks' /\ length ks' = length ks /\
    (forall g d, (g < n)%nat -> (d < 6)%nat -> nth (6 * g + d) fu 0 = kind_load false ks' (Z.of_nat g) d /\ nth (6 * g + d) fb 0 = kind_load true ks' (Z.of_nat g) d) /\
    forall k', In k' ks' -> let gap := delta0 k' + dt * rate k' (axpy 1 (axpy 1 vu vb) velnc) + gamma k' * compliance k' in
      least k' <= gamma k' <= most /\ (gamma k' <= most - margin -> - (dt * v_tol v) < gap) /\ (least k' + margin <= gamma k' -> gap < dt * v_tol v).
  Proof using All.
    intros E Hb. cbv zeta. unfold solveAll in E. rewrite build_all in E; [|exact HL|exact H6|exact HN|intros r p Hp; destruct (HO r p Hp) as (A & B & _); split; assumption|exact fits_pools].
    cbn [obind] in E. fold ks n in E. rewrite map_length in E. destruct rows_of as (R1 & R2 & R3 & R4). rewrite R1, R2, R3, R4, upper_eq in E.
    set (D := map rowNat ks) in *. set (flag := map (fun k : block R_arith => if bilateral k then 1 else 0) ks) in *.
    set (kap := setupInvKappa (N := R_arith) (map compliance ks) dt) in *. set (q := setupQ (N := R_arith) D (map (fun k => delta0 k) ks) velnc dt) in *.
    match type of E with obind ?X _ = _ => destruct X as [x| |] eqn:ES end; try discriminate. cbn [obind] in E.
    destruct x as [((g, (((fu0, fb0), vu0), vb0)), h0)|]; [|discriminate].
    match type of E with obind ?X _ = _ => destruct X as [out| |] eqn:EW end; try discriminate. cbn [obind] in E.
    assert (out = pools' /\ fu0 = fu /\ vu0 = vu /\ fb0 = fb /\ vb0 = vb /\ h0 = hist) as (-> & -> & -> & -> & -> & ->) by (injection E; intros; repeat split; congruence). clear E.
    assert (LD : length D = length ks) by (unfold D; apply map_length).
    assert (Lf : length flag = length D) by (unfold flag; rewrite map_length; auto).
    assert (Lk : length kap = length D) by (unfold kap, setupInvKappa; rewrite !map_length; auto).
    assert (Aq : q = axpy 1 (applyT (N := R_arith) D velnc) (map (fun k => delta0 k * (1 / dt)) ks)).
    { unfold q, setupQ. rewrite map_map. apply vupd_axpy. }
    assert (Lq : length q = length D). { rewrite Aq. apply axpy_length; [rewrite map_length; auto|rewrite applyT_length; reflexivity]. }
    assert (Hc : cols_below D (6 * n)) by (apply cols_ok; assumption).
    assert (Pk : Forall (Rle 0) kap).
    { unfold kap, setupInvKappa. rewrite map_map. apply Forall_forall. intros z Hz. apply in_map_iff in Hz. destruct Hz as (k & <- & _). unfold compliance. rarith. assert (0 < / dt) by (apply Rinv_0_lt_compat; exact Hdt).
      destruct (bilateral k); [|lra]. destruct (Rlt_dec 0 (kappa k)) as [K|K]; [apply Rinv_0_lt_compat in K; nra|lra]. }
    assert (Ff : Forall (fun a => a = 0 \/ a = 1) flag). { unfold flag. apply Forall_forall. intros z Hz. apply in_map_iff in Hz. destruct Hz as (k & <- & _). destruct (bilateral k); auto. }
    pose proof box_ok as B1. pose proof guess_ok as B2. unfold slow in B1, B2. fold flag in B1, B2.
    destruct (solveConstraints_R (v_choice v) D (6 * n) mob kap q flag (repeat most (length ks)) (v_tol v) fuel (v_maxIte v) (map (fun k => gamma k) ks) g fu fb vu vb hist Hc Hmob Lk Pk Lq Lf Ff B1 B2) as
      (G1 & (r & G2 & G3) & G4 & G5 & G6 & G7 & G8 & G9); [|exact ES|exact Hb|].
    { unfold dblMax. rarith. unfold most in Htol. lra. }
    assert (Lg : length g = length ks). { destruct G1 as (X & _). apply Forall2_len in X. unfold setupLb in X. rewrite map_length in X. rewrite <- LD, <- Lf. symmetry. exact X. }
    (* write back *)
    assert (W : length pools' = length pools /\ Forall2 (fun p p' => map (@length _) p' = map (@length _) p) pools pools' /\ Forall2 wrote (combine ks g) (concat (concat pools'))).
    { assert (LP : length g = sum_list (map (@getLocalNumberOfConstraints R_arith) pools)).
      { rewrite Lg. unfold ks. rewrite (map_ext _ _ num_ok pools). clear. induction pools as [|p ps IH]; [reflexivity|]. cbn [concat map]. rewrite concat_app, app_length, IH. reflexivity. }
      destruct (PipeProofs.omap_seq (fun r p => do x <- mread (parts (map (@getLocalNumberOfConstraints R_arith) pools) g) r; writeBackGamma (y_back (y r)) x p)
        (fun r p p' => map (@length _) p' = map (@length _) p /\ forall x, nth_error (parts (map (@getLocalNumberOfConstraints R_arith) pools) g) r = Some x -> Forall2 wrote (combine (concat p) x) (concat p')) pools) as (o & Eo & Lo & Po).
      { intros r0 p Hp. destruct (parts_nth _ g r0 (getLocalNumberOfConstraints p) LP) as (x & Ex & Lx); [apply map_nth_error; exact Hp|].
        unfold mread. rewrite Ex. cbn [obind]. destruct (HO r0 p Hp) as (_ & _ & O3). rewrite num_ok in Lx.
        destruct (writeBack_spec (N := R_arith) (y_back (y r0)) x p O3 Lx) as (p' & E1 & E2 & E3). exists p'. split; [exact E1|]. split; [exact E2|]. intros x' Ex'. injection Ex' as <-.
        assert (Lc : length (concat p') = length (concat p)) by (rewrite !concat_length, E2; reflexivity).
        apply Forall2_nth_intro; [rewrite combine_length; lia|]. intros i (k, a) Hi. apply nth_error_combine in Hi. cbn [fst snd] in *. destruct Hi as (I1 & I2). exact (E3 i k a I1 I2). }
      assert (EE : Done o = Done pools') by (rewrite <- EW; symmetry; exact Eo). injection EE as ->. split; [exact Lo|]. split.
      - apply Forall2_nth_intro; [auto|]. intros i p Hi. destruct (nth_error pools' i) as [p'|] eqn:Ep; [|exfalso; apply nth_error_None in Ep; exact (Nat.lt_irrefl _ (Nat.lt_le_trans _ _ _ (nth_error_lt _ _ _ Hi) (eq_ind _ (fun z => (z <= i)%nat) Ep _ Lo)))].
        exists p'. split; [exact Ep|]. exact (proj1 (proj2 (Po i p p' Hi Ep))).
      - apply written_all; [exact Lg|exact Lo|]. intros i p x p' Hp Hx Hp'. exact (proj2 (proj2 (Po i p p' Hp Hp')) x Hx). }
    change (num R_arith) with R in *.
    destruct W as (W1 & W2 & W3). set (ks' := concat (concat pools')) in *.
    assert (Lks : length ks' = length ks) by (apply Forall2_len in W3; rewrite combine_length in W3; lia).
    assert (Eg : map (fun k => gamma k) ks' = g).
    { apply (wrote_gamma ks g); assumption. }
    assert (Lfu : length fu = (6 * n)%nat) by apply G4. assert (Lfb : length fb = (6 * n)%nat) by apply G5.
    assert (Lvu : length vu = (6 * n)%nat) by (rewrite G6; apply Hmob; exact Lfu). assert (Lvb : length vb = (6 * n)%nat) by (rewrite G7; apply Hmob; exact Lfb).
    split; [exact Lfu|]. split; [exact Lfb|]. split; [exact G6|]. split; [exact G7|]. split; [exact W2|]. split; [refine (eq_ind_r (fun z => Forall2 wrote (combine ks z) ks') W3 Eg)|]. split; [exact Lks|]. split.
    { intros b d Hbn Hd. assert (LK : forall z, length (of_kind z flag g) = length ks) by (intro z; unfold of_kind; rewrite map_length, combine_length; lia). split.
      - rewrite <- (kind_total false ks ks' g _ d Lg W3). apply force_total with (m := (6 * n)%nat); [exact fits_all|apply LK|exact G4|exact Hd|lia].
      - rewrite <- (kind_total true ks ks' g _ d Lg W3). apply force_total with (m := (6 * n)%nat); [exact fits_all|apply LK|exact G5|exact Hd|lia]. }
    intros k' Hk'. apply In_nth_error in Hk'. destruct Hk' as (i & Hi).
    assert (Hil : (i < length ks)%nat) by (rewrite <- Lks; exact (nth_error_lt _ _ _ Hi)).
    destruct (nth_error ks i) as [k|] eqn:Ek; [|apply nth_error_None in Ek; lia].
    assert (Egi : nth_error g i = Some (gamma k')) by (rewrite <- Eg; apply map_nth_error; exact Hi).
    assert (S : scaled (N := R_arith) k (gamma k') k').
    { destruct (nth_error (combine ks g) i) as [(k0, a0)|] eqn:Ec; [|apply nth_error_None in Ec; rewrite combine_length in Ec; lia].
      pose proof (nth_error_combine _ _ _ _ Ec) as (C1 & C2). cbn [fst snd] in C1, C2. rewrite Ek in C1. rewrite Egi in C2. injection C1 as <-. injection C2 as <-.
      exact (Forall2_nth_error _ _ _ i _ _ W3 Ec Hi). }
    set (gd := grad (opMul (N := R_arith) D (6 * n) mob kap) q g) in *.
    assert (EF : applyD (N := R_arith) D (6 * n) g = axpy 1 fu fb).
    { destruct (applyD_force D (6 * n) g) as (X1 & X2); [lia|]. destruct G8 as (Y1 & Y2). apply list_nth_ext; [transitivity (6 * n)%nat; auto|].
      intro c. destruct (Nat.lt_ge_cases c (6 * n)) as [C|C]; [specialize (X2 c C); specialize (Y2 c C); unfold at_ in X2, Y2; rewrite X2, Y2; reflexivity|].
      rewrite !nth_overflow; [reflexivity|rewrite Y1; exact C|rewrite applyD_length; exact C]. }
    assert (Lw : length (axpy 1 vu vb) = (6 * n)%nat) by (apply axpy_length; assumption).
    assert (NT : forall w, nth i (applyT (N := R_arith) D w) 0 = rate k w).
    { intro w. rewrite <- (row_rate k w) by (pose proof fits_all as F; rewrite Forall_forall in F; apply F; eapply nth_error_In; exact Ek).
      rewrite applyT_map. apply nth_error_nth. apply (map_nth_error (fun row : list (nat * R) => rowdot row w)). unfold D. apply (map_nth_error rowNat). exact Ek. }
    assert (NQ : nth i q 0 = delta0 k * (1 / dt) + 1 * rate k velnc).
    { rewrite Aq, axpy_nth by (rewrite map_length, applyT_length; auto). rewrite NT. f_equal. apply nth_error_nth. apply (map_nth_error (fun k : block R_arith => delta0 k * (1 / dt))). exact Ek. }
    assert (NK : nth i kap 0 = compliance k * (1 / dt)).
    { unfold kap, setupInvKappa. rewrite map_map. rarith. apply nth_error_nth. apply (map_nth_error (fun k : block R_arith => compliance k * (1 / dt))). exact Ek. }
    assert (NM : forall (a b : list R) j, length a = length b -> nth j (kmul a b) 0 = nth j a 0 * nth j b 0).
    { clear. induction a as [|x a IH]; intros [|z b] [|j] L; cbn in *; try discriminate; try lra. apply IH. lia. }
    assert (LO : length (opMul (N := R_arith) D (6 * n) mob kap g) = length D).
    { rewrite opMul_R by lia. apply axpy_length; [apply applyT_length|apply kmul_length; lia]. }
    assert (NG : nth i gd 0 = delta0 k / dt + rate k (axpy 1 (axpy 1 vu vb) velnc) + gamma k' * compliance k / dt).
    { unfold gd, grad. rewrite axpy_nth by exact (eq_trans Lq (eq_sym LO)). rewrite NQ. rewrite opMul_R by lia. rewrite axpy_nth by (rewrite applyT_length; symmetry; apply kmul_length; lia).
      rewrite EF, <- G9, NT, NM, NK by lia. rewrite (nth_error_nth _ _ _ Egi).
      assert (RL : rate k (axpy 1 (axpy 1 vu vb) velnc) = rate k velnc + 1 * rate k (axpy 1 vu vb)).
      { rewrite <- !NT. rewrite applyT_lin by lia. rewrite axpy_nth by (rewrite !applyT_length; reflexivity). reflexivity. }
      rewrite RL. field. lra. }
    assert (Li : nth_error (setupLb (N := R_arith) flag) i = Some (least k)). { change (setupLb (N := R_arith) flag) with slow. rewrite slow_eq. apply map_nth_error. exact Ek. }
    assert (Ui : nth_error (repeat most (length ks)) i = Some most) by (apply nth_error_repeat; exact Hil).
    assert (Lgd : length gd = length ks) by (unfold gd, grad; rewrite (axpy_length 1 _ _ (length D)); auto).
    assert (Yi : nth_error gd i = Some (nth i gd 0)) by (apply nth_error_nth'; lia).
    destruct (resid_bound _ _ _ _ _ i _ _ _ _ G2 Li Ui Egi Yi) as (Z1 & Z2).
    assert (HB : least k <= gamma k' <= most) by (destruct G1 as (X1 & X2); split; [exact (Forall2_nth_error _ _ _ i _ _ X1 Li Egi)|exact (Forall2_nth_error _ _ _ i _ _ X2 Egi Ui)]).
    destruct S as (_ & _ & S1 & _ & _ & _ & S2 & S3 & S4 & S5 & S6 & S7 & S8 & S9 & S10 & _).
    assert (Tl : least k' = least k) by (unfold least; rewrite S5; reflexivity). assert (Tc : compliance k' = compliance k) by (unfold compliance; rewrite S5, S6; reflexivity).
    assert (Tr : forall w, rate k' w = rate k w) by (intro w; unfold rate; rewrite S2, S3, S4, S7, S8, S9, S10; reflexivity).
    rewrite Tl, Tc, Tr, S1. set (gap := delta0 k + dt * rate k (axpy 1 (axpy 1 vu vb) velnc) + gamma k' * compliance k).
    assert (GG : nth i gd 0 = gap / dt) by (rewrite NG; unfold gap; field; lra).
    assert (GD : gap = dt * nth i gd 0) by (rewrite GG; field; lra).
    split; [exact HB|]. rewrite GD. split; intro C; [specialize (Z1 C)|specialize (Z2 C)]; nra.
  Qed.

  Lemma solve_total : (v_choice v =? 1)%Z = false -> exists pools' fu vu fb vb hist, solveAll (N := R_arith) fuel y dt v mob sizes velnc pools = Done (Some (pools', (fu, vu, fb, vb), hist)) /\
    length fu = (6 * n)%nat /\ length vu = (6 * n)%nat /\ length fb = (6 * n)%nat /\ length vb = (6 * n)%nat.
  Proof using All.
    intros Hc1. unfold solveAll. rewrite build_all; [|exact HL|exact H6|exact HN|intros r p Hp; destruct (HO r p Hp) as (A & B & _); split; assumption|exact fits_pools].
    cbn [obind]. fold ks n. rewrite map_length. destruct rows_of as (R1 & R2 & R3 & R4). rewrite R1, R2, R3, R4, upper_eq.
    set (D := map rowNat ks) in *. set (flag := map (fun k : block R_arith => if bilateral k then 1 else 0) ks) in *.
    set (kap := setupInvKappa (N := R_arith) (map compliance ks) dt) in *. set (q := setupQ (N := R_arith) D (map (fun k => delta0 k) ks) velnc dt) in *.
    assert (LD : length D = length ks) by (unfold D; apply map_length).
    assert (Lf : length flag = length D) by (unfold flag; rewrite map_length; auto).
    assert (Lk : length kap = length D) by (unfold kap, setupInvKappa; rewrite !map_length; auto).
    assert (Aq : q = axpy 1 (applyT (N := R_arith) D velnc) (map (fun k => delta0 k * (1 / dt)) ks)).
    { unfold q, setupQ. rewrite map_map. apply vupd_axpy. }
    assert (Lq : length q = length D). { rewrite Aq. apply axpy_length; [rewrite map_length; auto|rewrite applyT_length; reflexivity]. }
    assert (Hc : cols_below D (6 * n)) by (apply cols_ok; assumption).
    assert (Pk : Forall (Rle 0) kap).
    { unfold kap, setupInvKappa. rewrite map_map. apply Forall_forall. intros z Hz. apply in_map_iff in Hz. destruct Hz as (k & <- & _). unfold compliance. rarith. assert (0 < / dt) by (apply Rinv_0_lt_compat; exact Hdt).
      destruct (bilateral k); [|lra]. destruct (Rlt_dec 0 (kappa k)) as [K|K]; [apply Rinv_0_lt_compat in K; nra|lra]. }
    pose proof box_ok as B1. pose proof guess_ok as B2. unfold slow in B1, B2. fold flag in B1, B2.
    unfold solveConstraints. rewrite Hc1. set (A := opMul (N := R_arith) D (6 * n) mob kap).
    assert (HA : sym_psd (length q) A) by (unfold A; rewrite Lq; apply opMul_psd; assumption).
    assert (Llb : length (setupLb (N := R_arith) flag) = length q) by (unfold setupLb; rewrite map_length; exact (eq_trans Lf (eq_sym Lq))).
    destruct (solveBBPGD_R A q (setupLb (N := R_arith) flag) (repeat most (length ks)) (v_tol v) (sp_len _ _ HA) B1 Llb (v_maxIte v) (map (fun k => gamma k) ks) B2) as (code & g & hist & l & E & G1 & _).
    cbn [obind]. match goal with |- context [solveBBPGD ?a ?b ?c ?d ?e ?f ?g0] => replace (solveBBPGD a b c d e f g0) with (@SRet R_arith code g hist l) by (symmetry; exact E) end. cbn [obind]. destruct (splitForces (N := R_arith) D (6 * n) mob flag g l) as (((fu, fb), vu), vb) eqn:Es.
    assert (Lg : length g = length ks). { destruct G1 as (X & _). apply Forall2_len in X. unfold setupLb in X. rewrite map_length in X. rewrite <- LD, <- Lf. symmetry. exact X. }
    assert (LP : length g = sum_list (map (@getLocalNumberOfConstraints R_arith) pools)).
    { rewrite Lg. unfold ks. rewrite (map_ext _ _ num_ok pools). clear. induction pools as [|p ps IH]; [reflexivity|]. cbn [concat map]. rewrite concat_app, app_length, IH. reflexivity. }
    destruct (PipeProofs.omap_seq (fun r p => do x <- mread (parts (map (@getLocalNumberOfConstraints R_arith) pools) g) r; writeBackGamma (y_back (y r)) x p) (fun _ _ _ => True) pools) as (o & Eo & Lo & Po).
    { intros r0 p Hp. destruct (parts_nth _ g r0 (getLocalNumberOfConstraints p) LP) as (x & Ex & Lx); [apply map_nth_error; exact Hp|].
      unfold mread. rewrite Ex. cbn [obind]. destruct (HO r0 p Hp) as (_ & _ & O3). rewrite num_ok in Lx.
      destruct (writeBack_spec (N := R_arith) (y_back (y r0)) x p O3 Lx) as (p' & E1 & E2 & E3). exists p'. split; [exact E1|]. exact I. }
    exists o, fu, vu, fb, vb, hist. split.
    { match goal with |- obind ?X _ = _ => replace X with (Done o) by (symmetry; exact Eo) end. reflexivity. }
    unfold splitForces in Es. injection Es as <- <- <- <-.
    assert (Ma : forall z, length (mob (applyD (N := R_arith) D (6 * n) z)) = (6 * n)%nat) by (intro z; apply (sp_len _ _ Hmob), applyD_length).
    split; [rewrite StepProofs.vupd_length; rewrite ?applyD_length; reflexivity|]. split; [rewrite StepProofs.vupd_length; rewrite !Ma; reflexivity|]. split; [apply applyD_length|apply Ma].
  Qed.
End Solve.
