(** Proofs about the collision functor. *)
From Coq Require Import List Arith ZArith Bool Reals Lra Lia Permutation.
From Flocq Require Import Core.
From Verif Require Import Outcome ListUtil Arith ParticleModel VecModel VecSpec VecProofs ConModel ConProofs SylModel SylProofs BoundaryModel QueueProofs
  SegModel SegSpec SegProofs NearModel NearSpec.
Import ListNotations.
Local Open Scope R_scope.
Ltac rring := match goal with |- ?a = ?b => change (@eq R a b) end; ring.

(** ** Stress *)
Definition apply3 (m : mat3 R) (v : vec R) : vec R := Vec (dot3 (vx m) v) (dot3 (vy m) v) (dot3 (vz m) v).

Lemma sg_R : forall (M G : mat3 R) (x : vec R) i j, (i < 3)%nat -> (j < 3)%nat ->
  sg (N := R_arith) M G x i j = vget (cross3 (apply3 G x) (vget M i)) j.
Proof.
  intros M G x i j Hi Hj. unfold sg, klr, apply3, cross3, dot3.
  destruct i as [|[|[|i]]]; try lia; destruct j as [|[|[|j]]]; try lia; cbn; rarith; match goal with |- ?a = ?b => change (@eq R a b) end; ring.
Qed.

Lemma axisym_apply : forall (a b : R) d v, apply3 (axisym (N := R_arith) a b d) v = along a b d v.
Proof.
  intros a b d v. unfold apply3, along. apply vec_eq; unfold dot3, add3, scale3; cbn; rarith; ring.
Qed.
Lemma axisym_row : forall (a b : R) d i, (i < 3)%nat -> vget (axisym (N := R_arith) a b d) i = along a b d (unit_axis i).
Proof.
  intros a b d i Hi. destruct i as [|[|[|i]]]; try lia; apply vec_eq; unfold along, unit_axis, dot3, add3, scale3; cbn; rarith; ring.
Qed.

Lemma syN_R : forall r h : R, initializeSyN (N := R_arith) PI r h 1 = moment r h.
Proof. intros. unfold initializeSyN, moment. rarith. generalize (h / 2 / r). intro beta. apply f_equal2; field. Qed.
Lemma syGA_R : forall r h : R, initializeSyGA (N := R_arith) PI r h 1 = inertia r h.
Proof. intros. unfold initializeSyGA, inertia. rarith. generalize (h / 2 / r). intro beta. apply f_equal2; field. Qed.

Lemma vget_mkmat : forall {C} (f : nat -> nat -> C) i j, (i < 3)%nat -> (j < 3)%nat -> vget (vget (mkmat f) i) j = f i j.
Proof. intros C f i j Hi Hj. destruct i as [|[|[|i]]]; try lia; destruct j as [|[|[|j]]]; try lia; reflexivity. Qed.
Lemma vec_get : forall a b : vec R, (forall j, (j < 3)%nat -> vget a j = vget b j) -> a = b.
Proof. intros a b H. apply vec_eq; [exact (H 0%nat ltac:(lia))|exact (H 1%nat ltac:(lia))|exact (H 2%nat ltac:(lia))]. Qed.

Lemma sub3_zero : forall P Q : vec R, sub3 Q P = zero3 -> P = Q.
Proof. intros P Q H. injection H as H1 H2 H3. apply vec_eq; lra. Qed.

Lemma collideStress_R : forall (dI dJ cI cJ : vec R) (hI hJ rI rJ : R) (P Q : vec R) i, (i < 3)%nat -> P <> Q ->
  vget (collideStress (N := R_arith) PI dI dJ cI cJ hI hJ rI rJ 1 P Q) i = pair_stress dI dJ cI cJ hI hJ rI rJ P Q i.
Proof.
  intros dI dJ cI cJ hI hJ rI rJ P Q i Hi HPQ. unfold collideStress. rewrite !syN_R, !syGA_R. unfold pair_stress, spin_stress.
  destruct (moment rI hI) as [aI bI]. destruct (inertia rI hI) as [gaI gbI]. destruct (moment rJ hJ) as [aJ bJ]. destruct (inertia rJ hJ) as [gaJ gbJ].
  rarith. vecR. rewrite normalized_R by (intro H; apply HPQ, sub3_zero, H).
  replace (norm3 (sub3 Q P)) with (dist3 P Q) by (rewrite dist3_sym; reflexivity).
  set (f := scale3 (/ dist3 P Q) (sub3 Q P)). apply vec_get. intros j Hj. rewrite vget_mkmat by assumption.
  rewrite !sg_R, !axisym_apply, !axisym_row by assumption. unfold Rdiv. rewrite !Rmult_1_l.
  destruct j as [|[|[|j]]]; try lia; unfold add3, scale3; cbn [vget vx vy vz];
    assert (E : vget (sub3 cJ cI) i = vget cJ i - vget cI i) by (destruct i as [|[|[|]]]; try lia; reflexivity); rewrite E; ring.
Qed.

Lemma collideStress_touch : forall (dI dJ cI cJ : vec R) (hI hJ rI rJ : R) (P : vec R) i, (i < 3)%nat ->
  vget (collideStress (N := R_arith) PI dI dJ cI cJ hI hJ rI rJ 1 P P) i = zero3.
Proof.
  intros dI dJ cI cJ hI hJ rI rJ P i Hi. unfold collideStress. rewrite !syN_R, !syGA_R.
  destruct (moment rI hI) as [aI bI]. destruct (inertia rI hI) as [gaI gbI]. destruct (moment rJ hJ) as [aJ bJ]. destruct (inertia rJ hJ) as [gaJ gbJ].
  rarith. vecR. replace (sub3 P P) with zero3 by (veq; ring). rewrite normalized_0.
  apply vec_get. intros j Hj. rewrite vget_mkmat by assumption. rewrite !sg_R, !axisym_apply by assumption.
  assert (E : forall x, cross3 x zero3 = zero3) by (intro; veq; ring). rewrite E.
  replace (opp3 zero3) with zero3 by (veq; ring). rewrite E.
  assert (E2 : forall a b d, along a b d zero3 = zero3) by (intros; unfold along; veq; ring). rewrite !E2.
  assert (E3 : forall x, cross3 zero3 x = zero3) by (intro; veq; ring). rewrite !E3.
  destruct j as [|[|[|j]]]; try lia; cbn; ring.
Qed.

Lemma mat_rows : forall a b : mat3 R, (forall i, (i < 3)%nat -> vget a i = vget b i) -> a = b.
Proof.
  intros [a0 a1 a2] [b0 b1 b2] H. pose proof (H 0%nat ltac:(lia)) as H0. pose proof (H 1%nat ltac:(lia)) as H1. pose proof (H 2%nat ltac:(lia)) as H2.
  cbn in *. congruence.
Qed.

Lemma vec3_eq_dec : forall P Q : vec R, P = Q \/ P <> Q.
Proof. intros P Q. destruct (vec3_dec (sub3 Q P)) as [E|E]; [left; apply sub3_zero, E|right; intros ->; apply E; veq; ring]. Qed.

Lemma stress_translate : forall (t dI dJ cI cJ : vec R) (hI hJ rI rJ : R) (P Q : vec R),
  collideStress (N := R_arith) PI dI dJ (add3 cI t) (add3 cJ t) hI hJ rI rJ 1 (add3 P t) (add3 Q t) =
  collideStress (N := R_arith) PI dI dJ cI cJ hI hJ rI rJ 1 P Q.
Proof.
  intros t dI dJ cI cJ hI hJ rI rJ P Q.
  assert (S : forall a b, sub3 (add3 a t) (add3 b t) = sub3 a b) by (intros; veq; ring).
  apply mat_rows. intros i Hi. destruct (vec3_eq_dec P Q) as [->|H]; [rewrite !collideStress_touch by assumption; reflexivity|].
  rewrite !collideStress_R; try assumption.
  - unfold pair_stress, dist3. rewrite !S. reflexivity.
  - intro E. apply H. apply sub3_zero. rewrite <- (S Q P), E. veq; ring.
Qed.

Lemma stress_swap : forall (dI dJ cI cJ : vec R) (hI hJ rI rJ : R) (P Q : vec R),
  collideStress (N := R_arith) PI dJ dI cJ cI hJ hI rJ rI 1 Q P = collideStress (N := R_arith) PI dI dJ cI cJ hI hJ rI rJ 1 P Q.
Proof.
  intros dI dJ cI cJ hI hJ rI rJ P Q. apply mat_rows. intros i Hi.
  destruct (vec3_eq_dec P Q) as [->|H]; [rewrite !collideStress_touch by assumption; reflexivity|].
  rewrite !collideStress_R; try assumption; [|congruence]. unfold pair_stress. rewrite (dist3_sym Q P).
  replace (scale3 (/ dist3 P Q) (sub3 P Q)) with (opp3 (scale3 (/ dist3 P Q) (sub3 Q P))) by (veq; ring).
  set (f := scale3 (/ dist3 P Q) (sub3 Q P)). replace (opp3 (opp3 f)) with f by (veq; ring).
  generalize (spin_stress dJ rJ hJ (sub3 Q cJ) f i) (spin_stress dI rI hI (sub3 P cI) (opp3 f) i). intros u v.
  replace (scale3 (vget (sub3 cI cJ) i) (opp3 f)) with (scale3 (vget (sub3 cJ cI) i) f); [veq; ring|].
  assert (E : vget (sub3 cI cJ) i = - vget (sub3 cJ cI) i) by (destruct i as [|[|[|]]]; try lia; unfold sub3; cbn; ring).
  rewrite E. veq; ring.
Qed.

Lemma spin_trace : forall d r h x f,
  vx (spin_stress d r h x f 0) + vy (spin_stress d r h x f 1) + vz (spin_stress d r h x f 2) = 0.
Proof.
  intros. unfold spin_stress. destruct (moment r h) as [a b]. destruct (inertia r h) as [ga gb].
  generalize (along (/ ga) (/ gb) d (cross3 x f)). intro w. unfold along, cross3, unit_axis, dot3, add3, scale3. cbn. ring.
Qed.
Lemma stress_trace : forall (dI dJ cI cJ : vec R) (hI hJ rI rJ : R) (P Q : vec R), P <> Q ->
  let m := collideStress (N := R_arith) PI dI dJ cI cJ hI hJ rI rJ 1 P Q in
  vx (vx m) + vy (vy m) + vz (vz m) = dot3 (sub3 cJ cI) (scale3 (/ dist3 P Q) (sub3 Q P)).
Proof.
  intros dI dJ cI cJ hI hJ rI rJ P Q H m.
  change (vx m) with (vget m 0). change (vy m) with (vget m 1). change (vz m) with (vget m 2). unfold m.
  rewrite !collideStress_R by (assumption || lia). unfold pair_stress.
  set (f := scale3 (/ dist3 P Q) (sub3 Q P)).
  pose proof (spin_trace dI rI hI (sub3 P cI) (opp3 f)) as T1. pose proof (spin_trace dJ rJ hJ (sub3 Q cJ) f) as T2.
  unfold add3, scale3, dot3. cbn [vx vy vz vget]. lra.
Qed.

(** two spheres: the stress is the outer product of the centre distance and the force direction *)
Lemma stress_spheres : forall (d d' P Q : vec R) (r r' : R) i, (i < 3)%nat -> P <> Q ->
  vget (collideStress (N := R_arith) PI d d' P Q 0 0 r r' 1 P Q) i = scale3 (vget (sub3 Q P) i / dist3 P Q) (sub3 Q P).
Proof.
  intros d d' P Q r r' i Hi H. rewrite collideStress_R by assumption. unfold pair_stress.
  assert (Z : forall d r f, spin_stress d r 0 zero3 f i = zero3).
  { intros. unfold spin_stress. destruct (moment r0 0) as [a b]. destruct (inertia r0 0) as [ga gb].
    replace (cross3 zero3 f) with zero3 by (veq; ring). replace (along (/ ga) (/ gb) d0 zero3) with zero3 by (unfold along; veq; ring).
    veq; ring. }
  replace (sub3 P P) with zero3 by (veq; ring). replace (sub3 Q Q) with zero3 by (veq; ring). rewrite !Z.
  unfold Rdiv. apply vec_eq; unfold add3, scale3, zero3; cbn [vx vy vz]; ring.
Qed.
(** a sphere has no preferred axis *)
Lemma sphere_axis_free : forall (d d' dJ cI cJ : vec R) (hJ rI rJ : R) (P Q : vec R),
  collideStress (N := R_arith) PI d dJ cI cJ 0 hJ rI rJ 1 P Q = collideStress (N := R_arith) PI d' dJ cI cJ 0 hJ rI rJ 1 P Q.
Proof.
  intros d d' dJ cI cJ hJ rI rJ P Q. apply mat_rows. intros i Hi.
  destruct (vec3_eq_dec P Q) as [->|H]; [rewrite !collideStress_touch by assumption; reflexivity|].
  rewrite !collideStress_R by assumption. unfold pair_stress. apply f_equal2; [|reflexivity]. apply f_equal2; [reflexivity|].
  unfold spin_stress.
  assert (Em : fst (moment rI 0) = snd (moment rI 0)). { unfold moment. unfold Rdiv. rewrite !Rmult_0_l. cbn [fst snd]. field. }
  assert (Ei : fst (inertia rI 0) = snd (inertia rI 0)). { unfold inertia. unfold Rdiv. rewrite !Rmult_0_l. cbn [fst snd]. field. }
  destruct (moment rI 0) as [a b]. destruct (inertia rI 0) as [ga gb]. cbn [fst snd] in *. subst b gb.
  assert (Ea : forall a d v, along a a d v = scale3 a v) by (intros; unfold along; veq; ring). rewrite !Ea. reflexivity.
Qed.

(** ** One pair *)
Definition stress_ok (a b : ep) (P Q : vec R) (m : mat3 R) : Prop := forall i, (i < 3)%nat -> P <> Q ->
  vget m i = pair_stress (stress_dir a) (stress_dir b) (e_pos a) (e_pos b) (stress_len a) (stress_len b) (skin a) (skin b) P Q i.

Lemma gamma_R : forall x : R, (if Rlt_bool x 0 then - x else 0) = Rmax 0 (- x).
Proof. intro x. rcase; [rewrite Rmax_right|rewrite Rmax_left]; lra. Qed.

Lemma normal_ok : forall P Q : vec R, let n := vnormalized (N := R_arith) (sub3 P Q) in
  (exists c, n = scale3 c (sub3 P Q)) /\ (P <> Q -> n = scale3 (/ dist3 P Q) (sub3 P Q) /\ unit3 n).
Proof.
  intros P Q n. unfold n. destruct (vec3_dec (sub3 P Q)) as [E|E].
  - rewrite E, normalized_0. split; [exists 0; veq; ring|]. intro H. destruct H. symmetry. apply sub3_zero, E.
  - rewrite (normalized_R _ E). split; [eexists; reflexivity|]. intros _. split; [reflexivity|].
    rewrite <- (normalized_R _ E). apply normalized_unit, E.
Qed.

Lemma contact_plain : forall (a b : ep) (P Q : vec R) m, stress_ok a b P Q m ->
  exists k, contactBlock (N := R_arith) false a b (dist3 P Q - (skin a + skin b)) P Q m = Done k /\ contact_block a b P Q k.
Proof.
  intros a b P Q m Hm. unfold contactBlock. rarith. vecR.
  match goal with |- context [setStressMat ?B m] => destruct (set_get_stress B m) as (k & E1 & E2 & _ & E3); [reflexivity|]; rewrite E1 end.
  exists k. split; [reflexivity|]. rewrite E3. destruct (normal_ok P Q) as [N1 N2]. unfold contact_block.
  cbn [withGammaStress delta0 gamma gammaLB kappa oneSide bilateral gidI gidJ globalIndexI globalIndexJ posI posJ labI labJ normI normJ mkBlock].
  rewrite gamma_R. repeat (split; [first [reflexivity | f_equal; ring | exact N1]|]). intro H. destruct (N2 H) as [N3 N4].
  split; [exact N3|]. split; [exact N4|]. exists m. split; [|intros i Hi; apply Hm; assumption].
  rewrite E3 in E2. exact E2.
Qed.

Lemma contact_rev : forall (a b : ep) (P Q : vec R) m, stress_ok a b P Q m ->
  exists k, contactBlock (N := R_arith) true b a (dist3 P Q - (skin b + skin a)) Q P m = Done k /\ contact_block a b P Q k.
Proof.
  intros a b P Q m Hm. unfold contactBlock. rarith. vecR.
  match goal with |- context [setStressMat ?B m] => destruct (set_get_stress B m) as (k & E1 & E2 & _ & E3); [reflexivity|]; rewrite E1 end.
  exists k. split; [reflexivity|]. rewrite E3. destruct (normal_ok Q P) as [[c N1] N2]. unfold contact_block.
  cbn [reverseIJ withGammaStress delta0 gamma gammaLB kappa oneSide bilateral gidI gidJ globalIndexI globalIndexJ posI posJ labI labJ normI normJ mkBlock].
  rewrite gamma_R. split; [rring|]. split; [f_equal; rring|].
  do 12 (split; [reflexivity|]). split; [veq; ring|]. split; [exists c; rewrite N1; veq; ring|].
  intro H. destruct (N2 (fun E => H (eq_sym E))) as [N3 N4].
  assert (N5 : opp3 (vnormalized (N := R_arith) (sub3 Q P)) = scale3 (/ dist3 P Q) (sub3 P Q)).
  { rewrite N3, (dist3_sym Q P). veq; ring. }
  split; [exact N5|]. split; [|].
  - unfold unit3 in *. dot3s. lra.
  - exists m. split; [|intros i Hi; apply Hm; assumption]. rewrite E3 in E2. exact E2.
Qed.

Lemma tips : forall e : ep, endMinus (N := R_arith) e = tip (-1) e /\ endPlus (N := R_arith) e = tip 1 e.
Proof.
  intro e. unfold endMinus, endPlus, tip. rewrite half_R. vecR. split; apply vec_eq; unfold add3, sub3, scale3; cbn [vx vy vz]; rarith; field.
Qed.
Lemma round_dec : forall e : ep, nearIsSphere (N := R_arith) e = true /\ round e \/ nearIsSphere (N := R_arith) e = false /\ ~ round e.
Proof. intro e. unfold nearIsSphere, round. rarith. case (Rlt_bool_spec (e_lengthCol e) (2 * e_radiusCol e)); intro; [left|right]; split; auto; lra. Qed.
Lemma skin_round : forall e : ep, round e -> sphereRadius (N := R_arith) e = skin e /\ stress_dir e = Vec 0 0 1 /\ stress_len e = 0.
Proof.
  intros e H. unfold round in H. unfold skin, stress_dir, stress_len, sphereRadius. rewrite half_R. rarith.
  destruct (Rlt_dec _ _); [|contradiction]. split; [field|]. auto.
Qed.
Lemma skin_rod : forall e : ep, ~ round e -> e_radiusCol e = skin e /\ stress_dir e = e_dir e /\ stress_len e = e_lengthCol e.
Proof. intros e H. unfold round in H. unfold skin, stress_dir, stress_len. destruct (Rlt_dec _ _); [contradiction|]. auto. Qed.
Lemma core_round : forall e x, round e -> core_point e x <-> x = e_pos e.
Proof. intros e x H. unfold core_point. tauto. Qed.
Lemma core_rod : forall e x, ~ round e -> core_point e x <-> on_segment (tip (-1) e) (tip 1 e) x.
Proof. intros e x H. unfold core_point. tauto. Qed.

Definition pair_result (a b : ep) (l : list (block R_arith)) : Prop :=
  exists P Q, closest a b P Q /\
    (dist3 P Q < limit a b -> exists k, l = [k] /\ contact_block a b P Q k) /\ (limit a b <= dist3 P Q -> l = []).

(** the choice on the separation *)
Lemma choose_ok : forall (a b : ep) P Q (o : outcome (block R_arith)), closest a b P Q ->
  (exists k, o = Done k /\ contact_block a b P Q k) ->
  forall sep thr : R, sep = dist3 P Q - (skin a + skin b) -> thr = skin a * e_colBuf a + skin b * e_colBuf b ->
  exists l, (if Rlt_bool sep thr then obind o (fun k => Done [k]) else Done []) = Done l /\ pair_result a b l.
Proof.
  intros a b P Q o HC (k & Ek & Hk) sep thr Es Et. unfold pair_result, limit.
  case (Rlt_bool_spec sep thr); intro H; [exists [k]; rewrite Ek; split; [reflexivity|]|exists []; split; [reflexivity|]]; exists P, Q; (split; [exact HC|]); split; intro H'.
  - exists k. split; [reflexivity|exact Hk].
  - exfalso. lra.
  - exfalso. lra.
  - reflexivity.
Qed.

Lemma stress_collide : forall (a b : ep) P Q dI dJ hI hJ rI rJ,
  dI = stress_dir a -> dJ = stress_dir b -> hI = stress_len a -> hJ = stress_len b -> rI = skin a -> rJ = skin b ->
  stress_ok a b P Q (collideStress (N := R_arith) PI dI dJ (e_pos a) (e_pos b) hI hJ rI rJ 1 P Q).
Proof. intros a b P Q dI dJ hI hJ rI rJ -> -> -> -> -> -> i Hi H. apply collideStress_R; assumption. Qed.

Lemma pair_ok : forall (a b : ep), (e_gid a < e_gid b)%Z -> exists l, nearPair (N := R_arith) PI a b = Done l /\ pair_result a b l.
Proof.
  intros a b Hg. unfold nearPair. replace (e_gid b <=? e_gid a)%Z with false by (symmetry; apply Z.leb_gt; exact Hg).
  destruct (tips a) as [Ta1 Ta2]. destruct (tips b) as [Tb1 Tb2].
  destruct (round_dec a) as [[-> Ra]|[-> Ra]]; destruct (round_dec b) as [[-> Rb]|[-> Rb]].
  - unfold sp_sp. destruct (skin_round a Ra) as (Sa & Da & La). destruct (skin_round b Rb) as (Sb & Db & Lb). rewrite Sa, Sb. rarith. vecR.
    change (norm3 (sub3 (e_pos b) (e_pos a))) with (dist3 (e_pos b) (e_pos a)). rewrite (dist3_sym (e_pos b)).
    apply choose_ok with (P := e_pos a) (Q := e_pos b); try reflexivity.
    + split; [apply core_round; auto|]. split; [apply core_round; auto|]. split; [|tauto].
      intros _ p q Hp Hq. apply core_round in Hp; auto. apply core_round in Hq; auto. subst. apply Rle_refl.
    + apply contact_plain. apply stress_collide; auto.
  - unfold sp_sy. destruct (skin_round a Ra) as (Sa & Da & La). destruct (skin_rod b Rb) as (Sb & Db & Lb). rewrite Sa, Sb, Tb1, Tb2.
    destruct (distPointSeg (N := R_arith) (e_pos a) (tip (-1) b) (tip 1 b)) as [d Q] eqn:Ed.
    destruct (distPointSeg_ok _ _ _ _ _ Ed) as (H1 & H2 & H3). rarith.
    apply choose_ok with (P := e_pos a) (Q := Q); [| |rewrite H2; reflexivity|reflexivity].
    + split; [apply core_round; auto|]. split; [apply core_rod; auto|]. split; [|tauto].
      intros _ p q Hp Hq. apply core_round in Hp; auto. apply core_rod in Hq; auto. subst p. rewrite <- H2. apply H3, Hq.
    + rewrite H2. apply contact_plain. apply stress_collide; auto.
  - unfold sp_sy. destruct (skin_rod a Ra) as (Sa & Da & La). destruct (skin_round b Rb) as (Sb & Db & Lb). rewrite Sa, Sb, Ta1, Ta2.
    destruct (distPointSeg (N := R_arith) (e_pos b) (tip (-1) a) (tip 1 a)) as [d P] eqn:Ed.
    destruct (distPointSeg_ok _ _ _ _ _ Ed) as (H1 & H2 & H3). rarith.
    apply choose_ok with (P := P) (Q := e_pos b); [| |rewrite H2, dist3_sym; ring|ring].
    + split; [apply core_rod; auto|]. split; [apply core_round; auto|]. split; [|tauto].
      intros _ p q Hp Hq. apply core_rod in Hp; auto. apply core_round in Hq; auto. subst q. rewrite (dist3_sym P), <- H2, (dist3_sym p). apply H3, Hp.
    + rewrite H2, (dist3_sym (e_pos b)). apply contact_rev.
      intros i Hi HPQ. rewrite stress_swap. apply (stress_collide a b P (e_pos b)); auto.
  - unfold sy_sy. destruct (skin_rod a Ra) as (Sa & Da & La). destruct (skin_rod b Rb) as (Sb & Db & Lb). rewrite Sa, Sb, Ta1, Ta2, Tb1, Tb2.
    destruct (query_ok (tip (-1) a) (tip 1 a) (tip (-1) b) (tip 1 b)) as (H1 & H2 & _ & _ & _ & _ & H3).
    pose proof (query_near (tip (-1) a) (tip 1 a) (tip (-1) b) (tip 1 b)) as H4.
    set (r := dcpQuery (N := R_arith) (tip (-1) a) (tip 1 a) (tip (-1) b) (tip 1 b)) in *. rarith.
    apply choose_ok with (P := r_P r) (Q := r_Q r); [| |rewrite H3; reflexivity|reflexivity].
    + split; [apply core_rod; auto|]. split; [apply core_rod; auto|]. split; [tauto|].
      intros _ _ k (Hk & W1 & W2 & W3) p q Hp Hq. apply core_rod in Hp; auto. apply core_rod in Hq; auto.
      unfold slack. rewrite <- H3. apply (H4 k Hk W1 W2 W3); assumption.
    + rewrite H3. apply contact_plain. apply stress_collide; auto.
Qed.

Lemma pair_none : forall {N : arith} (Pi : N) (a b : nearEP N), (e_gid b <= e_gid a)%Z -> nearPair Pi a b = Done [].
Proof. intros N Pi a b H. unfold nearPair. apply Z.leb_le in H. rewrite H. reflexivity. Qed.

(** ** All calls *)
Lemma contact_done : forall {N : arith} rev (a b : nearEP N) sep P Q m, exists k, contactBlock rev a b sep P Q m = Done k.
Proof.
  intros. unfold contactBlock. destruct rev;
  match goal with |- context [setStressMat ?B m] => destruct (set_get_stress B m) as (k & E1 & _); [reflexivity|exists k; exact E1] end.
Qed.
Lemma pair_done : forall {N : arith} (Pi : N) (a b : nearEP N), exists l, nearPair Pi a b = Done l.
Proof.
  intros. unfold nearPair, sp_sp, sp_sy, sy_sy.
  destruct (e_gid b <=? e_gid a)%Z; [eexists; reflexivity|].
  destruct (nearIsSphere a), (nearIsSphere b); try destruct (distPointSeg _ _ _) as [d Q];
    (match goal with |- context [if ?c then _ else _] => destruct c; [|eexists; reflexivity] end);
    match goal with |- context [contactBlock ?r ?x ?y ?s ?P ?Q ?m] => destruct (contact_done r x y s P Q m) as [k ->] end; eexists; reflexivity.
Qed.

Lemma call_ok : forall {N : arith} (Pi : N) t pairs p, (t < length p)%nat ->
  exists p' ls, ofold (fun p (IJ : nearEP N * nearEP N) => do bs <- nearPair Pi (fst IJ) (snd IJ); pushQueue p t bs) pairs p = Done p' /\
    length p' = length p /\ Forall2 (fun ij l => nearPair Pi (fst ij) (snd ij) = Done l) pairs ls /\
    Permutation (concat p') (concat p ++ concat ls).
Proof.
  intros N Pi t. induction pairs as [|ij pairs IH]; intros p Ht.
  - exists p, []. cbn. rewrite app_nil_r. repeat split; auto.
  - cbn [ofold]. destruct (pair_done Pi (fst ij) (snd ij)) as [l El]. rewrite El. cbn [obind].
    destruct (pushQueue_perm p t l Ht) as (p1 & E1 & L1 & P1). rewrite E1. cbn [obind].
    destruct (IH p1) as (p2 & ls & E2 & L2 & F2 & P2); [lia|]. exists p2, (l :: ls). split; [exact E2|]. split; [lia|].
    split; [constructor; assumption|]. rewrite P2, P1. cbn [concat]. rewrite app_assoc. reflexivity.
Qed.

Lemma calls_ok : forall {N : arith} (Pi : N) calls p, Forall (fun c : nat * (list (nearEP N) * list (nearEP N)) => (fst c < length p)%nat) calls ->
  exists p' ls, nearCalls Pi calls p = Done p' /\ length p' = length p /\
    Forall2 (fun ij l => nearPair Pi (fst ij) (snd ij) = Done l) (delivered calls) ls /\
    Permutation (concat p') (concat p ++ concat ls).
Proof.
  intros N Pi. unfold nearCalls. induction calls as [|c calls IH]; intros p H.
  - exists p, []. cbn. rewrite app_nil_r. repeat split; auto.
  - inversion H as [|? ? H1 H2]; subst. cbn [ofold].
    destruct (call_ok Pi (fst c) (list_prod (fst (snd c)) (snd (snd c))) p H1) as (p1 & l1 & E1 & L1 & F1 & P1).
    unfold nearCall at 1. rewrite E1. cbn [obind].
    destruct (IH p1) as (p2 & l2 & E2 & L2 & F2 & P2); [rewrite L1; exact H2|].
    exists p2, (l1 ++ l2). split; [exact E2|]. split; [lia|]. split; [apply Forall2_app; assumption|].
    rewrite P2, P1, concat_app, app_assoc. reflexivity.
Qed.

(** ** Exactly one block *)
Lemma near_one : forall a b l, near_enough a b -> pair_result a b l -> exists k P Q, l = [k] /\ contact_block a b P Q k.
Proof.
  intros a b l (p & q & Hp & Hq & H) (P & Q & (HP & HQ & C1 & C2) & L1 & L2).
  assert (D : dist3 P Q < limit a b).
  { destruct H as [[Hr H]|(Ra & Rb & k & W & Hl & H)].
    - apply Rle_lt_trans with (dist3 p q); [apply C1; assumption|exact H].
    - pose proof (C2 Ra Rb k W p q Hp Hq) as X. pose proof (dist3_nonneg P Q). apply Rnot_le_lt. intro Y.
      assert (limit a b ^ 2 <= dist3 P Q ^ 2) by (apply pow_incr; lra). lra. }
  destruct (L1 D) as (k & -> & K). exists k, P, Q. auto.
Qed.
Lemma far_none : forall a b l, too_far a b -> pair_result a b l -> l = [].
Proof. intros a b l H (P & Q & (HP & HQ & _) & _ & L2). apply L2, H; assumption. Qed.
Lemma result_gid : forall a b l k, pair_result a b l -> In k l -> gidI k = e_gid a /\ gidJ k = e_gid b.
Proof.
  intros a b l k (P & Q & _ & L1 & L2) Hk. destruct (Rlt_le_dec (dist3 P Q) (limit a b)) as [D|D].
  - destruct (L1 D) as (k' & -> & K). destruct Hk as [<-|[]]. unfold contact_block in K. tauto.
  - rewrite (L2 D) in Hk. destruct Hk.
Qed.

Lemma between_app : forall g h x y, between g h (x ++ y) = between g h x ++ between g h y.
Proof. intros. unfold between. apply filter_app. Qed.

Lemma between_pair : forall g h a b l, nearPair (N := R_arith) PI a b = Done l ->
  (~ named g h (a, b) -> between g h l = []) /\
  (named g h (a, b) -> (g < h)%Z -> too_far a b -> between g h l = []) /\
  (named g h (a, b) -> (g < h)%Z -> near_enough a b -> exists k P Q, between g h l = [k] /\ contact_block a b P Q k) /\
  ((h <= g)%Z -> between g h l = []).
Proof.
  intros g h a b l El. unfold named. cbn [fst snd].
  destruct (Z_lt_le_dec (e_gid a) (e_gid b)) as [Hg|Hg].
  - destruct (pair_ok a b Hg) as (l' & El' & R). rewrite El in El'. injection El' as <-.
    assert (Z : e_gid a <> g \/ e_gid b <> h -> between g h l = []).
    { intro H. unfold between. destruct (filter _ l) as [|k t] eqn:F; [reflexivity|].
      assert (Hk : In k (filter (fun k => Z.eqb (gidI k) g && Z.eqb (gidJ k) h)%bool l)) by (rewrite F; left; reflexivity).
      apply filter_In in Hk. destruct Hk as [Hk Hb]. apply andb_true_iff in Hb. rewrite !Z.eqb_eq in Hb. destruct (result_gid _ _ _ _ R Hk). destruct Hb. exfalso. lia. }
    split; [|split; [|split]].
    + intro H. apply Z. destruct (Z.eq_dec (e_gid a) g); [right|left]; tauto.
    + intros _ _ H. rewrite (far_none _ _ _ H R). reflexivity.
    + intros [H1 H2] _ H. destruct (near_one _ _ _ H R) as (k & P & Q & -> & K). exists k, P, Q. split; [|exact K].
      unfold between, contact_block in *. cbn [filter]. destruct K as (_ & _ & _ & _ & _ & _ & K1 & K2 & _). rewrite K1, K2, H1, H2, !Z.eqb_refl. reflexivity.
    + intro H. apply Z. destruct (Z.eq_dec (e_gid a) g); [right|left]; [lia|assumption].
  - rewrite (pair_none PI a b Hg) in El. injection El as <-. repeat split; auto. intros [H1 H2] H. exfalso. lia.
Qed.

Definition quiet (g h : Z) (ij : ep * ep) : Prop := named g h ij -> too_far (fst ij) (snd ij).

Lemma quiet_all : forall g h D ls, (g < h)%Z -> Forall2 (fun ij l => nearPair (N := R_arith) PI (fst ij) (snd ij) = Done l) D ls ->
  Forall (quiet g h) D -> between g h (concat ls) = [].
Proof.
  intros g h D ls Hgh F. induction F as [|[a b] l D ls E F IH]; intro H; [reflexivity|]. inversion H as [|? ? H1 H2]; subst.
  cbn [concat]. rewrite between_app, (IH H2), app_nil_r. destruct (between_pair g h a b l E) as (X1 & X2 & _ & _).
  unfold quiet in H1. cbn [fst snd] in H1.
  destruct (Z.eq_dec (e_gid a) g) as [E1|E1]; [destruct (Z.eq_dec (e_gid b) h) as [E2|E2]|].
  - apply X2; [split; assumption|assumption|apply H1; split; assumption].
  - apply X1. intros [_ ?]. contradiction.
  - apply X1. intros [? _]. contradiction.
Qed.

Lemma exactly_one : forall calls p g h, Forall (fun c : nat * (list ep * list ep) => (fst c < length p)%nat) calls -> between g h (concat p) = [] ->
  exists p', nearCalls (N := R_arith) PI calls p = Done p' /\
    ((h <= g)%Z -> between g h (concat p') = []) /\
    ((g < h)%Z -> (forall ij, In ij (delivered calls) -> named g h ij -> too_far (fst ij) (snd ij)) -> between g h (concat p') = []) /\
    (forall D1 ij D2, (g < h)%Z -> delivered calls = D1 ++ ij :: D2 -> named g h ij -> near_enough (fst ij) (snd ij) ->
       (forall ij', In ij' (D1 ++ D2) -> named g h ij' -> too_far (fst ij') (snd ij')) ->
       exists k P Q, between g h (concat p') = [k] /\ contact_block (fst ij) (snd ij) P Q k).
Proof.
  intros calls p g h Hc Hp. destruct (calls_ok PI calls p Hc) as (p' & ls & E & _ & F & Pm). exists p'. split; [exact E|].
  assert (PB : Permutation (between g h (concat p')) (between g h (concat ls))).
  { apply Permutation_trans with (between g h (concat p ++ concat ls)); [apply filter_perm; exact Pm|]. rewrite between_app, Hp. reflexivity. }
  assert (NB : between g h (concat ls) = [] -> between g h (concat p') = []).
  { intro X. rewrite X in PB. apply Permutation_nil. symmetry. exact PB. }
  split; [|split].
  - intro H. apply NB. clear -F H. induction F as [|[a b] l D ls E F IH]; [reflexivity|]. cbn [concat]. rewrite between_app, IH, app_nil_r.
    destruct (between_pair g h a b l E) as (_ & _ & _ & X). apply X, H.
  - intros H1 H2. apply NB. apply (quiet_all _ _ _ _ H1 F). apply Forall_forall. intros ij Hij N. exact (H2 ij Hij N).
  - intros D1 [a b] D2 H1 ED N HN H2. unfold ep in *. rewrite ED in F. apply Forall2_app_inv_l in F. destruct F as (l1 & l2 & F1 & F2 & ->).
    inversion F2 as [|? l ? l2' E1 F3]; subst. cbn [fst snd] in *.
    destruct (between_pair g h a b l E1) as (_ & _ & X & _). destruct (X N H1 HN) as (k & P & Q & Hk & K).
    exists k, P, Q. split; [|exact K]. rewrite concat_app in PB. cbn [concat] in PB. rewrite !between_app in PB.
    rewrite (quiet_all _ _ _ _ H1 F1), (quiet_all _ _ _ _ H1 F3), Hk in PB.
    + cbn in PB. apply Permutation_length_1_inv. symmetry. exact PB.
    + apply Forall_forall. intros ij Hij Hn. apply H2; [apply in_or_app; right; exact Hij|exact Hn].
    + apply Forall_forall. intros ij Hij Hn. apply H2; [apply in_or_app; left; exact Hij|exact Hn].
Qed.

(** ** Balance *)
Lemma balance : forall a b P Q k g o, contact_block a b P Q k ->
  add3 (scale3 g (normI k)) (scale3 g (normJ k)) = zero3 /\
  add3 (cross3 (sub3 (add3 (e_pos a) (posI k)) o) (scale3 g (normI k))) (cross3 (sub3 (add3 (e_pos b) (posJ k)) o) (scale3 g (normJ k))) = zero3.
Proof.
  intros a b P Q k g o K. unfold contact_block in K. destruct K as (_ & _ & _ & _ & _ & _ & _ & _ & _ & _ & K1 & K2 & _ & _ & K3 & (c & K4) & _).
  rewrite K1, K2, K3, K4. split; veq; ring.
Qed.

(** ** Search radius *)
Lemma core_reach : forall e x, sized e -> core_point e x -> dist3 (e_pos e) x + skin e * (1 + e_colBuf e) <= (e_lengthCol e / 2 + e_radiusCol e) * (1 + e_colBuf e).
Proof.
  intros e x (_ & _ & H1 & H2 & H3 & U) [[R ->]|[R (s & [S0 S1] & ->)]].
  - destruct (skin_round e R) as (_ & _ & _). unfold skin. unfold round in R. destruct (Rlt_dec _ _); [|contradiction].
    replace (dist3 (e_pos e) (e_pos e)) with 0; [lra|]. unfold dist3. replace (sub3 (e_pos e) (e_pos e)) with zero3 by (veq; ring). symmetry. apply norm3_zero.
  - destruct (skin_rod e R) as (<- & _).
    assert (D : dist3 (e_pos e) (lerp (tip (-1) e) (tip 1 e) s) <= e_lengthCol e / 2).
    { unfold dist3. replace (sub3 (e_pos e) (lerp (tip (-1) e) (tip 1 e) s)) with (scale3 ((1 - 2 * s) * (e_lengthCol e / 2)) (e_dir e)).
      - rewrite norm3_scale. apply norm3_unit in U. rewrite U, Rmult_1_r, Rabs_mult, (Rabs_right (_ / 2)) by lra.
        assert (Rabs (1 - 2 * s) <= 1) by (apply Rabs_le; lra). pose proof (Rabs_pos (1 - 2 * s)). nra.
      - unfold lerp, tip. apply vec_eq; unfold add3, sub3, scale3; cbn [vx vy vz]; rring || field. }
    nra.
Qed.

Lemma search_R : forall e : ep, getRSearch (N := R_arith) e = Rmax (e_length e + 2 * e_radius e) (3 * e_lengthCol e) * (1 + e_colBuf e).
Proof.
  intro e. unfold getRSearch, stdmax. rarith. rcase; [rewrite Rmax_right by lra|rewrite Rmax_left by lra]; rring.
Qed.

Lemma search_ok : forall a b p q, sized a -> sized b -> covered a -> covered b -> core_point a p -> core_point b q -> dist3 p q < limit a b ->
  dist3 (e_pos a) (e_pos b) < Rmax (getRSearch (N := R_arith) a) (getRSearch (N := R_arith) b).
Proof.
  intros a b p q Sa Sb Ca Cb Ha Hb H. pose proof (core_reach a p Sa Ha) as Ra. pose proof (core_reach b q Sb Hb) as Rb.
  assert (T : dist3 (e_pos a) (e_pos b) <= dist3 (e_pos a) p + dist3 p q + dist3 (e_pos b) q).
  { pose proof (dist3_triangle (e_pos a) p (e_pos b)). pose proof (dist3_triangle p q (e_pos b)). rewrite (dist3_sym (e_pos b) q). lra. }
  assert (Half : forall e, sized e -> covered e -> 2 * ((e_lengthCol e / 2 + e_radiusCol e) * (1 + e_colBuf e)) <= getRSearch (N := R_arith) e).
  { intros e (S1 & S2 & S3 & S4 & S5 & _) C. rewrite search_R. rewrite <- Rmult_assoc. apply Rmult_le_compat_r; [lra|].
    pose proof (Rmax_l (e_length e + 2 * e_radius e) (3 * e_lengthCol e)). pose proof (Rmax_r (e_length e + 2 * e_radius e) (3 * e_lengthCol e)).
    destruct C as [C|C]; lra. }
  pose proof (Half a Sa Ca) as Xa. pose proof (Half b Sb Cb) as Xb. unfold limit in H.
  pose proof (Rmax_l (getRSearch (N := R_arith) a) (getRSearch (N := R_arith) b)).
  pose proof (Rmax_r (getRSearch (N := R_arith) a) (getRSearch (N := R_arith) b)). lra.
Qed.
Lemma rod_covered : forall e : ep, 0 <= e_radiusCol e -> ~ round e -> covered e.
Proof. intros e H R. unfold round in R. right. lra. Qed.

(** copies of objects *)
Lemma copy_sized : forall s : sylinder R_arith, unitq (orient s) -> unit3 (e_dir (copyFromFP (N := R_arith) s)).
Proof. intros s H. apply axis_unit, H. Qed.

Lemma pair_all : forall a b : ep,
  ((e_gid b <= e_gid a)%Z -> nearPair (N := R_arith) PI a b = Done []) /\
  ((e_gid a < e_gid b)%Z -> exists l P Q, nearPair (N := R_arith) PI a b = Done l /\ closest a b P Q /\
     (dist3 P Q < limit a b -> exists k, l = [k] /\ contact_block a b P Q k) /\ (limit a b <= dist3 P Q -> l = [])).
Proof.
  intros a b. split; [apply pair_none|]. intro H. destruct (pair_ok a b H) as (l & E & P & Q & X). exists l, P, Q. exact (conj E X).
Qed.

Lemma pair_blocks : forall a b : ep, (e_gid a < e_gid b)%Z -> exists l P Q, nearPair (N := R_arith) PI a b = Done l /\ closest a b P Q /\
  forall k, In k l -> contact_block a b P Q k.
Proof.
  intros a b H. destruct (pair_ok a b H) as (l & E & P & Q & HC & L1 & L2). exists l, P, Q. split; [exact E|]. split; [exact HC|].
  intros k Hk. destruct (Rlt_le_dec (dist3 P Q) (limit a b)) as [D|D].
  - destruct (L1 D) as (k' & -> & K). destruct Hk as [<-|[]]. exact K.
  - rewrite (L2 D) in Hk. destruct Hk.
Qed.
