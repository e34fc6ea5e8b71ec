(** Orientation, drag and mobility (C29-C31). *)
From Coq Require Import List Arith ZArith Reals Lra Psatz Lia Bool Permutation.
From Flocq Require Import Core.
From Verif Require Import Outcome ListUtil MPIProofs RngProofs Overlay Arith ParticleModel ConModel ConProofs VecModel VecSpec VecProofs
  SylModel SylSpec QPSpec.
Import ListNotations.
Local Open Scope R_scope.

(** ** Rotations *)
Lemma quat_eq : forall a b : quat R_arith, qx a = qx b -> qy a = qy b -> qz a = qz b -> qw a = qw b -> a = b.
Proof. intros [] []; cbn; congruence. Qed.

Lemma qsq_R : forall q : quat R_arith, unitq q <-> qsq (N := R_arith) q = 1.
Proof. reflexivity. Qed.

Lemma hamilton_sq : forall a b, qsq (N := R_arith) (hamilton a b) = qsq (N := R_arith) a * qsq (N := R_arith) b.
Proof. intros a b. unfold qsq, hamilton. cbn. ring. Qed.

Lemma qnormalize_unit : forall q : quat R_arith, unitq q -> qnormalize (N := R_arith) q = q.
Proof.
  intros q H. unfold qnormalize. cbv zeta. change (qsq (N := R_arith) q = 1) in H. rewrite H. rarith. rewrite Rlt_bool_true by lra. rewrite sqrt_1.
  apply quat_eq; cbn; field.
Qed.

(** homogeneous form of the rotation *)
Definition hrot (q : quat R_arith) (v : vec R) : vec R :=
  let u := qvec (N := R_arith) q in
  add3 (add3 (scale3 (qw q * qw q - dot3 u u) v) (scale3 (2 * dot3 u v) u)) (scale3 (2 * qw q) (cross3 u v)).

Lemma qrot_hrot : forall (q : quat R_arith) v, unitq q -> qrot (N := R_arith) q v = hrot q v.
Proof.
  intros q v H. unfold unitq in H. unfold qrot, hrot, qvec. vecR. destruct q as [x y z w], v as [a b c]. cbn [qx qy qz qw] in *.
  assert (E : w * w = 1 - (x * x + y * y + z * z)) by lra.
  veq; rewrite E; ring.
Qed.

Lemma hrot_hamilton : forall a b v, hrot (hamilton a b) v = hrot a (hrot b v).
Proof. intros [x y z w] [x' y' z' w'] [a b c]. unfold hrot, hamilton, qvec. cbn [qx qy qz qw]. veq; ring. Qed.

Lemma hrot_dot : forall q v, dot3 (hrot q v) (hrot q v) = qsq (N := R_arith) q * qsq (N := R_arith) q * dot3 v v.
Proof. intros [x y z w] [a b c]. unfold hrot, qsq, qvec, dot3, add3, scale3, cross3. cbn. ring. Qed.

Lemma qrot_norm : forall (q : quat R_arith) v, unitq q -> norm3 (qrot (N := R_arith) q v) = norm3 v.
Proof.
  intros q v H. rewrite qrot_hrot by exact H. unfold norm3. rewrite hrot_dot. change (qsq (N := R_arith) q = 1) in H. rewrite H. replace (1 * 1 * dot3 v v) with (dot3 v v) by ring. reflexivity.
Qed.

Lemma hamilton_unit : forall a b, unitq a -> unitq b -> unitq (hamilton a b).
Proof. intros a b Ha Hb. change (qsq (N := R_arith) a = 1) in Ha. change (qsq (N := R_arith) b = 1) in Hb.
  change (qsq (N := R_arith) (hamilton a b) = 1). rewrite hamilton_sq, Ha, Hb. exact (Rmult_1_l 1). Qed.

(** the quaternion of a rotation by t about n *)
Definition axis_angle (n : vec R) (t : R) : quat R_arith :=
  Quat (N := R_arith) (sin (t / 2) * vx n) (sin (t / 2) * vy n) (sin (t / 2) * vz n) (cos (t / 2)).

Lemma axis_angle_unit : forall n t, unit3 n -> unitq (axis_angle n t).
Proof.
  intros n t H. unfold unitq, axis_angle. cbn. unfold unit3, dot3 in H. pose proof (sin2_cos2 (t / 2)) as S. unfold Rsqr in S.
  replace (sin (t / 2) * vx n * (sin (t / 2) * vx n) + sin (t / 2) * vy n * (sin (t / 2) * vy n) + sin (t / 2) * vz n * (sin (t / 2) * vz n))
    with (sin (t / 2) * sin (t / 2) * (vx n * vx n + vy n * vy n + vz n * vz n)) by ring.
  rewrite H. lra.
Qed.

Lemma axis_angle_rot : forall n t v, unit3 n -> hrot (axis_angle n t) v = rotate n t v.
Proof.
  intros n t v H. unfold hrot, rotate, axis_angle, qvec. cbn [qx qy qz qw].
  set (s := sin (t / 2)). set (c := cos (t / 2)).
  assert (Ht : t = 2 * (t / 2)) by lra.
  assert (Ec : cos t = c * c - s * s) by (rewrite Ht; apply cos_2a).
  assert (Es : sin t = 2 * s * c) by (rewrite Ht; apply sin_2a).
  assert (S : s * s + c * c = 1) by (exact (sin2_cos2 (t / 2))).
  rewrite Ec, Es. unfold unit3, dot3 in H. destruct n as [x y z], v as [a b d]. cbn [vx vy vz] in *.
  assert (E2 : 1 - (c * c - s * s) = 2 * s * s) by lra. rewrite E2.
  assert (E3 : forall k, (c * c - (s * x * (s * x) + s * y * (s * y) + s * z * (s * z))) * k = (c * c - s * s) * k).
  { intro k. replace (s * x * (s * x) + s * y * (s * y) + s * z * (s * z)) with (s * s * (x * x + y * y + z * z)) by ring. rewrite H. ring. }
  veq; rewrite E3; ring.
Qed.

Lemma rotate_exact : forall (q : quat R_arith) (om : vec R) dt, unitq q -> / 2 ^ 23 <= norm3 om ->
  let n := scale3 (/ norm3 om) om in
  rotateEquatn (N := R_arith) sin cos q om dt = hamilton (axis_angle n (norm3 om * dt)) q.
Proof.
  intros q om dt Hq Hw n. assert (P : 0 < / 2 ^ 23) by (apply Rinv_0_lt_compat, pow_lt; lra).
  assert (Hn : unit3 n). { apply norm3_unit. unfold n. rewrite norm3_scale, Rabs_pos_eq; [apply Rinv_l; lra|]. apply Rlt_le, Rinv_0_lt_compat. lra. }
  unfold rotateEquatn. vecR. rarith. replace (1 * bpow radix2 (-23)) with (/ 2 ^ 23).
  2:{ change (bpow radix2 (-23)) with (/ IZR (2 ^ 23)). rewrite (pow_IZR 2 23). rewrite Rmult_1_l. reflexivity. }
  rewrite Rlt_bool_false by exact Hw.
  assert (E : hamilton (axis_angle n (norm3 om * dt)) q = Quat (N := R_arith)
      (vx (add3 (add3 (scale3 (1 / norm3 om) (scale3 (qw q * sin (norm3 om * dt / 2)) om)) (scale3 (cos (norm3 om * dt / 2)) (qvec (N := R_arith) q)))
             (scale3 (sin (norm3 om * dt / 2) * (1 / norm3 om)) (cross3 om (qvec (N := R_arith) q)))))
      (vy (add3 (add3 (scale3 (1 / norm3 om) (scale3 (qw q * sin (norm3 om * dt / 2)) om)) (scale3 (cos (norm3 om * dt / 2)) (qvec (N := R_arith) q)))
             (scale3 (sin (norm3 om * dt / 2) * (1 / norm3 om)) (cross3 om (qvec (N := R_arith) q)))))
      (vz (add3 (add3 (scale3 (1 / norm3 om) (scale3 (qw q * sin (norm3 om * dt / 2)) om)) (scale3 (cos (norm3 om * dt / 2)) (qvec (N := R_arith) q)))
             (scale3 (sin (norm3 om * dt / 2) * (1 / norm3 om)) (cross3 om (qvec (N := R_arith) q)))))
      (qw q * cos (norm3 om * dt / 2) - dot3 (qvec (N := R_arith) q) om * sin (norm3 om * dt / 2) * (1 / norm3 om))).
  { unfold n, axis_angle, hamilton, qvec, add3, scale3, cross3, dot3. cbn [qx qy qz qw vx vy vz].
    apply quat_eq; cbn [qx qy qz qw]; match goal with |- ?a = ?b => change (@eq R a b) end; field; lra. }
  cbv zeta. rewrite <- E. apply qnormalize_unit. apply hamilton_unit; [apply axis_angle_unit; exact Hn|exact Hq].
Qed.

Lemma rotate_small : forall (q : quat R_arith) (om : vec R) dt, norm3 om < / 2 ^ 23 -> rotateEquatn (N := R_arith) sin cos q om dt = q.
Proof.
  intros q om dt H. unfold rotateEquatn. vecR. rarith. replace (1 * bpow radix2 (-23)) with (/ 2 ^ 23).
  - rewrite Rlt_bool_true by exact H. reflexivity.
  - change (bpow radix2 (-23)) with (/ IZR (2 ^ 23)). rewrite (pow_IZR 2 23). rewrite Rmult_1_l. reflexivity.
Qed.

Lemma rotateEquatn_ok : forall (q : quat R_arith) (om : vec R) dt, unitq q ->
  let q' := rotateEquatn (N := R_arith) sin cos q om dt in
  unitq q' /\
  (/ 2 ^ 23 <= norm3 om -> forall v, qrot (N := R_arith) q' v = rotate (scale3 (/ norm3 om) om) (norm3 om * dt) (qrot (N := R_arith) q v)) /\
  (norm3 om < / 2 ^ 23 -> q' = q).
Proof.
  intros q om dt Hq q'. assert (P : 0 < / 2 ^ 23) by (apply Rinv_0_lt_compat, pow_lt; lra).
  assert (Hn : / 2 ^ 23 <= norm3 om -> unit3 (scale3 (/ norm3 om) om)).
  { intro Hw. apply norm3_unit. rewrite norm3_scale, Rabs_pos_eq; [apply Rinv_l; lra|]. apply Rlt_le, Rinv_0_lt_compat. lra. }
  destruct (Rlt_le_dec (norm3 om) (/ 2 ^ 23)) as [C|C].
  - unfold q'. rewrite rotate_small by exact C. split; [exact Hq|]. split; [intro; lra|reflexivity].
  - assert (E := rotate_exact q om dt Hq C). cbv zeta in E. fold q' in E.
    assert (Hu : unitq q') by (rewrite E; apply hamilton_unit; [apply axis_angle_unit, Hn, C|exact Hq]).
    split; [exact Hu|]. split; [|intro; lra]. intros _ v. rewrite !qrot_hrot by assumption.
    rewrite E, hrot_hamilton. apply axis_angle_rot, Hn, C.
Qed.

Lemma rotations_unit : forall h (q : quat R_arith), unitq q -> unitq (rotations q h).
Proof.
  induction h as [|[om dt] h IH]; intros q Hq; [exact Hq|]. cbn. apply IH. apply (rotateEquatn_ok q om dt Hq).
Qed.

Lemma random_unit : forall u1 u2 u3 : R, 0 <= u1 <= 1 -> unitq (setUnitRandomEquatn (N := R_arith) sin cos PI u1 u2 u3).
Proof.
  intros u1 u2 u3 H. unfold unitq, setUnitRandomEquatn. cbn [qx qy qz qw]. rarith.
  pose proof (sin2_cos2 (2 * PI * u2)) as S2. pose proof (sin2_cos2 (2 * PI * u3)) as S3. unfold Rsqr in *.
  set (s2 := sin (2 * PI * u2)) in *. set (c2 := cos (2 * PI * u2)) in *. set (s3 := sin (2 * PI * u3)) in *. set (c3 := cos (2 * PI * u3)) in *.
  pose proof (sqrt_sqrt (1 - u1) ltac:(lra)) as A. pose proof (sqrt_sqrt u1 ltac:(lra)) as B.
  set (a := sqrt (1 - u1)) in *. set (b := sqrt u1) in *.
  replace (a * c2 * (a * c2) + b * s3 * (b * s3) + b * c3 * (b * c3) + a * s2 * (a * s2))
    with (a * a * (s2 * s2 + c2 * c2) + b * b * (s3 * s3 + c3 * c3)) by ring.
  rewrite A, B, S2, S3. ring.
Qed.

Lemma axis_unit : forall s : sylinder R_arith, unitq (orient s) -> unit3 (axis (N := R_arith) s).
Proof.
  intros s H. apply norm3_unit. unfold axis. rewrite qrot_norm by exact H. apply norm3_unit. unfold unit3, dot3, ez. cbn. ring.
Qed.

Lemma psi_ok : forall (q : quat R_arith) (om : vec R),
  map (fun r => dot3 r om) (getPsiMatFromEquatn (N := R_arith) q) =
  let p := hamilton (Quat (N := R_arith) (vx om / 2) (vy om / 2) (vz om / 2) 0) q in [qw p; qx p; qy p; qz p].
Proof.
  intros [x y z w] [a b c]. unfold getPsiMatFromEquatn, hamilton, qvec. vecR. rarith. unfold dot3, scale3, opp3. cbn.
  repeat (apply f_equal2; [field|]). reflexivity.
Qed.

Lemma crossMat_ok : forall p v : vec R,
  let P := getCrossProductMatrix (N := R_arith) p in Vec (dot3 (vx P) v) (dot3 (vy P) v) (dot3 (vz P) v) = cross3 p v.
Proof. intros p v. unfold getCrossProductMatrix. rarith. veq; ring. Qed.

(** ** Drag *)
Lemma ln2_half : / 2 < ln 2.
Proof.
  rewrite <- (ln_exp (/ 2)). apply ln_increasing; [apply exp_pos|].
  apply Rsqr_incrst_0; [|left; apply exp_pos|lra]. unfold Rsqr. rewrite <- exp_plus. replace (/ 2 + / 2) with 1 by lra.
  pose proof exp_le_3. lra.
Qed.

Lemma elongated_log : forall s : sylinder R_arith, 0 < radius s -> elongated s -> / 2 < ln (slength s / radius s) /\
  ln (radius s / slength s) = - ln (slength s / radius s).
Proof.
  intros s Hr He. unfold elongated in He. assert (Hl : 0 < slength s) by lra.
  split.
  - apply Rlt_le_trans with (ln 2); [exact ln2_half|].
    destruct (Req_dec (slength s / radius s) 2) as [->|Hne]; [lra|]. left. apply ln_increasing; [lra|].
    apply Rmult_lt_reg_r with (radius s); [exact Hr|]. unfold Rdiv. rewrite Rmult_assoc, Rinv_l by lra.
    assert (2 * radius s <> slength s). { intro Hc. apply Hne. rewrite <- Hc. field. lra. } lra.
  - rewrite <- ln_Rinv; [f_equal; field; lra|]. apply Rdiv_lt_0_compat; lra.
Qed.

Lemma not_sphere : forall s : sylinder R_arith, isSphere (N := R_arith) false s = false <-> elongated s.
Proof.
  intro s. unfold isSphere, elongated. rarith. rcase; split; intros; try lra; try discriminate; reflexivity.
Qed.

Lemma drag_sphere : forall (s : sylinder R_arith) mu, ~ elongated s ->
  calcDragCoeff (N := R_arith) ln PI mu s =
  let a := slength s / 2 + radius s in (6 * PI * mu * a, 6 * PI * mu * a, 8 * PI * mu * a ^ 3).
Proof.
  intros s mu He. unfold calcDragCoeff. destruct (isSphere (N := R_arith) false s) eqn:E; [|apply not_sphere in E; contradiction].
  rarith. cbv zeta. replace (1 * bpow radix2 (-1)) with (/ 2) by (cbn; lra). apply f_equal2; [apply f_equal2|]; field.
Qed.

Lemma drag_rod : forall (s : sylinder R_arith) mu, 0 < radius s -> elongated s ->
  calcDragCoeff (N := R_arith) ln PI mu s =
  let p := ln (slength s / radius s) in
  (8 * PI * mu * slength s / (2 * (2 * p - 1)), 8 * PI * mu * slength s / (2 * p + 1), 2 * PI * mu * slength s ^ 3 / (3 * (2 * p + 1))).
Proof.
  intros s mu Hr He. destruct (elongated_log s Hr He) as [Hp El]. unfold calcDragCoeff.
  assert (E : isSphere (N := R_arith) false s = false) by (apply not_sphere; exact He). rewrite E. rarith. rewrite El. cbv zeta.
  set (p := ln (slength s / radius s)) in *. apply f_equal2; [apply f_equal2|]; field; lra.
Qed.

Lemma drag_ok : forall (s : sylinder R_arith) mu, 0 < radius s -> 0 <= slength s -> 0 < mu ->
  exists para perp rot, calcDragCoeff (N := R_arith) ln PI mu s = (para, perp, rot) /\ 0 < para /\ 0 < perp /\ 0 < rot /\
    (~ elongated s -> let a := slength s / 2 + radius s in
       para = 6 * PI * mu * a /\ perp = 6 * PI * mu * a /\ rot = 8 * PI * mu * a ^ 3) /\
    (elongated s -> (para < perp <-> radius s * exp (3 / 2) < slength s)).
Proof.
  intros s mu Hr Hl Hm. pose proof PI_RGT_0 as HP. assert (HPm : 0 < PI * mu) by nra.
  assert (D : {elongated s} + {~ elongated s}). { unfold elongated. destruct (Rle_lt_dec (2 * radius s) (slength s)); [left|right]; lra. }
  destruct D as [He|He].
  - do 3 eexists. split; [apply drag_rod; assumption|]. cbv zeta.
    destruct (elongated_log s Hr He) as [Hp _]. set (p := ln (slength s / radius s)) in *.
    unfold elongated in He. assert (Hls : 0 < slength s) by lra.
    assert (A1 : 0 < 8 * PI * mu * slength s) by nra. assert (A3 : 0 < slength s ^ 3) by (apply pow_lt; exact Hls).
    split; [apply Rdiv_lt_0_compat; lra|]. split; [apply Rdiv_lt_0_compat; lra|].
    split; [apply Rdiv_lt_0_compat; [nra|lra]|]. split; [intro; contradiction|]. intros _.
    assert (B : 2 * p + 1 < 2 * (2 * p - 1) <-> radius s * exp (3 / 2) < slength s).
    { assert (B1 : 2 * p + 1 < 2 * (2 * p - 1) <-> 3 / 2 < p) by (split; lra). rewrite B1.
      assert (Es : slength s = radius s * exp p).
      { unfold p. rewrite exp_ln; [apply eq_sym; unfold Rdiv; rewrite Rmult_comm, Rmult_assoc, Rinv_l, Rmult_1_r; [reflexivity|lra]|]. apply Rdiv_lt_0_compat; lra. }
      rewrite Es. split; intro H.
      - apply Rmult_lt_compat_l; [exact Hr|]. apply exp_increasing. exact H.
      - apply exp_lt_inv. apply Rmult_lt_reg_l with (radius s); assumption. }
    rewrite <- B. set (K := 8 * PI * mu * slength s) in *. split; intro H.
    + apply Rnot_le_lt. intro Hc. apply (Rlt_not_le _ _ H).
      unfold Rdiv. apply Rmult_le_compat_l; [lra|]. apply Rinv_le_contravar; lra.
    + unfold Rdiv. apply Rmult_lt_compat_l; [exact A1|]. apply Rinv_lt_contravar; [nra|exact H].
  - do 3 eexists. split; [apply drag_sphere; exact He|]. cbv zeta. set (a := slength s / 2 + radius s).
    assert (Ha : 0 < a) by (unfold a; lra). assert (A3 : 0 < a ^ 3) by (apply pow_lt; exact Ha).
    split; [nra|]. split; [nra|]. split; [nra|]. split; [repeat split|]. intro; contradiction.
Qed.

(** ** Counterexamples *)
Lemma tiny_rotation : exists (q : quat R_arith) om dt v, unitq q /\ om <> zero3 /\
  qrot (N := R_arith) (rotateEquatn (N := R_arith) sin cos q om dt) v
  <> rotate (scale3 (/ norm3 om) om) (norm3 om * dt) (qrot (N := R_arith) q v).
Proof.
  set (h := / 2 ^ 24). assert (Hh : 0 < h) by (apply Rinv_0_lt_compat, pow_lt; lra).
  exists (Quat (N := R_arith) 0 0 0 1), (Vec h 0 0), (PI / h), (Vec 0 1 0).
  assert (Hn : norm3 (Vec h 0 0) = h).
  { unfold norm3, dot3. cbn. replace (h * h + 0 * 0 + 0 * 0) with (h * h) by ring. apply sqrt_square. lra. }
  split; [unfold unitq; cbn; ring|]. split; [unfold zero3; intro E; injection E; lra|].
  rewrite rotate_small.
  2:{ rewrite Hn. unfold h. apply Rinv_lt_contravar; [apply Rmult_lt_0_compat; apply pow_lt; lra|]. apply Rlt_pow; [lra|lia]. }
  rewrite Hn. replace (h * (PI / h)) with PI by (field; lra). unfold rotate. rewrite cos_PI, sin_PI.
  unfold qrot, qvec. vecR. unfold add3, scale3, cross3, dot3. cbn. intro E. injection E. intros. lra.
Qed.

Lemma short_rod_drag : exists (s : sylinder R_arith) mu para perp rot, 0 < radius s /\ 0 < mu /\ elongated s /\
  calcDragCoeff (N := R_arith) ln PI mu s = (para, perp, rot) /\ perp <= para.
Proof.
  set (o := Vec 0 0 0).
  set (s := Syl (N := R_arith) 0 0 0 0 false 1 1 2 2 10 0 0 o (Quat (N := R_arith) 0 0 0 1) (Motion (N := R_arith) o o o o o o o o o o o o o o o o o o)).
  destruct (drag_ok s 1) as (para & perp & rot & E & _ & _ & _ & _ & H); [cbn; lra|cbn; lra|lra|].
  assert (He : elongated s) by (unfold elongated; cbn; lra).
  exists s, 1, para, perp, rot. split; [cbn; lra|]. split; [lra|]. split; [exact He|]. split; [exact E|].
  apply Rnot_lt_le. intro C. apply (H He) in C. cbn in C. pose proof (exp_ineq1 (3 / 2) ltac:(lra)). lra.
Qed.

Lemma stepEuler_R : forall (s : sylinder R_arith) (dt : R),
  let s' := stepEuler (N := R_arith) sin cos dt s in
  spos s' = add3 (spos s) (scale3 dt (vel (mot s))) /\
  orient s' = rotateEquatn (N := R_arith) sin cos (orient s) (omega (mot s)) dt /\
  (unitq (orient s) -> unitq (orient s')) /\ s' = withPose s (spos s') (orient s') /\ withPose s' (spos s) (orient s) = s.
Proof.
  intros s dt s'. split; [reflexivity|]. split; [reflexivity|]. split; [intro H; apply (rotateEquatn_ok _ _ _ H)|].
  split; [reflexivity|destruct s; reflexivity].
Qed.
