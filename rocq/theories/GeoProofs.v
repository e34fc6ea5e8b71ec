From Coq Require Import List ZArith Bool Reals Lra Lia.
From Flocq Require Import Core.
From Verif Require Import Outcome ListUtil Arith ParticleModel GeoModel GeoSpec.
Import ListNotations.
Local Open Scope R_scope.

Lemma subWhile_R ub L : 0 < L -> forall fuel x, (x - ub) / L < INR fuel ->
  exists k, (0 <= k)%Z /\ subWhile (N := R_arith) fuel ub L x = Done (x - IZR k * L) /\ x - IZR k * L < ub /\
    (x < ub -> k = 0%Z) /\ (ub <= x -> ub - L <= x - IZR k * L).
Proof.
  intros HL. induction fuel as [|f IH]; intros x Hx; cbn [subWhile]; rarith; case (Rle_bool_spec ub x); intros H.
  - exfalso. cbn [INR] in Hx. assert (0 <= (x - ub) / L); [|lra].
    apply Rmult_le_pos; [lra|]. apply Rlt_le, Rinv_0_lt_compat, HL.
  - exists 0%Z. split; [lia|]. replace (x - 0 * L) with x by ring. split; [reflexivity|]. split; [lra|]. split; [reflexivity|lra].
  - destruct (IH (x - L)) as (k & Hk & E & B & Z0 & LB).
    { rewrite S_INR in Hx. replace ((x - L - ub) / L) with ((x - ub) / L - 1) by (field; lra). lra. }
    exists (k + 1)%Z. rewrite plus_IZR. replace (x - (IZR k + 1) * L) with (x - L - IZR k * L) by ring.
    split; [lia|]. split; [exact E|]. split; [exact B|]. split; [lra|].
    intros _. destruct (Rlt_or_le (x - L) ub) as [C|C]; [|apply LB, C].
    rewrite (Z0 C). lra.
  - exists 0%Z. split; [lia|]. replace (x - 0 * L) with x by ring. split; [reflexivity|]. split; [lra|]. split; [reflexivity|lra].
Qed.

Lemma addWhile_R lb L : 0 < L -> forall fuel x, (lb - x) / L < INR fuel ->
  exists k, (0 <= k)%Z /\ addWhile (N := R_arith) fuel lb L x = Done (x + IZR k * L) /\ lb <= x + IZR k * L /\
    (lb <= x -> k = 0%Z) /\ (x < lb -> x + IZR k * L < lb + L).
Proof.
  intros HL. induction fuel as [|f IH]; intros x Hx; cbn [addWhile]; rarith; case (Rlt_bool_spec x lb); intros H.
  - exfalso. cbn [INR] in Hx. assert (0 <= (lb - x) / L); [|lra].
    apply Rmult_le_pos; [lra|]. apply Rlt_le, Rinv_0_lt_compat, HL.
  - exists 0%Z. split; [lia|]. replace (x + 0 * L) with x by ring. split; [reflexivity|]. split; [lra|]. split; [reflexivity|lra].
  - destruct (IH (x + L)) as (k & Hk & E & B & Z0 & LB).
    { rewrite S_INR in Hx. replace ((lb - (x + L)) / L) with ((lb - x) / L - 1) by (field; lra). lra. }
    exists (k + 1)%Z. rewrite plus_IZR. replace (x + (IZR k + 1) * L) with (x + L + IZR k * L) by ring.
    split; [lia|]. split; [exact E|]. split; [exact B|]. split; [lra|].
    intros _. destruct (Rlt_or_le (x + L) lb) as [C|C]; [apply LB, C|].
    rewrite (Z0 C). lra.
  - exists 0%Z. split; [lia|]. replace (x + 0 * L) with x by ring. split; [reflexivity|]. split; [lra|]. split; [reflexivity|lra].
Qed.

Lemma INR_above x : exists n : nat, x < INR n.
Proof.
  destruct (Rlt_or_le x 0) as [H|H]; [exists 0%nat; exact H|].
  exists (Z.to_nat (up x)). pose proof (archimed x) as (A & _).
  rewrite INR_IZR_INZ, Z2Nat.id; [exact A|]. apply le_IZR. lra.
Qed.

Lemma findPBCImage_R lb ub x : lb < ub ->
  exists n, forall fuel, (n <= fuel)%nat ->
  exists y : R, findPBCImage (N := R_arith) fuel lb ub x = Done y /\ lb <= y < ub /\ image (ub - lb) x y /\
    (lb <= x < ub -> y = x).
Proof.
  intros HB. set (L := ub - lb). assert (HL : 0 < L) by (unfold L; lra).
  destruct (INR_above (Rmax ((x - ub) / L) ((lb - x) / L))) as (n & Hn).
  exists n. intros fuel Hf. apply le_INR in Hf.
  pose proof (Rmax_l ((x - ub) / L) ((lb - x) / L)). pose proof (Rmax_r ((x - ub) / L) ((lb - x) / L)).
  unfold findPBCImage. rarith. fold L.
  destruct (subWhile_R ub L HL fuel x) as (k & Hk & E & B & Z0 & LB); [lra|]. rewrite E. cbn [obind].
  set (x1 := x - IZR k * L) in *.
  assert (F2 : (lb - x1) / L < INR fuel).
  { destruct (Rlt_or_le x ub) as [C|C].
    - unfold x1. rewrite (Z0 C). replace (x - 0 * L) with x by ring. lra.
    - specialize (LB C). apply Rle_lt_trans with ((x - ub) / L); [|lra].
      apply Rmult_le_compat_r; [apply Rlt_le, Rinv_0_lt_compat, HL|]. unfold L in LB. lra. }
  destruct (addWhile_R lb L HL fuel x1 F2) as (j & Hj & E2 & B2 & Z2 & LB2). rewrite E2.
  eexists. split; [reflexivity|]. split; [split; [exact B2|]|].
  - destruct (Rlt_or_le x1 lb) as [C|C]; [specialize (LB2 C); unfold L in *; lra|].
    rewrite (Z2 C). lra.
  - split.
    + exists (j - k)%Z. unfold x1. rewrite minus_IZR. ring.
    + intros (A1 & A2). unfold x1 in *. rewrite (Z0 A2) in *. replace (x - 0 * L) with x in * by ring.
      rewrite (Z2 A1). ring.
Qed.

Lemma adjustCoordinate_R low high x : low < high ->
  exists n, forall fuel, (n <= fuel)%nat ->
  exists y : R, adjustCoordinate (N := R_arith) fuel low high x = Done y /\ low <= y < high /\ image (high - low) x y /\
    (low <= x < high -> y = x).
Proof.
  intros HB. set (L := high - low). assert (HL : 0 < L) by (unfold L; lra).
  destruct (INR_above (Rmax ((x - high) / L) ((low - x) / L))) as (n & Hn).
  exists (S n). intros fuel Hf. apply le_INR in Hf. rewrite S_INR in Hf.
  pose proof (Rmax_l ((x - high) / L) ((low - x) / L)). pose proof (Rmax_r ((x - high) / L) ((low - x) / L)).
  pose proof (pos_INR n).
  unfold adjustCoordinate. rarith. fold L.
  destruct (addWhile_R low L HL fuel x) as (j & Hj & E2 & B2 & Z2 & LB2); [lra|]. rewrite E2. cbn [obind].
  set (x1 := x + IZR j * L) in *.
  assert (F2 : (x1 - high) / L < INR fuel).
  { destruct (Rlt_or_le x low) as [C|C].
    - specialize (LB2 C). assert ((x1 - high) / L < 1); [|lra]. apply (Rmult_lt_reg_r L); [exact HL|].
      replace ((x1 - high) / L * L) with (x1 - high) by (field; lra). unfold L in *. lra.
    - unfold x1. rewrite (Z2 C). replace (x + 0 * L) with x by ring. lra. }
  destruct (subWhile_R high L HL fuel x1 F2) as (k & Hk & E & B & Z0 & LB). rewrite E. cbn [obind].
  rewrite Req_bool_false by lra.
  eexists. split; [reflexivity|]. split; [split; [|exact B]|].
  - destruct (Rlt_or_le x1 high) as [C|C]; [rewrite (Z0 C); lra|]. specialize (LB C). unfold L in *. lra.
  - split.
    + exists (j - k)%Z. unfold x1. rewrite minus_IZR. ring.
    + intros (A1 & A2). unfold x1 in *. rewrite (Z2 A1) in *. replace (x + 0 * L) with x in * by ring.
      rewrite (Z0 A2). ring.
Qed.

Definition coords {N : arith} : list (vec N -> N) := [vx; vy; vz].

Lemma adjustPosition_R (root : ort R) p :
  (forall c, In c [@vx R; @vy R; @vz R] -> c (olow root) < c (ohigh root)) ->
  exists n, forall fuel, (n <= fuel)%nat ->
  exists q, adjustPosition (N := R_arith) fuel root p = Done q /\
    forall c, In c [@vx R; @vy R; @vz R] -> c (olow root) <= c q < c (ohigh root) /\
      image (c (ohigh root) - c (olow root)) (c p) (c q) /\
      (c (olow root) <= c p < c (ohigh root) -> c q = c p).
Proof.
  intros HB.
  destruct (adjustCoordinate_R (vx (olow root)) (vx (ohigh root)) (vx p)) as (n1 & H1); [apply HB; cbn; auto|].
  destruct (adjustCoordinate_R (vy (olow root)) (vy (ohigh root)) (vy p)) as (n2 & H2); [apply HB; cbn; auto|].
  destruct (adjustCoordinate_R (vz (olow root)) (vz (ohigh root)) (vz p)) as (n3 & H3); [apply HB; cbn; auto|].
  exists (n1 + n2 + n3)%nat. intros fuel Hf.
  destruct (H1 fuel ltac:(lia)) as (x & Ex & Px & Ix & Ux).
  destruct (H2 fuel ltac:(lia)) as (y & Ey & Py & Iy & Uy).
  destruct (H3 fuel ltac:(lia)) as (z & Ez & Pz & Iz & Uz).
  exists (Vec x y z). unfold adjustPosition. rarith. rewrite Ex, Ey, Ez. cbn [obind]. split; [reflexivity|].
  intros c [<-|[<-|[<-|[]]]]; cbn [vx vy vz]; auto.
Qed.

Lemma adjustPositions_R (root : ort R) ps :
  (forall c, In c [@vx R; @vy R; @vz R] -> c (olow root) < c (ohigh root)) ->
  exists n, forall fuel, (n <= fuel)%nat ->
  exists qs, adjustPositions (N := R_arith) fuel root ps = Done qs /\
    Forall2 (fun p q => forall c, In c [@vx R; @vy R; @vz R] -> c (olow root) <= c q < c (ohigh root) /\
      image (c (ohigh root) - c (olow root)) (c p) (c q) /\
      (c (olow root) <= c p < c (ohigh root) -> c q = c p)) ps qs.
Proof.
  intros HB. induction ps as [|p ps (n & IH)].
  - exists 0%nat. intros fuel _. exists []. split; [reflexivity|constructor].
  - destruct (adjustPosition_R root p HB) as (m & H). exists (n + m)%nat. intros fuel Hf.
    destruct (IH fuel ltac:(lia)) as (qs & E & F). destruct (H fuel ltac:(lia)) as (q & Eq & Hq).
    exists (q :: qs). unfold adjustPositions in *. cbn [omap]. rewrite Eq. cbn [obind]. rewrite E. cbn [obind].
    split; [reflexivity|]. constructor; assumption.
Qed.

Lemma nearest_half L x t y : 0 < L -> image L x y -> Rabs (y - t) <= L / 2 -> nearest_image L x t y.
Proof.
  intros HL (k & ->) H. split; [exists k; reflexivity|].
  intros y' (j & ->). destruct (Z.eq_dec j k) as [->|N]; [lra|].
  assert (D : L <= Rabs ((IZR j - IZR k) * L)).
  { rewrite Rabs_mult, (Rabs_pos_eq L) by lra. rewrite <- minus_IZR, <- abs_IZR.
    assert (1 <= IZR (Z.abs (j - k))) by (apply IZR_le; lia). nra. }
  assert (T : Rabs ((IZR j - IZR k) * L) <= Rabs (x + IZR j * L - t) + Rabs (x + IZR k * L - t)).
  { replace ((IZR j - IZR k) * L) with ((x + IZR j * L - t) + - (x + IZR k * L - t)) by ring.
    eapply Rle_trans; [apply Rabs_triang|]. rewrite Rabs_Ropp. lra. }
  lra.
Qed.

Lemma findPBCImageTrg_R lb ub x trg : lb < ub ->
  exists n, forall fuel, (n <= fuel)%nat ->
  exists y t : R, findPBCImageTrg (N := R_arith) fuel lb ub x trg = Done (y, t) /\
    lb <= t < ub /\ image (ub - lb) trg t /\ (lb <= trg < ub -> t = trg) /\
    nearest_image (ub - lb) x t y /\ Rabs (y - t) <= (ub - lb) / 2.
Proof.
  intros HB. destruct (findPBCImage_R lb ub trg HB) as (n1 & H1).
  destruct (H1 n1 (le_n _)) as (t0 & E0 & P0 & I0 & U0).
  destruct (findPBCImage_R 0 (ub - lb) (x - t0)) as (n2 & H2); [lra|].
  exists (n1 + n2)%nat. intros fuel Hf.
  destruct (H1 fuel ltac:(lia)) as (t & Et & Pt & It & Ut).
  assert (t = t0) as ->.
  { destruct I0 as (a & Ea), It as (b & Eb). 
    assert (E : t = t0 + IZR (b - a) * (ub - lb)) by (rewrite minus_IZR; rewrite Ea, Eb; ring).
    destruct (Z.eq_dec (b - a) 0) as [Z0|Z0]; [rewrite Z0 in E; lra|].
    exfalso. assert (C : (1 <= b - a \/ b - a <= -1)%Z) by lia.
    destruct C as [C|C]; apply IZR_le in C; set (q := IZR (b - a)) in *; nra. }
  destruct (H2 fuel ltac:(lia)) as (d & Ed & Pd & (k & Id) & _).
  rewrite Rminus_0_r in Id. unfold findPBCImageTrg. rewrite Et. cbn [obind]. rarith. rewrite Ed. cbn [obind].
  change (bpow radix2 (-1)) with (/ 2).
  eexists. exists t0. split; [reflexivity|]. split; [exact P0|]. split; [exact I0|]. split; [exact U0|].
  assert (G : forall y, image (ub - lb) x y -> Rabs (y - t0) <= (ub - lb) / 2 ->
    nearest_image (ub - lb) x t0 y /\ Rabs (y - t0) <= (ub - lb) / 2).
  { intros y Hy Hd. split; [apply nearest_half; [lra|exact Hy|exact Hd]|exact Hd]. }
  case (Rlt_bool_spec ((ub - lb) * (1 * / 2)) d); intros C; apply G.
  - exists (k - 1)%Z. rewrite minus_IZR. rewrite Id. ring.
  - replace (t0 + d - (ub - lb) - t0) with (d - (ub - lb)) by ring. rewrite Rabs_left by lra. lra.
  - exists k. rewrite Id. ring.
  - replace (t0 + d - t0) with d by ring. rewrite Rabs_pos_eq by lra. lra.
Qed.

(** random points *)
Lemma circle_R Pi radius a b : 0 <= b -> let (x, y) := getRandPointInCircle (N := R_arith) cos sin Pi radius a b in
  x * x + y * y = radius * radius * b.
Proof.
  intros Hb. unfold getRandPointInCircle. rarith.
  set (t := 2 * Pi * a). pose proof (sin2_cos2 t) as H. unfold Rsqr in H.
  replace (radius * sqrt b * cos t * (radius * sqrt b * cos t) + radius * sqrt b * sin t * (radius * sqrt b * sin t))
    with (radius * radius * (sqrt b * sqrt b) * (sin t * sin t + cos t * cos t)) by ring.
  rewrite H, sqrt_sqrt by exact Hb. ring.
Qed.

Lemma sphere_R Pi radius a b facos : let p := getRandPointOnSphere (N := R_arith) cos sin facos Pi radius a b in
  vx p * vx p + vy p * vy p + vz p * vz p = radius * radius.
Proof.
  unfold getRandPointOnSphere, getRandPointAngleOnSphere. rarith. cbn [vx vy vz].
  set (t := 2 * Pi * a). set (f := facos (2 * b - 1)).
  pose proof (sin2_cos2 t) as H. pose proof (sin2_cos2 f) as H'. unfold Rsqr in *.
  replace (cos t * sin f * radius * (cos t * sin f * radius) + sin t * sin f * radius * (sin t * sin f * radius) + cos f * radius * (cos f * radius))
    with (radius * radius * (sin f * sin f * (sin t * sin t + cos t * cos t) + cos f * cos f)) by ring.
  rewrite H, Rmult_1_r, H'. ring.
Qed.
