(** Proofs about the distances of boxes. *)
From Coq Require Import ZArith Reals Lia Lra Psatz Bool.
From Flocq Require Import Core BinarySingleNaN.
From Verif Require Import F64 Arith ParticleModel VecModel TreeModel LetModel OrthoModel OrthoSpec.
Local Open Scope R_scope.

Definition least1 (P : R -> Prop) (l0 h0 l1 h1 d : R) : Prop :=
  0 <= d /\ (exists x y s, l0 <= x <= h0 /\ l1 <= y <= h1 /\ P s /\ Rabs (x - (y + s)) = d) /\
  (forall x y s, l0 <= x <= h0 -> l1 <= y <= h1 -> P s -> d <= Rabs (x - (y + s))).

Lemma sq_abs x d : Rabs x = d -> x ^ 2 = d * d.
Proof. intros <-. rewrite <- Rsqr_pow2, Rsqr_abs. reflexivity. Qed.
Lemma sq_le x d : 0 <= d -> d <= Rabs x -> d * d <= x ^ 2.
Proof. intros H0 H. rewrite <- Rsqr_pow2, Rsqr_abs. unfold Rsqr. apply Rmult_le_compat; assumption. Qed.

Lemma combine (Px Py Pz : R -> Prop) (image : vec R -> Prop) (a b : ort R) dx dy dz :
  (forall x y z, image (Vec x y z) <-> Px x /\ Py y /\ Pz z) ->
  least1 Px (vx (olow a)) (vx (ohigh a)) (vx (olow b)) (vx (ohigh b)) dx ->
  least1 Py (vy (olow a)) (vy (ohigh a)) (vy (olow b)) (vy (ohigh b)) dy ->
  least1 Pz (vz (olow a)) (vz (ohigh a)) (vz (olow b)) (vz (ohigh b)) dz ->
  leastDist image (inBox a) (inBox b) (dx * dx + dy * dy + dz * dz).
Proof.
  intros HI (X0 & (x & x' & sx & X1 & X2 & X3 & X4) & X5) (Y0 & (y & y' & sy & Y1 & Y2 & Y3 & Y4) & Y5)
    (Z0 & (z & z' & sz & Z1 & Z2 & Z3 & Z4) & Z5). split.
  - exists (Vec x y z), (Vec x' y' z'), (Vec sx sy sz).
    split; [exact (conj X1 (conj Y1 Z1))|]. split; [exact (conj X2 (conj Y2 Z2))|].
    split; [apply HI; exact (conj X3 (conj Y3 Z3))|].
    unfold dist2. cbn [vx vy vz]. rewrite (sq_abs _ _ X4), (sq_abs _ _ Y4), (sq_abs _ _ Z4). reflexivity.
  - intros p q [ux uy uz] (A1 & A2 & A3) (B1 & B2 & B3) HS. apply HI in HS. destruct HS as (S1 & S2 & S3).
    unfold dist2. cbn [vx vy vz].
    pose proof (sq_le _ _ X0 (X5 _ _ _ A1 B1 S1)). pose proof (sq_le _ _ Y0 (Y5 _ _ _ A2 B2 S2)).
    pose proof (sq_le _ _ Z0 (Z5 _ _ _ A3 B3 S3)). lra.
Qed.

Lemma half_R : @half R_arith = / 2.
Proof. unfold half. rarith. cbn. lra. Qed.

Lemma clear_least P l0 h0 l1 h1 m : l0 <= h0 -> l1 <= h1 ->
  (exists s, P s /\ Rabs ((l0 + h0) / 2 - ((l1 + h1) / 2 + s)) = m) ->
  (forall s, P s -> m <= Rabs ((l0 + h0) / 2 - ((l1 + h1) / 2 + s))) ->
  least1 P l0 h0 l1 h1 (clear (N := R_arith) ((h0 - l0) / 2 + (h1 - l1) / 2) m).
Proof.
  intros H0 H1 (s & Ps & Hm) Hle. unfold clear. rarith. rcase.
  - split; [lra|]. split.
    + destruct (Rle_dec 0 ((l0 + h0) / 2 - ((l1 + h1) / 2 + s))) as [D|D].
      * rewrite Rabs_pos_eq in Hm by assumption. exists l0, h1, s. repeat split; try lra; [exact Ps|].
        rewrite Rabs_pos_eq; lra.
      * rewrite Rabs_left in Hm by lra. exists h0, l1, s. repeat split; try lra; [exact Ps|].
        rewrite Rabs_left; lra.
    + intros x y t Hx Hy Pt. pose proof (Hle t Pt) as HH. revert HH. unfold Rabs.
      destruct (Rcase_abs _); destruct (Rcase_abs _); lra.
  - split; [lra|]. split.
    + assert (D : l0 <= h1 + s /\ l1 + s <= h0).
      { revert Hm. unfold Rabs. destruct (Rcase_abs _); lra. }
      exists (Rmax l0 (l1 + s)), (Rmax l0 (l1 + s) - s), s.
      unfold Rmax. destruct (Rle_dec _ _); (split; [lra|split; [lra|split; [exact Ps|]]]);
        match goal with |- Rabs ?e = _ => replace e with 0 by lra end; apply Rabs_R0.
    + intros. apply Rabs_pos.
Qed.

Lemma gapBox_R (l0 h0 l1 h1 : R) : gapBox (N := R_arith) l0 h0 l1 h1 =
  clear (N := R_arith) ((h0 - l0) / 2 + (h1 - l1) / 2) (Rabs ((l0 + h0) / 2 - (l1 + h1) / 2)).
Proof.
  unfold gapBox, halfLength, centre. rewrite half_R. rarith. f_equal; try lra; f_equal; lra.
Qed.
Lemma gapBoxPeri_R (L l0 h0 l1 h1 : R) : gapBoxPeri (N := R_arith) L l0 h0 l1 h1 =
  clear (N := R_arith) ((h0 - l0) / 2 + (h1 - l1) / 2) (fold (N := R_arith) L (Rabs ((l0 + h0) / 2 - (l1 + h1) / 2))).
Proof.
  unfold gapBoxPeri, halfLength, centre. rewrite half_R. rarith. f_equal; try lra; f_equal; f_equal; lra.
Qed.
Lemma gapPos_R (l0 h0 x : R) : gapPos (N := R_arith) l0 h0 x = gapBox (N := R_arith) l0 h0 x x.
Proof.
  rewrite gapBox_R. unfold gapPos, halfLength, centre. rewrite half_R. rarith. f_equal; try lra; f_equal; lra.
Qed.
Lemma gapPosPeri_R (L l0 h0 x : R) : gapPosPeri (N := R_arith) L l0 h0 x = gapBoxPeri (N := R_arith) L l0 h0 x x.
Proof.
  rewrite gapBoxPeri_R. unfold gapPosPeri, halfLength, centre. rewrite half_R. rarith. f_equal; try lra; f_equal; f_equal; lra.
Qed.

Lemma axisGap_R (bl bh al ah : R) : bl <= bh -> al <= ah ->
  axisGap (N := R_arith) bl bh al ah = gapBox (N := R_arith) bl bh al ah.
Proof.
  intros Hb Ha. rewrite gapBox_R. unfold axisGap, clear. rarith.
  set (x0 := bl - ah). set (x1 := al - bh).
  assert (S : x0 + x1 <= 0) by (unfold x0, x1; lra).
  assert (E0 : Rabs ((bl + bh) / 2 - (al + ah) / 2) - ((bh - bl) / 2 + (ah - al) / 2) = Rmax x0 x1).
  { unfold Rabs, Rmax, x0, x1. destruct (Rcase_abs _); destruct (Rle_dec _ _); lra. }
  revert E0. unfold Rmax. destruct (Rle_dec x0 x1) as [D|D]; intros E0.
  - rewrite (Rlt_bool_false x1 x0) by assumption. repeat rcase; try lra; nra.
  - rewrite (Rlt_bool_true x1 x0) by lra. repeat rcase; try lra; nra.
Qed.

Lemma open_least l0 h0 l1 h1 : l0 <= h0 -> l1 <= h1 ->
  least1 (fun s => s = 0) l0 h0 l1 h1 (gapBox (N := R_arith) l0 h0 l1 h1).
Proof.
  intros H0 H1. rewrite gapBox_R. apply clear_least; [assumption|assumption| |].
  - exists 0. split; [reflexivity|]. f_equal. lra.
  - intros s ->. rewrite Rplus_0_r. lra.
Qed.

Lemma peri_least L l0 h0 l1 h1 : l0 <= h0 -> l1 <= h1 -> Rabs ((l0 + h0) / 2 - (l1 + h1) / 2) <= L ->
  least1 (fun s => exists n, s = IZR n * L) l0 h0 l1 h1 (gapBoxPeri (N := R_arith) L l0 h0 l1 h1).
Proof.
  intros H0 H1 HL. rewrite gapBoxPeri_R. apply clear_least; [assumption|assumption| |];
    set (c0 := (l0 + h0) / 2) in *; set (c1 := (l1 + h1) / 2) in *; unfold fold; rarith.
  - rcase.
    + exists 0. split; [exists 0%Z; lra|]. f_equal. lra.
    + revert HL H. unfold Rabs at 1 2 3 5. destruct (Rcase_abs (c0 - c1)); intros HL H.
      * exists (- L). split; [exists (-1)%Z; lra|]. rewrite Rabs_pos_eq; lra.
      * exists L. split; [exists 1%Z; lra|]. rewrite Rabs_left1; lra.
  - intros s (n & ->). pose proof (Rabs_pos (c0 - c1)) as Hp.
    assert (Hn : (n <= -1 \/ n = 0 \/ 1 <= n)%Z) by lia.
    assert (Hs : IZR n * L <= - L \/ IZR n * L = 0 \/ L <= IZR n * L).
    { destruct Hn as [Hn|[->|Hn]]; [left|right; left; lra|right; right]; apply IZR_le in Hn; nra. }
    clear Hn. rcase.
    + revert HL H. unfold Rabs. destruct (Rcase_abs _); destruct (Rcase_abs _); lra.
    + revert HL H. unfold Rabs. destruct (Rcase_abs _); destruct (Rcase_abs _); lra.
Qed.

Lemma here_split x y z : here (Vec x y z) <-> x = 0 /\ y = 0 /\ z = 0.
Proof. unfold here. split; [intros H; injection H; auto | intros (-> & -> & ->); reflexivity]. Qed.
Lemma images_split len x y z : images len (Vec x y z) <->
  (exists n, x = IZR n * vx len) /\ (exists n, y = IZR n * vy len) /\ (exists n, z = IZR n * vz len).
Proof.
  unfold images. split.
  - intros (i & j & k & H). injection H as -> -> ->. eauto 8.
  - intros ((i & ->) & (j & ->) & (k & ->)). exists i, j, k. reflexivity.
Qed.

Lemma getDistanceBox_least a b : proper a -> proper b -> leastDist here (inBox a) (inBox b) (getDistanceBox (N := R_arith) a b).
Proof.
  intros (A1 & A2 & A3) (B1 & B2 & B3).
  exact (combine _ _ _ _ a b _ _ _ here_split (open_least _ _ _ _ A1 B1) (open_least _ _ _ _ A2 B2) (open_least _ _ _ _ A3 B3)).
Qed.
Lemma boxDist_same (a b : ort R) : proper a -> proper b -> boxDistSQ (N := R_arith) a b = getDistanceBox (N := R_arith) a b.
Proof.
  intros (A1 & A2 & A3) (B1 & B2 & B3). unfold boxDistSQ, getDistanceBox.
  rewrite !axisGap_R by assumption. reflexivity.
Qed.
Lemma boxDist_least a b : proper a -> proper b -> leastDist here (inBox a) (inBox b) (boxDistSQ (N := R_arith) a b).
Proof. intros A B. rewrite boxDist_same by assumption. apply getDistanceBox_least; assumption. Qed.
Lemma peri_box_least len a b : proper a -> proper b -> centresNear len a b ->
  leastDist (images len) (inBox a) (inBox b) (getDistanceBoxPeri (N := R_arith) a b len).
Proof.
  intros (A1 & A2 & A3) (B1 & B2 & B3) (N1 & N2 & N3).
  exact (combine _ _ _ _ a b _ _ _ (images_split len) (peri_least _ _ _ _ _ A1 B1 N1) (peri_least _ _ _ _ _ A2 B2 N2) (peri_least _ _ _ _ _ A3 B3 N3)).
Qed.

Lemma point_proper p : proper (pointBox p).
Proof. unfold proper, pointBox. cbn. lra. Qed.
Lemma in_point p q : inBox (pointBox p) q <-> q = p.
Proof.
  unfold inBox, pointBox. cbn [olow ohigh]. split.
  - intros (H1 & H2 & H3). destruct p as [p1 p2 p3], q as [q1 q2 q3]. cbn [vx vy vz] in *. f_equal; lra.
  - intros ->. lra.
Qed.
Lemma least_ext im A B B' D : (forall q, B q <-> B' q) -> leastDist im A B D -> leastDist im A B' D.
Proof.
  intros HB ((p & q & s & H1 & H2 & H3 & H4) & H5). split.
  - exists p, q, s. split; [exact H1|]. split; [apply HB; exact H2|]. split; [exact H3|exact H4].
  - intros p' q' s' K1 K2 K3. apply H5; [exact K1|apply HB; exact K2|exact K3].
Qed.
Lemma getDistancePos_box o p : getDistancePos (N := R_arith) o p = getDistanceBox (N := R_arith) o (pointBox p).
Proof. unfold getDistancePos, getDistanceBox, pointBox. rewrite !gapPos_R. reflexivity. Qed.
Lemma getDistancePosPeri_box o p len : getDistancePosPeri (N := R_arith) o p len = getDistanceBoxPeri (N := R_arith) o (pointBox p) len.
Proof. unfold getDistancePosPeri, getDistanceBoxPeri, pointBox. rewrite !gapPosPeri_R. reflexivity. Qed.
Lemma pos_least o p : proper o -> leastDist here (inBox o) (fun q => q = p) (getDistancePos (N := R_arith) o p).
Proof.
  intros H. rewrite getDistancePos_box. apply (least_ext _ _ (inBox (pointBox p))); [intros; apply in_point|].
  apply getDistanceBox_least; [exact H|apply point_proper].
Qed.
Lemma pos_peri_least len o p : proper o -> centresNear len o (pointBox p) ->
  leastDist (images len) (inBox o) (fun q => q = p) (getDistancePosPeri (N := R_arith) o p len).
Proof.
  intros H HN. rewrite getDistancePosPeri_box. apply (least_ext _ _ (inBox (pointBox p))); [intros; apply in_point|].
  apply peri_box_least; [exact H|apply point_proper|exact HN].
Qed.

(** contained of a box *)
Lemma ltb_no x y : Rlt_bool x y = false -> y <= x.
Proof. case Rlt_bool_spec; [discriminate|auto]. Qed.
Lemma leb_no x y : Rle_bool x y = false -> y < x.
Proof. case Rle_bool_spec; [discriminate|auto]. Qed.
Lemma max_ge a b : a <= Rmax a b /\ b <= Rmax a b.
Proof. split; [apply Rmax_l|apply Rmax_r]. Qed.

Lemma contains_meets (o a : ort R) : solid o -> proper a ->
  containsBox (N := R_arith) o a = true <-> exists p, inBox a p /\ containsPos (N := R_arith) o p = true.
Proof.
  intros (O1 & O2 & O3) (A1 & A2 & A3). unfold containsBox, containsPos, inBox. rarith. split.
  - intros H. apply negb_true_iff in H. rewrite !orb_false_iff in H.
    destruct H as (((((X1 & X2) & Y1) & Y2) & Z1) & Z2).
    apply ltb_no in X1, Y1, Z1. apply leb_no in X2, Y2, Z2.
    exists (Vec (Rmax (vx (olow o)) (vx (olow a))) (Rmax (vy (olow o)) (vy (olow a))) (Rmax (vz (olow o)) (vz (olow a)))).
    cbn [vx vy vz].
    pose proof (max_ge (vx (olow o)) (vx (olow a))). pose proof (max_ge (vy (olow o)) (vy (olow a))).
    pose proof (max_ge (vz (olow o)) (vz (olow a))).
    assert (X3 := Rmax_lub_lt _ _ _ O1 X2). assert (Y3 := Rmax_lub_lt _ _ _ O2 Y2). assert (Z3 := Rmax_lub_lt _ _ _ O3 Z2).
    assert (X4 := Rmax_lub _ _ _ X1 A1). assert (Y4 := Rmax_lub _ _ _ Y1 A2). assert (Z4 := Rmax_lub _ _ _ Z1 A3).
    split; [lra|]. rewrite !Rlt_bool_false, !Rle_bool_false by lra. reflexivity.
  - intros (p & (X & Y & Z0) & H). apply negb_true_iff in H. rewrite !orb_false_iff in H.
    destruct H as (((((X1 & X2) & Y1) & Y2) & Z1) & Z2).
    apply ltb_no in X1, Y1, Z1. apply leb_no in X2, Y2, Z2.
    rewrite !Rlt_bool_false, !Rle_bool_false by lra. reflexivity.
Qed.

(** doubles *)
Definition npos (x : f64) : Prop :=
  match x with B754_zero _ => True | B754_infinity s => s = true | B754_nan => False | B754_finite s _ _ _ => s = true end.

Lemma npos_R (x : f64) : is_finite x = true -> (B2R x <= 0)%R -> npos x.
Proof.
  destruct x as [s|s| |s m e H]; cbn; try easy. intros _ Hx. destruct s; [reflexivity|].
  exfalso. assert (0 < F2R (Float radix2 (Z.pos m) e)) by (apply F2R_gt_0; reflexivity). cbn in *. lra.
Qed.
Lemma npos_le (x : f64) : is_finite x = true -> npos x -> (B2R x <= 0)%R.
Proof.
  destruct x as [s|s| |s m e H]; cbn; try easy; try lra. intros _ ->.
  assert (F2R (Float radix2 (Z.neg m) e) < 0) by (apply F2R_lt_0; reflexivity). cbn in *. lra.
Qed.

Lemma Bsign_pos (x : f64) : is_finite x = true -> Bsign x = false -> 0 <= B2R x.
Proof.
  destruct x as [s|s| |s m e H]; cbn; try easy; try lra. intros _ ->.
  assert (0 < F2R (Float radix2 (Z.pos m) e)) by (apply F2R_gt_0; reflexivity). cbn in *. lra.
Qed.
Lemma Bsign_neg (x : f64) : is_finite x = true -> Bsign x = true -> B2R x <= 0.
Proof.
  destruct x as [s|s| |s m e H]; cbn; try easy; try lra. intros _ ->.
  assert (F2R (Float radix2 (Z.neg m) e) < 0) by (apply F2R_lt_0; reflexivity). cbn in *. lra.
Qed.

Lemma rnd64_0 : rnd64 0 = 0.
Proof. apply round_0. typeclasses eauto. Qed.

Lemma fsub_npos (x y : f64) : is_finite x = true -> is_finite y = true -> B2R x <= B2R y -> npos (fsub x y).
Proof.
  intros Hx Hy Hle. unfold fsub. pose proof (Bminus_correct prec64 emax64 _ _ mode_NE x y Hx Hy) as H.
  change (round radix2 fexp64 (round_mode mode_NE) (B2R x - B2R y)) with (rnd64 (B2R x - B2R y)) in H.
  revert H. case Rlt_bool_spec; intros HB H.
  - destruct H as (A & B & _). apply npos_R; [exact B|]. rewrite A.
    rewrite <- rnd64_0. apply rnd64_mono. lra.
  - destruct H as (A & B). destruct (Bsign x) eqn:Sx.
    + destruct (Bminus mode_NE x y) as [s|s| |s m e HH]; cbn in A |- *; try discriminate; [injection A; auto].
    + exfalso. assert (Sy : Bsign y = true) by (destruct (Bsign y); [reflexivity|discriminate B]).
      pose proof (Bsign_pos x Hx Sx). pose proof (Bsign_neg y Hy Sy).
      replace (B2R x - B2R y) with 0 in HB by lra. rewrite rnd64_0, Rabs_R0 in HB.
      pose proof (bpow_gt_0 radix2 emax64). lra.
Qed.

Lemma fmul_npos (x y : f64) : npos x -> npos y -> flt (fmul x y) (f_ofZ 0) = false.
Proof.
  intros Nx Ny.
  assert (F0 : is_finite (f_ofZ 0) = true) by reflexivity. assert (R0 : B2R (f_ofZ 0) = 0) by reflexivity.
  destruct (is_finite x) eqn:Fx, (is_finite y) eqn:Fy.
  - pose proof (npos_le x Fx Nx). pose proof (npos_le y Fy Ny).
    pose proof (Bmult_correct prec64 emax64 _ _ mode_NE x y) as H1.
    change (round radix2 fexp64 (round_mode mode_NE) (B2R x * B2R y)) with (rnd64 (B2R x * B2R y)) in H1.
    revert H1. case Rlt_bool_spec; intros HB H1.
    + destruct H1 as (A & B & _). rewrite Fx, Fy in B. apply not_true_is_false. intros C.
      apply (flt_R (fmul x y) (f_ofZ 0)) in C; [|exact B|exact F0]. rewrite R0 in C. unfold fmul in C. rewrite A in C.
      assert (rnd64 0 <= rnd64 (B2R x * B2R y)) by (apply rnd64_mono; nra). rewrite rnd64_0 in *. lra.
    + destruct x as [s|s| |s m e Hm], y as [s'|s'| |s' m' e' Hm']; cbn in Nx, Ny, Fx, Fy; try discriminate; try reflexivity; subst.
      unfold fmul. destruct (Bmult mode_NE _ _) as [t|t| |t n k Hn]; cbn in H1; try discriminate. injection H1 as ->. reflexivity.
  - destruct x as [s|s| |s m e Hm], y as [s'|s'| |s' m' e' Hm']; cbn in Nx, Ny, Fx, Fy; try discriminate; try easy; subst; reflexivity.
  - destruct x as [s|s| |s m e Hm], y as [s'|s'| |s' m' e' Hm']; cbn in Nx, Ny, Fx, Fy; try discriminate; try easy; subst; reflexivity.
  - destruct x as [s|s| |s m e Hm], y as [s'|s'| |s' m' e' Hm']; cbn in Nx, Ny, Fx, Fy; try discriminate; try easy; subst; reflexivity.
Qed.

Lemma flt_no (x y : f64) : is_finite x = true -> is_finite y = true -> flt x y = false -> B2R y <= B2R x.
Proof.
  intros Hx Hy H. destruct (Rle_dec (B2R y) (B2R x)) as [D|D]; [exact D|].
  assert (C : flt x y = true) by (apply flt_R; [assumption|assumption|lra]). congruence.
Qed.

Lemma axis_zero (bl bh al ah : f64) : is_finite bl = true -> is_finite bh = true -> is_finite al = true -> is_finite ah = true ->
  flt ah bl = false -> flt bh al = false -> axisGap (N := F_arith) bl bh al ah = f_ofZ 0.
Proof.
  intros F1 F2 F3 F4 H1 H2. unfold axisGap. cbn [num a_sub a_mul a_lt a_Z F_arith].
  rewrite fmul_npos; [reflexivity| |]; apply fsub_npos; try assumption; apply flt_no; assumption.
Qed.

Lemma overlap_zero (o a : ort f64) : finiteVec (olow o) -> finiteVec (ohigh o) -> finiteVec (olow a) -> finiteVec (ohigh a) ->
  overlapsBox (N := F_arith) o a = true -> boxDistSQ (N := F_arith) o a = f_zero.
Proof.
  intros (A1 & A2 & A3) (B1 & B2 & B3) (C1 & C2 & C3) (D1 & D2 & D3) H.
  unfold overlapsBox in H. cbn [num a_lt F_arith] in H.
  apply negb_true_iff in H. rewrite !orb_false_iff in H.
  destruct H as (((((X1 & X2) & Y1) & Y2) & Z1) & Z2).
  unfold boxDistSQ. rewrite !axis_zero by assumption. vm_compute. reflexivity.
Qed.

(** centres further apart than a period *)
Lemma gapBoxPeri_far (L l0 h0 l1 h1 : R) : l0 <= h0 -> l1 <= h1 -> L < Rabs ((l0 + h0) / 2 - (l1 + h1) / 2) ->
  0 <= L -> gapBoxPeri (N := R_arith) L l0 h0 l1 h1 = 0.
Proof. 
  intros H0 H1 HL LP. rewrite gapBoxPeri_R. pose proof (Rabs_pos ((l0 + h0) / 2 - (l1 + h1) / 2)). unfold fold, clear. rarith.
  rewrite (Rlt_bool_false (Rabs _)) by lra. rcase; lra.
 Qed.

Lemma gapBoxPeri_low (L l0 h0 l1 h1 x y : R) n : 0 <= L -> l0 <= x <= h0 -> l1 <= y <= h1 ->
  0 <= gapBoxPeri (N := R_arith) L l0 h0 l1 h1 <= Rabs (x - (y + IZR n * L)).
Proof.
  intros LP Hx Hy. destruct (Rle_dec (Rabs ((l0 + h0) / 2 - (l1 + h1) / 2)) L) as [D|D].
  - destruct (peri_least L l0 h0 l1 h1) as (A & _ & B); [lra|lra|exact D|]. split; [exact A|].
    apply B; [exact Hx|exact Hy|exists n; reflexivity].
  - rewrite gapBoxPeri_far by lra. split; [lra|apply Rabs_pos].
Qed.

Lemma peri_box_low len a b p q s : 0 <= vx len -> 0 <= vy len -> 0 <= vz len -> inBox a p -> inBox b q -> images len s ->
  0 <= getDistanceBoxPeri (N := R_arith) a b len <= dist2 p q s.
Proof.
  intros L1 L2 L3 (A1 & A2 & A3) (B1 & B2 & B3) (i & j & k & ->). unfold getDistanceBoxPeri, dist2. cbn [vx vy vz]. rarith.
  destruct (gapBoxPeri_low _ _ _ _ _ _ _ i L1 A1 B1) as (X1 & X2).
  destruct (gapBoxPeri_low _ _ _ _ _ _ _ j L2 A2 B2) as (Y1 & Y2).
  destruct (gapBoxPeri_low _ _ _ _ _ _ _ k L3 A3 B3) as (Z1 & Z2).
  pose proof (sq_le _ _ X1 X2). pose proof (sq_le _ _ Y1 Y2). pose proof (sq_le _ _ Z1 Z2).
  pose proof (Rmult_le_pos _ _ X1 X1). pose proof (Rmult_le_pos _ _ Y1 Y1). pose proof (Rmult_le_pos _ _ Z1 Z1). lra.
Qed.

Definition pt (x y z : R) : ort R := pointBox (Vec x y z).
Lemma far_wrong : exists len o p, proper o /\ 0 < vx len /\ 0 < vy len /\ 0 < vz len /\
  ~ leastDist (images len) (inBox o) (fun q => q = p) (getDistancePosPeri (N := R_arith) o p len).
Proof.
  exists (Vec 2 2 2), (pt 5 0 0), (Vec 0 0 0). split; [apply point_proper|]. cbn [vx vy vz].
  split; [lra|]. split; [lra|]. split; [lra|]. intros ((p & q & s & Hp & -> & (i & j & k & ->) & H) & _).
  revert H. rewrite getDistancePosPeri_box. unfold getDistanceBoxPeri, pt in *. cbn [pointBox olow ohigh vx vy vz] in *.
  apply in_point in Hp. subst p. unfold dist2. cbn [vx vy vz]. rarith.
  rewrite gapBoxPeri_far; [|lra|lra|rewrite Rabs_pos_eq; lra|lra].
  assert (E : gapBoxPeri (N := R_arith) 2 0 0 0 0 = 0).
  { rewrite gapBoxPeri_R. unfold fold, clear. rarith. replace ((0 + 0) / 2 - (0 + 0) / 2) with 0 by lra.
    rewrite Rabs_R0. repeat rcase; lra. }
  rewrite E. intros H. assert (K : IZR (5 - i * 2) = 0).
  { rewrite minus_IZR, mult_IZR. nra. }
  apply eq_IZR in K. lia.
Qed.

Lemma contains_wrong : exists o a, solid o /\ proper a /\ containsBox (N := R_arith) o a = true /\ ~ inside a o.
Proof.
  exists (Ort (Vec 0 0 0) (Vec 2 2 2)), (Ort (Vec 1 1 1) (Vec 3 3 3)).
  split; [unfold solid; cbn; lra|]. split; [unfold proper; cbn; lra|]. split.
  - unfold containsBox. rarith. cbn [olow ohigh vx vy vz]. rewrite !Rlt_bool_false, !Rle_bool_false by lra. reflexivity.
  - intros H. specialize (H (Vec 3 3 3)). unfold inBox in H. cbn in H. lra.
Qed.

(** the order of the two boxes *)
Lemma fmul_comm (x y : f64) : fmul x y = fmul y x.
Proof.
  unfold fmul. destruct x as [s|s| |s m e H], y as [s'|s'| |s' m' e' H']; try reflexivity; cbn; try (rewrite xorb_comm; reflexivity).
  apply B2SF_inj. rewrite !B2SF_SF2B. rewrite xorb_comm, Pos.mul_comm, Z.add_comm. reflexivity.
Qed.

Lemma fmul_sign (x y : f64) : flt (fmul x y) (f_ofZ 0) = true -> Bsign x <> Bsign y.
Proof.
  intros H. assert (HS : Bsign (fmul x y) = true /\ is_nan (fmul x y) = false).
  { destruct (fmul x y) as [[|]|[|]| |[|] m e HH]; try discriminate H; split; reflexivity. }
  destruct HS as (S & NN). unfold fmul in *. pose proof (Bmult_correct prec64 emax64 _ _ mode_NE x y) as C. revert C.
  destruct (Rlt_bool _ _).
  - intros (_ & _ & C). rewrite (C NN) in S. intros E. rewrite E, xorb_nilpotent in S. discriminate.
  - intros C. destruct (Bmult mode_NE x y) as [t|t| |t n k Hn]; cbn in C; try discriminate.
    injection C as ->. cbn in S. intros E. rewrite E, xorb_nilpotent in S. discriminate.
Qed.

Lemma other_sign (x y : f64) : is_nan x = false -> is_nan y = false -> flt (fmul x y) (f_ofZ 0) = true ->
  (if flt y x then x else y) = (if flt x y then y else x).
Proof.
  intros Nx Ny H. pose proof (fmul_sign x y H) as S.
  destruct x as [[|]|[|]| |[|] m e Hm], y as [[|]|[|]| |[|] m' e' Hm']; cbn in S; try congruence; try discriminate; reflexivity.
Qed.

Lemma fsub_not_nan (x y : f64) : is_finite x = true -> is_finite y = true -> is_nan (fsub x y) = false.
Proof.
  intros Hx Hy. unfold fsub. pose proof (Bminus_correct prec64 emax64 _ _ mode_NE x y Hx Hy) as H. revert H.
  destruct (Rlt_bool _ _).
  - intros (_ & B & _). destruct (Bminus mode_NE x y); try discriminate; reflexivity.
  - intros (A & _). destruct (Bminus mode_NE x y); cbn in A; try discriminate; reflexivity.
Qed.

Lemma axisGap_sym (bl bh al ah : f64) : is_finite bl = true -> is_finite bh = true -> is_finite al = true -> is_finite ah = true ->
  axisGap (N := F_arith) bl bh al ah = axisGap (N := F_arith) al ah bl bh.
Proof.
  intros F1 F2 F3 F4. unfold axisGap. cbn [num a_sub a_mul a_lt a_Z F_arith].
  pose proof (fsub_not_nan bl ah F1 F4) as N0. pose proof (fsub_not_nan al bh F3 F2) as N1.
  revert N0 N1. generalize (fsub bl ah) (fsub al bh). intros x y N0 N1. rewrite (fmul_comm y x).
  destruct (flt (fmul x y) (f_ofZ 0)) eqn:E; [|reflexivity]. apply other_sign; assumption.
Qed.

Lemma boxDist_sym (o a : ort f64) : finiteBox o -> finiteBox a -> boxDistSQ (N := F_arith) o a = boxDistSQ (N := F_arith) a o.
Proof.
  intros ((A1 & A2 & A3) & (B1 & B2 & B3)) ((C1 & C2 & C3) & (D1 & D2 & D3)). unfold boxDistSQ.
  rewrite (axisGap_sym (vx (olow o))), (axisGap_sym (vy (olow o))), (axisGap_sym (vz (olow o))) by assumption. reflexivity.
Qed.
