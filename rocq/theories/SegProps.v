(** C32 and C33: segment-segment and point-segment distance. *)
From Coq Require Import List Arith ZArith Bool Reals Lra.
From Verif Require Import Outcome F64 Arith ParticleModel VecModel VecSpec SylModel SylFloat SegModel SegSpec SegProofs.
Import ListNotations.
Local Open Scope R_scope.

(** ** C33 *)
Theorem C33_minimum : forall p a b d c, distPointSeg (N := R_arith) p a b = (d, c) ->
  on_segment a b c /\ d = dist3 p c /\ forall x, on_segment a b x -> d <= dist3 p x.
Proof. exact distPointSeg_ok. Qed.
Print Assumptions C33_minimum.

Example C33_example : (* interior foot, beyond an end, degenerate segment *)
  (let (d, c) := distPointSeg (N := F_arith) (v3 1 3 4) (v3 0 0 0) (v3 8 0 0) in feq d (f_ofZ 5) && veqb c (v3 1 0 0)) &&
  (let (d, c) := distPointSeg (N := F_arith) (v3 11 0 4) (v3 0 0 0) (v3 8 0 0) in feq d (f_ofZ 5) && veqb c (v3 8 0 0)) &&
  (let (d, c) := distPointSeg (N := F_arith) (v3 3 0 4) (v3 0 0 0) (v3 0 0 0) in feq d (f_ofZ 5) && veqb c (v3 0 0 0)) = true.
Proof. vm_compute. reflexivity. Qed.

(** ** C32 *)
Theorem C32_points : forall P0 P1 Q0 Q1 : vec R, let r := dcpQuery (N := R_arith) P0 P1 Q0 Q1 in
  on_segment P0 P1 (r_P r) /\ on_segment Q0 Q1 (r_Q r) /\
  r_P r = lerp P0 P1 (r_s r) /\ r_Q r = lerp Q0 Q1 (r_t r) /\ unit_interval (r_s r) /\ unit_interval (r_t r) /\ r_dist r = dist3 (r_P r) (r_Q r).
Proof. exact query_ok. Qed.
Print Assumptions C32_points.

Theorem C32_near_minimum : forall (P0 P1 Q0 Q1 : vec R) k, 0 < k <= 1 ->
  point_or_long (/ 2 ^ 51) P0 P1 -> point_or_long (/ 2 ^ 51) Q0 Q1 -> no_tight_corner k P0 P1 Q0 Q1 ->
  forall p q, on_segment P0 P1 p -> on_segment Q0 Q1 q ->
  r_dist (dcpQuery (N := R_arith) P0 P1 Q0 Q1) ^ 2 <= dist3 p q ^ 2 + / 2 ^ 51 * Rmax 1 (dist3 Q0 Q1 ^ 2) / k.
Proof. exact query_near. Qed.
Print Assumptions C32_near_minimum.

Example C32_oblique : (* the hypotheses hold for oblique segments: error at most 2 / 2^51 *)
  let P0 := Vec 0 0 0 in let P1 := Vec 2 0 0 in let Q0 := Vec 0 0 3 in let Q1 := Vec 1 1 3 in
  point_or_long (/ 2 ^ 51) P0 P1 /\ point_or_long (/ 2 ^ 51) Q0 Q1 /\ no_tight_corner 1 P0 P1 Q0 Q1.
Proof.
  unfold point_or_long, no_tight_corner, slope_P, dot3, sub3, lerp, add3, scale3. cbn [vx vy vz].
  assert (H : / 2 ^ 51 <= 1). { apply Rmult_le_reg_l with (2 ^ 51); [lra|]. rewrite Rinv_r; lra. }
  split; [right; lra|]. split; [right; lra|]. replace ((2 - 0) * (1 - 0) + (0 - 0) * (1 - 0) + (0 - 0) * (3 - 3)) with 2 by lra.
  rewrite (Rabs_right 2) by lra. split; [lra|].
  intros s t [->| ->] [->| ->]; [left; lra|right|right|right]; unfold Rabs; destruct (Rcase_abs _); lra.
Qed.

(** the quotients by mB are only used when the two edges are classified differently *)
Theorem C32_no_zero_division : forall (q : dcp R_arith), 0 < mA q ->
  let s0 := getClampedRoot (N := R_arith) (mA q) (mF00 q) (mF10 q) in
  let s1 := getClampedRoot (N := R_arith) (mA q) (mF01 q) (mF11 q) in
  classify (N := R_arith) s0 <> classify (N := R_arith) s1 -> mB q <> 0.
Proof. exact no_zero_division. Qed.
Print Assumptions C32_no_zero_division.

(** a pair of ordinary segments whose reported distance exceeds the distance of the first end of P from the middle of Q
    by more than 1/8: P from (0,0,0) to (1,1,0), Q from (-1/2, c, 0) to (1/2, c, 0) with c = -1/2 + 2^-53 *)
Theorem C32_corner_refuted : exists P0 P1 Q0 Q1 : vec F_arith,
  let mid := vscale (f_lit 1 (-1)) (vadd Q0 Q1) in
  flt (fadd (fst (distPointSeg P0 mid mid)) (f_lit 1 (-3))) (r_dist (dcpQuery P0 P1 Q0 Q1)) = true.
Proof.
  pose (c := f_lit (-4503599627370495) (-53)).
  exists (v3 0 0 0), (v3 1 1 0), (Vec (f_lit (-1) (-1)) c (f_ofZ 0)), (Vec (f_lit 1 (-1)) c (f_ofZ 0)). vm_compute. reflexivity.
Qed.
Print Assumptions C32_corner_refuted.

(** crossing segments at a tiny angle are reported as apart *)
Theorem C32_crossing_refuted : exists (P0 P1 Q0 Q1 : vec F_arith) (s t : f64),
  let at_ a b z := vadd (vscale (fsub (f_ofZ 1) z) a) (vscale z b) in
  veqb (at_ P0 P1 s) (at_ Q0 Q1 t) = true /\ flt (f_ofZ 0) (r_dist (dcpQuery P0 P1 Q0 Q1)) = true.
Proof.
  exists (v3 0 0 0), (v3 1 0 0), (Vec (f_ofZ 0) (f_lit (-1) (-28)) (f_ofZ 0)), (Vec (f_ofZ 1) (f_lit 3 (-28)) (f_ofZ 0)), (f_lit 1 (-2)), (f_lit 1 (-2)).
  split; vm_compute; reflexivity.
Qed.
Print Assumptions C32_crossing_refuted.

(** in a build with assertions the query of two ordinary segments fails the assertion of GetClampedRoot *)
Theorem C32_assert_refuted : exists P0 P1 Q0 Q1 : vec F_arith, let q := dcpSetup P0 P1 Q0 Q1 in
  flt (f_ofZ 0) (mA q) && flt (f_ofZ 0) (mC q) &&
  (flt (f_lit 1 (-52)) (fabs (mF00 q)) && negb (clampedRootAssert (mA q) (mF00 q) (mF10 q)) ||
   flt (f_lit 1 (-52)) (fabs (mF01 q)) && negb (clampedRootAssert (mA q) (mF01 q) (mF11 q))) = true.
Proof.
  pose (d := fun a b => fdiv (f_ofZ a) (f_ofZ b)).
  exists (Vec (d (-275) 100)%Z (d (-34) 10)%Z (f_ofZ 0)), (Vec (d (-2625) 1000)%Z (d (-38) 10)%Z (f_ofZ 0)),
    (Vec (d 35 10)%Z (d 53 10)%Z (f_ofZ 0)), (Vec (d 21 10)%Z (d (-21) 10)%Z (f_ofZ 0)). vm_compute. reflexivity.
Qed.
Print Assumptions C32_assert_refuted.

Example C32_example : (* skew, parallel overlapping, end to end, two points *)
  (let r := dcpQuery (v3 (-1) 0 0) (v3 1 0 0) (v3 0 (-1) 3) (v3 0 1 3) in
     feq (r_dist r) (f_ofZ 3) && veqb (r_P r) (v3 0 0 0) && veqb (r_Q r) (v3 0 0 3)) &&
  (let r := dcpQuery (v3 0 0 0) (v3 4 0 0) (v3 2 5 0) (v3 6 5 0) in feq (r_dist r) (f_ofZ 5) && feq (vx (r_P r)) (vx (r_Q r))) &&
  (let r := dcpQuery (v3 0 0 0) (v3 1 0 0) (v3 4 4 0) (v3 5 9 0) in
     feq (r_dist r) (f_ofZ 5) && veqb (r_P r) (v3 1 0 0) && veqb (r_Q r) (v3 4 4 0)) &&
  (let r := dcpQuery (v3 0 0 0) (v3 0 0 0) (v3 3 4 0) (v3 3 4 0) in feq (r_dist r) (f_ofZ 5)) = true.
Proof. vm_compute. reflexivity. Qed.
