(** C94: the distance of two boxes is the least distance of their points. *)
From Coq Require Import ZArith Reals Lra List Bool.
From Flocq Require Import Core BinarySingleNaN.
From Verif Require Import F64 Arith ParticleModel VecModel TreeModel LetModel OrthoModel OrthoSpec OrthoProofs.
Import ListNotations.
Local Open Scope R_scope.

Theorem C94_member_distance : forall a b : ort R, proper a -> proper b ->
  leastDist here (inBox a) (inBox b) (boxDistSQ (N := R_arith) a b).
Proof. exact boxDist_least. Qed.
Print Assumptions C94_member_distance.

Theorem C94_distance : forall a b : ort R, proper a -> proper b ->
  leastDist here (inBox a) (inBox b) (getDistanceBox (N := R_arith) a b).
Proof. exact getDistanceBox_least. Qed.
Print Assumptions C94_distance.

Theorem C94_point_distance : forall (o : ort R) p, proper o ->
  leastDist here (inBox o) (fun q => q = p) (getDistancePos (N := R_arith) o p).
Proof. exact pos_least. Qed.
Print Assumptions C94_point_distance.

(** in a periodic space the nearest image counts, as long as the centres are not further apart than a period *)
Theorem C94_periodic_distance : forall len (a b : ort R), proper a -> proper b -> centresNear len a b ->
  leastDist (images len) (inBox a) (inBox b) (getDistanceBoxPeri (N := R_arith) a b len).
Proof. exact peri_box_least. Qed.
Print Assumptions C94_periodic_distance.

Theorem C94_periodic_point : forall len (o : ort R) p, proper o -> centresNear len o (pointBox p) ->
  leastDist (images len) (inBox o) (fun q => q = p) (getDistancePosPeri (N := R_arith) o p len).
Proof. exact pos_peri_least. Qed.
Print Assumptions C94_periodic_point.

(** wherever the boxes are, the result is never more than the distance of two images *)
Theorem C94_periodic_never_more : forall len (a b : ort R) p q s, 0 <= vx len -> 0 <= vy len -> 0 <= vz len ->
  inBox a p -> inBox b q -> images len s -> 0 <= getDistanceBoxPeri (N := R_arith) a b len <= dist2 p q s.
Proof. exact peri_box_low. Qed.
Print Assumptions C94_periodic_never_more.

(** but it is less than the least distance when the centres are further apart *)
Theorem C94_periodic_far_refuted : exists len (o : ort R) p, proper o /\ 0 < vx len /\ 0 < vy len /\ 0 < vz len /\
  ~ leastDist (images len) (inBox o) (fun q => q = p) (getDistancePosPeri (N := R_arith) o p len).
Proof. exact far_wrong. Qed.
Print Assumptions C94_periodic_far_refuted.

(** contained of a box: the boxes have a point in common, the upper faces of the first do not count *)
Theorem C94_contained_meets : forall o a : ort R, solid o -> proper a ->
  containsBox (N := R_arith) o a = true <-> exists p, inBox a p /\ containsPos (N := R_arith) o p = true.
Proof. exact contains_meets. Qed.
Print Assumptions C94_contained_meets.

Theorem C94_contained_refuted : exists o a : ort R,
  solid o /\ proper a /\ containsBox (N := R_arith) o a = true /\ ~ inside a o.
Proof. exact contains_wrong. Qed.
Print Assumptions C94_contained_refuted.

(** doubles: boxes that overlap have distance zero, whatever is rounded or overflows *)
Theorem C94_double_zero : forall o a : ort f64, finiteBox o -> finiteBox a ->
  overlapsBox (N := F_arith) o a = true -> boxDistSQ (N := F_arith) o a = f_zero.
Proof. exact (fun o a Fo Fa => overlap_zero o a (proj1 Fo) (proj2 Fo) (proj1 Fa) (proj2 Fa)). Qed.
Print Assumptions C94_double_zero.

(** doubles: which box comes first does not matter *)
Theorem C94_double_symmetric : forall o a : ort f64, finiteBox o -> finiteBox a ->
  boxDistSQ (N := F_arith) o a = boxDistSQ (N := F_arith) a o.
Proof. exact boxDist_sym. Qed.
Print Assumptions C94_double_symmetric.

(** zero is not certain when the distance is computed from the centres *)
Definition cube (l h : f64) : ort f64 := Ort (Vec l l l) (Vec h h h).
Theorem C94_double_centres_refuted : exists o a : ort f64, finiteBox o /\ finiteBox a /\
  overlapsBox (N := F_arith) o a = true /\ flt f_zero (getDistanceBox (N := F_arith) o a) = true.
Proof.
  exists (cube (f_lit (-1) (-52)) (f_lit (2 ^ 52 + 3) (-52))), (cube (f_lit (2 ^ 52 + 3) (-52)) (f_lit (2 ^ 51 + 1) (-50))).
  split; [exact (conj (conj eq_refl (conj eq_refl eq_refl)) (conj eq_refl (conj eq_refl eq_refl)))|].
  split; [exact (conj (conj eq_refl (conj eq_refl eq_refl)) (conj eq_refl (conj eq_refl eq_refl)))|]. split; vm_compute; reflexivity.
Qed.
Print Assumptions C94_double_centres_refuted.

(** nor is distance zero of doubles a sign of boxes that overlap *)
Theorem C94_double_separate_refuted : exists o a : ort f64, finiteBox o /\ finiteBox a /\
  overlapsBox (N := F_arith) o a = false /\ boxDistSQ (N := F_arith) o a = f_zero.
Proof.
  exists (cube f_zero f_zero), (cube (f_lit 1 (-600)) (f_lit 1 0)).
  split; [exact (conj (conj eq_refl (conj eq_refl eq_refl)) (conj eq_refl (conj eq_refl eq_refl)))|].
  split; [exact (conj (conj eq_refl (conj eq_refl eq_refl)) (conj eq_refl (conj eq_refl eq_refl)))|]. split; vm_compute; reflexivity.
Qed.
Print Assumptions C94_double_separate_refuted.

(** examples *)
Definition dcube (l h : Z) : ort f64 := cube (f_ofZ l) (f_ofZ h).
Example C94_example_gap : feq (boxDistSQ (N := F_arith) (dcube 0 2) (dcube 5 9)) (f_ofZ 27) = true.
Proof. vm_compute. reflexivity. Qed.
Example C94_example_gap_back : feq (boxDistSQ (N := F_arith) (dcube 5 9) (dcube 0 2)) (f_ofZ 27) = true.
Proof. vm_compute. reflexivity. Qed.
Example C94_example_centres : feq (getDistanceBox (N := F_arith) (dcube 0 2) (dcube 5 9)) (f_ofZ 27) = true.
Proof. vm_compute. reflexivity. Qed.
Example C94_example_periodic :
  feq (getDistanceBoxPeri (N := F_arith) (dcube 0 2) (dcube 6 8) (Vec (f_ofZ 10) (f_ofZ 9) (f_ofZ 100))) (f_ofZ (4 + 1 + 16)) = true.
Proof. vm_compute. reflexivity. Qed.
Example C94_example_point : feq (getDistancePos (N := F_arith) (dcube 0 2) (Vec (f_ofZ (-3)) (f_ofZ 1) (f_ofZ 4))) (f_ofZ 13) = true.
Proof. vm_compute. reflexivity. Qed.
Example C94_example_point_periodic :
  feq (getDistancePosPeri (N := F_arith) (dcube 0 2) (Vec (f_ofZ 8) (f_ofZ 1) (f_ofZ 4)) (Vec (f_ofZ 10) (f_ofZ 9) (f_ofZ 100))) (f_ofZ 8) = true.
Proof. vm_compute. reflexivity. Qed.
Example C94_example_contained : map (containsBox (N := F_arith) (dcube 0 2)) [dcube 1 3; dcube (-1) 0; dcube 2 3; dcube 3 4] = [true; true; false; false].
Proof. vm_compute. reflexivity. Qed.
(** the precondition of the theorem for doubles holds where the differences overflow *)
Example C94_example_huge : boxDistSQ (N := F_arith) (cube (f_lit (-1) 1023) (f_lit 1 1023)) (cube (f_lit (-1) 1023) (f_lit 1 1023)) = f_zero.
Proof. vm_compute. reflexivity. Qed.
(** boxes that are inside out: differences of zero and five count as touching *)
Example C94_example_inside_out : feq (boxDistSQ (N := F_arith) (dcube 5 0) (dcube 5 5)) (f_ofZ 0) = true.
Proof. vm_compute. reflexivity. Qed.
