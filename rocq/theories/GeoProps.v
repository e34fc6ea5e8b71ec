(** Properties C16 (periodic wrap) and C17 (nearest periodic image). *)
From Coq Require Import List ZArith Bool Reals.
From Flocq Require Import Core BinarySingleNaN.
From Verif Require Import Outcome F64 Arith ParticleModel GeoModel GeoSpec GeoProofs GeoFloat.
Import ListNotations.
Local Open Scope R_scope.

(** ** C16, exact arithmetic *)
Theorem C16_wrap : forall lb ub x, lb < ub ->
  exists n, forall fuel, (n <= fuel)%nat ->
  exists y : R, findPBCImage (N := R_arith) fuel lb ub x = Done y /\ lb <= y < ub /\ image (ub - lb) x y /\
    (lb <= x < ub -> y = x).
Proof. exact findPBCImage_R. Qed.
Print Assumptions C16_wrap.

Theorem C16_adjust : forall (root : ort R) ps,
  (forall c, In c [@vx R; @vy R; @vz R] -> c (olow root) < c (ohigh root)) ->
  exists n, forall fuel, (n <= fuel)%nat ->
  exists qs, adjustPositions (N := R_arith) fuel root ps = Done qs /\
    Forall2 (fun p q => forall c, In c [@vx R; @vy R; @vz R] -> c (olow root) <= c q < c (ohigh root) /\
      image (c (ohigh root) - c (olow root)) (c p) (c q) /\
      (c (olow root) <= c p < c (ohigh root) -> c q = c p)) ps qs.
Proof. exact adjustPositions_R. Qed.
Print Assumptions C16_adjust.

(** ** C16, doubles *)

(** Box edges and coordinate multiples of a common power of two: exact. *)
Theorem C16_wrap_doubles : forall e, (-1074 <= e <= 970)%Z ->
  forall a b z lb ub x fuel, on_grid e a lb -> on_grid e b ub -> on_grid e z x -> (a < b)%Z ->
  (Z.abs a <= 2 ^ 51)%Z -> (Z.abs b <= 2 ^ 51)%Z -> (Z.abs z <= 2 ^ 51)%Z ->
  (Z.abs (z - a) + (b - a) < Z.of_nat fuel * (b - a))%Z ->
  exists y, findPBCImage (N := F_arith) fuel lb ub x = Done y /\ on_grid e (a + (z - a) mod (b - a)) y /\
    ((a <= z < b)%Z -> y = x).
Proof. exact findPBCImage_grid. Qed.
Print Assumptions C16_wrap_doubles.

Theorem C16_adjust_doubles : forall e, (-1074 <= e <= 970)%Z ->
  forall a b z lb ub x fuel, on_grid e a lb -> on_grid e b ub -> on_grid e z x -> (a < b)%Z ->
  (Z.abs a <= 2 ^ 51)%Z -> (Z.abs b <= 2 ^ 51)%Z -> (Z.abs z <= 2 ^ 51)%Z ->
  (Z.abs (z - a) + 2 * (b - a) < Z.of_nat fuel * (b - a))%Z ->
  exists y, adjustCoordinate (N := F_arith) fuel lb ub x = Done y /\ on_grid e (a + (z - a) mod (b - a)) y /\
    ((a <= z < b)%Z -> y = x).
Proof. exact adjust_grid. Qed.
Print Assumptions C16_adjust_doubles.

(** In general doubles findPBCImage can return the upper edge: -1e-20 in [0,1). *)
Theorem C16_doubles_upper_edge_refuted : exists lb ub x : f64,
  flt lb ub = true /\ f_finite x = true /\
  match findPBCImage (N := F_arith) 5 lb ub x with Done y => feq y ub | _ => false end = true.
Proof. exists (f_ofZ 0), (f_ofZ 1), (f_lit (-1) (-66)). repeat split; vm_compute; reflexivity. Qed.
Print Assumptions C16_doubles_upper_edge_refuted.

(** A position on the upper face of the box [0.4, 3.1) is moved below the lower face. *)
Theorem C16_doubles_below_refuted : exists low high : f64,
  flt low high = true /\
  match adjustCoordinate (N := F_arith) 5 low high high with Done y => flt y low | _ => false end = true.
Proof.
  exists (f_lit 0x1999999999999a (-54)), (f_lit 0x18cccccccccccd (-51)). split; vm_compute; reflexivity.
Qed.
Print Assumptions C16_doubles_below_refuted.

(** A coordinate too large for the box length to register is never wrapped. *)
Theorem C16_doubles_nontermination_refuted : exists lb ub x : f64,
  flt lb ub = true /\ f_finite x = true /\
  forall fuel, findPBCImage (N := F_arith) fuel lb ub x = NoFuel.
Proof.
  exists (f_ofZ 0), (f_ofZ 1), (f_lit 1 60). split; [vm_compute; reflexivity|]. split; [vm_compute; reflexivity|].
  intros fuel. unfold findPBCImage. rewrite stuck; [reflexivity|vm_compute; reflexivity|apply B2SF_inj; vm_compute; reflexivity].
Qed.
Print Assumptions C16_doubles_nontermination_refuted.

Theorem C16_doubles_inside : forall fuel (lb ub x : f64), fle ub x = false -> flt x lb = false ->
  findPBCImage (N := F_arith) fuel lb ub x = Done x.
Proof. exact inside_untouched. Qed.
Print Assumptions C16_doubles_inside.

(** 7.25 in the box [-1, 2) is moved to 1.25; -4.5 to 1.5 *)
Example C16_example :
  match findPBCImage (N := F_arith) 5 (f_ofZ (-1)) (f_ofZ 2) (f_lit 29 (-2)),
        adjustCoordinate (N := F_arith) 5 (f_ofZ (-1)) (f_ofZ 2) (f_lit (-9) (-1)) with
  | Done y, Done y' => feq y (f_lit 5 (-2)) && feq y' (f_lit 3 (-1))
  | _, _ => false
  end = true.
Proof. vm_compute. reflexivity. Qed.

(** ** C17 *)
Theorem C17_nearest_image : forall lb ub x trg, lb < ub ->
  exists n, forall fuel, (n <= fuel)%nat ->
  exists y t : R, findPBCImageTrg (N := R_arith) fuel lb ub x trg = Done (y, t) /\
    lb <= t < ub /\ image (ub - lb) trg t /\ (lb <= trg < ub -> t = trg) /\
    nearest_image (ub - lb) x t y /\ Rabs (y - t) <= (ub - lb) / 2.
Proof. exact findPBCImageTrg_R. Qed.
Print Assumptions C17_nearest_image.

(** In doubles the image can be farther than half the box, with both points inside the
    unit box; the caller (Sylinder/SylinderSystem.cpp:1440-1443) then ends the run. *)
Theorem C17_doubles_half_refuted : exists x trg : f64,
  fle f_zero x = true /\ flt x (f_ofZ 1) = true /\ fle f_zero trg = true /\ flt trg (f_ofZ 1) = true /\
  match findPBCImageTrg (N := F_arith) 5 f_zero (f_ofZ 1) x trg with
  | Done (y, t) => flt (fmul (f_lit 1 (-1)) (fsub (f_ofZ 1) f_zero)) (fabs (fsub t y))
  | _ => false
  end = true.
Proof.
  exists (f_lit 0x1beca1d9183678 (-56)), (f_lit 0x137d943b2306cf (-53)). repeat split; vm_compute; reflexivity.
Qed.
Print Assumptions C17_doubles_half_refuted.

(** in the box [0, 8): the image of 7 nearest to 1 is -1 *)
Example C17_example :
  match findPBCImageTrg (N := F_arith) 5 (f_ofZ 0) (f_ofZ 8) (f_ofZ 7) (f_ofZ 9) with
  | Done (y, t) => feq y (f_ofZ (-1)) && feq t (f_ofZ 1)
  | _ => false
  end = true.
Proof. vm_compute. reflexivity. Qed.
