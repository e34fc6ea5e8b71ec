(** Properties C29 (orientations), C30 (mobility), C31 (drag), C56 (quaternion matrices). *)
From Coq Require Import List ZArith Bool Reals Permutation.
From Verif Require Import Outcome F64 Arith ParticleModel ConModel VecModel VecSpec VecProofs SylModel SylSpec SylProofs MobProofs QPSpec SylFloat.
Import ListNotations.
Local Open Scope R_scope.

(** ** C29 *)
Theorem C29_rotate : forall (q : quat R_arith) (om : vec R) dt, unitq q ->
  let q' := rotateEquatn (N := R_arith) sin cos q om dt in
  unitq q' /\
  (/ 2 ^ 23 <= norm3 om -> forall v, qrot (N := R_arith) q' v = rotate (scale3 (/ norm3 om) om) (norm3 om * dt) (qrot (N := R_arith) q v)) /\
  (norm3 om < / 2 ^ 23 -> q' = q).
Proof. exact rotateEquatn_ok. Qed.
Print Assumptions C29_rotate.

Theorem C29_histories : forall h (q : quat R_arith), unitq q -> unitq (rotations q h).
Proof. exact rotations_unit. Qed.
Print Assumptions C29_histories.

Theorem C29_length : forall (q : quat R_arith) v, unitq q -> norm3 (qrot (N := R_arith) q v) = norm3 v.
Proof. exact qrot_norm. Qed.
Print Assumptions C29_length.

Theorem C29_axis : forall s : sylinder R_arith, unitq (orient s) -> unit3 (axis (N := R_arith) s).
Proof. exact axis_unit. Qed.
Print Assumptions C29_axis.

Theorem C29_random : forall u1 u2 u3 : R, 0 <= u1 <= 1 -> unitq (setUnitRandomEquatn (N := R_arith) sin cos PI u1 u2 u3).
Proof. exact random_unit. Qed.
Print Assumptions C29_random.

Theorem C29_step : forall (s : sylinder R_arith) (dt : R),
  let s' := stepEuler (N := R_arith) sin cos dt s in
  spos s' = add3 (spos s) (scale3 dt (vel (mot s))) /\
  orient s' = rotateEquatn (N := R_arith) sin cos (orient s) (omega (mot s)) dt /\
  (unitq (orient s) -> unitq (orient s')) /\ s' = withPose s (spos s') (orient s') /\ withPose s' (spos s) (orient s) = s.
Proof. exact stepEuler_R. Qed.
Print Assumptions C29_step.

(** An angular velocity of 2^-24 for the time pi * 2^24 is half a turn; the orientation does not change. *)
Theorem C29_tiny_refuted : exists (q : quat R_arith) om dt v, unitq q /\ om <> zero3 /\
  qrot (N := R_arith) (rotateEquatn (N := R_arith) sin cos q om dt) v
  <> rotate (scale3 (/ norm3 om) om) (norm3 om * dt) (qrot (N := R_arith) q v).
Proof. exact tiny_rotation. Qed.
Print Assumptions C29_tiny_refuted.

(** a quarter turn about x (sin and cos of pi/4 given) maps ez to -ey *)
Example C29_example : let r := f_lit 0x16a09e667f3bcd (-53) in
  let q := rotateEquatn (N := F_arith) (fun _ => r) (fun _ => r) upright (v3 1 0 0) (f_ofZ 2) in
  flt (fabs (fadd (vy (qrot (N := F_arith) q (v3 0 0 1))) (f_ofZ 1))) (f_lit 1 (-50)) && flt (fabs (vz (qrot (N := F_arith) q (v3 0 0 1)))) (f_lit 1 (-50)) = true.
Proof. vm_compute. reflexivity. Qed.

(** ** C30 *)
Theorem C30_assembled : forall {N : arith} (flog : N -> N) (Pi mu : N) order junk ss, Permutation order (seq 0 (length ss)) ->
  exists m, calcMobMatrix flog Pi mu order junk ss = Done m /\ length (snd m) = (18 * length ss)%nat /\
    forall i s T Q a, nth_error ss i = Some s -> mobBlocks flog Pi mu s = (T, Q) -> (a < 3)%nat ->
      mobRow m (6 * i + a) = map (fun j => ((6 * i + j)%nat, mget T a j)) (seq 0 3) /\
      mobRow m (6 * i + 3 + a) = map (fun j => ((6 * i + 3 + j)%nat, mget Q a j)) (seq 0 3).
Proof. exact (@mob_assembled). Qed.
Print Assumptions C30_assembled.

Theorem C30_action : forall mu order junk ss m x, Permutation order (seq 0 (length ss)) ->
  calcMobMatrix (N := R_arith) ln PI mu order junk ss = Done m -> length x = (6 * length ss)%nat ->
  moves mu ss x (mobApply m (6 * length ss) x).
Proof. exact mob_moves'. Qed.
Print Assumptions C30_action.

Theorem C30_symmetric : forall mu order junk ss m, Permutation order (seq 0 (length ss)) ->
  calcMobMatrix (N := R_arith) ln PI mu order junk ss = Done m -> 0 < mu -> Forall proper ss ->
  sym_psd (6 * length ss) (mobApply m (6 * length ss)).
Proof. exact mob_psd'. Qed.
Print Assumptions C30_symmetric.

Theorem C30_definite : forall mu order junk ss m x, Permutation order (seq 0 (length ss)) ->
  calcMobMatrix (N := R_arith) ln PI mu order junk ss = Done m -> 0 < mu -> Forall proper ss -> Forall (fun s => immovable s = false) ss ->
  length x = (6 * length ss)%nat -> (exists a, In a x /\ a <> 0) -> 0 < ip x (mobApply m (6 * length ss) x).
Proof. exact mob_definite'. Qed.
Print Assumptions C30_definite.

(** two spheres of radius 1 (drag 6 with Pi = 1, viscosity 1), processed in reverse: 36 entries, the response to a unit
    force on the second one is 1/6 *)
Example C30_example :
  match calcMobMatrix (N := F_arith) (fun x => x) (f_ofZ 1) (f_ofZ 1) [1; 0]%nat (0%nat, f_ofZ 0)
          [object 0 (f_ofZ 1) (f_ofZ 0) (v3 0 0 0) upright; object 1 (f_ofZ 1) (f_ofZ 0) (v3 5 0 0) upright] with
  | Done m => Nat.eqb (length (snd m)) 36 &&
      match mobApply m 12 (map f_ofZ [0; 0; 0; 0; 0; 0; 1; 0; 0; 0; 0; 8]%Z) with
      | [a; _; _; _; _; _; b; c; _; _; _; d] => feq a (f_ofZ 0) && feq b (fdiv (f_ofZ 1) (f_ofZ 6)) && feq c (f_ofZ 0) && feq d (f_ofZ 1)
      | _ => false end
  | _ => false end = true.
Proof. vm_compute. reflexivity. Qed.

(** ** C31 *)
Theorem C31_drag : forall (s : sylinder R_arith) mu, 0 < radius s -> 0 <= slength s -> 0 < mu ->
  exists para perp rot, calcDragCoeff (N := R_arith) ln PI mu s = (para, perp, rot) /\ 0 < para /\ 0 < perp /\ 0 < rot /\
    (~ elongated s -> let a := slength s / 2 + radius s in
       para = 6 * PI * mu * a /\ perp = 6 * PI * mu * a /\ rot = 8 * PI * mu * a ^ 3) /\
    (elongated s -> (para < perp <-> radius s * exp (3 / 2) < slength s)).
Proof. exact drag_ok. Qed.
Print Assumptions C31_drag.

Theorem C31_short_rod_refuted : exists (s : sylinder R_arith) mu para perp rot, 0 < radius s /\ 0 < mu /\ elongated s /\
  calcDragCoeff (N := R_arith) ln PI mu s = (para, perp, rot) /\ perp <= para.
Proof. exact short_rod_drag. Qed.
Print Assumptions C31_short_rod_refuted.

Example C31_example : (* sphere of radius 2 with a core of length 2: radius 3; Pi = 1, viscosity 1 *)
  match calcDragCoeff (N := F_arith) (fun x => x) (f_ofZ 1) (f_ofZ 1) (object 0 (f_ofZ 2) (f_ofZ 2) (v3 0 0 0) upright) with
  | (a, b, c) => feq a (f_ofZ 18) && feq b (f_ofZ 18) && feq c (f_ofZ 216) end = true.
Proof. vm_compute. reflexivity. Qed.

(** ** C56 *)
(** Psi(q) omega is the rate of change of q: half the product of (omega, 0) with q, scalar part first *)
Theorem C56_psi : forall (q : quat R_arith) (om : vec R),
  map (fun r => dot3 r om) (getPsiMatFromEquatn (N := R_arith) q) =
  let p := hamilton (Quat (N := R_arith) (vx om / 2) (vy om / 2) (vz om / 2) 0) q in [qw p; qx p; qy p; qz p].
Proof. exact psi_ok. Qed.
Print Assumptions C56_psi.

Theorem C56_cross : forall p v : vec R,
  let P := getCrossProductMatrix (N := R_arith) p in Vec (dot3 (vx P) v) (dot3 (vy P) v) (dot3 (vz P) v) = cross3 p v.
Proof. exact crossMat_ok. Qed.
Print Assumptions C56_cross.

Example C56_example : match getPsiMatFromEquatn (N := F_arith) upright with
  | [a; b; c; d] => veqb a (v3 0 0 0) && veqb b (Vec (f_lit 1 (-1)) (f_ofZ 0) (f_ofZ 0)) && veqb c (Vec (f_ofZ 0) (f_lit 1 (-1)) (f_ofZ 0))
      && veqb d (Vec (f_ofZ 0) (f_ofZ 0) (f_lit 1 (-1)))
  | _ => false end = true.
Proof. vm_compute. reflexivity. Qed.
