(** C54: random initial configuration. *)
From Coq Require Import List Arith ZArith Bool Reals Lra Permutation Lia.
From Flocq Require Import Core.
From Verif Require Import Outcome F64 Arith ParticleModel ConModel VecModel VecSpec SylModel GeoModel GeoProofs StepModel VtpModel StatModel InitModel InitSpec InitProofs.
Import ListNotations.
Local Open Scope R_scope.

(** rank 0: the requested number of objects with ids 0, 1, ..., sizes as configured, centres in the box, and in the circle in circular mode;
    random lengths are drawn ones below half the shortest box edge *)
Theorem C54_objects : forall Pi eps dmax perp (c : initConfig R_arith) o1 o2 us rs mem,
  let low := i_low c in let high := i_high c in let half_edge := Rmin (Rmin (vx high - vx low) (vy high - vy low)) (vz high - vz low) / 2 in
  openBox low high -> length mem = i_number c -> Permutation o1 (seq 0 (i_number c)) -> Permutation o2 (seq 0 (i_number c)) ->
  (forall i, (i < i_number c)%nat -> uniform (rs i) /\ (0 < i_lengthSigma c -> exists l, In l (r_len (rs i)) /\ l < half_edge)) ->
  exists ss, setInitialFromConfig (N := R_arith) sin cos Pi eps dmax perp 0 o1 o2 c us rs mem = Done ss /\ length ss = i_number c /\
    forall i s, nth_error ss i = Some s ->
      s_gid s = Z.of_nat i /\ radius s = i_diameter c / 2 /\ radiusCol s = i_diameter c / 2 /\ lengthCol s = slength s /\
      (i_lengthSigma c <= 0 -> slength s = i_length c) /\ (0 < i_lengthSigma c -> In (slength s) (r_len (rs i)) /\ slength s < half_edge) /\
      within low high (spos s) /\ (i_circular c = true -> inCircle low high (spos s)) /\ orient s = getOrient (N := R_arith) sin cos Pi eps perp (i_orient c) (rs i).
Proof. exact setInitial_ok. Qed.
Print Assumptions C54_objects.
(** the other ranks have no objects *)
Theorem C54_ranks : forall (N : arith) (fsin fcos : N -> N) Pi eps dmax perp rank o1 c us rs mem,
  (0 < rank)%nat -> setInitialFromConfig fsin fcos Pi eps dmax perp rank o1 [] c us rs mem = Done [].
Proof. intros N fsin fcos Pi eps dmax perp rank o1 c us rs mem H. unfold setInitialFromConfig. destruct rank as [|k]; [lia|]. cbn. destruct (i_circular c); reflexivity. Qed.
Print Assumptions C54_ranks.
(** all components of initOrient out of range: a unit quaternion; all in range and not nearly opposite to z: the axis along initOrient *)
Theorem C54_orient_random : forall eps perp (c : initConfig R_arith) r,
  uniform r -> (forall k, (k < 3)%nat -> vget (i_orient c) k < -1 \/ 1 < vget (i_orient c) k) -> (forall k, 0 <= vget (r_dir r) k < 1) ->
  unitq (getOrient (N := R_arith) sin cos PI eps perp (i_orient c) r).
Proof. exact orient_random. Qed.
Print Assumptions C54_orient_random.
Theorem C54_orient_fixed : forall Pi eps perp (c : initConfig R_arith) r, (forall a b, norm3 (perp a b) = 1 /\ dot3 (perp a b) a = 0) -> 0 < eps <= 1 ->
  (forall k, (k < 3)%nat -> -1 <= vget (i_orient c) k <= 1) -> let d := i_orient c in let n := norm3 d in 0 < n -> (-1 + eps <= vz d / n \/ (vx d = 0 /\ vy d = 0)) ->
  let q := getOrient (N := R_arith) sin cos Pi eps perp (i_orient c) r in unitq q /\ qrot (N := R_arith) q (Vec 0 0 1) = Vec (vx d / n) (vy d / n) (vz d / n).
Proof. exact orient_fixed. Qed.
Print Assumptions C54_orient_fixed.
(** index, rank and group are not set yet and nothing is immovable (any arithmetic, any schedules) *)
Theorem C54_new : forall (N : arith) (fsin fcos : N -> N) Pi eps dmax perp c o1 o2 us rs mem ss, Permutation o1 (seq 0 (length mem)) ->
  setInitialFromConfig fsin fcos Pi eps dmax perp 0 o1 o2 c us rs mem = Done ss ->
  Forall (fun s => s_index s = (-1)%Z /\ s_rank s = (-1)%Z /\ s_group s = (-1)%Z /\ immovable s = false) ss.
Proof. exact @setInitial_new. Qed.
Print Assumptions C54_new.
(** random points in a circle and on a sphere *)
Theorem C54_circle : forall Pi radius a b, 0 <= b -> let (x, y) := getRandPointInCircle (N := R_arith) cos sin Pi radius a b in x * x + y * y = radius * radius * b.
Proof. exact circle_R. Qed.
Print Assumptions C54_circle.
Theorem C54_sphere : forall Pi radius a b facos, let p := getRandPointOnSphere (N := R_arith) cos sin facos Pi radius a b in vx p * vx p + vy p * vy p + vz p * vz p = radius * radius.
Proof. exact sphere_R. Qed.
Print Assumptions C54_sphere.

Definition z3 : vec F_arith := Vec (f_ofZ 0) (f_ofZ 0) (f_ofZ 0).
Definition exC : initConfig F_arith := InitConfig 1 (f_ofZ 1) (f_ofZ 0) (f_ofZ 1) (Vec (f_ofZ 1) (f_ofZ 1) (f_ofZ 1)) (Vec (f_ofZ 2) (f_ofZ 2) (f_ofZ 2)) (Vec (f_ofZ 0) (f_ofZ 0) (f_ofZ 1)) false.
(** in doubles a centre can be on the upper face: 1 - 2^-53 times the edge 1 plus the low corner 1 rounds to 2 *)
Theorem C54_upper_face_refuted : exists (c : initConfig F_arith) (r : randoms F_arith) s, flt (vx (r_pos r)) (f_ofZ 1) = true /\
  initObject (N := F_arith) (fun x => x) (fun x => x) (f_ofZ 3) (f_lit 1 (-40)) (f_ofZ 0) (fun a _ => a) c (Unset (f_ofZ 0) (f_ofZ 0)) 0 r = Done s /\ feq (vx (spos s)) (vx (i_high c)) = true.
Proof.
  exists exC, (Randoms [] (Vec (fsub (f_ofZ 1) (f_lit 1 (-53))) (f_lit 1 (-1)) (f_lit 1 (-1))) z3 z3 (f_ofZ 0, f_ofZ 0)).
  eexists. split; [vm_compute; reflexivity|]. split; [reflexivity|]. vm_compute. reflexivity.
Qed.
Print Assumptions C54_upper_face_refuted.
(** two objects in doubles with random lengths: 9 is rejected *)
Definition exC2 : initConfig F_arith := InitConfig 2 (f_ofZ 1) (f_ofZ 1) (f_ofZ 3) (Vec (f_ofZ 0) (f_ofZ 0) (f_ofZ 0)) (Vec (f_ofZ 8) (f_ofZ 16) (f_ofZ 32)) (Vec (f_ofZ 0) (f_ofZ 0) (f_ofZ 1)) false.
Definition exR (i : nat) : randoms F_arith := Randoms [f_ofZ 9; f_ofZ 4; f_ofZ (Z.of_nat i); f_ofZ 3] (Vec (f_lit 1 (-1)) (f_lit 1 (-2)) (f_lit 3 (-2))) z3 z3 (f_ofZ 0, f_ofZ 0).
Example C54_example : match setInitialFromConfig (N := F_arith) (fun x => x) (fun x => x) (f_ofZ 3) (f_lit 1 (-40)) (f_ofZ 0) (fun a _ => a) 0 [1; 0]%nat [0; 1]%nat exC2 (fun _ => Unset (f_ofZ 0) (f_ofZ 0)) exR
    (repeat (newSylinder (N := F_arith) (f_ofZ 0) (Unset (f_ofZ 0) (f_ofZ 0)) 77 (f_ofZ 0) (f_ofZ 0) (f_ofZ 0) (f_ofZ 0) z3 (Quat (N := F_arith) (f_ofZ 0) (f_ofZ 0) (f_ofZ 0) (f_ofZ 0))) 2) with
  | Done [a; b] => ((s_gid a =? 0)%Z && (s_gid b =? 1)%Z && feq (slength a) (f_ofZ 0) && feq (slength b) (f_ofZ 1) && feq (radius a) (f_lit 3 (-1)) &&
      feq (vx (spos a)) (f_ofZ 4) && feq (vy (spos a)) (f_ofZ 4) && feq (vz (spos b)) (f_ofZ 24))%bool
  | _ => false end = true.
Proof. vm_compute. reflexivity. Qed.
