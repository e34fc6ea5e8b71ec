(** C38, C57, C58: one time step. *)
From Coq Require Import List Arith ZArith Bool Reals Lra Permutation.
From Verif Require Import Outcome F64 Arith ParticleModel ConModel VecModel VecSpec SylModel SylSpec SylFloat QPModel StepModel StepSpec StepProofs.
Import ListNotations.
Local Open Scope R_scope.

(** ** C38 *)

(** in any arithmetic, under any schedules: the constraint solver gets the objects with unchanged geometry; if it returns, the totals are
    the sums of the stored parts, the constraint parts are those of the solver, and the object moves by its totals *)
Theorem C38_totals : forall {N : arith} flog fsin fcos Pi tenth (c : stepConfig N) mob fNB vNB w solver ord (ss : list (sylinder N)),
  (forall k, Permutation (ord k) (seq 0 (length ss))) ->
  (forall x, length x = (6 * length ss)%nat -> length (mob x) = (6 * length ss)%nat) -> sized (length ss) fNB -> sized (length ss) vNB ->
  exists sc vnc, length sc = length ss /\ length vnc = (6 * length ss)%nat /\
    (forall i s, nth_error ss i = Some s -> exists m, nth_error sc i = Some (withMot s m)) /\
    (solver sc vnc = Done None -> runStep flog fsin fcos Pi tenth c mob fNB vNB w solver ord ss = Done None) /\
    forall fu vu fb vb, solver sc vnc = Done (Some (fu, vu, fb, vb)) ->
      length fu = (6 * length ss)%nat -> length vu = (6 * length ss)%nat -> length fb = (6 * length ss)%nat -> length vb = (6 * length ss)%nat ->
      exists ss1 ss2, runStep flog fsin fcos Pi tenth c mob fNB vNB w solver ord ss = Done (Some (ss1, ss2, vnc)) /\
        length ss1 = length ss /\ length ss2 = length ss /\
        forall i s, nth_error ss i = Some s -> exists m, nth_error ss1 i = Some (withMot s m) /\
          totals m /\ constraint_parts fu vu fb vb i m /\
          nth_error ss2 i = Some (if c_fixed c then withMot s m else stepEuler fsin fcos (c_dt c) (withMot s m)).
Proof. exact (@step_any). Qed.
Print Assumptions C38_totals.

(** the non-Brownian part is the set velocity plus the response to the set force, the Brownian part the drawn one, and the solver is given their sum *)
Theorem C38_parts : forall (tenth : R) (c : stepConfig R_arith) mob fNB vNB w solver ord (ss : list (sylinder R_arith)),
  (forall k, Permutation (ord k) (seq 0 (length ss))) ->
  (forall x, length x = (6 * length ss)%nat -> length (mob x) = (6 * length ss)%nat) -> sized (N := R_arith) (length ss) fNB -> sized (N := R_arith) (length ss) vNB ->
  forall ss1 ss2 vnc, runStep (N := R_arith) ln sin cos PI tenth c mob fNB vNB w solver ord ss = Done (Some (ss1, ss2, vnc)) ->
  (forall sc v r, solver sc v = Done (Some r) -> let '(fu, vu, fb, vb) := r in
     length fu = (6 * length ss)%nat /\ length vu = (6 * length ss)%nat /\ length fb = (6 * length ss)%nat /\ length vb = (6 * length ss)%nat) ->
  forall i s, nth_error ss i = Some s -> exists m, nth_error ss1 i = Some (withMot (N := R_arith) s m) /\
    velNonB m = add3 (planar_lin (c_monolayer c) (part lin_R vNB i)) (planar_lin (c_monolayer c) (part (fun f => lin_R (mob f)) fNB i)) /\
    omegaNonB m = add3 (planar_rot (c_monolayer c) (part rot_R vNB i)) (planar_rot (c_monolayer c) (part (fun f => rot_R (mob f)) fNB i)) /\
    (forall f, fNB = Some f -> forceNonB m = lin_R f i /\ torqueNonB m = rot_R f i) /\
    (0 < c_KBT c -> (velBrown m, omegaBrown m) = brownObject (N := R_arith) ln sin cos PI tenth c (w i) s /\
       lin_R vnc i = add3 (planar_lin (c_monolayer c) (velBrown m)) (velNonB m) /\ rot_R vnc i = add3 (planar_rot (c_monolayer c) (omegaBrown m)) (omegaNonB m)) /\
    (c_KBT c <= 0 -> velBrown m = velBrown (mot s) /\ omegaBrown m = omegaBrown (mot s) /\ lin_R vnc i = velNonB m /\ rot_R vnc i = omegaNonB m).
Proof. exact step_parts. Qed.
Print Assumptions C38_parts.

(** without a prescribed velocity an immovable object stays where it is *)
Theorem C38_immovable : forall (tenth : R) (c : stepConfig R_arith) mob fNB w solver ord (ss : list (sylinder R_arith)),
  (forall k, Permutation (ord k) (seq 0 (length ss))) ->
  (forall x, length x = (6 * length ss)%nat -> length (mob x) = (6 * length ss)%nat /\ quiet ss (mob x)) -> sized (N := R_arith) (length ss) fNB ->
  forall ss1 ss2 vnc, runStep (N := R_arith) ln sin cos PI tenth c mob fNB None w solver ord ss = Done (Some (ss1, ss2, vnc)) ->
  (forall sc v r, solver sc v = Done (Some r) -> let '(fu, vu, fb, vb) := r in
     length fu = (6 * length ss)%nat /\ length vu = (6 * length ss)%nat /\ length fb = (6 * length ss)%nat /\ length vb = (6 * length ss)%nat /\
     quiet ss vu /\ quiet ss vb) ->
  forall i s, nth_error ss i = Some s -> immovable s = true -> velBrown (mot s) = zero3 -> omegaBrown (mot s) = zero3 ->
  exists m, nth_error ss2 i = Some (withMot (N := R_arith) s m) /\ vel m = zero3 /\ omega m = zero3.
Proof. exact immovable_ok. Qed.
Print Assumptions C38_immovable.

(** the conditions of C38_immovable hold for the assembled mobility matrix and for the forces and velocities of the constraint solver *)
Theorem C38_mobility_quiet : forall mu order junk ss m, Permutation order (seq 0 (length ss)) ->
  SylModel.calcMobMatrix (N := R_arith) ln PI mu order junk ss = Done m -> forall x, length x = (6 * length ss)%nat ->
  length (mobApply (N := R_arith) m (6 * length ss) x) = (6 * length ss)%nat /\ quiet ss (mobApply (N := R_arith) m (6 * length ss) x).
Proof. exact mob_quiet. Qed.
Print Assumptions C38_mobility_quiet.
Theorem C38_solver_quiet : forall (ss : list (sylinder R_arith)) mob D bi g x fu fb vu vb,
  (forall x, length x = (6 * length ss)%nat -> length (mob x) = (6 * length ss)%nat /\ quiet ss (mob x)) ->
  splitForces (N := R_arith) D (6 * length ss) mob bi g x = (fu, fb, vu, vb) ->
  length fu = (6 * length ss)%nat /\ length vu = (6 * length ss)%nat /\ length fb = (6 * length ss)%nat /\ length vb = (6 * length ss)%nat /\
  quiet ss vu /\ quiet ss vb.
Proof. exact split_quiet. Qed.
Print Assumptions C38_solver_quiet.

(** settings of the examples: time step 1/2, kT = 1 *)
Definition cfg (mono : bool) : stepConfig F_arith :=
  StepConfig (N := F_arith) (f_lit 1 (-1)) (f_ofZ 1) (f_ofZ 1) mono false (f_ofZ 1) (f_ofZ 1) (f_ofZ 0) (f_ofZ 0) (f_ofZ 10).
(** solver of the examples: unilateral velocity and force 1, 2, ..., 12, no bilateral part *)
Definition count : list f64 := map f_ofZ [1; 2; 3; 4; 5; 6; 7; 8; 9; 10; 11; 12]%Z.
Definition zeros : list f64 := repeat (f_ofZ 0) 12.
Definition runEx (mono : bool) (fNB vNB : option (list f64)) (w : draws F_arith) :=
  runStep (N := F_arith) (fun x => x) (fun _ => f_ofZ 0) (fun _ => f_ofZ 1) (f_ofZ 1) (f_lit 1 (-3)) (cfg mono) (fun x => map (fmul (f_ofZ 10)) x) fNB vNB (fun _ => w)
    (fun _ _ => Done (Some (count, count, zeros, zeros))) (fun _ => [1; 0]%nat)
    [object 0 (f_ofZ 1) (f_ofZ 0) (v3 0 0 0) upright; object 1 (f_ofZ 1) (f_ofZ 0) (v3 5 0 0) upright].

(** two spheres: set force 1..12 (mobility 10), set velocity 1..12, no noise: the second one has velocity (7,8,9)*12 and moves half of it *)
Example C38_example :
  match runEx false (Some count) (Some count) (Draws (N := F_arith) (v3 0 0 0) (v3 0 0 0) (v3 0 0 0) (v3 0 0 0)) with
  | Done (Some ([_; s], [_; s'], _)) =>
      veqb (vel (mot s)) (v3 84 96 108) && veqb (velNonB (mot s)) (v3 77 88 99) && veqb (velCol (mot s)) (v3 7 8 9) && veqb (force (mot s)) (v3 14 16 18) &&
      veqb (spos s) (v3 5 0 0) && veqb (spos s') (v3 47 48 54)
  | _ => false end = true.
Proof. vm_compute. reflexivity. Qed.

(** In monolayer mode the vector given to the solver has no out-of-plane Brownian velocity, but the stored Brownian part, and with it
    the velocity the object moves with, has. *)
Theorem C38_monolayer_refuted : exists w : draws F_arith,
  match runEx true None None w with
  | Done (Some ([s; _], [s'; _], vnc)) =>
      feq (nth 2 vnc (f_ofZ 1)) (f_ofZ 0) && flt (vz (velCol (mot s))) (vz (vel (mot s))) && negb (feq (vz (velBrown (mot s))) (f_ofZ 0))
  | _ => false end = true.
Proof. exists (Draws (N := F_arith) (v3 0 0 0) (v3 0 0 1) (v3 0 0 0) (v3 0 0 0)). vm_compute. reflexivity. Qed.
Print Assumptions C38_monolayer_refuted.

(** ** C57 *)
Theorem C57_fluctuation : forall (tenth : R) (c : stepConfig R_arith) w (s : sylinder R_arith) v om,
  proper s -> immovable s = false -> 0 < c_viscosity c -> 0 <= c_KBT c -> 0 < c_dt c ->
  brownObject (N := R_arith) ln sin cos PI tenth c w s = (v, om) ->
  exists (B : mat3 R) (drift : vec R) (k : R),
    v = add3 (apply3 B (w_pos w)) drift /\ om = scale3 k (w_rot w) /\
    (forall i j, (i < 3)%nat -> (j < 3)%nat -> gram B i j = 2 * c_KBT c / c_dt c * mget (fst (mobBlocks (N := R_arith) ln PI (c_viscosity c) s)) i j) /\
    (forall a b, mobBlocks (N := R_arith) ln PI (c_viscosity c) s = (a, b) -> forall x : vec R, scale3 (k * k) x = scale3 (2 * c_KBT c / c_dt c) (apply3 b x)) /\
    (~ elongated s -> drift = zero3).
Proof. exact brown_R. Qed.
Print Assumptions C57_fluctuation.

Theorem C57_immovable : forall (c : stepConfig R_arith) (tenth : R) w (s : sylinder R_arith), immovable s = true ->
  brownObject (N := R_arith) ln sin cos PI tenth c w s = (zero3, zero3).
Proof. exact brown_immovable. Qed.
Print Assumptions C57_immovable.

(** a sphere of drag 6 (Pi = 1): mobility 1/6, kBTfactor 2, so W = ez moves it with velocity 2/sqrt 6 *)
Example C57_example :
  let '(v, om) := brownObject (N := F_arith) (fun x => x) (fun _ => f_ofZ 0) (fun _ => f_ofZ 1) (f_ofZ 1) (f_lit 1 (-3)) (cfg false)
                    (Draws (N := F_arith) (v3 0 0 0) (v3 0 0 1) (v3 0 0 0) (v3 0 0 0)) (object 0 (f_ofZ 1) (f_ofZ 0) (v3 0 0 0) upright) in
  flt (fabs (fsub (fmul (vz v) (vz v)) (fdiv (f_ofZ 2) (f_ofZ 3)))) (f_lit 1 (-50)) && feq (vx v) (f_ofZ 0) && veqb om (v3 0 0 0) = true.
Proof. vm_compute. reflexivity. Qed.

(** ** C58 *)
Theorem C58_prepared : forall {N : arith} dmax (c : stepConfig N) rank o1 o2 (ss : list (sylinder N)),
  Permutation o1 (seq 0 (length ss)) -> Permutation o2 (seq 0 (length ss)) ->
  exists ss', prepareObjects dmax c rank o1 o2 ss = Done ss' /\ length ss' = length ss /\
    forall i s, nth_error ss i = Some s -> exists s', nth_error ss' i = Some (if c_monolayer c then monoObject c s' else s') /\
      s_gid s' = s_gid s /\ s_group s' = s_group s /\ immovable s' = immovable s /\ spos s' = spos s /\ orient s' = orient s /\
      s_rank s' = rank /\ radius s' = radius s /\ slength s' = slength s /\ colBuf s' = c_colBuf c /\
      radiusCol s' = a_mul (radius s) (c_diameterRatio c) /\ lengthCol s' = a_mul (slength s) (c_lengthRatio c) /\
      (forall f, In f [vel; omega; velCol; omegaCol; velBi; omegaBi; velNonB; omegaNonB; velBrown; omegaBrown;
                       force; torque; forceCol; torqueCol; forceBi; torqueBi; forceNonB; torqueNonB] -> f (mot s') = Vec (a_Z 0) (a_Z 0) (a_Z 0)).
Proof. exact (@prepare_any). Qed.
Print Assumptions C58_prepared.

Theorem C58_monolayer : forall (c : stepConfig R_arith) (s : sylinder R_arith), unitq (orient s) ->
  let u := axis (N := R_arith) s in let h := sqrt (vx u * vx u + vy u * vy u) in let s' := monoObject (N := R_arith) c s in
  spos s' = Vec (vx (spos s)) (vy (spos s)) ((c_highZ c + c_lowZ c) / 2) /\ withPose (N := R_arith) s' (spos s) (orient s) = s /\
  (0 < h -> unitq (orient s') /\ axis (N := R_arith) s' = Vec (vx u / h) (vy u / h) 0) /\
  (h = 0 -> axis (N := R_arith) s' = Vec 0 0 1).
Proof. exact mono_R. Qed.
Print Assumptions C58_monolayer.

(** an upright object is not turned into the plane and gets a quaternion of length 1/sqrt 2 *)
Theorem C58_upright_refuted : exists s : sylinder F_arith,
  let q := orient s in let q' := orient (monoObject (N := F_arith) (cfg true) s) in
  feq (qsq (N := F_arith) q) (f_ofZ 1) && flt (qsq (N := F_arith) q') (f_lit 3 (-2)) && veqb (axis (N := F_arith) (monoObject (N := F_arith) (cfg true) s)) (v3 0 0 1) = true.
Proof. exists (object 0 (f_ofZ 1) (f_ofZ 4) (v3 0 0 0) upright). vm_compute. reflexivity. Qed.
Print Assumptions C58_upright_refuted.

(** a rod tilted by a half turn about (1,0,1)/sqrt 2, i.e. along x, is put into the mid-plane z = 5 *)
Example C58_example :
  let r := f_lit 0x16a09e667f3bcd (-53) in
  match prepareObjects (N := F_arith) (f_ofZ 0) (cfg true) 3 [0]%nat [0]%nat [object 7 (f_ofZ 1) (f_ofZ 4) (v3 1 2 3) (Quat (N := F_arith) r (f_ofZ 0) r (f_ofZ 0))] with
  | Done [s] => veqb (spos s) (v3 1 2 5) && Z.eqb (s_gid s) 7 && Z.eqb (s_rank s) 3 &&
      flt (fabs (fsub (vx (axis (N := F_arith) s)) (f_ofZ 1))) (f_lit 1 (-50)) && flt (fabs (vz (axis (N := F_arith) s))) (f_lit 1 (-50))
  | _ => false end = true.
Proof. vm_compute. reflexivity. Qed.
