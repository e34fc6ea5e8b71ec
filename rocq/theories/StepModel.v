(** Model of the velocity and position bookkeeping of one time step on one rank:
    SylinderSystem::prepareStep (the objects), calcVelocityBrown, calcVelocityNonCon,
    saveForceVelocityConstraints, sumForceVelocity, stepEuler and runStep. *)
From Coq Require Import List Arith ZArith Bool.
From Verif Require Import Outcome ListUtil Arith ParticleModel ConModel VecModel SylModel QPModel.
Import ListNotations.

(** a parallel loop in which iteration i updates element i only (the loops of Sylinder/SylinderSystem.cpp:724-1090), in any [order] *)
Definition forEach {S} (order : list nat) (f : nat -> S -> outcome S) (ss : list S) : outcome (list S) :=
  ofold (fun ss i => do s <- mread ss i; do s' <- f i s; mwrite ss i s') order ss.

Section Step.
  Context {N : arith}.
  Local Open Scope arith_scope.

  (** the settings used (Sylinder/SylinderConfig.hpp:25-70) *)
  Record stepConfig := StepConfig {
    c_dt : N; c_KBT : N; c_viscosity : N; c_monolayer : bool; c_fixed : bool;
    c_diameterRatio : N; c_lengthRatio : N; c_colBuf : N; c_lowZ : N; c_highZ : N }.

  (** the object with other velocities and forces (member assignment, Sylinder/Sylinder.hpp:62-84) *)
  Definition withMot (s : sylinder N) (m : motion N) : sylinder N :=
    Syl (s_gid s) (s_index s) (s_rank s) (s_group s) (immovable s) (radius s) (radiusCol s) (slength s) (lengthCol s)
        (radiusSearch s) (sepmin s) (colBuf s) (spos s) (orient s) m.

  (** entries k, k+1, k+2 of a vector (e.g. Sylinder/SylinderSystem.cpp:991-993) *)
  Definition read3 (x : list N) (k : nat) : outcome (vec N) :=
    do a <- mread x k; do b <- mread x (k + 1); do c <- mread x (k + 2); Done (Vec a b c).

  (** Eigen::LLT of a 3x3 matrix, matrixL() (Sylinder/SylinderSystem.cpp:1051; Eigen/src/Cholesky/LLT.h, unblocked):
      the factorisation stops at a pivot that is not positive and leaves the rest of the matrix as it is *)
  Definition llt3 (A : mat3 N) : mat3 N :=
    let z := a_Z 0 in
    let x0 := mget A 0 0 in
    if x0 <=? z then mkmat (fun i j => if Nat.leb j i then mget A i j else z) else
    let l00 := a_sqrt x0 in
    let l10 := mget A 1 0 / l00 in let l20 := mget A 2 0 / l00 in
    let x1 := mget A 1 1 - l10 * l10 in
    if x1 <=? z then Vec (Vec l00 z z) (Vec l10 (mget A 1 1) z) (Vec l20 (mget A 2 1) (mget A 2 2)) else
    let l11 := a_sqrt x1 in
    let l21 := (mget A 2 1 - l20 * l10) / l11 in
    let x2 := mget A 2 2 - (l20 * l20 + l21 * l21) in
    let l22 := if x2 <=? z then mget A 2 2 else a_sqrt x2 in
    Vec (Vec l00 z z) (Vec l10 l11 z) (Vec l20 l21 l22).

  (** matrix times vector (Util/EigenDef.hpp) *)
  Definition mvec (m : mat3 N) (v : vec N) : vec N := Vec (vdot (vx m) v) (vdot (vy m) v) (vdot (vz m) v).

  (** Sylinder/SylinderSystem.cpp:1050, 1062: the translational mobility with axis q *)
  Definition Nmat (paraInv perpInv : N) (q : vec N) : mat3 N :=
    mkmat (fun i j => (paraInv - perpInv) * (vget q i * vget q j) + perpInv * (if Nat.eqb i j then a_Z 1 else a_Z 0)).

  (** the twelve Gaussian numbers drawn for one object (Sylinder/SylinderSystem.cpp:1054-1057) *)
  Record draws := Draws { w_rot : vec N; w_pos : vec N; w_rfdrot : vec N; w_rfdpos : vec N }.

  (** Sylinder/SylinderSystem.cpp:1033-1069, one object: Brownian velocity and angular velocity.  The code's 2 * kBT / dt
      and dt * 0.1 are [kBTfactor] and [delta]. *)
  Definition brownObject (flog fsin fcos : N -> N) (Pi tenth : N) (c : stepConfig) (w : draws) (s : sylinder N) : vec N * vec N :=
    let delta := c_dt c * tenth in
    let kBTfactor := a_sqrt (a_Z 2 * c_KBT c / c_dt c) in
    let '(dragPara, dragPerp, dragRot) := calcDragCoeff flog Pi (c_viscosity c) s in
    let paraInv := if immovable s then a_Z 0 else a_Z 1 / dragPara in
    let perpInv := if immovable s then a_Z 0 else a_Z 1 / dragPerp in
    let rotInv := if immovable s then a_Z 0 else a_Z 1 / dragRot in
    let M := Nmat paraInv perpInv (axis s) in
    let L := llt3 M in
    let orientRFD := rotateEquatn fsin fcos (orient s) (w_rfdrot w) delta in
    let Mrfd := Nmat paraInv perpInv (qrot orientRFD ez) in
    let v := vscale kBTfactor (mvec L (w_pos w)) in
    let v := vadd v (vscale (c_KBT c / delta) (mvec (mkmat (fun i j => mget Mrfd i j - mget M i j)) (w_rfdpos w))) in
    (v, vscale (a_sqrt rotInv * kBTfactor) (w_rot w)).

  (** Emap3(sy.velBrown) = vel; Emap3(sy.omegaBrown) = omega (Sylinder/SylinderSystem.cpp:1068-1069) *)
  Definition setBrown (s : sylinder N) (v w : vec N) : sylinder N :=
    let m := mot s in
    withMot s (Motion (vel m) (omega m) (velCol m) (omegaCol m) (velBi m) (omegaBi m) (velNonB m) (omegaNonB m) v w
      (force m) (torque m) (forceCol m) (torqueCol m) (forceBi m) (torqueBi m) (forceNonB m) (torqueNonB m)).

  (** Sylinder/SylinderSystem.cpp:1019-1091: the objects and velocityBrownRcp; [o1], [o2] the schedules of the two loops *)
  Definition calcVelocityBrown (flog fsin fcos : N -> N) (Pi tenth : N) (c : stepConfig) (w : nat -> draws) (o1 o2 : list nat)
    (ss : list (sylinder N)) : outcome (list (sylinder N) * list N) :=
    do ss <- forEach o1 (fun i s => let '(v, om) := brownObject flog fsin fcos Pi tenth c (w i) s in Done (setBrown s v om)) ss;
    do x <- ofold (fun x i => do s <- mread ss i;
                    let v := velBrown (mot s) in let om := omegaBrown (mot s) in
                    splice x (6 * i) [vx v; vy v; vz v; vx om; vy om; vz om]) o2 (repeat (a_Z 0) (length ss * 6));
    Done (ss, x).

  (** Sylinder/SylinderSystem.cpp:739-743, 764-768, 792-796: the loop zeroing vz, omegax, omegay of object i *)
  Definition zeroMono (order : list nat) (x : list N) : outcome (list N) :=
    ofold (fun x i => do x <- mwrite x (6 * i + 2) (a_Z 0); do x <- mwrite x (6 * i + 3) (a_Z 0); mwrite x (6 * i + 4) (a_Z 0)) order x.

  (** sy.forceNonB, sy.torqueNonB (Sylinder/SylinderSystem.cpp:751-756) *)
  Definition setForceNonB (s : sylinder N) (f t : vec N) : sylinder N :=
    let m := mot s in
    withMot s (Motion (vel m) (omega m) (velCol m) (omegaCol m) (velBi m) (omegaBi m) (velNonB m) (omegaNonB m) (velBrown m) (omegaBrown m)
      (force m) (torque m) (forceCol m) (torqueCol m) (forceBi m) (torqueBi m) f t).
  (** sy.velNonB, sy.omegaNonB (Sylinder/SylinderSystem.cpp:779-784) *)
  Definition setVelNonB (s : sylinder N) (v w : vec N) : sylinder N :=
    let m := mot s in
    withMot s (Motion (vel m) (omega m) (velCol m) (omegaCol m) (velBi m) (omegaBi m) v w (velBrown m) (omegaBrown m)
      (force m) (torque m) (forceCol m) (torqueCol m) (forceBi m) (torqueBi m) (forceNonB m) (torqueNonB m)).

  (** Sylinder/SylinderSystem.cpp:724-800: the objects and velocityNonConRcp.  [mob] is the mobility operator on the local
      entries (it is block diagonal), [fNB], [vNB], [vB] the optional vectors, [ord k] the schedule of the k-th loop.
      The vectors have six entries per object (asserted by the code). *)
  Definition calcVelocityNonCon (c : stepConfig) (mob : list N -> list N) (fNB vNB vB : option (list N)) (ord : nat -> list nat)
    (ss : list (sylinder N)) : outcome (list (sylinder N) * list N) :=
    let vel0 := repeat (a_Z 0) (length ss * 6) in
    do r <- match fNB with
            | None => Done (ss, vel0)
            | Some f =>
                let v := mob f in
                do v <- (if c_monolayer c then zeroMono (ord 0%nat) v else Done v);
                do ss <- forEach (ord 1%nat) (fun i s => do a <- read3 f (6 * i); do b <- read3 f (6 * i + 3); Done (setForceNonB s a b)) ss;
                Done (ss, v)
            end;
    let '(ss, v) := r in
    do v <- match vNB with
            | None => Done v
            | Some u =>
                do u <- (if c_monolayer c then zeroMono (ord 2%nat) u else Done u);
                Done (vupd (a_Z 1) u (a_Z 1) v)
            end;
    do ss <- forEach (ord 3%nat) (fun i s => do a <- read3 v (6 * i); do b <- read3 v (6 * i + 3); Done (setVelNonB s a b)) ss;
    do v <- match vB with
            | None => Done v
            | Some u =>
                do u <- (if c_monolayer c then zeroMono (ord 4%nat) u else Done u);
                Done (vupd (a_Z 1) u (a_Z 1) v)
            end;
    Done (ss, v).

  (** Sylinder/SylinderSystem.cpp:989-1016, one object *)
  Definition setConstraint (s : sylinder N) (vc oc vb ob fc tc fb tb : vec N) : sylinder N :=
    let m := mot s in
    withMot s (Motion (vel m) (omega m) vc oc vb ob (velNonB m) (omegaNonB m) (velBrown m) (omegaBrown m)
      (force m) (torque m) fc tc fb tb (forceNonB m) (torqueNonB m)).
  (** Sylinder/SylinderSystem.cpp:970-1017 *)
  Definition saveForceVelocityConstraints (forceUni velUni forceBi velBi : list N) (order : list nat) (ss : list (sylinder N))
    : outcome (list (sylinder N)) :=
    forEach order (fun i s =>
      do vc <- read3 velUni (6 * i); do oc <- read3 velUni (6 * i + 3);
      do vb <- read3 velBi (6 * i); do ob <- read3 velBi (6 * i + 3);
      do fc <- read3 forceUni (6 * i); do tc <- read3 forceUni (6 * i + 3);
      do fb <- read3 forceBi (6 * i); do tb <- read3 forceBi (6 * i + 3);
      Done (setConstraint s vc oc vb ob fc tc fb tb)) ss.

  (** Sylinder/SylinderSystem.cpp:807-812, one object *)
  Definition sumObject (s : sylinder N) : sylinder N :=
    let m := mot s in
    withMot s (Motion (vadd (vadd (vadd (velNonB m) (velBrown m)) (velCol m)) (velBi m))
                      (vadd (vadd (vadd (omegaNonB m) (omegaBrown m)) (omegaCol m)) (omegaBi m))
      (velCol m) (omegaCol m) (velBi m) (omegaBi m) (velNonB m) (omegaNonB m) (velBrown m) (omegaBrown m)
      (vadd (vadd (forceNonB m) (forceCol m)) (forceBi m)) (vadd (vadd (torqueNonB m) (torqueCol m)) (torqueBi m))
      (forceCol m) (torqueCol m) (forceBi m) (torqueBi m) (forceNonB m) (torqueNonB m)).
  (** Sylinder/SylinderSystem.cpp:802-814 *)
  Definition sumForceVelocity (order : list nat) (ss : list (sylinder N)) : outcome (list (sylinder N)) :=
    forEach order (fun _ s => Done (sumObject s)) ss.

  (** Sylinder/SylinderSystem.cpp:816-827 *)
  Definition stepEulerAll (fsin fcos : N -> N) (c : stepConfig) (order : list nat) (ss : list (sylinder N)) : outcome (list (sylinder N)) :=
    if c_fixed c then Done ss else forEach order (fun _ s => Done (stepEuler fsin fcos (c_dt c) s)) ss.

  (** Sylinder/SylinderSystem.cpp:948-968, runStep without the result files: the objects as written by writeResult (before moving), the
      objects at the end, and velocityNonConRcp.  [solver] is resolveConstraints up to the four vectors it returns (forces and velocities,
      unilateral then bilateral; Sylinder/SylinderSystem.cpp:829-866), None when it exits. *)
  Definition runStep (flog fsin fcos : N -> N) (Pi tenth : N) (c : stepConfig) (mob : list N -> list N)
    (fNB vNB : option (list N)) (w : nat -> draws)
    (solver : list (sylinder N) -> list N -> outcome (option (list N * list N * list N * list N)))
    (ord : nat -> list nat) (ss : list (sylinder N)) : outcome (option (list (sylinder N) * list (sylinder N) * list N)) :=
    do r <- (if c_KBT c >? a_Z 0 then
               do r <- calcVelocityBrown flog fsin fcos Pi tenth c w (ord 5%nat) (ord 6%nat) ss; Done (fst r, Some (snd r))
             else Done (ss, None));
    let '(ss, vB) := r in
    do r <- calcVelocityNonCon c mob fNB vNB vB ord ss;
    let '(ss, velNonCon) := r in
    do r <- solver ss velNonCon;
    match r with
    | None => Done None
    | Some (fu, vu, fb, vb) =>
        do ss <- saveForceVelocityConstraints fu vu fb vb (ord 7%nat) ss;
        do ss <- sumForceVelocity (ord 8%nat) ss;
        do ss' <- stepEulerAll fsin fcos c (ord 9%nat) ss;
        Done (Some (ss, ss', velNonCon))
    end.

  (** ** prepareStep, the objects *)

  (** Sylinder/Sylinder.cpp:34-59, clear; [dmax] is numeric_limits<double>::max() *)
  Definition clearObject (dmax : N) (s : sylinder N) : sylinder N :=
    let o := Vec (a_Z 0) (a_Z 0) (a_Z 0) in
    Syl (s_gid s) (-1) (-1) (s_group s) (immovable s) (radius s) (radiusCol s) (slength s) (lengthCol s)
        (radiusSearch s) dmax (colBuf s) (spos s) (orient s) (Motion o o o o o o o o o o o o o o o o o o).
  (** Sylinder/SylinderSystem.cpp:898-906, one object *)
  Definition prepareObject (dmax : N) (c : stepConfig) (rank : Z) (s : sylinder N) : sylinder N :=
    let s := clearObject dmax s in
    Syl (s_gid s) (s_index s) rank (s_group s) (immovable s) (radius s) (radius s * c_diameterRatio c) (slength s) (slength s * c_lengthRatio c)
        (radiusSearch s) (sepmin s) (c_colBuf c) (spos s) (orient s) (mot s).
  (** Quaternion::setFromTwoVectors (Eigen/src/Geometry/Quaternion.h) for vectors that are not nearly opposite *)
  Definition fromTwoVectors (a b : vec N) : quat N :=
    let v0 := vnormalized a in let v1 := vnormalized b in
    let cc := vdot v1 v0 in
    let ax := vcross v0 v1 in
    let s := a_sqrt ((a_Z 1 + cc) * a_Z 2) in
    let invs := a_Z 1 / s in
    Quat (vx ax * invs) (vy ax * invs) (vz ax * invs) (s * a_lit 1 (-1)).
  (** Sylinder/SylinderSystem.cpp:912-917, one object in monolayer mode *)
  Definition monoObject (c : stepConfig) (s : sylinder N) : sylinder N :=
    let monoZ := (c_highZ c + c_lowZ c) / a_Z 2 in
    let drt := axis s in
    let drt := vnormalized (Vec (vx drt) (vy drt) (a_Z 0)) in
    withPose s (Vec (vx (spos s)) (vy (spos s)) monoZ) (fromTwoVectors ez drt).
  (** Sylinder/SylinderSystem.cpp:896-919: the objects after the two loops of prepareStep (before updateSylinderMap sets the index) *)
  Definition prepareObjects (dmax : N) (c : stepConfig) (rank : Z) (o1 o2 : list nat) (ss : list (sylinder N)) : outcome (list (sylinder N)) :=
    do ss <- forEach o1 (fun _ s => Done (prepareObject dmax c rank s)) ss;
    if c_monolayer c then forEach o2 (fun _ s => Done (monoObject c s)) ss else Done ss.
End Step.
Arguments stepConfig : clear implicits.
Arguments draws : clear implicits.
