(** Model of Sylinder/Sylinder.hpp, Sylinder/Sylinder.cpp (geometry, drag, Euler step),
    Util/EquatnHelper.hpp and SylinderSystem::calcMobMatrix. *)
From Coq Require Import List Arith ZArith Bool.
From Verif Require Import Outcome ListUtil Arith ParticleModel ConModel VecModel.
Import ListNotations.

Section Syl.
  Context {N : arith}.
  Local Open Scope arith_scope.

  (** Sylinder/Sylinder.hpp:62-84: velocities and forces, each with its rotational part *)
  Record motion := Motion {
    vel : vec N; omega : vec N; velCol : vec N; omegaCol : vec N; velBi : vec N; omegaBi : vec N;
    velNonB : vec N; omegaNonB : vec N; velBrown : vec N; omegaBrown : vec N;
    force : vec N; torque : vec N; forceCol : vec N; torqueCol : vec N; forceBi : vec N; torqueBi : vec N;
    forceNonB : vec N; torqueNonB : vec N }.

  (** Sylinder/Sylinder.hpp:40-84 *)
  Record sylinder := Syl {
    s_gid : Z; s_index : Z; s_rank : Z; s_group : Z; immovable : bool;
    radius : N; radiusCol : N; slength : N; lengthCol : N; radiusSearch : N; sepmin : N; colBuf : N;
    spos : vec N; orient : quat N; mot : motion }.

  (** the orientation axis: ECmapq(orientation) * Evec3(0, 0, 1) (as in Sylinder/SylinderSystem.cpp:651) *)
  Definition axis (s : sylinder) : vec N := qrot (orient s) ez.

  (** Sylinder/Sylinder.cpp:61-67 *)
  Definition isSphere (collision : bool) (s : sylinder) : bool :=
    if collision then lengthCol s <? radiusCol s * a_Z 2 else slength s <? radius s * a_Z 2.

  (** Sylinder/Sylinder.cpp:69-82, calcDragCoeff; [flog] is the library log, [Pi] the literal;
      returns dragPara, dragPerp, dragRot *)
  Definition calcDragCoeff (flog : N -> N) (Pi viscosity : N) (s : sylinder) : N * N * N :=
    let len := slength s in
    if isSphere false s then
      let rad := a_lit 1 (-1) * len + radius s in
      let dragPara := a_Z 6 * Pi * rad * viscosity in
      (dragPara, dragPara, a_Z 8 * Pi * rad * rad * rad * viscosity)
    else
      let b := - (a_Z 1 + a_Z 2 * flog (radius s / len)) in
      (a_Z 8 * Pi * len * viscosity / (a_Z 2 * b),
       a_Z 8 * Pi * len * viscosity / (b + a_Z 2),
       a_Z 2 * Pi * viscosity * len * len * len / (a_Z 3 * (b + a_Z 2))).

  (** Util/EquatnHelper.hpp:50-64, setUnitRandomEquatn *)
  Definition setUnitRandomEquatn (fsin fcos : N -> N) (Pi u1 u2 u3 : N) : quat N :=
    let a := a_sqrt (a_Z 1 - u1) in
    let b := a_sqrt u1 in
    Quat (a * fcos (a_Z 2 * Pi * u2)) (b * fsin (a_Z 2 * Pi * u3)) (b * fcos (a_Z 2 * Pi * u3)) (a * fsin (a_Z 2 * Pi * u2)).

  (** Util/EquatnHelper.hpp:74-90, rotateEquatn; numeric_limits<float>::epsilon() = 2^-23 *)
  Definition rotateEquatn (fsin fcos : N -> N) (q : quat N) (om : vec N) (dt : N) : quat N :=
    let w := vnorm om in
    if w <? a_lit 1 (-23) then q else
    let winv := a_Z 1 / w in
    let sw := fsin (w * dt / a_Z 2) in
    let cw := fcos (w * dt / a_Z 2) in
    let s := qw q in
    let p := qvec q in
    let xyz := vadd (vadd (vscale winv (vscale (s * sw) om)) (vscale cw p)) (vscale (sw * winv) (vcross om p)) in
    qnormalize (Quat (vx xyz) (vy xyz) (vz xyz) (s * cw - vdot p om * sw * winv)).

  (** Util/EquatnHelper.hpp:98-109 *)
  Definition getCrossProductMatrix (p : vec N) : mat3 N :=
    Vec (Vec (a_Z 0) (- vz p) (vy p)) (Vec (vz p) (a_Z 0) (- vx p)) (Vec (- vy p) (vx p) (a_Z 0)).

  (** Util/EquatnHelper.hpp:111-124: the four rows of Psi *)
  Definition getPsiMatFromEquatn (q : quat N) : list (vec N) :=
    let h := a_lit 1 (-1) in let s := qw q in let p := qvec q in
    [vscale h (vopp p);
     Vec (h * s) (h * vz p) (- h * vy p);
     Vec (- h * vz p) (h * s) (h * vx p);
     Vec (h * vy p) (- h * vx p) (h * s)].

  (** the object with another position and orientation (Sylinder/Sylinder.cpp:91-99) *)
  Definition withPose (s : sylinder) (p : vec N) (q : quat N) : sylinder :=
    Syl (s_gid s) (s_index s) (s_rank s) (s_group s) (immovable s) (radius s) (radiusCol s) (slength s) (lengthCol s)
        (radiusSearch s) (sepmin s) (colBuf s) p q (mot s).

  (** Sylinder/Sylinder.cpp:91-99, stepEuler *)
  Definition stepEuler (fsin fcos : N -> N) (dt : N) (s : sylinder) : sylinder :=
    withPose s (vadd (spos s) (vscale dt (vel (mot s)))) (rotateEquatn fsin fcos (orient s) (omega (mot s)) dt).

  (** ** Mobility *)

  (** Sylinder/SylinderSystem.cpp:648-664: MobTrans and MobRot of one object *)
  Definition mobBlocks (flog : N -> N) (Pi mu : N) (s : sylinder) : mat3 N * mat3 N :=
    let q := axis s in
    let qq := mkmat (fun i j => vget q i * vget q j) in
    let Imqq := mkmat (fun i j => (if Nat.eqb i j then a_Z 1 else a_Z 0) - mget qq i j) in
    let '(dragPara, dragPerp, dragRot) := calcDragCoeff flog Pi mu s in
    let paraInv := if immovable s then a_Z 0 else a_Z 1 / dragPara in
    let perpInv := if immovable s then a_Z 0 else a_Z 1 / dragPerp in
    let rotInv := if immovable s then a_Z 0 else a_Z 1 / dragRot in
    (mkmat (fun i j => paraInv * mget qq i j + perpInv * mget Imqq i j),
     mkmat (fun i j => rotInv * mget qq i j + rotInv * mget Imqq i j)).

  (** Sylinder/SylinderSystem.cpp:672-708: the 18 (column, value) pairs of object i *)
  Definition mobEntries (flog : N -> N) (Pi mu : N) (i : nat) (s : sylinder) : list (nat * N) :=
    let '(T, Q) := mobBlocks flog Pi mu s in
    map (fun p => ((6 * i + snd p)%nat, mget T (fst p) (snd p))) ij33 ++
    map (fun p => ((6 * i + 3 + snd p)%nat, mget Q (fst p) (snd p))) ij33.

  (** Sylinder/SylinderSystem.cpp:622-717, calcMobMatrix on one rank: row pointers and entries, the objects
      processed in any [order] (omp parallel for); [junk] the initial content of the arrays *)
  Definition calcMobMatrix (flog : N -> N) (Pi mu : N) (order : list nat) (junk : nat * N) (ss : list sylinder)
    : outcome (list nat * list (nat * N)) :=
    let nLocal := length ss in
    do rp <- ofold (fun rp i => do v <- mread rp (i - 1); mwrite rp i (v + 3)%nat)
               (seq 1 (nLocal * 6)) (repeat 0%nat (nLocal * 6 + 1));
    do nnz <- mread rp (nLocal * 6);
    do es <- ofold (fun es i => do s <- mread ss i; splice es (18 * i) (mobEntries flog Pi mu i s)) order (repeat junk nnz);
    Done (rp, es).

  (** row r of the matrix as a sparse row, and the product with a local vector (Tpetra CRS) (filled at Sylinder/SylinderSystem.cpp:622-717) *)
  Definition mobRow (m : list nat * list (nat * N)) (r : nat) : list (nat * N) :=
    let lo := nth r (fst m) 0%nat in firstn (nth (S r) (fst m) 0%nat - lo) (skipn lo (snd m)).
  (** used at Sylinder/SylinderSystem.cpp:736 *)
  Definition mobApply (m : list nat * list (nat * N)) (n : nat) (x : list N) : list N :=
    map (fun r => fold_left a_add (map (fun e => snd e * nth (fst e) x (a_Z 0)) (mobRow m r)) (a_Z 0)) (seq 0 n).
End Syl.
Arguments motion : clear implicits.
Arguments sylinder : clear implicits.
