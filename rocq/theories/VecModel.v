(** The Eigen operations on 3-vectors and quaternions used by the code
    (Util/EigenDef.hpp:20-60: Evec3, Emat3, Equatn).  Sums of three products are evaluated
    left to right; the compiler may vectorise or contract them. *)
From Coq Require Import List ZArith Bool.
From Verif Require Import Arith ParticleModel.
Import ListNotations.

Section Vectors.
  Context {N : arith}.
  Local Open Scope arith_scope.

  (** a + b, a - b, s * a, -a (Util/EigenDef.hpp:34, Eigen::Vector3d operators) *)
  Definition vadd (a b : vec N) : vec N := Vec (vx a + vx b) (vy a + vy b) (vz a + vz b).
  (** Util/EigenDef.hpp:34 *)
  Definition vsub (a b : vec N) : vec N := Vec (vx a - vx b) (vy a - vy b) (vz a - vz b).
  (** Util/EigenDef.hpp:34 *)
  Definition vscale (s : N) (a : vec N) : vec N := Vec (s * vx a) (s * vy a) (s * vz a).
  (** Util/EigenDef.hpp:34 *)
  Definition vopp (a : vec N) : vec N := Vec (- vx a) (- vy a) (- vz a).
  (** a.dot(b), a.norm(), a.cross(b) (Util/EigenDef.hpp:34) *)
  Definition vdot (a b : vec N) : N := vx a * vx b + vy a * vy b + vz a * vz b.
  (** Util/EigenDef.hpp:34 *)
  Definition vnorm (a : vec N) : N := a_sqrt (vdot a a).
  (** Util/EigenDef.hpp:34 *)
  Definition vcross (a b : vec N) : vec N :=
    Vec (vy a * vz b - vz a * vy b) (vz a * vx b - vx a * vz b) (vx a * vy b - vy a * vx b).
  (** a.normalized(): a itself if its square is not positive (Util/EigenDef.hpp:34, Eigen/src/Core/Dot.h) *)
  Definition vnormalized (a : vec N) : vec N :=
    let z := vdot a a in
    if z >? a_Z 0 then Vec (vx a / a_sqrt z) (vy a / a_sqrt z) (vz a / a_sqrt z) else a.

  (** Equatn: coefficients in memory order x, y, z, w (Util/EigenDef.hpp:46) *)
  Record quat := Quat { qx : N; qy : N; qz : N; qw : N }.
  (** imaginary part (Util/EigenDef.hpp:46) *)
  Definition qvec (q : quat) : vec N := Vec (qx q) (qy q) (qz q).
  (** Util/EigenDef.hpp:46 *)
  Definition qsq (q : quat) : N := qx q * qx q + qy q * qy q + qz q * qz q + qw q * qw q.
  (** q.normalize() (Util/EigenDef.hpp:46) *)
  Definition qnormalize (q : quat) : quat :=
    let z := qsq q in
    if z >? a_Z 0 then Quat (qx q / a_sqrt z) (qy q / a_sqrt z) (qz q / a_sqrt z) (qw q / a_sqrt z) else q.
  (** q * v, rotation of a vector (Eigen/src/Geometry/Quaternion.h, _transformVector) *)
  Definition qrot (q : quat) (v : vec N) : vec N :=
    let uv := vcross (qvec q) v in
    let uv := vadd uv uv in
    vadd (vadd v (vscale (qw q) uv)) (vcross (qvec q) uv).
  (** Evec3(0,0,1) (as in Sylinder/Sylinder.cpp:102) *)
  Definition ez : vec N := Vec (a_Z 0) (a_Z 0) (a_Z 1).
End Vectors.
Arguments quat : clear implicits.
