(** Euclidean geometry of R^3 and rotations. *)
From Coq Require Import Reals.
From Verif Require Import Arith ParticleModel VecModel.
Local Open Scope R_scope.

Definition add3 (a b : vec R) : vec R := Vec (vx a + vx b) (vy a + vy b) (vz a + vz b).
Definition sub3 (a b : vec R) : vec R := Vec (vx a - vx b) (vy a - vy b) (vz a - vz b).
Definition scale3 (s : R) (a : vec R) : vec R := Vec (s * vx a) (s * vy a) (s * vz a).
Definition opp3 (a : vec R) : vec R := Vec (- vx a) (- vy a) (- vz a).
Definition dot3 (a b : vec R) : R := vx a * vx b + vy a * vy b + vz a * vz b.
Definition cross3 (a b : vec R) : vec R :=
  Vec (vy a * vz b - vz a * vy b) (vz a * vx b - vx a * vz b) (vx a * vy b - vy a * vx b).
Definition norm3 (a : vec R) : R := sqrt (dot3 a a).
Definition dist3 (a b : vec R) : R := norm3 (sub3 a b).
Definition zero3 : vec R := Vec 0 0 0.
Definition unit3 (a : vec R) : Prop := dot3 a a = 1.
(** part of v orthogonal to the unit vector a *)
Definition reject (a v : vec R) : vec R := sub3 v (scale3 (dot3 v a) a).

(** quaternions *)
Definition unitq (q : quat R_arith) : Prop := qx q * qx q + qy q * qy q + qz q * qz q + qw q * qw q = 1.
(** the Hamilton product *)
Definition hamilton (a b : quat R_arith) : quat R_arith :=
  Quat (qw a * qx b + qx a * qw b + qy a * qz b - qz a * qy b)
       (qw a * qy b - qx a * qz b + qy a * qw b + qz a * qx b)
       (qw a * qz b + qx a * qy b - qy a * qx b + qz a * qw b)
       (qw a * qw b - qx a * qx b - qy a * qy b - qz a * qz b).
(** rotation of v by the angle t about the unit axis n (Rodrigues) *)
Definition rotate (n : vec R) (t : R) (v : vec R) : vec R :=
  add3 (add3 (scale3 (cos t) v) (scale3 (sin t) (cross3 n v))) (scale3 ((1 - cos t) * dot3 n v) n).
