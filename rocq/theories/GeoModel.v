(** Model of Util/GeoUtil.hpp and of the periodic wrap of FDPS/particle_system.hpp. *)
From Coq Require Import List ZArith Bool.
From Verif Require Import Outcome ListUtil Arith ParticleModel.
Import ListNotations.
Local Open Scope arith_scope.

Section Geo.
  Context {N : arith}.

  (** while (x >= ub) x -= L;  (Util/GeoUtil.hpp:29-31) *)
  Fixpoint subWhile (fuel : nat) (ub L x : N) : outcome N :=
    if x >=? ub then match fuel with O => NoFuel | S f => subWhile f ub L (x - L) end else Done x.

  (** while (x < lb) x += L;  (Util/GeoUtil.hpp:32-34) *)
  Fixpoint addWhile (fuel : nat) (lb L x : N) : outcome N :=
    if x <? lb then match fuel with O => NoFuel | S f => addWhile f lb L (x + L) end else Done x.

  (** Util/GeoUtil.hpp:26-35, findPBCImage(lb, ub, x): the new x. *)
  Definition findPBCImage (fuel : nat) (lb ub x : N) : outcome N :=
    let L := ub - lb in
    do x1 <- subWhile fuel ub L x; addWhile fuel lb L x1.

  (** Util/GeoUtil.hpp:50-60, findPBCImage(lb, ub, x, trg): the new (x, trg). *)
  Definition findPBCImageTrg (fuel : nat) (lb ub x trg : N) : outcome (N * N) :=
    do trg <- findPBCImage fuel lb ub trg;
    let dist := x - trg in
    do dist <- findPBCImage fuel (a_Z 0) (ub - lb) dist;
    Done (if dist >? (ub - lb) * a_lit 1 (-1) then trg + dist - (ub - lb) else trg + dist, trg).

  (** FDPS/particle_system.hpp:812-820 (and 821-829, 831-839), one coordinate. *)
  Definition adjustCoordinate (fuel : nat) (low high x : N) : outcome N :=
    let len := high - low in
    do x1 <- addWhile fuel low len x;
    do x2 <- subWhile fuel high len x1;
    Done (if x2 =? high then low else x2).

  (** FDPS/particle_system.hpp:798-844, adjustPositionIntoRootDomain, one particle. *)
  Definition adjustPosition (fuel : nat) (root : ort N) (p : vec N) : outcome (vec N) :=
    do x <- adjustCoordinate fuel (vx (olow root)) (vx (ohigh root)) (vx p);
    do y <- adjustCoordinate fuel (vy (olow root)) (vy (ohigh root)) (vy p);
    do z <- adjustCoordinate fuel (vz (olow root)) (vz (ohigh root)) (vz p);
    Done (Vec x y z).

  (** the particles of one rank; the loop iterations are independent (OpenMP) (FDPS/particle_system.hpp:798-830) *)
  Definition adjustPositions (fuel : nat) (root : ort N) (ps : list (vec N)) : outcome (list (vec N)) :=
    omap (adjustPosition fuel root) ps.

  (** Util/GeoUtil.hpp:72-113; cos, sin, acos are library functions, [Pi] the literal. *)
  Definition getRandPointInCircle (fcos fsin : N -> N) (Pi radius u01a u01b : N) : N * N :=
    let theta := a_Z 2 * Pi * u01a in
    let r := radius * a_sqrt u01b in
    (r * fcos theta, r * fsin theta).
  (** Util/GeoUtil.hpp:91-96 *)
  Definition getRandPointAngleOnSphere (facos : N -> N) (Pi u01a u01b : N) : N * N :=
    (a_Z 2 * Pi * u01a, facos (a_Z 2 * u01b - a_Z 1)).
  (** Util/GeoUtil.hpp:106-113 *)
  Definition getRandPointOnSphere (fcos fsin facos : N -> N) (Pi radius u01a u01b : N) : vec N :=
    let (theta, phi) := getRandPointAngleOnSphere facos Pi u01a u01b in
    Vec (fcos theta * fsin phi * radius) (fsin theta * fsin phi * radius) (fcos phi * radius).
End Geo.
