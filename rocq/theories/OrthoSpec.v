(** What the distance of two boxes is, in exact reals. *)
From Coq Require Import ZArith Reals.
From Flocq Require Import BinarySingleNaN.
From Verif Require Import F64 Arith ParticleModel.
Local Open Scope R_scope.

(** the point p lies in the closed box *)
Definition inBox (b : ort R) (p : vec R) : Prop :=
  vx (olow b) <= vx p <= vx (ohigh b) /\ vy (olow b) <= vy p <= vy (ohigh b) /\ vz (olow b) <= vz p <= vz (ohigh b).
(** the box is not inside out *)
Definition proper (b : ort R) : Prop :=
  vx (olow b) <= vx (ohigh b) /\ vy (olow b) <= vy (ohigh b) /\ vz (olow b) <= vz (ohigh b).
(** the box has an inside *)
Definition solid (b : ort R) : Prop :=
  vx (olow b) < vx (ohigh b) /\ vy (olow b) < vy (ohigh b) /\ vz (olow b) < vz (ohigh b).
(** every point of a is a point of b *)
Definition inside (a b : ort R) : Prop := forall p, inBox a p -> inBox b p.

(** the squared distance of p and the image of q moved by s *)
Definition dist2 (p q s : vec R) : R :=
  (vx p - (vx q + vx s)) ^ 2 + (vy p - (vy q + vy s)) ^ 2 + (vz p - (vz q + vz s)) ^ 2.

(** open space: one image *)
Definition here (s : vec R) : Prop := s = Vec 0 0 0.
(** periodic space: all images *)
Definition images (len s : vec R) : Prop :=
  exists i j k : Z, s = Vec (IZR i * vx len) (IZR j * vy len) (IZR k * vz len).

(** D is the least squared distance of a point in A and an image of a point in B *)
Definition leastDist (image : vec R -> Prop) (A B : vec R -> Prop) (D : R) : Prop :=
  (exists p q s, A p /\ B q /\ image s /\ dist2 p q s = D) /\
  (forall p q s, A p -> B q -> image s -> D <= dist2 p q s).

(** how far the middles of two boxes are apart along each axis is at most a period *)
Definition centresNear (len : vec R) (a b : ort R) : Prop :=
  let near l x0 x1 y0 y1 := Rabs ((x0 + x1) / 2 - (y0 + y1) / 2) <= l in
  near (vx len) (vx (olow a)) (vx (ohigh a)) (vx (olow b)) (vx (ohigh b)) /\
  near (vy len) (vy (olow a)) (vy (ohigh a)) (vy (olow b)) (vy (ohigh b)) /\
  near (vz len) (vz (olow a)) (vz (ohigh a)) (vz (olow b)) (vz (ohigh b)).
(** the box that is a single point *)
Definition pointBox (p : vec R) : ort R := Ort p p.
(** the coordinates are finite doubles *)
Definition finiteVec (v : vec f64) : Prop := is_finite (vx v) = true /\ is_finite (vy v) = true /\ is_finite (vz v) = true.
(** all of a box *)
Definition finiteBox (b : ort f64) : Prop := finiteVec (olow b) /\ finiteVec (ohigh b).
