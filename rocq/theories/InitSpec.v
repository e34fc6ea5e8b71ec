(** What a random initial configuration must be. *)
From Coq Require Import List Reals.
From Verif Require Import Arith ParticleModel ConModel VecSpec InitModel.
Local Open Scope R_scope.

(** a box with positive edges *)
Definition openBox (low high : vec R) : Prop := vx low < vx high /\ vy low < vy high /\ vz low < vz high.
(** inside the box, the upper faces excluded *)
Definition within (low high p : vec R) : Prop := vx low <= vx p < vx high /\ vy low <= vy p < vy high /\ vz low <= vz p < vz high.
(** uniform numbers are in [0,1) *)
Definition uniform (r : randoms R_arith) : Prop :=
  (forall k, 0 <= vget (r_pos r) k < 1) /\ (forall k, 0 <= vget (r_quat r) k < 1) /\ 0 <= fst (r_circ r) < 1 /\ 0 <= snd (r_circ r) < 1.
(** in the circle with the smaller of the two edges as diameter around the middle of the y and z edges *)
Definition inCircle (low high p : vec R) : Prop :=
  let cy := (vy low + vy high) / 2 in let cz := (vz low + vz high) / 2 in
  let rad := Rmin (vy high - vy low) (vz high - vz low) / 2 in
  (vy p - cy) * (vy p - cy) + (vz p - cz) * (vz p - cz) < rad * rad.
