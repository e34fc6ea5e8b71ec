(** Drag, mobility and rotations of the objects. *)
From Coq Require Import List Arith ZArith Reals.
From Verif Require Import Outcome Arith ParticleModel ConModel VecModel VecSpec SylModel.
Import ListNotations.
Local Open Scope R_scope.

(** force and torque of object i in a vector with six entries per object *)
Definition force_of (x : list R) (i : nat) : vec R := Vec (nth (6 * i) x 0) (nth (6 * i + 1) x 0) (nth (6 * i + 2) x 0).
Definition torque_of (x : list R) (i : nat) : vec R := Vec (nth (6 * i + 3) x 0) (nth (6 * i + 4) x 0) (nth (6 * i + 5) x 0).

(** the response of one object: 1/para along its axis u, 1/perp across, 1/rot to torque *)
Definition response (u : vec R) (para perp : R) (v : vec R) : vec R :=
  add3 (scale3 (dot3 v u / para) u) (scale3 (/ perp) (reject u v)).

(** positive radius, non-negative length, unit orientation *)
Definition proper (s : sylinder R_arith) : Prop := 0 < radius s /\ 0 <= slength s /\ unitq (orient s).
(** a slender rod: length at least twice the radius *)
Definition elongated (s : sylinder R_arith) : Prop := 2 * radius s <= slength s.

(** a history of rotations (angular velocity, time) *)
Definition rotations (q : quat R_arith) (h : list (vec R * R)) : quat R_arith :=
  fold_left (fun q od => rotateEquatn (N := R_arith) sin cos q (fst od) (snd od)) h q.

(** y is the velocity of every object under the forces and torques x *)
Definition moves (mu : R) (ss : list (sylinder R_arith)) (x y : list R) : Prop :=
  length y = (6 * length ss)%nat /\
  forall i s, nth_error ss i = Some s ->
    if immovable s then force_of y i = zero3 /\ torque_of y i = zero3
    else forall para perp rot, calcDragCoeff (N := R_arith) ln PI mu s = (para, perp, rot) ->
      force_of y i = response (axis (N := R_arith) s) para perp (force_of x i) /\ torque_of y i = scale3 (/ rot) (torque_of x i).
