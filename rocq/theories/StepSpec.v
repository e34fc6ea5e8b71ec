(** What one time step does to the objects of a rank. *)
From Coq Require Import List Arith ZArith Bool Reals.
From Verif Require Import Outcome Arith ParticleModel ConModel VecModel VecSpec SylModel SylSpec StepModel.
Import ListNotations.

(** ** In any arithmetic *)
Section Any.
  Context {N : arith}.
  (** linear and rotational part of object i in a vector with six entries per object *)
  Definition lin (x : list N) (i : nat) : vec N := Vec (nth (6 * i) x (a_Z 0)) (nth (6 * i + 1) x (a_Z 0)) (nth (6 * i + 2) x (a_Z 0)).
  Definition rot (x : list N) (i : nat) : vec N := Vec (nth (6 * i + 3) x (a_Z 0)) (nth (6 * i + 4) x (a_Z 0)) (nth (6 * i + 5) x (a_Z 0)).

  (** the totals are the sums of the stored parts *)
  Definition totals (m : motion N) : Prop :=
    vel m = vadd (vadd (vadd (velNonB m) (velBrown m)) (velCol m)) (velBi m) /\
    omega m = vadd (vadd (vadd (omegaNonB m) (omegaBrown m)) (omegaCol m)) (omegaBi m) /\
    force m = vadd (vadd (forceNonB m) (forceCol m)) (forceBi m) /\
    torque m = vadd (vadd (torqueNonB m) (torqueCol m)) (torqueBi m).
  (** the constraint parts are those returned by the solver for object i *)
  Definition constraint_parts (fu vu fb vb : list N) (i : nat) (m : motion N) : Prop :=
    velCol m = lin vu i /\ omegaCol m = rot vu i /\ velBi m = lin vb i /\ omegaBi m = rot vb i /\
    forceCol m = lin fu i /\ torqueCol m = rot fu i /\ forceBi m = lin fb i /\ torqueBi m = rot fb i.
  (** an optional vector for n objects *)
  Definition sized (n : nat) (o : option (list N)) : Prop := match o with Some x => length x = (6 * n)%nat | None => True end.
End Any.

(** ** In real arithmetic *)
Local Open Scope R_scope.
(** in-plane part of a motion: no z translation, only z rotation *)
Definition planar_lin (b : bool) (v : vec R) : vec R := if b then Vec (vx v) (vy v) 0 else v.
Definition planar_rot (b : bool) (v : vec R) : vec R := if b then Vec 0 0 (vz v) else v.
(** part of an optional vector *)
Definition part (f : list R -> nat -> vec R) (o : option (list R)) (i : nat) : vec R := match o with Some x => f x i | None => zero3 end.
Definition lin_R : list R -> nat -> vec R := lin (N := R_arith).
Definition rot_R : list R -> nat -> vec R := rot (N := R_arith).

(** no velocity entries for the immovable objects *)
Definition quiet (ss : list (sylinder R_arith)) (x : list R) : Prop :=
  forall i s, nth_error ss i = Some s -> immovable s = true -> lin_R x i = zero3 /\ rot_R x i = zero3.

(** matrix times vector *)
Definition apply3 (m : mat3 R) (v : vec R) : vec R := Vec (dot3 (vx m) v) (dot3 (vy m) v) (dot3 (vz m) v).
(** transposed product m m^T *)
Definition gram (m : mat3 R) (i j : nat) : R := dot3 (vget m i) (vget m j).
