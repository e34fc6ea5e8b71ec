(** What Boundary::check asks of a projection. *)
From Coq Require Import Reals.
From Verif Require Import Arith ParticleModel VecModel VecSpec BoundaryModel.
Local Open Scope R_scope.

(** the tolerance *)
Definition tol : R := 10000 / 4503599627370496.
(** distance to the surface at most e *)
Definition close_to (b : boundary R_arith) (e : R) (p : vec R) : Prop :=
  match b with
  | SphereShell c r _ => Rabs (dist3 p c - r) <= e
  | Wall c n => Rabs (dot3 (sub3 p c) n) <= e
  | Tube c a r _ => Rabs (norm3 (reject a (sub3 p c)) - r) <= e
  end.
(** the direction towards the allowed side at a point near the surface; zero at the centre *)
Definition towards (b : boundary R_arith) (p : vec R) : vec R :=
  match b with
  | SphereShell c _ inside => scale3 ((if inside then -1 else 1) / dist3 p c) (sub3 p c)
  | Wall c n => n
  | Tube c a _ inside => let v := reject a (sub3 p c) in scale3 ((if inside then -1 else 1) / norm3 v) v
  end.
(** on the surface up to e, as long as the way from the query, and pointing to the allowed side: the cosine of the
    angle between delta and the normal is at least 1 - e *)
Definition plausible (b : boundary R_arith) (e : R) (q p d : vec R) : Prop :=
  close_to b e p /\ Rabs (dist3 q p - norm3 d) <= e /\ d <> zero3 /\ (1 - e) * norm3 d <= dot3 (towards b p) d.
