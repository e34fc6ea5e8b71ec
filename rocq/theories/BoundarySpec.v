(** The three boundaries as sets of points. *)
From Coq Require Import Reals.
From Verif Require Import Arith ParticleModel VecModel VecSpec BoundaryModel.
Local Open Scope R_scope.

(** positive radius, unit normal or axis *)
Definition regular (b : boundary R_arith) : Prop :=
  match b with
  | SphereShell _ r _ => 0 < r
  | Wall _ n => unit3 n
  | Tube _ a r _ => unit3 a /\ 0 < r
  end.
(** points of the surface *)
Definition surface (b : boundary R_arith) (p : vec R) : Prop :=
  match b with
  | SphereShell c r _ => dist3 p c = r
  | Wall c n => dot3 (sub3 p c) n = 0
  | Tube c a r _ => norm3 (reject a (sub3 p c)) = r
  end.
(** the side where objects belong, with the surface *)
Definition allowed (b : boundary R_arith) (q : vec R) : Prop :=
  match b with
  | SphereShell c r inside => if inside then dist3 q c <= r else r <= dist3 q c
  | Wall c n => 0 <= dot3 (sub3 q c) n
  | Tube c a r inside => if inside then norm3 (reject a (sub3 q c)) <= r else r <= norm3 (reject a (sub3 q c))
  end.
(** the normal at a surface point towards that side *)
Definition inward (b : boundary R_arith) (p : vec R) : vec R :=
  match b with
  | SphereShell c r inside => scale3 ((if inside then -1 else 1) / r) (sub3 p c)
  | Wall c n => n
  | Tube c a r inside => scale3 ((if inside then -1 else 1) / r) (reject a (sub3 p c))
  end.
(** not the centre of the sphere, not on the axis of the tube *)
Definition off_centre (b : boundary R_arith) (q : vec R) : Prop :=
  match b with
  | SphereShell c _ _ => q <> c
  | Wall _ _ => True
  | Tube c a _ _ => reject a (sub3 q c) <> zero3
  end.
(** p is a nearest point of the surface *)
Definition nearest (b : boundary R_arith) (q p : vec R) : Prop :=
  surface b p /\ forall s, surface b s -> dist3 q p <= dist3 q s.

From Coq Require Import List.
From Verif Require Import ConModel SylModel.
Import ListNotations.

(** distance of q to the surface, negative on the wrong side; P the nearest point *)
Definition signed (b : boundary R_arith) (q P : vec R) (x : R) : Prop :=
  nearest b q P /\ (allowed b q -> x = dist3 q P) /\ (~ allowed b q -> x = - dist3 q P).
(** the points checked, with the radius of the surface around them *)
Definition ends (s : sylinder R_arith) : list (vec R * R) :=
  if isSphere (N := R_arith) true s then [(spos s, lengthCol s / 2 + radiusCol s)]
  else let arm := scale3 (lengthCol s / 2) (axis (N := R_arith) s) in
       [(sub3 (spos s) arm, radiusCol s); (add3 (spos s) arm, radiusCol s)].
(** one-sided unilateral block of object s at q, surface radius rad, signed distance x, wall point P *)
Definition wall_block (b : boundary R_arith) (s : sylinder R_arith) (q P : vec R) (x rad : R) (k : block R_arith) : Prop :=
  delta0 k = x - rad /\ gamma k = 0 /\ oneSide k = true /\ bilateral k = false /\ kappa k = 0 /\
  gidI k = s_gid s /\ globalIndexI k = s_index s /\ posI k = sub3 q (spos s) /\ labI k = q /\ labJ k = P /\
  (x <> 0 -> normI k = inward b P).
(** exactly one such block if the end is close or beyond, otherwise none *)
Definition checked (buf : R) (b : boundary R_arith) (s : sylinder R_arith) (e : vec R * R) (l : list (block R_arith)) : Prop :=
  exists P x, signed b (fst e) P x /\
    (x < (1 + 2 * buf) * radiusCol s -> exists k, l = [k] /\ wall_block b s (fst e) P x (snd e) k) /\
    ((1 + 2 * buf) * radiusCol s <= x -> l = []).
