(** Properties C27 (boundary projection) and C28 (wall collisions). *)
From Coq Require Import List ZArith Bool Reals Permutation.
From Verif Require Import Outcome F64 Arith ParticleModel ConModel VecModel VecSpec VecProofs SylModel BoundaryModel BoundarySpec BoundaryProofs SylFloat.
Import ListNotations.
Local Open Scope R_scope.

(** ** C27 *)
Theorem C27_project : forall b q P d, regular b -> off_centre b q -> project (N := R_arith) b q = (P, d) ->
  nearest b q P /\ d = scale3 (dist3 q P) (inward b P) /\ unit3 (inward b P) /\
  (allowed b q -> q = add3 P d) /\ (~ allowed b q -> q = sub3 P d).
Proof. exact project_ok. Qed.
Print Assumptions C27_project.

(** boundaries built by the constructors from a non-zero normal or axis and a positive radius are regular *)
Theorem C27_constructed : forall c n r inside, n <> zero3 -> 0 < r ->
  regular (newSphereShell (N := R_arith) c r inside) /\ regular (newWall (N := R_arith) c n) /\
  regular (newTube (N := R_arith) c n r inside).
Proof. exact constructed_regular. Qed.
Print Assumptions C27_constructed.

(** On the axis of a tube of radius 1 the projection is the query itself, at distance 1 from the surface. *)
Theorem C27_tube_axis_refuted : exists (b : boundary F_arith) (q : vec F_arith),
  match b with Tube c a r _ => veqb a (v3 0 0 1) && feq r (f_ofZ 1) && veqb c (v3 0 0 0) | _ => false end = true /\
  veqb (fst (project b q)) (v3 0 0 5) = true.
Proof. exists (Tube (N := F_arith) (v3 0 0 0) (v3 0 0 1) (f_ofZ 1) true), (v3 0 0 5). split; vm_compute; reflexivity. Qed.
Print Assumptions C27_tube_axis_refuted.

(** At the centre of a sphere the projection is not a number. *)
Theorem C27_sphere_centre_refuted : exists c r, flt (f_ofZ 0) r = true /\
  let P := fst (project (SphereShell (N := F_arith) c r true) c) in feq (vx P) (vx P) = false.
Proof. exists (v3 0 0 0), (f_ofZ 1). split; vm_compute; reflexivity. Qed.
Print Assumptions C27_sphere_centre_refuted.

(** inside a sphere of radius 5 about (1,0,0), the query (1,3,0): projection (1,5,0), delta pointing inward *)
Example C27_example_sphere : let (P, d) := project (SphereShell (N := F_arith) (v3 1 0 0) (f_ofZ 5) true) (v3 1 3 0) in
  veqb P (v3 1 5 0) && veqb d (v3 0 (-2) 0) = true.
Proof. vm_compute. reflexivity. Qed.
(** outside it: beyond the wall *)
Example C27_example_beyond : let (P, d) := project (SphereShell (N := F_arith) (v3 1 0 0) (f_ofZ 5) true) (v3 1 8 0) in
  veqb P (v3 1 5 0) && veqb d (v3 0 (-3) 0) = true.
Proof. vm_compute. reflexivity. Qed.
Example C27_example_tube : let (P, d) := project (Tube (N := F_arith) (v3 0 0 0) (v3 0 0 1) (f_ofZ 2) false) (v3 4 0 7) in
  veqb P (v3 2 0 7) && veqb d (v3 2 0 0) = true.
Proof. vm_compute. reflexivity. Qed.
Example C27_example_hypotheses :
  let b := Wall (N := R_arith) (Vec 0 0 0) (Vec 0 0 1) in regular b /\ off_centre b (Vec 1 2 (-3)) /\ ~ allowed b (Vec 1 2 (-3)).
Proof. exact wall_example. Qed.

(** ** C28 *)

(** one object at one boundary *)
Theorem C28_object : forall (buf : R) b (s : sylinder R_arith), regular b -> (forall e, In e (ends s) -> off_centre b (fst e)) ->
  0 <= buf -> 0 < radiusCol s ->
  exists ls, checkObject (N := R_arith) buf b s = concat ls /\ Forall2 (checked buf b s) (ends s) ls.
Proof. exact checkObject_R. Qed.
Print Assumptions C28_object.

(** all objects and boundaries, any schedule: the pool gains exactly these blocks *)
Theorem C28_collect : forall {N : arith} (buf : N) plan bs (ss : list (sylinder N)) p,
  length plan = length bs ->
  Forall (fun op => Permutation (fst op) (seq 0 (length ss)) /\ forall i, (i < length ss)%nat -> (snd op i < length p)%nat) plan ->
  exists p', collectBoundaryCollision buf plan bs ss p = Done p' /\ length p' = length p /\
    Permutation (concat p') (concat p ++ flat_map (fun b => flat_map (checkObject buf b) ss) bs).
Proof. exact (@collect_perm). Qed.
Print Assumptions C28_collect.

(** A sphere-like object (radius 1, length 1.875, hence surface radius 1.9375) at distance 1.75 from the wall z = 0:
    it overlaps the wall by 0.1875, and with buffer 0.25 no block is made. *)
Theorem C28_short_refuted : exists (buf z : f64) (s : sylinder F_arith),
  isSphere (N := F_arith) true s = true /\ flt z (fadd (fmul (lengthCol s) (f_lit 1 (-1))) (radiusCol s)) = true /\
  flt (f_ofZ 0) buf = true /\ feq (vz (spos s)) z = true /\
  is_nil (checkObject buf (Wall (N := F_arith) (v3 0 0 0) (v3 0 0 1)) s) = true.
Proof.
  exists (f_lit 1 (-2)), (f_lit 7 (-2)), (object 0 (f_ofZ 1) (f_lit 15 (-3)) (Vec (f_ofZ 0) (f_ofZ 0) (f_lit 7 (-2))) upright).
  repeat split; vm_compute; reflexivity.
Qed.
Print Assumptions C28_short_refuted.

(** An end exactly on the wall: the block's normal is not a number. *)
Theorem C28_on_surface_refuted : exists (s : sylinder F_arith),
  match checkObject (f_lit 1 (-2)) (Wall (N := F_arith) (v3 0 0 0) (v3 0 0 1)) s with
  | [k] => negb (feq (vz (normI k)) (vz (normI k))) | _ => false end = true.
Proof. exists (object 0 (f_ofZ 1) (f_ofZ 0) (v3 0 0 0) upright). vm_compute. reflexivity. Qed.
Print Assumptions C28_on_surface_refuted.

(** a rod of length 4, radius 1, upright at height 2.5 above the wall: the lower end (0.5 above) overlaps by 0.5 *)
Example C28_example_rod :
  match checkObject (f_lit 1 (-2)) (Wall (N := F_arith) (v3 0 0 0) (v3 0 0 1))
          (object 7 (f_ofZ 1) (f_ofZ 4) (Vec (f_ofZ 0) (f_ofZ 0) (f_lit 5 (-1))) upright) with
  | [k] => feq (delta0 k) (f_lit (-1) (-1)) && veqb (normI k) (v3 0 0 1) && veqb (posI k) (v3 0 0 (-2)) && oneSide k && negb (bilateral k)
  | _ => false end = true.
Proof. vm_compute. reflexivity. Qed.
(** deep penetration: the lower end is 3 below the wall, the gap is -3 - 1 *)
Example C28_example_deep :
  match checkObject (f_lit 1 (-2)) (Wall (N := F_arith) (v3 0 0 0) (v3 0 0 1)) (object 7 (f_ofZ 1) (f_ofZ 8) (v3 0 0 1) upright) with
  | [k] => feq (delta0 k) (f_ofZ (-4)) && veqb (normI k) (v3 0 0 1) | _ => false end = true.
Proof. vm_compute. reflexivity. Qed.
Example C28_example_far :
  is_nil (checkObject (f_lit 1 (-2)) (Wall (N := F_arith) (v3 0 0 0) (v3 0 0 1)) (object 7 (f_ofZ 1) (f_ofZ 8) (v3 0 0 9) upright)) = true.
Proof. vm_compute. reflexivity. Qed.
