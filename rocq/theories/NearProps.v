(** C34-C37: pair collisions. *)
From Coq Require Import List Arith ZArith Bool Reals Lra Permutation.
From Verif Require Import Outcome F64 Arith ParticleModel ConModel VecModel VecSpec SylModel SylFloat BoundaryModel SegModel SegSpec NearModel NearSpec NearProofs.
Import ListNotations.
Local Open Scope R_scope.

(** objects of the examples: core length l, radius r, equal collision sizes, buffer 1/4 *)
Definition ball (gid : Z) (r : f64) (p : vec F_arith) : nearEP F_arith :=
  NearEP (N := F_arith) gid gid 0 r (f_ofZ 0) r (f_ofZ 0) (f_lit 1 (-2)) p (v3 0 0 1).
Definition rod (gid : Z) (r l : f64) (p d : vec F_arith) : nearEP F_arith :=
  NearEP (N := F_arith) gid gid 0 r l r l (f_lit 1 (-2)) p d.

(** ** C34 *)

(** in any arithmetic: over any calls of the functor on any threads, the pool gains the blocks of the delivered pairs *)
Theorem C34_collect : forall {N : arith} (Pi : N) calls p,
  Forall (fun c : nat * (list (nearEP N) * list (nearEP N)) => (fst c < length p)%nat) calls ->
  exists p' ls, nearCalls Pi calls p = Done p' /\ length p' = length p /\
    Forall2 (fun ij l => nearPair Pi (fst ij) (snd ij) = Done l) (delivered calls) ls /\
    Permutation (concat p') (concat p ++ concat ls).
Proof. exact (@calls_ok). Qed.
Print Assumptions C34_collect.

(** one pair: nothing unless the target has the smaller id, then one block exactly if the cores are closer than the limit *)
Theorem C34_pair : forall a b : ep,
  ((e_gid b <= e_gid a)%Z -> nearPair (N := R_arith) PI a b = Done []) /\
  ((e_gid a < e_gid b)%Z -> exists l P Q, nearPair (N := R_arith) PI a b = Done l /\ closest a b P Q /\
     (dist3 P Q < limit a b -> exists k, l = [k] /\ contact_block a b P Q k) /\ (limit a b <= dist3 P Q -> l = [])).
Proof. exact pair_all. Qed.
Print Assumptions C34_pair.

(** exactly one block between two objects when exactly one delivered pair of images of theirs is within the buffer *)
Theorem C34_exactly_one : forall calls p g h,
  Forall (fun c : nat * (list ep * list ep) => (fst c < length p)%nat) calls -> between g h (concat p) = [] ->
  exists p', nearCalls (N := R_arith) PI calls p = Done p' /\
    ((h <= g)%Z -> between g h (concat p') = []) /\
    ((g < h)%Z -> (forall ij, In ij (delivered calls) -> named g h ij -> too_far (fst ij) (snd ij)) -> between g h (concat p') = []) /\
    (forall D1 ij D2, (g < h)%Z -> delivered calls = D1 ++ ij :: D2 -> named g h ij -> near_enough (fst ij) (snd ij) ->
       (forall ij', In ij' (D1 ++ D2) -> named g h ij' -> too_far (fst ij') (snd ij')) ->
       exists k P Q, between g h (concat p') = [k] /\ contact_block (fst ij) (snd ij) P Q k).
Proof. exact exactly_one. Qed.
Print Assumptions C34_exactly_one.

(** three objects on two threads, each delivered as a target with all as sources: two blocks, 1-2 on thread 1 and 2-5 on thread 0 *)
Example C34_example :
  let a := ball 1 (f_ofZ 1) (v3 0 0 0) in let b := rod 2 (f_ofZ 1) (f_ofZ 8) (v3 2 0 0) (v3 0 1 0) in let c := ball 5 (f_ofZ 1) (v3 4 4 0) in
  match nearCalls (N := F_arith) (f_ofZ 3) [(0, ([b; c], [a; b; c])); (1, ([a], [c; b; a]))]%nat [[]; []] with
  | Done [[k]; [k']] => Z.eqb (gidI k) 2 && Z.eqb (gidJ k) 5 && Z.eqb (gidI k') 1 && Z.eqb (gidJ k') 2
  | _ => false end = true.
Proof. vm_compute. reflexivity. Qed.

(** ** C35 *)
Theorem C35_block : forall a b : ep, (e_gid a < e_gid b)%Z -> exists l P Q, nearPair (N := R_arith) PI a b = Done l /\ closest a b P Q /\
  forall k, In k l -> contact_block a b P Q k.
Proof. exact pair_blocks. Qed.
Print Assumptions C35_block.

Theorem C35_balance : forall a b P Q k g o, contact_block a b P Q k ->
  add3 (scale3 g (normI k)) (scale3 g (normJ k)) = zero3 /\
  add3 (cross3 (sub3 (add3 (e_pos a) (posI k)) o) (scale3 g (normI k))) (cross3 (sub3 (add3 (e_pos b) (posJ k)) o) (scale3 g (normJ k))) = zero3.
Proof. exact balance. Qed.
Print Assumptions C35_balance.

(** crossing cores: both normals are zero, the overlap cannot be resolved *)
Theorem C35_crossing_refuted : exists a b : nearEP F_arith,
  match nearPair (N := F_arith) (f_ofZ 3) a b with
  | Done [k] => flt (delta0 k) (f_ofZ 0) && veqb (normI k) (v3 0 0 0) && veqb (normJ k) (v3 0 0 0) | _ => false end = true.
Proof.
  exists (rod 1 (f_ofZ 1) (f_ofZ 8) (v3 0 0 0) (v3 1 0 0)), (rod 2 (f_ofZ 1) (f_ofZ 8) (v3 0 0 0) (v3 0 1 0)). vm_compute. reflexivity.
Qed.
Print Assumptions C35_crossing_refuted.

(** a rod along y (target) and a larger ball at (2.5, 3, 0): gap -0.5, the rod pushed to -x at (0, 3, 0) *)
Example C35_example :
  match nearPair (N := F_arith) (f_ofZ 3) (rod 1 (f_ofZ 1) (f_ofZ 8) (v3 0 0 0) (v3 0 1 0)) (ball 2 (f_ofZ 2) (Vec (f_lit 5 (-1)) (f_ofZ 3) (f_ofZ 0))) with
  | Done [k] => Z.eqb (gidI k) 1 && feq (delta0 k) (f_lit (-1) (-1)) && feq (gamma k) (f_lit 1 (-1)) && veqb (normI k) (v3 (-1) 0 0)
      && veqb (normJ k) (v3 1 0 0) && veqb (posI k) (v3 0 3 0) && veqb (posJ k) (v3 0 0 0) && negb (oneSide k) && negb (bilateral k)
  | _ => false end = true.
Proof. vm_compute. reflexivity. Qed.

(** ** C36 *)
Theorem C36_search : forall a b p q, sized a -> sized b -> covered a -> covered b -> core_point a p -> core_point b q -> dist3 p q < limit a b ->
  dist3 (e_pos a) (e_pos b) < Rmax (getRSearch (N := R_arith) a) (getRSearch (N := R_arith) b).
Proof. exact search_ok. Qed.
Print Assumptions C36_search.

Theorem C36_rods : forall e : ep, 0 <= e_radiusCol e -> ~ round e -> covered e.
Proof. exact rod_covered. Qed.
Print Assumptions C36_rods.

Theorem C36_copies : forall s : sylinder R_arith, unitq (orient s) -> unit3 (e_dir (copyFromFP (N := R_arith) s)).
Proof. exact copy_sized. Qed.
Print Assumptions C36_copies.

(** spheres of radius 1 and collision radius 2 at distance 3: they overlap by 1 and are outside each other's search radius *)
Theorem C36_ratio_refuted : exists a b : nearEP F_arith,
  flt (vnorm (vsub (e_pos a) (e_pos b))) (fadd (e_radiusCol a) (e_radiusCol b)) = true /\
  flt (getRSearch a) (vnorm (vsub (e_pos a) (e_pos b))) = true /\ flt (getRSearch b) (vnorm (vsub (e_pos a) (e_pos b))) = true.
Proof.
  pose (o := fun g p => NearEP (N := F_arith) g g 0 (f_ofZ 1) (f_ofZ 0) (f_ofZ 2) (f_ofZ 0) (f_lit 1 (-2)) p (v3 0 0 1)).
  exists (o 1%Z (v3 0 0 0)), (o 2%Z (v3 3 0 0)). vm_compute. repeat split.
Qed.
Print Assumptions C36_ratio_refuted.

Example C36_example : (* a rod of length 6 along x and a ball just past its end: 18 * 1.25 = 22.5 and 2 * 1.25 = 2.5; one block *)
  let a := rod 1 (f_ofZ 1) (f_ofZ 6) (v3 0 0 0) (v3 1 0 0) in let b := ball 2 (f_ofZ 1) (Vec (f_lit 21 (-2)) (f_ofZ 0) (f_ofZ 0)) in
  feq (getRSearch a) (f_lit 45 (-1)) && feq (getRSearch b) (f_lit 5 (-1)) &&
  match nearPair (N := F_arith) (f_ofZ 3) a b with Done [k] => feq (delta0 k) (f_lit 1 (-2)) | _ => false end = true.
Proof. vm_compute. reflexivity. Qed.

(** ** C37 *)
Theorem C37_translation : forall (t dI dJ cI cJ : vec R) (hI hJ rI rJ : R) (P Q : vec R),
  collideStress (N := R_arith) PI dI dJ (add3 cI t) (add3 cJ t) hI hJ rI rJ 1 (add3 P t) (add3 Q t) =
  collideStress (N := R_arith) PI dI dJ cI cJ hI hJ rI rJ 1 P Q.
Proof. exact stress_translate. Qed.
Print Assumptions C37_translation.

Theorem C37_swap : forall (dI dJ cI cJ : vec R) (hI hJ rI rJ : R) (P Q : vec R),
  collideStress (N := R_arith) PI dJ dI cJ cI hJ hI rJ rI 1 Q P = collideStress (N := R_arith) PI dI dJ cI cJ hI hJ rI rJ 1 P Q.
Proof. exact stress_swap. Qed.
Print Assumptions C37_swap.

Theorem C37_trace : forall (dI dJ cI cJ : vec R) (hI hJ rI rJ : R) (P Q : vec R), P <> Q ->
  let m := collideStress (N := R_arith) PI dI dJ cI cJ hI hJ rI rJ 1 P Q in
  vx (vx m) + vy (vy m) + vz (vz m) = dot3 (sub3 cJ cI) (scale3 (/ dist3 P Q) (sub3 Q P)).
Proof. exact stress_trace. Qed.
Print Assumptions C37_trace.

(** the closed form of the stress *)
Theorem C37_formula : forall (dI dJ cI cJ : vec R) (hI hJ rI rJ : R) (P Q : vec R) i, (i < 3)%nat -> P <> Q ->
  vget (collideStress (N := R_arith) PI dI dJ cI cJ hI hJ rI rJ 1 P Q) i = pair_stress dI dJ cI cJ hI hJ rI rJ P Q i.
Proof. exact collideStress_R. Qed.
Print Assumptions C37_formula.

Theorem C37_spheres : forall (d d' P Q : vec R) (r r' : R) i, (i < 3)%nat -> P <> Q ->
  vget (collideStress (N := R_arith) PI d d' P Q 0 0 r r' 1 P Q) i = scale3 (vget (sub3 Q P) i / dist3 P Q) (sub3 Q P).
Proof. exact stress_spheres. Qed.
Print Assumptions C37_spheres.

Theorem C37_sphere_axis : forall (d d' dJ cI cJ : vec R) (hJ rI rJ : R) (P Q : vec R),
  collideStress (N := R_arith) PI d dJ cI cJ 0 hJ rI rJ 1 P Q = collideStress (N := R_arith) PI d' dJ cI cJ 0 hJ rI rJ 1 P Q.
Proof. exact sphere_axis_free. Qed.
Print Assumptions C37_sphere_axis.

Example C37_example : (* two unit balls 2 apart along x, far from the origin: the xx stress is 2, all else 0 *)
  let m := collideStress (N := F_arith) (f_ofZ 3) (v3 0 0 1) (v3 0 0 1) (v3 7 5 3) (v3 9 5 3) (f_ofZ 0) (f_ofZ 0) (f_ofZ 1) (f_ofZ 1) (f_ofZ 1)
             (v3 7 5 3) (v3 9 5 3) in
  veqb (vx m) (v3 2 0 0) && veqb (vy m) (v3 0 0 0) && veqb (vz m) (v3 0 0 0) = true.
Proof. vm_compute. reflexivity. Qed.
