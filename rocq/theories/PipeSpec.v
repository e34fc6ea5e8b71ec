(** What preparing a step and collecting the contacts are to do. *)
From Coq Require Import List ZArith Reals Permutation.
From Flocq Require Import Core.
From Verif Require Import Outcome ListUtil Arith VecModel VecSpec SylModel ParticleModel ParticleSpec DomainSpec PointsModel GeoSpec StepModel NearModel NearSpec TreeModel TreeSpec LetModel LetSpec CallSpec PipeModel.
Import ListNotations.
Local Open Scope R_scope.

Notation syl := (sylinder R_arith).
Notation ranked := (@prank (sylinder R_arith)).

(** all objects, rank by rank *)
Definition objects (ranks : list ranked) : list syl := concat (map pr_ptcl ranks).
Definition sizes (ranks : list ranked) : list nat := map (fun p => length (pr_ptcl p)) ranks.

(** q is the image of p in the box *)
Definition boxed (root : ort R) (p q : vec R) : Prop := forall c, In c coords -> c (olow root) <= c q < c (ohigh root) /\
  GeoSpec.image (c (ohigh root) - c (olow root)) (c p) (c q) /\ (c (olow root) <= c p < c (ohigh root) -> c q = c p).

(** t is s made ready for a step: the position is in the box, the sizes for collisions are set; in a monolayer, the height and orientation as well *)
Definition ready_object (root : ort R) (c : stepConfig R_arith) (s t : syl) : Prop :=
  s_gid t = s_gid s /\ s_group t = s_group s /\ immovable t = immovable s /\ radius t = radius s /\ slength t = slength s /\ colBuf t = c_colBuf c /\
  (radiusCol t : R) = radius s * c_diameterRatio c /\ (lengthCol t : R) = slength s * c_lengthRatio c /\
  exists p, boxed root (spos s) p /\
    if c_monolayer c then spos t = Vec (vx p) (vy p) ((c_highZ c + c_lowZ c) / 2) /\ orient t = orient (monoObject (N := R_arith) c s)
    else spos t = p /\ orient t = orient s.

(** the domains tile the box, and each object is on the rank whose domain it is in *)
Definition settled (b : domains R_arith) (ranks : list ranked) : Prop := exists nx ny nz doms,
  b_n b = (nx, ny, nz) /\ b_doms b = Some doms /\ grid_of Rle_bool (b_root b) nx ny nz doms /\ length ranks = length doms /\
  forall r p d s, nth_error ranks r = Some p -> nth_error doms r = Some d -> In s (pr_ptcl p) ->
    LetSpec.inside d (spos s) /\ LetSpec.inside (b_root b) (spos s) /\ s_rank s = Z.of_nat r.

(** as many ranks as domains, and the domains, if there are any yet, tile the box *)
Definition tidy (b : domains R_arith) (nx ny nz : nat) (ranks : list ranked) : Prop :=
  b_n b = (nx, ny, nz) /\ (0 < nx)%nat /\ (0 < ny)%nat /\ (0 < nz)%nat /\ length ranks = (nx * ny * nz)%nat /\ 0 <= b_coef b <= 1 /\
  match b_doms b with Some d => grid_of Rle_bool (b_root b) nx ny nz d | None => True end.

(** ** What is left open *)

Definition any_luck (k : luck R_arith) : Prop :=
  (forall r i, (0 <= k_draw k r i < 2 ^ 53)%Z) /\ sorts Rle_bool (k_sort k) /\
  (forall r n, Permutation (k_loop1 k r n) (seq 0 n)) /\ (forall r n, Permutation (k_loop2 k r n) (seq 0 n)).

(** at least as many objects as ranks; the number of samples wanted of a rank is at least half of its share of 200 samples for each rank (rounded down) *)
Definition sampled (k : luck R_arith) (ranks : list ranked) : Prop :=
  (length ranks <= length (objects ranks))%nat /\ (Z.of_nat (length (objects ranks)) <= INT_MAX)%Z /\
  forall r n, nth_error (sizes ranks) r = Some n ->
    (0 <= k_wanted k (sizes ranks) r)%Z /\
    (Z.of_nat n * (200 * Z.of_nat (length ranks)) <= 2 * Z.of_nat (length (objects ranks)) * (k_wanted k (sizes ranks) r + 1))%Z.

(** ** The simulation *)

(** a box with a size; along a periodic axis not an absurd one, along an open axis larger than all that happens *)
Definition fit_box (pa : vec bool) (root : ort R) : Prop := forall b c, In (b, c) [(vx pa, vx); (vy pa, vy); (vz pa, vz)] ->
  c (olow root) < c (ohigh root) /\
  if b then Rabs (c (olow root)) <= 2 ^ 100 /\ Rabs (c (ohigh root)) <= 2 ^ 100 else c (olow root) <= - 2 ^ 100 /\ 2 ^ 100 < c (ohigh root).

(** the distance within which neighbours of an object are searched *)
Definition reach (rad len lenCol buf : R) : R := Rmax (len + 2 * rad) (3 * lenCol) * (1 + buf).
(** an object with this position, orientation, sizes, collision sizes and collision buffer: not far out along an open axis, neighbours searched
    within m boxes and some distance, collision sizes as for covered in NearSpec *)
Definition fit (pa : vec bool) (root : ort R) (m : nat) (p : vec R) (q : quat R) (rad len radCol lenCol buf : R) : Prop :=
  (forall b x, In (b, x) [(vx pa, vx); (vy pa, vy); (vz pa, vz)] -> b = false -> Rabs (x p) <= 2 ^ 100) /\
  0 <= rad /\ 0 <= len /\ 0 <= radCol /\ 0 <= lenCol /\ 0 <= buf /\ unitq q /\
  reach rad len lenCol buf <= 2 ^ 100 /\ LetSpec.along pa (fun x => reach rad len lenCol buf <= INR m * edge root x) /\
  ((vx pa || vy pa || vz pa)%bool = true \/ 0 < reach rad len lenCol buf) /\
  (lenCol + 2 * radCol <= len + 2 * rad \/ radCol <= lenCol).
(** an object before and after it is made ready *)
Definition fit_object (pa : vec bool) (root : ort R) (m : nat) (c : stepConfig R_arith) (s : syl) : Prop :=
  fit pa root m (spos s) (orient s) (radius s) (slength s) (radius s * c_diameterRatio c) (slength s * c_lengthRatio c) (c_colBuf c).
Definition fit_ready (pa : vec bool) (root : ort R) (m : nat) (s : syl) : Prop :=
  fit pa root m (spos s) (orient s) (radius s) (slength s) (radiusCol s) (lengthCol s) (colBuf s).

(** the objects as tree particles *)
Definition tree_items (ranks : list ranked) : list (list (item R_arith ep)) := map (fun p => map (treeItem (N := R_arith)) (pr_ptcl p)) ranks.
