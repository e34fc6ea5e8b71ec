(** Bilateral links. *)
From Coq Require Import List ZArith Bool Reals.
From Verif Require Import Outcome Arith ParticleModel VecModel VecSpec GeoSpec ConModel SylModel NearModel NearSpec LinkModel.
Import ListNotations.
Local Open Scope R_scope.

Definition lconfig := linkConfig R_arith.
(** every periodic axis has a box of positive length *)
Definition box_ok (c : lconfig) : Prop := forall d, (d < 3)%nat -> vget (lk_pbc c) d = true -> vget (lk_low c) d < vget (lk_high c) d.
(** inside the box on every periodic axis *)
Definition in_box (c : lconfig) (x : vec R) : Prop :=
  forall d, (d < 3)%nat -> vget (lk_pbc c) d = true -> vget (lk_low c) d <= vget x d < vget (lk_high c) d.
(** y is x moved to its image nearest to t on every periodic axis *)
Definition nearest_copy (c : lconfig) (x t y : vec R) : Prop :=
  forall d, (d < 3)%nat ->
    (vget (lk_pbc c) d = true -> nearest_image (vget (lk_high c) d - vget (lk_low c) d) (vget x d) (vget t d) (vget y d)) /\
    (vget (lk_pbc c) d = false -> vget y d = vget x d).
(** the spring block joining the plus end of a to the minus end of b *)
Definition link_block (c : lconfig) (a b : sylinder R_arith) (k : block R_arith) : Prop :=
  exists cb, nearest_copy c (spos b) (spos a) cb /\
  let P := add3 (spos a) (scale3 (slength a / 2) (axis (N := R_arith) a)) in
  let Q := sub3 cb (scale3 (slength b / 2) (axis (N := R_arith) b)) in
  let gap := dist3 P Q - radius a - radius b - lk_gap c in
  delta0 k = gap /\ gamma k = Rmax 0 (- gap) /\ gammaLB k = 0 /\ kappa k = lk_kappa c /\ oneSide k = false /\ bilateral k = true /\
  gidI k = s_gid a /\ gidJ k = s_gid b /\ globalIndexI k = s_index a /\ globalIndexJ k = s_index b /\
  posI k = sub3 P (spos a) /\ posJ k = sub3 Q cb /\ labI k = P /\ labJ k = Q /\
  normJ k = opp3 (normI k) /\ (exists z, normI k = scale3 z (sub3 P Q)) /\
  (P <> Q -> unit3 (normI k) /\ normI k = scale3 (/ dist3 P Q) (sub3 P Q) /\
     exists m, getStressMat k = Done m /\ forall i, (i < 3)%nat ->
       vget m i = pair_stress (axis (N := R_arith) a) (axis (N := R_arith) b) (spos a) cb (slength a) (slength b) (radius a) (radius b) P Q i).
(** the block of a link between two objects of the system *)
Definition link_made (c : lconfig) (all : list (sylinder R_arith)) (l : Z * Z) (k : block R_arith) : Prop :=
  exists a b, In a all /\ In b all /\ s_gid a = fst l /\ s_gid b = snd l /\ link_block c a b k.
(** the links whose first end is one of the given objects *)
Definition links_of (ss : list (sylinder R_arith)) (ls : list (Z * Z)) : list (Z * Z) :=
  filter (fun l => existsb (fun s => Z.eqb (fst l) (s_gid s)) ss) ls.
