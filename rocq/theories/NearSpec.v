(** Contacts between objects. *)
From Coq Require Import List ZArith Bool Reals.
From Verif Require Import Outcome Arith ParticleModel VecModel VecSpec ConModel SylModel SegSpec NearModel.
Import ListNotations.
Local Open Scope R_scope.

Definition ep := nearEP R_arith.
(** shorter than its diameter: treated as a sphere *)
Definition round (e : ep) : Prop := e_lengthCol e < 2 * e_radiusCol e.
(** the two ends of the core of a rod *)
Definition tip (sign : R) (e : ep) : vec R := add3 (e_pos e) (scale3 (sign * (e_lengthCol e / 2)) (e_dir e)).
(** points of the core: the centre of a sphere, the segment of a rod *)
Definition core_point (e : ep) (x : vec R) : Prop :=
  (round e /\ x = e_pos e) \/ (~ round e /\ on_segment (tip (-1) e) (tip 1 e) x).
(** distance of the surface from the core *)
Definition skin (e : ep) : R := if Rlt_dec (e_lengthCol e) (2 * e_radiusCol e) then e_lengthCol e / 2 + e_radiusCol e else e_radiusCol e.
(** core distance below which a contact is made *)
Definition limit (a b : ep) : R := skin a * (1 + e_colBuf a) + skin b * (1 + e_colBuf b).
(** two rods for which the segment query is accurate, with the bound on its error in the squared distance *)
Definition well_posed (k : R) (a b : ep) : Prop := 0 < k <= 1 /\
  point_or_long (/ 2 ^ 51) (tip (-1) a) (tip 1 a) /\ point_or_long (/ 2 ^ 51) (tip (-1) b) (tip 1 b) /\
  no_tight_corner k (tip (-1) a) (tip 1 a) (tip (-1) b) (tip 1 b).
Definition slack (k : R) (b : ep) : R := / 2 ^ 51 * Rmax 1 (dist3 (tip (-1) b) (tip 1 b) ^ 2) / k.
(** a pair of core points at minimal distance, up to the error of the segment query for two rods *)
Definition closest (a b : ep) (P Q : vec R) : Prop :=
  core_point a P /\ core_point b Q /\
  (round a \/ round b -> forall p q, core_point a p -> core_point b q -> dist3 P Q <= dist3 p q) /\
  (~ round a -> ~ round b -> forall k, well_posed k a b ->
     forall p q, core_point a p -> core_point b q -> dist3 P Q ^ 2 <= dist3 p q ^ 2 + slack k b).
(** certainly within the collision buffer / certainly not *)
Definition near_enough (a b : ep) : Prop := exists p q, core_point a p /\ core_point b q /\
  ((round a \/ round b) /\ dist3 p q < limit a b \/
   ~ round a /\ ~ round b /\ exists k, well_posed k a b /\ 0 <= limit a b /\ dist3 p q ^ 2 + slack k b < limit a b ^ 2).
Definition too_far (a b : ep) : Prop := forall p q, core_point a p -> core_point b q -> limit a b <= dist3 p q.

(** moment coefficients of an object with core length h and surface radius r, unit density *)
Definition moment (r h : R) : R * R :=
  let beta := h / 2 / r in
  (PI * r ^ 5 * (15 * beta + 8) / 30, PI * r ^ 5 * (10 * beta ^ 3 + 20 * beta ^ 2 + 15 * beta + 4) / 15).
Definition inertia (r h : R) : R * R :=
  let beta := h / 2 / r in
  (PI * r ^ 5 * (20 * beta ^ 3 + 40 * beta ^ 2 + 45 * beta + 16) / 30, PI * r ^ 5 * (15 * beta + 8) / 15).
(** the tensor with coefficient b along d and a across it *)
Definition along (a b : R) (d v : vec R) : vec R := add3 (scale3 a v) (scale3 ((b - a) * dot3 d v) d).
Definition unit_axis (i : nat) : vec R := Vec (if Nat.eqb i 0 then 1 else 0) (if Nat.eqb i 1 then 1 else 0) (if Nat.eqb i 2 then 1 else 0).
(** row i of the stress carried by one object (axis d, size r h) under a unit-magnitude force f at arm x *)
Definition spin_stress (d : vec R) (r h : R) (x f : vec R) (i : nat) : vec R :=
  let (a, b) := moment r h in let (ga, gb) := inertia r h in
  cross3 (along (/ ga) (/ gb) d (cross3 x f)) (along a b d (unit_axis i)).
(** the stress of a contact at P, Q between objects at cI, cJ *)
Definition pair_stress (dI dJ cI cJ : vec R) (hI hJ rI rJ : R) (P Q : vec R) (i : nat) : vec R :=
  let f := scale3 (/ dist3 P Q) (sub3 Q P) in
  add3 (add3 (scale3 (vget (sub3 cJ cI) i) f) (spin_stress dI rI hI (sub3 P cI) (opp3 f) i)) (spin_stress dJ rJ hJ (sub3 Q cJ) f i).
(** axis and core length used for the stress *)
Definition stress_dir (e : ep) : vec R := if Rlt_dec (e_lengthCol e) (2 * e_radiusCol e) then Vec 0 0 1 else e_dir e.
Definition stress_len (e : ep) : R := if Rlt_dec (e_lengthCol e) (2 * e_radiusCol e) then 0 else e_lengthCol e.

(** the contact block of target a and source b at core points P, Q *)
Definition contact_block (a b : ep) (P Q : vec R) (k : block R_arith) : Prop :=
  delta0 k = dist3 P Q - (skin a + skin b) /\ gamma k = Rmax 0 (skin a + skin b - dist3 P Q) /\ gammaLB k = 0 /\ kappa k = 0 /\
  oneSide k = false /\ bilateral k = false /\
  gidI k = e_gid a /\ gidJ k = e_gid b /\ globalIndexI k = e_index a /\ globalIndexJ k = e_index b /\
  posI k = sub3 P (e_pos a) /\ posJ k = sub3 Q (e_pos b) /\ labI k = P /\ labJ k = Q /\
  normJ k = opp3 (normI k) /\ (exists c, normI k = scale3 c (sub3 P Q)) /\
  (P <> Q -> normI k = scale3 (/ dist3 P Q) (sub3 P Q) /\ unit3 (normI k) /\
     exists m, getStressMat k = Done m /\ forall i, (i < 3)%nat ->
       vget m i = pair_stress (stress_dir a) (stress_dir b) (e_pos a) (e_pos b) (stress_len a) (stress_len b) (skin a) (skin b) P Q i).

(** the (target, source) pairs delivered by the calls of the neighbour search *)
Definition delivered {E} (calls : list (nat * (list E * list E))) : list (E * E) :=
  flat_map (fun c => list_prod (fst (snd c)) (snd (snd c))) calls.
(** the blocks between objects g and h *)
Definition between (g h : Z) (ks : list (block R_arith)) : list (block R_arith) :=
  filter (fun k => Z.eqb (gidI k) g && Z.eqb (gidJ k) h)%bool ks.
Definition named (g h : Z) (ij : ep * ep) : Prop := e_gid (fst ij) = g /\ e_gid (snd ij) = h.
(** non-negative sizes and a unit direction *)
Definition sized (e : ep) : Prop :=
  0 <= e_radius e /\ 0 <= e_length e /\ 0 <= e_radiusCol e /\ 0 <= e_lengthCol e /\ 0 <= e_colBuf e /\ unit3 (e_dir e).
(** the collision size is not larger than the size, or the collision core is at least as long as the collision radius *)
Definition covered (e : ep) : Prop := e_lengthCol e + 2 * e_radiusCol e <= e_length e + 2 * e_radius e \/ e_radiusCol e <= e_lengthCol e.
