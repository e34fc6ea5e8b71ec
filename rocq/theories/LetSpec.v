(** What the exchange of particles between ranks is to do. *)
From Coq Require Import List ZArith Reals Sorted Permutation.
From Verif Require Import Outcome Arith ParticleModel VecSpec NearModel NearSpec TreeModel TreeSpec LetModel.
Import ListNotations.
Local Open Scope R_scope.

(** images are shifted along periodic axes only *)
Definition lattice (pa : vec bool) (k : vec Z) : Prop := (vx pa = false -> vx k = 0%Z) /\ (vy pa = false -> vy k = 0%Z) /\ (vz pa = false -> vz k = 0%Z).
Definition origin : vec Z := Vec 0%Z 0%Z 0%Z.
Definition opposite (k : vec Z) : vec Z := Vec (- vx k)%Z (- vy k)%Z (- vz k)%Z.

Section Geometry.
  Context (pa : vec bool) (root : ort R).

  Definition edge (c : vec R -> R) : R := c (ohigh root) - c (olow root).
  (** image k of a point, as it is sent *)
  Definition away (k : vec Z) (p : vec R) : vec R := Vec (vx p - IZR (vx k) * edge vx) (vy p - IZR (vy k) * edge vy) (vz p - IZR (vz k) * edge vz).
  (** the box o meets the box d moved to image k *)
  Definition meets (o d : ort R) (k : vec Z) : Prop :=
    forall c (i : Z), In (c, i) [(vx, vx k); (vy, vy k); (vz, vz k)] -> c (olow o) <= c (ohigh d) + IZR i * edge c /\ c (olow d) + IZR i * edge c <= c (ohigh o).

  Definition along (P : (vec R -> R) -> Prop) : Prop := (vx pa = true -> P vx) /\ (vy pa = true -> P vy) /\ (vz pa = true -> P vz).
  (** the box of the simulation has a size along the periodic axes, and not an absurd one *)
  Definition periodic_box : Prop := along (fun c => 0 < edge c < 2 * 16777215 * 2 ^ 97).
  (** the domain is in the box along the periodic axes *)
  Definition domain_in (d : ort R) : Prop := along (fun c => c (olow root) <= c (olow d) /\ c (olow d) <= c (ohigh d) /\ c (ohigh d) <= c (ohigh root)).
  (** upper faces excluded *)
  Definition inside (o : ort R) (p : vec R) : Prop := forall c, In c coords -> c (olow o) <= c p < c (ohigh o).
End Geometry.

(** ** The exchange *)

(** rank r, whose particles are E r, receives as out images of particles: img k f for image k of f. None comes twice, none is a particle of
    rank r itself, only images k of particles of rank s come for which need s k, and all that a particle of rank r sees are there *)
Definition delivers {N : arith} {P} (val : N -> R) (slack : R -> R) (pa : vec bool) (img : vec Z -> item N P -> item N P) (E : list (list (item N P))) (need : nat -> vec Z -> Prop) (r : nat) (out : list (item N P)) : Prop :=
  exists tags : list (nat * Z * vec Z), NoDup tags /\
    Forall2 (fun tag e => let '(s, j, k) := tag in lattice pa k /\ (s = r -> k <> origin) /\ need s k /\ exists l f, nth_error E s = Some l /\ at_ l j f /\ e = img k f) tags out /\
    forall own e s l j f k, nth_error E r = Some own -> In e own -> nth_error E s = Some l -> at_ l j f -> lattice pa k -> (s = r -> k <> origin) ->
      sees val slack (i_site e) (i_site (img k f)) -> In (s, j, k) tags.

(** image k of a particle *)
Definition image {P} (root : ort R) (k : vec Z) (f : item R_arith P) : item R_arith P :=
  Item (@Site R_arith (away root k (s_pos (i_site f))) (s_rad (i_site f))) (i_pay f).

(** nothing is assumed of memory not yet written, of the division of work among threads, of the sorting except that it sorts, and of
    the trees of the runs except that they are built by buildTree with one particle in a leaf *)
Definition any_chance {N : arith} {P} (n : nat) (c : chance N P) : Prop :=
  Permutation (concat (c_deal1 c)) (seq 0 n) /\ (forall l, Permutation (concat (c_deal2 c l)) l) /\
  (forall m, Permutation (c_images1 c m) (seq 0 m)) /\ (forall m, Permutation (c_images c m) (seq 0 m)) /\ Permutation (c_merge c) (seq 0 n) /\
  (forall l, Permutation (c_sort c l) l /\ StronglySorted Z.le (map fst (c_sort c l))) /\
  forall keys eps, exists junk jm sched sched' tc part, any_order sched /\ any_order sched' /\ length part = 23%nat /\
    c_tree c keys eps = buildTree junk jm sched sched' keys eps 1 tc part.

(** the trees of the ranks are built by buildTree from sorted keys *)
Definition own_tree {N : arith} {P} (ok : N -> Prop) (val : N -> R) (limit : Z) (own : list (item N P)) (t : list cell * list (moment N)) : Prop :=
  usable ok val (map i_site own) /\ exists junk jm sched sched' keys tc part, any_order sched /\ any_order sched' /\ length part = 23%nat /\ fits 1 keys /\ length own = length keys /\
    buildTree junk jm sched sched' keys (map i_site own) limit tc part = Done t.

(** the search spheres of some particles reach image k of the domain d *)
Definition hits {P} (root : ort R) (own : list (item R_arith P)) (d : ort R) (k : vec Z) : Prop :=
  exists o : ort R, @hull R_arith all_ok (fun x => x) (map (fun e => ball (i_site e)) own) o /\ meets root o d k.

(** the search spheres of rank s reach image k of the domain of rank r, or those of rank r reach the image of the domain of rank s *)
Definition needed {P} (root : ort R) (doms : list (ort R)) (E : list (list (item R_arith P))) (r s : nat) (k : vec Z) : Prop :=
  exists d d' own own', nth_error doms r = Some d /\ nth_error doms s = Some d' /\ nth_error E r = Some own /\ nth_error E s = Some own' /\
    (hits root own' d k \/ hits root own d' (opposite k)).

(** the images of particles that are sent have keys and are in range, and the image that stands for no image at all is not among them *)
Definition reachable {P} (pa : vec bool) (root : ort R) (key : vec R -> outcome Z) (doms : list (ort R)) (E : list (list (item R_arith P))) : Prop :=
  forall own d k, In own E -> In d doms -> lattice pa k -> hits root own d k ->
    k <> Vec 9999%Z 9999%Z 9999%Z /\
    forall e, In e own -> (exists z, key (away root k (s_pos (i_site e))) = Done z /\ (0 <= z < 8 ^ 21)%Z) /\ @usable R_arith all_ok (fun x => x) [i_site (image root k e)].

(** the particles of each rank are in its domain and in the box *)
Definition homes {P} (root : ort R) (doms : list (ort R)) (E : list (list (item R_arith P))) : Prop :=
  forall r own d e, nth_error E r = Some own -> nth_error doms r = Some d -> In e own -> inside d (s_pos (i_site e)) /\ inside root (s_pos (i_site e)).

(** ** Open boundaries, in doubles *)

Definition open : vec bool := Vec false false false.
(** the box has a size *)
Definition open_box (root : ort F_arith) : Prop :=
  forall c, In c coords -> finite (c (olow root)) /\ finite (c (ohigh root)) /\ finite (c (ohigh root) - c (olow root))%A /\ real (c (olow root)) < real (c (ohigh root)).
Definition finite_box (o : ort F_arith) : Prop := forall c, In c coords -> finite (c (olow o)) /\ finite (c (ohigh o)).
Definition inside_real (o : ort F_arith) (p : vec F_arith) : Prop := forall c, In c coords -> real (c (olow o)) <= real (c p) < real (c (ohigh o)).
Definition homes_real {P} (root : ort F_arith) (doms : list (ort F_arith)) (E : list (list (item F_arith P))) : Prop :=
  forall r own d e, nth_error E r = Some own -> nth_error doms r = Some d -> In e own -> inside_real d (s_pos (i_site e)) /\ inside_real root (s_pos (i_site e)).
(** all particles have keys *)
Definition all_keys {P} (key : vec F_arith -> outcome Z) (E : list (list (item F_arith P))) : Prop :=
  forall own e, In own E -> In e own -> exists z, key (s_pos (i_site e)) = Done z /\ (0 <= z < 8 ^ 21)%Z.

(** ** Exchange and search *)

(** every image of a particle that rel relates to a particle of own is in the list of the group of that particle *)
Definition lists_all {N : arith} {P} (pa : vec bool) (img : vec Z -> item N P -> item N P) (E : list (list (item N P))) (rel : item N P -> item N P -> Prop) (own all : list (item N P)) (res : list (group N * list Z)) : Prop :=
  forall i e s l j f k, at_ own i e -> nth_error E s = Some l -> at_ l j f -> lattice pa k -> rel e (img k f) ->
    exists g js x, In (g, js) res /\ (g_adr g <= i < g_adr g + g_n g)%Z /\ In x js /\ at_ all x (img k f).
Definition sees_item {N : arith} {P} (val : N -> R) (slack : R -> R) (e f : item N P) : Prop := sees val slack (i_site e) (i_site f).

(** the rod of a particle: payload, at the position of the site *)
Definition placed (e : item R_arith ep) : ep :=
  let y := i_pay e in @NearEP R_arith (e_gid y) (e_index y) (e_rank y) (e_radius y) (e_length y) (e_radiusCol y) (e_lengthCol y) (e_colBuf y) (s_pos (i_site e)) (e_dir y).
(** two rods have points of their cores closer than the limit for a contact *)
Definition close (a b : ep) : Prop := exists p q, core_point a p /\ core_point b q /\ dist3 p q < NearSpec.limit a b.
Definition proper_rod (e : item R_arith ep) : Prop := i_site e = siteOf (placed e) /\ NearSpec.sized (placed e) /\ covered (placed e).

(** ** The ranks before the exchange *)

(** with exact numbers and any periodic axes *)
Record ready {P} (ch : nat -> chance R_arith P) (key : vec R -> outcome Z) (pa : vec bool) (root : ort R) (doms : list (ort R)) (E : list (list (item R_arith P)))
  (trees : list (list cell * list (moment R_arith))) (limit : Z) : Prop := {
  y_box : periodic_box pa root;
  y_doms : forall d, In d doms -> domain_in pa root d;
  y_E : length E = length doms;
  y_trees : length trees = length doms;
  y_limit : (1 <= limit)%Z;
  y_homes : homes root doms E;
  y_tree : forall r own t, nth_error E r = Some own -> nth_error trees r = Some t -> own_tree all_ok (fun x : R_arith => x) limit own t;
  y_chance : forall r, any_chance (length doms) (ch r);
  y_reach : reachable pa root key doms E }.

(** in doubles, without periodic axes *)
Record ready_open {P} (ch : nat -> chance F_arith P) (key : vec F_arith -> outcome Z) (root : ort F_arith) (doms : list (ort F_arith)) (E : list (list (item F_arith P)))
  (trees : list (list cell * list (moment F_arith))) (limit : Z) : Prop := {
  z_box : open_box root;
  z_doms : forall d, In d doms -> finite_box d;
  z_E : length E = length doms;
  z_trees : length trees = length doms;
  z_limit : (1 <= limit)%Z;
  z_homes : homes_real root doms E;
  z_tree : forall r own t, nth_error E r = Some own -> nth_error trees r = Some t -> own_tree finite real limit own t;
  z_chance : forall r, any_chance (length doms) (ch r);
  z_keys : all_keys key E }.

(** what the search for the particles own among the particles all is to do, for whatever memory and order the trees are built with; keysI and keysJ are the sorted keys of both *)
Definition search_lists {N : arith} {P} (ok : N -> Prop) (val : N -> R) (limit : Z) (own all : list (item N P)) (good : list (group N * list Z) -> Prop) : Prop :=
  forall jl ml s1 s2 tl pl jg mg s3 s4 tg pg keysI keysJ grpLimit,
  any_order s1 -> any_order s2 -> any_order s3 -> any_order s4 -> length pl = 23%nat -> length pg = 23%nat -> fits limit keysI -> fits limit keysJ ->
  length own = length keysI -> length all = length keysJ -> (limit <= grpLimit)%Z -> usable ok val (map i_site all) ->
  exists res, searchLists (fun k e => buildTree jl ml s1 s2 k e limit tl pl) (fun k e => buildTree jg mg s3 s4 k e limit tg pg) keysI (map i_site own) keysJ (map i_site all) limit grpLimit = Done res /\ good res.

(** the exact numbers doubles stand for *)
Definition real_vec (v : vec F_arith) : vec R := Vec (real (vx v)) (real (vy v)) (real (vz v)).
Definition real_box (o : ort F_arith) : ort R := Ort (real_vec (olow o)) (real_vec (ohigh o)).
Definition real_item {P} (e : item F_arith P) : item R_arith P := Item (@Site R_arith (real_vec (s_pos (i_site e))) (real (s_rad (i_site e)))) (i_pay e).
