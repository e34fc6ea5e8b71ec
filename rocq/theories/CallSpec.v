(** What calcForceAll is to do. *)
From Coq Require Import List ZArith Reals Sorted Permutation.
From Verif Require Import Outcome Arith ParticleModel VecSpec NearModel NearSpec TreeModel TreeSpec RadixModel RadixSpec LetModel LetSpec ConModel CallModel.
Import ListNotations.
Local Open Scope R_scope.

(** so few particles that 32 bits suffice for the tree *)
Definition treeable (n : nat) : Prop := (2 * Z.of_nat n <= 2 ^ 31 /\ 8 + 168 * (Z.of_nat n / 2) < 2 ^ 31)%Z.

(** the box, the domains and the particles of the ranks, with exact numbers: box and search radii of sensible size, along a periodic axis
    the radii not more than 9000 boxes, each particle in the domain of its rank. Along an open axis the box may be of any size, the code's is
    2 (2^24 - 1) 2^100. Without periodic axes a radius of 0 is left out. *)
Record arena {P} (pa : vec bool) (root : ort R) (doms : list (ort R)) (E : list (list (item R_arith P))) : Prop := {
  a_root : along pa (fun c => Rabs (c (olow root)) <= 2 ^ 100 /\ Rabs (c (ohigh root)) <= 2 ^ 100);
  a_pos : forall own e c, In own E -> In e own -> In c coords -> Rabs (c (s_pos (i_site e)) : R) <= 2 ^ 100;
  a_box : along pa (fun c => 0 < edge root c);
  a_doms : forall d, In d doms -> domain_in pa root d;
  a_E : length E = length doms;
  a_homes : homes root doms E;
  a_few : forall own, In own E -> treeable (length own);
  a_rad : forall own e, In own E -> In e own -> 0 <= s_rad (i_site e) <= 2 ^ 100 /\ along pa (fun c => s_rad (i_site e) <= 9000 * edge root c) /\
    ((vx pa || vy pa || vz pa)%bool = true \/ 0 < s_rad (i_site e)) }.

(** a key of 21 octal digits *)
Definition keyed_at {T} (key : T -> outcome Z) (p : T) : Prop := exists z, key p = Done z /\ (0 <= z < 8 ^ 21)%Z.

(** ** What is left open *)

(** threads, schedule and memory for sorting n tree particles *)
Definition any_sorter (n : nat) (s : sorter) : Prop :=
  exists n_thread, (0 < n_thread)%nat /\ (forall loop, staticRegion n n_thread (so_gs s loop)) /\ Permutation (so_copy s) (seq 0 n) /\
    rows n_thread (2 ^ 8) (so_b s) /\ rows n_thread (2 ^ 8) (so_p s) /\ (n <= length (so_buf s))%nat.
(** a tree built by buildTree *)
Definition any_tree {N : arith} (limit : Z) (build : list Z -> list (site N) -> outcome (list cell * list (moment N))) : Prop :=
  forall keys eps, exists junk jm sched sched' tc part, any_order sched /\ any_order sched' /\ length part = 23%nat /\ build keys eps = buildTree junk jm sched sched' keys eps limit tc part.
(** a rank with n particles and as many threads *)
Record any_cast {N : arith} {P Fo} (ranks threads : nat) (limit : Z) (n : nat) (q : cast N P Fo) : Prop := {
  ac_deal : Permutation (concat (q_deal q)) (seq 0 n);
  ac_sort1 : forall m, any_sorter m (q_sort1 q m);
  ac_sort2 : forall m, any_sorter m (q_sort2 q m);
  ac_tree1 : any_tree limit (q_tree1 q);
  ac_tree2 : any_tree limit (q_tree2 q);
  ac_let : any_chance ranks (q_let q);
  ac_calls : forall m, Permutation (map snd (q_calls q m)) (seq 0 m) /\ forall t, In t (map fst (q_calls q m)) -> (t < threads)%nat;
  ac_copy : Permutation (q_copy q) (seq 0 n) }.

(** ** The calls of the functor on a rank *)

Section Served.
  Context {N : arith} {P Fo : Type} (val : N -> R) (slack : R -> R) (pa : vec bool) (img : vec Z -> item N P -> item N P) (E : list (list (item N P))).
  Variables (func : list (item N P) -> list (item N P) -> list Fo -> list Fo) (clear : Fo -> Fo).

  (** image k of particle j of rank s *)
  Definition names (tag : nat * Z * vec Z) (e : item N P) : Prop :=
    let '(s, j, k) := tag in lattice pa k /\ exists l f, nth_error E s = Some l /\ at_ l j f /\ e = img k f.
  (** one call: the targets are the particles is of the rank, the sources the images tags, none of them twice, among them all that a target sees; the
      forces of the targets are what the functor makes of cleared forces *)
  Definition call_ok (own : list (item N P)) (forces : list Fo) (it : list Z * list (nat * Z * vec Z)) (call : nat * (list (item N P) * list (item N P))) : Prop :=
    let '(is, tags) := it in let '(_, (epi, epj)) := call in
    Forall2 (at_ own) is epi /\ NoDup tags /\ Forall2 names tags epj /\
    (forall i e s l j f k, In i is -> at_ own i e -> nth_error E s = Some l -> at_ l j f -> lattice pa k -> sees val slack (i_site e) (i_site (img k f)) -> In (s, j, k) tags) /\
    exists before after, length before = length is /\ func epi epj (map clear before) = after /\ forall a i, nth_error is a = Some i -> nth_error forces (Z.to_nat i) = nth_error after a.
  (** every particle of the rank is a target of one call *)
  Definition served (threads : nat) (own : list (item N P)) (res : list (nat * (list (item N P) * list (item N P))) * list Fo) : Prop :=
    length (snd res) = length own /\ (forall t, In t (map fst (fst res)) -> (t < threads)%nat) /\
    exists its, Forall2 (call_ok own (snd res)) its (fst res) /\ Permutation (concat (map fst its)) (map Z.of_nat (seq 0 (length own))).
End Served.

(** ** Memory *)

(** the images that may come to a rank are so few that 32 bits suffice for the tree *)
Definition roomy {P} (pa : vec bool) (root : ort R) (doms : list (ort R)) (E : list (list (item R_arith P))) : Prop :=
  forall r own (tags : list (nat * Z * vec Z)), nth_error E r = Some own -> NoDup tags ->
    (forall s j k, In (s, j, k) tags -> lattice pa k /\ needed root doms E r s k /\ exists l f, nth_error E s = Some l /\ at_ l j f) ->
    treeable (length own + length tags).

(** ** Contacts *)

(** the calls with the rods of the particles *)
Definition rods (calls : list (nat * (list (item R_arith ep) * list (item R_arith ep)))) : list (nat * (list ep * list ep)) :=
  map (fun c => (fst c, (map placed (fst (snd c)), map placed (snd (snd c))))) calls.
(** blocks holds one block for each particle of own and each image of a particle of larger id found to be within the limit, in particular for all images near enough *)
Definition contacts (pa : vec bool) (root : ort R) (E : list (list (item R_arith ep))) (own : list (item R_arith ep)) (blocks : list (block R_arith)) : Prop :=
  exists ts : list (Z * (nat * Z * vec Z)), NoDup ts /\
    Forall2 (fun t b => let '(i, (s, j, k)) := t in lattice pa k /\ exists e l f P Q, at_ own i e /\ nth_error E s = Some l /\ at_ l j f /\
      let x := placed e in let y := placed (image root k f) in
      (e_gid x < e_gid y)%Z /\ closest x y P Q /\ dist3 P Q < NearSpec.limit x y /\ contact_block x y P Q b) ts blocks /\
    forall i e s l j f k, at_ own i e -> nth_error E s = Some l -> at_ l j f -> lattice pa k -> (e_gid (placed e) < e_gid (placed (image root k f)))%Z ->
      near_enough (placed e) (placed (image root k f)) -> In (i, (s, j, k)) ts.
