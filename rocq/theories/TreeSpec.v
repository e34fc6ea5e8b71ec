(** What a tree over sorted keys is. *)
From Coq Require Import List ZArith Reals Sorted Permutation.
From Flocq Require BinarySingleNaN.
From Verif Require F64.
From Verif Require Import Arith ParticleModel TreeModel.
Import ListNotations.
Local Open Scope Z_scope.

(** key number k, and its octal digit number lev, the most significant of 21 digits being number 1 *)
Definition keyAt (keys : list Z) (k : Z) : Z := nth (Z.to_nat k) keys 0.
Definition digit (keys : list Z) (lev k : Z) : Z := (keyAt keys k / 8 ^ (21 - lev)) mod 8.

(** sorted keys of 21 octal digits *)
Definition sorted_keys (keys : list Z) : Prop :=
  forall i j, 0 <= i -> i <= j -> j < Z.of_nat (length keys) -> 0 <= keyAt keys i <= keyAt keys j /\ keyAt keys j < 8 ^ 21.

(** element i of an array *)
Definition at_ {A} (l : list A) (i : Z) (a : A) : Prop := 0 <= i /\ nth_error l (Z.to_nat i) = Some a.

(** the cell i, of level lev, stands for the particles a, ..., a+n-1: it is a leaf, or its eight children, which are
    consecutive cells, take the particles one range after the other, the child j those with digit j *)
Inductive octree (tc : list cell) (keys : list Z) (limit : Z) : Z -> Z -> Z -> Z -> Prop :=
| leaf_cell : forall i lev a n c,
    at_ tc i c -> n_ptcl c = n -> level c = lev -> 0 <= n -> (0 < n -> adr_ptcl c = a /\ 0 <= a /\ a + n <= Z.of_nat (length keys)) ->
    (n <= limit \/ lev = 21) -> octree tc keys limit i lev a n
| inner_cell : forall i lev a n c cut,
    at_ tc i c -> n_ptcl c = n -> level c = lev -> adr_ptcl c = a -> 0 <= a -> a + n <= Z.of_nat (length keys) ->
    limit < n -> lev < 21 ->
    cut 0 = a -> cut 8 = a + n ->
    (forall j, 0 <= j < 8 -> cut j <= cut (j + 1)) ->
    (forall j k, 0 <= j < 8 -> cut j <= k < cut (j + 1) -> digit keys (lev + 1) k = j) ->
    0 <= adr_tc c < 2 ^ 31 ->
    (forall j, 0 <= j < 8 -> octree tc keys limit (adr_tc c + j) (lev + 1) (cut j) (cut (j + 1) - cut j)) ->
    octree tc keys limit i lev a n.

(** the cells of level l are those from part l to part (l+1) - 1 (for level 0 the root and seven empty cells), and the children of a cell of level l are of level l+1 *)
Definition layered (tc : list cell) (keys : list Z) (limit : Z) (part : list Z) (lev_max : Z) : Prop :=
  0 <= lev_max <= 21 /\
  exists p : Z -> Z, p 0 = 0 /\ p 1 = 8 /\ (forall l, 0 <= l <= lev_max + 1 -> at_ part l (p l)) /\
  (forall l, 0 <= l <= lev_max -> p l <= p (l + 1)) /\ p (lev_max + 1) <= Z.of_nat (length tc) /\
  forall l i, 0 <= l <= lev_max -> p l <= i < p (l + 1) ->
    exists c a, at_ tc i c /\ octree tc keys limit i l a (n_ptcl c) /\
    (limit < n_ptcl c -> l < 21 -> l < lev_max /\ p (l + 1) <= adr_tc c /\ adr_tc c + 8 <= p (l + 2)).

(** the order in which a level is processed is arbitrary *)
Definition any_order (sched : Z -> nat -> list nat) : Prop := forall l n, Permutation (sched l n) (seq 0 n).
(** the keys are sorted, and there are so few that 32 bits suffice for sums of two positions and for the number of cells *)
Definition fits (limit : Z) (keys : list Z) : Prop :=
  sorted_keys keys /\ 2 * Z.of_nat (length keys) <= 2 ^ 31 /\ 8 + 168 * (Z.of_nat (length keys) / (limit + 1)) < 2 ^ 31.

(** the particles a, ..., a+n-1 *)
Definition range {A} (l : list A) (a n : Z) : list A := firstn (Z.to_nat n) (skipn (Z.to_nat a) l).

(** groups that take the particles from first to last, one after the other *)
Inductive tiled {G} (size start : G -> Z) : Z -> list G -> Z -> Prop :=
| tiled_nil : forall last, tiled size start last [] last
| tiled_cons : forall g gs last, 0 < size g -> tiled size start (start g + size g) gs last -> tiled size start (start g) (g :: gs) last.

(** ** Boxes *)

Local Open Scope R_scope.

(** numbers for which ok holds compare like the reals val gives for them *)
Record ordered (N : arith) (ok : N -> Prop) (val : N -> R) : Prop := {
  o_lt : forall a b : N, ok a -> ok b -> (a <? b)%A = true <-> val a < val b;
  o_le : forall a b : N, ok a -> ok b -> (a <=? b)%A = true <-> val a <= val b;
  o_init : ok boxInit /\ ok (- boxInit)%A /\ val boxInit = (16777215 * 2 ^ 97) /\ val (- boxInit)%A = - (16777215 * 2 ^ 97) }.

Definition coords {C} : list (vec C -> C) := [vx; vy; vz].

(** the box that is the position of a particle, and the box around its search sphere *)
Definition point {N : arith} (e : site N) : ort N := Ort (s_pos e) (s_pos e).
Definition ball {N : arith} (e : site N) : ort N :=
  let shift f := Vec (f (vx (s_pos e)) (s_rad e)) (f (vy (s_pos e)) (s_rad e)) (f (vz (s_pos e)) (s_rad e)) in Ort (shift a_sub) (shift a_add).

Section Boxes.
  Context {N : arith} (ok : N -> Prop) (val : N -> R).

  (** all coordinates are ok and of size at most FLT_MAX / 128 *)
  Definition proper (b : ort N) : Prop := forall c, In c coords ->
    ok (c (olow b)) /\ ok (c (ohigh b)) /\ Rabs (val (c (olow b))) <= 16777215 * 2 ^ 97 /\ Rabs (val (c (ohigh b))) <= 16777215 * 2 ^ 97.

  Definition box_in (b o : ort N) : Prop := forall c, In c coords -> val (c (olow o)) <= val (c (olow b)) /\ val (c (ohigh b)) <= val (c (ohigh o)).
  (** o is the smallest box that contains the boxes bs *)
  Definition hull (bs : list (ort N)) (o : ort N) : Prop :=
    (forall c, In c coords -> ok (c (olow o)) /\ ok (c (ohigh o))) /\
    (forall b, In b bs -> box_in b o) /\
    forall c, In c coords -> (exists b, In b bs /\ val (c (olow o)) = val (c (olow b))) /\ (exists b, In b bs /\ val (c (ohigh o)) = val (c (ohigh b))).

  (** the moments of cell i are those of the particles a, ..., a+n-1 *)
  Definition measured (eps : list (site N)) (moms : list (moment N)) (i a n : Z) : Prop :=
    exists m, at_ moms i m /\ (n = 0%Z -> m = initMoment) /\
      ((0 < n)%Z -> hull (map point (range eps a n)) (v_in m) /\ hull (map ball (range eps a n)) (v_out m)).

  (** the group is a range of particles, not more than grpLimit unless all have the same key, and has their boxes *)
  Definition grouped (keys : list Z) (eps : list (site N)) (grpLimit : Z) (g : group N) : Prop :=
    ((g_n g <= grpLimit)%Z \/ forall k, (g_adr g <= k < g_adr g + g_n g)%Z -> keyAt keys k = keyAt keys (g_adr g)) /\
    hull (map point (range eps (g_adr g) (g_n g))) (g_in g) /\ hull (map ball (range eps (g_adr g) (g_n g))) (g_out g).

  (** the square of the distance of two particles *)
  Definition apart (e f : site N) : R :=
    (val (vx (s_pos e)) - val (vx (s_pos f))) ^ 2 + (val (vy (s_pos e)) - val (vy (s_pos f))) ^ 2 + (val (vz (s_pos e)) - val (vz (s_pos f))) ^ 2.
  (** one of the particles is in the search sphere of the other; slack allows for rounding in one of the two tests *)
  Definition sees (slack : R -> R) (e f : site N) : Prop := apart e f <= val (s_rad e) ^ 2 \/ slack (apart e f) <= val (s_rad f) ^ 2.

  (** positions, radii and search spheres are in range *)
  Definition usable (eps : list (site N)) : Prop := forall e, In e eps -> proper (point e) /\ proper (ball e) /\ ok (s_rad e) /\ 0 <= val (s_rad e).

  (** the groups take the particles epi in order, and the list of a group names, in order and once, particles of epj, among
      them all that a particle of the group sees *)
  Definition searched (slack : R -> R) (keysI : list Z) (epi epj : list (site N)) (grpLimit : Z) (res : list (group N * list Z)) : Prop :=
    tiled g_n g_adr 0 (map fst res) (Z.of_nat (length epi)) /\
    forall g l, In (g, l) res ->
      grouped keysI epi grpLimit g /\ StronglySorted Z.lt l /\ (forall k, In k l -> (0 <= k < Z.of_nat (length epj))%Z) /\
      forall i j e f, (g_adr g <= i < g_adr g + g_n g)%Z -> at_ epi i e -> at_ epj j f -> sees slack e f -> In j l.
End Boxes.

(** what buildTree is asked to do: the cells of a tree over the keys, with their moments *)
Definition builds {N : arith} (ok : N -> Prop) (val : N -> R) (limit : Z) (keys : list Z) (eps : list (site N)) (t : list cell * list (moment N)) : Prop :=
  let (tc, moms) := t in
  octree tc keys limit 0 0 0 (Z.of_nat (length keys)) /\
  exists part lev_max, layered tc keys limit part lev_max /\
    forall l h t i a n, (0 <= l <= lev_max)%Z -> at_ part l h -> at_ part (l + 1) t -> (h <= i < t)%Z -> octree tc keys limit i l a n -> measured ok val eps moms i a n.

(** a point of the box tin is in the search sphere, or the particle is in the box tout *)
Definition inBox (o : ort R) (p : vec R) : Prop := forall c, In c coords -> c (olow o) <= c p <= c (ohigh o).
Definition reached (tin tout : ort R) (e : site R_arith) : Prop :=
  (exists q, inBox tin q /\ (vx q - vx (s_pos e)) ^ 2 + (vy q - vy (s_pos e)) ^ 2 + (vz q - vz (s_pos e)) ^ 2 <= s_rad e ^ 2) \/ inBox tout (s_pos e).

(** exact numbers, and finite doubles *)
Definition all_ok {T} (_ : T) : Prop := True.
Definition finite (x : F_arith) : Prop := BinarySingleNaN.is_finite (x : F64.f64) = true.
Definition real (x : F_arith) : R := BinarySingleNaN.B2R (x : F64.f64).
Definition tight (d : R) : R := d.
Definition loose (d : R) : R := d * (1 + / 2 ^ 50) + / 2 ^ 1072.
