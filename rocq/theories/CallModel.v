(** Model of calcForceAll, the neighbour search with all its steps on all ranks: FDPS/tree_for_force.hpp:757-842,
    FDPS/tree_for_force_impl.hpp:196-305, 437-556, 813-937 and FDPS/tree_for_force_impl_force.hpp:1301-1393,
    for the list mode MAKE_LIST and the search mode SEARCH_MODE_SYMMETRY of SimToolbox. The steps before and after the
    exchange use TreeModel and RadixModel, the exchange is that of LetModel. *)
From Coq Require Import List Arith ZArith Bool.
From Verif Require Import Outcome ListUtil Arith ParticleModel VecModel PointsModel DomainModel MortonModel RadixModel TreeModel LetModel.
Import ListNotations.

(** ** The root cell *)

Section Root.
  Context {N : arith} {P : Type}.

  (** the double 1.000001 (FDPS/tree_for_force_impl.hpp:869, 919) *)
  Definition margin : N := a_lit 4503604130970123 (-52).

  (** the loop of one thread (FDPS/tree_for_force_impl.hpp:863-870) *)
  Definition threadBox (ep : list (item N P)) (is : list nat) : outcome (ort N) :=
    ofold (fun b i => do e <- mread ep i; Done (mergeBall b (s_pos (i_site e)) (s_rad (i_site e) * margin)%A)) is emptyBox.
  (** FDPS/tree_for_force_impl.hpp:836-837, 859-877; deal gives the particles of each thread, the threads in the order in which they
      enter the critical section *)
  Definition rankBox (deal : list (list nat)) (ep : list (item N P)) : outcome (ort N) :=
    ofold (fun b is => do t <- threadBox ep is; Done (mergeBox b t)) deal emptyBox.
  (** getMinValue and getMaxValue over the ranks (FDPS/tree_for_force_impl.hpp:879-883) *)
  Definition outerBox (boxes : list (ort N)) : ort N :=
    match boxes with [] => emptyBox | b :: l => fold_left mergeBox l b end.

  (** the loop of CalcNumShift (FDPS/tree_for_force_impl.hpp:823-827) *)
  Fixpoint shiftLoop (fuel : nat) (my tmp : ort N) (shift : vec N) (n : Z) : outcome Z :=
    match fuel with
    | O => NoFuel
    | S f => if overlapsBox my tmp then do n <- as_int (n + 1); shiftLoop f my (shiftBox tmp shift) shift n else Done n
    end.
  (** FDPS/tree_for_force_impl.hpp:813-828 *)
  Definition calcNumShift (fuel : nat) (root my : ort N) (shift : vec N) : outcome Z := shiftLoop fuel my (shiftBox root shift) shift 0.
  (** num_shift_max of an axis (FDPS/tree_for_force_impl.hpp:893-905) *)
  Definition axisShift (fuel : nat) (periodic : bool) (root my : ort N) (shift : vec N) : outcome Z :=
    if periodic then
      do p <- calcNumShift fuel root my shift;
      do n <- calcNumShift fuel root my (vopp shift);
      Done (Z.max p n)
    else Done 0%Z.
  (** length_tmp and center_ of an axis (FDPS/tree_for_force_impl.hpp:909-917) *)
  Definition axisCell (periodic : bool) (c : vec N -> N) (root my : ort N) (num : Z) : outcome (N * N) :=
    let mid o := ((c (ohigh o) + c (olow o)) * a_lit 1 (-1))%A in
    if periodic then do k <- as_int (2 * num + 1); Done (a_Z k * (c (ohigh root) - c (olow root)), mid root)%A
    else Done (c (ohigh my) - c (olow my), mid my)%A.
  (** calcCenterAndLengthOfRootCellImpl from my_outer_boundary on (FDPS/tree_for_force_impl.hpp:883-919): center_ and length_ *)
  Definition rootCell (fuel : nat) (pa : vec bool) (root my : ort N) : outcome (vec N * N) :=
    let shift := vsub (ohigh root) (olow root) in
    let zero := a_Z 0 in
    do nx <- axisShift fuel (vx pa) root my (Vec (vx shift) zero zero);
    do ny <- axisShift fuel (vy pa) root my (Vec zero (vy shift) zero);
    do nz <- axisShift fuel (vz pa) root my (Vec zero zero (vz shift));
    do x <- axisCell (vx pa) vx root my nx;
    do y <- axisCell (vy pa) vy root my ny;
    do z <- axisCell (vz pa) vz root my nz;
    let longer l a := (if a >? l then a else l)%A in
    Done (Vec (snd x) (snd y) (snd z), (longer (longer (longer zero (fst x)) (fst y)) (fst z) * margin)%A).

  (** setRootCell on all ranks (FDPS/tree_for_force_impl.hpp:232-244, 834-919) *)
  Definition setRootCell (deal : nat -> list (list nat)) (fuel : nat) (pa : vec bool) (root : ort N) (E : list (list (item N P))) : outcome (vec N * N) :=
    do boxes <- omap (fun r => do ep <- mread E r; rankBox (deal r) ep) (seq 0 (length E));
    rootCell fuel pa root (outerBox boxes).

  (** MortonKey::initialize( length_ * 0.5, center_) and getKey (FDPS/tree_for_force_impl.hpp:271, FDPS/key.hpp:90-104) *)
  Definition cellKey (trunc : N -> Z) (cell : vec N * N) (p : vec N) : outcome Z := getKey trunc (snd cell * a_lit 1 (-1))%A (fst cell) p.
End Root.

Section Call.
  Context {N : arith} {P Fo : Type}.
  Notation item := (item N P).

  (** ** Sorting *)

  (** what the two sorts leave open: the regions, the order of the copy, what the counters and the buffer hold before (FDPS/sort.hpp:56-126,
      FDPS/tree_for_force_impl.hpp:270, 449) *)
  Record sorter := Sorter { so_gs : nat -> region; so_copy : list nat; so_b : list (list nat); so_p : list (list nat); so_buf : list (Z * nat) }.
  (** rs_.lsdSort with RadixSort<U64, 8> on the tree particles, which are pairs of key_ and adr_ptcl_ (FDPS/tree_for_force.hpp:70,
      FDPS/tree.hpp:6-42, FDPS/tree_for_force_impl.hpp:289, 456) *)
  Definition sortTp (s : sorter) (tp : list (Z * nat)) : outcome (list (Z * nat)) :=
    do r <- lsdSort (fun t : Z * nat => Z.to_N (fst t)) 8 64 0 (length tp - 1) (so_gs s) (so_copy s) (so_b s) (so_p s) tp (so_buf s);
    Done (fst r).

  (** setFromEP for the particles from a on (FDPS/tree.hpp:19-23) *)
  Definition setTp (key : vec N -> outcome Z) (ep : list item) (a n : nat) : outcome (list (Z * nat)) :=
    omap (fun i => do e <- mread ep i; do k <- key (s_pos (i_site e)); Done (k, i)) (seq a n).
  (** mortonSortLocalTreeOnly (FDPS/tree_for_force_impl.hpp:261-305): tp_glb_, and epi_sorted_, which holds the same as epj_sorted_ *)
  Definition sortLocal (key : vec N -> outcome Z) (s : sorter) (ep : list item) : outcome (list (Z * nat) * list item) :=
    do tp <- setTp key ep 0 (length ep);
    do tp <- sortTp s tp;
    do own <- omap (fun t => mread ep (snd t)) tp;
    Done (tp, own).
  (** SetLocalEssentialTreeToGlobalTreeImpl (FDPS/tree_for_force_utils2.hpp:1121-1143) and mortonSortGlobalTreeOnly
      (FDPS/tree_for_force_impl.hpp:437-465, 548-555): tp are the tree particles sorted before, epj_org_ the particles of this rank in
      their first order and behind them the received ones *)
  Definition sortGlobal (key : vec N -> outcome Z) (s : sorter) (tp : list (Z * nat)) (ep recv : list item) : outcome (list (Z * nat) * list item) :=
    do new <- setTp key (ep ++ recv) (length ep) (length recv);
    do tp <- sortTp s (tp ++ new);
    do all <- omap (fun t => mread (ep ++ recv) (snd t)) tp;
    Done (tp, all).

  (** ** Calls of the functor *)

  (** what a rank has before the exchange: epi_org_, tp_glb_, epi_sorted_, tc_loc_ (FDPS/tree_for_force_impl.hpp:196-364) *)
  Record local := Local { l_org : list item; l_tp : list (Z * nat); l_own : list item; l_tree : list cell * list (moment N) }.

  (** what is left open on a rank: the threads of the loop over the particles, both sorts (for a number of tree particles), the
      construction of both trees, the exchange, which thread calls the functor for which group (for a number of groups), the order of
      the last copy, what the forces hold before (FDPS/tree_for_force_impl.hpp:859-877, 289, 456, 338-364, 568-599, 931-937,
      FDPS/tree_for_force_impl_force.hpp:1304, 1315) *)
  Record cast := Cast {
    q_deal : list (list nat); q_sort1 : nat -> sorter; q_sort2 : nat -> sorter;
    q_tree1 : list Z -> list (site N) -> outcome (list cell * list (moment N)); q_tree2 : list Z -> list (site N) -> outcome (list cell * list (moment N));
    q_let : chance N P; q_calls : nat -> list (nat * nat); q_copy : list nat; q_sorted : nat -> Fo; q_org : nat -> Fo }.

  (** mortonSortLocalTreeOnly, linkCellLocalTreeOnly and calcMomentLocalTreeOnly (FDPS/tree_for_force.hpp:773-779) *)
  Definition localTree (key : vec N -> outcome Z) (q : cast) (ep : list item) : outcome local :=
    do s <- sortLocal key (q_sort1 q (length ep)) ep;
    do t <- q_tree1 q (map fst (fst s)) (map i_site (snd s));
    Done (Local ep (fst s) (snd s) t).

  (** calcForceMakingTree up to the exchange on all ranks (FDPS/tree_for_force.hpp:771-781): the root cell, what each rank has and what
      each rank receives *)
  Definition makeTrees (q : nat -> cast) (trunc : N -> Z) (fuel : nat) (pa : vec bool) (root : ort N) (doms : list (ort N)) (limit : Z) (E : list (list item))
    : outcome ((vec N * N) * list local * list (list item)) :=
    do cell <- setRootCell (fun r => q_deal (q r)) fuel pa root E;
    do ls <- omap (fun r => do ep <- mread E r; localTree (cellKey trunc cell) (q r) ep) (seq 0 (length E));
    do recv <- exchangeLet (fun r => q_let (q r)) (cellKey trunc cell) fuel pa root doms (map l_own ls) (map l_tree ls) limit;
    Done (cell, ls, recv).

  (** what the functor makes of the forces of a group from the particles of the group and of its list; clear() of a force
      (FDPS/tree_for_force_impl_force.hpp:1363-1368) *)
  Variables (func : list item -> list item -> list Fo -> list Fo) (clear : Fo -> Fo).

  (** the body of the loop over the groups (FDPS/tree_for_force_impl_force.hpp:1317-1330, 1355-1369, 1392): t is the thread, i the
      group; the state holds force_sorted_ and the calls so far *)
  Definition callGroup (own all : list item) (lists : list (group N * list Z)) (st : list Fo * list (nat * (list item * list item))) (ti : nat * nat)
    : outcome (list Fo * list (nat * (list item * list item))) :=
    let '(force, calls) := st in
    do gl <- mread lists (snd ti);
    let (g, l) := (gl : group N * list Z) in
    let range := zrange (g_adr g) (g_adr g + g_n g) in
    do epj <- omap (zread all) l;
    do force <- ofold (fun f i => do x <- zread f i; zwrite f i (clear x)) range force;
    do epi <- omap (zread own) range;
    do before <- omap (zread force) range;
    let after := func epi epj before in
    do force <- ofold (fun f k => do x <- mread after k; zwrite f (g_adr g + Z.of_nat k) x) (seq 0 (length range)) force;
    Done (force, calls ++ [(fst ti, (epi, epj))]).

  (** copyForceOriginalOrder (FDPS/tree_for_force_impl.hpp:928-937) *)
  Definition copyForce (order : list nat) (tp : list (Z * nat)) (sorted org : list Fo) : outcome (list Fo) :=
    ofold (fun f i => do t <- mread tp i; do x <- mread sorted i; mwrite f (snd t) x) order org.

  (** calcForceMakingTree after the exchange (FDPS/tree_for_force.hpp:783-797): the calls of the functor and force_org_ *)
  Definition callRank (q : cast) (key : vec N -> outcome Z) (limit grpLimit : Z) (l : local) (recv : list item)
    : outcome (list (nat * (list item * list item)) * list Fo) :=
    do s <- sortGlobal key (q_sort2 q (length (l_org l) + length recv)) (l_tp l) (l_org l) recv;
    let (tp, all) := s in
    do lists <- searchLists (fun _ _ => Done (l_tree l)) (q_tree2 q) (map fst (l_tp l)) (map i_site (l_own l)) (map fst tp) (map i_site all) limit grpLimit;
    let n := length (l_org l) in
    do fc <- ofold (callGroup (l_own l) all lists) (q_calls q (length lists)) (map (q_sorted q) (seq 0 n), []);
    do org <- copyForce (q_copy q) (l_tp l) (fst fc) (map (q_org q) (seq 0 n));
    Done (snd fc, org).

  (** calcForceAll with clear_force = true on all ranks (FDPS/tree_for_force.hpp:827-842), E are the particles of the ranks
      (copyFromFP, FDPS/tree_for_force_impl.hpp:206-213, is getPos and getRSearch of them) *)
  Definition calcForceAll (q : nat -> cast) (trunc : N -> Z) (fuel : nat) (pa : vec bool) (root : ort N) (doms : list (ort N)) (limit grpLimit : Z) (E : list (list item))
    : outcome (list (list (nat * (list item * list item)) * list Fo)) :=
    do m <- makeTrees q trunc fuel pa root doms limit E;
    let '(cell, ls, recv) := m in
    omap (fun r => do l <- mread ls r; do x <- mread recv r; callRank (q r) (cellKey trunc cell) limit grpLimit l x) (seq 0 (length E)).
End Call.
Arguments local : clear implicits. Arguments cast : clear implicits.
