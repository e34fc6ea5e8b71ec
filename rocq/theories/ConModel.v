(** Model of Constraint/ConstraintBlock.hpp and Constraint/ConstraintCollector.cpp. *)
From Coq Require Import List Arith ZArith Bool.
From Verif Require Import Outcome ListUtil SortModel PointsModel ParticleModel IndexModel Arith.
Import ListNotations.

(** component d of a three-vector ([EvecD](d), double[3]) (Util/EigenDef.hpp:34, 40) *)
Definition vget {C} (v : vec C) (d : nat) : C := match d with 0 => vx v | 1 => vy v | _ => vz v end.
(** Emat3 (Util/EigenDef.hpp): rows *)
Definition mat3 (C : Type) := vec (vec C).
(** m(i,j) (Util/EigenDef.hpp:34, 40) *)
Definition mget {C} (m : mat3 C) (i j : nat) : C := vget (vget m i) j.
(** a matrix given by its entries (Util/EigenDef.hpp:34, 40) *)
Definition mkmat {C} (f : nat -> nat -> C) : mat3 C :=
  Vec (Vec (f 0 0) (f 0 1) (f 0 2)) (Vec (f 1 0) (f 1 1) (f 1 2)) (Vec (f 2 0) (f 2 1) (f 2 2)).
(** the index pairs visited by two nested loops over 0..2 (as in Constraint/ConstraintBlock.hpp:95-99) *)
Definition ij33 : list (nat * nat) := list_prod (seq 0 3) (seq 0 3).

Section Con.
  Context {N : arith}.
  Local Open Scope arith_scope.

  (** Constraint/ConstraintBlock.hpp:30-50 *)
  Record block := Block {
    delta0 : N; gamma : N; gammaLB : N;
    gidI : Z; gidJ : Z; globalIndexI : Z; globalIndexJ : Z;
    oneSide : bool; bilateral : bool; kappa : N;
    normI : vec N; normJ : vec N; posI : vec N; posJ : vec N; labI : vec N; labJ : vec N;
    stress : list N
  }.

  (** Constraint/ConstraintBlock.hpp:77-92, the constructor *)
  Definition mkBlock (delta0_ gamma_ : N) (gidI_ gidJ_ globalIndexI_ globalIndexJ_ : Z)
    (normI_ normJ_ posI_ posJ_ labI_ labJ_ : vec N) (oneSide_ bilateral_ : bool) (kappa_ gammaLB_ : N) : block :=
    Block delta0_ gamma_ gammaLB_ gidI_ gidJ_ globalIndexI_ globalIndexJ_ oneSide_ bilateral_ kappa_
          normI_ normJ_ posI_ posJ_ labI_ labJ_ (repeat (a_Z 0) 9).

  (** the block with another gamma and stress (member assignment) (Constraint/ConstraintCollector.cpp:453-455) *)
  Definition withGammaStress (b : block) (g : N) (s : list N) : block :=
    Block (delta0 b) g (gammaLB b) (gidI b) (gidJ b) (globalIndexI b) (globalIndexJ b) (oneSide b) (bilateral b)
          (kappa b) (normI b) (normJ b) (posI b) (posJ b) (labI b) (labJ b) s.

  (** Constraint/ConstraintBlock.hpp:94-100 *)
  Definition setStressMat (b : block) (m : mat3 N) : outcome block :=
    do s <- ofold (fun s ij => mwrite s (fst ij * 3 + snd ij) (mget m (fst ij) (snd ij))) ij33 (stress b);
    Done (withGammaStress b (gamma b) s).

  (** Constraint/ConstraintBlock.hpp:102-106 *)
  Definition setStressPtr (b : block) (p : list N) : outcome block :=
    do s <- ofold (fun s i => do x <- mread p i; mwrite s i x) (seq 0 9) (stress b);
    Done (withGammaStress b (gamma b) s).

  (** Constraint/ConstraintBlock.hpp:110-116 *)
  Definition getStressMat (b : block) : outcome (mat3 N) :=
    do l <- omap (fun ij => mread (stress b) (fst ij * 3 + snd ij)) ij33;
    Done (mkmat (fun i j => nth (i * 3 + j) l (a_Z 0))).

  (** Constraint/ConstraintBlock.hpp:118-126 *)
  Definition reverseIJ (b : block) : block :=
    Block (delta0 b) (gamma b) (gammaLB b) (gidJ b) (gidI b) (globalIndexJ b) (globalIndexI b) (oneSide b) (bilateral b)
          (kappa b) (normJ b) (normI b) (posJ b) (posI b) (labJ b) (labI b) (stress b).

  (** Constraint/ConstraintBlock.hpp:132-133: one queue of blocks per thread *)
  Definition pool := list (list block).

  (** Constraint/ConstraintCollector.cpp:19-28, clear when [threads] threads are available *)
  Definition clear (p : pool) (threads : nat) : pool :=
    let p := map (fun _ => []) p in
    firstn threads p ++ repeat [] (threads - length p).

  (** Constraint/ConstraintCollector.cpp:30-36 *)
  Definition getLocalNumberOfConstraints (p : pool) : nat :=
    fold_left (fun sum q => (sum + length q)%nat) p 0.

  (** entrywise sum of two Emat3 (Util/EigenDef.hpp:34, 40) *)
  Definition madd (a b : mat3 N) : mat3 N := mkmat (fun i j => mget a i j + mget b i j).
  (** Util/EigenDef.hpp:34, 40 *)
  Definition mzero : mat3 N := mkmat (fun _ _ => a_Z 0).

  (** Constraint/ConstraintCollector.cpp:50-65: one block; state = (uni, bi) sums of the queue *)
  Definition stressStep (withOneSide : bool) (st : mat3 N * mat3 N) (b : block) : outcome (mat3 N * mat3 N) :=
    if oneSide b && negb withOneSide then Done st else
    do m <- getStressMat b;
    Done (if bilateral b then (fst st, madd (snd st) m) else (madd (fst st) m, snd st)).

  (** Constraint/ConstraintCollector.cpp:38-74; [order] is the order in which the queues reach
      the critical section.  Returns (uniStress, biStress). *)
  Definition sumLocalConstraintStress (order : list nat) (p : pool) (withOneSide : bool) : outcome (mat3 N * mat3 N) :=
    ofold (fun tot que =>
      do q <- mread p que;
      do s <- ofold (stressStep withOneSide) q (mzero, mzero);
      Done (madd (fst tot) (fst s), madd (snd tot) (snd s))) order (mzero, mzero).

  (** Constraint/ConstraintCollector.cpp:425-437, buildConIndex: (cQueSize, cQueIndex).  The
      callers pass fresh vectors, so resize zero-fills and cQueIndex[0] is 0. *)
  Definition buildConIndex (p : pool) : list nat * list nat :=
    let sz := map (@length _) p in (sz, psum sz).

  (** Constraint/ConstraintCollector.cpp:273 *)
  Definition cBlockNNZ (b : block) : nat := if oneSide b then 6 else 12.

  (** Constraint/ConstraintCollector.cpp:300-319: the six columns and values of one body *)
  Definition sixEntries (globalIndex : Z) (g p : vec N) : outcome (list (Z * N)) :=
    do c <- as_int (6 * globalIndex);
    do _ <- as_int (c + 5);
    Done [(c, vx g); ((c + 1)%Z, vy g); ((c + 2)%Z, vz g);
          ((c + 3)%Z, vz g * vy p - vy g * vz p);
          ((c + 4)%Z, vx g * vz p - vz g * vx p);
          ((c + 5)%Z, vy g * vx p - vx g * vy p)].

  (** Constraint/ConstraintCollector.cpp:298-341: one block; state = (columnIndices and values, kk).
      The two arrays have the same size and are written at the same places, so they are
      kept as one array of pairs. *)
  Definition fillBlock (st : list (Z * N) * nat) (b : block) : outcome (list (Z * N) * nat) :=
    let '(m, kk) := st in
    do eI <- sixEntries (globalIndexI b) (normI b) (posI b);
    do m <- splice m kk eI;
    let kk := (kk + 6)%nat in
    if oneSide b then Done (m, kk)
    else do eJ <- sixEntries (globalIndexJ b) (normJ b) (posJ b);
         do m <- splice m kk eJ;
         Done (m, (kk + 6)%nat).

  (** Constraint/ConstraintCollector.cpp:257-342: row pointers (running sums of the entry
      counts) and the filled arrays; [order] is the order in which the queues are processed
      (parallel loop), [junk] the content after allocation. *)
  Definition fillMatrix (order : list nat) (junk : Z * N) (p : pool) : outcome (list nat * list (Z * N)) :=
    let rowPointers := psum (map cBlockNNZ (concat p)) in
    let colIndexPool := psum (map (fun q => sum_list (map cBlockNNZ q)) p) in
    do m <- ofold (fun m t =>
        do q <- mread p t;
        do kk <- mread colIndexPool t;
        do st <- ofold fillBlock q (m, kk);
        Done (fst st)) order (repeat junk (last rowPointers 0));
    Done (rowPointers, m).

  (** the integers lo..hi (Constraint/ConstraintCollector.cpp:349-353) *)
  Definition zrange (lo hi : Z) : outcome (list Z) :=
    do n <- as_int (hi - lo + 1);
    if (n <? 0)%Z then UB else Done (map (fun i => (lo + Z.of_nat i)%Z) (seq 0 (Z.to_nat n))).

  (** Constraint/ConstraintCollector.cpp:344-369: the column map; ints sort uniquely *)
  Definition columnMap (mobMin mobMax : Z) (cols : list Z) : outcome (list Z) :=
    do own <- zrange mobMin mobMax;
    Done (unique (stable_sort Z.ltb (own ++ filter (fun c => ((c <? mobMin) || (mobMax <? c))%Z) cols))).

  (** Tpetra::Map::getLocalElement (Constraint/ConstraintCollector.cpp:379): position, or invalid *)
  Fixpoint getLocalElement (m : list Z) (c : Z) : option nat :=
    match m with
    | [] => None
    | x :: r => if (x =? c)%Z then Some 0 else option_map S (getLocalElement r c)
    end.

  (** Tpetra::CrsMatrix built from row pointers, local columns, values and a column map
      (Constraint/ConstraintCollector.cpp:388); an invalid local column is undefined. *)
  Record crs := Crs { rowPtr : list nat; entries : list (nat * N); colMap : list Z }.

  (** one row of the four vectors (Constraint/ConstraintCollector.cpp:391-395) *)
  Record conRow := ConRow { r_delta0 : N; r_gammaGuess : N; r_invKappa : N; r_biFlag : N }.

  (** Constraint/ConstraintCollector.cpp:410-419: one block; the vectors are zero before *)
  Definition fillRow (b : block) (old : conRow) : conRow :=
    ConRow (delta0 b) (gamma b)
      (if bilateral b then (if kappa b >? a_Z 0 then a_Z 1 / kappa b else a_Z 0) else r_invKappa old)
      (if bilateral b then a_Z 1 else r_biFlag old).

  (** Constraint/ConstraintCollector.cpp:405-420; the four vectors are kept as one array of rows *)
  Definition fillVectors (order : list nat) (p : pool) : outcome (list conRow) :=
    let idx := snd (buildConIndex p) in
    ofold (fun v que =>
      do q <- mread p que;
      do base <- mread idx que;
      ofold (fun v j => do b <- mread q j; do old <- mread v (base + j); mwrite v (base + j) (fillRow b old))
            (seq 0 (length q)) v)
      order (repeat (ConRow (a_Z 0) (a_Z 0) (a_Z 0) (a_Z 0)) (last idx 0)).

  (** Constraint/ConstraintCollector.cpp:237-423, buildConstraintMatrixVector on one rank.
      [order1], [order2]: schedules of the two parallel loops; mobMin, mobMax: the local range
      of the mobility map. *)
  Definition buildConstraintMatrixVector (order1 order2 : list nat) (junk : Z * N) (mobMin mobMax : Z) (p : pool)
    : outcome (crs * list conRow) :=
    do rm <- fillMatrix order1 junk p;
    do cm <- columnMap mobMin mobMax (map fst (snd rm));
    do loc <- omap (fun e => match getLocalElement cm (fst e) with Some l => Done (l, snd e) | None => UB end) (snd rm);
    do rows <- fillVectors order2 p;
    Done (Crs (fst rm) loc cm, rows).

  (** Constraint/ConstraintCollector.cpp:439-460, writeBackGamma on one rank *)
  Definition writeBackGamma (order : list nat) (g : list N) (p : pool) : outcome pool :=
    let idx := snd (buildConIndex p) in
    ofold (fun p i =>
      do q <- mread p i;
      do base <- mread idx i;
      do q' <- ofold (fun q j =>
          do b <- mread q j;
          do x <- mread g (base + j);
          mwrite q j (withGammaStress b x (map (fun s => s * x) (stress b)))) (seq 0 (length q)) q;
      mwrite p i q') order p.

  (** what a CRS row means: its entries as (global column, value) (Tpetra::CrsMatrix) (filled at Constraint/ConstraintCollector.cpp:286-389) *)
  Definition crsRow (m : crs) (i : nat) : list (Z * N) :=
    let lo := nth i (rowPtr m) 0 in
    let hi := nth (S i) (rowPtr m) 0 in
    map (fun e => (nth (fst e) (colMap m) (-1)%Z, snd e)) (slice lo (hi - lo) (entries m)).

  (** D x, D = transpose: entry c of the product of the transposed matrix with x
      (Tpetra::CrsMatrix::apply on the explicit transpose, Constraint/ConstraintOperator.cpp:18-20, 44) *)
  Definition crsTransApply (m : crs) (x : list N) (c : Z) : N :=
    fold_left a_add
      (concat (map (fun ix => map (fun e => if (fst e =? c)%Z then snd e * snd ix else a_Z 0) (crsRow m (fst ix)))
                   (combine (seq 0 (length x)) x))) (a_Z 0).

End Con.
Arguments block : clear implicits.
Arguments pool : clear implicits.
Arguments crs : clear implicits.
Arguments conRow : clear implicits.
