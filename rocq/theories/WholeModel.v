(** Model of resolveConstraints and runStep on all ranks: Sylinder/SylinderSystem.cpp:829-866, 948-968, with the steps as in PipeModel, BoundaryModel,
    LinkModel, ConModel, QPModel, SylModel and StepModel. A distributed vector is the list of its entries in global order. *)
From Coq Require Import List Arith ZArith Bool.
From Verif Require Import Outcome ListUtil Arith VecModel SylModel ParticleModel GeoModel IndexModel StepModel NearModel ConModel TreeModel CallModel PipeModel BoundaryModel LinkModel QPModel.
Import ListNotations.

(** the entries of a distributed vector on each rank; its map is contiguous (Trilinos/TpetraUtil.cpp:39-41) *)
Fixpoint parts {A} (sizes : list nat) (x : list A) : list (list A) :=
  match sizes with [] => [] | n :: ns => firstn n x :: parts ns (skipn n x) end.

Section Whole.
  Context {N : arith}.
  Local Open Scope arith_scope.
  Notation syl := (sylinder N).
  Notation prank := (@prank syl).
  Notation mobMatrix := (list nat * list (nat * N))%type.

  (** conResTol, conMaxIte and conSolverChoice (Sylinder/SylinderConfig.hpp:66-68) *)
  Record solveConfig := SolveConfig { v_tol : N; v_maxIte : nat; v_choice : Z }.

  (** what is left open on a rank: the order of the loop of calcMobMatrix and its uninitialised memory (Sylinder/SylinderSystem.cpp:622-717), the orders of the
      loops over the queues and the uninitialised memory in buildConstraintMatrixVector and writeBackGamma (Constraint/ConstraintCollector.cpp:286-342, 402-420,
      444-459), getMinGlobalIndex of a map without elements, the orders of the loops in a step and its random numbers (StepModel) *)
  Record fate := Fate {
    y_mob : list nat; y_mobJunk : nat * N; y_fill1 : list nat; y_fill2 : list nat; y_back : list nat; y_junk : Z * N; y_min : Z;
    y_ord : nat -> list nat; y_draws : nat -> draws N }.

  (** the mobility matrices of the ranks (Sylinder/SylinderSystem.cpp:719-722, called at 924) *)
  Definition calcMobOperator (flog : N -> N) (Pi mu : N) (y : nat -> fate) (ranks : list prank) : outcome (list mobMatrix) :=
    omap (fun r => do p <- mread ranks r; calcMobMatrix flog Pi mu (y_mob (y r)) (y_mobJunk (y r)) (pr_ptcl p)) (seq 0 (length ranks)).
  (** mobilityOperatorRcp->apply: no entry of the matrix is outside of the block of its rank (Sylinder/SylinderSystem.cpp:622-722) *)
  Definition mobilityApply (ms : list mobMatrix) (sizes : list nat) (x : list N) : list N :=
    concat (map (fun t => mobApply (fst (fst t)) (6 * snd (fst t)) (snd t)) (combine (combine ms sizes) (parts (map (Nat.mul 6) sizes) x))).

  (** getMinGlobalIndex and getMaxGlobalIndex (Constraint/ConstraintCollector.cpp:347-348); for a map without elements the minimum is some number and the
      maximum is one less *)
  Definition indexRange (none : Z) (m : list Z) : Z * Z := match m with [] => (none, none - 1)%Z | x :: _ => (x, last m 0%Z) end.

  (** D^T with its rows on all ranks, and the other vectors (Constraint/ConstraintSolver.cpp:15, Constraint/ConstraintCollector.cpp:237-423) *)
  Definition buildAll (y : nat -> fate) (sizes : list nat) (pools : list (pool N)) : outcome (srows N * list (conRow N)) :=
    do mobMap <- getTMAPFromLocalSize (map (Nat.mul 6) sizes);
    do _ <- getTMAPFromLocalSize (map (@getLocalNumberOfConstraints N) pools);
    do out <- omap (fun r => do p <- mread pools r; do m <- mread mobMap r;
                     let '(lo, hi) := indexRange (y_min (y r)) m in
                     buildConstraintMatrixVector (y_fill1 (y r)) (y_fill2 (y r)) (y_junk (y r)) lo hi p) (seq 0 (length pools));
    Done (concat (map (fun o => map (fun i => map (fun e => (Z.to_nat (fst e), snd e)) (crsRow (fst o) i)) (seq 0 (length (snd o)))) out), concat (map snd out)).

  (** the default upper bound of the magnitudes (Constraint/BCQPSolver.cpp:505-509) *)
  Definition upper : N := dblMax / a_Z 10.

  (** setup, solveConstraints and writebackGamma (Sylinder/SylinderSystem.cpp:855-862, Constraint/ConstraintSolver.cpp:4-34, 60-106): the blocks with their magnitudes,
      the forces and velocities (unilateral, then bilateral) and the history; None when a rank exits. fuel is for the loops of the solver. *)
  Definition solveAll (fuel : nat) (y : nat -> fate) (dt : N) (v : solveConfig) (mob : list N -> list N) (sizes : list nat) (velnc : list N) (pools : list (pool N))
    : outcome (option (list (pool N) * (list N * list N * list N * list N) * list (hrec N))) :=
    do b <- buildAll y sizes pools;
    let '(D, rows) := b in
    do x <- solveConstraints (v_choice v) D (6 * sum_list sizes) mob (setupInvKappa (map (@r_invKappa N) rows) dt) (setupQ D (map (@r_delta0 N) rows) velnc dt)
              (map (@r_biFlag N) rows) (repeat upper (length rows)) (v_tol v) fuel (v_maxIte v) (map (@r_gammaGuess N) rows);
    match x with
    | None => Done None
    | Some (g, (fu, fb, vu, vb), hist) =>
        do out <- omap (fun r => do p <- mread pools r; do x <- mread (parts (map (@getLocalNumberOfConstraints N) pools) g) r; writeBackGamma (y_back (y r)) x p) (seq 0 (length pools));
        Done (Some (out, (fu, vu, fb, vb), hist))
    end.

  (** runStep on a rank before resolveConstraints (Sylinder/SylinderSystem.cpp:950-954): the objects and velocityNonConRcp *)
  Definition stepBefore (flog fsin fcos : N -> N) (Pi tenth : N) (c : stepConfig N) (mob : list N -> list N) (fNB vNB : option (list N)) (w : nat -> draws N)
    (ord : nat -> list nat) (ss : list syl) : outcome (list syl * list N) :=
    do r <- (if c_KBT c >? a_Z 0 then
               do r <- calcVelocityBrown flog fsin fcos Pi tenth c w (ord 5%nat) (ord 6%nat) ss; Done (fst r, Some (snd r))
             else Done (ss, None));
    let '(ss, vB) := r in
    calcVelocityNonCon c mob fNB vNB vB ord ss.
  (** saveForceVelocityConstraints and runStep after resolveConstraints (Sylinder/SylinderSystem.cpp:865, 958-965): the objects as written and at the end *)
  Definition stepAfter (fsin fcos : N -> N) (c : stepConfig N) (ord : nat -> list nat) (fu vu fb vb : list N) (ss : list syl) : outcome (list syl * list syl) :=
    do ss <- saveForceVelocityConstraints fu vu fb vb (ord 7%nat) ss;
    do ss <- sumForceVelocity (ord 8%nat) ss;
    do ss' <- stepEulerAll fsin fcos c (ord 9%nat) ss;
    Done (ss, ss').

  (** runStep on all ranks (Sylinder/SylinderSystem.cpp:948-968): the objects as written (before moving), the objects at the end, the blocks and the history of the
      solver; None when a rank exits. fNB and vNB are the forces and velocities set on each rank, collect the collection of the blocks. *)
  Definition runStepAll (flog fsin fcos : N -> N) (Pi tenth : N) (c : stepConfig N) (v : solveConfig) (fuel : nat) (y : nat -> fate) (ms : list mobMatrix)
    (fNB vNB : nat -> option (list N)) (collect : list prank -> outcome (option (list (pool N)))) (ranks : list prank)
    : outcome (option (list prank * list prank * list (pool N) * list (hrec N))) :=
    do pre <- omap (fun r => do p <- mread ranks r; do m <- mread ms r;
                     stepBefore flog fsin fcos Pi tenth c (mobApply m (6 * length (pr_ptcl p))) (fNB r) (vNB r) (y_draws (y r)) (y_ord (y r)) (pr_ptcl p)) (seq 0 (length ranks));
    let ranks := map (fun pq => withPtcl (fst pq) (fst (snd pq))) (combine ranks pre) in
    let sizes := map (fun p => length (pr_ptcl p)) ranks in
    do pools <- collect ranks;
    match pools with
    | None => Done None
    | Some pools =>
        do x <- solveAll fuel y (c_dt c) v (mobilityApply ms sizes) sizes (concat (map snd pre)) pools;
        match x with
        | None => Done None
        | Some (pools, (fu, vu, fb, vb), hist) =>
            let cut := parts (map (Nat.mul 6) sizes) in
            do out <- omap (fun r => do p <- mread ranks r; do fu <- mread (cut fu) r; do vu <- mread (cut vu) r; do fb <- mread (cut fb) r; do vb <- mread (cut vb) r;
                             do x <- stepAfter fsin fcos c (y_ord (y r)) fu vu fb vb (pr_ptcl p); Done (withPtcl p (fst x), withPtcl p (snd x))) (seq 0 (length ranks));
            Done (Some (map fst out, map snd out, pools, hist))
        end
    end.

  (** what is left open in collecting the blocks on a rank: the order and the thread of each iteration in collectBoundaryCollision for each boundary and in
      collectLinkBilateral, the order of the links in linkMap (Sylinder/SylinderSystem.cpp:1100, 1422, 1410) *)
  Record dealing := Dealing { g_plan : list (list nat * (nat -> nat)); g_order : list nat; g_who : nat -> nat; g_links : list (Z * Z) }.

  (** the collection of the blocks (Sylinder/SylinderSystem.cpp:837-848); pairs is collectPairCollision, bs the boundaries, dir0 and data0 the
      previous content of the directory and of the array of found objects. The directory is built at the end of prepareStep (Sylinder/SylinderSystem.cpp:922), from the same
      data: nothing of it is changed by runStep before this. *)
  Definition collectConstraints (pairs : list prank -> outcome (list (pool N))) (fuel : nat) (Pi : N) (buf : N) (bs : list (boundary N)) (lk : linkConfig N) (fresh : nearEP N)
    (junk : Z -> nearEP N) (dir0 : list (Z * nearEP N)) (data0 : nat -> list (nearEP N)) (g : nat -> dealing) (ranks : list prank) : outcome (option (list (pool N))) :=
    do pools <- pairs ranks;
    do pools <- omap (fun r => do p <- mread ranks r; do q <- mread pools r; collectBoundaryCollision buf (g_plan (g r)) bs (pr_ptcl p) q) (seq 0 (length ranks));
    let dir := buildIndex dir0 (map (fun p => publishNear (pr_ptcl p)) ranks) in
    do pools <- omap (fun r => do p <- mread ranks r; do q <- mread pools r;
                       collectLinkBilateral fuel Pi lk fresh junk dir (data0 r) (g_links (g r)) (pr_ptcl p) (g_order (g r)) (g_who (g r)) q) (seq 0 (length ranks));
    Done (LinkModel.allSome pools).
End Whole.
Arguments solveConfig : clear implicits.
Arguments fate : clear implicits.
