(** Model of the driver and of the solution quality report of CPSolver::test_LCP (Collision/CPSolver.cpp:779-896).
    The five solvers, the matrix product and the clock are oracles; the printing is the value returned on rank 0. *)
From Coq Require Import List ZArith Bool.
From Verif Require Import Outcome ListUtil Arith StatModel.
Import ListNotations.

Section LcpRep.
  Context {N : arith}.
  Local Open Scope arith_scope.

  (** largest int, the type of xerrorN and yerrorN (Collision/CPSolver.cpp:837, 839) *)
  Definition INT_MAX : Z := 2147483647.
  (** the three solvers that test_LCP calls (Collision/CPSolver.cpp:794, 800, 806) *)
  Inductive solver := MmNewton | APGD | BBPGD.
  (** Collision/CPSolver.cpp:789-822: the solvers called in turn, each with its tolerance; nothing for a choice that is not listed *)
  Definition stages (solverChoice : Z) (tol : N) : list (solver * N) :=
    match solverChoice with
    | 0%Z => [(MmNewton, tol)]
    | 1%Z => [(APGD, tol)]
    | 2%Z => [(BBPGD, tol)]
    | 3%Z => [(APGD, a_Z 100 * tol); (MmNewton, tol)]
    | 4%Z => [(BBPGD, a_Z 100 * tol); (MmNewton, tol)]
    | _ => []
    end.
  (** xerrorN++ in int (Collision/CPSolver.cpp:845, 849) *)
  Definition iadd (a b : Z) : outcome Z := if (INT_MAX <? a + b)%Z then UB else Done (a + b)%Z.
  (** Collision/CPSolver.cpp:844-847 (x), 848-851 (y): one entry *)
  Definition countEntry (s : Z * N) (v : N) : outcome (Z * N) :=
    if v <? a_Z 0 then do n <- iadd (fst s) 1 ; Done (n, dmax (snd s) (- v)) else Done s.
  (** Collision/CPSolver.cpp:837-853 on one rank, one of the two vectors; both have a single column *)
  Definition countLocal (v : list N) : outcome (Z * N) := ofold countEntry v (0%Z, a_Z 0).
  (** Collision/CPSolver.cpp:855-875: MPI_Reduce to rank 0, the sum of the counts and the maximum of the errors, in rank order *)
  Definition reduceRoot (ls : list (Z * N)) : outcome (Z * N) :=
    ofold (fun s l => do n <- iadd (fst s) (fst l) ; Done (n, dmax (snd s) (snd l))) ls (0%Z, a_Z 0).
  (** negative N and error max of one distributed vector, printed on rank 0 (Collision/CPSolver.cpp:884-888) *)
  Definition quality (v : list (list N)) : outcome (Z * N) := do ls <- omap countLocal v ; reduceRoot ls.
  (** AxbRcp->update(1.0, *bRcp, 1.0) (Collision/CPSolver.cpp:831) *)
  Definition addVec (ax b : list (list N)) : list (list N) :=
    map (fun p => map (fun q => fst q + snd q) (combine (fst p) (snd p))) (combine ax b).
  (** Collision/CPSolver.cpp:779-896 on all ranks: [run] is one solver call, [apply] the matrix product;
      the result is negative x N, xerror max and negative y N, yerror max *)
  Definition test_LCP (run : solver -> N -> list (list N) -> list (list N)) (apply : list (list N) -> list (list N))
      (b : list (list N)) (tol : N) (solverChoice : Z) : outcome ((Z * N) * (Z * N)) :=
    let x := fold_left (fun x st => run (fst st) (snd st) x) (stages solverChoice tol) (map (map (fun _ => a_Z 0)) b) in
    let y := addVec (apply x) b in
    do ex <- quality x ; do ey <- quality y ; Done (ex, ey).
End LcpRep.
