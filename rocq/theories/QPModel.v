(** Model of the quadratic-programming solvers: Constraint/BCQPSolver.cpp,
    Collision/CPSolver.cpp, Constraint/ConstraintOperator.cpp,
    Constraint/ConstraintSolver.cpp.

    A distributed Tpetra vector is the list of all its entries in global order; dot,
    norm2 and normInf are the global reductions of Tpetra.  The order of summation is
    Tpetra's business; here it is left to right (exact arithmetic does not care). *)
From Coq Require Import List Arith ZArith Bool.
From Verif Require Import Outcome ListUtil Arith.
Import ListNotations.

Section QP.
  Context {N : arith}.
  Local Open Scope arith_scope.

  (** ** Vectors *)

  (** V.update(a, X, b, Y, 0): a X + b Y (Tpetra::MultiVector::update) (Constraint/BCQPSolver.cpp:191) *)
  Definition vupd (a : N) (x : list N) (b : N) (y : list N) : list N :=
    map (fun p => a * fst p + b * snd p) (combine x y).
  (** X.dot(Y) (Tpetra::Vector::dot) (Constraint/BCQPSolver.cpp:216) *)
  Definition dot (x y : list N) : N :=
    fold_left a_add (map (fun p => fst p * snd p) (combine x y)) (a_Z 0).
  (** X.norm2() (Tpetra::Vector::norm2) (Constraint/BCQPSolver.cpp:215) *)
  Definition norm2 (x : list N) : N := a_sqrt (dot x x).
  (** std::max, std::min (Constraint/BCQPSolver.cpp:431-488) *)
  Definition stdmax (a b : N) : N := if a <? b then b else a.
  (** Constraint/BCQPSolver.cpp:431-488 *)
  Definition stdmin (a b : N) : N := if b <? a then b else a.
  (** X.normInf() (Tpetra::Vector::normInf) (Constraint/BCQPSolver.cpp:183) *)
  Definition normInf (x : list N) : N := fold_left (fun m e => stdmax m (a_abs e)) x (a_Z 0).
  (** pow(X.norm2(), 2) (Constraint/BCQPSolver.cpp:215) *)
  Definition normSq (x : list N) : N := norm2 x * norm2 x.

  (** 10 and 100 times numeric_limits<double>::epsilon() = 2^-52 (Constraint/BCQPSolver.cpp:223) *)
  Definition eps10 : N := a_lit 10 (-52).
  (** Constraint/BCQPSolver.cpp:463 *)
  Definition eps100 : N := a_lit 100 (-52).
  (** numeric_limits<double>::max() (Constraint/BCQPSolver.cpp:293) *)
  Definition dblMax : N := a_lit 9007199254740991 971.

  (** ** Projections and residuals *)

  (** Constraint/BCQPSolver.cpp:431-459 *)
  Definition boundProjection (lb ub v : list N) : list N :=
    let v := map (fun p => stdmax (fst p) (snd p)) (combine v lb) in
    map (fun p => stdmin (fst p) (snd p)) (combine v ub).

  (** Constraint/BCQPSolver.cpp:476-487: one coordinate; [None] is the projection error *)
  Definition projectGradient (lb ub x y : N) : option N :=
    if x <? lb + eps100 then Some (stdmin y (a_Z 0))
    else if x >? ub - eps100 then Some (stdmax y (a_Z 0))
    else if (x >? lb) && (x <? ub) then Some y
    else None.

  (** all entries defined, or [None] (Constraint/BCQPSolver.cpp:461-497) *)
  Fixpoint allSome {A} (l : list (option A)) : option (list A) :=
    match l with
    | [] => Some []
    | None :: _ => None
    | Some a :: r => option_map (cons a) (allSome r)
    end.

  (** Constraint/BCQPSolver.cpp:461-497: the vector q whose norm2 is returned; [None]: exit(1) *)
  Definition projResidual (lb ub x y : list N) : option (list N) :=
    allSome (map (fun p => projectGradient (fst (fst p)) (snd (fst p)) (fst (snd p)) (snd (snd p)))
                 (combine (combine lb ub) (combine x y))).

  (** Collision/CPSolver.cpp:13-30 *)
  Definition clipZero (v : list N) : list N := map (fun t => if t <? a_Z 0 then a_Z 0 else t) v.
  (** Collision/CPSolver.cpp:58-82 *)
  Definition minXY (x y : list N) : list N := map (fun p => stdmin (fst p) (snd p)) (combine x y).
  (** Collision/CPSolver.cpp:32-56 *)
  Definition maxXY (x y : list N) : list N := map (fun p => stdmax (fst p) (snd p)) (combine x y).
  (** Collision/CPSolver.cpp:111-126: the vector whose norm2 is returned *)
  Definition phiResidual (x y : list N) : option (list N) := Some (minXY x y).
  (** Collision/CPSolver.cpp:84-109, the version with Y = Ax and b given separately *)
  Definition phiResidual4 (x y b : list N) : list N := minXY x (vupd (a_Z 1) y (a_Z 1) b).

  (** ** Solvers *)

  (** one history record (Constraint/BCQPSolver.hpp:23): iteration, step size, residual, products *)
  Record hrec := HRec { h_ite : nat; h_step : N; h_res : N; h_mv : nat }.

  (** What a solver call does: exit(1), or return a code, the vector put in xsolRcp, the
      history and the last vector the operator was applied to (the operator keeps the force and
      velocity of that application, Constraint/ConstraintOperator.cpp:43-51). *)
  Inductive solved := SExit | SRet (code : Z) (x : list N) (hist : list hrec) (lastX : list N).

  Section Problem.
    Context (A : list N -> list N) (b : list N).

    (** A x + b (Constraint/BCQPSolver.cpp:154-156) *)
    Definition gradient (x : list N) : list N := vupd (a_Z 1) b (a_Z 1) (A x).

    Section BB.
      (** what differs between the two gradient solvers: projection, residual, step size rule
          (iteration, xk-xkm1, gk-gkm1), stagnation test *)
      Context (proj : list N -> list N) (resid : list N -> list N -> option (list N))
              (stepSize : nat -> list N -> list N -> N) (stagnates : N -> bool) (tol : N).

      (** Constraint/BCQPSolver.cpp:185-239, Collision/CPSolver.cpp:342-394: the loop.  [n] iterations
          are left; [xk] is the vector the pointer xkRcp holds (the older iterate after a swap). *)
      Fixpoint bbLoop (n ite mv : nat) (xk xkm1 gkm1 : list N) (alpha : N) (hist : list hrec) (lastX : list N) : solved :=
        match n with
        | O => SRet 0 xk hist lastX
        | S n' =>
            let ite := S ite in
            let xk := proj (vupd (- alpha) gkm1 (a_Z 1) xkm1) in
            let gk := gradient xk in
            let mv := S mv in
            match resid xk gk with
            | None => SExit
            | Some q =>
                let res := norm2 q in
                let hist := hist ++ [HRec ite alpha res mv] in
                if a_abs res <? tol then SRet 0 xk hist xk else
                let xd := vupd (a_Z 1) xk (- a_Z 1) xkm1 in
                let gd := vupd (a_Z 1) gk (- a_Z 1) gkm1 in
                let alpha := stepSize ite xd gd in
                if stagnates alpha then SRet 1 xk hist xk
                else bbLoop n' ite mv xkm1 xk gk alpha hist xk
            end
        end.

      (** the part before the loop; [firstStep g q]: first step size, extra products, last vector (Constraint/BCQPSolver.cpp:134-183, Collision/CPSolver.cpp:293-341) *)
      Definition bbSolve (firstStep : list N -> list N -> N * nat * option (list N)) (iteMax : nat) (x0 : list N) : solved :=
        let g := gradient x0 in
        match resid x0 g with
        | None => SExit
        | Some q =>
            let res := norm2 q in
            let hist := [HRec 0 (a_Z 0) res 1] in
            if a_abs res <? tol then SRet 0 x0 hist x0 else
            let '(alpha, extra, l) := firstStep g q in
            bbLoop iteMax 0 (1 + extra) x0 x0 g alpha hist (match l with Some v => v | None => x0 end)
        end.
    End BB.

    (** Constraint/BCQPSolver.cpp:223-227, Collision/CPSolver.cpp:384-388: a / b with b moved away from 0 *)
    Definition safeDiv (a b : N) : N :=
      let b := if a_abs b <? eps10 then b + eps10 else b in a / b.

    (** Constraint/BCQPSolver.cpp:213-227: alternating Barzilai-Borwein steps *)
    Definition bbStepAlt (ite : nat) (xd gd : list N) : N :=
      if Nat.even ite then safeDiv (normSq xd) (dot xd gd) else safeDiv (dot xd gd) (normSq gd).

    (** Constraint/BCQPSolver.cpp:134-247, solveBBPGD *)
    Definition solveBBPGD (lb ub : list N) (tol : N) (iteMax : nat) (x0 : list N) : solved :=
      bbSolve (boundProjection lb ub) (projResidual lb ub) bbStepAlt (fun alpha => alpha <? eps10) tol
        (fun _ q => (a_Z 1 / normInf q, 0, None)) iteMax x0.

    (** Collision/CPSolver.cpp:293-400, LCP_BBPGD *)
    Definition LCP_BBPGD (tol : N) (iteMax : nat) (x0 : list N) : solved :=
      bbSolve clipZero phiResidual (fun _ xd gd => safeDiv (normSq xd) (dot xd gd)) (fun _ => false) tol
        (fun g _ => (safeDiv (normSq g) (dot g (A g)), 1, Some g)) iteMax x0.

    Section AP.
      (** what differs: projection, residual, stagnation test *)
      Context (proj : list N -> list N) (resid : list N -> list N -> option (list N)) (stagnates : N -> bool) (tol : N).

      (** Constraint/BCQPSolver.cpp:310-341, Collision/CPSolver.cpp:466-491: the Lipschitz loop; returns
          Lk, tk, xkp1, A xkp1 and the product count *)
      Fixpoint lipschitz (fuel : nat) (yk g : list N) (right12 : N) (Lk tk : N) (xkp1 : list N) (mv : nat)
        : outcome (N * N * list N * list N * nat) :=
        match fuel with
        | O => NoFuel
        | S fuel =>
            let xd := vupd (a_Z 1) xkp1 (- a_Z 1) yk in
            let Ax := A xkp1 in
            let mv := S mv in
            let left1 := dot xkp1 Ax * a_lit 1 (-1) in
            let left2 := dot xkp1 b in
            let right3 := dot g xd in
            let right4 := a_lit 1 (-1) * Lk * normSq xd in
            if left1 + left2 <=? right12 + right3 + right4 then Done (Lk, tk, xkp1, Ax, mv)
            else let Lk := Lk * a_Z 2 in
                 let tk := a_Z 1 / Lk in
                 lipschitz fuel yk g right12 Lk tk (proj (vupd (a_Z 1) yk (- tk) g)) mv
        end.

      (** Constraint/BCQPSolver.cpp:296-381, Collision/CPSolver.cpp:452-533: the main loop.
          [zeroPointNine] is the double 0.9 (line 374). *)
      Fixpoint apLoop (fuel : nat) (n ite mv : nat) (xk yk : list N) (Lk tk thetak resmin : N) (xhat : list N)
               (hist : list hrec) (lastX : list N) : outcome solved :=
        match n with
        | O => Done (SRet 0 xhat hist lastX)
        | S n' =>
            let ite := S ite in
            let Ay := A yk in
            let mv := S mv in
            let g := vupd (a_Z 1) b (a_Z 1) Ay in
            let xkp1 := proj (vupd (a_Z 1) yk (- tk) g) in
            let right12 := dot yk Ay * a_lit 1 (-1) + dot yk b in
            do r <- lipschitz fuel yk g right12 Lk tk xkp1 mv;
            let '(Lk, tk, xkp1, Ax, mv) := r in
            if stagnates tk then Done (SRet 1 xhat hist xkp1) else
            let thetakp1 := (- thetak * thetak + thetak * a_sqrt (a_Z 4 + thetak * thetak)) / a_Z 2 in
            let beta := thetak * (a_Z 1 - thetak) / (thetak * thetak + thetakp1) in
            let ykp1 := vupd (a_Z 1 + beta) xkp1 (- beta) xk in
            match resid xkp1 (vupd (a_Z 1) b (a_Z 1) Ax) with
            | None => Done SExit
            | Some q =>
                let res := a_abs (norm2 q) in
                let better := res <? resmin in
                let resmin := if better then res else resmin in
                let xhat := if better then xkp1 else xhat in
                let hist := hist ++ [HRec ite tk res mv] in
                if res <? tol then Done (SRet 0 xhat hist xkp1) else
                let restart := dot g (vupd (a_Z 1) xkp1 (- a_Z 1) xk) >? a_Z 0 in
                let ykp1 := if restart then xkp1 else ykp1 in
                let thetakp1 := if restart then a_Z 1 else thetakp1 in
                let Lk := Lk * a_lit 8106479329266893 (-53) in
                let tk := a_Z 1 / Lk in
                apLoop fuel n' ite mv xkp1 ykp1 Lk tk thetakp1 resmin xhat hist xkp1
            end
        end.

      (** Constraint/BCQPSolver.cpp:249-389, Collision/CPSolver.cpp:402-538 *)
      Definition apSolve (fuel iteMax : nat) (x0 : list N) : outcome solved :=
        let xhat := map (fun _ => a_Z 1) x0 in
        let xd := vupd (- a_Z 1) xhat (a_Z 1) x0 in
        let Lk := norm2 (A xd) / norm2 xd in
        let tk := a_Z 1 / Lk in
        apLoop fuel iteMax 0 1 x0 x0 Lk tk (a_Z 1) dblMax xhat [HRec 0 tk (a_Z 0) 1] xd.
    End AP.

    (** Constraint/BCQPSolver.cpp:249-389, solveAPGD *)
    Definition solveAPGD (lb ub : list N) (tol : N) (fuel iteMax : nat) (x0 : list N) : outcome solved :=
      apSolve (boundProjection lb ub) (projResidual lb ub) (fun tk => tk <? eps10) tol fuel iteMax x0.

    (** Collision/CPSolver.cpp:402-538, LCP_APGD *)
    Definition LCP_APGD (tol : N) (fuel iteMax : nat) (x0 : list N) : outcome solved :=
      apSolve clipZero phiResidual (fun _ => false) tol fuel iteMax x0.
  End Problem.

  (** ** The constraint operator and solver *)

  (** D^T as its rows, each a list of (column, value) (Tpetra::CrsMatrix) (Constraint/ConstraintOperator.cpp:14-19) *)
  Definition srows := list (list (nat * N)).
  (** D^T v (DMatTransRcp->apply) (Constraint/ConstraintOperator.cpp:57) *)
  Definition applyT (D : srows) (v : list N) : list N :=
    map (fun row => fold_left a_add (map (fun e => snd e * nth (fst e) v (a_Z 0)) row) (a_Z 0)) D.
  (** D x, D the explicit transpose, with [m] rows (DMatRcp->apply) (Constraint/ConstraintOperator.cpp:44) *)
  Definition applyD (D : srows) (m : nat) (x : list N) : list N :=
    map (fun c => fold_left a_add
           (concat (map (fun p => map (fun e => if Nat.eqb (fst e) c then snd e * snd p else a_Z 0) (fst p)) (combine D x)))
           (a_Z 0)) (seq 0 m).

  (** Constraint/ConstraintOperator.cpp:30-71, apply on one column; [Y] is the old content.
      Returns the new column and the force and velocity kept by the operator. *)
  Definition opApply (D : srows) (m : nat) (mob : list N -> list N) (invKappa : list N) (alpha beta : N) (X Y : list N)
    : list N * (list N * list N) :=
    let force := applyD D m X in
    let vel := mob force in
    let Y1 := vupd alpha (applyT D vel) beta Y in
    let Y2 := map (fun p => fst p + alpha * fst (snd p) * snd (snd p)) (combine Y1 (combine invKappa X)) in
    (Y2, (force, vel)).

  (** Y = Op X as the solvers call it (alpha = 1, beta = 0; with beta 0 the old content is not read) (Constraint/BCQPSolver.cpp:195 with Constraint/ConstraintOperator.cpp:30-71) *)
  Definition opMul (D : srows) (m : nat) (mob : list N -> list N) (invKappa X : list N) : list N :=
    let force := applyD D m X in
    let Y1 := applyT D (mob force) in
    map (fun p => fst p + fst (snd p) * snd (snd p)) (combine Y1 (combine invKappa X)).

  (** Constraint/ConstraintSolver.cpp:17-26: the constant part q = delta0/dt + D^T velnc and the
      scaled inverse stiffness *)
  Definition setupQ (D : srows) (delta0 velnc : list N) (dt : N) : list N :=
    vupd (a_Z 1) (map (fun d => d * (a_Z 1 / dt)) delta0) (a_Z 1) (applyT D velnc).
  (** Constraint/ConstraintSolver.cpp:19 *)
  Definition setupInvKappa (invKappa : list N) (dt : N) : list N := map (fun k => k * (a_Z 1 / dt)) invKappa.
  (** Constraint/ConstraintSolver.cpp:66-68: lower bound 0, or -1e8 where bilateral *)
  Definition setupLb (biFlag : list N) : list N := map (fun f => - a_Z 100000000 * f) biFlag.

  (** Constraint/ConstraintSolver.cpp:92-104: gamma -> (force_u, force_b, vel_u, vel_b); [lastX] is the last
      vector the operator was applied to *)
  Definition splitForces (D : srows) (m : nat) (mob : list N -> list N) (biFlag gamma lastX : list N)
    : list N * list N * list N * list N :=
    let gammaBi := map (fun p => fst p * snd p) (combine gamma biFlag) in
    let forceb := applyD D m gammaBi in
    let velb := mob forceb in
    let force := applyD D m lastX in
    let vel := mob force in
    (vupd (a_Z 1) force (- a_Z 1) forceb, forceb, vupd (a_Z 1) vel (- a_Z 1) velb, velb).

  (** Constraint/ConstraintSolver.cpp:60-105, solveConstraints after setup *)
  Definition solveConstraints (choice : Z) (D : srows) (m : nat) (mob : list N -> list N)
    (invKappa q biFlag ub : list N) (tol : N) (fuel iteMax : nat) (guess : list N)
    : outcome (option (list N * (list N * list N * list N * list N) * list hrec)) :=
    let A := opMul D m mob invKappa in
    let lb := setupLb biFlag in
    do r <- (if (choice =? 1)%Z then solveAPGD A q lb ub tol fuel iteMax guess
             else Done (solveBBPGD A q lb ub tol iteMax guess));
    match r with
    | SExit => Done None
    | SRet _ gamma hist lastX => Done (Some (gamma, splitForces D m mob biFlag gamma lastX, hist))
    end.
End QP.
Arguments hrec : clear implicits.
Arguments solved : clear implicits.
Arguments srows : clear implicits.
