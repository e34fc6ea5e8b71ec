(** Model of the minimum-map Newton solver, Collision/CPSolver.cpp:128-170 and 540-777. *)
From Coq Require Import List Arith ZArith Bool.
From Verif Require Import Outcome ListUtil Arith QPModel.
Import ListNotations.

Section Newton.
  Context {N : arith}.
  Local Open Scope arith_scope.

  (** Collision/CPSolver.cpp:155-167: minimum map and its mask (1 where x < y) *)
  Definition hMinMap (x y : list N) : list N * list N :=
    (map (fun p => if fst p <? snd p then fst p else snd p) (combine x y),
     map (fun p => if fst p <? snd p then a_Z 1 else a_Z 0) (combine x y)).

  (** Collision/CPSolver.cpp:570-592, mmNewtonOperator::apply (alpha and beta are ignored) *)
  Definition maskApply (A : list N -> list N) (mask x : list N) : list N :=
    map (fun p => if fst p >? a_lit 1 (-1) then fst (snd p) else snd (snd p)) (combine mask (combine x (A x))).

  (** 0.5*pow(H.norm2(), 2) (Collision/CPSolver.cpp:688, 756) *)
  Definition merit (h : list N) : N := a_lit 1 (-1) * normSq h.

  (** Collision/CPSolver.cpp:620-628: the constants 1e-14 (tol_abs and rho), 1e-28 (gamma), 0.001 (beta), 1e20 *)
  Definition tolAbs : N := a_lit 6338253001141147 (-99).
  (** Collision/CPSolver.cpp:620-628 *)
  Definition stepMin : N := a_lit 8920298079412249 (-146).
  (** Collision/CPSolver.cpp:620-628 *)
  Definition betaC : N := a_lit 4611686018427388 (-62).
  (** Collision/CPSolver.cpp:620-628 *)
  Definition errInit : N := a_Z 100000000000000000000.

  Section Problem.
    Context (A : list N -> list N) (b : list N).
    (** the Krylov solve of (mask operator) dx = H from the guess dx, with its iteration count
        (Belos, Collision/CPSolver.cpp:711-713; any vector is allowed) *)
    Context (krylov : list N -> list N -> list N -> list N * nat).

    (** Collision/CPSolver.cpp:745-767: backtracking; returns tau, x, y and the product count *)
    Fixpoint lineSearch (fuel : nat) (x dx : list N) (f0 gradf tau : N) (mv : nat) : outcome (N * list N * list N * nat) :=
      match fuel with
      | O => NoFuel
      | S fuel =>
          let xk := clipZero (vupd (a_Z 1) x tau dx) in
          let yk := vupd (a_Z 1) b (a_Z 1) (A xk) in
          let mv := S mv in
          let fk := merit (fst (hMinMap yk xk)) in
          if fk <=? f0 + tau * gradf then Done (tau, xk, yk, mv)
          else if tau * tau <? stepMin then Done (tau, xk, yk, mv)
          else lineSearch fuel x dx f0 gradf (tau * a_lit 1 (-1)) mv
      end.

    (** Collision/CPSolver.cpp:715-742: the direction, from the Krylov solution *)
    Definition direction (d H nablaH : list N) : list N :=
      let dx := map (fun v => - a_Z 1 * v) d in
      let dx := if normInf dx <? tolAbs then map (fun v => - a_Z 1 * v) nablaH else dx in
      if dot nablaH dx >? - tolAbs * normSq dx then map (fun v => - a_Z 1 * v) nablaH else dx.

    (** why the loop ended (Collision/CPSolver.cpp:658-776) *)
    Inductive stop := Converged | SmallChange | LocalMinimum | Exhausted.
    (** Collision/CPSolver.cpp:658-776 *)
    Record newtonRun := NRun { n_code : Z; n_x : list N; n_hist : list (hrec N); n_stop : stop }.

    (** Collision/CPSolver.cpp:658-771: the loop; [x],[y] current, [xk],[yk] what is left in the work vectors
        (uninitialised at first, then the previous iterate), [dx] the Krylov guess.  [x0] is the
        vector of the caller, left as it is by the early return. *)
    Fixpoint newtonLoop (fuel n ite mv : nat) (tol : N) (x0 x y xk yk dx : list N) (err tk : N) (hist : list (hrec N))
      : outcome newtonRun :=
      match n with
      | O => Done (NRun 0 x hist Exhausted)
      | S n' =>
          let ite := S ite in
          let resPhi := norm2 (minXY xk yk) in
          let hist := hist ++ [HRec ite tk resPhi mv] in
          if (tk >? a_Z 0) && (a_abs resPhi <? tol) then Done (NRun 0 x hist Converged) else
          let '(H, mask) := hMinMap x y in
          let oldErr := err in
          let err := merit H in
          let rel := a_abs (err - oldErr) / a_abs oldErr in
          if (rel <? tol) || (err <? tolAbs) then Done (NRun 0 x hist SmallChange) else
          let '(d, iters) := krylov mask H dx in
          let nablaH := maskApply A mask H in
          let dir := direction d H nablaH in
          if norm2 nablaH <? tolAbs then Done (NRun 1 x0 hist LocalMinimum) else
          let gradf := betaC * dot nablaH dir in
          do r <- lineSearch fuel x dir err gradf (a_Z 1) (mv + iters);
          let '(tau, xn, yn, mv) := r in
          newtonLoop fuel n' ite mv tol x0 xn yn x y dir err tau hist
      end.

    (** Collision/CPSolver.cpp:595-777, LCP_mmNewton; [jx], [jy] are the uninitialised work vectors *)
    Definition LCP_mmNewton (fuel iteMax : nat) (tol : N) (jx jy x0 : list N) : outcome newtonRun :=
      newtonLoop fuel iteMax 0 1 tol x0 x0 (gradient A b x0) jx jy (map (fun _ => a_Z 0) x0) errInit (a_Z 0) [].
  End Problem.
End Newton.
Arguments newtonRun : clear implicits.
