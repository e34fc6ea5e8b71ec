(** Properties C21-C25 and C52: constraint operator, quadratic programs, complementarity problems. *)
From Coq Require Import List Arith ZArith Reals Bool Lia Lra.
From Flocq Require Import Core BinarySingleNaN.
From Verif Require Import ListUtil Outcome F64 Arith QPModel QPSpec LinProofs QPProofs QPSolver QPReal QPTerm
  NewtonModel NewtonSpec NewtonProofs QPFloat.
Import ListNotations.
Local Open Scope R_scope.

(** ** C21 *)

Theorem C21_apply : forall (D : list (list (nat * R))) m mob (k : list R) (alpha beta : R) (X Y : list R),
  cols_below D m -> sym_psd m mob -> length k = length D -> length X = length D -> length Y = length D ->
  exists Z f v g, opApply (N := R_arith) D m mob k alpha beta X Y = (Z, (f, v)) /\
    is_force D m X f /\ v = mob f /\ is_gap D m v g /\ length Z = length D /\
    forall i, (i < length D)%nat -> at_ Z i = alpha * (at_ g i + at_ k i * at_ X i) + beta * at_ Y i.
Proof. exact opApply_R. Qed.
Print Assumptions C21_apply.

Theorem C21_symmetric_psd : forall (D : list (list (nat * R))) m mob (k : list R),
  cols_below D m -> sym_psd m mob -> length k = length D -> Forall (Rle 0) k ->
  sym_psd (length D) (opMul (N := R_arith) D m mob k).
Proof. exact opMul_psd. Qed.
Print Assumptions C21_symmetric_psd.

(** the product used by the solvers is apply with alpha 1, beta 0 *)
Theorem C21_product : forall (D : list (list (nat * R))) m mob (k X Y : list R),
  length k = length D -> length X = length D -> length Y = length D ->
  fst (opApply (N := R_arith) D m mob k 1 0 X Y) = opMul (N := R_arith) D m mob k X.
Proof. exact opApply_mul. Qed.
Print Assumptions C21_product.

Definition f1 : f64 := f_ofZ 1.
Definition exD : srows F_arith := [[(0%nat, f_ofZ 1); (1%nat, f_ofZ 2)]; [(1%nat, f_ofZ (-1))]].
(* D x = (1, 2*1 - 3) = (1, -1); mobility 2; D^T v = (2 - 4, 2); + K x = (0, 3/2); alpha 2, beta 1 *)
Example C21_example :
  match opApply (N := F_arith) exD 2 (scaleF (f_ofZ 2)) [f_ofZ 0; f_lit 1 (-1)] (f_ofZ 2) f1 [f1; f_ofZ 3] [f1; f1] with
  | ([z0; z1], ([g0; g1], [v0; v1])) =>
      feq z0 (f_ofZ (-3)) && feq z1 (f_ofZ 8) && feq g0 f1 && feq g1 (f_ofZ (-1)) && feq v0 (f_ofZ 2) && feq v1 (f_ofZ (-2)) = true
  | _ => False
  end.
Proof. vm_compute. reflexivity. Qed.
Example C21_example_psd : sym_psd 2 (fun x => x) /\ cols_below exD 2.
Proof.
  split; [apply idOp_psd|]. intros row e [<-|[<-|[]]] He; cbn in He.
  - destruct He as [<-|[<-|[]]]; cbn; lia.
  - destruct He as [<-|[]]; cbn; lia.
Qed.

(** ** C22 *)

(** an optimum has residual 0 *)
Theorem C22_optimum : forall A (b lb ub x : list R), sym_psd (length b) A -> length lb = length b -> wide lb ub ->
  minimizes A b lb ub x -> residual lb ub x (grad A b x) 0.
Proof. exact optimum_residual. Qed.
Print Assumptions C22_optimum.

(** residual 0 is within margin * |gradient|_1 of the optimum *)
Theorem C22_near : forall A (b lb ub x : list R), sym_psd (length b) A -> length lb = length b -> in_box lb ub x ->
  residual lb ub x (grad A b x) 0 ->
  forall z, in_box lb ub z -> objective A b x <= objective A b z + margin * abs_sum (grad A b x).
Proof. exact residual_near. Qed.
Print Assumptions C22_near.

(** exactly optimal when no coordinate is strictly inside the margin of a bound *)
Theorem C22_exact : forall A (b lb ub x : list R), sym_psd (length b) A -> length lb = length b -> wide lb ub ->
  in_box lb ub x -> off_margin lb ub x -> (residual lb ub x (grad A b x) 0 <-> minimizes A b lb ub x).
Proof. exact residual_exact. Qed.
Print Assumptions C22_exact.

(** the minimum-map residual of the LCP solvers *)
Theorem C22_complementarity : forall A (b x : list R), sym_psd (length b) A -> length x = length b ->
  exists q, phiResidual (N := R_arith) x (gradient (N := R_arith) A b x) = Some q /\
    (norm2 (N := R_arith) q = 0 <-> complementary x (grad A b x)) /\
    (norm2 (N := R_arith) q = 0 <-> minimizes_nonneg A b x).
Proof. exact phi_zero. Qed.
Print Assumptions C22_complementarity.

Theorem C22_margin_refuted : exists A b lb ub x, sym_psd (length b) A /\ length lb = length b /\ wide lb ub /\
  in_box lb ub x /\ residual lb ub x (grad A b x) 0 /\ ~ minimizes A b lb ub x.
Proof. exact margin_refuted. Qed.
Print Assumptions C22_margin_refuted.

Theorem C22_narrow_refuted : exists A b lb ub x, sym_psd (length b) A /\ length lb = length b /\ Forall2 Rlt lb ub /\
  minimizes A b lb ub x /\ residual lb ub x (grad A b x) 1.
Proof. exact narrow_refuted. Qed.
Print Assumptions C22_narrow_refuted.

(** In doubles, -1e8 + 100 eps = -1e8: a magnitude projected onto the lower bound of a bilateral constraint is a
    "projection error", and the run exits although the guess is feasible. *)
Theorem C22_doubles_refuted : exists A b lb ub x0,
  flt lb x0 && flt x0 ub && feq lb (f_ofZ (-100000000)) = true /\
  projResidual (N := F_arith) [lb] [ub] [lb] [f_ofZ 1] = None /\
  solveBBPGD (N := F_arith) A [b] [lb] [ub] (f_lit 1 (-20)) 10 [x0] = SExit.
Proof.
  exists (scaleF f1), (f_ofZ 300000000), (f_ofZ (-100000000)), (f_ofZ 100000000), (f_ofZ 0).
  split; [vm_compute; reflexivity|]. split; [apply is_none|apply is_exit]; vm_compute; reflexivity.
Qed.
Print Assumptions C22_doubles_refuted.

Example C22_example :
  match projResidual (N := F_arith) [f_ofZ 0; f_ofZ 0; f_ofZ 0] [f1; f1; f1] [f_ofZ 0; f1; f_lit 1 (-1)] [f_ofZ 5; f_ofZ (-3); f_ofZ 2] with
  | Some [a; b; c] => feq a (f_ofZ 0) && feq b (f_ofZ 0) && feq c (f_ofZ 2) = true
  | _ => False
  end.
Proof. vm_compute. reflexivity. Qed.
Example C22_example_lcp : complementary [0; 2; 0] [1; 0; 0].
Proof. repeat constructor; lra. Qed.

(** ** C23 *)

(** From a feasible guess the solver never aborts, returns a feasible vector, and reports truthfully. *)
Theorem C23_outcome : forall A (b lb ub : list R) (tol : R), keeps_length (length b) A -> Forall2 Rle lb ub ->
  length lb = length b -> forall iteMax (x0 : list R), in_box lb ub x0 ->
  exists code x hist l, solveBBPGD (N := R_arith) A b lb ub tol iteMax x0 = SRet code x hist l /\ in_box lb ub x /\
    bb_report (N := R_arith) (fun x r => residual lb ub x (grad A b x) r) tol iteMax code x hist l.
Proof. exact solveBBPGD_R. Qed.
Print Assumptions C23_outcome.

(** If any record of the history is below the tolerance, the returned vector is. *)
Theorem C23_converged : forall A (b lb ub : list R) (tol : R), keeps_length (length b) A -> Forall2 Rle lb ub ->
  length lb = length b -> forall iteMax (x0 : list R) code (x : list R) hist (l : list R), in_box lb ub x0 ->
  solveBBPGD (N := R_arith) A b lb ub tol iteMax x0 = SRet code x hist l ->
  (exists e, In e hist /\ Rabs (h_res e) < tol) ->
  code = 0%Z /\ l = x /\ in_box lb ub x /\ exists r, residual lb ub x (grad A b x) r /\ 0 <= r < tol.
Proof. exact solveBBPGD_converged. Qed.
Print Assumptions C23_converged.

(** In doubles: the report is truthful, the vector is the guess or a projected one. *)
Theorem C23_doubles : forall A b lb ub tol iteMax x0 code x hist l,
  solveBBPGD (N := F_arith) A b lb ub tol iteMax x0 = SRet code x hist l ->
  bb_report (N := F_arith) (fun x r => exists q, projResidual lb ub x (gradient A b x) = Some q /\ norm2 q = r)
    tol iteMax code x hist l /\
  (x = x0 \/ exists v, x = boundProjection lb ub v).
Proof. exact solveBBPGD_F. Qed.
Print Assumptions C23_doubles.

(** Out of iterations: the return code is 0, the same as on convergence, and the vector is not the last iterate. *)
Theorem C23_exhausted_refuted : exists A b lb ub tol x0,
  match solveBBPGD (N := F_arith) A [b] [lb] [ub] tol 1 [x0] with
  | SRet 0 [x] hist [l] => feq x x0 && feq l f1 && (length hist =? 2)%nat = true
  | _ => False
  end /\
  match projResidual (N := F_arith) [lb] [ub] [x0] (gradient A [b] [x0]) with Some q => flt tol (norm2 q) | None => false end = true.
Proof.
  exists (scaleF (f_ofZ 2)), (f_ofZ (-1)), (f_ofZ 0), (f_ofZ 10), (f_lit 1 (-10)), (f_ofZ 0). split; vm_compute; reflexivity.
Qed.
Print Assumptions C23_exhausted_refuted.

(** An infeasible guess can be returned with code 0. *)
Theorem C23_infeasible_guess_refuted : exists A b lb ub tol x0,
  match solveBBPGD (N := F_arith) A [b] [lb] [ub] tol 10 [x0] with
  | SRet 0 [x] _ _ => feq x x0 && flt x lb = true
  | _ => False
  end.
Proof. exists (scaleF f1), (f_ofZ 7), (f_ofZ 0), (f_ofZ 10), (f_lit 1 (-10)), (f_ofZ (-5)). vm_compute. reflexivity. Qed.
Print Assumptions C23_infeasible_guess_refuted.

Example C23_example :
  match solveBBPGD (N := F_arith) (scaleF (f_ofZ 2)) [f_ofZ (-1); f_ofZ 4] [f_ofZ 0; f_ofZ 0] [f_ofZ 10; f_ofZ 10] (f_lit 1 (-20)) 50 [f_ofZ 3; f_ofZ 1] with
  | SRet 0 [x; y] hist _ => flt (fabs (fsub x (f_lit 1 (-1)))) (f_lit 1 (-20)) && feq y (f_ofZ 0) && (length hist <? 6)%nat = true
  | _ => False
  end.
Proof. vm_compute. reflexivity. Qed.

(** ** C24 *)

Theorem C24_best : forall A (b lb ub : list R) (tol : R), keeps_length (length b) A -> Forall2 Rle lb ub ->
  length lb = length b -> forall fuel iteMax (x0 : list R) code (x : list R) hist (l : list R), length x0 = length b ->
  solveAPGD (N := R_arith) A b lb ub tol fuel iteMax x0 = Done (SRet code x hist l) ->
  ap_report (N := R_arith) (fun x r => residual lb ub x (grad A b x) r) tol iteMax (map (fun _ => 1) x0) code x hist l /\
  (x = map (fun _ => 1) x0 \/ in_box lb ub x).
Proof. exact solveAPGD_R. Qed.
Print Assumptions C24_best.

Theorem C24_converged : forall A (b lb ub : list R) (tol : R), keeps_length (length b) A -> Forall2 Rle lb ub ->
  length lb = length b -> forall fuel iteMax (x0 : list R) code (x : list R) hist (l : list R), length x0 = length b ->
  tol <= dblMax (N := R_arith) ->
  solveAPGD (N := R_arith) A b lb ub tol fuel iteMax x0 = Done (SRet code x hist l) ->
  (exists e, In e (tl hist) /\ h_res e < tol) ->
  code = 0%Z /\ l = x /\ in_box lb ub x /\ exists r, residual lb ub x (grad A b x) r /\ 0 <= r < tol.
Proof. exact solveAPGD_converged. Qed.
Print Assumptions C24_converged.

(** the bound on the tolerance is the largest double *)
Theorem C24_largest : (forall x : f64, is_finite x = true -> B2R x <= dblMax (N := R_arith)) /\
  is_finite (dblMax (N := F_arith)) = true /\ B2R (dblMax (N := F_arith)) = dblMax (N := R_arith).
Proof. exact dblMax_largest. Qed.
Print Assumptions C24_largest.

(** It ends unless A (x0 - 1) = 0. *)
Theorem C24_terminates : forall A (b lb ub : list R) (tol : R) iteMax (x0 : list R), sym_psd (length b) A ->
  Forall2 Rle lb ub -> length lb = length b -> length x0 = length b ->
  norm2 (N := R_arith) (A (axpy (-1) (map (fun _ => 1) x0) x0)) <> 0 ->
  exists F, forall fuel, (F <= fuel)%nat ->
  exists code x hist l, solveAPGD (N := R_arith) A b lb ub tol fuel iteMax x0 = Done (SRet code x hist l).
Proof. exact solveAPGD_done. Qed.
Print Assumptions C24_terminates.

Theorem C24_doubles : forall A b lb ub tol fuel iteMax x0 code x hist l,
  solveAPGD (N := F_arith) A b lb ub tol fuel iteMax x0 = Done (SRet code x hist l) ->
  ap_report (N := F_arith) (fun x r => exists q, projResidual lb ub x (gradient A b x) = Some q /\ fabs (norm2 q) = r) tol iteMax
    (map (fun _ => f_ofZ 1) x0) code x hist l /\
  (x = map (fun _ => f_ofZ 1) x0 \/ exists v, x = boundProjection lb ub v).
Proof. exact solveAPGD_F. Qed.
Print Assumptions C24_doubles.

(** From the all-ones guess the first Lipschitz estimate is 0/0 and the search never ends. *)
Theorem C24_ones_refuted : exists A b lb ub tol x0, forall fuel,
  solveAPGD (N := F_arith) A [b] [lb] [ub] tol fuel 1 [x0] = NoFuel.
Proof.
  exists (scaleF (f_ofZ 2)), (f_ofZ 1), (f_ofZ 0), (f_ofZ 10), (f_lit 1 (-10)), (f_ofZ 1). exact apgd_ones_diverges.
Qed.
Print Assumptions C24_ones_refuted.

(** With no evaluated iterate the all-ones vector is returned, feasible or not. *)
Theorem C24_nothing_evaluated_refuted : exists A b lb ub tol x0,
  match solveAPGD (N := F_arith) A [b] [lb] [ub] tol 1 0 [x0] with
  | Done (SRet 0 [x] _ _) => feq x f1 && flt ub x = true
  | _ => False
  end.
Proof. exists (scaleF (f_ofZ 2)), (f_ofZ 1), (f_ofZ 0), (f_lit 1 (-1)), (f_lit 1 (-10)), (f_ofZ 0). vm_compute. reflexivity. Qed.
Print Assumptions C24_nothing_evaluated_refuted.

Example C24_example :
  match solveAPGD (N := F_arith) (scaleF (f_ofZ 2)) [f_ofZ (-1); f_ofZ 4] [f_ofZ 0; f_ofZ 0] [f_ofZ 10; f_ofZ 10] (f_lit 1 (-20)) 20 50 [f_ofZ 3; f_ofZ 2] with
  | Done (SRet 0 [x; y] hist _) => flt (fabs (fsub x (f_lit 1 (-1)))) (f_lit 1 (-20)) && feq y (f_ofZ 0) && (length hist <? 20)%nat = true
  | _ => False
  end.
Proof. vm_compute. reflexivity. Qed.

(** ** C25 *)

(** The split of given magnitudes, the operator having been applied last to them. *)
Theorem C25_split : forall (D : list (list (nat * R))) m mob (f g : list R), cols_below D m -> sym_psd m mob ->
  length f = length D -> length g = length D -> Forall (fun a => a = 0 \/ a = 1) f ->
  exists fu fb vu vb, splitForces (N := R_arith) D m mob f g g = (fu, fb, vu, vb) /\
    is_force D m (of_kind 0 f g) fu /\ is_force D m (of_kind 1 f g) fb /\ vu = mob fu /\ vb = mob fb /\
    is_force D m g (axpy 1 fu fb) /\ axpy 1 vu vb = mob (axpy 1 fu fb).
Proof. exact splitForces_R. Qed.
Print Assumptions C25_split.

(** A solve with either solver whose history has a record below the tolerance. *)
Theorem C25_solve : forall choice (D : list (list (nat * R))) m mob (k q f ub : list R) (tol : R) fuel iteMax (guess : list R)
    (g fu fb vu vb : list R) hist,
  cols_below D m -> sym_psd m mob -> length k = length D -> Forall (Rle 0) k -> length q = length D -> length f = length D ->
  Forall (fun a => a = 0 \/ a = 1) f -> Forall2 Rle (setupLb (N := R_arith) f) ub -> in_box (setupLb (N := R_arith) f) ub guess ->
  tol <= dblMax (N := R_arith) ->
  solveConstraints (N := R_arith) choice D m mob k q f ub tol fuel iteMax guess = Done (Some (g, (fu, fb, vu, vb), hist)) ->
  (exists e, In e (if (choice =? 1)%Z then tl hist else hist) /\ Rabs (h_res e) < tol) ->
  in_box (setupLb (N := R_arith) f) ub g /\
  (exists r, residual (setupLb (N := R_arith) f) ub g (grad (opMul (N := R_arith) D m mob k) q g) r /\ 0 <= r < tol) /\
  is_force D m (of_kind 0 f g) fu /\ is_force D m (of_kind 1 f g) fb /\ vu = mob fu /\ vb = mob fb /\
  is_force D m g (axpy 1 fu fb) /\ axpy 1 vu vb = mob (axpy 1 fu fb).
Proof. exact solveConstraints_R. Qed.
Print Assumptions C25_solve.

(** Out of iterations: magnitude 0 is returned with force 1. *)
Theorem C25_exhausted_refuted : exists D mob q ub tol,
  match solveConstraints (N := F_arith) 0 D 1 mob [f_ofZ 0] q [f_ofZ 0] ub tol 1 1 [f_ofZ 0] with
  | Done (Some ([g], ([fu], [fb], _, _), _)) =>
      feq g (f_ofZ 0) && feq fu f1 && feq fb (f_ofZ 0) && feq (hd f1 (applyD D 1 [g])) (f_ofZ 0) = true
  | _ => False
  end.
Proof.
  exists [[(0%nat, f1)]], (scaleF (f_ofZ 2)), [f_ofZ (-1)], [f_ofZ 10], (f_lit 1 (-10)). vm_compute. reflexivity.
Qed.
Print Assumptions C25_exhausted_refuted.

(* one unilateral, one bilateral constraint *)
Example C25_example :
  match splitForces (N := F_arith) exD 2 (scaleF (f_ofZ 2)) [f_ofZ 0; f1] [f1; f_ofZ 3] [f1; f_ofZ 3] with
  | ([a; b], [c; d], [e; g], [h; i]) =>
      feq a f1 && feq b (f_ofZ 2) && feq c (f_ofZ 0) && feq d (f_ofZ (-3)) &&
      feq e (f_ofZ 2) && feq g (f_ofZ 4) && feq h (f_ofZ 0) && feq i (f_ofZ (-6)) = true
  | _ => False
  end.
Proof. vm_compute. reflexivity. Qed.

(** ** C52 *)

(** An exact solve of the linear system moves x to x - d with x_i = 0 on the active set and (Ax+b)_i = 0 off it. *)
Theorem C52_system : forall A (b x d : list R), sym_psd (length b) A -> length x = length b -> length d = length b ->
  let y := grad A b x in let H := fst (hMinMap (N := R_arith) x y) in let mask := snd (hMinMap (N := R_arith) x y) in
  maskApply (N := R_arith) A mask d = H ->
  forall i, (i < length b)%nat ->
    (nth i x 0 < nth i y 0 -> nth i (axpy (-1) d x) 0 = 0) /\
    (nth i y 0 <= nth i x 0 -> nth i (grad A b (axpy (-1) d x)) 0 = 0).
Proof. exact newton_step. Qed.
Print Assumptions C52_system.

(** Every run ends, and its report is one of the four of [newton_report]. *)
Theorem C52_run : forall A (b : list R) krylov (tol : R) fuel iteMax (jx jy x0 : list R), (48 <= fuel)%nat ->
  exists r, LCP_mmNewton (N := R_arith) A b krylov fuel iteMax tol jx jy x0 = Done r /\ newton_report A b tol iteMax x0 r.
Proof. exact mmNewton_R. Qed.
Print Assumptions C52_run.

Theorem C52_doubles_terminates : forall A b krylov fuel iteMax tol jx jy x0, (48 <= fuel)%nat ->
  exists r, LCP_mmNewton (N := F_arith) A b krylov fuel iteMax tol jx jy x0 = Done r.
Proof. exact mmNewton_F. Qed.
Print Assumptions C52_doubles_terminates.

(** The constants are the doubles next to 1e-14, 1e-28, 0.001 and 1e20. *)
Theorem C52_constants : Rabs (tolAbs (N := R_arith) - / IZR (10 ^ 14)) <= / 2 * bpow radix2 (-99) /\ Rabs (stepMin (N := R_arith) - / IZR (10 ^ 28)) <= / 2 * bpow radix2 (-146) /\
  Rabs (betaC (N := R_arith) - / IZR 1000) <= / 2 * bpow radix2 (-62) /\ errInit (N := R_arith) = IZR (10 ^ 20).
Proof. exact constants_ok. Qed.
Print Assumptions C52_constants.
(** The step goes along the Krylov solution, reversed, or along the reversed gradient if the solution is tiny or does not descend enough. *)
Theorem C52_direction : forall d H nablaH : list R, let neg := map Ropp in let dir := direction (N := R_arith) d H nablaH in
  (dir = neg d \/ dir = neg nablaH) /\
  ((exists v, In v d /\ tolAbs (N := R_arith) <= Rabs v) -> dot (N := R_arith) nablaH (neg d) <= - tolAbs (N := R_arith) * normSq (N := R_arith) (neg d) -> dir = neg d) /\
  ((forall v, In v d -> Rabs v < tolAbs (N := R_arith)) \/ - tolAbs (N := R_arith) * normSq (N := R_arith) (neg d) < dot (N := R_arith) nablaH (neg d) -> dir = neg nablaH).
Proof. exact direction_ok. Qed.
Print Assumptions C52_direction.
(** The reported number of matrix products grows with every iteration (any arithmetic). *)
Theorem C52_products : forall (N : arith) A b krylov fuel iteMax (tol : N) jx jy x0 r, LCP_mmNewton A b krylov fuel iteMax tol jx jy x0 = Done r ->
  forall i j ei ej, nth_error (n_hist r) i = Some ei -> nth_error (n_hist r) j = Some ej -> (i < j)%nat -> (h_mv ei < h_mv ej)%nat.
Proof. exact @mmNewton_mv. Qed.
Print Assumptions C52_products.

(** Return code 0 does not mean a solution: residual 9/4, tolerance 2^-10. *)
Theorem C52_code_refuted : exists A b krylov tol x0,
  match LCP_mmNewton (N := F_arith) A [b] krylov 48 1 tol [x0] [x0] [x0] with
  | Done r => (n_code r =? 0)%Z && flt tol (norm2 (minXY (n_x r) (gradient A [b] (n_x r)))) = true
  | _ => False
  end.
Proof. exists (scaleF (f_ofZ 3)), (f_ofZ (-3)), (fun _ _ d => (d, 1%nat)), (f_lit 1 (-10)), (f_ofZ 0). vm_compute. reflexivity. Qed.
Print Assumptions C52_code_refuted.

(* A = 2, b = (-1, 4), exact linear solves *)
Definition exKrylov (mask H _d : list f64) : list f64 * nat :=
  (map (fun p => if flt (f_lit 1 (-1)) (fst p) then snd p else fdiv (snd p) (f_ofZ 2)) (combine mask H), 1%nat).
Example C52_example :
  match LCP_mmNewton (N := F_arith) (scaleF (f_ofZ 2)) [f_ofZ (-1); f_ofZ 4] exKrylov 48 20 (f_lit 1 (-20))
          [f_ofZ 9; f_ofZ 9] [f_ofZ 9; f_ofZ 9] [f_ofZ 3; f_ofZ 1] with
  | Done r => match n_x r with [x; y] => feq x (f_lit 1 (-1)) && feq y (f_ofZ 0) && (n_code r =? 0)%Z = true | _ => False end
  | _ => False
  end.
Proof. vm_compute. reflexivity. Qed.
