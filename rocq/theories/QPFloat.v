(** The solvers in doubles: what holds for any arithmetic, and where they fail. *)
From Coq Require Import List Arith ZArith Reals Bool Lia Lra.
From Flocq Require Import Core BinarySingleNaN.
From Verif Require Import ListUtil Outcome F64 Arith QPModel QPSpec LinProofs QPProofs QPSolver QPReal QPTerm NewtonModel NewtonProofs.
Import ListNotations.

Lemma solveBBPGD_F : forall A b lb ub tol iteMax x0 code x hist l,
  solveBBPGD (N := F_arith) A b lb ub tol iteMax x0 = SRet code x hist l ->
  bb_report (N := F_arith) (fun x r => exists q, projResidual lb ub x (gradient A b x) = Some q /\ norm2 q = r) tol iteMax code x hist l /\
  (x = x0 \/ exists v, x = boundProjection lb ub v).
Proof.
  intros A b lb ub tol iteMax x0 code x hist l E.
  apply (bbSolve_report (N := F_arith) A b _ _ tol (fun _ => True) (fun _ _ _ _ _ _ => I) (fun _ _ => I) I _ _
    (fun x => x = x0 \/ exists v, x = boundProjection lb ub v)) in E; [exact E| |intros; exact I|left; reflexivity].
  intros v _. right. exists v. reflexivity.
Qed.

Lemma solveAPGD_F : forall A b lb ub tol fuel iteMax x0 code x hist l,
  solveAPGD (N := F_arith) A b lb ub tol fuel iteMax x0 = Done (SRet code x hist l) ->
  ap_report (N := F_arith) (fun x r => exists q, projResidual lb ub x (gradient A b x) = Some q /\ fabs (norm2 q) = r) tol iteMax
    (map (fun _ => f_ofZ 1) x0) code x hist l /\
  (x = map (fun _ => f_ofZ 1) x0 \/ exists v, x = boundProjection lb ub v).
Proof.
  intros A b lb ub tol fuel iteMax x0 code x hist l E.
  apply (apSolve_report (N := F_arith) A b _ _ tol (fun _ => True) (fun _ _ _ _ _ _ => I) (fun _ _ => I) I _ flt_trans flt_irrefl
    (fun x => exists v, x = boundProjection lb ub v)) in E; [exact E| |intros; exact I|exact I|exact I].
  intros v _. exists v. reflexivity.
Qed.

(** one-dimensional operators *)
Definition scaleF (c : f64) (x : list f64) : list f64 := map (fmul c) x.

(** ** the accelerated solver never ends from an all-ones guess *)
Definition nanF : f64 := B754_nan.

Lemma lipschitz_nan : forall fuel mv (g yk b : list f64) r,
  lipschitz (N := F_arith) (scaleF (f_ofZ 2)) [f_ofZ 1] (boundProjection (N := F_arith) [f_ofZ 0] [f_ofZ 10]) fuel
    [f_ofZ 1] [f_ofZ 3] r nanF nanF [nanF] mv = NoFuel.
Proof.
  induction fuel as [|fuel IH]; intros mv g yk b r; [reflexivity|]. cbn [lipschitz]. cbv zeta.
  match goal with |- (if ?c then _ else _) = _ => assert (E : c = false) end.
  { change (fle (fadd (fmul (dot (N := F_arith) [nanF] (scaleF (f_ofZ 2) [nanF])) (f_lit 1 (-1))) (dot (N := F_arith) [nanF] [f_ofZ 1]))
      (fadd (fadd r (dot (N := F_arith) [f_ofZ 3] (vupd (N := F_arith) (f_ofZ 1) [nanF] (fopp (f_ofZ 1)) [f_ofZ 1])))
        (fmul (fmul (f_lit 1 (-1)) nanF) (normSq (N := F_arith) (vupd (N := F_arith) (f_ofZ 1) [nanF] (fopp (f_ofZ 1)) [f_ofZ 1])))) = false).
    assert (E : fadd (fmul (dot (N := F_arith) [nanF] (scaleF (f_ofZ 2) [nanF])) (f_lit 1 (-1))) (dot (N := F_arith) [nanF] [f_ofZ 1]) = nanF)
      by (apply B2SF_inj; vm_compute; reflexivity).
    rewrite E. reflexivity. }
  rewrite E.
  match goal with |- lipschitz _ _ _ _ _ _ _ ?L ?t ?x _ = _ =>
    assert (E1 : L = nanF) by reflexivity; assert (E2 : t = nanF) by (apply B2SF_inj; vm_compute; reflexivity);
    assert (E3 : x = [nanF]) end.
  { apply (f_equal (fun v : f64 => [v])). apply B2SF_inj. vm_compute. reflexivity. }
  rewrite E3, E2, E1. apply IH; assumption.
Qed.

Lemma apgd_ones_diverges : forall fuel,
  solveAPGD (N := F_arith) (scaleF (f_ofZ 2)) [f_ofZ 1] [f_ofZ 0] [f_ofZ 10] (f_lit 1 (-10)) fuel 1 [f_ofZ 1] = NoFuel.
Proof.
  intro fuel. unfold solveAPGD, apSolve. cbv zeta.
  match goal with |- apLoop _ _ _ _ _ _ _ _ _ _ _ _ ?L ?t _ _ _ _ _ = _ =>
    assert (E1 : L = nanF) by (apply B2SF_inj; vm_compute; reflexivity);
    assert (E2 : t = nanF) by (apply B2SF_inj; vm_compute; reflexivity) end.
  rewrite E2, E1. cbn [apLoop]. cbv zeta.
  match goal with |- context [lipschitz _ _ _ _ ?y ?g ?r _ _ ?x _] =>
    assert (E3 : g = [f_ofZ 3]) by (apply (f_equal (fun v : f64 => [v])); apply B2SF_inj; vm_compute; reflexivity);
    assert (E4 : x = [nanF]) by (apply (f_equal (fun v : f64 => [v])); apply B2SF_inj; vm_compute; reflexivity) end.
  rewrite E4, E3. rewrite lipschitz_nan by (exact [] || exact (f_ofZ 0)). reflexivity.
Qed.

(** ** counterexamples over the reals *)
Local Open Scope R_scope.
Definition zeroOp (x : list R) : list R := map (fun _ => 0) x.

Lemma ip_zeroOp : forall x y, ip x (zeroOp y) = 0.
Proof. induction x as [|a x IH]; intros [|c y]; cbn; try lra. rewrite IH. lra. Qed.

Lemma zeroOp_psd : forall n, sym_psd n zeroOp.
Proof.
  intro n. constructor.
  - intros x Lx. unfold zeroOp. rewrite map_length. exact Lx.
  - intros t. revert n. intros n x z Lx Lz. revert n z Lx Lz. induction x as [|a x IH]; intros n [|c z] Lx Lz; cbn in *; try reflexivity; try lia.
    f_equal; [lra|]. apply (IH (length x)); lia.
  - intros x z _ _. rewrite !ip_zeroOp. reflexivity.
  - intros x _. rewrite ip_zeroOp. lra.
Qed.

Lemma idOp_psd : forall n, sym_psd n (fun x => x).
Proof.
  intro n. constructor; try reflexivity.
  - intros x Lx. exact Lx.
  - intros x z _ _. apply ip_comm.
  - intros x _. apply ip_self_nonneg.
Qed.

(** zero residual, not optimal: x within the margin of the bound, gradient 1 *)
Lemma margin_refuted : exists A b lb ub x, sym_psd (length b) A /\ length lb = length b /\ wide lb ub /\ in_box lb ub x /\
  residual lb ub x (grad A b x) 0 /\ ~ minimizes A b lb ub x.
Proof.
  pose proof margin_pos as Hm.
  assert (Hm1 : margin < 1). { unfold margin. change (bpow radix2 (-52)) with (/ IZR (2 ^ 52)).
    apply Rmult_lt_reg_r with (IZR (2 ^ 52)); [apply IZR_lt; reflexivity|].
    rewrite Rmult_assoc, Rinv_l, Rmult_1_r, Rmult_1_l by (apply not_0_IZR; discriminate). apply IZR_lt. reflexivity. }
  exists zeroOp, [1], [0], [1], [margin / 2]. split; [apply zeroOp_psd|]. split; [reflexivity|].
  split; [constructor; [lra|constructor]|]. split; [split; (constructor; [lra|constructor])|]. split.
  - exists [0]. split; [|symmetry; apply norm2_zero; constructor; [reflexivity|constructor]].
    cbn [grad zeroOp map axpy]. rewrite projResidual_cons, coord_R, Rlt_bool_true by lra. cbn. rewrite Rmin_right by lra. reflexivity.
  - intros [_ H]. assert (Hin : in_box [0] [1] [0]) by (split; (constructor; [lra|constructor])).
    specialize (H [0] Hin). unfold objective in H. cbn in H. lra.
Qed.

(** optimal, residual 1: box narrower than the margin *)
Lemma narrow_refuted : exists A b lb ub x, sym_psd (length b) A /\ length lb = length b /\ Forall2 Rlt lb ub /\
  minimizes A b lb ub x /\ residual lb ub x (grad A b x) 1.
Proof.
  pose proof margin_pos as Hm.
  exists zeroOp, [-1], [0], [margin / 2], [margin / 2]. split; [apply zeroOp_psd|]. split; [reflexivity|].
  split; [constructor; [lra|constructor]|]. split.
  - split; [split; (constructor; [lra|constructor])|]. intros z [H1 H2]. destruct z as [|c z]; [inversion H1|].
    inversion H2 as [|? ? ? ? Hc H3]; subst. inversion H3; subst. unfold objective. cbn. lra.
  - exists [-1]. split.
    + cbn [grad zeroOp map axpy]. rewrite projResidual_cons, coord_R, Rlt_bool_true by lra. cbn.
      rewrite Rmin_left by lra. f_equal. f_equal. lra.
    + rewrite norm2_ip. cbn. replace (-1 * -1 + 0) with 1 by lra. symmetry. apply sqrt_1.
Qed.

Lemma mmNewton_F : forall A b krylov fuel iteMax tol jx jy x0, (48 <= fuel)%nat ->
  exists r, LCP_mmNewton (N := F_arith) A b krylov fuel iteMax tol jx jy x0 = Done r.
Proof.
  intros. unfold LCP_mmNewton. apply newtonLoop_done. apply (taus_more 48); [assumption|exact taus_F].
Qed.

(** computed results as equations *)
Lemma is_none : forall {T} (o : option T), (match o with None => true | _ => false end) = true -> o = None.
Proof. intros T [a|]; [discriminate|reflexivity]. Qed.
Lemma is_exit : forall {N} (s : solved N), (match s with SExit => true | _ => false end) = true -> s = SExit.
Proof. intros N []; [reflexivity|discriminate]. Qed.

Lemma dblMax_largest : (forall x : f64, is_finite x = true -> B2R x <= dblMax (N := R_arith)) /\ is_finite (dblMax (N := F_arith)) = true /\ B2R (dblMax (N := F_arith)) = dblMax (N := R_arith).
Proof.
  assert (E : B2R (dblMax (N := F_arith)) = dblMax (N := R_arith)).
  { assert (B2SF (dblMax (N := F_arith)) = SpecFloat.S754_finite false 9007199254740991 971) as H by (vm_compute; reflexivity).
    rewrite <- SF2R_B2SF, H. reflexivity. }
  split; [|split; [vm_compute; reflexivity|exact E]]. intros x Hx. 
  assert (E2 : dblMax (N := R_arith) = bpow radix2 emax64 - bpow radix2 (emax64 - prec64)).
  { unfold dblMax. rarith. change (bpow radix2 emax64) with (bpow radix2 (53 + 971)). change (bpow radix2 (emax64 - prec64)) with (bpow radix2 971). rewrite bpow_plus.
    replace (bpow radix2 53) with (IZR (2 ^ 53)) by (rewrite <- IZR_Zpower by lia; reflexivity).
    change (IZR (Z.pos 9007199254740991)) with (IZR (2 ^ 53 - 1)). rewrite minus_IZR. ring. }
  rewrite E2. pose proof (abs_B2R_le_emax_minus_prec prec64 emax64 ltac:(reflexivity) x) as H. pose proof (Rle_abs (B2R x)). lra.
Qed.
