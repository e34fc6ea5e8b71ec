(** The solvers over the reals: no exit, what is returned, termination (C23, C24), force split (C25). *)
From Coq Require Import List Arith ZArith Reals Bool Lia Lra.
From Flocq Require Import Core.
From Verif Require Import ListUtil Outcome F64 Arith QPModel QPSpec LinProofs QPProofs QPSolver QPReal.
Import ListNotations.
Local Open Scope R_scope.

Definition keeps_length (n : nat) (A : list R -> list R) : Prop := forall x, length x = n -> length (A x) = n.

Lemma vupd_length : forall s t (x y : list R) n, length x = n -> length y = n -> length (vupd (N := R_arith) s x t y) = n.
Proof.
  intros s t x y n Hx Hy. unfold vupd. rewrite map_length, combine_length.
  etransitivity; [exact (f_equal2 Nat.min Hx Hy)|]. apply Nat.min_id.
Qed.

Lemma gradient_grad : forall A b x, gradient (N := R_arith) A b x = grad A b x.
Proof. intros. exact (vupd_axpy 1 b (A x)). Qed.

Lemma projResidual_some : forall lb ub x y : list R, in_box lb ub x -> length y = length x ->
  projResidual (N := R_arith) lb ub x y <> None.
Proof.
  pose proof margin_pos as Hm.
  induction lb as [|l lb IH]; intros ub x y Hx Ly.
  - destruct Hx as [H1 H2]. inversion H1; subst. inversion H2; subst. discriminate.
  - destruct x as [|a x]; [destruct Hx as [H _]; inversion H|].
    destruct ub as [|u ub]; [destruct Hx as [_ H]; inversion H|].
    destruct y as [|y0 ys]; [discriminate|].
    apply in_box_cons in Hx. destruct Hx as [Ha Hx]. rewrite projResidual_cons, coord_R.
    specialize (IH ub x ys Hx (eq_add_S _ _ Ly)).
    destruct (projResidual (N := R_arith) lb ub x ys); [|contradiction].
    destruct (Rlt_bool_spec a (l + margin)) as [C1|C1]; [discriminate|].
    destruct (Rlt_bool_spec (u - margin) a) as [C2|C2]; [discriminate|].
    rewrite Rlt_bool_true by lra. rewrite Rlt_bool_true by lra. discriminate.
Qed.

Lemma bb_report_imp : forall (N : arith) (P Q : list N -> N -> Prop), (forall x r, P x r -> Q x r) ->
  forall tol iteMax code x hist l, bb_report P tol iteMax code x hist l -> bb_report Q tol iteMax code x hist l.
Proof.
  intros N P Q H tol iteMax code x hist l [x' h e H1 H2 H3 H4 H5|x' h e H1 H2 H3 H4|x' h l' e H1 H2 H3 H4 H5].
  - apply BB_converged; auto.
  - apply BB_stagnated; auto.
  - eapply BB_exhausted; eauto.
Qed.

Lemma ap_report_imp : forall (N : arith) (P Q : list N -> N -> Prop), (forall x r, P x r -> Q x r) ->
  forall tol iteMax ones code x hist l, ap_report P tol iteMax ones code x hist l -> ap_report Q tol iteMax ones code x hist l.
Proof.
  intros N P Q H tol iteMax ones code x hist l [c x' f rest l' H1 H2 H3 H4]. apply AP_intro; [assumption..| |].
  - destruct H3 as [(e & E1 & E2 & E3)|E]; [left; exists e; auto|right; exact E].
  - destruct H4 as [(E1 & e & E2 & E3 & E4 & E5)|E]; [left; split; [exact E1|]; exists e; auto|right; exact E].
Qed.

Section Box.
  Context (A : list R -> list R) (b lb ub : list R) (tol : R).
  Context (HA : keeps_length (length b) A) (Hb : Forall2 Rle lb ub) (Hl : length lb = length b).

  Lemma Lp_upd_R : forall s (x : list R) t y, length x = length b -> length y = length b -> length (vupd (N := R_arith) s x t y) = length b.
  Proof. intros. apply vupd_length; assumption. Qed.

  Lemma proj_in : forall v, length v = length b -> in_box lb ub (boundProjection (N := R_arith) lb ub v).
  Proof. intros v Lv. apply boundProjection_box; [exact Hb|]. etransitivity; [exact Lv|]. symmetry. exact Hl. Qed.

  Lemma box_len : forall v, in_box lb ub v -> length v = length b.
  Proof. intros v Hv. destruct (in_box_length _ _ _ Hv) as [L _]. rewrite L. exact Hl. Qed.

  Lemma gradient_len : forall v, length v = length b -> length (gradient (N := R_arith) A b v) = length b.
  Proof. intros v Lv. apply vupd_length; [reflexivity|apply HA; exact Lv]. Qed.

  Lemma box_safe : forall v, in_box lb ub v -> projResidual (N := R_arith) lb ub v (gradient (N := R_arith) A b v) <> None.
  Proof.
    intros v Hv. apply projResidual_some; [exact Hv|]. rewrite gradient_len; [symmetry|]; apply box_len; exact Hv.
  Qed.

  Lemma evalres_residual : forall x r, evalres (N := R_arith) A b (projResidual (N := R_arith) lb ub) x r -> residual lb ub x (grad A b x) r.
  Proof. intros x r (q & E1 & E2). exists q. rewrite <- gradient_grad. split; [exact E1|symmetry; exact E2]. Qed.

  Lemma evalabs_residual : forall x r, evalabs (N := R_arith) A b (projResidual (N := R_arith) lb ub) x r -> residual lb ub x (grad A b x) r.
  Proof.
    intros x r (q & E1 & E2). exists q. rewrite <- gradient_grad. split; [exact E1|]. rewrite <- E2.
    rarith. apply Rabs_pos_eq, norm2_nonneg.
  Qed.

  Lemma solveBBPGD_R : forall iteMax x0, in_box lb ub x0 ->
    exists code x hist l, solveBBPGD (N := R_arith) A b lb ub tol iteMax x0 = SRet code x hist l /\ in_box lb ub x /\
      bb_report (N := R_arith) (fun x r => residual lb ub x (grad A b x) r) tol iteMax code x hist l.
  Proof.
    intros iteMax x0 H0.
    destruct (solveBBPGD (N := R_arith) A b lb ub tol iteMax x0) as [|code x hist l] eqn:E.
    - exfalso. revert E. unfold solveBBPGD.
      apply (bbSolve_no_exit (N := R_arith) A b _ _ tol (fun v => length v = length b) Lp_upd_R HA eq_refl _ _ (in_box lb ub));
        [exact proj_in|exact box_len|exact box_safe|exact H0].
    - exists code, x, hist, l. split; [reflexivity|].
      apply (bbSolve_report (N := R_arith) A b _ _ tol (fun v => length v = length b) Lp_upd_R HA eq_refl _ _ (in_box lb ub)) in E;
        [|exact proj_in|exact box_len|exact H0].
      destruct E as [E1 E2]. split; [exact E2|]. revert E1. apply bb_report_imp. exact evalres_residual.
  Qed.

  Lemma solveBBPGD_converged : forall iteMax x0 code x hist l, in_box lb ub x0 ->
    solveBBPGD (N := R_arith) A b lb ub tol iteMax x0 = SRet code x hist l ->
    (exists e, In e hist /\ Rabs (h_res e) < tol) ->
    code = 0%Z /\ l = x /\ in_box lb ub x /\ exists r, residual lb ub x (grad A b x) r /\ 0 <= r < tol.
  Proof.
    intros iteMax x0 code x hist l H0 E (e & He & Ht).
    destruct (solveBBPGD_R iteMax x0 H0) as (c' & x' & h' & l' & E' & Hx & Hr).
    rewrite E in E'. injection E' as <- <- <- <-.
    assert (K : forall h : list (hrec R_arith), In e h -> Forall (fun e : hrec R_arith => Rlt_bool (Rabs (h_res e)) tol = false) h -> False).
    { intros h Hi Hf. rewrite Forall_forall in Hf. specialize (Hf e Hi). rarith.
      rewrite Rlt_bool_true in Hf by exact Ht. discriminate. }
    inversion Hr as [x1 h1 e1 R1 R2 R3 R4 R5|x1 h1 e1 R1 R2 R3 R4|x1 h1 l1 e1 R1 R2 R3 R4 R5]; subst.
    - split; [reflexivity|]. split; [reflexivity|]. split; [exact Hx|]. exists (h_res e1). split; [exact R1|].
      destruct R1 as (q & _ & Eq). rarith. pose proof (norm2_nonneg q) as Hq.
      destruct (Rlt_bool_spec (Rabs (h_res e1)) tol) as [T|T]; [|discriminate].
      rewrite Eq in T |- *. rewrite Rabs_pos_eq in T by exact Hq. split; [exact Hq|exact T].
    - exfalso. exact (K _ He R3).
    - exfalso. exact (K _ He R3).
  Qed.

  Lemma solveAPGD_R : forall fuel iteMax x0 code x hist l, length x0 = length b ->
    solveAPGD (N := R_arith) A b lb ub tol fuel iteMax x0 = Done (SRet code x hist l) ->
    ap_report (N := R_arith) (fun x r => residual lb ub x (grad A b x) r) tol iteMax (map (fun _ => 1) x0) code x hist l /\
    (x = map (fun _ => 1) x0 \/ in_box lb ub x).
  Proof.
    intros fuel iteMax x0 code x hist l H0 E.
    apply (apSolve_report (N := R_arith) A b _ _ tol (fun v => length v = length b) Lp_upd_R HA eq_refl _ R_lt_trans R_lt_irrefl (in_box lb ub)) in E;
      [|exact proj_in|exact box_len|exact H0|rewrite map_length; exact H0].
    destruct E as [E1 E2]. split; [|exact E2]. revert E1. apply ap_report_imp. exact evalabs_residual.
  Qed.

  Lemma dblMax_R : dblMax (N := R_arith) = 9007199254740991 * bpow radix2 971.
  Proof. reflexivity. Qed.

  Lemma solveAPGD_converged : forall fuel iteMax x0 code x hist l, length x0 = length b -> tol <= dblMax (N := R_arith) ->
    solveAPGD (N := R_arith) A b lb ub tol fuel iteMax x0 = Done (SRet code x hist l) ->
    (exists e, In e (tl hist) /\ h_res e < tol) ->
    code = 0%Z /\ l = x /\ in_box lb ub x /\ exists r, residual lb ub x (grad A b x) r /\ 0 <= r < tol.
  Proof.
    intros fuel iteMax x0 code x hist l H0 Ht E (e & He & Hlt).
    pose proof (apSolve_converged (N := R_arith) A b _ _ tol _ (fun _ => True) (fun _ _ _ => I) R_lt_cotrans I
      (Rlt_bool_false _ _ Ht) fuel iteMax x0 code x hist l E) as Hxl.
    specialize (Hxl (ex_intro _ e (conj He (Rlt_bool_true _ _ Hlt)))).
    destruct (solveAPGD_R _ _ _ _ _ _ _ H0 E) as [Hr Hx].
    inversion Hr as [c1 x1 f1 rest l1 R1 R2 R3 R4]; subst. cbn [tl] in He.
    assert (K : (forall e' : hrec R_arith, In e' rest -> Rlt_bool (h_res e') tol = false) -> False).
    { intro F. specialize (F e He). rarith. rewrite Rlt_bool_true in F by exact Hlt. discriminate. }
    destruct R4 as [(-> & e1 & E1 & E2 & E3 & E4)|[(_ & _ & F)|(_ & _ & F)]]; [|destruct (K F)|destruct (K F)].
    split; [reflexivity|]. split; [reflexivity|].
    assert (Hin : In e1 rest).
    { rewrite <- E1. destruct rest as [|r0 rest]; [contradiction|]. clear.
      change (last (r0 :: rest) f1) with (last (r0 :: rest) f1). revert r0. induction rest as [|r1 rest IH]; intro r0; [left; reflexivity|].
      right. apply IH. }
    rarith. destruct (Rlt_bool_spec (h_res e1) tol) as [T|T]; [|discriminate].
    split.
    - destruct R3 as [(e2 & F1 & F2 & F3)|(F1 & F2)].
      + destruct Hx as [Hx|Hx]; [|exact Hx].
        (* the last applied vector is a projection *)
        apply (apSolve_last (N := R_arith) A b _ _ tol (fun v => length v = length b) Lp_upd_R HA eq_refl _ (in_box lb ub)) in E;
          [|exact proj_in|exact box_len|exact H0]. destruct E as [E|E]; [|exact E]. cbn in E. subst. destruct He.
      + specialize (F2 e1 Hin). rarith. exfalso. revert F2. change (Rlt_bool (h_res e1) (dblMax (N := R_arith)) <> false).
        rewrite Rlt_bool_true; [discriminate|]. exact (Rlt_le_trans _ _ _ T Ht).
    - exists (h_res e1). split; [exact E4|]. destruct E4 as (q & _ & Eq). rewrite Eq in *. split; [apply norm2_nonneg|exact T].
  Qed.
End Box.

(** ** A positive semi-definite operator is bounded *)
Lemma quad_dir : forall n A u w t, sym_psd n A -> length u = n -> length w = n ->
  ip (axpy t u w) (A (axpy t u w)) = ip w (A w) + 2 * t * ip w (A u) + t * t * ip u (A u).
Proof.
  intros n A u w t HA Lu Lw. pose proof (sp_len _ _ HA u Lu). pose proof (sp_len _ _ HA w Lw).
  rewrite (sp_lin _ _ HA) by assumption. rewrite (ip_axpy_l t n), !(ip_axpy_r t n) by assumption.
  rewrite (sp_sym _ _ HA u w) by assumption. ring.
Qed.

Lemma ip_zero_l : forall k y, ip (repeat 0 k ++ []) y = 0.
Proof. induction k as [|k IH]; intros [|c y]; cbn; try reflexivity. rewrite IH. lra. Qed.

Lemma split_head : forall k a m d, length d = m ->
  repeat 0 k ++ a :: d = axpy a (repeat 0 k ++ 1 :: repeat 0 m) (repeat 0 (S k) ++ d).
Proof.
  induction k as [|k IH]; intros a m d Ld.
  - cbn. f_equal; [lra|]. revert m Ld. induction d as [|c d IHd]; intros [|m] Ld; cbn in *; try lia; [reflexivity|].
    f_equal; [lra|]. apply IHd. lia.
  - cbn [repeat app axpy]. f_equal; [lra|]. exact (IH a m d Ld).
Qed.

Lemma psd_bound : forall n A, sym_psd n A -> exists C, 0 <= C /\ forall d, length d = n -> ip d (A d) <= C * ip d d.
Proof.
  intros n A HA.
  assert (H : forall m k, (k + m)%nat = n -> exists C, 0 <= C /\ forall d, length d = m ->
    ip (repeat 0 k ++ d) (A (repeat 0 k ++ d)) <= C * ip d d).
  { induction m as [|m IH]; intros k Hk.
    - exists 0. split; [lra|]. intros [|? ?] Ld; [|discriminate]. rewrite ip_zero_l. lra.
    - destruct (IH (S k) ltac:(lia)) as (C & HC & IHd). set (u := repeat 0 k ++ 1 :: repeat 0 m).
      assert (Lu : length u = n) by (unfold u; rewrite app_length; cbn; rewrite !repeat_length; lia).
      pose proof (sp_pos _ _ HA u Lu) as Hu.
      exists (2 * C + 2 * ip u (A u)). split; [lra|]. intros [|a d] Ld; [discriminate|]. cbn in Ld.
      rewrite (split_head k a m d) by lia. fold u. set (w := repeat 0 (S k) ++ d).
      assert (Lw : length w = n) by (unfold w; rewrite app_length, repeat_length; lia).
      specialize (IHd d ltac:(lia)). fold w in IHd.
      pose proof (sp_pos _ _ HA (axpy (- a) u w) ltac:(apply axpy_length; assumption)) as Hneg.
      rewrite (quad_dir n) in Hneg |- * by assumption. cbn [ip].
      pose proof (ip_self_nonneg d). pose proof (Rle_0_sqr a) as Ha. unfold Rsqr in Ha.
      assert (Hww := sp_pos _ _ HA w Lw).
      assert (T1 : ip w (A w) + 2 * a * ip w (A u) + a * a * ip u (A u) <= 2 * ip w (A w) + 2 * (a * a) * ip u (A u)) by lra.
      eapply Rle_trans; [exact T1|]. assert (0 <= a * a * (2 * C)) by (apply Rmult_le_pos; lra).
      assert (0 <= ip d d * (2 * ip u (A u))) by (apply Rmult_le_pos; lra). nra. }
  destruct (H n 0%nat eq_refl) as (C & HC & Hd). exists C. split; [exact HC|]. exact Hd.
Qed.

Lemma half_lit : (a_lit 1 (-1) : R_arith) = / 2.
Proof. cbn. lra. Qed.

Section Termination.
  Context (A : list R -> list R) (b : list R) (HA : sym_psd (length b) A).
  Context (proj : list R -> list R) (Hproj : forall v, length v = length b -> length (proj v) = length b).
  Context (C : R) (HC : 0 <= C) (Hbound : forall d, length d = length b -> ip d (A d) <= C * ip d d).

  Lemma lipschitz_done : forall k fuel yk Lk tk x mv, (k < fuel)%nat -> 0 < Lk -> C <= Lk * 2 ^ k ->
    length yk = length b -> length x = length b ->
    exists Lk' tk' x' Ax' mv', Lk <= Lk' /\ length x' = length b /\
      lipschitz (N := R_arith) A b proj fuel yk (grad A b yk) (ip yk (A yk) * / 2 + ip yk b) Lk tk x mv = Done (Lk', tk', x', Ax', mv').
  Proof.
    induction k as [|k IH]; intros fuel yk Lk tk x mv Hf HL HCk Ly Lx; (destruct fuel as [|fuel]; [lia|]); cbn [lipschitz];
      cbv zeta; unfold normSq; rarith;
      change (vupd (N := R_arith) 1 x (- (1)) yk) with (vupd (N := R_arith) 1 x (-1) yk);
      rewrite !vupd_axpy, !dot_ip, norm2_ip, sqrt_sqrt by apply ip_self_nonneg;
      replace (1 * bpow radix2 (-1)) with (/ 2) by (cbn; lra);
      set (d := axpy (-1) yk x).
    - assert (Ld : length d = length b) by (apply axpy_length; assumption).
      assert (E : ip x (A x) * / 2 + ip x b <= ip yk (A yk) * / 2 + ip yk b + ip (grad A b yk) d + / 2 * Lk * ip d d).
      { pose proof (objective_diff (length b) A b yk x HA eq_refl Ly Lx) as Ho. cbv zeta in Ho. fold d in Ho. unfold objective in Ho.
        rewrite (ip_comm b x), (ip_comm b yk) in Ho. pose proof (Hbound d Ld). pose proof (ip_self_nonneg d). cbn [pow] in HCk.
        assert (C * ip d d <= Lk * ip d d) by (apply Rmult_le_compat_r; lra). lra. }
      rewrite Rle_bool_true by exact E. eexists _, _, _, _, _. split; [apply Rle_refl|]. split; [exact Lx|]. reflexivity.
    - destruct (Rle_bool _ _).
      + eexists _, _, _, _, _. split; [apply Rle_refl|]. split; [exact Lx|]. reflexivity.
      + assert (Lx' : length (proj (vupd (N := R_arith) 1 yk (- (1 / (Lk * 2))) (grad A b yk))) = length b).
        { apply Hproj. apply vupd_length; [exact Ly|]. exact (eq_trans (grad_length A b yk HA Ly) Ly). }
        destruct (IH fuel yk (Lk * 2) (1 / (Lk * 2)) _ (S mv) ltac:(lia) ltac:(lra) ltac:(cbn [pow] in HCk; lra) Ly Lx')
          as (L' & t' & x' & Ax' & mv' & E1 & E2 & E3).
        exists L', t', x', Ax', mv'. split; [lra|]. split; [exact E2|]. rewrite vupd_axpy in E3. exact E3.
  Qed.

  Lemma pow_big : forall L, 0 < L -> exists k, C <= L * 2 ^ k.
  Proof.
    intros L HL. destruct (Pow_x_infinity 2 ltac:(rewrite Rabs_pos_eq; lra) (C / L)) as (k & Hk).
    exists k. specialize (Hk k ltac:(lia)). rewrite Rabs_pos_eq in Hk by (apply pow_le; lra). apply Rge_le in Hk.
    apply Rmult_le_compat_l with (r := L) in Hk; [|lra]. replace (L * (C / L)) with C in Hk by (field; lra). exact Hk.
  Qed.

  Context (resid : list R -> list R -> option (list R)) (stagnates : R -> bool) (tol : R).

  Lemma apLoop_done : forall n Lmin, 0 < Lmin -> exists F, forall fuel ite mv xk yk Lk tk thetak resmin xhat hist lastX,
    (F <= fuel)%nat -> Lmin <= Lk -> length xk = length b -> length yk = length b ->
    exists r, apLoop (N := R_arith) A b proj resid stagnates tol fuel n ite mv xk yk Lk tk thetak resmin xhat hist lastX = Done r.
  Proof.
    induction n as [|n IH]; intros Lmin Hmin.
    - exists 0%nat. intros. eexists. reflexivity.
    - destruct (pow_big Lmin Hmin) as (k & Hk).
      destruct (IH (Lmin * (8106479329266893 * bpow radix2 (-53)))) as (F & IHF).
      { apply Rmult_lt_0_compat; [exact Hmin|]. apply Rmult_lt_0_compat; [lra|apply bpow_gt_0]. }
      exists (Nat.max F (S k)). intros fuel ite mv xk yk Lk tk thetak resmin xhat hist lastX Hfuel HLk Lx Ly.
      cbn [apLoop]. cbv zeta.
      match goal with |- context [lipschitz A b proj fuel yk ?g ?r Lk tk ?x (S mv)] =>
        assert (Hlip : exists Lk' tk' x' Ax' mv', Lk <= Lk' /\ length x' = length b /\
          lipschitz (N := R_arith) A b proj fuel yk g r Lk tk x (S mv) = Done (Lk', tk', x', Ax', mv')) end.
      { rarith. rewrite vupd_axpy. fold (grad A b yk). rewrite !dot_ip.
        replace (1 * bpow radix2 (-1)) with (/ 2) by (cbn; lra).
        apply (lipschitz_done k); [lia|lra| |exact Ly|].
        - eapply Rle_trans; [exact Hk|]. apply Rmult_le_compat_r; [apply pow_le; lra|lra].
        - apply Hproj. apply vupd_length; [exact Ly|]. exact (eq_trans (grad_length A b yk HA Ly) Ly). }
      destruct Hlip as (Lk' & tk' & x1 & Ax & mv' & E1 & E2 & E3). rewrite E3. cbn [obind]. clear E3.
      destruct (stagnates tk'); [eexists; reflexivity|].
      destruct (resid x1 _) as [q|]; [|eexists; reflexivity].
      rarith. destruct (Rlt_bool _ tol); [eexists; reflexivity|].
      apply IHF; [lia| |exact E2|].
      + rarith. apply Rmult_le_compat_r; [|lra]. apply Rmult_le_pos; [lra|apply bpow_ge_0].
      + match goal with |- length (if ?c then _ else _) = _ => destruct c end; [exact E2|].
        apply vupd_length; assumption.
  Qed.
End Termination.

(** the accelerated solver ends, unless the first Lipschitz estimate is 0 *)
Lemma solveAPGD_done : forall (A : list R -> list R) (b lb ub : list R) (tol : R) iteMax (x0 : list R), sym_psd (length b) A -> Forall2 Rle lb ub -> length lb = length b ->
  length x0 = length b -> norm2 (N := R_arith) (A (axpy (-1) (map (fun _ => 1) x0) x0)) <> 0 ->
  exists F, forall fuel, (F <= fuel)%nat ->
  exists code x hist l, solveAPGD (N := R_arith) A b lb ub tol fuel iteMax x0 = Done (SRet code x hist l).
Proof.
  intros A b lb ub tol iteMax x0 HA Hb Hl L0 Hn.
  set (d := axpy (-1) (map (fun _ => 1) x0) x0) in *.
  assert (Ld : length d = length b) by (apply axpy_length; [exact L0|rewrite map_length; exact L0]).
  assert (Hd : norm2 (N := R_arith) d <> 0).
  { intro Hz. apply Hn. rewrite norm2_zero in Hz |- *.
    assert (E : A d = axpy (-1) (A d) (A d)).
    { rewrite <- (sp_lin _ _ HA) by assumption. f_equal. apply list_nth_ext.
      - symmetry. rewrite (axpy_length _ _ _ (length b)) by assumption. symmetry. exact Ld.
      - intro i. rewrite axpy_nth by reflexivity. assert (Z : nth i d 0 = 0).
        { clear -Hz. revert i. induction Hz as [|a l Ha Hz IH]; intros [|i]; cbn; try reflexivity; [exact Ha|apply IH]. }
        rewrite Z. lra. }
    rewrite E. clear. induction (A d) as [|a l IH]; cbn; constructor; [lra|exact IH]. }
  assert (HL : 0 < norm2 (N := R_arith) (A d) / norm2 (N := R_arith) d).
  { pose proof (norm2_nonneg (A d)) as P1. pose proof (norm2_nonneg d) as P2. rarith. apply Rdiv_lt_0_compat; lra. }
  destruct (psd_bound _ A HA) as (C & HC & Hbd).
  assert (Hproj : forall v, length v = length b -> length (boundProjection (N := R_arith) lb ub v) = length b).
  { intros v Lv. apply (box_len b lb ub Hl), (proj_in b lb ub Hb Hl). exact Lv. }
  destruct (apLoop_done A b HA (boundProjection (N := R_arith) lb ub) Hproj C Hbd (projResidual (N := R_arith) lb ub)
    (fun tk => Rlt_bool tk (eps10 (N := R_arith))) tol iteMax _ HL) as (F & HF).
  exists F. intros fuel Hfuel. unfold solveAPGD, apSolve. cbv zeta.
  match goal with |- exists code x hist l, ?e = _ => assert (Hr : exists r, e = Done r) end.
  { rarith. 
    match goal with |- context [vupd (N := R_arith) (- (1)) ?o 1 x0] =>
      assert (Ed : vupd (N := R_arith) (- (1)) o 1 x0 = d) end.
    { unfold d. clear. induction x0 as [|a x0 IH]; [reflexivity|]. cbn [map axpy]. rewrite vupd_cons. f_equal; [lra|exact IH]. }
    rewrite Ed. apply HF; [exact Hfuel|apply Rle_refl|exact L0|exact L0]. }
  destruct Hr as ([|code x hist l] & Hr).
  - exfalso. revert Hr.
    apply (apLoop_no_exit (N := R_arith) A b _ _ tol (fun v => length v = length b) (Lp_upd_R b) (sp_len _ _ HA) eq_refl _ (in_box lb ub)).
    + intros v Lv. apply (proj_in b lb ub Hb Hl). exact Lv.
    + apply (box_len b lb ub Hl).
    + intros v Hv. apply (box_safe A b lb ub (sp_len _ _ HA) Hl). exact Hv.
    + exact L0.
    + exact L0.
  - exists code, x, hist, l. exact Hr.
Qed.

(** ** Force split *)

Lemma gammaBi_of_kind : forall g f : list R, Forall (fun a => a = 0 \/ a = 1) f -> length g = length f ->
  map (fun p : R * R => fst p * snd p) (combine g f) = of_kind 1 f g.
Proof.
  intros g f Hf. revert g. induction Hf as [|a f Ha Hf IH]; intros [|c g] L; cbn in L; try lia; [reflexivity|].
  unfold of_kind. cbn [combine map fst snd]. f_equal; [|apply IH; lia].
  destruct Ha as [->| ->]; rcase; lra.
Qed.

Lemma kinds_add : forall g f : list R, Forall (fun a => a = 0 \/ a = 1) f -> length g = length f ->
  axpy (-1) (of_kind 1 f g) g = of_kind 0 f g.
Proof.
  intros g f Hf. revert g. induction Hf as [|a f Ha Hf IH]; intros [|c g] L; cbn in L; try lia; [reflexivity|].
  unfold of_kind. cbn [combine map fst snd axpy]. f_equal; [|apply IH; lia].
  destruct Ha as [->| ->]; rcase; rcase; lra.
Qed.

Lemma of_kind_length : forall k f g : list R, forall c, length g = length f -> length (of_kind c f g) = length f.
Proof. intros k f g c L. unfold of_kind. rewrite map_length, combine_length, L. apply Nat.min_id. Qed.

Lemma splitForces_R : forall (D : list (list (nat * R))) m mob (f g : list R), cols_below D m -> sym_psd m mob ->
  length f = length D -> length g = length D -> Forall (fun a => a = 0 \/ a = 1) f ->
  exists fu fb vu vb, splitForces (N := R_arith) D m mob f g g = (fu, fb, vu, vb) /\
    is_force D m (of_kind 0 f g) fu /\ is_force D m (of_kind 1 f g) fb /\ vu = mob fu /\ vb = mob fb /\
    is_force D m g (axpy 1 fu fb) /\ axpy 1 vu vb = mob (axpy 1 fu fb).
Proof.
  intros D m mob f g HD HM Lf Lg Hf. unfold splitForces. cbv zeta. rarith.
  change (- (1)) with (-1). rewrite !vupd_axpy. rewrite gammaBi_of_kind by (assumption || lia).
  assert (L1 : length (of_kind 1 f g) = length D) by (rewrite of_kind_length; [exact Lf|exact []|lia]).
  assert (L0 : length (of_kind 0 f g) = length D) by (rewrite of_kind_length; [exact Lf|exact []|lia]).
  set (fb := applyD (N := R_arith) D m (of_kind 1 f g)).
  assert (Lfb : length fb = m) by apply applyD_length.
  assert (Lfg : length (applyD (N := R_arith) D m g) = m) by apply applyD_length.
  assert (E : axpy (-1) fb (applyD (N := R_arith) D m g) = applyD (N := R_arith) D m (of_kind 0 f g)).
  { unfold fb. rewrite <- applyD_lin by (assumption || lia). f_equal. apply kinds_add; [exact Hf|lia]. }
  assert (Ev : axpy (-1) (mob fb) (mob (applyD (N := R_arith) D m g)) = mob (axpy (-1) fb (applyD (N := R_arith) D m g))).
  { symmetry. apply (sp_lin _ _ HM); assumption. }
  rewrite Ev. eexists _, _, _, _. split; [reflexivity|]. rewrite E.
  split; [apply applyD_force; exact L0|]. split; [apply applyD_force; exact L1|]. split; [reflexivity|]. split; [reflexivity|].
  assert (Es : axpy 1 (applyD (N := R_arith) D m (of_kind 0 f g)) fb = applyD (N := R_arith) D m g).
  { rewrite <- E. apply list_nth_ext.
    - rewrite (axpy_length _ _ _ m); [symmetry; exact Lfg|exact Lfb|apply axpy_length; assumption].
    - intro i. 
      rewrite (axpy_nth 1) by (rewrite (axpy_length _ _ _ m); assumption).
      rewrite axpy_nth by exact (eq_trans Lfg (eq_sym Lfb)). lra. }
  rewrite Es. split; [apply applyD_force; exact Lg|].
  rewrite <- Es at 1. rewrite <- (sp_lin _ _ HM) by (assumption || apply applyD_length). reflexivity.
Qed.

(** the whole solve, once converged *)
Lemma solveConstraints_R : forall choice (D : list (list (nat * R))) m mob (k q f ub : list R) (tol : R) fuel iteMax (guess : list R)
    (g fu fb vu vb : list R) hist,
  cols_below D m -> sym_psd m mob -> length k = length D -> Forall (Rle 0) k -> length q = length D -> length f = length D ->
  Forall (fun a => a = 0 \/ a = 1) f -> Forall2 Rle (setupLb (N := R_arith) f) ub -> in_box (setupLb (N := R_arith) f) ub guess ->
  tol <= dblMax (N := R_arith) ->
  solveConstraints (N := R_arith) choice D m mob k q f ub tol fuel iteMax guess = Done (Some (g, (fu, fb, vu, vb), hist)) ->
  (exists e, In e (if (choice =? 1)%Z then tl hist else hist) /\ Rabs (h_res e) < tol) ->
  in_box (setupLb (N := R_arith) f) ub g /\
  (exists r, residual (setupLb (N := R_arith) f) ub g (grad (opMul (N := R_arith) D m mob k) q g) r /\ 0 <= r < tol) /\
  is_force D m (of_kind 0 f g) fu /\ is_force D m (of_kind 1 f g) fb /\ vu = mob fu /\ vb = mob fb /\
  is_force D m g (axpy 1 fu fb) /\ axpy 1 vu vb = mob (axpy 1 fu fb).
Proof.
  intros choice D m mob k q f ub tol fuel iteMax guess g fu fb vu vb hist HD HM Lk Hk Lq Lf Hf Hub Hg0 Ht Hs Hc.
  unfold solveConstraints in Hs. cbv zeta in Hs.
  set (A := opMul (N := R_arith) D m mob k) in *. set (lb := setupLb (N := R_arith) f) in *.
  assert (HA : sym_psd (length q) A) by (rewrite Lq; apply opMul_psd; assumption).
  assert (Llb : length lb = length q) by (unfold lb, setupLb; rewrite map_length; exact (eq_trans Lf (eq_sym Lq))).
  assert (K : exists code (l : list R), (if (choice =? 1)%Z then solveAPGD (N := R_arith) A q lb ub tol fuel iteMax guess
      else Done (solveBBPGD (N := R_arith) A q lb ub tol iteMax guess)) = Done (@SRet R_arith code g hist l) /\
      splitForces (N := R_arith) D m mob f g l = (fu, fb, vu, vb)).
  { destruct (if (choice =? 1)%Z then _ else _) as [[|code g' hist' l]| |]; cbn [obind] in Hs; try discriminate.
    destruct (splitForces (N := R_arith) D m mob f g' l) as [[[a1 a2] a3] a4] eqn:Esp.
    injection Hs as -> -> -> -> -> ->. exists code, l. split; [reflexivity|exact Esp]. }
  destruct K as (code & l & Hsol & Hsplit).
  assert (K2 : l = g /\ in_box lb ub g /\ exists r, residual lb ub g (grad A q g) r /\ 0 <= r < tol).
  { destruct (choice =? 1)%Z.
    - destruct Hc as (e & He & Hlt).
      destruct (solveAPGD_converged A q lb ub tol (sp_len _ _ HA) Hub Llb fuel iteMax guess code g hist l) as (_ & H1 & H2 & H3).
      + destruct (in_box_length _ _ _ Hg0) as [L _]. exact (eq_trans L Llb).
      + exact Ht.
      + exact Hsol.
      + exists e. split; [exact He|]. eapply Rle_lt_trans; [apply Rle_abs|exact Hlt].
      + split; [exact H1|]. split; assumption.
    - injection Hsol as Hsol.
      destruct (solveBBPGD_converged A q lb ub tol (sp_len _ _ HA) Hub Llb iteMax guess code g hist l Hg0 Hsol Hc) as (_ & H1 & H2 & H3).
      split; [exact H1|]. split; assumption. }
  destruct K2 as (-> & Hbox & Hres). split; [exact Hbox|]. split; [exact Hres|].
  assert (Lg : length g = length D).
  { destruct (in_box_length _ _ _ Hbox) as [L _]. exact (eq_trans L (eq_trans Llb Lq)). }
  destruct (splitForces_R D m mob f g HD HM Lf Lg Hf) as (fu' & fb' & vu' & vb' & E & Hrest).
  rewrite Hsplit in E. injection E as <- <- <- <-. exact Hrest.
Qed.
