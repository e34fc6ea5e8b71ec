(** Minimum-map Newton solver (C52). *)
From Coq Require Import List Arith ZArith Reals Bool Lia Lra.
From Flocq Require Import Core BinarySingleNaN.
From Verif Require Import ListUtil Outcome F64 Arith QPModel QPSpec LinProofs QPProofs QPSolver QPReal QPTerm NewtonModel NewtonSpec.
Import ListNotations.
Local Open Scope R_scope.

(** ** The map, its mask, the operator *)
Lemma hMinMap_min : forall x y : list R, fst (hMinMap (N := R_arith) x y) = minXY (N := R_arith) x y.
Proof.
  intros x y. unfold hMinMap, minXY. cbn [fst]. apply map_ext. intros [a c]. cbn [fst snd]. rewrite stdmin_R. rarith.
  rcase; unfold Rmin; destruct (Rle_dec a c); lra.
Qed.

Lemma minXY_comm : forall x y : list R, minXY (N := R_arith) x y = minXY (N := R_arith) y x.
Proof.
  induction x as [|a x IH]; intros [|c y]; try reflexivity. rewrite !minXY_cons, IH, Rmin_comm. reflexivity.
Qed.

Lemma maskApply_nth : forall (A : list R -> list R) (mask x : list R) i, length mask = length x -> length (A x) = length x -> (i < length x)%nat ->
  nth i (maskApply (N := R_arith) A mask x) 0 = if Rlt_bool (/ 2) (nth i mask 0) then nth i x 0 else nth i (A x) 0.
Proof.
  intros A mask x i L1 L2 Hi. unfold maskApply. rarith. replace (1 * bpow radix2 (-1)) with (/ 2) by (cbn; lra).
  generalize dependent (A x). intros y L2. revert mask x y L1 L2 Hi. induction i as [|i IH]; intros [|m mask] [|a x] [|c y] L1 L2 Hi; cbn in L1, L2, Hi; try lia.
  - reflexivity.
  - cbn [combine map nth]. apply IH; lia.
Qed.

Lemma mask_nth : forall (x y : list R) i, length y = length x -> (i < length x)%nat ->
  nth i (snd (hMinMap (N := R_arith) x y)) 0 = if Rlt_bool (nth i x 0) (nth i y 0) then 1 else 0.
Proof.
  intros x y i L. unfold hMinMap. cbn [snd]. rarith. revert x y L. induction i as [|i IH]; intros [|a x] [|c y] L Hi; cbn in L, Hi; try lia; [reflexivity|].
  cbn [combine map nth]. apply IH; lia.
Qed.

Lemma hMinMap_length : forall x y : list R, length y = length x ->
  length (fst (hMinMap (N := R_arith) x y)) = length x /\ length (snd (hMinMap (N := R_arith) x y)) = length x.
Proof. intros x y L. unfold hMinMap. cbn [fst snd]. rewrite !map_length, combine_length.
  split; (etransitivity; [exact (f_equal (Nat.min (length x)) L)|apply Nat.min_id]). Qed.

Lemma minXY_nth : forall (x y : list R) i, length y = length x -> (i < length x)%nat -> nth i (minXY (N := R_arith) x y) 0 = Rmin (nth i x 0) (nth i y 0).
Proof.
  intros x y i L. revert x y L. induction i as [|i IH]; intros [|a x] [|c y] L Hi; cbn in L, Hi; try lia; rewrite minXY_cons; cbn [nth]; [reflexivity|].
  apply IH; lia.
Qed.

(** an exact solve of the linear system makes the active rows zero and the other residuals zero *)
Lemma newton_step : forall (A : list R -> list R) (b x d : list R), sym_psd (length b) A -> length x = length b -> length d = length b ->
  let y := grad A b x in let H := fst (hMinMap (N := R_arith) x y) in let mask := snd (hMinMap (N := R_arith) x y) in
  maskApply (N := R_arith) A mask d = H ->
  forall i, (i < length b)%nat ->
    (nth i x 0 < nth i y 0 -> nth i (axpy (-1) d x) 0 = 0) /\
    (nth i y 0 <= nth i x 0 -> nth i (grad A b (axpy (-1) d x)) 0 = 0).
Proof.
  intros A b x d HA Lx Ld y H mask Hs i Hi.
  assert (Ly : length y = length x) by (apply grad_length; assumption).
  destruct (hMinMap_length x y Ly) as [LH Lm]. fold H in LH. fold mask in Lm.
  pose proof (sp_len _ _ HA d Ld) as LAd. pose proof (sp_len _ _ HA x Lx) as LAx.
  assert (Hrow := maskApply_nth A mask d i (eq_trans Lm (eq_trans Lx (eq_sym Ld))) (eq_trans LAd (eq_sym Ld)) ltac:(rewrite Ld; exact Hi)).
  rewrite Hs in Hrow. unfold mask in Hrow. rewrite mask_nth in Hrow by lia.
  assert (HH : nth i H 0 = Rmin (nth i x 0) (nth i y 0)).
  { unfold H. rewrite hMinMap_min. apply minXY_nth; lia. }
  rewrite HH in Hrow. split; intro Hxy.
  - rewrite (Rlt_bool_true _ _ Hxy), Rlt_bool_true in Hrow by lra. rewrite Rmin_left in Hrow by lra.
    rewrite axpy_nth by lia. lra.
  - rewrite (Rlt_bool_false (nth i x 0)) in Hrow by exact Hxy. rewrite Rlt_bool_false in Hrow by lra. rewrite Rmin_right in Hrow by exact Hxy.
    unfold grad. rewrite axpy_nth by (rewrite (sp_lin _ _ HA) by assumption; rewrite (axpy_length _ _ _ (length b)); auto).
    rewrite (sp_lin _ _ HA) by assumption. rewrite axpy_nth by lia.
    unfold y, grad in Hrow. rewrite axpy_nth in Hrow by lia. lra.
Qed.

(** ** The line search ends *)
Section Search.
  Context {N : arith} (A : list N -> list N) (b : list N).
  Local Open Scope arith_scope.

  Fixpoint taus (fuel : nat) (tau : N) : bool :=
    match fuel with O => false | S f => a_lt (tau * tau) stepMin || taus f (tau * a_lit 1 (-1)) end.

  Lemma lineSearch_done : forall fuel x dx f0 gradf tau mv, taus fuel tau = true ->
    exists r, lineSearch A b fuel x dx f0 gradf tau mv = Done r.
  Proof.
    induction fuel as [|fuel IH]; intros x dx f0 gradf tau mv H; [discriminate|]. cbn [lineSearch]. cbv zeta.
    destruct (a_le _ _); [eexists; reflexivity|]. cbn [taus] in H.
    destruct (a_lt (tau * tau) stepMin); [eexists; reflexivity|]. apply IH. exact H.
  Qed.

  Lemma taus_more : forall f1 f2 tau, (f1 <= f2)%nat -> taus f1 tau = true -> taus f2 tau = true.
  Proof.
    induction f1 as [|f1 IH]; intros f2 tau Hle H; [discriminate|]. destruct f2 as [|f2]; [lia|]. cbn [taus] in *.
    destruct (a_lt _ _); [reflexivity|]. cbn [orb] in *. apply IH; [lia|exact H].
  Qed.

  Lemma newtonLoop_done : forall krylov tol fuel, taus fuel (a_Z 1) = true ->
    forall n ite mv x0 x y xk yk dx err tk hist, exists r, newtonLoop A b krylov fuel n ite mv tol x0 x y xk yk dx err tk hist = Done r.
  Proof.
    intros krylov tol fuel Hf. induction n as [|n IH]; intros; cbn [newtonLoop]; [eexists; reflexivity|]. cbv zeta.
    destruct (_ && _); [eexists; reflexivity|]. destruct (hMinMap x y) as [H mask].
    destruct (_ || _); [eexists; reflexivity|]. destruct (krylov mask H dx) as [d it].
    destruct (a_lt _ tolAbs); [eexists; reflexivity|].
    match goal with |- context [lineSearch A b fuel ?x ?d ?f ?g ?t ?m] => destruct (lineSearch_done fuel x d f g t m Hf) as ([[[tau xn] yn] mvn] & E) end.
    rewrite E. cbn [obind]. apply IH.
  Qed.
End Search.

Lemma taus_F : taus (N := F_arith) 48 (a_Z 1) = true.
Proof. vm_compute. reflexivity. Qed.

Lemma taus_R : taus (N := R_arith) 48 (a_Z 1) = true.
Proof.
  assert (K : forall k n, (k + n = 47)%nat -> taus (N := R_arith) (S n) ((/ 2) ^ k) = true).
  { intros k n. revert k. induction n as [|n IH]; intros k Hk; cbn [taus].
    - apply orb_true_intro. left. replace k with 47%nat by lia. unfold stepMin. rarith. apply Rlt_bool_true.
      rewrite <- pow_add. cbn [Nat.add]. rewrite pow_inv.
      replace (2 ^ 94) with (IZR (2 ^ 94)) by (rewrite pow_IZR; reflexivity).
      change (bpow radix2 (-146)) with (/ IZR (2 ^ 146)).
      apply Rmult_lt_reg_r with (IZR (2 ^ 146)); [apply IZR_lt; reflexivity|].
      rewrite Rmult_assoc, Rinv_l, Rmult_1_r by (apply not_0_IZR; discriminate).
      apply Rmult_lt_reg_l with (IZR (2 ^ 94)); [apply IZR_lt; reflexivity|].
      rewrite <- Rmult_assoc, Rinv_r, Rmult_1_l by (apply not_0_IZR; discriminate).
      rewrite <- mult_IZR. apply IZR_lt. reflexivity.
    - apply orb_true_intro. right. rarith. replace ((/ 2) ^ k * (1 * bpow radix2 (-1))) with ((/ 2) ^ S k) by (cbn; lra).
      apply IH. lia. }
  exact (K 0%nat 47%nat eq_refl).
Qed.

(** ** What a run returns *)
Section Run.
  Context (A : list R -> list R) (b : list R) (krylov : list R -> list R -> list R -> list R * nat) (tol : R).

  Local Notation phi := (phi A b).
  Local Notation newton_report := (newton_report A b tol).

  Lemma merit_phi : forall x y : list R, y = grad A b x -> merit (N := R_arith) (minXY (N := R_arith) x y) = / 2 * (phi x * phi x).
  Proof.
    intros x y ->. unfold merit, phi, normSq. rarith. replace (1 * bpow radix2 (-1)) with (/ 2) by (cbn; lra). reflexivity.
  Qed.

  Lemma dot_neg : forall v : list R, dot (N := R_arith) v (map (fun c => -1 * c) v) = - ip v v.
  Proof. intro v. rewrite dot_ip. induction v as [|a v IH]; cbn; [lra|]. rewrite IH. lra. Qed.

  Lemma direction_descends : forall d H nablaH : list R, dot (N := R_arith) nablaH (direction (N := R_arith) d H nablaH) <= 0.
  Proof.
    intros d H nablaH. unfold direction. cbv zeta. set (dx := if a_lt (normInf _) _ then _ else _). rarith.
    destruct (Rlt_bool_spec (- tolAbs (N := R_arith) * normSq (N := R_arith) dx) (dot (N := R_arith) nablaH dx)) as [C|C].
    - eapply Rle_trans; [apply Req_le; exact (dot_neg nablaH)|]. pose proof (ip_self_nonneg nablaH). lra.
    - eapply Rle_trans; [exact C|]. rewrite normSq_ip. pose proof (ip_self_nonneg dx) as P.
      assert (0 <= tolAbs (N := R_arith)) by (unfold tolAbs; rarith; apply Rmult_le_pos; [lra|apply bpow_ge_0]).
      nra.
  Qed.

  Lemma lineSearch_R : forall fuel (x dx : list R) f0 gradf tau mv tau' xn yn mv', 0 < tau -> gradf <= 0 ->
    lineSearch (N := R_arith) A b fuel x dx f0 gradf tau mv = Done (tau', xn, yn, mv') ->
    0 < tau' /\ yn = grad A b xn /\ Forall (Rle 0) xn /\
    (/ 2 * (phi xn * phi xn) <= f0 \/ tau' * tau' < stepMin (N := R_arith)).
  Proof.
    induction fuel as [|fuel IH]; intros x dx f0 gradf tau mv tau' xn yn mv' Ht Hg E; cbn [lineSearch] in E; [discriminate|].
    cbv zeta in E.
    set (xk := clipZero (N := R_arith) (vupd (N := R_arith) (a_Z 1) x tau dx)) in *.
    assert (Hx : Forall (Rle 0) xk) by apply clipZero_nonneg.
    change (vupd (N := R_arith) (a_Z 1) b (a_Z 1) (A xk)) with (gradient (N := R_arith) A b xk) in E.
    rewrite gradient_grad in E.
    assert (Em : merit (N := R_arith) (fst (hMinMap (N := R_arith) (grad A b xk) xk)) = / 2 * (phi xk * phi xk)).
    { rewrite hMinMap_min, minXY_comm. apply merit_phi. reflexivity. }
    rewrite Em in E. rarith.
    destruct (Rle_bool_spec (/ 2 * (phi xk * phi xk)) (f0 + tau * gradf)) as [C|C].
    - injection E as <- <- <- <-. split; [exact Ht|]. split; [reflexivity|]. split; [exact Hx|]. left.
      assert (tau * gradf <= 0) by nra. lra.
    - destruct (Rlt_bool_spec (tau * tau) (stepMin (N := R_arith))) as [D|D].
      + injection E as <- <- <- <-. split; [exact Ht|]. split; [reflexivity|]. split; [exact Hx|]. right. exact D.
      + apply IH in E; [exact E| |exact Hg]. apply Rmult_lt_0_compat; [exact Ht|]. apply Rmult_lt_0_compat; [lra|apply bpow_gt_0].
  Qed.


  Lemma newtonLoop_R : forall fuel n ite mv x0 (x y xk yk dx : list R) err tk hist r,
    y = grad A b x -> length hist = ite -> map h_ite hist = seq 1 ite ->
    (0 < tk -> yk = grad A b xk /\ Forall (Rle 0) x /\ (phi x <= phi xk \/ tk * tk < stepMin (N := R_arith))) ->
    newtonLoop (N := R_arith) A b krylov fuel n ite mv tol x0 x y xk yk dx err tk hist = Done r ->
    newton_report (ite + n) x0 r.
  Proof.
    intros fuel. induction n as [|n IH]; intros ite mv x0 x y xk yk dx err tk hist r Hy Hl Hn Hp E; cbn [newtonLoop] in E.
    - injection E as <-. unfold newton_report. cbn [n_hist n_stop n_code]. rewrite Hl. repeat split; [exact Hn|lia|lia].
    - cbv zeta in E. set (e := HRec (S ite) tk (norm2 (N := R_arith) (minXY (N := R_arith) xk yk)) mv) in *.
      assert (Hn' : map h_ite (hist ++ [e]) = seq 1 (S ite)).
      { rewrite map_app, Hn. cbn [map h_ite e]. rewrite seq_S. reflexivity. }
      assert (Hl' : length (hist ++ [e]) = S ite) by (rewrite app_length; cbn; lia).
      destruct (a_lt (a_Z 0) tk && a_lt (a_abs _) tol) eqn:Ec in E.
      + injection E as <-. apply andb_true_iff in Ec. destruct Ec as [E1 E2]. rarith.
        destruct (Rlt_bool_spec 0 tk) as [T|T]; [|discriminate].
        destruct (Rlt_bool_spec (Rabs (norm2 (N := R_arith) (minXY (N := R_arith) xk yk))) tol) as [T2|T2]; [|discriminate].
        rewrite Rabs_pos_eq in T2 by apply norm2_nonneg.
        destruct (Hp T) as (-> & Hx & Hd). unfold newton_report. cbn [n_hist n_stop n_code n_x]. rewrite Hl'.
        split; [exact Hn'|]. split; [lia|]. split; [reflexivity|]. split; [exact Hx|].
        exists hist, e, xk. split; [reflexivity|]. split; [reflexivity|]. split; [exact T2|]. exact Hd.
      + destruct (hMinMap (N := R_arith) x y) as [H mask] eqn:EH.
        destruct (_ || _) in E.
        * injection E as <-. unfold newton_report. cbn [n_hist n_stop n_code n_x]. rewrite Hl'. split; [exact Hn'|]. split; [lia|reflexivity].
        * destruct (krylov mask H dx) as [d it].
          destruct (a_lt _ tolAbs) in E.
          -- injection E as <-. unfold newton_report. cbn [n_hist n_stop n_code n_x]. rewrite Hl'. split; [exact Hn'|]. split; [lia|]. split; reflexivity.
          -- match type of E with context [lineSearch A b fuel ?a ?c ?f ?g ?t ?m] =>
               destruct (lineSearch A b fuel a c f g t m) as [[[[tau xn] yn] mvn]| |] eqn:Els end; cbn [obind] in E; try discriminate.
             apply lineSearch_R in Els; [|rarith; lra|].
             ++ destruct Els as (T & Eyn & Hxn & Hd). replace (ite + S n)%nat with (S ite + n)%nat by lia.
                apply (IH _ _ _ _ _ _ _ _ _ _ _ _ Eyn Hl' Hn') in E; [exact E|].
                intros _. split; [exact Hy|]. split; [exact Hxn|].
                destruct Hd as [Hd|Hd]; [left|right; exact Hd].
                assert (EH1 : H = minXY (N := R_arith) x y) by (rewrite <- hMinMap_min, EH; reflexivity).
                rewrite EH1, (merit_phi x y Hy) in Hd.
                assert (0 <= phi x) by apply norm2_nonneg. assert (0 <= phi xn) by apply norm2_nonneg.
                apply Rnot_lt_le. intro Hc. nra.
             ++ rarith. assert (P := direction_descends d H (maskApply (N := R_arith) A mask H)).
                assert (0 <= betaC (N := R_arith)) by (unfold betaC; rarith; apply Rmult_le_pos; [lra|apply bpow_ge_0]).
                rarith. nra.
  Qed.

  Lemma mmNewton_R : forall fuel iteMax (jx jy x0 : list R), (48 <= fuel)%nat ->
    exists r, LCP_mmNewton (N := R_arith) A b krylov fuel iteMax tol jx jy x0 = Done r /\ newton_report iteMax x0 r.
  Proof.
    intros fuel iteMax jx jy x0 Hf. unfold LCP_mmNewton.
    match goal with |- exists r, ?t = _ /\ _ => assert (K : exists r, t = Done r) end.
    { apply newtonLoop_done. apply (taus_more 48); [exact Hf|exact taus_R]. }
    destruct K as (r & K). exists r. split; [exact K|].
    apply newtonLoop_R in K; [exact K|apply gradient_grad|reflexivity|reflexivity|].
    intro T. exfalso. rarith. lra.
  Qed.
End Run.

(** ** Constants, direction, product count *)
Lemma near_decimal (m e d : Z) : (0 < d)%Z -> (0 <= e)%Z -> (2 * Z.abs (m * d - 2 ^ e) <= d)%Z -> Rabs (IZR m * bpow radix2 (- e) - / IZR d) <= / 2 * bpow radix2 (- e).
Proof.
  intros Hd He H. assert (D : 0 < IZR d) by (apply (IZR_lt 0); exact Hd). assert (P : (0 < 2 ^ e)%Z) by (apply Z.pow_pos_nonneg; lia).
  assert (E : 0 < IZR (2 ^ e)) by (apply (IZR_lt 0); exact P).
  rewrite bpow_opp, <- IZR_Zpower by exact He. change (IZR (Zpower radix2 e)) with (IZR (2 ^ e)).
  replace (IZR m * / IZR (2 ^ e) - / IZR d) with (IZR (m * d - 2 ^ e) * / (IZR d * IZR (2 ^ e))) by (rewrite minus_IZR, mult_IZR; field; lra).
  assert (DE : 0 < IZR d * IZR (2 ^ e)) by (apply Rmult_lt_0_compat; assumption).
  rewrite Rabs_mult, (Rabs_pos_eq (/ _)) by (left; apply Rinv_0_lt_compat, DE). rewrite <- abs_IZR.
  apply Rmult_le_reg_r with (IZR d * IZR (2 ^ e)); [exact DE|]. rewrite Rmult_assoc, Rinv_l, Rmult_1_r by lra.
  replace (/ 2 * / IZR (2 ^ e) * (IZR d * IZR (2 ^ e))) with (/ 2 * IZR d) by (field; lra).
  apply IZR_le in H. rewrite mult_IZR in H. lra.
Qed.
Lemma constants_ok : Rabs (tolAbs (N := R_arith) - / IZR (10 ^ 14)) <= / 2 * bpow radix2 (-99) /\ Rabs (stepMin (N := R_arith) - / IZR (10 ^ 28)) <= / 2 * bpow radix2 (-146) /\
  Rabs (betaC (N := R_arith) - / IZR 1000) <= / 2 * bpow radix2 (-62) /\ errInit (N := R_arith) = IZR (10 ^ 20).
Proof.
  split; [apply (near_decimal _ 99); [reflexivity|discriminate|vm_compute; discriminate]|]. split; [apply (near_decimal _ 146); [reflexivity|discriminate|vm_compute; discriminate]|].
  split; [apply (near_decimal _ 62); [reflexivity|discriminate|vm_compute; discriminate]|]. reflexivity.
Qed.
Lemma normInf_lt (x : list R) (t : R) : 0 < t -> normInf (N := R_arith) x < t <-> forall v, In v x -> Rabs v < t.
Proof.
  intros Ht. unfold normInf. assert (G : forall m : R, fold_left (fun m e => stdmax (N := R_arith) m (a_abs (a := R_arith) e)) x m < t <-> m < t /\ forall v, In v x -> Rabs v < t).
  { induction x as [|c x IH]; intros m; cbn [fold_left]; [split; [intros H; split; [exact H|intros v []]|tauto]|]. rewrite IH.
    assert (E : stdmax (N := R_arith) m (a_abs (a := R_arith) c) < t <-> m < t /\ Rabs c < t). { unfold stdmax. rarith. rcase; lra. }
    rewrite E. split; [intros [[A B] C]; split; [exact A|intros v [<-|Hv]; [exact B|exact (C v Hv)]]|]. intros [A B]. split; [split; [exact A|apply B; left; reflexivity]|intros v Hv; apply B; right; exact Hv]. }
  rewrite (G 0). tauto.
Qed.
Lemma direction_ok (d H nablaH : list R) : let neg := map Ropp in let dir := direction (N := R_arith) d H nablaH in
  (dir = neg d \/ dir = neg nablaH) /\
  ((exists v, In v d /\ tolAbs (N := R_arith) <= Rabs v) -> dot (N := R_arith) nablaH (neg d) <= - tolAbs (N := R_arith) * normSq (N := R_arith) (neg d) -> dir = neg d) /\
  ((forall v, In v d -> Rabs v < tolAbs (N := R_arith)) \/ - tolAbs (N := R_arith) * normSq (N := R_arith) (neg d) < dot (N := R_arith) nablaH (neg d) -> dir = neg nablaH).
Proof.
  intros neg dir. assert (T : 0 < tolAbs (N := R_arith)) by (unfold tolAbs; rarith; apply Rmult_lt_0_compat; [lra|apply bpow_gt_0]).
  assert (Em : forall l : list R, map (fun v => - a_Z (a := R_arith) 1 * v)%A l = neg l). { intros l. apply map_ext. intros v. rarith. lra. }
  assert (Ed : dir = let dx := if Rlt_bool (normInf (N := R_arith) (neg d)) (tolAbs (N := R_arith)) then neg nablaH else neg d in
                     if Rlt_bool (- tolAbs (N := R_arith) * normSq (N := R_arith) dx) (dot (N := R_arith) nablaH dx) then neg nablaH else dx).
  { unfold dir, direction. cbv zeta. rewrite !Em. reflexivity. }
  assert (Hn : normInf (N := R_arith) (neg d) < tolAbs (N := R_arith) <-> forall v, In v d -> Rabs v < tolAbs (N := R_arith)).
  { rewrite normInf_lt by exact T. split; intros G v Hv.
    - rewrite <- Rabs_Ropp. apply G. apply in_map. exact Hv.
    - apply in_map_iff in Hv. destruct Hv as (w & <- & Hw). rewrite Rabs_Ropp. apply G. exact Hw. }
  rewrite Ed. cbv zeta. clear Ed. split; [|split].
  - destruct (Rlt_bool (normInf _) _); destruct (Rlt_bool (- _ * _) _); auto.
  - intros (v & Hv & Hl) Hd. destruct (Rlt_bool_spec (normInf (N := R_arith) (neg d)) (tolAbs (N := R_arith))) as [L|L].
    + exfalso. pose proof (proj1 Hn L v Hv). lra.
    + rewrite Rlt_bool_false by exact Hd. reflexivity.
  - destruct (Rlt_bool_spec (normInf (N := R_arith) (neg d)) (tolAbs (N := R_arith))) as [L|L]; [intros _; destruct (Rlt_bool _ _); reflexivity|].
    intros [C|C]; [exfalso; apply Hn in C; lra|]. rewrite Rlt_bool_true by exact C. reflexivity.
Qed.
Lemma lineSearch_mv {N : arith} A b fuel : forall x dx f0 gradf tau mv t xn yn mv', lineSearch (N := N) A b fuel x dx f0 gradf tau mv = Done (t, xn, yn, mv') -> (mv < mv')%nat.
Proof.
  induction fuel as [|fuel IH]; intros x dx f0 gradf tau mv t xn yn mv' E; cbn [lineSearch] in E; [discriminate|]. cbv zeta in E.
  destruct (a_le _ _); [injection E as _ _ _ <-; lia|]. destruct (a_lt (a_mul tau tau) _); [injection E as _ _ _ <-; lia|]. apply IH in E. lia.
Qed.
Lemma newtonLoop_mv {N : arith} A b krylov tol fuel : forall n ite mv x0 (x y xk yk dx : list N) err tk hist r,
  (forall e, In e hist -> (h_mv e < mv)%nat) -> (forall i j ei ej, nth_error hist i = Some ei -> nth_error hist j = Some ej -> (i < j)%nat -> (h_mv ei < h_mv ej)%nat) ->
  newtonLoop (N := N) A b krylov fuel n ite mv tol x0 x y xk yk dx err tk hist = Done r ->
  (forall i j ei ej, nth_error (n_hist r) i = Some ei -> nth_error (n_hist r) j = Some ej -> (i < j)%nat -> (h_mv ei < h_mv ej)%nat).
Proof.
  induction n as [|n IH]; intros ite mv x0 x y xk yk dx err tk hist r Hl Hs E; cbn [newtonLoop] in E; [injection E as <-; exact Hs|]. cbv zeta in E.
  set (e := HRec (S ite) tk _ mv) in *.
  assert (Hs' : forall i j ei ej, nth_error (hist ++ [e]) i = Some ei -> nth_error (hist ++ [e]) j = Some ej -> (i < j)%nat -> (h_mv ei < h_mv ej)%nat).
  { intros i j ei ej Ei Ej Hij. destruct (Nat.lt_ge_cases j (length hist)) as [L|L].
    - rewrite nth_error_app1 in Ej by exact L. rewrite nth_error_app1 in Ei by lia. exact (Hs i j ei ej Ei Ej Hij).
    - assert (j = length hist) as ->. { assert (j < length (hist ++ [e]))%nat by (apply nth_error_Some; rewrite Ej; discriminate). rewrite app_length in H; cbn in H; lia. }
      rewrite nth_error_app2, Nat.sub_diag in Ej by lia. injection Ej as <-. rewrite nth_error_app1 in Ei by exact Hij. cbn [h_mv e]. apply Hl. exact (nth_error_In _ _ Ei). }
  destruct (_ && _); [injection E as <-; exact Hs'|]. destruct (hMinMap x y) as [H mask]. destruct (_ || _); [injection E as <-; exact Hs'|].
  destruct (krylov mask H dx) as [d it]. destruct (a_lt _ tolAbs); [injection E as <-; exact Hs'|].
  match type of E with context [lineSearch A b fuel ?a ?c ?f ?g ?t ?m] =>
    destruct (lineSearch A b fuel a c f g t m) as [[[[tau xn] yn] mvn]| |] eqn:Els end; cbn [obind] in E; try discriminate.
  apply lineSearch_mv in Els. refine (IH _ _ _ _ _ _ _ _ _ _ _ _ _ Hs' E).
  intros e' He. apply in_app_or in He. destruct He as [He|[<-|[]]]; [specialize (Hl e' He); lia|cbn [h_mv e]; lia].
Qed.
Lemma mmNewton_mv {N : arith} A b krylov fuel iteMax (tol : N) jx jy x0 r : LCP_mmNewton A b krylov fuel iteMax tol jx jy x0 = Done r ->
  forall i j ei ej, nth_error (n_hist r) i = Some ei -> nth_error (n_hist r) j = Some ej -> (i < j)%nat -> (h_mv ei < h_mv ej)%nat.
Proof. intros E. refine (newtonLoop_mv _ _ _ _ _ _ _ _ _ _ _ _ _ _ _ _ _ _ _ _ E); [intros e []|]. intros i j ei ej Ei. destruct i; discriminate. Qed.
