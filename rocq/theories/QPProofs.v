(** Projection residual, complementarity (C22). *)
From Coq Require Import List Arith ZArith Reals Bool Lia Lra.
From Flocq Require Import Core.
From Verif Require Import ListUtil Outcome Arith QPModel QPSpec LinProofs.
Import ListNotations.
Local Open Scope R_scope.

Lemma grad_length : forall A b x, sym_psd (length b) A -> length x = length b -> length (grad A b x) = length x.
Proof.
  intros A b x HA Lx. unfold grad.
  rewrite (axpy_length 1 b (A x) (length b)); [lia|reflexivity|apply (sp_len _ _ HA); lia].
Qed.

Lemma margin_pos : 0 < margin.
Proof. unfold margin. apply Rmult_lt_0_compat; [lra|apply bpow_gt_0]. Qed.

Lemma stdmin_R : forall a b, stdmin (N := R_arith) a b = Rmin a b.
Proof. intros. unfold stdmin. rarith. rcase; unfold Rmin; destruct Rle_dec; lra. Qed.
Lemma stdmax_R : forall a b, stdmax (N := R_arith) a b = Rmax a b.
Proof. intros. unfold stdmax. rarith. rcase; unfold Rmax; destruct Rle_dec; lra. Qed.

(** one coordinate of the residual *)
Lemma coord_R : forall l u a y, projectGradient (N := R_arith) l u a y =
  if Rlt_bool a (l + margin) then Some (Rmin y 0)
  else if Rlt_bool (u - margin) a then Some (Rmax y 0)
  else if Rlt_bool l a && Rlt_bool a u then Some y else None.
Proof.
  intros. unfold projectGradient. rewrite stdmin_R, stdmax_R. reflexivity.
Qed.

Lemma allSome_Some : forall {T} (l : list (option T)) q, allSome l = Some q <-> l = map Some q.
Proof.
  induction l as [|[a|] l IH]; intro q; cbn.
  - split; intro H; [injection H as <-; reflexivity|destruct q; [reflexivity|discriminate]].
  - destruct (allSome l) as [r|] eqn:E; cbn; split; intro H.
    + injection H as <-. cbn. f_equal. apply IH; reflexivity.
    + destruct q as [|c q]; [discriminate|]. cbn in H. injection H as -> Hl. apply IH in Hl. congruence.
    + discriminate.
    + destruct q as [|c q]; [discriminate|]. cbn in H. injection H as -> Hl. apply IH in Hl. congruence.
  - split; [discriminate|]. destruct q; discriminate.
Qed.

Lemma projResidual_cons : forall l lb u ub a x y ys,
  projResidual (N := R_arith) (l :: lb) (u :: ub) (a :: x) (y :: ys) =
  match projectGradient (N := R_arith) l u a y with
  | Some c => option_map (cons c) (projResidual (N := R_arith) lb ub x ys) | None => None end.
Proof. reflexivity. Qed.

(** first-order optimality at one coordinate *)
Definition stationary (l u a y : R) : Prop := (a < u -> 0 <= y) /\ (l < a -> y <= 0).

Inductive Stat : list R -> list R -> list R -> list R -> Prop :=
| Stat0 : Stat [] [] [] []
| StatS : forall l lb u ub a x y ys, stationary l u a y -> Stat lb ub x ys -> Stat (l :: lb) (u :: ub) (a :: x) (y :: ys).

Lemma stat_of_var : forall lb ub x y, in_box lb ub x -> length y = length x ->
  (forall z, in_box lb ub z -> 0 <= ip y (axpy (-1) x z)) -> Stat lb ub x y.
Proof.
  induction lb as [|l lb IH]; intros ub x y Hx Hy Hv.
  - destruct Hx as [H1 H2]. inversion H1; subst. inversion H2; subst. destruct y; [constructor|discriminate].
  - destruct x as [|a x]; [destruct Hx as [H _]; inversion H|].
    destruct ub as [|u ub]; [destruct Hx as [_ H]; inversion H|].
    destruct y as [|y0 ys]; [discriminate|].
    apply in_box_cons in Hx. destruct Hx as [Ha Hx].
    assert (Z0 : ip ys (axpy (-1) x x) = 0).
    { rewrite (ip_axpy_r (-1) (length x)) by reflexivity. lra. }
    constructor.
    + split; intro H.
      * assert (Hz : in_box (l :: lb) (u :: ub) (u :: x)) by (apply in_box_cons; split; [lra|exact Hx]).
        specialize (Hv _ Hz). cbn in Hv. rewrite Z0 in Hv. nra.
      * assert (Hz : in_box (l :: lb) (u :: ub) (l :: x)) by (apply in_box_cons; split; [lra|exact Hx]).
        specialize (Hv _ Hz). cbn in Hv. rewrite Z0 in Hv. nra.
    + apply IH; [exact Hx|cbn in Hy; lia|]. intros z Hz.
      assert (Hz' : in_box (l :: lb) (u :: ub) (a :: z)) by (apply in_box_cons; split; [lra|exact Hz]).
      specialize (Hv _ Hz'). cbn in Hv. lra.
Qed.

Lemma var_of_stat : forall lb ub x y, Stat lb ub x y -> forall z, in_box lb ub x -> in_box lb ub z -> 0 <= ip y (axpy (-1) x z).
Proof.
  induction 1 as [|l lb u ub a x y ys Hs HS IH]; intros z Hx Hz.
  - destruct z; cbn; lra.
  - destruct z as [|c z]; [cbn; lra|]. apply in_box_cons in Hx. apply in_box_cons in Hz. cbn.
    destruct Hx as [Ha Hx]. destruct Hz as [Hc Hz]. specialize (IH z Hx Hz). destruct Hs as [S1 S2].
    assert (0 <= y * (c + -1 * a)); [|lra].
    destruct (Rle_lt_dec c a) as [Hca|Hca].
    + destruct (Req_dec c a) as [->|Hne]; [nra|]. specialize (S2 ltac:(lra)). nra.
    + specialize (S1 ltac:(lra)). nra.
Qed.

(** minimiser <-> stationarity *)
Lemma minimizes_stat : forall A b lb ub x, sym_psd (length b) A -> length lb = length b -> in_box lb ub x ->
  (minimizes A b lb ub x <-> Stat lb ub x (grad A b x)).
Proof.
  intros A b lb ub x HA Hlb Hx. pose proof (in_box_length _ _ _ Hx) as [Lx Lu].
  assert (Lg : length (grad A b x) = length x).
  { unfold grad. rewrite (axpy_length 1 b (A x) (length b)); [lia|reflexivity|apply (sp_len _ _ HA); lia]. }
  split.
  - intros [_ Hm]. apply stat_of_var; [exact Hx|exact Lg|]. intros z Hz.
    pose proof (in_box_length _ _ _ Hz) as [Lz _]. set (d := axpy (-1) x z).
    assert (Ld : length d = length b) by (apply axpy_length; lia).
    apply (first_order _ (ip d (A d) / 2)). intros t Ht.
    assert (Hin : in_box lb ub (axpy t d x)) by (apply in_box_dir; [lra| |]; assumption).
    specialize (Hm _ Hin). rewrite (objective_dir (length b)) in Hm by (assumption || reflexivity || lia). lra.
  - intro HS. split; [exact Hx|]. intros z Hz. pose proof (in_box_length _ _ _ Hz) as [Lz _].
    assert (Ld : length (axpy (-1) x z) = length b) by (apply axpy_length; lia).
    rewrite (objective_diff (length b) A b x z) by (assumption || reflexivity || lia). cbv zeta.
    pose proof (var_of_stat _ _ _ _ HS z Hx Hz). pose proof (sp_pos _ _ HA (axpy (-1) x z) Ld). lra.
Qed.

Lemma stat_residual : forall lb ub x y, Stat lb ub x y -> in_box lb ub x -> wide lb ub ->
  exists q, projResidual (N := R_arith) lb ub x y = Some q /\ Forall (fun a : R => a = 0) q.
Proof.
  pose proof margin_pos as Hm.
  induction 1 as [|l lb u ub a x y ys Hs HS IH]; intros Hx Hw.
  - exists []. split; [reflexivity|constructor].
  - apply in_box_cons in Hx. destruct Hx as [Ha Hx]. inversion Hw as [|? ? ? ? Hlu Hw']; subst.
    destruct (IH Hx Hw') as (q & Eq & Hq). destruct Hs as [S1 S2].
    rewrite projResidual_cons, Eq, coord_R.
    case (Rlt_bool_spec a (l + margin)); intro C1.
    + exists (Rmin y 0 :: q). split; [reflexivity|]. constructor; [|exact Hq].
      rewrite Rmin_right; [reflexivity|]. apply S1. lra.
    + case (Rlt_bool_spec (u - margin) a); intro C2.
      * exists (Rmax y 0 :: q). split; [reflexivity|]. constructor; [|exact Hq].
        rewrite Rmax_right; [reflexivity|]. apply S2. lra.
      * rewrite Rlt_bool_true by lra. rewrite Rlt_bool_true by lra. cbn.
        exists (y :: q). split; [reflexivity|]. constructor; [|exact Hq].
        specialize (S1 ltac:(lra)). specialize (S2 ltac:(lra)). lra.
Qed.

(** optimum -> zero residual *)
Lemma optimum_residual : forall A b lb ub x, sym_psd (length b) A -> length lb = length b -> wide lb ub ->
  minimizes A b lb ub x -> residual lb ub x (grad A b x) 0.
Proof.
  intros A b lb ub x HA Hlb Hw Hm. pose proof (proj1 Hm) as Hx.
  apply minimizes_stat in Hm; [|assumption..].
  destruct (stat_residual _ _ _ _ Hm Hx Hw) as (q & Eq & Hq). exists q. split; [exact Eq|].
  symmetry. apply norm2_zero. exact Hq.
Qed.

(** zero residual -> almost optimal *)
Lemma residual_var : forall lb ub x y q : list R, projResidual (N := R_arith) lb ub x y = Some q -> Forall (fun a : R => a = 0) q ->
  length y = length x -> in_box lb ub x -> forall z, in_box lb ub z -> - margin * abs_sum y <= ip y (axpy (-1) x z).
Proof.
  pose proof margin_pos as Hm.
  induction lb as [|l lb IH]; intros ub x y q Eq Hq Ly Hx z Hz.
  - destruct Hx as [H1 H2]. inversion H1; subst. destruct y; [|discriminate]. cbn. lra.
  - destruct x as [|a x]; [destruct Hx as [H _]; inversion H|].
    destruct ub as [|u ub]; [destruct Hx as [_ H]; inversion H|].
    destruct z as [|c z]; [destruct Hz as [H _]; inversion H|].
    destruct y as [|y0 ys]; [discriminate|].
    apply in_box_cons in Hx. apply in_box_cons in Hz. destruct Hx as [Ha Hx]. destruct Hz as [Hc Hz].
    rewrite projResidual_cons in Eq.
    destruct (projectGradient (N := R_arith) l u a y0) as [c0|] eqn:Ec; [|discriminate].
    destruct (projResidual (N := R_arith) lb ub x ys) as [q'|] eqn:Eq'; [|discriminate].
    injection Eq as <-. inversion Hq as [|? ? Hc0 Hq']; subst.
    specialize (IH ub x ys q' Eq' Hq' (eq_add_S _ _ Ly) Hx z Hz).
    cbn [ip axpy abs_sum]. assert (- margin * Rabs y0 <= y0 * (c + -1 * a)); [|lra].
    rewrite coord_R in Ec.
    destruct (Rlt_bool_spec a (l + margin)) as [C1|C1].
    + injection Ec as Ec. unfold Rmin in Ec. destruct (Rle_dec y0 0) as [D|D]; [subst; rewrite Rabs_R0; nra|].
      rewrite Rabs_pos_eq by lra. nra.
    + destruct (Rlt_bool_spec (u - margin) a) as [C2|C2].
      * injection Ec as Ec. unfold Rmax in Ec. destruct (Rle_dec y0 0) as [D|D].
        -- rewrite Rabs_left1 by lra. nra.
        -- subst. rewrite Rabs_R0; nra.
      * destruct (Rlt_bool l a && Rlt_bool a u); [|discriminate]. injection Ec as ->. rewrite Rabs_R0. nra.
Qed.

Lemma residual_near : forall A b lb ub x, sym_psd (length b) A -> length lb = length b -> in_box lb ub x ->
  residual lb ub x (grad A b x) 0 ->
  forall z, in_box lb ub z -> objective A b x <= objective A b z + margin * abs_sum (grad A b x).
Proof.
  intros A b lb ub x HA Hlb Hx (q & Eq & Hn) z Hz.
  pose proof (in_box_length _ _ _ Hx) as [Lx Lu]. pose proof (in_box_length _ _ _ Hz) as [Lz _].
  assert (Lg : length (grad A b x) = length x).
  { unfold grad. rewrite (axpy_length 1 b (A x) (length b)); [lia|reflexivity|apply (sp_len _ _ HA); lia]. }
  symmetry in Hn. apply norm2_zero in Hn.
  pose proof (residual_var _ _ _ _ _ Eq Hn Lg Hx z Hz) as Hv.
  assert (Ld : length (axpy (-1) x z) = length b) by (apply axpy_length; lia).
  rewrite (objective_diff (length b) A b x z) by (assumption || reflexivity || lia). cbv zeta.
  pose proof (sp_pos _ _ HA (axpy (-1) x z) Ld). lra.
Qed.

Lemma residual_stat : forall lb ub x y q : list R, projResidual (N := R_arith) lb ub x y = Some q -> Forall (fun a : R => a = 0) q ->
  length y = length x -> in_box lb ub x -> off_margin lb ub x -> Stat lb ub x y.
Proof.
  pose proof margin_pos as Hm.
  induction lb as [|l lb IH]; intros ub x y q Eq Hq Ly Hx Ho.
  - destruct Hx as [H1 H2]. inversion H1; subst. inversion H2; subst. destruct y; [constructor|discriminate].
  - destruct x as [|a x]; [destruct Hx as [H _]; inversion H|].
    destruct ub as [|u ub]; [destruct Hx as [_ H]; inversion H|].
    destruct y as [|y0 ys]; [discriminate|].
    apply in_box_cons in Hx. destruct Hx as [Ha Hx].
    rewrite projResidual_cons in Eq.
    destruct (projectGradient (N := R_arith) l u a y0) as [c0|] eqn:Ec; [|discriminate].
    destruct (projResidual (N := R_arith) lb ub x ys) as [q'|] eqn:Eq'; [|discriminate].
    injection Eq as <-. inversion Hq as [|? ? Hc0 Hq']; subst.
    constructor.
    + destruct (Ho 0%nat l u a eq_refl eq_refl eq_refl) as [O1 O2]. rewrite coord_R in Ec.
      destruct (Rlt_bool_spec a (l + margin)) as [C1|C1].
      * injection Ec as Ec. unfold Rmin in Ec. destruct (Rle_dec y0 0) as [D|D]; split; intros; lra.
      * destruct (Rlt_bool_spec (u - margin) a) as [C2|C2].
        -- injection Ec as Ec. unfold Rmax in Ec. destruct (Rle_dec y0 0) as [D|D]; split; intros; lra.
        -- destruct (Rlt_bool l a && Rlt_bool a u); [|discriminate]. injection Ec as ->. split; intros; lra.
    + apply (IH ub x ys q' Eq' Hq'); [exact (eq_add_S _ _ Ly)|exact Hx|].
      intros i l' u' a' E1 E2 E3. apply (Ho (S i)); assumption.
Qed.

Lemma residual_exact : forall A b lb ub x, sym_psd (length b) A -> length lb = length b -> wide lb ub ->
  in_box lb ub x -> off_margin lb ub x ->
  (residual lb ub x (grad A b x) 0 <-> minimizes A b lb ub x).
Proof.
  intros A b lb ub x HA Hlb Hw Hx Ho. split.
  - intros (q & Eq & Hn). symmetry in Hn. apply norm2_zero in Hn. apply minimizes_stat; [assumption..|].
    pose proof (in_box_length _ _ _ Hx) as [Lx Lu].
    apply (residual_stat _ _ _ _ _ Eq Hn); [|assumption..].
    exact (grad_length A b x HA (eq_trans Lx Hlb)).
  - apply optimum_residual; assumption.
Qed.

(** ** Complementarity *)

Lemma minXY_cons : forall a x c y, minXY (N := R_arith) (a :: x) (c :: y) = Rmin a c :: minXY (N := R_arith) x y.
Proof. intros. unfold minXY. cbn [combine map fst snd]. rewrite stdmin_R. reflexivity. Qed.

Lemma minXY_complementary : forall x y : list R, length x = length y ->
  (Forall (fun a : R => a = 0) (minXY (N := R_arith) x y) <-> complementary x y).
Proof.
  induction x as [|a x IH]; intros [|c y] L; cbn in L; try lia.
  - split; intros _; constructor.
  - rewrite minXY_cons. specialize (IH y ltac:(lia)). split; intro H.
    + inversion H as [|? ? H1 H2]; subst. constructor; [|apply IH; exact H2].
      unfold Rmin in H1. destruct (Rle_dec a c); [subst a|subst c]; repeat split; try lra.
    + inversion H as [|? ? ? ? (H1 & H2 & H3) H4]; subst. constructor; [|apply IH; exact H4].
      apply Rmult_integral in H3. unfold Rmin. destruct (Rle_dec a c); destruct H3; lra.
Qed.

(** complementarity <-> optimum on the non-negative orthant *)
Lemma complementary_var : forall x y, complementary x y -> forall z, length z = length x -> Forall (Rle 0) z ->
  0 <= ip y (axpy (-1) x z).
Proof.
  induction 1 as [|a c x y (H1 & H2 & H3) H IH]; intros z L Hz; [destruct z; cbn; lra|].
  destruct z as [|d z]; [discriminate|]. inversion Hz as [|? ? Hd Hz']; subst. cbn.
  specialize (IH z ltac:(cbn in L; lia) Hz'). nra.
Qed.

Lemma var_complementary : forall x y, length y = length x -> Forall (Rle 0) x ->
  (forall z, length z = length x -> Forall (Rle 0) z -> 0 <= ip y (axpy (-1) x z)) -> complementary x y.
Proof.
  induction x as [|a x IH]; intros [|c y] L Hx Hv; cbn in L; try lia; [constructor|].
  inversion Hx as [|? ? Ha Hx']; subst.
  assert (Z0 : ip y (axpy (-1) x x) = 0).
  { rewrite (ip_axpy_r (-1) (length x)) by reflexivity. lra. }
  constructor.
  - assert (V1 := Hv ((a + 1) :: x) eq_refl ltac:(constructor; [lra|exact Hx'])).
    assert (V2 := Hv (0 :: x) eq_refl ltac:(constructor; [lra|exact Hx'])).
    cbn in V1, V2. rewrite Z0 in V1, V2. repeat split; [exact Ha|lra|nra].
  - apply IH; [lia|exact Hx'|]. intros z Lz Hz.
    assert (V := Hv (a :: z) ltac:(cbn; lia) ltac:(constructor; [lra|exact Hz])). cbn in V. lra.
Qed.

Lemma nonneg_dir : forall x z t, 0 <= t <= 1 -> length z = length x -> Forall (Rle 0) x -> Forall (Rle 0) z ->
  Forall (Rle 0) (axpy t (axpy (-1) x z) x).
Proof.
  induction x as [|a x IH]; intros z t Ht L Hx Hz; destruct z as [|c z]; cbn in *; try lia; [constructor|].
  inversion Hx; inversion Hz; subst. constructor; [nra|]. apply IH; auto.
Qed.

Lemma complementary_optimum : forall A b x, sym_psd (length b) A -> length x = length b ->
  (complementary x (grad A b x) <-> minimizes_nonneg A b x).
Proof.
  intros A b x HA Lx.
  assert (Lg : length (grad A b x) = length x).
  { unfold grad. rewrite (axpy_length 1 b (A x) (length b)); [lia|reflexivity|apply (sp_len _ _ HA); lia]. }
  split.
  - intro Hc. split.
    + clear -Hc. induction Hc as [|a c x y (H1 & _) H IH]; constructor; assumption.
    + intros z Lz Hz.
      assert (Ld : length (axpy (-1) x z) = length b) by (apply axpy_length; lia).
      rewrite (objective_diff (length b) A b x z) by (assumption || reflexivity || lia). cbv zeta.
      pose proof (complementary_var _ _ Hc z Lz Hz). pose proof (sp_pos _ _ HA (axpy (-1) x z) Ld). lra.
  - intros [Hx Hm]. apply var_complementary; [exact Lg|exact Hx|]. intros z Lz Hz.
    set (d := axpy (-1) x z).
    assert (Ld : length d = length b) by (apply axpy_length; lia).
    apply (first_order _ (ip d (A d) / 2)). intros t Ht.
    assert (Hin : Forall (Rle 0) (axpy t d x)) by (apply nonneg_dir; [lra|assumption..]).
    specialize (Hm _ ltac:(rewrite (axpy_length t x d (length b)); lia) Hin).
    rewrite (objective_dir (length b)) in Hm by (assumption || reflexivity || lia). lra.
Qed.

Lemma phi_zero : forall A b x, sym_psd (length b) A -> length x = length b ->
  exists q, phiResidual (N := R_arith) x (gradient (N := R_arith) A b x) = Some q /\
    (norm2 (N := R_arith) q = 0 <-> complementary x (grad A b x)) /\
    (norm2 (N := R_arith) q = 0 <-> minimizes_nonneg A b x).
Proof.
  intros A b x HA Lx. exists (minXY (N := R_arith) x (grad A b x)). split.
  - unfold phiResidual. f_equal. f_equal. exact (vupd_axpy 1 b (A x)).
  - assert (H : norm2 (N := R_arith) (minXY (N := R_arith) x (grad A b x)) = 0 <-> complementary x (grad A b x)).
    { rewrite norm2_zero. apply minXY_complementary. symmetry.
      exact (grad_length A b x HA Lx). }
    split; [exact H|]. rewrite H. apply complementary_optimum; assumption.
Qed.

(** projection lands in the box *)
Lemma boundProjection_box : forall lb ub v : list R, Forall2 Rle lb ub -> length v = length lb ->
  in_box lb ub (boundProjection (N := R_arith) lb ub v).
Proof.
  intros lb ub v H. revert v. induction H as [|l u lb ub Hlu H IH]; intros [|a v] L; cbn in L; try lia.
  - split; constructor.
  - assert (E : boundProjection (N := R_arith) (l :: lb) (u :: ub) (a :: v) = Rmin (Rmax a l) u :: boundProjection (N := R_arith) lb ub v).
    { unfold boundProjection. cbn [combine map fst snd]. rewrite stdmax_R, stdmin_R. reflexivity. }
    rewrite E. apply in_box_cons. split; [|apply IH; lia].
    unfold Rmin, Rmax. destruct (Rle_dec a l); destruct (Rle_dec _ u); lra.
Qed.

Lemma clipZero_nonneg : forall v : list R, Forall (Rle 0) (clipZero (N := R_arith) v).
Proof.
  induction v as [|a v IH]; [constructor|]. unfold clipZero. cbn [map]. constructor; [|exact IH].
  rarith. rcase; lra.
Qed.
