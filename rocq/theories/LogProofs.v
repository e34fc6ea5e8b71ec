(** The constraint stress in the log (C84). *)
From Coq Require Import List Arith ZArith Reals Lra Lia Bool Permutation.
From Verif Require Import Outcome ListUtil Arith ParticleModel ConModel ConSpec ConProofs StatModel StatSpec StatProofs LogModel LogSpec.
Import ListNotations.
Local Open Scope R_scope.

Lemma stress_sum_app w bi l l' i j : stress_sum w bi (l ++ l') i j = stress_sum w bi l i j + stress_sum w bi l' i j.
Proof. unfold stress_sum. rewrite filter_app_, map_app, Rsum_app. reflexivity. Qed.

Lemma reduce_total bi (ranks : list (list nat * pool R_arith)) s (i j : nat) :
  rsum (fun x => x) (map (fun r : list nat * pool R_arith => stress_sum false bi (concat (snd r)) i j * s) ranks) = stress_sum false bi (all_blocks ranks) i j * s.
Proof.
  rewrite rsum_map. induction ranks as [|r ranks IH].
  - unfold stress_sum, all_blocks. cbn. ring.
  - change (all_blocks (r :: ranks)) with (concat (snd r) ++ all_blocks ranks). rewrite stress_sum_app.
    refine (eq_trans (f_equal (Rplus _) IH) _). ring.
Qed.

Definition rows9 (f : nat -> nat -> R) : list R := [f 0 0; f 0 1; f 0 2; f 1 0; f 1 1; f 1 2; f 2 0; f 2 1; f 2 2]%nat.

Lemma con_stress level (KBT : R) n ranks : (level <= 2)%Z -> Forall rank_ok ranks ->
  calcConStress (N := R_arith) level KBT n ranks =
  Done (Some (rows9 (fun i j => stress_sum false false (all_blocks ranks) i j * (1 / (IZR n * KBT))),
              rows9 (fun i j => stress_sum false true (all_blocks ranks) i j * (1 / (IZR n * KBT))))).
Proof.
  intros Hl HF. unfold calcConStress. replace (2 <? level)%Z with false by (symmetry; apply Z.ltb_ge; exact Hl).
  rarith. set (s := 1 / (IZR n * KBT)).
  assert (E : omap (fun r => do s0 <- sumLocalConstraintStress (N := R_arith) (fst r) (snd r) false; Done (scaledRows (N := R_arith) s (fst s0), scaledRows (N := R_arith) s (snd s0))) ranks =
    Done (map (fun r : list nat * pool R_arith => (rows9 (fun i j => stress_sum false false (concat (snd r)) i j * s), rows9 (fun i j => stress_sum false true (concat (snd r)) i j * s))) ranks)).
  { clear Hl. induction HF as [|r ranks [H1 H2] HF IH]; cbn [omap map]; [reflexivity|].
    rewrite (stress_ok _ _ false H1 H2). cbn [obind fst snd]. rewrite IH. reflexivity. }
  refine (eq_trans (f_equal (fun o => obind o _) E) _). cbn [obind]. do 3 f_equal.
  all: rewrite map_map; cbn [fst snd]; unfold reduceRows; cbn [seq map]; unfold rows9; rewrite !map_map; cbn [nth];
    repeat (apply cons_eq; [refine (eq_trans (reduceAll_sum _) (reduce_total _ _ _ _ _))|]); reflexivity.
Qed.

Lemma stress_virial w bi : forall (l : list (block R_arith)) g l', w = false -> length g = length l ->
  (forall i b x, nth_error l i = Some b -> nth_error g i = Some x -> exists b', nth_error l' i = Some b' /\ scaled b x b') -> length l' = length l ->
  forall i j, stress_sum w bi l' i j = virial bi (combine l g) i j.
Proof.
  induction l as [|b l IH]; intros g l' -> Hg H Hl i j.
  - destruct l'; [reflexivity|discriminate].
  - destruct g as [|x g]; [discriminate|]. destruct l' as [|b' l']; [discriminate|].
    destruct (H 0%nat b x eq_refl eq_refl) as (b'' & E & Hs). injection E as <-.
    assert (IH' : stress_sum false bi l' i j = virial bi (combine l g) i j).
    { apply IH; [reflexivity|injection Hg; auto| |injection Hl; auto]. intros k b0 x0 E1 E2. exact (H (S k) b0 x0 E1 E2). }
    unfold stress_sum, virial in *. cbn [combine filter fst snd]. destruct Hs as (_ & Hst & _ & _ & _ & _ & _ & _ & Ho & Hb & _).
    unfold counted at 1. rewrite Ho, Hb, orb_false_r.
    destruct (negb (oneSide b) && Bool.eqb (bilateral b) bi); [|exact IH'].
    cbn [map]. unfold Rsum in *. cbn [fold_right]. rewrite IH'. f_equal. cbn [fst snd]. unfold comp. rewrite Hst. rarith.
    destruct (Nat.lt_ge_cases (i * 3 + j) (length (stress b))) as [L|L].
    + rewrite (nth_indep _ _ (0 * x)) by (rewrite map_length; exact L). rewrite (map_nth (fun s : R => s * x)). apply Rmult_comm.
    + rewrite !nth_overflow by (rewrite ?map_length; exact L). ring.
Qed.

Lemma virial_app bi l l' i j : virial bi (l ++ l') i j = virial bi l i j + virial bi l' i j.
Proof. unfold virial. rewrite filter_app_, map_app, Rsum_app. reflexivity. Qed.

Lemma scaled_nine (l l' : list (block R_arith)) (g : list R) : length g = length l -> length l' = length l ->
  (forall i b x, nth_error l i = Some b -> nth_error g i = Some x -> exists b', nth_error l' i = Some b' /\ scaled (N := R_arith) b x b') ->
  Forall (fun b => length (stress b) = 9%nat) l -> Forall (fun b => length (stress b) = 9%nat) l'.
Proof.
  intros Hg Hl H HF. apply Forall_forall. intros b' Hb'. apply In_nth_error in Hb'. destruct Hb' as [i Ei].
  assert (Li : (i < length l')%nat) by (apply nth_error_Some; rewrite Ei; discriminate).
  destruct (nth_error l i) as [b|] eqn:Eb; [|apply nth_error_None in Eb; lia].
  destruct (nth_error g i) as [x|] eqn:Ex; [|apply nth_error_None in Ex; lia].
  destruct (H i b x Eb Ex) as (b'' & E & Hs). rewrite Ei in E. injection E as <-. destruct Hs as (_ & -> & _). rewrite map_length.
  rewrite Forall_forall in HF. apply HF. eapply nth_error_In, Eb.
Qed.

Lemma concat_Forall {A} (P : A -> Prop) ls : Forall (Forall P) ls <-> Forall P (concat ls).
Proof.
  induction ls as [|l ls IH]; cbn [concat]; [split; constructor|]. rewrite Forall_app, <- IH. split.
  - intro H. inversion H; auto.
  - intros [A1 A2]. constructor; assumption.
Qed.
Lemma concat_len {A B} (p : list (list A)) (p' : list (list B)) : map (@length _) p' = map (@length _) p -> length (concat p') = length (concat p).
Proof. revert p'. induction p as [|q p IH]; intros [|q' p'] H; try discriminate; [reflexivity|]. injection H as H1 H2. cbn [concat]. rewrite !app_length, H1, (IH p' H2). reflexivity. Qed.

Lemma after_solve level (KBT : R) n (ss : list solved) : (level <= 2)%Z -> Forall solved_ok ss -> IZR n * KBT <> 0 ->
  exists ps, omap (fun s => writeBackGamma (N := R_arith) (s_ord1 s) (s_gamma s) (s_pool s)) ss = Done ps /\
  exists uni bi, calcConStress (N := R_arith) level KBT n (combine (map s_ord2 ss) ps) = Done (Some (uni, bi)) /\
    record uni (fun i j => virial false (solution ss) i j / (IZR n * KBT)) /\
    record bi (fun i j => virial true (solution ss) i j / (IZR n * KBT)).
Proof.
  intros Hl HF Hn.
  assert (G : exists ps, omap (fun s => writeBackGamma (N := R_arith) (s_ord1 s) (s_gamma s) (s_pool s)) ss = Done ps /\
    Forall rank_ok (combine (map s_ord2 ss) ps) /\
    forall bi i j, stress_sum false bi (all_blocks (combine (map s_ord2 ss) ps)) i j = virial bi (solution ss) i j).
  { induction HF as [|s ss (H1 & H2 & H3 & H4) HF (ps & E & IH1 & IH2)].
    - exists []. split; [reflexivity|]. split; [constructor|reflexivity].
    - destruct (writeBack_spec (N := R_arith) (s_ord1 s) (s_gamma s) (s_pool s) H1 H3) as (p' & E' & Hlen & Hsc).
      exists (p' :: ps). cbn [omap]. rewrite E'. cbn [obind]. split; [exact (f_equal (fun o => obind o _) E)|].
      assert (L : length (concat p') = length (concat (s_pool s))) by (apply concat_len; exact Hlen).
      assert (Lp : length p' = length (s_pool s)) by (apply (f_equal (@length _)) in Hlen; rewrite !map_length in Hlen; exact Hlen).
      split.
      + cbn [map combine]. constructor; [|exact IH1]. split; cbn [fst snd]; [rewrite Lp; exact H2|].
        apply concat_Forall. eapply (scaled_nine (concat (s_pool s))); [exact H3|exact L|exact Hsc|]. apply concat_Forall, H4.
      + intros bi i j. cbn [map combine]. unfold all_blocks, solution in *. cbn [map concat flat_map snd]. rewrite stress_sum_app, virial_app. f_equal; [|apply IH2].
        apply stress_virial; [reflexivity|exact H3|exact Hsc|exact L]. }
  destruct G as (ps & E & Hok & Hv). exists ps. split; [exact E|]. eexists _, _. split; [apply con_stress; assumption|].
  unfold record, rows9. rewrite !Hv. split; unfold Rdiv; rewrite !Rmult_1_l; reflexivity.
Qed.

Lemma log_split level (KBT : R) n ranks ranks' : Forall rank_ok ranks -> Forall rank_ok ranks' ->
  Permutation (all_blocks ranks) (all_blocks ranks') ->
  calcConStress (N := R_arith) level KBT n ranks = calcConStress (N := R_arith) level KBT n ranks'.
Proof.
  intros H H' HP. destruct (Z.le_gt_cases level 2) as [L|L].
  - rewrite (con_stress level KBT n ranks L H), (con_stress level KBT n ranks' L H').
    assert (E : forall bi i j, stress_sum false bi (all_blocks ranks) i j = stress_sum false bi (all_blocks ranks') i j).
    { intros. unfold stress_sum. apply Rsum_perm, Permutation_map, filter_perm, HP. }
    unfold rows9. rewrite !E. reflexivity.
  - unfold calcConStress. apply Z.ltb_lt in L. rewrite L. reflexivity.
Qed.

Lemma log_quiet (N : arith) level (KBT : N) n ranks : (2 < level)%Z -> calcConStress level KBT n ranks = Done None.
Proof. intro H. unfold calcConStress. apply Z.ltb_lt in H. rewrite H. reflexivity. Qed.
