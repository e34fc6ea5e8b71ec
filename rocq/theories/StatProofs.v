(** Proofs about the statistics over all objects. *)
From Coq Require Import List Arith ZArith Bool Reals Lra Lia Permutation.
From Flocq Require Import Core BinarySingleNaN.
From Verif Require Import F64 Arith ParticleModel ConModel VecModel VecSpec VecProofs SylModel SylSpec SylProofs StatModel StatSpec.
Import ListNotations.
Local Open Scope R_scope.

(** ** bounding box, in doubles *)
Lemma dmin_ok (a b : f64) : is_finite a = true -> is_finite b = true ->
  let r := dmin (N := F_arith) a b in (r = a \/ r = b) /\ B2R r <= B2R a /\ B2R r <= B2R b.
Proof.
  intros Ha Hb. unfold dmin. cbn [a_lt F_arith]. destruct (flt b a) eqn:E.
  - apply flt_R in E; auto. cbn zeta. split; [auto|lra].
  - assert (~ B2R b < B2R a) by (rewrite <- (flt_R b a) by assumption; congruence). cbn zeta. split; [auto|lra].
Qed.
Lemma dmax_ok (a b : f64) : is_finite a = true -> is_finite b = true ->
  let r := dmax (N := F_arith) a b in (r = a \/ r = b) /\ B2R a <= B2R r /\ B2R b <= B2R r.
Proof.
  intros Ha Hb. unfold dmax. cbn [a_lt F_arith]. destruct (flt a b) eqn:E.
  - apply flt_R in E; auto. cbn zeta. split; [auto|lra].
  - assert (~ B2R a < B2R b) by (rewrite <- (flt_R a b) by assumption; congruence). cbn zeta. split; [auto|lra].
Qed.
Definition allfin (l : list f64) : Prop := forall x, In x l -> is_finite x = true.
Lemma foldmin_ok (xs : list f64) : forall a : f64, is_finite a = true -> allfin xs ->
  let r := fold_left (dmin (N := F_arith)) xs a in In r (a :: xs) /\ B2R r <= B2R a /\ forall x, In x xs -> B2R r <= B2R x.
Proof.
  induction xs as [|x xs IH]; intros a Ha Hx; cbn [fold_left].
  - cbn zeta. split; [left; reflexivity|]. split; [lra|contradiction].
  - destruct (dmin_ok a x Ha (Hx x (or_introl eq_refl))) as (Hc & H1 & H2). set (m := dmin (N := F_arith) a x) in *.
    assert (Hm : is_finite m = true) by (destruct Hc as [-> | ->]; [exact Ha|apply Hx; left; reflexivity]).
    destruct (IH m Hm (fun y Hy => Hx y (or_intror Hy))) as (Hi & Hl & Ha'). cbn zeta. split; [|split].
    + destruct Hi as [Hi|Hi]; [rewrite <- Hi; destruct Hc as [-> | ->]; [left; reflexivity|right; left; reflexivity]|right; right; exact Hi].
    + lra.
    + intros y [->|Hy]; [lra|apply Ha'; exact Hy].
Qed.
Lemma foldmax_ok (xs : list f64) : forall a : f64, is_finite a = true -> allfin xs ->
  let r := fold_left (dmax (N := F_arith)) xs a in In r (a :: xs) /\ B2R a <= B2R r /\ forall x, In x xs -> B2R x <= B2R r.
Proof.
  induction xs as [|x xs IH]; intros a Ha Hx; cbn [fold_left].
  - cbn zeta. split; [left; reflexivity|]. split; [lra|contradiction].
  - destruct (dmax_ok a x Ha (Hx x (or_introl eq_refl))) as (Hc & H1 & H2). set (m := dmax (N := F_arith) a x) in *.
    assert (Hm : is_finite m = true) by (destruct Hc as [-> | ->]; [exact Ha|apply Hx; left; reflexivity]).
    destruct (IH m Hm (fun y Hy => Hx y (or_intror Hy))) as (Hi & Hl & Ha'). cbn zeta. split; [|split].
    + destruct Hi as [Hi|Hi]; [rewrite <- Hi; destruct Hc as [-> | ->]; [left; reflexivity|right; left; reflexivity]|right; right; exact Hi].
    + lra.
    + intros y [->|Hy]; [lra|apply Ha'; exact Hy].
Qed.

(** all end point coordinates along one component *)
Definition coords (k : nat) (ss : list (sylinder F_arith)) : list f64 := flat_map (fun s => map (fun p => vget p k) (endpoints s)) ss.
Lemma vget_vec3 {N : arith} (f : nat -> N) k : (forall j, (2 <= j)%nat -> f j = f 2%nat) -> vget (vec3 f) k = f k.
Proof. intros H. destruct k as [|[|[|k]]]; try reflexivity. cbn [vget vec3 vz]. symmetry. apply H. lia. Qed.
Lemma vget_big {C} (v : vec C) k : (2 <= k)%nat -> vget v k = vget v 2.
Proof. destruct k as [|[|[|k]]]; intros; try lia; reflexivity. Qed.
Lemma localBox_coords ss k :
  vget (fst (localBox (N := F_arith) ss)) k = fold_left (dmin (N := F_arith)) (coords k ss) dblMax /\
  vget (snd (localBox (N := F_arith) ss)) k = fold_left (dmax (N := F_arith)) (coords k ss) dblMin.
Proof.
  unfold localBox. assert (G : forall ss (b : vec f64 * vec f64), let r := fold_left (fun b s => (vec3 (N := F_arith) (fun k => dmin (dmin (vget (fst b) k) (vget (fst (ends s)) k)) (vget (snd (ends s)) k)),
                           vec3 (N := F_arith) (fun k => dmax (dmax (vget (snd b) k) (vget (fst (ends s)) k)) (vget (snd (ends s)) k)))) ss b in
    vget (fst r) k = fold_left (dmin (N := F_arith)) (coords k ss) (vget (fst b) k) /\ vget (snd r) k = fold_left (dmax (N := F_arith)) (coords k ss) (vget (snd b) k)).
  { clear ss. induction ss as [|s ss IH]; intros b; cbn zeta; cbn [fold_left]; [split; reflexivity|].
    change (coords k (s :: ss)) with (map (fun p => vget p k) (endpoints s) ++ coords k ss). rewrite !fold_left_app.
    match goal with |- context [fold_left _ ss ?b'] => specialize (IH b'); cbn zeta in IH; destruct IH as [-> ->] end.
    cbn [fst snd]. rewrite !vget_vec3 by (intros [|[|j]] Hj; [lia|lia|reflexivity]).
    split; reflexivity. }
  destruct (G ss (Vec dblMax dblMax dblMax, Vec dblMin dblMin dblMin)) as [-> ->]. cbn [fst snd]. destruct k as [|[|k]]; split; reflexivity.
Qed.
Lemma dblMax_ok : is_finite (dblMax (N := F_arith)) = true /\ forall x : f64, is_finite x = true -> B2R x <= B2R (dblMax (N := F_arith)).
Proof.
  assert (E : B2R (dblMax (N := F_arith)) = bpow radix2 emax64 - bpow radix2 (emax64 - prec64)).
  { assert (B2SF (dblMax (N := F_arith)) = SpecFloat.S754_finite false 9007199254740991 971) as H by (vm_compute; reflexivity).
    rewrite <- SF2R_B2SF, H. cbn [SF2R cond_Zopp]. unfold F2R. cbn [Fnum Fexp].
    change (bpow radix2 emax64) with (bpow radix2 (53 + 971)). change (bpow radix2 (emax64 - prec64)) with (bpow radix2 971). rewrite bpow_plus.
    replace (bpow radix2 53) with (IZR (2 ^ 53)) by (rewrite <- IZR_Zpower by lia; reflexivity).
    change (IZR (Z.pos 9007199254740991)) with (IZR (2 ^ 53 - 1)). rewrite minus_IZR. ring. }
  split; [vm_compute; reflexivity|]. intros x Hx. rewrite E.
  pose proof (abs_B2R_le_emax_minus_prec prec64 emax64 ltac:(reflexivity) x) as H. pose proof (Rle_abs (B2R x)). lra.
Qed.
Lemma dblMin_ok : is_finite (dblMin (N := F_arith)) = true /\ B2R (dblMin (N := F_arith)) = bpow radix2 (-1022).
Proof. destruct (f_lit_pow2 (-1022) ltac:(lia)) as [A B]. split; [exact B|exact A]. Qed.

Definition finiteEnds (ss : list (sylinder F_arith)) : Prop := forall s p, In s ss -> In p (endpoints s) -> finite3 p.
Lemma coords_in k ss x : In x (coords k ss) <-> exists p, In p (flat_map endpoints ss) /\ x = vget p k.
Proof.
  unfold coords. split.
  - intros H. apply in_flat_map in H as (s & Hs & H). apply in_map_iff in H as (p & E & Hp). exists p. split; [|auto]. apply in_flat_map. eauto.
  - intros (p & H & ->). apply in_flat_map in H as (s & Hs & H). apply in_flat_map. exists s. split; [exact Hs|]. apply in_map_iff. eauto.
Qed.
Lemma coords_fin k ss : finiteEnds ss -> allfin (coords k ss).
Proof. intros H x Hx. apply coords_in in Hx as (p & Hp & ->). apply in_flat_map in Hp as (s & Hs & Hp). apply (H s p Hs Hp). Qed.

Lemma local_ok ss : finiteEnds ss ->
  (forall s p, In s ss -> In p (endpoints s) -> inside (fst (localBox ss)) (snd (localBox ss)) p) /\
  (ss <> [] -> forall k, attained (flat_map endpoints ss) k (vget (fst (localBox ss)) k)) /\
  (forall k, (exists p, In p (flat_map endpoints ss) /\ bpow radix2 (-1022) <= B2R (vget p k)) -> attained (flat_map endpoints ss) k (vget (snd (localBox ss)) k)) /\
  finite3 (fst (localBox ss)) /\ finite3 (snd (localBox ss)).
Proof.
  intros HF. destruct dblMax_ok as [FM LM]. destruct dblMin_ok as [Fm Em].
  assert (A : forall k, let lo := vget (fst (localBox ss)) k in let hi := vget (snd (localBox ss)) k in
    In lo (dblMax (N := F_arith) :: coords k ss) /\ (forall x, In x (coords k ss) -> B2R lo <= B2R x) /\
    In hi (dblMin (N := F_arith) :: coords k ss) /\ B2R (dblMin (N := F_arith)) <= B2R hi /\ (forall x, In x (coords k ss) -> B2R x <= B2R hi)).
  { intros k. destruct (localBox_coords ss k) as [-> ->]. cbn zeta.
    destruct (foldmin_ok (coords k ss) _ FM (coords_fin k ss HF)) as (I1 & _ & L1).
    destruct (foldmax_ok (coords k ss) _ Fm (coords_fin k ss HF)) as (I2 & L0 & L2). auto. }
  split; [|split; [|split; [|split]]].
  - intros s p Hs Hp k. destruct (A k) as (_ & L1 & _ & _ & L2).
    assert (In (vget p k) (coords k ss)) by (apply coords_in; exists p; split; [apply in_flat_map; eauto|reflexivity]). split; auto.
  - intros Hne k. destruct (A k) as (I1 & L1 & _). destruct ss as [|s ss]; [congruence|].
    assert (Hin : In (vget (fst (ends s)) k) (coords k (s :: ss))) by (left; reflexivity).
    destruct I1 as [I1|I1].
    + exists (fst (ends s)). split; [left; reflexivity|]. specialize (L1 _ Hin). pose proof (LM _ (coords_fin k _ HF _ Hin)). rewrite <- I1 in *. lra.
    + apply coords_in in I1 as (p & Hp & E). exists p. split; [exact Hp|]. rewrite E. reflexivity.
  - intros k (p & Hp & H). destruct (A k) as (_ & _ & I2 & _ & L2). assert (Hin : In (vget p k) (coords k ss)) by (apply coords_in; eauto).
    destruct I2 as [I2|I2].
    + exists p. split; [exact Hp|]. specialize (L2 _ Hin). rewrite <- I2 in *. lra.
    + apply coords_in in I2 as (p' & Hp' & E). exists p'. split; [exact Hp'|]. rewrite E. reflexivity.
  - intros k. destruct (A k) as (I1 & _). destruct I1 as [<-|I1]; [exact FM|apply (coords_fin k ss HF _ I1)].
  - intros k. destruct (A k) as (_ & _ & I2 & _). destruct I2 as [<-|I2]; [exact Fm|apply (coords_fin k ss HF _ I2)].
Qed.
Lemma local_empty k : vget (fst (localBox (N := F_arith) [])) k = dblMax /\ vget (snd (localBox (N := F_arith) [])) k = dblMin.
Proof. destruct (localBox_coords [] k) as [-> ->]. split; reflexivity. Qed.
Lemma local_high_min ss k : finiteEnds ss -> B2R (dblMin (N := F_arith)) <= B2R (vget (snd (localBox ss)) k) /\
  (In (vget (snd (localBox ss)) k) (dblMin (N := F_arith) :: coords k ss)).
Proof. intros HF. destruct (localBox_coords ss k) as [_ ->]. destruct (foldmax_ok (coords k ss) _ (proj1 dblMin_ok) (coords_fin k ss HF)) as (I2 & L0 & L2). auto. Qed.

Lemma global_ok ranks : ranks <> [] -> finiteEnds (concat ranks) ->
  (forall s p, In s (concat ranks) -> In p (endpoints s) -> inside (fst (globalBox ranks)) (snd (globalBox ranks)) p) /\
  (concat ranks <> [] -> forall k, attained (flat_map endpoints (concat ranks)) k (vget (fst (globalBox ranks)) k)) /\
  (forall k, (exists p, In p (flat_map endpoints (concat ranks)) /\ bpow radix2 (-1022) <= B2R (vget p k)) -> attained (flat_map endpoints (concat ranks)) k (vget (snd (globalBox ranks)) k)).
Proof.
  intros Hne HF. assert (HFr : forall r, In r ranks -> finiteEnds r).
  { intros r Hr s p Hs. apply HF. apply in_concat. eauto. }
  assert (B : forall k, let lo := vget (fst (globalBox ranks)) k in let hi := vget (snd (globalBox ranks)) k in
    (exists r, In r ranks /\ lo = vget (fst (localBox r)) k) /\ (forall r, In r ranks -> B2R lo <= B2R (vget (fst (localBox r)) k)) /\
    (exists r, In r ranks /\ hi = vget (snd (localBox r)) k) /\ (forall r, In r ranks -> B2R (vget (snd (localBox r)) k) <= B2R hi)).
  { intros k. cbn zeta. unfold globalBox. cbn [fst snd].
    rewrite !vget_vec3 by (intros j Hj; f_equal; apply map_ext; intros r; apply vget_big; exact Hj).
    destruct ranks as [|r0 ranks]; [congruence|]. cbn [map reduceAll].
    assert (F1 : allfin (map (fun ss => vget (fst (localBox (N := F_arith) ss)) k) ranks)).
    { intros x Hx. apply in_map_iff in Hx as (r & <- & Hr). destruct (local_ok r (HFr r (or_intror Hr))) as (_ & _ & _ & F & _). apply F. }
    assert (F2 : allfin (map (fun ss => vget (snd (localBox (N := F_arith) ss)) k) ranks)).
    { intros x Hx. apply in_map_iff in Hx as (r & <- & Hr). destruct (local_ok r (HFr r (or_intror Hr))) as (_ & _ & _ & _ & F). apply F. }
    destruct (local_ok r0 (HFr r0 (or_introl eq_refl))) as (_ & _ & _ & G1 & G2).
    destruct (foldmin_ok _ _ (G1 k) F1) as (I1 & L0 & L1). destruct (foldmax_ok _ _ (G2 k) F2) as (I2 & M0 & M1). split; [|split; [|split]].
    - destruct I1 as [I1|I1]; [exists r0; split; [left; reflexivity|symmetry; exact I1]|]. apply in_map_iff in I1 as (r & E & Hr). exists r. split; [right; exact Hr|symmetry; exact E].
    - intros r [<-|Hr]; [exact L0|]. apply L1. apply in_map_iff. eauto.
    - destruct I2 as [I2|I2]; [exists r0; split; [left; reflexivity|symmetry; exact I2]|]. apply in_map_iff in I2 as (r & E & Hr). exists r. split; [right; exact Hr|symmetry; exact E].
    - intros r [<-|Hr]; [exact M0|]. apply M1. apply in_map_iff. eauto. }
  assert (Hsub : forall r k x, In r ranks -> attained (flat_map endpoints r) k x -> attained (flat_map endpoints (concat ranks)) k x).
  { intros r k x Hr (p & Hp & E). exists p. split; [|exact E]. apply in_flat_map in Hp as (s & Hs & Hp). apply in_flat_map. exists s. split; [apply in_concat; eauto|exact Hp]. }
  split; [|split].
  - intros s p Hs Hp k. apply in_concat in Hs as (r & Hr & Hs). destruct (B k) as (_ & L1 & _ & L2). specialize (L1 r Hr). specialize (L2 r Hr).
    destruct (local_ok r (HFr r Hr)) as (I & _). specialize (I s p Hs Hp k). lra.
  - intros Hc k. destruct (B k) as ((r & Hr & E) & L1 & _). destruct r as [|s r].
    + (* the minimum came from a rank without objects *)
      assert (exists s, In s (concat ranks)) as (s & Hs) by (clear - Hc; destruct (concat ranks) as [|s cs]; [congruence|exists s; left; reflexivity]). apply in_concat in Hs as (r' & Hr' & Hs').
      specialize (L1 r' Hr'). rewrite E in L1. rewrite (proj1 (local_empty k)) in L1. destruct (local_ok r' (HFr r' Hr')) as (_ & A & _ & F & _).
      pose proof (proj2 dblMax_ok _ (F k)). destruct (Hsub r' k _ Hr' (A (fun Er => match eq_ind r' (fun r => In s r) Hs' [] Er with end) k)) as (p & Hp & Ep). exists p. split; [exact Hp|].
      rewrite E, (proj1 (local_empty k)), Ep. lra.
    + rewrite E. apply (Hsub (s :: r)); [exact Hr|]. destruct (local_ok (s :: r) (HFr _ Hr)) as (_ & A & _). apply A. discriminate.
  - intros k (p & Hp & H). destruct (B k) as (_ & _ & (r & Hr & E) & L2). apply in_flat_map in Hp as (s & Hs & Hp). apply in_concat in Hs as (r' & Hr' & Hs).
    specialize (L2 r' Hr'). destruct (local_ok r' (HFr r' Hr')) as (I & _ & A' & _). specialize (I s p Hs Hp k).
    destruct (local_high_min r k (HFr r Hr)) as [_ [Im|Im]].
    + (* stuck at the initial value: then it equals the point *)
      exists p. split; [apply in_flat_map; exists s; split; [apply in_concat; eauto|exact Hp]|]. rewrite E in L2 |- *. rewrite <- Im in *. rewrite (proj2 dblMin_ok) in *. lra.
    + apply coords_in in Im as (p' & Hp' & E'). rewrite E. apply (Hsub r); [exact Hr|]. exists p'. split; [exact Hp'|rewrite E'; reflexivity].
Qed.

(** ** sums *)
Lemma rsum_app {A} (f : A -> R) l l' : rsum f (l ++ l') = rsum f l + rsum f l'.
Proof. unfold rsum. induction l as [|a l IH]; cbn; [lra|]. rewrite IH. lra. Qed.
Lemma rsum_perm {A} (f : A -> R) l l' : Permutation l l' -> rsum f l = rsum f l'.
Proof. unfold rsum. induction 1; cbn; lra. Qed.
Lemma fold_plus (l : list R) : forall a, fold_left Rplus l a = a + rsum (fun x => x) l.
Proof. induction l as [|x l IH]; intros a; cbn [fold_left rsum fold_right]; [lra|]. rewrite IH. fold (rsum (fun x : R => x) l). lra. Qed.
Lemma rsum_map {A B} (g : A -> B) (f : B -> R) l : rsum f (map g l) = rsum (fun a => f (g a)) l.
Proof. induction l as [|a l IH]; cbn; [reflexivity|]. fold (rsum f (map g l)). rewrite IH. reflexivity. Qed.
Lemma rsum_ext {A} (f g : A -> R) l : (forall a, In a l -> f a = g a) -> rsum f l = rsum g l.
Proof. intros H. induction l as [|a l IH]; cbn; [reflexivity|]. rewrite (H a (or_introl eq_refl)). fold (rsum f l) (rsum g l). rewrite IH; [reflexivity|]. intros b Hb. apply H. right. exact Hb. Qed.
Lemma rsum_concat {A} (f : A -> R) ls : rsum (rsum f) ls = rsum f (concat ls).
Proof. induction ls as [|l ls IH]; cbn [concat]; [reflexivity|]. rewrite rsum_app, <- IH. reflexivity. Qed.
Lemma ompSum_R (chunks : list (list R)) : ompSum (N := R_arith) chunks = rsum (fun x => x) (concat chunks).
Proof.
  unfold ompSum. rarith. rewrite fold_plus, rsum_map. rewrite (rsum_ext _ (rsum (fun x => x))); [rewrite rsum_concat; lra|]. intros l _. rewrite fold_plus. lra.
Qed.
Lemma reduceAll_sum (xs : list R) : reduceAll (N := R_arith) (a_add (a := R_arith)) 0 xs = rsum (fun x => x) xs.
Proof. destruct xs as [|x xs]; [reflexivity|]. unfold reduceAll. rarith. rewrite fold_plus. reflexivity. Qed.
Lemma ranks_sum (f : sylinder R_arith -> R) (ranks : list (list (list (sylinder R_arith)))) :
  reduceAll (N := R_arith) (a_add (a := R_arith)) 0 (map (fun chunks => ompSum (N := R_arith) (map (map f) chunks)) ranks) = rsum f (concat (concat ranks)).
Proof.
  rewrite reduceAll_sum, rsum_map, <- !rsum_concat. 
  rewrite (rsum_ext _ (fun chunks => rsum (rsum f) chunks)); [reflexivity|]. intros chunks _. rewrite ompSum_R, <- rsum_concat, rsum_map.
  apply rsum_ext. intros l _. exact (rsum_map f (fun x : R => x) l).
Qed.
Lemma mean_bound {A} (f : A -> R) l lo hi : l <> [] -> (forall a, In a l -> lo <= f a <= hi) -> lo <= mean f l <= hi.
Proof.
  intros Hne H. unfold mean. assert (Hp : 0 < INR (length l)) by (apply lt_0_INR; destruct l; [congruence|cbn; lia]).
  assert (B : lo * INR (length l) <= rsum f l <= hi * INR (length l)).
  { clear Hne Hp. induction l as [|a l IH]; [cbn; lra|]. cbn [length]. rewrite S_INR. cbn [rsum fold_right]. fold (rsum f l). specialize (IH (fun b Hb => H b (or_intror Hb))). specialize (H a (or_introl eq_refl)). lra. }
  split; (apply Rmult_le_reg_r with (INR (length l)); [exact Hp|]); unfold Rdiv; rewrite Rmult_assoc, Rinv_l by lra; lra.
Qed.
Lemma mean_lin {A} (f g : A -> R) a b l : mean (fun x => a * f x + b * g x) l = a * mean f l + b * mean g l.
Proof.
  unfold mean. assert (E : rsum (fun x => a * f x + b * g x) l = a * rsum f l + b * rsum g l).
  { induction l as [|x l IH]; cbn; [ring|]. fold (rsum f l) (rsum g l) (rsum (fun x => a * f x + b * g x) l). rewrite IH. ring. }
  rewrite E. unfold Rdiv. ring.
Qed.
Lemma mean_ext {A} (f g : A -> R) l : (forall a, In a l -> f a = g a) -> mean f l = mean g l.
Proof. intros H. unfold mean. rewrite (rsum_ext _ _ _ H). reflexivity. Qed.

(** ** order parameters *)
Lemma cons_eq (a b : R) l l' : a = b -> l = l' -> a :: l = b :: l'.
Proof. congruence. Qed.
Lemma order_ok ranks : let ss := concat (concat ranks) in
  orderParameter (N := R_arith) ranks = [polar ss 0; polar ss 1; polar ss 2; nematic ss 0 0; nematic ss 0 1; nematic ss 0 2; nematic ss 1 0; nematic ss 1 1; nematic ss 1 2; nematic ss 2 0; nematic ss 2 1; nematic ss 2 2].
Proof.
  intros ss. unfold orderParameter. 
  assert (G : forall c (g : sylinder R_arith -> R), (forall s, orderTerm (N := R_arith) c s = g s) ->
    a_mul (a := R_arith) (reduceAll (N := R_arith) (a_add (a := R_arith)) (a_Z (a := R_arith) 0) (map (fun chunks => ompSum (N := R_arith) (map (map (orderTerm (N := R_arith) c)) chunks)) ranks)) (a_div (a := R_arith) (a_Z (a := R_arith) 1) (a_Z (a := R_arith) (Z.of_nat (length (concat (concat ranks)))))) = mean g ss).
  { intros c g Hg. rarith. rewrite ranks_sum. unfold mean, ss. rewrite <- INR_IZR_INZ. rewrite (rsum_ext _ g); [unfold Rdiv; ring|]. intros s _. apply Hg. }
  cbn [map seq]. unfold polar, nematic, delta.
  rewrite !(G _ _ (fun s => eq_refl)). unfold orderTerm. cbn -[mean vget director axis]. fold director. rarith.
  repeat (apply cons_eq; [apply mean_ext; intros s _; unfold director; first [reflexivity|field]|]). reflexivity.
Qed.
Lemma order_perm ranks ranks' : Permutation (concat (concat ranks)) (concat (concat ranks')) -> orderParameter (N := R_arith) ranks = orderParameter (N := R_arith) ranks'.
Proof.
  intros H. rewrite !order_ok. unfold polar, nematic, mean. rewrite <- (Permutation_length H). 
  repeat (apply cons_eq; [f_equal; apply rsum_perm; exact H|]). reflexivity.
Qed.
Lemma polar_dot ss v : mean (fun s => dot3 (director s) v) ss = polar ss 0 * vx v + polar ss 1 * vy v + polar ss 2 * vz v.
Proof.
  unfold polar. rewrite (mean_ext _ (fun s => vx v * vget (director s) 0 + 1 * (vy v * vget (director s) 1 + vz v * vget (director s) 2))) by (intros s _; unfold dot3; cbn; ring).
  rewrite !mean_lin. ring.
Qed.
Lemma polar_bound ss : ss <> [] -> (forall s, In s ss -> unitq (orient s)) -> norm3 (Vec (polar ss 0) (polar ss 1) (polar ss 2)) <= 1.
Proof.
  intros Hne Hq. set (p := Vec (polar ss 0) (polar ss 1) (polar ss 2)).
  pose proof (mean_bound (fun s => dot3 (director s) p) ss (- norm3 p) (norm3 p) Hne) as B. rewrite polar_dot in B.
  assert (E : polar ss 0 * vx p + polar ss 1 * vy p + polar ss 2 * vz p = norm3 p * norm3 p) by (rewrite norm3_sq; reflexivity).
  rewrite E in B. pose proof (norm3_nonneg p).
  assert (norm3 p * norm3 p <= norm3 p).
  { apply B. intros s Hs. pose proof (cauchy3_abs (director s) p) as C. rewrite (proj1 (norm3_unit (director s)) (axis_unit s (Hq s Hs))) in C. apply Rabs_le_inv in C. lra. }
  nra.
Qed.
Lemma nematic_sym ss i j : nematic ss i j = nematic ss j i.
Proof. unfold nematic. apply mean_ext. intros s _. unfold delta. rewrite Nat.eqb_sym. ring. Qed.
Lemma nematic_trace ss : (forall s, In s ss -> unitq (orient s)) -> nematic ss 0 0 + nematic ss 1 1 + nematic ss 2 2 = 0.
Proof.
  intros Hq. unfold nematic. transitivity (mean (fun s => 1 * (vget (director s) 0 * vget (director s) 0 - delta 0 0 / 3) + 1 * (1 * (vget (director s) 1 * vget (director s) 1 - delta 1 1 / 3) + 1 * (vget (director s) 2 * vget (director s) 2 - delta 2 2 / 3))) ss).
  - rewrite !mean_lin. ring.
  - rewrite (mean_ext _ (fun _ => 0)); [|intros s Hs; pose proof (axis_unit s (Hq s Hs)) as U; change (axis s) with (director s) in U; unfold unit3, dot3 in U; unfold delta; cbn [Nat.eqb vget]; set (dx := vx (director s)) in *; set (dy := vy (director s)) in *; set (dz := vz (director s)) in *; rarith; lra].
    unfold mean. replace (rsum (fun _ : sylinder R_arith => 0) ss) with 0; [unfold Rdiv; ring|]. clear. induction ss as [|s ss IH]; cbn; [reflexivity|]. fold (rsum (fun _ : sylinder R_arith => 0) ss). lra.
Qed.
Lemma quadform_mean ss x : quadform (nematic ss) x = mean (fun s => dot3 (director s) x * dot3 (director s) x - dot3 x x / 3) ss.
Proof.
  unfold quadform, rsum. cbn [fold_right]. unfold nematic.
  set (m := fun i j s => vget (director s) i * vget (director s) j - delta i j / 3).
  transitivity (mean (fun s => (vget x 0 * vget x 0) * m 0%nat 0%nat s + 1 * ((vget x 0 * vget x 1) * m 0%nat 1%nat s + 1 * ((vget x 0 * vget x 2) * m 0%nat 2%nat s + 1 * (
    (vget x 1 * vget x 0) * m 1%nat 0%nat s + 1 * ((vget x 1 * vget x 1) * m 1%nat 1%nat s + 1 * ((vget x 1 * vget x 2) * m 1%nat 2%nat s + 1 * (
    (vget x 2 * vget x 0) * m 2%nat 0%nat s + 1 * ((vget x 2 * vget x 1) * m 2%nat 1%nat s + (vget x 2 * vget x 2) * m 2%nat 2%nat s)))))))) ss).
  - rewrite !mean_lin. fold (m 0%nat 0%nat) (m 0%nat 1%nat) (m 0%nat 2%nat) (m 1%nat 0%nat) (m 1%nat 1%nat) (m 1%nat 2%nat) (m 2%nat 0%nat) (m 2%nat 1%nat) (m 2%nat 2%nat). ring.
  - apply mean_ext. intros s _. unfold m, delta, dot3. cbn. field.
Qed.
Lemma nematic_bound ss x : ss <> [] -> (forall s, In s ss -> unitq (orient s)) -> unit3 x -> - (1 / 3) <= quadform (nematic ss) x <= 2 / 3.
Proof.
  intros Hne Hq Hx. rewrite quadform_mean. apply mean_bound; [exact Hne|]. intros s Hs. unfold unit3 in Hx. rewrite Hx.
  pose proof (cauchy3_abs (director s) x) as C. rewrite (proj1 (norm3_unit (director s)) (axis_unit s (Hq s Hs))), (proj1 (norm3_unit _) Hx) in C. apply Rabs_le_inv in C. nra.
Qed.
Lemma order_flip ss ss' : Forall2 reversed ss ss' -> (forall i, polar ss' i = - polar ss i) /\ (forall i j, nematic ss' i j = nematic ss i j).
Proof.
  intros H. assert (L : length ss' = length ss) by (induction H; cbn; congruence).
  assert (G : forall f g c, (forall s s', reversed s s' -> g s' = c * f s) -> mean g ss' = c * mean f ss).
  { intros f g c E. unfold mean. rewrite L. replace (rsum g ss') with (c * rsum f ss); [unfold Rdiv; ring|]. clear L. induction H as [|s s' ss ss' Hr H IH]; cbn; [ring|]. fold (rsum f ss) (rsum g ss'). rewrite <- IH, (E s s' Hr). ring. }
  split.
  - intros i. unfold polar. rewrite (G (fun s => vget (director s) i) _ (-1)); [ring|]. intros s s' Hr. rewrite (Hr i). ring.
  - intros i j. unfold nematic. rewrite (G (fun s => vget (director s) i * vget (director s) j - delta i j / 3) _ 1); [ring|]. intros s s' Hr. rewrite (Hr i), (Hr j). ring.
Qed.

(** ** volume *)
Lemma volume_ok Pi lo hi ranks : let ss := concat (concat ranks) in
  let vol := rsum (fun s => Pi * (radius s * radius s) * slength s + 4 / 3 * Pi * (radius s * radius s * radius s)) ss in
  calcVolFrac (N := R_arith) Pi lo hi ranks = (vol, vol / ((vx hi - vx lo) * (vy hi - vy lo) * (vz hi - vz lo))).
Proof.
  intros ss vol. unfold calcVolFrac. rarith. rewrite ranks_sum.
  replace (rsum (sylVolume (N := R_arith) Pi) (concat (concat ranks))) with vol; [reflexivity|]. unfold vol. apply rsum_ext. intros s _. unfold sylVolume. rarith. change (bpow radix2 (-2)) with (/ 4). field.
Qed.
Lemma volume_perm Pi lo hi ranks ranks' : Permutation (concat (concat ranks)) (concat (concat ranks')) ->
  calcVolFrac (N := R_arith) Pi lo hi ranks = calcVolFrac (N := R_arith) Pi lo hi ranks'.
Proof. intros H. rewrite !volume_ok. rewrite (rsum_perm _ _ _ H). reflexivity. Qed.
Lemma feq_B2R (x y : f64) : is_finite x = true -> is_finite y = true -> feq x y = true -> B2R x = B2R y.
Proof. intros Hx Hy H. unfold feq in H. rewrite (Beqb_correct prec64 emax64 x y Hx Hy) in H. revert H. case Req_bool_spec; [auto|discriminate]. Qed.
