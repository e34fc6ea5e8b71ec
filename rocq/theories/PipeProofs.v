(** Preparing a step. *)
From Coq Require Import List Arith ZArith Lia Bool Permutation Reals Lra.
From Flocq Require Import Core.
From Verif Require Import Outcome ListUtil Arith VecModel VecSpec SylModel ParticleModel ParticleSpec ParticleProofs ExchangeProofs DomainModel DomainSpec DomainProofs DomainFloat PointsModel GeoModel GeoSpec IndexModel IndexSpec IndexProofs StepModel StepProofs NearModel NearSpec TreeModel TreeSpec LetModel LetSpec CallSpec CallSort PipeModel PipeSpec.
From Verif Require GeoProofs.
Import ListNotations.
Local Open Scope R_scope.

(** ** Lists *)

Lemma omap_fuel {A B} (f : nat -> A -> outcome B) (Q : A -> B -> Prop) (l : list A) :
  (forall x, In x l -> exists n, forall fuel, (n <= fuel)%nat -> exists y, f fuel x = Done y /\ Q x y) ->
  exists n, forall fuel, (n <= fuel)%nat -> exists ys, omap (f fuel) l = Done ys /\ Forall2 Q l ys.
Proof.
  induction l as [|x l IH]; intros H.
  - exists 0%nat. intros fuel _. exists []. split; [reflexivity|constructor].
  - destruct IH as (n & Hn); [intros y Hy; apply H; right; exact Hy|]. destruct (H x (or_introl eq_refl)) as (m & Hm). exists (n + m)%nat. intros fuel Hf.
    destruct (Hn fuel ltac:(lia)) as (ys & E & F). destruct (Hm fuel ltac:(lia)) as (y & Ey & Qy). exists (y :: ys). cbn [omap]. rewrite Ey. cbn [obind]. rewrite E. split; [reflexivity|]. constructor; assumption.
Qed.
Lemma omap_some {A B} (f : A -> outcome B) (Q : A -> B -> Prop) (l : list A) : (forall x, In x l -> exists y, f x = Done y /\ Q x y) -> exists ys, omap f l = Done ys /\ Forall2 Q l ys.
Proof.
  intros H. destruct (omap_fuel (fun _ => f) Q l) as (n & Hn); [intros x Hx; destruct (H x Hx) as (y & Hy); exists 0%nat; intros; exists y; exact Hy|]. exact (Hn n (le_n _)).
Qed.
Lemma omap_seq {A B} (f : nat -> A -> outcome B) (Q : nat -> A -> B -> Prop) (l : list A) : (forall r x, nth_error l r = Some x -> exists y, f r x = Done y /\ Q r x y) ->
  exists ys, omap (fun r => do x <- mread l r; f r x) (seq 0 (length l)) = Done ys /\ length ys = length l /\ forall r x y, nth_error l r = Some x -> nth_error ys r = Some y -> f r x = Done y /\ Q r x y.
Proof.
  intros H. destruct (omap_some (fun r => do x <- mread l r; f r x) (fun r y => exists x, nth_error l r = Some x /\ f r x = Done y /\ Q r x y) (seq 0 (length l))) as (ys & E & F).
  { intros r Hr. apply in_seq in Hr. destruct (nth_error l r) as [x|] eqn:Ex; [|apply nth_error_None in Ex; lia]. destruct (H r x Ex) as (y & Ey & Qy). exists y. unfold mread. rewrite Ex. cbn [obind]. split; [exact Ey|]. exists x. auto. }
  exists ys. split; [exact E|]. pose proof (Forall2_len _ _ _ F) as L. rewrite seq_length in L. split; [auto|]. intros r x y Hx Hy.
  assert (r < length l)%nat by (apply nth_error_Some; congruence). destruct (Forall2_nth_error _ _ _ r r y F (nth_error_seq 0 _ _ H0) Hy) as (x' & X1 & X2 & X3). rewrite Hx in X1. injection X1 as <-. auto.
Qed.

(** ** Positions in the box *)

Lemma inside_iff p (o : ort R) : ParticleSpec.inside Rle_bool Rlt_bool p o <-> LetSpec.inside o p.
Proof.
  unfold ParticleSpec.inside, LetSpec.inside, coords. split.
  - intros ((A1 & A2) & (B1 & B2) & (C1 & C2)) c [<-|[<-|[<-|[]]]].
    + revert A1 A2. case Rle_bool_spec; [|discriminate]. case Rlt_bool_spec; [|discriminate]. lra.
    + revert B1 B2. case Rle_bool_spec; [|discriminate]. case Rlt_bool_spec; [|discriminate]. lra.
    + revert C1 C2. case Rle_bool_spec; [|discriminate]. case Rlt_bool_spec; [|discriminate]. lra.
  - intros H. pose proof (H vx ltac:(cbn; auto)). pose proof (H vy ltac:(cbn; auto)). pose proof (H vz ltac:(cbn; auto)). repeat split; try (apply Rle_bool_true; lra); try (apply Rlt_bool_true; lra).
Qed.
Lemma inside_within p (o : ort R) : LetSpec.inside o p -> within Rle_bool o p.
Proof.
  intros H. unfold within. pose proof (H vx ltac:(cbn; auto)). pose proof (H vy ltac:(cbn; auto)). pose proof (H vz ltac:(cbn; auto)). constructor; [split; apply Rle_bool_true; lra|]. constructor; [split; apply Rle_bool_true; lra|]. constructor; [split; apply Rle_bool_true; lra|]. constructor.
Qed.

Lemma adjust_still fuel low high x : low <= x < high -> adjustCoordinate (N := R_arith) fuel low high x = Done x.
Proof.
  intros H. unfold adjustCoordinate. assert (A : forall L, addWhile (N := R_arith) fuel low L x = Done x) by (intros L; destruct fuel; cbn [addWhile]; rarith; rewrite Rlt_bool_false by lra; reflexivity).
  assert (B : forall L, subWhile (N := R_arith) fuel high L x = Done x) by (intros L; destruct fuel; cbn [subWhile]; rarith; rewrite Rle_bool_false by lra; reflexivity).
  rewrite A. cbn [obind]. rewrite B. cbn [obind]. rarith. rewrite Req_bool_false by lra. reflexivity.
Qed.
Lemma position_still fuel (root : ort R) p : LetSpec.inside root p -> adjustPosition (N := R_arith) fuel root p = Done p.
Proof.
  intros H. unfold adjustPosition. rewrite (adjust_still _ _ _ _ (H vx ltac:(cbn; auto))). cbn [obind]. rewrite (adjust_still _ _ _ _ (H vy ltac:(cbn; auto))). cbn [obind]. rewrite (adjust_still _ _ _ _ (H vz ltac:(cbn; auto))). cbn [obind]. destruct p; reflexivity.
Qed.

(** the particles of a rank with positions in the box *)
Definition boxed_rank (root : ort R) (p p' : ranked) : Prop := pr_nsend p' = pr_nsend p /\ pr_nrecv p' = pr_nrecv p /\
  Forall2 (fun s s' => exists x, boxed root (spos s) x /\ s' = withPose (N := R_arith) s x (orient s)) (pr_ptcl p) (pr_ptcl p').
Definition in_box (root : ort R) (p : ranked) : Prop := Forall (fun s : syl => LetSpec.inside root (spos s)) (pr_ptcl p).

Lemma boxed_in root p p' : boxed_rank root p p' -> in_box root p'.
Proof.
  intros (_ & _ & F). unfold in_box. induction F as [|s s' l l' (x & B & ->) F IH]; constructor; [|exact IH]. cbn [spos withPose]. intros c Hc. exact (proj1 (B c Hc)).
Qed.

Section Box.
  Context (root : ort R) (HR : forall c, In c coords -> c (olow root) < c (ohigh root)).

  Lemma box_ranks (ranks : list ranked) : exists n, forall fuel, (n <= fuel)%nat -> exists ranks', omap (applyBoxBC (N := R_arith) fuel root) ranks = Done ranks' /\ Forall2 (boxed_rank root) ranks ranks'.
  Proof using HR.
    apply omap_fuel. intros p _. destruct (omap_fuel (fun fuel s => do x <- adjustPosition (N := R_arith) fuel root (spos s); Done (withPose (N := R_arith) s x (orient s))) (fun s s' => exists x, boxed root (spos s) x /\ s' = withPose (N := R_arith) s x (orient s)) (pr_ptcl p)) as (n & Hn).
    { intros s _. destruct (GeoProofs.adjustPosition_R root (spos s) HR) as (n & Hn). exists n. intros fuel Hf. destruct (Hn fuel Hf) as (q & E & Hq). exists (withPose (N := R_arith) s q (orient s)). rewrite E. split; [reflexivity|]. exists q. split; [exact Hq|reflexivity]. }
    exists n. intros fuel Hf. destruct (Hn fuel Hf) as (ss & E & F). exists (withPtcl (N := R_arith) p ss). unfold applyBoxBC. rewrite E. split; [reflexivity|]. split; [reflexivity|]. split; [reflexivity|]. exact F.
  Qed.
  Lemma box_still fuel (ranks : list ranked) : Forall (in_box root) ranks -> omap (applyBoxBC (N := R_arith) fuel root) ranks = Done ranks.
  Proof using.
    intros H. rewrite (omap_pure _ (fun p => p)); [rewrite map_id; reflexivity|]. intros p Hp. pose proof (proj1 (Forall_forall _ _) H p Hp) as Hi. unfold applyBoxBC.
    rewrite (omap_pure _ (fun s => s)); [rewrite map_id; destruct p; reflexivity|]. intros s Hs. rewrite position_still by exact (proj1 (Forall_forall _ _) Hi s Hs). destruct s; reflexivity.
  Qed.
End Box.

(** ** Samples *)

Lemma sum_min_le (f g : nat -> nat) n : (forall i, (i < n)%nat -> (f i <= g i)%nat) -> (sum_list (map f (seq 0 n)) <= sum_list (map g (seq 0 n)))%nat.
Proof.
  intros H. assert (G : forall l, (forall i, In i l -> (f i <= g i)%nat) -> (sum_list (map f l) <= sum_list (map g l))%nat).
  { induction l as [|i l IH]; intros Hl; [apply le_n|]. cbn [map]. rewrite !sum_list_cons. specialize (IH (fun j Hj => Hl j (or_intror Hj))). specialize (Hl i (or_introl eq_refl)). lia. }
  apply G. intros i Hi. apply in_seq in Hi. apply H. lia.
Qed.

Lemma enough_samples (ns : list nat) (w : nat -> Z) : let total := sum_list ns in (length ns <= total)%nat ->
  (forall r n, nth_error ns r = Some n -> (0 <= w r)%Z /\ (Z.of_nat n * (200 * Z.of_nat (length ns)) <= 2 * Z.of_nat total * (w r + 1))%Z) ->
  (length ns <= sum_list (map (fun r => Nat.min (Z.to_nat (w r)) (nth r ns 0)) (seq 0 (length ns))))%nat.
Proof.
  intros total HL Hw. set (p := length ns) in *.
  assert (HN : forall r, (r < p)%nat -> nth_error ns r = Some (nth r ns 0%nat)) by (intros r Hr; apply nth_error_nth'; exact Hr).
  assert (ST : sum_list (map (fun r => nth r ns 0%nat) (seq 0 p)) = total) by (unfold p; rewrite nth_seq_id; reflexivity).
  destruct (le_lt_dec total (50 * p)) as [C|C].
  - (* everything is sampled *)
    apply (Nat.le_trans _ total); [exact HL|]. rewrite <- ST at 1. apply sum_min_le. intros r Hr. destruct (Hw r _ (HN r Hr)) as (W0 & W1). set (n := nth r ns 0%nat) in *. apply Nat.min_glb; [|lia].
    destruct (Nat.eq_dec n 0) as [E|E]; [lia|]. assert (0 < Z.of_nat total)%Z by (assert (0 < p)%nat by lia; lia).
    assert (Z.of_nat n * (4 * Z.of_nat total) <= 2 * Z.of_nat total * (w r + 1))%Z by nia. assert (2 * Z.of_nat n <= w r + 1)%Z by nia. lia.
  - assert (G : forall l, (forall r, In r l -> (r < p)%nat) -> (100 * Z.of_nat p * Z.of_nat (sum_list (map (fun r => nth r ns 0%nat) l)) <= 2 * Z.of_nat total * (Z.of_nat (sum_list (map (fun r => Nat.min (Z.to_nat (w r)) (nth r ns 0%nat)) l)) + Z.of_nat (length l)))%Z).
    { induction l as [|r l IH]; intros Hl; [cbn; lia|]. cbn [map length]. rewrite !sum_list_cons. specialize (IH (fun j Hj => Hl j (or_intror Hj))). destruct (Hw r _ (HN r (Hl r (or_introl eq_refl)))) as (W0 & W1). set (n := nth r ns 0%nat) in *.
      assert (S1 : (100 * Z.of_nat p * Z.of_nat n <= 2 * Z.of_nat total * (Z.of_nat (Nat.min (Z.to_nat (w r)) n) + 1))%Z).
      { destruct (Nat.min_dec (Z.to_nat (w r)) n) as [E|E]; rewrite E.
        - rewrite Z2Nat.id by exact W0. nia.
        - nia. }
      rewrite !Nat2Z.inj_add, !Nat2Z.inj_succ. nia. }
    specialize (G (seq 0 p)). rewrite ST, seq_length in G. specialize (G ltac:(intros r Hr; apply in_seq in Hr; lia)).
    set (S := sum_list (map (fun r => Nat.min (Z.to_nat (w r)) (nth r ns 0%nat)) (seq 0 p))) in *. assert (0 < Z.of_nat total)%Z by lia. nia.
Qed.

(** ** Domains *)

Lemma pipe_averaging (coef : R) : 0 <= coef <= 1 ->
  averaging Rle_bool (fun u v : R_arith => (a_lit 1 (-1) * (u + v))%A) (fun t o : R_arith => ((coef : R_arith) * t + (a_Z 1 - coef) * o)%A).
Proof.
  intros H. assert (E : 1 * bpow radix2 (-1) = / 2) by (cbn; lra). split.
  - intros a b. case (Rle_bool_spec a b); [|discriminate]. intros. rarith. rewrite E. apply Rle_bool_true. lra.
  - intros a b. case (Rle_bool_spec a b); [|discriminate]. intros. rarith. rewrite E. apply Rle_bool_true. lra.
  - intros a. rarith. ring.
  - intros a b c d. case (Rle_bool_spec a b); [|discriminate]. case (Rle_bool_spec c d); [|discriminate]. intros. rarith. apply Rle_bool_true. nra.
Qed.

Lemma objects_sizes (ranks : list ranked) : sum_list (sizes ranks) = length (objects ranks).
Proof. unfold objects, sizes. rewrite concat_length, map_map. reflexivity. Qed.

Lemma decompose_ok k b nx ny nz (ranks : list ranked) : any_luck k -> tidy b nx ny nz ranks -> Forall (in_box (b_root b)) ranks -> sampled k ranks ->
  exists doms, decomposeDomainAll k b ranks = Done (Domains (b_root b) (b_n b) (b_coef b) (Some doms), ranks) /\ grid_of Rle_bool (b_root b) nx ny nz doms.
Proof.
  intros (K1 & K2 & _ & _) (B1 & B2 & B3 & B4 & B5 & B6 & B7) HI (S1 & S2 & S3). unfold decomposeDomainAll. rewrite B1.
  assert (Hlen : forall r p, nth_error ranks r = Some p -> nth_error (sizes ranks) r = Some (length (pr_ptcl p))) by (intros r p Hr; exact (map_nth_error (fun p => length (pr_ptcl p)) r ranks Hr)).
  assert (Hsmall : forall r p, nth_error ranks r = Some p -> (Z.of_nat (length (pr_ptcl p)) <= INT_MAX)%Z).
  { intros r p Hr. apply nth_error_In in Hr. apply in_split in Hr. destruct Hr as (l1 & l2 & ->). unfold objects in S2. rewrite map_app, concat_app in S2. cbn [map concat] in S2. rewrite !app_length in S2. lia. }
  destruct (omap_seq (fun r p => do x <- getSampleParticle (@spos R_arith) (pr_ptcl p) (k_wanted k (sizes ranks) r) (map (k_draw k r) (seq 0 (length (pr_ptcl p)))); Done (fst x, withPtcl p (snd x)))
    (fun r (p : ranked) y => snd y = p /\ length (fst y) = Nat.min (Z.to_nat (k_wanted k (sizes ranks) r)) (length (pr_ptcl p)) /\ forall x, In x (fst y) -> exists s, In s (pr_ptcl p) /\ x = spos s) ranks) as (smp & E & L & F).
  { intros r p Hr. destruct (S3 r _ (Hlen r p Hr)) as (W0 & _). destruct (getSample_list (@spos R_arith) (pr_ptcl p) (k_wanted k (sizes ranks) r) (map (k_draw k r) (seq 0 (length (pr_ptcl p)))) W0 (Hsmall r p Hr)) as (idx & smp & E & Ls & _ & Fs).
    - apply Forall_forall. intros x Hx. apply in_map_iff in Hx. destruct Hx as (i & <- & _). apply K1.
    - rewrite map_length, seq_length. lia.
    - exists (smp, p). rewrite E. split; [destruct p; reflexivity|]. split; [reflexivity|]. split; [exact Ls|]. intros x Hx. cbn [fst] in Hx. apply In_nth_error in Hx. destruct Hx as (n & Hn). destruct (CallSort.Forall2_nth _ _ _ Fs _ _ Hn) as (i & _ & p0 & P1 & ->). exists p0. split; [eapply nth_error_In; exact P1|reflexivity]. }
  fold (sizes ranks) in *. change (outcome (list (list (vec (num R_arith)) * ranked))) with (outcome (list (list (vec R_arith) * ranked))) in *. rewrite E. cbn [obind].
  assert (M : map snd smp = ranks).
  { apply nth_error_ext. intros r. destruct (nth_error ranks r) as [p|] eqn:Ep.
    - assert (exists y, nth_error smp r = Some y) as (y & Ey) by (destruct (nth_error smp r) eqn:X; [eauto|apply nth_error_None in X; assert (r < length ranks)%nat by (apply nth_error_Some; congruence); lia]).
      rewrite (map_nth_error snd _ _ Ey). destruct (F r p y Ep Ey) as (_ & <- & _). reflexivity.
    - apply nth_error_None. rewrite map_length, L. apply nth_error_None. exact Ep. }
  assert (Ls : length (concat (map fst smp)) = sum_list (map (fun r => Nat.min (Z.to_nat (k_wanted k (sizes ranks) r)) (nth r (sizes ranks) 0%nat)) (seq 0 (length (sizes ranks))))).
  { rewrite concat_length, map_map. f_equal. apply nth_error_ext. intros r. rewrite nth_error_map. unfold sizes at 3. rewrite map_length. destruct (nth_error smp r) as [y|] eqn:Ey.
    - assert (r < length smp)%nat by (apply nth_error_Some; congruence). assert (exists p, nth_error ranks r = Some p) as (p & Ep) by (destruct (nth_error ranks r) eqn:X; [eauto|apply nth_error_None in X; lia]).
      rewrite nth_error_map, nth_error_seq by lia. cbn [option_map]. destruct (F r p y Ep Ey) as (_ & _ & -> & _). rewrite (nth_error_nth _ _ _ (Hlen r p Ep)). reflexivity.
    - apply nth_error_None in Ey. rewrite nth_error_map. replace (nth_error (seq 0 (length ranks)) r) with (@None nat); [reflexivity|]. symmetry. apply nth_error_None. rewrite seq_length. lia. }
  assert (En : (nx * ny * nz <= length (concat (map fst smp)))%nat).
  { rewrite Ls, <- B5. replace (length ranks) with (length (sizes ranks)) by apply map_length. apply enough_samples.
    - rewrite objects_sizes. replace (length (sizes ranks)) with (length ranks) by (symmetry; apply map_length). exact S1.
    - intros r n Hn. rewrite objects_sizes. replace (length (sizes ranks)) with (length ranks) by (symmetry; apply map_length). exact (S3 r n Hn). }
  assert (W : Forall (within Rle_bool (b_root b)) (concat (map fst smp))).
  { apply Forall_forall. intros x Hx. apply in_concat in Hx. destruct Hx as (l & Hl & Hx). apply in_map_iff in Hl. destruct Hl as (y & <- & Hy). apply In_nth_error in Hy. destruct Hy as (r & Hy).
    assert (r < length smp)%nat by (apply nth_error_Some; congruence). assert (exists p, nth_error ranks r = Some p) as (p & Ep) by (destruct (nth_error ranks r) eqn:X; [eauto|apply nth_error_None in X; lia]).
    destruct (F r p y Ep Hy) as (_ & _ & _ & Fx). destruct (Fx x Hx) as (s & Hs & ->). apply inside_within. apply nth_error_In in Ep. exact (proj1 (Forall_forall _ _) (proj1 (Forall_forall _ _) HI p Ep) s Hs). }
  destruct (history_grid Rle_bool Rlt_bool real_order _ _ (pipe_averaging (b_coef b) B6) (k_sort k) K2 (b_root b) nx ny nz [map fst smp] B2 B3 B4) with (old := b_doms b) as (res & R1 & R2); [constructor; [split; assumption|constructor]|exact B7|].
  cbn [decomposeHistory] in R1. rewrite B5. rewrite M. destruct (decomposeDomain _ _ _ _ _ _ _ _ _ _) as [doms| |]; cbn [obind] in R1; try discriminate R1. injection R1 as <-. exists doms. split; [reflexivity|exact R2].
Qed.

(** ** Exchange *)

Lemma mapi_nth {A B} (g : nat -> A -> B) (l : list A) r : nth_error (map (fun rp => g (fst rp) (snd rp)) (combine (seq 0 (length l)) l)) r = option_map (g r) (nth_error l r).
Proof.
  assert (G : forall a r, nth_error (map (fun rp => g (fst rp) (snd rp)) (combine (seq a (length l)) l)) r = option_map (g (a + r)%nat) (nth_error l r)).
  { induction l as [|x l IH]; intros a [|j]; cbn [length seq combine map nth_error option_map fst snd]; try reflexivity; [rewrite Nat.add_0_r; reflexivity|]. rewrite IH. replace (S a + j)%nat with (a + S j)%nat by lia. reflexivity. }
  apply (G 0%nat).
Qed.
Lemma mapi_length {A B} (g : nat -> A -> B) (l : list A) : length (map (fun rp => g (fst rp) (snd rp)) (combine (seq 0 (length l)) l)) = length l.
Proof. rewrite map_length, combine_length, seq_length. lia. Qed.

Lemma Forall2_rows {A B} (Q : A -> B -> Prop) (ls : list (list A)) : forall ms : list (list B), length ls = length ms ->
  (forall r l m, nth_error ls r = Some l -> nth_error ms r = Some m -> Forall2 Q l m) -> Forall2 Q (concat ls) (concat ms).
Proof.
  induction ls as [|l ls IH]; intros [|m ms] HL H; try discriminate HL; [constructor|]. cbn [concat]. apply Forall2_app; [exact (H 0%nat l m eq_refl eq_refl)|]. apply IH; [injection HL; auto|]. intros r. exact (H (S r)).
Qed.
Lemma nth_error_combine {A B} (l : list A) : forall (m : list B) n x y, nth_error l n = Some x -> nth_error m n = Some y -> nth_error (combine l m) n = Some (x, y).
Proof. induction l as [|a l IH]; intros [|b m] [|n] x y H1 H2; try discriminate; cbn in *; [congruence|]. apply IH; assumption. Qed.
Lemma Forall2_of_nth {A B} (P : A -> B -> Prop) (l : list A) : forall m : list B, length l = length m -> (forall i a b, nth_error l i = Some a -> nth_error m i = Some b -> P a b) -> Forall2 P l m.
Proof. induction l as [|a l IH]; intros [|b m] HL H; try discriminate HL; constructor; [exact (H 0%nat a b eq_refl eq_refl)|]. apply IH; [injection HL; auto|]. intros i. exact (H (S i)). Qed.
Lemma objects_rows (Q : syl -> syl -> Prop) (ranks ranks' : list ranked) : length ranks = length ranks' ->
  (forall r p p', nth_error ranks r = Some p -> nth_error ranks' r = Some p' -> Forall2 Q (pr_ptcl p) (pr_ptcl p')) -> Forall2 Q (objects ranks) (objects ranks').
Proof.
  intros HL H. apply Forall2_rows; [rewrite !map_length; exact HL|]. intros r l m Hl Hm. apply nth_error_map_some in Hl, Hm. destruct Hl as (p & Hp & E1), Hm as (p' & Hp' & E2). subst. exact (H r p p' Hp Hp').
Qed.
Lemma Forall2_imp {A B} (P Q : A -> B -> Prop) l m : (forall a b, P a b -> Q a b) -> Forall2 P l m -> Forall2 Q l m.
Proof. intros H F. induction F; constructor; auto. Qed.
Lemma Forall2_join {A B C} (P : A -> B -> Prop) (Q : B -> C -> Prop) l m n : Forall2 P l m -> Forall2 Q m n -> Forall2 (fun a c => exists b, P a b /\ Q b c) l n.
Proof. intros H. revert n. induction H as [|a b l m Hab H IH]; intros n G; inversion G; subst; constructor; [exists b; auto|apply IH; assumption]. Qed.
Lemma Forall2_perm_left {A B} (P : A -> B -> Prop) l m m' : Forall2 P l m -> Permutation m' m -> exists l', Permutation l' l /\ Forall2 P l' m'.
Proof.
  intros F HP. assert (G : Forall2 (fun b a => P a b) m l) by (clear HP; induction F; constructor; assumption). destruct (Permutation_Forall2 (Permutation_sym HP) G) as (l' & P1 & P2). exists l'. split; [apply Permutation_sym; exact P1|]. clear -P2. induction P2; constructor; assumption.
Qed.

Lemma exchange_ok k b nx ny nz doms (ranks : list ranked) : b_n b = (nx, ny, nz) -> b_doms b = Some doms -> grid_of Rle_bool (b_root b) nx ny nz doms -> length ranks = length doms -> Forall (in_box (b_root b)) ranks ->
  exists out, exchangeSylinder k b ranks = Done (Some out) /\ settled b out /\ length out = length ranks /\
    exists mid, Permutation mid (objects ranks) /\ Forall2 (fun s t => exists r, t = withRank (N := R_arith) r s) mid (objects out).
Proof.
  intros B1 B2 B3 B4 HI. unfold exchangeSylinder. rewrite B2.
  set (di := {| di_root := b_root b; di_n := b_n b; di_dom := doms |}).
  destruct (exchange_correct Rle_bool Rlt_bool real_order (@spos R_arith) di nx ny nz B3 B1 ranks B4 (k_junk k)) as (out & E & L & HP & _ & HD).
  { apply Forall_forall. intros p Hp. apply Forall_forall. intros s Hs. apply inside_iff. exact (proj1 (Forall_forall _ _) (proj1 (Forall_forall _ _) HI p Hp) s Hs). }
  change (@a_le R_arith) with Rle_bool. change (@a_lt R_arith) with Rlt_bool. change (@num R_arith) with R. rewrite E. cbn [obind option_map].
  set (g := fun r (p : ranked) => withPtcl (N := R_arith) p (map (withRank (Z.of_nat r)) (pr_ptcl p))).
  change (map _ (combine (seq 0 (length out)) out)) with (map (fun rp => g (fst rp) (snd rp)) (combine (seq 0 (length out)) out)).
  eexists. split; [reflexivity|]. split; [|split; [rewrite mapi_length; exact L|]].
  - exists nx, ny, nz, doms. split; [exact B1|]. split; [exact B2|]. split; [exact B3|]. split; [rewrite mapi_length, L; exact B4|]. intros r p d s Hr Hd Hs. rewrite mapi_nth in Hr. destruct (nth_error out r) as [p0|] eqn:Ep; [|discriminate Hr]. injection Hr as <-. cbn [g withPtcl pr_ptcl] in Hs. apply in_map_iff in Hs. destruct Hs as (s0 & <- & Hs). cbn [withRank spos s_rank].
    assert (exists p1, nth_error ranks r = Some p1) as (p1 & Ep1) by (destruct (nth_error ranks r) eqn:X; [eauto|apply nth_error_None in X; assert (r < length out)%nat by (apply nth_error_Some; congruence); lia]).
    destruct (HD r p1 p0 d Ep1 Ep Hd) as (H1 & _). split; [apply inside_iff; exact (proj1 (Forall_forall _ _) H1 s0 Hs)|]. split; [|reflexivity].
    assert (In s0 (objects ranks)) as Hin by (apply (Permutation_in _ HP); apply in_concat; exists (pr_ptcl p0); split; [apply in_map; eapply nth_error_In; exact Ep|exact Hs]).
    apply in_concat in Hin. destruct Hin as (l & Hl & Hin). apply in_map_iff in Hl. destruct Hl as (p2 & <- & Hp2). exact (proj1 (Forall_forall _ _) (proj1 (Forall_forall _ _) HI p2 Hp2) s0 Hin).
  - exists (objects out). split; [exact HP|]. apply objects_rows; [rewrite mapi_length; reflexivity|]. intros r p p' Hp Hp'. rewrite mapi_nth, Hp in Hp'. injection Hp' as <-. cbn [g withPtcl pr_ptcl]. clear. induction (pr_ptcl p); constructor; eauto.
Qed.

(** ** The step *)

Lemma grid_flat root nx ny doms r d : grid_of Rle_bool root nx ny 1 doms -> nth_error doms r = Some d -> vz (olow d) = vz (olow root) /\ vz (ohigh d) = vz (ohigh root).
Proof.
  intros (L & X & Y & Z0 & _ & _ & HZ & HD) Hr. assert (r < length doms)%nat by (apply nth_error_Some; congruence). rewrite L in H.
  assert (Hy : (0 < ny)%nat) by nia. set (i := (r / ny)%nat). set (j := (r mod ny)%nat). assert (E : r = (ny * i + j)%nat) by (apply Nat.div_mod; lia). assert (j < ny)%nat by (apply Nat.mod_upper_bound; lia). assert (i < nx)%nat by (apply Nat.div_lt_upper_bound; lia).
  specialize (HD i j 0%nat ltac:(assumption) ltac:(assumption) ltac:(lia)). replace ((i * ny + j) * 1 + 0)%nat with r in HD by lia. rewrite Hr in HD. injection HD as ->. destruct (HZ i j ltac:(assumption) ltac:(assumption)) as (Z1 & Z2 & _). cbn [olow ohigh vz]. auto.
Qed.

Lemma mono_orient (c : stepConfig R_arith) (s s' : syl) : orient s' = orient s -> orient (monoObject (N := R_arith) c s') = orient (monoObject (N := R_arith) c s).
Proof. intros H. unfold monoObject, withPose, axis. cbn [orient]. rewrite H. reflexivity. Qed.

Section Step.
  Context (k : luck R_arith) (HK : any_luck k) (c : stepConfig R_arith) (b : domains R_arith) (nx ny nz : nat).
  Context (HR : forall x, In x coords -> x (olow (b_root b)) < x (ohigh (b_root b))).

  Lemma spread fuel (ranks : list ranked) : tidy b nx ny nz ranks -> Forall (in_box (b_root b)) ranks -> sampled k ranks ->
    exists doms, decomposeDomainStep k fuel b ranks = Done (Domains (b_root b) (b_n b) (b_coef b) (Some doms), ranks) /\ grid_of Rle_bool (b_root b) nx ny nz doms.
  Proof using HK.
    intros HT HI HS. unfold decomposeDomainStep. rewrite box_still by exact HI. cbn [obind]. exact (decompose_ok k b nx ny nz ranks HK HT HI HS).
  Qed.

  Lemma boxed_sizes (ranks ranks' : list ranked) : Forall2 (boxed_rank (b_root b)) ranks ranks' -> length ranks' = length ranks /\ sizes ranks' = sizes ranks /\
    Forall2 (fun s s' => exists x, boxed (b_root b) (spos s) x /\ s' = withPose (N := R_arith) s x (orient s)) (objects ranks) (objects ranks') /\ Forall (in_box (b_root b)) ranks'.
  Proof using.
    intros F. split; [symmetry; exact (Forall2_len _ _ _ F)|]. split; [|split].
    - unfold sizes. induction F as [|p p' l l' (_ & _ & H) F IH]; [reflexivity|]. cbn [map]. rewrite IH, (Forall2_len _ _ _ H). reflexivity.
    - apply objects_rows; [exact (Forall2_len _ _ _ F)|]. intros r p p' Hp Hp'. exact (proj2 (proj2 (Forall2_nth_error _ _ _ _ _ _ F Hp Hp'))).
    - induction F as [|p p' l l' H F IH]; constructor; [exact (boxed_in _ _ _ H)|exact IH].
  Qed.

  Lemma sampled_same (ranks ranks' : list ranked) : sizes ranks' = sizes ranks -> sampled k ranks -> sampled k ranks'.
  Proof using.
    intros E (S1 & S2 & S3). assert (L : length ranks' = length ranks) by (apply (f_equal (@length nat)) in E; unfold sizes in E; rewrite !map_length in E; exact E). assert (O : length (objects ranks') = length (objects ranks)) by (rewrite <- !objects_sizes, E; reflexivity).
    unfold sampled. rewrite E, L, O. auto.
  Qed.

  Lemma distribute_ok (ranks : list ranked) : tidy b nx ny nz ranks -> sampled k ranks ->
    exists n, forall fuel, (n <= fuel)%nat -> exists b' out, distribute k fuel b ranks = Done (Some (b', out)) /\ b_root b' = b_root b /\ b_n b' = b_n b /\ b_coef b' = b_coef b /\
      settled b' out /\ length out = length ranks /\ exists before, Permutation before (objects ranks) /\ Forall2 (fun s t => exists x r, boxed (b_root b) (spos s) x /\ t = withRank (N := R_arith) r (withPose s x (orient s))) before (objects out).
  Proof using HK HR.
    intros HT HS. destruct (box_ranks (b_root b) HR ranks) as (n & Hn). exists n. intros fuel Hf. destruct (Hn fuel Hf) as (r1 & E1 & F1). destruct (boxed_sizes ranks r1 F1) as (L1 & Z1 & O1 & I1).
    destruct HT as (T1 & T2 & T3 & T4 & T5 & T6 & T7). assert (HT1 : tidy b nx ny nz r1) by (unfold tidy; rewrite L1; repeat (split; [assumption|]); assumption).
    destruct (decompose_ok k b nx ny nz r1 HK HT1 I1 (sampled_same _ _ Z1 HS)) as (doms & E2 & G2). unfold distribute, decomposeDomainStep. rewrite E1. cbn [obind]. rewrite E2. cbn [obind fst snd].
    set (b' := Domains (b_root b) (b_n b) (b_coef b) (Some doms)). destruct (exchange_ok k b' nx ny nz doms r1 T1 eq_refl G2) as (out & E3 & S3 & L3 & mid & P3 & F3); [rewrite L1, T5; symmetry; exact (proj1 G2)|exact I1|].
    rewrite E3. cbn [obind option_map]. exists b', out. split; [reflexivity|]. repeat (split; [reflexivity|]). split; [exact S3|]. split; [lia|].
    destruct (Forall2_perm_left _ _ _ _ O1 P3) as (before & P4 & F4). exists before. split; [exact P4|]. pose proof (Forall2_join _ _ _ _ _ F4 F3) as F. eapply Forall2_imp; [|exact F]. intros s t (s1 & (x & Hx & ->) & (r & ->)). exists x, r. auto.
  Qed.

  Lemma prepare_ok dmax stepCount (ranks : list ranked) : tidy b nx ny nz ranks -> (Z.rem stepCount 50 = 0%Z -> sampled k ranks) -> (b_doms b = None -> Z.rem stepCount 50 = 0%Z) -> (6 * Z.of_nat (length (objects ranks)) <= INT_MAX)%Z ->
    (c_monolayer c = true -> nz = 1%nat /\ vz (olow (b_root b)) <= (c_highZ c + c_lowZ c) / 2 < vz (ohigh (b_root b))) ->
    exists n, forall fuel, (n <= fuel)%nat -> exists b' out, prepareStep k fuel dmax c stepCount b ranks = Done (Some (b', out)) /\ b_root b' = b_root b /\ b_n b' = b_n b /\ b_coef b' = b_coef b /\
      (Z.rem stepCount 50 <> 0%Z -> b_doms b' = b_doms b) /\ settled b' out /\ length out = length ranks /\
      (exists before, Permutation before (objects ranks) /\ Forall2 (ready_object (b_root b) c) before (objects out)) /\ map (fun s => s_index s) (objects out) = IndexSpec.range 0 (length (objects ranks)).
  Proof using HK HR.
    intros HT HS HD HM HZ. destruct (box_ranks (b_root b) HR ranks) as (n & Hn). exists n. intros fuel Hf. destruct (Hn fuel Hf) as (r1 & E1 & F1). destruct (boxed_sizes ranks r1 F1) as (L1 & Z1 & O1 & I1).
    destruct HT as (T1 & T2 & T3 & T4 & T5 & T6 & T7). assert (HT1 : tidy b nx ny nz r1) by (unfold tidy; rewrite L1; repeat (split; [assumption|]); assumption).
    unfold prepareStep. rewrite E1. cbn [obind].
    assert (X : exists doms, (if Z.eqb (Z.rem stepCount 50) 0 then decomposeDomainStep k fuel b r1 else Done (b, r1)) = Done (Domains (b_root b) (b_n b) (b_coef b) (Some doms), r1) /\ grid_of Rle_bool (b_root b) nx ny nz doms /\ (Z.rem stepCount 50 <> 0%Z -> Some doms = b_doms b)).
    { destruct (Z.eqb_spec (Z.rem stepCount 50) 0) as [E|E].
      - destruct (spread fuel r1 HT1 I1 (sampled_same _ _ Z1 (HS E))) as (doms & D1 & D2). exists doms. split; [exact D1|]. split; [exact D2|]. intros; contradiction.
      - destruct (b_doms b) as [doms|] eqn:Ed; [|elim E; apply HD; reflexivity]. exists doms. split; [destruct b; cbn in *; subst; reflexivity|]. split; [exact T7|]. reflexivity. }
    destruct X as (doms & E2 & G2 & D2). rewrite E2. cbn [obind]. set (b' := Domains (b_root b) (b_n b) (b_coef b) (Some doms)).
    destruct (exchange_ok k b' nx ny nz doms r1 T1 eq_refl G2) as (r2 & E3 & S3 & L3 & mid & P3 & F3); [rewrite L1, T5; symmetry; exact (proj1 G2)|exact I1|].
    rewrite E3. cbn [obind].
    destruct HK as (_ & _ & K3 & K4).
    set (Q := fun (s t : syl) => exists s', t = (if c_monolayer c then monoObject (N := R_arith) c s' else s') /\ s_gid s' = s_gid s /\ s_group s' = s_group s /\ immovable s' = immovable s /\ spos s' = spos s /\ orient s' = orient s /\ s_rank s' = s_rank s /\
      radius s' = radius s /\ slength s' = slength s /\ colBuf s' = c_colBuf c /\ (radiusCol s' : R) = radius s * c_diameterRatio c /\ (lengthCol s' : R) = slength s * c_lengthRatio c).
    destruct (omap_seq (fun r (p : ranked) => do ss <- prepareObjects dmax c (Z.of_nat r) (k_loop1 k r (length (pr_ptcl p))) (k_loop2 k r (length (pr_ptcl p))) (pr_ptcl p); Done (withPtcl p ss)) (fun r (p p' : ranked) => Forall2 Q (pr_ptcl p) (pr_ptcl p')) r2) as (r3 & E4 & L4 & F4).
    { intros r p Hr. destruct (prepare_any dmax c (Z.of_nat r) (k_loop1 k r (length (pr_ptcl p))) (k_loop2 k r (length (pr_ptcl p))) (pr_ptcl p) (K3 _ _) (K4 _ _)) as (ss & S1 & S2 & S4). rewrite S1. eexists. split; [reflexivity|]. cbn [withPtcl pr_ptcl].
      destruct S3 as (mx & my & mz & ds & _ & M2 & _ & M4 & M5). assert (exists d, nth_error ds r = Some d) as (d & Hd) by (destruct (nth_error ds r) eqn:Y; [eauto|apply nth_error_None in Y; assert (r < length r2)%nat by (apply nth_error_Some; congruence); lia]).
      apply Forall2_of_nth; [symmetry; exact S2|]. intros i s t Hs Ht. destruct (S4 i s Hs) as (s' & W0 & W1 & W2 & W3 & W4 & W5 & W6 & W7 & W8 & W9 & W10 & W11 & _). rewrite Ht in W0. injection W0 as ->. exists s'. rewrite (proj2 (proj2 (M5 r p d s Hr Hd (nth_error_In _ _ Hs)))). auto 20. }
    rewrite E4. cbn [obind].
    assert (Z3 : sizes r3 = sizes r2).
    { unfold sizes. apply nth_error_ext. intros r. rewrite !nth_error_map. destruct (nth_error r2 r) as [p|] eqn:Ep; [|replace (nth_error r3 r) with (@None ranked); [reflexivity|symmetry; apply nth_error_None; rewrite L4; apply nth_error_None; exact Ep]].
      assert (exists y, nth_error r3 r = Some y) as (y & Ey) by (destruct (nth_error r3 r) eqn:Y; [eauto|apply nth_error_None in Y; assert (r < length r2)%nat by (apply nth_error_Some; congruence); lia]). rewrite Ey. cbn [option_map]. f_equal. symmetry. exact (Forall2_len _ _ _ (proj2 (F4 r p y Ep Ey))). }
    assert (N3 : sum_list (sizes r3) = length (objects ranks)).
    { rewrite Z3, objects_sizes, <- (Forall2_len _ _ _ F3), (Permutation_length P3), <- (Forall2_len _ _ _ O1). reflexivity. }
    destruct (updateSylinderMap_correct (sizes r3)) as (idx & rows & U1 & U2 & _ & U3 & _); [rewrite N3; exact HM|]. fold (sizes r3). rewrite U1. cbn [obind fst].
    set (fin := map _ (combine r3 idx)).
    assert (LI : length idx = length r3) by (apply (f_equal (@length nat)) in U2; unfold sizes in U2; rewrite !map_length in U2; exact U2).
    assert (L5 : length fin = length r3) by (unfold fin; rewrite map_length, combine_length, LI; lia).
    assert (N5 : forall r p3, nth_error r3 r = Some p3 -> exists li, nth_error idx r = Some li /\ length li = length (pr_ptcl p3) /\ nth_error fin r = Some (withPtcl (N := R_arith) p3 (map (fun si => withIndex (fst si) (snd si)) (combine (pr_ptcl p3) li)))).
    { intros r p3 Hp. assert (exists li, nth_error idx r = Some li) as (li & Hli) by (destruct (nth_error idx r) eqn:Y; [eauto|apply nth_error_None in Y; assert (r < length r3)%nat by (apply nth_error_Some; congruence); lia]).
      exists li. split; [exact Hli|]. split.
      - pose proof (map_nth_error (@length Z) _ _ Hli) as A1. rewrite U2 in A1. unfold sizes in A1. rewrite (map_nth_error (fun p => length (pr_ptcl p)) _ _ Hp) in A1. injection A1 as A1. auto.
      - unfold fin. rewrite nth_error_map, (nth_error_combine _ _ _ _ _ Hp Hli). reflexivity. }
    assert (F5 : forall r p2 p5, nth_error r2 r = Some p2 -> nth_error fin r = Some p5 -> Forall2 (fun s t => exists t' i, Q s t' /\ t = withIndex (N := R_arith) t' i) (pr_ptcl p2) (pr_ptcl p5)).
    { intros r p2 p5 Hp2 Hp5. assert (exists p3, nth_error r3 r = Some p3) as (p3 & Hp3) by (destruct (nth_error r3 r) eqn:Y; [eauto|apply nth_error_None in Y; assert (r < length fin)%nat by (apply nth_error_Some; congruence); lia]).
      destruct (N5 r p3 Hp3) as (li & _ & Hl & Hp5'). rewrite Hp5 in Hp5'. injection Hp5' as ->. cbn [withPtcl pr_ptcl]. pose proof (proj2 (F4 r p2 p3 Hp2 Hp3)) as FQ. clear -FQ Hl. revert li Hl. induction FQ as [|s t l l' HQ FQ IH]; intros [|i li] Hl; try discriminate Hl; cbn [combine map]; constructor; [exists t, i; auto|apply IH; injection Hl; auto]. }
    exists b', fin. split; [reflexivity|]. repeat (split; [reflexivity|]). split; [exact D2|]. split; [|split; [lia|split]].
    - destruct S3 as (mx & my & mz & ds & M1 & M2 & M3 & M4 & M5). exists mx, my, mz, ds. split; [exact M1|]. split; [exact M2|]. split; [exact M3|]. split; [lia|]. intros r p5 d t Hp5 Hd Ht.
      assert (exists p2, nth_error r2 r = Some p2) as (p2 & Hp2) by (destruct (nth_error r2 r) eqn:Y; [eauto|apply nth_error_None in Y; assert (r < length fin)%nat by (apply nth_error_Some; congruence); lia]).
      apply In_nth_error in Ht. destruct Ht as (i & Ht). destruct (CallSort.Forall2_nth _ _ _ (F5 r p2 p5 Hp2 Hp5) _ _ Ht) as (s & Hs & t' & j & (s' & -> & W1 & W2 & W3 & W4 & W5 & W6 & _) & ->).
      destruct (M5 r p2 d s Hp2 Hd (nth_error_In _ _ Hs)) as (V1 & V2 & V3). cbn [withIndex spos s_rank]. destruct (c_monolayer c) eqn:Em.
      + destruct (HZ eq_refl) as (Hz & Hm). cbn [monoObject withPose spos s_rank]. rewrite W6, W4. injection M2 as <-. cbn [b_root b'] in *. change (b_n b) with (b_n b') in T1. rewrite T1 in M1. injection M1 as <- <- <-. subst nz. destruct (grid_flat _ _ _ _ _ _ M3 Hd) as (Z4 & Z5).
        split; [|split; [|exact V3]]; intros x [<-|[<-|[<-|[]]]]; cbn [vx vy vz]; try (apply V1; cbn; auto); try (apply V2; cbn; auto); rarith; try rewrite Z4; try rewrite Z5; exact Hm.
      + rewrite W6, W4. auto.
    - destruct (Forall2_perm_left _ _ _ _ O1 P3) as (before & P4 & FA). exists before. split; [exact P4|]. pose proof (Forall2_join _ _ _ _ _ FA F3) as FB.
      assert (FC : Forall2 (fun s t => exists t' i, Q s t' /\ t = withIndex (N := R_arith) t' i) (objects r2) (objects fin)) by (apply objects_rows; [lia|exact F5]).
      pose proof (Forall2_join _ _ _ _ _ FB FC) as FD. eapply Forall2_imp; [|exact FD]. intros s t (s2 & (s1 & (x & Hx & ->) & (r & ->)) & t' & i & (s' & -> & W1 & W2 & W3 & W4 & W5 & W6 & W7 & W8 & W9 & W10 & W11) & ->).
      cbn [withRank withPose s_gid s_group immovable spos orient s_rank radius slength] in W1, W2, W3, W4, W5, W6, W7, W8, W10, W11. unfold ready_object. destruct (c_monolayer c) eqn:Em; cbn [withIndex s_gid s_group immovable spos orient s_rank radius slength colBuf radiusCol lengthCol monoObject withPose].
      + repeat (split; [assumption|]). exists x. split; [exact Hx|]. split; [rewrite W4; reflexivity|]. unfold axis. rewrite W5. reflexivity.
      + repeat (split; [assumption|]). exists x. split; [exact Hx|]. auto.
    - rewrite <- N3, <- U3. unfold objects. rewrite concat_map, map_map. f_equal. apply nth_error_ext. intros r. rewrite nth_error_map. destruct (nth_error r3 r) as [p3|] eqn:Ep.
      + destruct (N5 r p3 Ep) as (li & Hli & Hl & ->). rewrite Hli. cbn [option_map withPtcl pr_ptcl]. f_equal. rewrite map_map. cbn [withIndex s_index fst snd]. clear -Hl. revert li Hl. induction (pr_ptcl p3) as [|s l IH]; intros [|i li] Hl; try discriminate Hl; [reflexivity|]. cbn [combine map snd]. f_equal. apply IH. injection Hl; auto.
      + apply nth_error_None in Ep. replace (nth_error fin r) with (@None ranked) by (symmetry; apply nth_error_None; lia). cbn [option_map]. symmetry. apply nth_error_None. lia.
  Qed.
End Step.
