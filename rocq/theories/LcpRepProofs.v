(** Proofs for the solution quality report. *)
From Coq Require Import List Arith ZArith Reals Bool Lia Lra.
From Flocq Require Import Core IEEE754.BinarySingleNaN.
From Verif Require Import Outcome ListUtil F64 Arith StatModel LcpRepModel LcpRepSpec.
Import ListNotations.

Notation F := (num F_arith) (only parsing).

Lemma negatives_app a b : negatives (a ++ b) = (negatives a + negatives b)%nat.
Proof. induction a as [|x a IH]; cbn; [reflexivity|]. destruct (Rlt_dec x 0); rewrite IH; reflexivity. Qed.
Lemma negatives_le l : (negatives l <= length l)%nat.
Proof. induction l as [|x l IH]; cbn; [lia|]. destruct (Rlt_dec x 0); lia. Qed.

Lemma worst_nil : worst [] 0.
Proof. repeat split; [lra | intros x [] | left; reflexivity]. Qed.
Lemma worst_app a b m n : worst a m -> worst b n -> worst (a ++ b) (Rmax m n).
Proof.
  intros (A1 & A2 & A3) (B1 & B2 & B3). repeat split.
  - apply Rle_trans with m; [assumption | apply Rmax_l].
  - intros x H. apply in_app_iff in H. destruct H as [H|H].
    + apply Rle_trans with m; [auto | apply Rmax_l].
    + apply Rle_trans with n; [auto | apply Rmax_r].
  - unfold Rmax. destruct (Rle_dec m n).
    + destruct B3 as [E|(x & I & E)]; [left; assumption | right; exists x; split; [apply in_app_iff; right|]; assumption].
    + destruct A3 as [E|(x & I & E)]; [left; assumption | right; exists x; split; [apply in_app_iff; left|]; assumption].
Qed.
Lemma worst_unique l m n : worst l m -> worst l n -> m = n.
Proof.
  intros (A1 & A2 & A3) (B1 & B2 & B3). apply Rle_antisym.
  - destruct A3 as [->|(x & I & ->)]; auto.
  - destruct B3 as [->|(x & I & ->)]; auto.
Qed.

Lemma dmax_F (a b : F) : is_finite a = true -> is_finite b = true ->
  is_finite (@dmax F_arith a b) = true /\ B2R (@dmax F_arith a b) = Rmax (B2R a) (B2R b).
Proof.
  intros Ha Hb. unfold dmax. cbn [a_lt F_arith]. destruct (flt a b) eqn:E.
  - apply flt_R in E; [|assumption..]. split; [assumption|]. rewrite Rmax_right; [reflexivity | lra].
  - split; [assumption|]. rewrite Rmax_left; [reflexivity|].
    destruct (Rle_lt_dec (B2R b) (B2R a)) as [H|H]; [assumption|]. apply flt_R in H; [congruence | assumption..].
Qed.

(** a pair of a count and an error that says what it should about some entries *)
Definition says (s : Z * F) (l : list R) : Prop :=
  fst s = Z.of_nat (negatives l) /\ is_finite (snd s) = true /\ worst l (B2R (snd s)).

Lemma zero_says : says (0%Z, a_Z (a:=F_arith) 0) [].
Proof.
  split; [reflexivity|]. destruct (f_ofZ_exact 0 ltac:(lia)) as [E1 E2]. cbn [snd a_Z F_arith].
  split; [exact E2|]. change (worst [] (B2R (f_ofZ 0))). rewrite E1. exact worst_nil.
Qed.

Lemma iadd_ok a b : (a + b <= INT_MAX)%Z -> iadd a b = Done (a + b)%Z.
Proof. intros H. unfold iadd. destruct (Z.ltb_spec INT_MAX (a + b)); [lia | reflexivity]. Qed.

Lemma countEntry_ok (s : Z * F) l (v : F) : says s l -> is_finite v = true ->
  (Z.of_nat (S (length l)) <= INT_MAX)%Z ->
  exists s', countEntry (N:=F_arith) s v = Done s' /\ says s' (l ++ [B2R v]).
Proof.
  intros (A & B & C) Hv Hl. unfold countEntry. cbn [a_lt F_arith a_Z].
  destruct (f_ofZ_exact 0 ltac:(lia)) as [E1 E2].
  destruct (flt v (f_ofZ 0)) eqn:E.
  - apply flt_R in E; [|assumption..]. rewrite E1 in E.
    pose proof (negatives_le l) as L.
    assert (Ew : worst [B2R v] (- B2R v)%R).
    { repeat split; [lra | intros x [<-|[]]; lra | right; exists (B2R v); split; [left; reflexivity | reflexivity]]. }
    rewrite iadd_ok by (rewrite A; lia). cbn [obind]. eexists. split; [reflexivity|].
    assert (Hn : is_finite (fopp v) = true) by (unfold fopp; rewrite is_finite_Bopp; assumption).
    destruct (dmax_F (snd s) (fopp v) B Hn) as [D1 D2].
    split; [|split].
    + cbn [fst]. rewrite A, negatives_app. cbn [negatives]. destruct (Rlt_dec (B2R v) 0) as [_|NE]; [lia | contradiction].
    + exact D1.
    + cbn [snd a_neg F_arith]. change (worst (l ++ [B2R v]) (B2R (@dmax F_arith (snd s) (fopp v)))).
      rewrite D2. unfold fopp. rewrite B2R_Bopp. apply worst_app; [exact C | exact Ew].
  - exists s. split; [reflexivity|].
    assert (G : (0 <= B2R v)%R).
    { destruct (Rle_lt_dec 0 (B2R v)) as [H|H]; [assumption|]. rewrite <- E1 in H. apply flt_R in H; [congruence | assumption..]. }
    split; [|split; [exact B|]].
    + rewrite A, negatives_app. cbn [negatives]. destruct (Rlt_dec (B2R v) 0); [lra | lia].
    + destruct C as (C1 & C2 & C3). repeat split; [exact C1 | |].
      * intros x H. apply in_app_iff in H. destruct H as [H|[<-|[]]]; [auto | lra].
      * destruct C3 as [H|(x & I & H)]; [left; exact H | right; exists x; split; [apply in_app_iff; left; exact I | exact H]].
Qed.

Lemma countLocal_gen (v : list F) : forall (s : Z * F) l, says s l -> Forall (fun x : F => is_finite x = true) v ->
  (Z.of_nat (length l + length v) <= INT_MAX)%Z ->
  exists s', ofold (countEntry (N:=F_arith)) v s = Done s' /\ says s' (l ++ map (fun x : F => B2R x) v).
Proof.
  induction v as [|x v IH]; intros s l Hs Hf Hl.
  - exists s. split; [reflexivity|]. rewrite app_nil_r. exact Hs.
  - inversion Hf as [|? ? Hx Hv]; subst. cbn [length] in Hl.
    destruct (countEntry_ok s l x Hs Hx ltac:(lia)) as (s1 & E1 & S1).
    destruct (IH s1 (l ++ [B2R x]) S1 Hv ltac:(rewrite app_length; cbn [length]; lia)) as (s2 & E2 & S2).
    exists s2. cbn [ofold]. rewrite E1. cbn [obind]. split; [exact E2|].
    rewrite <- app_assoc in S2. exact S2.
Qed.
Lemma countLocal_ok (v : list F) : Forall (fun x : F => is_finite x = true) v -> (Z.of_nat (length v) <= INT_MAX)%Z ->
  exists s, countLocal (N:=F_arith) v = Done s /\ says s (map (fun x : F => B2R x) v).
Proof. intros Hf Hl. exact (countLocal_gen v _ [] zero_says Hf Hl). Qed.

Lemma reduce_gen (ls : list (Z * F)) : forall (vs : list (list R)) (s : Z * F) l, says s l -> Forall2 says ls vs ->
  (Z.of_nat (length l + length (concat vs)) <= INT_MAX)%Z ->
  exists s', ofold (fun s l => do n <- iadd (fst s) (fst l) ; Done (n, dmax (N:=F_arith) (snd s) (snd l))) ls s = Done s'
    /\ says s' (l ++ concat vs).
Proof.
  induction ls as [|p ls IH]; intros vs s l Hs Hv Hl; inversion Hv as [|? v ? vs' Hp Hr]; subst.
  - exists s. split; [reflexivity|]. cbn. rewrite app_nil_r. exact Hs.
  - cbn [concat] in Hl |- *. rewrite app_length in Hl.
    destruct Hs as (A & B & C). destruct Hp as (A' & B' & C').
    pose proof (negatives_le l). pose proof (negatives_le v).
    destruct (dmax_F (snd s) (snd p) B B') as [D1 D2].
    assert (S1 : says ((fst s + fst p)%Z, @dmax F_arith (snd s) (snd p)) (l ++ v)).
    { split; [|split].
      - cbn [fst]. rewrite negatives_app. lia.
      - exact D1.
      - cbn [snd]. rewrite D2. apply worst_app; assumption. }
    destruct (IH vs' _ (l ++ v) S1 Hr ltac:(rewrite app_length; lia)) as (s2 & E2 & S2).
    exists s2. cbn [ofold]. rewrite iadd_ok by lia. cbn [obind]. split; [exact E2|].
    rewrite <- app_assoc in S2. exact S2.
Qed.

Lemma locals_ok (v : list (list F)) : allFinite v -> (Z.of_nat (length (concat v)) <= INT_MAX)%Z ->
  exists ls, omap (countLocal (N:=F_arith)) v = Done ls /\ Forall2 says ls (map (map (fun x : F => B2R x)) v).
Proof.
  unfold allFinite. induction v as [|x v IH]; intros Hf Hl.
  - exists []. split; [reflexivity | constructor].
  - cbn [concat] in Hf, Hl. apply Forall_app in Hf. destruct Hf as [Hx Hv]. rewrite app_length in Hl.
    destruct (countLocal_ok x Hx ltac:(lia)) as (s & E & S).
    destruct (IH Hv ltac:(lia)) as (ls & E2 & S2).
    exists (s :: ls). cbn [omap]. rewrite E. cbn [obind]. rewrite E2. cbn [obind]. split; [reflexivity|].
    cbn [map]. constructor; assumption.
Qed.

Theorem quality_says (v : list (list F)) : allFinite v -> (Z.of_nat (length (concat v)) <= INT_MAX)%Z ->
  exists s, quality (N:=F_arith) v = Done s /\ says s (entries v).
Proof.
  intros Hf Hl. destruct (locals_ok v Hf Hl) as (ls & E & S).
  unfold quality. rewrite E. cbn [obind]. unfold reduceRoot.
  assert (Ec : concat (map (map (fun x : F => B2R x)) v) = entries v) by (unfold entries; rewrite concat_map; reflexivity).
  destruct (reduce_gen ls _ _ [] zero_says S) as (s & E2 & S2).
  - rewrite Ec. unfold entries. rewrite map_length. exact Hl.
  - exists s. split; [exact E2|]. rewrite <- Ec. exact S2.
Qed.

Theorem quality_report (v : list (list F)) : allFinite v -> (Z.of_nat (length (concat v)) <= INT_MAX)%Z ->
  exists n m, quality (N:=F_arith) v = Done (n, m) /\ n = Z.of_nat (negatives (entries v)) /\ is_finite m = true /\ worst (entries v) (B2R m).
Proof. intros Hf Hl. destruct (quality_says v Hf Hl) as ([n m] & E & A & B & C). exists n, m. auto. Qed.

Lemma negatives_zero l : negatives l = 0%nat <-> Forall (fun x => 0 <= x)%R l.
Proof.
  induction l as [|x l IH]; cbn.
  - split; [constructor | reflexivity].
  - destruct (Rlt_dec x 0) as [H|H].
    + split; [discriminate|]. intros G. inversion G; subst. lra.
    + rewrite IH. split.
      * intros G. constructor; [lra | exact G].
      * intros G. inversion G; assumption.
Qed.

Theorem quality_zero (v : list (list F)) n m : allFinite v -> (Z.of_nat (length (concat v)) <= INT_MAX)%Z ->
  quality (N:=F_arith) v = Done (n, m) ->
  (n = 0%Z <-> Forall (fun x => 0 <= x)%R (entries v)) /\ (B2R m = 0%R <-> Forall (fun x => 0 <= x)%R (entries v)).
Proof.
  intros Hf Hl E. destruct (quality_report v Hf Hl) as (n' & m' & E' & A & _ & (W1 & W2 & W3)).
  rewrite E in E'. injection E' as <- <-. split.
  - rewrite <- negatives_zero. lia.
  - split.
    + intros Hm. apply Forall_forall. intros x I. specialize (W2 x I). lra.
    + intros G. destruct W3 as [H|(x & I & H)]; [exact H|].
      rewrite Forall_forall in G. specialize (G x I). lra.
Qed.

Theorem quality_ranks (v w : list (list F)) n m n' m' : concat v = concat w -> allFinite v -> (Z.of_nat (length (concat v)) <= INT_MAX)%Z ->
  quality (N:=F_arith) v = Done (n, m) -> quality (N:=F_arith) w = Done (n', m') -> n = n' /\ B2R m = B2R m'.
Proof.
  intros Hc Hf Hl E E'.
  destruct (quality_report v Hf Hl) as (a & b & E1 & A & _ & W).
  assert (Hf' : allFinite w) by (unfold allFinite; rewrite <- Hc; exact Hf).
  rewrite Hc in Hl. destruct (quality_report w Hf' Hl) as (a' & b' & E1' & A' & _ & W').
  rewrite E in E1. rewrite E' in E1'. injection E1 as <- <-. injection E1' as <- <-.
  assert (He : entries v = entries w) by (unfold entries; rewrite Hc; reflexivity).
  rewrite He in A, W. split; [congruence | exact (worst_unique _ _ _ W W')].
Qed.

(** the number of entries is too large only when the count itself is *)
Theorem test_spec (run : solver -> F -> list (list F) -> list (list F)) (apply : list (list F) -> list (list F)) (b : list (list F)) tol choice ex ey :
  test_LCP (N:=F_arith) run apply b tol choice = Done (ex, ey) ->
  let x := fold_left (fun x st => run (fst st) (snd st) x) (stages (N:=F_arith) choice tol) (map (map (fun _ => f_ofZ 0)) b) in
  quality (N:=F_arith) x = Done ex /\ quality (N:=F_arith) (addVec (N:=F_arith) (apply x) b) = Done ey.
Proof.
  intros E. cbn zeta. unfold test_LCP in E. cbn [a_Z F_arith] in E.
  destruct (quality _) as [ex'| |] eqn:E1 in E; cbn [obind] in E; try discriminate.
  destruct (quality _) as [ey'| |] eqn:E2 in E; cbn [obind] in E; try discriminate.
  injection E as <- <-. split; assumption.
Qed.

Lemma stages_other (tol : F) choice : (choice < 0 \/ 4 < choice)%Z -> stages (N:=F_arith) choice tol = [].
Proof.
  intros H. unfold stages. destruct choice as [|p|p]; [lia| |reflexivity].
  destruct p as [[p|p|]|[[p|p|]|[p|p|]|]|]; try reflexivity; lia.
Qed.

Theorem test_report (run : solver -> F -> list (list F) -> list (list F)) (apply : list (list F) -> list (list F)) (b : list (list F)) tol choice :
  let x := fold_left (fun x st => run (fst st) (snd st) x) (stages (N:=F_arith) choice tol) (map (map (fun _ => f_ofZ 0)) b) in
  let y := addVec (N:=F_arith) (apply x) b in
  allFinite x -> allFinite y -> (Z.of_nat (length (concat x)) <= INT_MAX)%Z -> (Z.of_nat (length (concat y)) <= INT_MAX)%Z ->
  exists nx mx ny my, test_LCP (N:=F_arith) run apply b tol choice = Done ((nx, mx), (ny, my))
    /\ nx = Z.of_nat (negatives (entries x)) /\ worst (entries x) (B2R mx)
    /\ ny = Z.of_nat (negatives (entries y)) /\ worst (entries y) (B2R my).
Proof.
  intros x y Fx Fy Lx Ly.
  destruct (quality_report x Fx Lx) as (nx & mx & Ex & A & _ & W).
  destruct (quality_report y Fy Ly) as (ny & my & Ey & A' & _ & W').
  exists nx, mx, ny, my. split; [|auto].
  change (test_LCP (N:=F_arith) run apply b tol choice) with (do ex <- quality (N:=F_arith) x ; do ey <- quality (N:=F_arith) y ; Done (ex, ey)).
  rewrite Ex. cbn [obind]. rewrite Ey. reflexivity.
Qed.

Lemma concat_zeros (b : list (list F)) : Forall (fun x : F => x = f_ofZ 0) (concat (map (map (fun _ : F => f_ofZ 0)) b)).
Proof.
  induction b as [|r b IH]; cbn; [constructor|]. apply Forall_app. split; [|exact IH].
  induction r; cbn; constructor; auto.
Qed.

Lemma fadd_zero_l (v : F) : is_finite v = true -> B2R (fadd (f_ofZ 0) v) = B2R v /\ is_finite (fadd (f_ofZ 0) v) = true.
Proof.
  intros Hv. destruct (f_ofZ_exact 0 ltac:(lia)) as [E1 E2].
  assert (E : rnd64 (B2R (f_ofZ 0) + B2R v) = B2R v) by (rewrite E1, Rplus_0_l; apply rnd64_id, f_format).
  destruct (fadd_R (f_ofZ 0) v E2 Hv) as [A B].
  - rewrite E. apply abs_B2R_lt_emax.
  - rewrite A, E. auto.
Qed.

Lemma addZero_row (r : list F) : Forall (fun x : F => is_finite x = true) r ->
  map (fun x : F => B2R x) (map (fun q => @a_add F_arith (fst q) (snd q)) (combine (map (fun _ : F => f_ofZ 0) r) r)) = map (fun x : F => B2R x) r /\
  Forall (fun x : F => is_finite x = true) (map (fun q => @a_add F_arith (fst q) (snd q)) (combine (map (fun _ : F => f_ofZ 0) r) r)).
Proof.
  induction r as [|v r IH]; intros H; cbn [map combine fst snd]; [split; [reflexivity | constructor]|].
  inversion H as [|? ? Hv Hr]; subst. destruct (IH Hr) as [A B]. destruct (fadd_zero_l v Hv) as [C D].
  split; [f_equal; [exact C | exact A] | constructor; [exact D | exact B]].
Qed.
Lemma addZero (b : list (list F)) : allFinite b ->
  entries (addVec (N:=F_arith) (map (map (fun _ : F => f_ofZ 0)) b) b) = entries b /\ allFinite (addVec (N:=F_arith) (map (map (fun _ : F => f_ofZ 0)) b) b).
Proof.
  unfold allFinite, entries, addVec. induction b as [|r b IH]; intros H; cbn [map combine concat fst snd]; [split; [reflexivity | constructor]|].
  cbn [concat] in H. apply Forall_app in H. destruct H as [Hr Hb]. destruct (IH Hb) as [A B]. destruct (addZero_row r Hr) as [C D].
  split.
  - rewrite !map_app. exact (f_equal2 (@app R) C A).
  - apply Forall_app. split; [exact D | exact B].
Qed.

Theorem test_other (run : solver -> F -> list (list F) -> list (list F)) (apply : list (list F) -> list (list F)) (b : list (list F)) tol choice :
  (choice < 0 \/ 4 < choice)%Z -> apply (map (map (fun _ => f_ofZ 0)) b) = map (map (fun _ => f_ofZ 0)) b ->
  allFinite b -> (Z.of_nat (length (concat b)) <= INT_MAX)%Z ->
  exists mx ny my, test_LCP (N:=F_arith) run apply b tol choice = Done ((0%Z, mx), (ny, my))
    /\ B2R mx = 0%R /\ ny = Z.of_nat (negatives (entries b)) /\ worst (entries b) (B2R my).
Proof.
  intros Hc Ha Fb Lb. destruct (addZero b Fb) as [Ey Fy].
  pose proof (test_report run apply b tol choice) as T. cbn zeta in T.
  rewrite (stages_other tol choice Hc) in T. cbn [fold_left] in T. rewrite Ha in T.
  assert (Fx : allFinite (map (map (fun _ : F => f_ofZ 0)) b)).
  { unfold allFinite. eapply Forall_impl; [|apply concat_zeros]. intros a ->. apply (f_ofZ_exact 0); lia. }
  assert (Lx : (Z.of_nat (length (concat (map (map (fun _ : F => f_ofZ 0)) b))) <= INT_MAX)%Z).
  { rewrite <- concat_map, map_length. exact Lb. }
  assert (Ly : (Z.of_nat (length (concat (addVec (N:=F_arith) (map (map (fun _ : F => f_ofZ 0)) b) b))) <= INT_MAX)%Z).
  { pose proof (f_equal (@length R) Ey) as L. unfold entries in L. rewrite !map_length in L.
    apply Z.le_trans with (Z.of_nat (length (concat b))); [apply inj_le, Nat.eq_le_incl; exact L | exact Lb]. }
  destruct (T Fx Fy Lx Ly) as (nx & mx & ny & my & E & A & W & A' & W').
  rewrite Ey in A', W'.
  assert (Z0 : Forall (fun x => 0 <= x)%R (entries (map (map (fun _ : F => f_ofZ 0)) b))).
  { unfold entries. apply Forall_map. eapply Forall_impl; [|apply concat_zeros]. intros a ->.
    destruct (f_ofZ_exact 0 ltac:(lia)) as [E0 _]. rewrite E0. lra. }
  exists mx, ny, my. split; [|split; [|auto]].
  - rewrite E. apply negatives_zero in Z0. rewrite Z0 in A. cbn in A. subst nx. reflexivity.
  - destruct W as (_ & _ & [H|(v & I & H)]); [exact H|].
    unfold entries in I. apply in_map_iff in I. destruct I as (u & <- & I).
    pose proof (concat_zeros b) as Q. rewrite Forall_forall in Q. rewrite (Q u I) in H.
    rewrite H. destruct (f_ofZ_exact 0 ltac:(lia)) as [E0 _]. rewrite E0. apply Ropp_0.
Qed.

Lemma quality_one (v : F) : flt v (f_ofZ 0) = false -> quality (N:=F_arith) [[v]] = Done (0%Z, f_ofZ 0).
Proof.
  intros H. unfold quality, countLocal, reduceRoot. cbn [omap ofold].
  assert (E : countEntry (N:=F_arith) (0%Z, a_Z 0) v = Done (0%Z, f_ofZ 0)).
  { unfold countEntry. cbn [a_lt a_Z F_arith]. rewrite H. reflexivity. }
  rewrite E. reflexivity.
Qed.
Lemma nan_clean : quality (N:=F_arith) [[B754_nan]] = Done (0%Z, f_ofZ 0).
Proof. apply (quality_one B754_nan). reflexivity. Qed.
Lemma one_one : quality (N:=F_arith) [[f_ofZ 1]] = Done (0%Z, f_ofZ 0) /\ quality (N:=F_arith) [[f_ofZ 1]] = Done (0%Z, f_ofZ 0)
  /\ ~ Forall2 (fun a b => (a * b = 0)%R) (entries [[f_ofZ 1]]) (entries [[f_ofZ 1]]).
Proof.
  assert (E : quality (N:=F_arith) [[f_ofZ 1]] = Done (0%Z, f_ofZ 0)) by (apply (quality_one (f_ofZ 1)); vm_compute; reflexivity).
  split; [exact E|]. split; [exact E|].
  intros H. change (Forall2 (fun a b => (a * b = 0)%R) [B2R (f_ofZ 1)] [B2R (f_ofZ 1)]) in H.
  destruct (f_ofZ_exact 1 ltac:(lia)) as [E1 _]. rewrite E1 in H. inversion H; subst. lra.
Qed.
