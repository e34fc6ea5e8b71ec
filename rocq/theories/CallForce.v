(** The calls of the functor in CallModel. *)
From Coq Require Import List Arith ZArith Lia Bool Permutation Sorted Reals.
From Verif Require Import Outcome ListUtil Arith ParticleModel VecModel DomainModel RadixProofs TreeModel TreeSpec TreeProofs TreeLink LetModel LetSpec LetProofs CallModel CallSpec CallSort.
Import ListNotations.

Lemma tiled_in {G} (size start : G -> Z) a gs b : tiled size start a gs b -> (a <= b)%Z /\ forall g, In g gs -> (a <= start g /\ 0 < size g /\ start g + size g <= b)%Z.
Proof.
  induction 1 as [|g gs last H T (IH1 & IH2)]; [split; [lia|intros g []]|]. split; [lia|]. intros h [<-|Hh]; [lia|]. specialize (IH2 h Hh). lia.
Qed.
Lemma tiled_apart {G} (size start : G -> Z) a gs b : tiled size start a gs b -> forall i j g h, nth_error gs i = Some g -> nth_error gs j = Some h -> i < j -> (start g + size g <= start h)%Z.
Proof.
  induction 1 as [|x gs last H T IH]; intros i j g h Hi Hj Hij; [destruct i; discriminate|]. destruct j as [|j]; [lia|]. cbn in Hj. destruct i as [|i]; cbn in Hi.
  - injection Hi as ->. apply nth_error_In in Hj. apply (proj2 (tiled_in _ _ _ _ _ T)) in Hj. lia.
  - apply (IH i j g h Hi Hj). lia.
Qed.
Lemma tiled_concat {G} (size start : G -> Z) a gs b : tiled size start a gs b -> concat (map (fun g => zrange (start g) (start g + size g)) gs) = zrange a b.
Proof.
  induction 1 as [last|g gs last H T IH]; [symmetry; apply zrange_nil; lia|]. cbn [map concat]. rewrite IH. pose proof (proj1 (tiled_in _ _ _ _ _ T)). symmetry. apply zrange_app. lia.
Qed.

Lemma ofold_map {A B S} (f : S -> B -> outcome S) (g : A -> B) l : forall s, ofold f (map g l) s = ofold (fun s a => f s (g a)) l s.
Proof. induction l as [|a l IH]; intros s; [reflexivity|]. cbn. destruct (f s (g a)); cbn; [apply IH|reflexivity|reflexivity]. Qed.
Lemma ofold_ext {A S} (f g : S -> A -> outcome S) l : (forall s a, In a l -> f s a = g s a) -> forall s, ofold f l s = ofold g l s.
Proof. induction l as [|a l IH]; intros H s; [reflexivity|]. cbn. rewrite H by now left. destruct (g s a); cbn; [apply IH; intros; apply H; now right|reflexivity|reflexivity]. Qed.
Lemma zrange_seq a n : zrange (Z.of_nat a) (Z.of_nat a + Z.of_nat n) = map Z.of_nat (seq a n).
Proof. unfold zrange. replace (Z.to_nat (Z.of_nat a + Z.of_nat n - Z.of_nat a)) with n by lia. revert a. induction n as [|n IH]; intros a; [reflexivity|]. cbn [seq map]. f_equal; [lia|]. rewrite <- (IH (S a)). rewrite <- seq_shift, map_map. apply map_ext. intros x. lia. Qed.
Lemma zread_nat {A} (l : list A) i : zread l (Z.of_nat i) = mread l i.
Proof. unfold zread. rewrite (proj2 (Z.ltb_ge _ _)) by lia. rewrite Nat2Z.id. reflexivity. Qed.
Lemma zwrite_nat {A} (l : list A) i v : zwrite l (Z.of_nat i) v = mwrite l i v.
Proof. unfold zwrite. rewrite (proj2 (Z.ltb_ge _ _)) by lia. rewrite Nat2Z.id. reflexivity. Qed.

Lemma Forall2_cons_iff {A B} (Q : A -> B -> Prop) a l b l' : Forall2 Q (a :: l) (b :: l') <-> Q a b /\ Forall2 Q l l'.
Proof. split; [intros H; inversion H; auto|intros (H & H'); constructor; assumption]. Qed.

Section Loops.
  Context {Fo : Type} (clear : Fo -> Fo).

  Lemma clear_ok n : forall a force, a + n <= length force -> exists f, ofold (fun f i => do x <- mread f i; mwrite f i (clear x)) (seq a n) force = Done f /\ length f = length force /\
    forall x, nth_error f x = if (a <=? x) && (x <? a + n) then option_map clear (nth_error force x) else nth_error force x.
  Proof using.
    induction n as [|n IH]; intros a force H; [exists force; split; [reflexivity|]; split; [reflexivity|]; intros x; destruct (Nat.leb_spec a x), (Nat.ltb_spec x (a + 0)); try reflexivity; lia|].
    cbn [seq ofold]. destruct (nth_error force a) as [v|] eqn:Ev; [|apply nth_error_None in Ev; lia]. unfold mread at 1. rewrite Ev. cbn [obind]. destruct (nthw force a (clear v) ltac:(lia)) as (f1 & E1 & L1 & N1). rewrite E1. cbn [obind].
    destruct (IH (S a) f1) as (f & E2 & L2 & N2); [lia|]. exists f. split; [exact E2|]. split; [lia|]. intros x. rewrite N2, N1. destruct (Nat.eqb_spec x a) as [->|Hx].
    - destruct (Nat.leb_spec (S a) a), (Nat.leb_spec a a), (Nat.ltb_spec a (a + S n)); try lia. cbn. rewrite Ev. reflexivity.
    - destruct (Nat.leb_spec (S a) x), (Nat.leb_spec a x), (Nat.ltb_spec x (S a + n)), (Nat.ltb_spec x (a + S n)); try lia; reflexivity.
  Qed.

  Lemma store_ok (after : list Fo) a n : forall k0 force, a + k0 + n <= length force -> k0 + n <= length after -> exists f, ofold (fun f k => do x <- mread after k; mwrite f (a + k) x) (seq k0 n) force = Done f /\ length f = length force /\
    forall x, nth_error f x = if (a + k0 <=? x) && (x <? a + k0 + n) then nth_error after (x - a) else nth_error force x.
  Proof using.
    induction n as [|n IH]; intros k0 force H Ha; [exists force; split; [reflexivity|]; split; [reflexivity|]; intros x; destruct (Nat.leb_spec (a + k0) x), (Nat.ltb_spec x (a + k0 + 0)); try reflexivity; lia|].
    cbn [seq ofold]. destruct (nth_error after k0) as [v|] eqn:Ev; [|apply nth_error_None in Ev; lia]. unfold mread at 1. rewrite Ev. cbn [obind]. destruct (nthw force (a + k0) v ltac:(lia)) as (f1 & E1 & L1 & N1). rewrite E1. cbn [obind].
    destruct (IH (S k0) f1) as (f & E2 & L2 & N2); [lia|lia|]. exists f. split; [exact E2|]. split; [lia|]. intros x. rewrite N2, N1. destruct (Nat.eqb_spec x (a + k0)) as [->|Hx].
    - destruct (Nat.leb_spec (a + S k0) (a + k0)), (Nat.leb_spec (a + k0) (a + k0)), (Nat.ltb_spec (a + k0) (a + k0 + S n)); try lia. cbn. replace (a + k0 - a) with k0 by lia. congruence.
    - destruct (Nat.leb_spec (a + S k0) x), (Nat.leb_spec (a + k0) x), (Nat.ltb_spec x (a + S k0 + n)), (Nat.ltb_spec x (a + k0 + S n)); try lia; reflexivity.
  Qed.

  (** copyForceOriginalOrder *)
  Lemma copyForce_ok order (tp : list (Z * nat)) (sorted : list Fo) : NoDup order -> (forall i, In i order -> i < length tp) -> length sorted = length tp -> NoDup (map snd tp) ->
    forall org, (forall t, In t tp -> snd t < length org) -> exists f, copyForce order tp sorted org = Done f /\ length f = length org /\
    (forall i t, In i order -> nth_error tp i = Some t -> nth_error f (snd t) = nth_error sorted i) /\ (forall x, (forall i t, In i order -> nth_error tp i = Some t -> snd t <> x) -> nth_error f x = nth_error org x).
  Proof using.
    intros ND Hi Ls NDt. induction order as [|i order IH]; intros org Ho; [exists org; split; [reflexivity|]; split; [reflexivity|]; split; [intros i t []|reflexivity]|].
    inversion ND as [|? ? Hni ND']; subst. unfold copyForce in *. cbn [ofold]. pose proof (Hi i (or_introl eq_refl)) as Hlt. destruct (nth_error tp i) as [t|] eqn:Et; [|apply nth_error_None in Et; lia]. destruct (nth_error sorted i) as [v|] eqn:Ev; [|apply nth_error_None in Ev; lia].
    unfold mread at 1. rewrite Et. cbn [obind]. unfold mread at 1. rewrite Ev. cbn [obind]. destruct (nthw org (snd t) v (Ho t (nth_error_In _ _ Et))) as (o1 & E1 & L1 & N1). rewrite E1. cbn [obind].
    destruct (IH ND' (fun j Hj => Hi j (or_intror Hj)) o1) as (f & E2 & L2 & N2 & N3); [intros t' Ht'; rewrite L1; apply Ho; exact Ht'|]. exists f. split; [exact E2|]. split; [lia|]. 
    assert (Apart : forall j t', In j order -> nth_error tp j = Some t' -> snd t' <> snd t).
    { intros j t' Hj Ht' Es. rewrite NoDup_nth_error in NDt. assert (j = i); [|congruence]. apply NDt; [rewrite map_length; apply nth_error_Some; congruence|]. rewrite (map_nth_error snd _ _ Ht'), (map_nth_error snd _ _ Et). congruence. }
    split.
    - intros j t' [->|Hj] Ht'; [|exact (N2 j t' Hj Ht')]. assert (t' = t) as -> by congruence. rewrite N3, N1, Nat.eqb_refl by exact Apart. congruence.
    - intros x Hx. rewrite N3, N1 by (intros j t' Hj Ht'; apply (Hx j t' (or_intror Hj) Ht')). destruct (Nat.eqb_spec x (snd t)) as [->|_]; [|reflexivity]. exfalso. exact (Hx i t (or_introl eq_refl) Et eq_refl).
  Qed.
End Loops.

Section Groups.
  Context {N : arith} {P Fo : Type} (func : list (item N P) -> list (item N P) -> list Fo -> list Fo) (clear : Fo -> Fo).
  Hypothesis Hfunc : forall epi epj fs, length fs = length epi -> length (func epi epj fs) = length fs.
  Notation item := (item N P).
  Notation call := (nat * (list item * list item))%type.

  Lemma reads_at {A} (l : list A) is : (forall i, In i is -> (0 <= i < Z.of_nat (length l))%Z) -> exists xs, omap (zread l) is = Done xs /\ Forall2 (at_ l) is xs.
  Proof using.
    intros H. apply omap_each. intros i Hi. specialize (H i Hi). destruct (nth_error l (Z.to_nat i)) as [a|] eqn:Ea; [|apply nth_error_None in Ea; lia]. assert (X : at_ l i a) by (split; [lia|exact Ea]). exists a. split; [apply zread_at; exact X|exact X].
  Qed.

  (** what the group g with the list l has got, in the array of sorted forces *)
  Definition got (own all force : list _) (g : group N) (l : list Z) (c : call) : Prop := let '(_, (epi, epj)) := c in
    Forall2 (at_ own) (zrange (g_adr g) (g_adr g + g_n g)) epi /\ Forall2 (at_ all) l epj /\
    exists before : list Fo, length before = length epi /\ forall a, a < length epi -> nth_error force (Z.to_nat (g_adr g) + a) = nth_error (func epi epj (map clear before)) a.

  Lemma callGroup_ok (own all : list item) lists force calls t i g l : nth_error lists i = Some (g, l) -> (0 <= g_adr g)%Z -> (0 <= g_n g)%Z -> (g_adr g + g_n g <= Z.of_nat (length own))%Z -> length force = length own -> (forall k, In k l -> (0 <= k < Z.of_nat (length all))%Z) ->
    exists force' c, callGroup func clear own all lists (force, calls) (t, i) = Done (force', calls ++ [c]) /\ fst c = t /\ length force' = length force /\ got own all force' g l c /\
      forall x, (Z.of_nat x < g_adr g \/ g_adr g + g_n g <= Z.of_nat x)%Z -> nth_error force' x = nth_error force x.
  Proof using Hfunc.
    intros Hi Ha Hn Hle Lf Hl. unfold callGroup. cbn [snd fst]. unfold mread at 1. rewrite Hi. cbn [obind].
    assert (EZ : exists a n, g_adr g = Z.of_nat a /\ g_n g = Z.of_nat n) by (exists (Z.to_nat (g_adr g)), (Z.to_nat (g_n g)); lia). destruct EZ as (a & n & Ea & En). rewrite Ea, En in *. clear Ha Hn.
    assert (RG : forall m, (Z.of_nat a + Z.of_nat n <= Z.of_nat m)%Z -> forall k, In k (zrange (Z.of_nat a) (Z.of_nat a + Z.of_nat n)) -> (0 <= k < Z.of_nat m)%Z) by (intros m Hm k Hk; apply zrange_in in Hk; lia).
    destruct (reads_at all l Hl) as (epj & J1 & J2). rewrite J1. cbn [obind]. cbv zeta. rewrite zrange_seq, ofold_map.
    rewrite (ofold_ext _ (fun f i => do x <- mread f i; mwrite f i (clear x))) by (intros f x _; rewrite zread_nat; destruct (mread f x); cbn; [apply zwrite_nat|reflexivity|reflexivity]).
    destruct (clear_ok clear n a force ltac:(lia)) as (f1 & C1 & C2 & C3). rewrite C1. cbn [obind]. rewrite <- zrange_seq.
    destruct (reads_at own (zrange (Z.of_nat a) (Z.of_nat a + Z.of_nat n))) as (epi & I1 & I2); [apply RG; lia|]. rewrite I1. cbn [obind].
    destruct (reads_at f1 (zrange (Z.of_nat a) (Z.of_nat a + Z.of_nat n))) as (b1 & B1 & B2); [apply RG; lia|]. rewrite B1. cbn [obind].
    destruct (reads_at force (zrange (Z.of_nat a) (Z.of_nat a + Z.of_nat n))) as (b0 & D1 & D2); [apply RG; lia|].
    assert (Eb : b1 = map clear b0).
    { assert (G : forall is, (forall k, In k is -> (Z.of_nat a <= k < Z.of_nat a + Z.of_nat n)%Z) -> forall b0 b1, Forall2 (at_ force) is b0 -> Forall2 (at_ f1) is b1 -> b1 = map clear b0).
      { clear - C3. induction is as [|k is IH]; intros H [|v b0] [|w b1] F0 F1; try (exfalso; inversion F0; fail); try (exfalso; inversion F1; fail); [reflexivity|].
        apply Forall2_cons_iff in F0, F1. destruct F0 as ((X0 & X) & F0), F1 as ((_ & Y) & F1). cbn [map]. f_equal; [|apply IH; [intros x Hx; apply H; now right|assumption|assumption]].
        specialize (H k (or_introl eq_refl)). rewrite C3 in Y. destruct (Nat.leb_spec a (Z.to_nat k)), (Nat.ltb_spec (Z.to_nat k) (a + n)); try lia. cbn in Y. rewrite X in Y. cbn in Y. congruence. }
      apply (G _ (fun k Hk => proj1 (zrange_in _ _ _) Hk) _ _ D2 B2). }
    assert (Lr : length (zrange (Z.of_nat a) (Z.of_nat a + Z.of_nat n)) = n) by (rewrite zrange_length; lia).
    assert (Li : length epi = n) by (apply Forall2_len in I2; lia). assert (Lb : length b0 = n) by (apply Forall2_len in D2; lia). rewrite Lr.
    rewrite (ofold_ext _ (fun f k => do x <- mread (func epi epj b1) k; mwrite f (a + k) x)) by (intros f k _; destruct (mread (func epi epj b1) k); cbn; [rewrite <- Nat2Z.inj_add; apply zwrite_nat|reflexivity|reflexivity]).
    destruct (store_ok (func epi epj b1) a n 0 f1) as (f2 & S1 & S2 & S3); [lia|rewrite Hfunc; rewrite Eb, map_length; lia|]. rewrite S1. cbn [obind]. rewrite Nat.add_0_r in S3.
    exists f2, (t, (epi, epj)). split; [reflexivity|]. split; [reflexivity|]. split; [lia|]. split.
    - unfold got. rewrite Ea, En. split; [exact I2|]. split; [exact J2|]. exists b0. split; [lia|]. intros x Hx. rewrite Nat2Z.id. rewrite S3. destruct (Nat.leb_spec a (a + x)), (Nat.ltb_spec (a + x) (a + n)); try lia. cbn [andb]. rewrite Eb. f_equal. lia.
    - intros x Hx. rewrite S3, C3. destruct (Nat.leb_spec a x), (Nat.ltb_spec x (a + n)); try lia; reflexivity.
  Qed.

  Lemma got_frame (own all force force' : list _) g l c : (0 <= g_adr g)%Z -> got own all force g l c -> (forall x, (g_adr g <= Z.of_nat x < g_adr g + g_n g)%Z -> nth_error force' x = nth_error force x) -> got own all force' g l c.
  Proof using.
    destruct c as (t & (epi & epj)). intros Ha (A & B & before & C1 & C2) H. split; [exact A|]. split; [exact B|]. exists before. split; [exact C1|]. intros a Hl. rewrite H; [apply C2; exact Hl|]. apply Forall2_len in A. rewrite zrange_length in A. lia.
  Qed.

  Lemma calls_ok (own all : list item) lists : tiled g_n g_adr 0 (map fst lists) (Z.of_nat (length own)) -> (forall g l, In (g, l) lists -> forall k, In k l -> (0 <= k < Z.of_nat (length all))%Z) ->
    forall order, NoDup (map snd order) -> (forall i, In i (map snd order) -> i < length lists) -> forall force calls, length force = length own ->
    exists force' cs, ofold (callGroup func clear own all lists) order (force, calls) = Done (force', calls ++ cs) /\ length force' = length own /\
      Forall2 (fun ti c => fst c = fst ti /\ exists g l, nth_error lists (snd ti) = Some (g, l) /\ got own all force' g l c) order cs /\
      forall x, (forall i g l, In i (map snd order) -> nth_error lists i = Some (g, l) -> (Z.of_nat x < g_adr g \/ g_adr g + g_n g <= Z.of_nat x)%Z) -> nth_error force' x = nth_error force x.
  Proof using Hfunc.
    intros T HL. induction order as [|(t, i) order IH]; intros ND Hlt force calls Lf; [exists force, []; rewrite app_nil_r; split; [reflexivity|]; split; [exact Lf|]; split; [constructor|reflexivity]|].
    cbn [map] in ND, Hlt. inversion ND as [|? ? Hni ND']; subst. cbn [snd] in *. pose proof (Hlt i (or_introl eq_refl)) as Hi. destruct (nth_error lists i) as [(g, l)|] eqn:Ei; [|apply nth_error_None in Ei; lia].
    assert (Hg : In g (map fst lists)) by (apply (in_map fst) in Ei || (apply nth_error_In in Ei; apply (in_map fst) in Ei); exact Ei). destruct (proj2 (tiled_in _ _ _ _ _ T) g Hg) as (G1 & G2 & G3).
    destruct (callGroup_ok own all lists force calls t i g l Ei G1 ltac:(lia) G3 Lf (HL g l (nth_error_In _ _ Ei))) as (f1 & c & E1 & E2 & E3 & E4 & E5).
    destruct (IH ND' (fun j Hj => Hlt j (or_intror Hj)) f1 (calls ++ [c])) as (f2 & cs & F1 & F2 & F3 & F4); [lia|]. exists f2, (c :: cs). cbn [ofold]. rewrite E1. cbn [obind]. rewrite F1, <- app_assoc. split; [reflexivity|]. split; [exact F2|]. split.
    - constructor; [|exact F3]. split; [exact E2|]. exists g, l. split; [exact Ei|]. apply (got_frame own all f1); [exact G1|exact E4|]. intros x Hx. apply F4. intros j h l' Hj Ej.
      assert (Hne : i <> j) by (intros ->; contradiction). assert (Ni : nth_error (map fst lists) i = Some g) by (apply (map_nth_error fst _ _ Ei)). assert (Nj : nth_error (map fst lists) j = Some h) by (apply (map_nth_error fst _ _ Ej)).
      destruct (Nat.lt_total i j) as [X|[X|X]]; [pose proof (tiled_apart _ _ _ _ _ T i j g h Ni Nj X)|contradiction|pose proof (tiled_apart _ _ _ _ _ T j i h g Nj Ni X)]; lia.
    - intros x Hx. rewrite F4, E5; [reflexivity|apply (Hx i g l (or_introl eq_refl) Ei)|intros j h l' Hj Ej; apply (Hx j h l' (or_intror Hj) Ej)].
  Qed.
End Groups.

Lemma origin_dec (k : vec Z) : {k = origin} + {k <> origin}.
Proof. destruct k as [x y z]. destruct (Z.eq_dec x 0) as [->|H]; [|right; intros X; injection X; congruence]. destruct (Z.eq_dec y 0) as [->|H]; [|right; intros X; injection X; congruence]. destruct (Z.eq_dec z 0) as [->|H]; [left; reflexivity|right; intros X; injection X; congruence]. Qed.
Lemma sorted_nodup l : StronglySorted Z.lt l -> NoDup l.
Proof. induction 1 as [|x l S IH F]; constructor; [|exact IH]. intros H. rewrite Forall_forall in F. specialize (F x H). lia. Qed.
Lemma nodup_map {A B} (f : A -> B) l : NoDup l -> (forall x y, In x l -> In y l -> f x = f y -> x = y) -> NoDup (map f l).
Proof.
  induction 1 as [|x l Hn ND IH]; intros Hf; [constructor|]. cbn [map]. constructor; [|apply IH; intros y z Hy Hz; apply Hf; now right]. intros H. apply in_map_iff in H. destruct H as (y & Ey & Hy). apply Hn. rewrite (Hf x y); [exact Hy|now left|now right|congruence].
Qed.

Section Rank.
  Context {N : arith} {P Fo : Type} (ok : N -> Prop) (val : N -> R) (slack : R -> R) (pa : vec bool) (img : vec Z -> item N P -> item N P) (E : list (list (item N P))) (need : nat -> vec Z -> Prop).
  Context (func : list (item N P) -> list (item N P) -> list Fo -> list Fo) (clear : Fo -> Fo).
  Hypothesis Hfunc : forall epi epj fs, length fs = length epi -> length (func epi epj fs) = length fs.
  Hypothesis Himg : forall f, img origin f = f.
  Context (r : nat) (own recv sorted all : list (item N P)) (tp tp' : list (Z * nat)) (keysI : list Z) (grpLimit : Z) (lists : list (group N * list Z)).
  Hypothesis Hown : nth_error E r = Some own.
  Hypothesis Hs1 : shuffled own (map snd tp) sorted.
  Hypothesis Hs2 : shuffled (own ++ recv) (map snd tp') all.
  Hypothesis Hlists : searched ok val slack keysI (map i_site sorted) (map i_site all) grpLimit lists.
  Hypothesis Hdel : delivers val slack pa img E need r recv.

  Lemma rank_served threads order copy force org : Permutation (map snd order) (seq 0 (length lists)) -> (forall t, In t (map fst order) -> t < threads) -> Permutation copy (seq 0 (length own)) -> length force = length own -> length org = length own ->
    exists res, (do fc <- ofold (callGroup func clear sorted all lists) order (force, []); do o <- copyForce copy tp (fst fc) org; Done (snd fc, o)) = Done res /\ served val slack pa img E func clear threads own res.
  Proof using Hfunc Himg Hown Hs1 Hs2 Hlists Hdel.
    intros Ho Hth Hc Lf Lo. destruct Hlists as (T & HS). destruct Hdel as (tags & T1 & T2 & T3).
    destruct (shuffled_length _ _ _ Hs1) as (Ls & Lt). rewrite map_length in Lt. destruct (shuffled_length _ _ _ Hs2) as (La & Lt'). rewrite map_length in T. rewrite map_length in Lt'. rewrite app_length in La, Lt'.
    assert (Ltags : length tags = length recv) by (apply Forall2_len in T2; exact T2).
    set (n := length own) in *. set (sg1 := map snd tp) in *. set (sg2 := map snd tp') in *. rewrite Ls in T.
    destruct (calls_ok func clear Hfunc sorted all lists) with (order := order) (force := force) (calls := @nil (nat * (list (item N P) * list (item N P)))) as (f1 & cs & C1 & C2 & C3 & _).
    { rewrite Ls. exact T. } { intros g l H k Hk. destruct (HS g l H) as (_ & _ & X & _). specialize (X k Hk). rewrite map_length in X. exact X. }
    { apply (Permutation_NoDup (Permutation_sym Ho)), seq_NoDup. } { intros i Hi. apply (Permutation_in _ Ho) in Hi. apply in_seq in Hi. lia. } { lia. }
    rewrite C1. cbn [obind fst snd]. cbn [app].
    assert (NDtp : NoDup (map snd tp)) by (apply (Permutation_NoDup (Permutation_sym (proj1 Hs1))), seq_NoDup).
    destruct (copyForce_ok copy tp f1) with (org := org) as (f2 & D1 & D2 & D3 & _).
    { apply (Permutation_NoDup (Permutation_sym Hc)), seq_NoDup. } { intros i Hi. apply (Permutation_in _ Hc) in Hi. apply in_seq in Hi. lia. } { lia. } { exact NDtp. }
    { intros t Ht. assert (H : In (snd t) (seq 0 n)) by (apply (Permutation_in _ (proj1 Hs1)); apply in_map; exact Ht). apply in_seq in H. lia. }
    rewrite D1. cbn [obind]. eexists. split; [reflexivity|]. cbn [fst snd]. split; [cbn [snd]; lia|]. cbn [fst snd].
    split; [intros t Ht; apply in_map_iff in Ht; destruct Ht as (c & <- & Hin); destruct (Forall2_at _ _ _ _ C3 Hin) as (ti & Hti & -> & _); apply Hth; apply in_map; exact Hti|].
    set (h := fun z => Z.of_nat (nth (Z.to_nat z) sg1 0)).
    set (tag := fun y => if y <? n then (r, Z.of_nat y, origin) else nth (y - n) tags (r, 0%Z, origin)).
    set (tg := fun x => tag (nth (Z.to_nat x) sg2 0)).
    set (rd := fun i => match nth_error lists i with Some (g, l) => (map h (zrange (g_adr g) (g_adr g + g_n g)), map tg l) | None => ([], []) end).
    (* what the tags stand for *)
    assert (Tag : forall y e, nth_error (own ++ recv) y = Some e -> names pa img E (tag y) e).
    { intros y e Hy. unfold tag. destruct (Nat.ltb_spec y n) as [H|H].
      - rewrite nth_error_app1 in Hy by exact H. split; [repeat split|]. exists own, e. split; [exact Hown|]. split; [split; [lia|rewrite Nat2Z.id; exact Hy]|symmetry; apply Himg].
      - rewrite nth_error_app2 in Hy by exact H. destruct (Forall2_nth _ _ _ T2 _ _ Hy) as (t & Ht & Q). rewrite (nth_error_nth _ _ _ Ht). destruct t as ((s & j) & k). destruct Q as (Q1 & _ & _ & Q2). split; assumption. }
    assert (TagNo : forall y, n <= y < n + length recv -> tag y = nth (y - n) tags (r, 0%Z, origin) /\ forall j, tag y <> (r, j, origin)).
    { intros y Hy. unfold tag. destruct (Nat.ltb_spec y n) as [H|H]; [lia|]. split; [reflexivity|]. intros j. assert (Hl : y - n < length tags) by lia. destruct (nth_error tags (y - n)) as [t|] eqn:Et; [|apply nth_error_None in Et; lia].
      rewrite (nth_error_nth _ _ _ Et). destruct (Forall2_nth' _ _ _ T2 _ _ Et) as (e & _ & Q). destruct t as ((s & j') & k). destruct Q as (_ & Q & _). intros X. injection X as -> _ ->. apply Q; reflexivity. }
    assert (TagInj : forall y y', y < n + length recv -> y' < n + length recv -> tag y = tag y' -> y = y').
    { intros y y' Hy Hy' Et. destruct (Nat.ltb_spec y n) as [A|A]; destruct (Nat.ltb_spec y' n) as [B|B].
      - unfold tag in Et. rewrite (proj2 (Nat.ltb_lt _ _) A), (proj2 (Nat.ltb_lt _ _) B) in Et. injection Et as Et. lia.
      - exfalso. destruct (TagNo y' ltac:(lia)) as (_ & X). apply (X (Z.of_nat y)). rewrite <- Et. unfold tag. rewrite (proj2 (Nat.ltb_lt _ _) A). reflexivity.
      - exfalso. destruct (TagNo y ltac:(lia)) as (_ & X). apply (X (Z.of_nat y')). rewrite Et. unfold tag. rewrite (proj2 (Nat.ltb_lt _ _) B). reflexivity.
      - rewrite (proj1 (TagNo y ltac:(lia))), (proj1 (TagNo y' ltac:(lia))) in Et. rewrite NoDup_nth in T1. assert (y - n = y' - n) by (apply (T1 (y - n) (y' - n)) in Et; [exact Et|lia|lia]). lia. }
    assert (Sg2 : forall x e, at_ all x e -> exists y, nth (Z.to_nat x) sg2 0 = y /\ nth_error sg2 (Z.to_nat x) = Some y /\ nth_error (own ++ recv) y = Some e).
    { intros x e (_ & Hx). destruct (shuffled_read _ _ _ _ _ Hs2 Hx) as (y & Y1 & Y2). exists y. split; [apply nth_error_nth; exact Y1|auto]. }
    assert (Sg1 : forall z e, at_ sorted z e -> exists y, nth (Z.to_nat z) sg1 0 = y /\ nth_error sg1 (Z.to_nat z) = Some y /\ nth_error own y = Some e).
    { intros x e (_ & Hx). destruct (shuffled_read _ _ _ _ _ Hs1 Hx) as (y & Y1 & Y2). exists y. split; [apply nth_error_nth; exact Y1|auto]. }
    exists (map (fun ti => rd (snd ti)) order). split.
    - apply Forall2_map_l. revert C3. apply Forall2_imp. intros (t & i) c Hti Hcs (E1 & g & l & Eg & G). cbn [snd fst] in *. unfold rd. rewrite Eg. destruct c as (t' & (epi & epj)). destruct G as (G1 & G2 & before & G3 & G4).
      destruct (HS g l (nth_error_In _ _ Eg)) as (_ & SS & Hr & HR). assert (Hg : In g (map fst lists)) by (apply nth_error_In in Eg; apply (in_map fst) in Eg; exact Eg). destruct (proj2 (tiled_in _ _ _ _ _ T) g Hg) as (A1 & A2 & A3).
      unfold call_ok. split.
      { apply Forall2_map_l. revert G1. apply Forall2_imp. intros z e _ _ Hz. destruct (Sg1 z e Hz) as (y & Y1 & Y2 & Y3). unfold h. rewrite Y1. split; [lia|rewrite Nat2Z.id; exact Y3]. }
      split.
      { apply nodup_map; [apply sorted_nodup; exact SS|]. intros x y Hx Hy Et. destruct (Forall2_at' _ _ _ _ G2 Hx) as (e & _ & He). destruct (Forall2_at' _ _ _ _ G2 Hy) as (e' & _ & He'). destruct (Sg2 x e He) as (u & U1 & U2 & U3). destruct (Sg2 y e' He') as (v & V1 & V2 & V3). unfold tg in Et. rewrite U1, V1 in Et.
        apply TagInj in Et; [|apply nth_error_Some_lt in U3 || (assert (X : u < length (own ++ recv)) by (apply nth_error_Some; congruence); rewrite app_length in X; exact X)|assert (X : v < length (own ++ recv)) by (apply nth_error_Some; congruence); rewrite app_length in X; exact X].
        rewrite <- Et in V2. pose proof (shuffled_inj _ _ _ _ _ _ Hs2 U2 V2). destruct He as (He0 & _), He' as (He'0 & _). lia. }
      split.
      { apply Forall2_map_l. revert G2. apply Forall2_imp. intros x e _ _ Hx. destruct (Sg2 x e Hx) as (y & Y1 & Y2 & Y3). unfold tg. rewrite Y1. apply Tag. exact Y3. }
      split.
      { intros i0 e s l0 j f k Hi0 He Hl0 Hf Hk Hsee. apply in_map_iff in Hi0. destruct Hi0 as (z & Ez & Hz). apply zrange_in in Hz.
        assert (Hze : at_ sorted z e). { split; [lia|]. destruct (nth_error sorted (Z.to_nat z)) as [e'|] eqn:Ee; [|apply nth_error_None in Ee; lia]. destruct (Sg1 z e') as (y & Y1 & Y2 & Y3); [split; [lia|exact Ee]|]. unfold h in Ez. rewrite Y1 in Ez. destruct He as (_ & He). rewrite <- Ez, Nat2Z.id in He. congruence. }
        assert (Y : exists y, nth_error (own ++ recv) y = Some (img k f) /\ tag y = (s, j, k)).
        { destruct (Nat.eq_dec s r) as [->|Hs]; [destruct (origin_dec k) as [->|Hk0]|].
          - rewrite Hown in Hl0. injection Hl0 as <-. destruct Hf as (Hj & Hf). assert (X : Z.to_nat j < n) by (apply nth_error_Some; congruence). exists (Z.to_nat j). rewrite nth_error_app1 by exact X. rewrite Himg. split; [exact Hf|]. unfold tag. rewrite (proj2 (Nat.ltb_lt _ _) X). rewrite Z2Nat.id by exact Hj. reflexivity.
          - assert (Ht : In (r, j, k) tags) by (apply (T3 own e r l0 j f k Hown); try assumption; [destruct He as (_ & He); apply nth_error_In in He; exact He|intros _; exact Hk0]).
            apply In_nth_error in Ht. destruct Ht as (p & Ht). destruct (Forall2_nth' _ _ _ T2 _ _ Ht) as (e' & He' & _ & _ & _ & l' & f' & L1 & L2 & ->). rewrite Hl0 in L1. injection L1 as <-. destruct Hf as (_ & Hf), L2 as (_ & L2). rewrite Hf in L2. injection L2 as <-.
            exists (n + p). rewrite nth_error_app2 by (unfold n; lia). replace (n + p - length own) with p by (unfold n; lia). split; [exact He'|]. unfold tag. destruct (Nat.ltb_spec (n + p) n); [lia|]. replace (n + p - n) with p by lia. apply nth_error_nth. exact Ht.
          - assert (Ht : In (s, j, k) tags) by (apply (T3 own e s l0 j f k Hown); try assumption; [destruct He as (_ & He); apply nth_error_In in He; exact He|intros X; contradiction]).
            apply In_nth_error in Ht. destruct Ht as (p & Ht). destruct (Forall2_nth' _ _ _ T2 _ _ Ht) as (e' & He' & _ & _ & _ & l' & f' & L1 & L2 & ->). rewrite Hl0 in L1. injection L1 as <-. destruct Hf as (_ & Hf), L2 as (_ & L2). rewrite Hf in L2. injection L2 as <-.
            exists (n + p). rewrite nth_error_app2 by (unfold n; lia). replace (n + p - length own) with p by (unfold n; lia). split; [exact He'|]. unfold tag. destruct (Nat.ltb_spec (n + p) n); [lia|]. replace (n + p - n) with p by lia. apply nth_error_nth. exact Ht. }
        destruct Y as (y & Y1 & Y2). destruct (shuffled_find _ _ _ _ _ Hs2 Y1) as (x & X1 & X2).
        assert (Hx : In (Z.of_nat x) l). { apply (HR z (Z.of_nat x) (i_site e) (i_site (img k f))); [lia| | |exact Hsee]; [destruct Hze as (Z0 & Hze); split; [exact Z0|apply map_nth_error; exact Hze]|split; [lia|rewrite Nat2Z.id; apply map_nth_error; exact X2]]. }
        apply in_map_iff. exists (Z.of_nat x). split; [|exact Hx]. unfold tg. rewrite Nat2Z.id, (nth_error_nth _ _ _ X1). exact Y2. }
      exists before, (func epi epj (map clear before)). assert (Lz : length (zrange (g_adr g) (g_adr g + g_n g)) = length epi) by (apply Forall2_len in G1; exact G1). split; [rewrite map_length; lia|]. split; [reflexivity|].
      intros a i0 Ha. assert (Hal : a < length epi) by (rewrite <- Lz; rewrite <- (map_length h); apply nth_error_Some; congruence).
      rewrite <- G4 by exact Hal. apply nth_error_map_some in Ha. destruct Ha as (z & Hz & Ei). assert (z = g_adr g + Z.of_nat a)%Z.
      { unfold zrange in Hz. apply nth_error_map_some in Hz. destruct Hz as (b & Hb & Ez). rewrite zrange_length in Lz. rewrite nth_error_seq in Hb by lia. cbn in Hb. injection Hb as <-. symmetry in Ez. exact Ez || (symmetry; exact Ez). }
      subst z. assert (Ht : Z.to_nat (g_adr g + Z.of_nat a) < length tp) by (rewrite zrange_length in Lz; lia). destruct (nth_error tp (Z.to_nat (g_adr g + Z.of_nat a))) as [t0|] eqn:Et; [|apply nth_error_None in Et; lia].
      replace (Z.to_nat (g_adr g) + a) with (Z.to_nat (g_adr g + Z.of_nat a)) by lia. rewrite <- (D3 (Z.to_nat (g_adr g + Z.of_nat a)) t0); [f_equal| |exact Et].
      + assert (Eh : h (g_adr g + Z.of_nat a)%Z = Z.of_nat (snd t0)) by (unfold h; f_equal; apply nth_error_nth; unfold sg1; apply (map_nth_error snd _ _ Et)). rewrite Eh in Ei. rewrite Ei || rewrite <- Ei. apply Nat2Z.id.
      + apply (Permutation_in _ (Permutation_sym Hc)). apply in_seq. lia.
    - rewrite map_map. assert (X : map (fun ti : nat * nat => fst (rd (snd ti))) order = map (fun i => fst (rd i)) (map snd order)) by (rewrite map_map; reflexivity). rewrite X, <- flat_map_concat_map.
      rewrite (Permutation_flat_map (fun i => fst (rd i)) Ho). rewrite flat_map_concat_map.
      assert (Y : map (fun i => fst (rd i)) (seq 0 (length lists)) = map (map h) (map (fun g => zrange (g_adr g) (g_adr g + g_n g)) (map fst lists))).
      { rewrite !map_map. apply nth_error_ext. intros i. destruct (nth_error lists i) as [(g, l)|] eqn:Eg.
        - assert (i < length lists) by (apply nth_error_Some; congruence). rewrite (map_nth_error (fun i => fst (rd i)) i (seq 0 (length lists)) (d := i)) by (rewrite nth_error_seq by assumption; reflexivity). rewrite (map_nth_error _ _ _ Eg). unfold rd. rewrite Eg. reflexivity.
        - apply nth_error_None in Eg. rewrite (proj2 (nth_error_None _ _)), (proj2 (nth_error_None _ _)); [reflexivity|rewrite map_length; exact Eg|rewrite map_length, seq_length; exact Eg]. }
      rewrite Y, <- concat_map. rewrite (tiled_concat _ _ _ _ _ T). replace (zrange 0 (Z.of_nat n)) with (map Z.of_nat (seq 0 n)) by (symmetry; apply (zrange_seq 0 n)).
      rewrite map_map. assert (Z1 : map (fun x => h (Z.of_nat x)) (seq 0 n) = map Z.of_nat sg1).
      { transitivity (map Z.of_nat (map (fun i => nth i sg1 0) (seq 0 (length sg1)))); [|rewrite nth_seq_id; reflexivity]. rewrite map_map. replace (length sg1) with n by (unfold sg1; rewrite map_length; lia). apply map_ext. intros x. unfold h. rewrite Nat2Z.id. reflexivity. }
      rewrite Z1. apply Permutation_map. exact (proj1 Hs1).
  Qed.
End Rank.
