(** Proofs about the interaction of two kinds of particles. *)
From Coq Require Import List Arith Bool Permutation Lia.
From Verif Require Import Outcome ListUtil Overlay MixModel MixSpec.
Import ListNotations.

Lemma nth_mwrite {A} (m : list A) k a m' : mwrite m k a = Done m' -> length m' = length m /\ forall i, nth_error m' i = if i =? k then Some a else nth_error m i.
Proof.
  unfold mwrite. destruct (Nat.ltb_spec k (length m)) as [H|H]; [|discriminate]. intros E0. assert (Em : m' = firstn k m ++ a :: skipn (S k) m) by congruence. clear E0. subst m'. split.
  - rewrite app_length, firstn_length. replace (length (a :: skipn (S k) m)) with (S (length m - S k)) by (rewrite <- skipn_length; reflexivity). lia.
  - intros i. assert (L : length (firstn k m) = k) by (rewrite firstn_length; lia). destruct (Nat.eqb_spec i k) as [->|Hne].
    + rewrite nth_error_app2 by lia. rewrite L, Nat.sub_diag. reflexivity.
    + destruct (Nat.lt_ge_cases i k) as [C|C].
      * rewrite nth_error_app1 by lia. rewrite <- (firstn_skipn k m) at 2. rewrite nth_error_app1 by lia. reflexivity.
      * rewrite nth_error_app2 by lia. rewrite L. destruct (i - k) as [|d] eqn:E; [lia|]. cbn [nth_error].
        rewrite <- (firstn_skipn (S k) m) at 2. rewrite nth_error_app2; rewrite firstn_length; [|lia]. f_equal. lia.
Qed.
Lemma mwrite_ok {A} (m : list A) k a : k < length m -> exists m', mwrite m k a = Done m'.
Proof. intros H. unfold mwrite. destruct (Nat.ltb_spec k (length m)); [eauto|lia]. Qed.
Lemma mread_ok {A} (m : list A) k : k < length m -> exists a, nth_error m k = Some a /\ mread m k = Done a.
Proof. intros H. unfold mread. destruct (nth_error m k) eqn:E; [eauto|]. apply nth_error_None in E. lia. Qed.

(** a loop whose iterations write different cells, each depending on the old contents of its own cell *)
Lemma scatter_ok {A} (idx : nat -> nat) (g : nat -> A -> A) (step : list A -> nat -> outcome (list A)) order : forall m, NoDup (map idx order) ->
  (forall i m', In i order -> length m' = length m -> forall a, nth_error m' (idx i) = Some a -> step m' i = mwrite m' (idx i) (g i a)) ->
  (forall i, In i order -> idx i < length m) ->
  exists m', ofold step order m = Done m' /\ length m' = length m /\
    (forall i, In i order -> nth_error m' (idx i) = option_map (g i) (nth_error m (idx i))) /\ (forall k, ~ In k (map idx order) -> nth_error m' k = nth_error m k).
Proof.
  induction order as [|i order IH]; intros m ND HS HI; cbn [ofold map] in *; [exists m; split; [reflexivity|split; [reflexivity|split; [intros ? []|reflexivity]]]|].
  inversion ND as [|? ? Hni ND']; subst. destruct (mread_ok m (idx i) (HI i (or_introl eq_refl))) as (a & Ea & _).
  rewrite (HS i m (or_introl eq_refl) eq_refl a Ea). destruct (mwrite_ok m (idx i) (g i a) (HI i (or_introl eq_refl))) as (m1 & E1). rewrite E1. cbn [obind].
  apply nth_mwrite in E1 as [L1 N1]. destruct (IH m1 ND') as (m2 & E2 & L2 & W2 & K2).
  { intros j m' Hj Hl. apply HS; [right; exact Hj|lia]. }
  { intros j Hj. rewrite L1. apply HI. right. exact Hj. }
  exists m2. split; [exact E2|]. split; [lia|]. split.
  - intros j [<-|Hj].
    + rewrite K2 by exact Hni. rewrite N1, Nat.eqb_refl, Ea. reflexivity.
    + rewrite W2 by exact Hj. rewrite N1. destruct (Nat.eqb_spec (idx j) (idx i)) as [E|]; [|reflexivity]. exfalso. apply Hni. rewrite <- E. apply in_map. exact Hj.
  - intros k Hk. rewrite K2 by (intros HIn; apply Hk; right; exact HIn). rewrite N1. destruct (Nat.eqb_spec k (idx i)) as [->|]; [|reflexivity]. exfalso. apply Hk. left. reflexivity.
Qed.

Lemma omap_nth {A B} (f : A -> outcome B) l : (forall a, In a l -> exists b, f a = Done b) -> exists bs, omap f l = Done bs /\ length bs = length l /\
  forall i a, nth_error l i = Some a -> exists b, nth_error bs i = Some b /\ f a = Done b.
Proof.
  induction l as [|a l IH]; intros H; [exists []; split; [reflexivity|split; [reflexivity|intros [|]; discriminate]]|].
  destruct (H a (or_introl eq_refl)) as (b & Eb). destruct (IH (fun x Hx => H x (or_intror Hx))) as (bs & E & L & N). exists (b :: bs). cbn [omap]. rewrite Eb, E. cbn [obind].
  split; [reflexivity|]. split; [cbn; congruence|]. intros [|i] x Ex; cbn in *; [injection Ex as <-; eauto|auto].
Qed.
Lemma perm_nodup n o : Permutation o (seq 0 n) -> NoDup o.
Proof. intros H. eapply Permutation_NoDup; [apply Permutation_sym; exact H|apply seq_NoDup]. Qed.
Lemma perm_lt n o i : Permutation o (seq 0 n) -> In i o <-> i < n.
Proof. intros H. rewrite H, in_seq. lia. Qed.

Section Mix.
  Context {Pos Rad EPT EPS FPT FPS Force : Type} (PT : particle Pos Rad EPT) (PS : particle Pos Rad EPS) (copyT : FPT -> EPT) (copyS : FPS -> EPS).

  Lemma updateSystem_ok o1 o2 wrap trg src mem : Permutation o1 (seq 0 (length trg)) -> Permutation o2 (seq 0 (length src)) -> length mem = length trg + length src ->
    (forall t, In t trg -> exists x, wrap (getPos PT (copyT t)) = Done x) -> (forall s, In s src -> exists x, wrap (getPos PS (copyS s)) = Done x) ->
    exists sys, updateSystem PT PS copyT copyS o1 o2 wrap trg src mem = Done sys /\ length sys = length trg + length src /\
      (forall i t, nth_error trg i = Some t -> exists x p, wrap (getPos PT (copyT t)) = Done x /\ nth_error sys i = Some p /\ trgFlag p = true /\ epTrg p = setPos PT (copyT t) x) /\
      (forall i s, nth_error src i = Some s -> exists x p, wrap (getPos PS (copyS s)) = Done x /\ nth_error sys (length trg + i) = Some p /\ trgFlag p = false /\ epSrc p = setPos PS (copyS s) x).
  Proof.
    intros P1 P2 HL HT HS. unfold updateSystem.
    set (g1 := fun (i : nat) (p : mixFP EPT EPS) => match nth_error trg i with Some t => MixFP true (copyT t) (epSrc p) | None => p end);
      destruct (scatter_ok (fun i => i) g1 (fun m i => do t <- mread trg i; do p <- mread m i; mwrite m i (MixFP true (copyT t) (epSrc p))) o1 mem) as (m1 & E1 & L1 & W1 & K1);
      [rewrite map_id; eapply perm_nodup; exact P1
      |intros i m' Hi _ a Ea; apply (perm_lt _ _ _ P1) in Hi; destruct (mread_ok trg i Hi) as (t & Et & Rt); rewrite Rt; unfold mread; rewrite Ea; cbn [obind]; unfold g1; rewrite Et; reflexivity
      |intros i Hi; apply (perm_lt _ _ _ P1) in Hi; lia|].
    rewrite E1; cbn [obind]; rewrite map_id in K1.
    set (g2 := fun (i : nat) (p : mixFP EPT EPS) => match nth_error src i with Some s => MixFP false (epTrg p) (copyS s) | None => p end);
      destruct (scatter_ok (fun i => i + length trg) g2 (fun m i => do s <- mread src i; do p <- mread m (i + length trg); mwrite m (i + length trg) (MixFP false (epTrg p) (copyS s))) o2 m1) as (m2 & E2 & L2 & W2 & K2);
      [apply (FinFun.Injective_map_NoDup (f := fun i => i + length trg)); [intros a b; lia|eapply perm_nodup; exact P2]
      |intros i m' Hi _ a Ea; apply (perm_lt _ _ _ P2) in Hi; destruct (mread_ok src i Hi) as (t & Et & Rt); rewrite Rt; unfold mread; rewrite Ea; cbn [obind]; unfold g2; rewrite Et; reflexivity
      |intros i Hi; apply (perm_lt _ _ _ P2) in Hi; lia|].
    rewrite E2; cbn [obind].
    assert (F1 : forall i t, nth_error trg i = Some t -> exists p, nth_error m2 i = Some p /\ trgFlag p = true /\ epTrg p = copyT t)
      by (intros i t Et; assert (Hi : i < length trg) by (apply nth_error_Some; congruence); rewrite K2 by (rewrite in_map_iff; intros (x & Ex & _); lia);
          rewrite W1 by (apply (perm_lt _ _ _ P1); exact Hi); destruct (mread_ok mem i ltac:(lia)) as (p & Ep & _); rewrite Ep; cbn [option_map]; unfold g1; rewrite Et; eexists; split; [reflexivity|split; reflexivity]).
    assert (F2 : forall i s, nth_error src i = Some s -> exists p, nth_error m2 (i + length trg) = Some p /\ trgFlag p = false /\ epSrc p = copyS s)
      by (intros i s Es; assert (Hi : i < length src) by (apply nth_error_Some; congruence);
          rewrite W2 by (apply (perm_lt _ _ _ P2); exact Hi); destruct (mread_ok m1 (i + length trg) ltac:(lia)) as (p & Ep & _); rewrite Ep; cbn [option_map]; unfold g2; rewrite Es; eexists; split; [reflexivity|split; reflexivity]).
    destruct (omap_nth (fun p => do x <- wrap (fpPos PT PS p); Done (fpSetPos PT PS p x)) m2) as (sys & E3 & L3 & N3);
      [intros p Hp; apply In_nth_error in Hp as (k & Ek); assert (Hk : k < length m2) by (apply nth_error_Some; congruence); destruct (Nat.lt_ge_cases k (length trg)) as [C|C];
       [destruct (mread_ok trg k C) as (t & Et & _); destruct (F1 k t Et) as (p' & Ep & Hf & Hp); destruct (HT t ltac:(eapply nth_error_In; exact Et)) as (x & Ex)
       |destruct (mread_ok src (k - length trg) ltac:(lia)) as (t & Et & _); destruct (F2 _ t Et) as (p' & Ep & Hf & Hp); replace (k - length trg + length trg) with k in Ep by lia; destruct (HS t ltac:(eapply nth_error_In; exact Et)) as (x & Ex)];
       assert (p' = p) as -> by congruence; unfold fpPos; rewrite Hf, Hp, Ex; cbn [obind]; eauto|].
    exists sys; split; [exact E3|]; split; [lia|]; split;
      [intros i t Et; destruct (F1 i t Et) as (p & Ep & Hf & Hp); destruct (N3 i p Ep) as (q & Eq & Hq); destruct (HT t ltac:(eapply nth_error_In; exact Et)) as (x & Ex); exists x, q;
       unfold fpPos in Hq; rewrite Hf, Hp, Ex in Hq; cbn [obind] in Hq; assert (q = fpSetPos PT PS p x) as -> by congruence; (split; [exact Ex|]); (split; [exact Eq|]); unfold fpSetPos; rewrite Hf; cbn; rewrite Hp; auto
      |intros i t Et; destruct (F2 i t Et) as (p & Ep & Hf & Hp); destruct (N3 _ p Ep) as (q & Eq & Hq); destruct (HS t ltac:(eapply nth_error_In; exact Et)) as (x & Ex); exists x, q;
       unfold fpPos in Hq; rewrite Hf, Hp, Ex in Hq; cbn [obind] in Hq; assert (q = fpSetPos PT PS p x) as -> by congruence; rewrite (Nat.add_comm (length trg)); (split; [exact Ex|]); (split; [exact Eq|]); unfold fpSetPos; rewrite Hf; cbn; rewrite Hp; auto].
  Qed.

  (** ** forces *)
  Lemma tiles_le gs : forall first n, @tiles Pos Rad EPS first gs n -> first <= n.
  Proof. induction gs as [|g gs IH]; intros first n H; cbn in H; [lia|]. destruct H as [_ H]. apply IH in H. lia. Qed.
  Lemma tiles_blocks (kernel : mixEPI Pos Rad EPT -> list (mixEPJ Pos Rad EPS) -> Force -> Force) zero sorted gs : forall first n,
    @tiles Pos Rad EPS first gs n -> n <= length sorted ->
    let Qs := map (fun g => map (fun e => kernel e (g_list g) zero) (firstn (g_count g) (skipn (g_first g) sorted))) gs in
    (forall k g, nth_error gs k = Some g -> g_first g = first + off Qs k /\ g_first g + g_count g <= n /\ length (nth k Qs []) = g_count g) /\
    length (concat Qs) = n - first.
  Proof.
    induction gs as [|g gs IH]; intros first n H Hn Qs; cbn [tiles] in H.
    - subst. split; [intros [|]; discriminate|cbn; lia].
    - destruct H as [Hf H]. pose proof (tiles_le _ _ _ H) as Hle. destruct (IH _ _ H Hn) as [A B].
      assert (L : length (map (fun e => kernel e (g_list g) zero) (firstn (g_count g) (skipn (g_first g) sorted))) = g_count g)
        by (rewrite map_length, firstn_length, skipn_length; lia).
      subst Qs. cbn [map concat]. split.
      + intros [|k] g' E; cbn [nth_error] in E.
        * injection E as <-. unfold off. cbn [firstn map]. cbn. split; [lia|]. split; [lia|exact L].
        * destruct (A k g' E) as (A1 & A2 & A3). unfold off in *. cbn [firstn map sum_list nth]. split; [|split; [exact A2|exact A3]].
          rewrite L, sum_list_cons. lia.
      + rewrite app_length, L, B. lia.
  Qed.

  Lemma computeForce_ok kernel zero (t : tree Pos Rad EPS) o3 o4 (ei : list (mixEPI Pos Rad EPT)) (fs fo : list Force) (sys : list (mixFP EPT EPS)) nTrg :
    let n := length sys in
    Permutation (t_adr t) (seq 0 n) -> tiles 0 (t_groups t) n -> Permutation o3 (seq 0 (length (t_groups t))) -> Permutation o4 (seq 0 n) ->
    length ei = n -> length fs = n -> length fo = n -> nTrg <= n ->
    exists res, computeForce PT PS kernel zero t o3 o4 ei fs fo sys nTrg = Done res /\ length res = nTrg /\
      forall i p, i < nTrg -> nth_error sys i = Some p -> exists e k g, nth_error ei i = Some e /\ nth_error (t_adr t) k = Some i /\ In g (t_groups t) /\ holds g k /\
        nth_error res i = Some (kernel (iCopy PT PS e p) (g_list g) zero).
  Proof.
    intros n PA HT P3 P4 Lei Lfs Lfo HnT. unfold computeForce, calcForceAll.
    destruct (omap_nth (fun ip => do e <- mread ei (fst ip); Done (iCopy PT PS e (snd ip))) (combine (seq 0 (length sys)) sys)) as (epi & E1 & L1 & N1).
    { intros (i, p) Hin. apply in_combine_l in Hin. apply in_seq in Hin. destruct (mread_ok ei i ltac:(lia)) as (e & _ & R). cbn [fst snd]. rewrite R. cbn [obind]. eauto. }
    rewrite E1. cbn [obind]. rewrite combine_length, seq_length, Nat.min_id in L1.
    assert (Hepi : forall i p, nth_error sys i = Some p -> exists e, nth_error ei i = Some e /\ nth_error epi i = Some (iCopy PT PS e p)).
    { intros i p Ep. assert (Hi : i < n) by (apply nth_error_Some; congruence).
      assert (Ec : nth_error (combine (seq 0 (length sys)) sys) i = Some (i, p)).
      { clear - Ep. change (seq 0 (length sys)) with (seq 0 (length sys)). assert (G : forall sys s i (p : mixFP EPT EPS), nth_error sys i = Some p -> nth_error (combine (seq s (length sys)) sys) i = Some (s + i, p)).
        { induction sys0 as [|q sys0 IH]; intros s i0 p0 E; [destruct i0; discriminate|]. destruct i0 as [|i0]; cbn in *; [injection E as ->; f_equal; f_equal; lia|]. rewrite (IH (S s) i0 p0 E). f_equal. f_equal. lia. }
        apply (G sys 0 i p Ep). }
      destruct (N1 i _ Ec) as (b & Eb & Hb). cbn [fst snd] in Hb. destruct (mread_ok ei i ltac:(lia)) as (e & Ee & R). rewrite R in Hb. cbn [obind] in Hb. exists e. split; [exact Ee|]. congruence. }
    destruct (omap_nth (mread epi) (t_adr t)) as (sorted & E2 & L2 & N2).
    { intros a Ha. apply (perm_lt _ _ _ PA) in Ha. destruct (mread_ok epi a ltac:(lia)) as (e & _ & R). eauto. }
    rewrite E2. cbn [obind]. assert (Lsorted : length sorted = n) by (rewrite L2, (Permutation_length PA), seq_length; reflexivity).
    set (Qs := map (fun g => map (fun e => kernel e (g_list g) zero) (firstn (g_count g) (skipn (g_first g) sorted))) (t_groups t)).
    destruct (tiles_blocks kernel zero sorted (t_groups t) 0 n HT ltac:(lia)) as [HQ LQ]. fold Qs in HQ, LQ.
    assert (E3 : ofold (fun fs k => do g <- mread (t_groups t) k; calcForceOnly kernel zero sorted fs g) o3 fs = Done (concat Qs)).
    { rewrite <- (splice_order Qs o3 fs).
      - assert (G : forall o fs, (forall k, In k o -> k < length (t_groups t)) ->
          ofold (fun fs k => do g <- mread (t_groups t) k; calcForceOnly kernel zero sorted fs g) o fs = ofold (fun m k => splice m (off Qs k) (nth k Qs [])) o fs).
        { induction o as [|k o IH]; intros fs' Ho; [reflexivity|]. cbn [ofold]. destruct (mread_ok (t_groups t) k (Ho k (or_introl eq_refl))) as (g & Eg & R). rewrite R. cbn [obind].
          destruct (HQ k g Eg) as (A1 & A2 & A3). unfold calcForceOnly. destruct (Nat.leb_spec (g_first g + g_count g) (length sorted)); [|lia].
          replace (nth k Qs []) with (map (fun e => kernel e (g_list g) zero) (firstn (g_count g) (skipn (g_first g) sorted))).
          - rewrite A1. rewrite Nat.add_0_l. destruct (splice _ _ _); cbn [obind]; [|reflexivity..]. apply IH. intros j Hj. apply Ho. right. exact Hj.
          - symmetry. apply nth_error_nth. unfold Qs. rewrite nth_error_map, Eg. reflexivity. }
        apply G. intros k Hk. apply (perm_lt _ _ _ P3) in Hk. exact Hk.
      - intros k Hk. unfold Qs in Hk. rewrite map_length in Hk. apply (perm_lt _ _ _ P3). exact Hk.
      - intros k Hk. unfold Qs. rewrite map_length. apply (perm_lt _ _ _ P3) in Hk. exact Hk.
      - rewrite LQ. lia. }
    rewrite E3. cbn [obind].
    assert (Ladr : length (t_adr t) = n) by (rewrite (Permutation_length PA), seq_length; reflexivity).
    assert (NDa : NoDup (t_adr t)) by (eapply perm_nodup; exact PA).
    set (idx := fun i => nth i (t_adr t) 0).
    destruct (scatter_ok idx (fun i _ => match nth_error (concat Qs) i with Some f => f | None => zero end) (fun fo i => do a <- mread (t_adr t) i; do f <- mread (concat Qs) i; mwrite fo a f) o4 fo) as (fo' & E4 & L4 & W4 & _).
    { assert (G : forall o, NoDup o -> (forall i, In i o -> i < n) -> NoDup (map idx o)).
      { induction o as [|i o IH]; intros ND Ho; cbn; [constructor|]. inversion ND; subst. constructor; [|apply IH; [assumption|intros j Hj; apply Ho; right; exact Hj]].
        rewrite in_map_iff. intros (j & Ej & Hj). assert (j = i) as ->; [|contradiction]. unfold idx in Ej. rewrite NoDup_nth in NDa. apply NDa in Ej; [exact Ej|rewrite Ladr; apply Ho; right; exact Hj|rewrite Ladr; apply Ho; left; reflexivity]. }
      apply G; [eapply perm_nodup; exact P4|]. intros i Hi. apply (perm_lt _ _ _ P4) in Hi. exact Hi. }
    { intros i m' Hi _ a _. apply (perm_lt _ _ _ P4) in Hi. destruct (mread_ok (t_adr t) i ltac:(lia)) as (b & Eb & R). rewrite R. cbn [obind].
      destruct (mread_ok (concat Qs) i ltac:(lia)) as (f & Ef & Rf). rewrite Rf, Ef. cbn [obind]. unfold idx. rewrite (nth_error_nth _ _ 0 Eb). reflexivity. }
    { intros i Hi. apply (perm_lt _ _ _ P4) in Hi. rewrite Lfo. unfold idx. apply (perm_lt n (t_adr t)); [exact PA|]. apply nth_In. lia. }
    rewrite E4. cbn [obind].
    destruct (omap_nth (mread fo') (seq 0 nTrg)) as (res & E5 & L5 & N5).
    { intros i Hi. apply in_seq in Hi. destruct (mread_ok fo' i ltac:(lia)) as (f & _ & R). eauto. }
    exists res. split; [exact E5|]. split; [rewrite L5, seq_length; reflexivity|].
    intros i p Hi Ep. destruct (Hepi i p Ep) as (e & Ee & Eepi).
    assert (Hin : In i (t_adr t)) by (apply (perm_lt _ _ _ PA); lia). apply In_nth_error in Hin as (k & Ek). assert (Hk : k < n) by (rewrite <- Ladr; apply nth_error_Some; congruence).
    destruct (N2 k i Ek) as (e' & Es & Re). unfold mread in Re. rewrite Eepi in Re. assert (e' = iCopy PT PS e p) as -> by congruence.
    assert (Hg : exists g kg, nth_error (t_groups t) kg = Some g /\ holds g k).
    { clear - HT Hk. revert HT Hk. generalize (t_groups t) as gs. assert (G : forall (gs : list (group Pos Rad EPS)) first n, tiles first gs n -> first <= k < n -> exists g kg, nth_error gs kg = Some g /\ holds g k).
      { induction gs as [|g gs IH]; intros first m H Hk; cbn in H; [lia|]. destruct H as [Hf H]. destruct (Nat.lt_ge_cases k (first + g_count g)) as [C|C].
        - exists g, 0. split; [reflexivity|]. unfold holds. lia.
        - destruct (IH _ _ H ltac:(lia)) as (g' & kg & Eg & Hh). exists g', (S kg). auto. }
      intros gs HT Hk. apply (G gs 0 n HT). lia. }
    destruct Hg as (g & kg & Eg & Hh). exists e, k, g. split; [exact Ee|]. split; [exact Ek|]. split; [eapply nth_error_In; exact Eg|]. split; [exact Hh|].
    destruct (N5 i i) as (f & Ef & Rf). { rewrite nth_error_nth' with (d := 0) by (rewrite seq_length; exact Hi). rewrite seq_nth by exact Hi. reflexivity. }
    rewrite Ef. f_equal. unfold mread in Rf. specialize (W4 k). rewrite (perm_lt _ _ _ P4) in W4. specialize (W4 Hk). unfold idx in W4 at 1. rewrite (nth_error_nth _ _ 0 Ek) in W4. rewrite W4 in Rf.
    unfold idx in Rf. rewrite (nth_error_nth _ _ 0 Ek) in Rf. destruct (mread_ok fo i ltac:(lia)) as (f0 & Ef0 & _). rewrite Ef0 in Rf. cbn [option_map] in Rf.
    destruct (HQ kg g Eg) as (A1 & A2 & A3). destruct Hh as [H1 H2].
    assert (EQ : nth_error Qs kg = Some (map (fun e => kernel e (g_list g) zero) (firstn (g_count g) (skipn (g_first g) sorted)))) by (unfold Qs; rewrite nth_error_map, Eg; reflexivity).
    rewrite (nth_error_nth _ _ [] EQ) in A3.
    pose proof (nth_error_concat Qs kg _ (k - g_first g) EQ ltac:(rewrite A3; lia)) as EC. rewrite Nat.add_0_l in A1. rewrite <- A1 in EC. replace (g_first g + (k - g_first g)) with k in EC by lia. rewrite EC in Rf.
    rewrite nth_error_map in Rf.
    assert (EF : nth_error (firstn (g_count g) (skipn (g_first g) sorted)) (k - g_first g) = Some (iCopy PT PS e p)).
    { rewrite <- Es. transitivity (nth_error (skipn (g_first g) sorted) (k - g_first g)).
      - rewrite <- (firstn_skipn (g_count g) (skipn (g_first g) sorted)) at 2. rewrite nth_error_app1; [reflexivity|]. rewrite firstn_length, skipn_length. lia.
      - rewrite <- (firstn_skipn (g_first g) sorted) at 2. rewrite nth_error_app2; rewrite firstn_length; [|lia]. f_equal. lia. }
    rewrite EF in Rf. cbn [option_map] in Rf. congruence.
  Qed.

  (** what the target sees *)
  Lemma iCopy_target (LT : lawful PT) e p : trgFlag p = true -> target PT (iCopy PT PS e p) (epTrg p) /\ iPos PT (iCopy PT PS e p) = getPos PT (epTrg p).
  Proof.
    intros H. unfold iCopy, fpRadius, fpPos, iSetPos, target, iPos. rewrite H. cbn [i_trg i_radius i_ep i_pos]. destruct LT as (L1 & L2 & _). rewrite L2. auto.
  Qed.
  Lemma jCopy_source (LS : lawful PS) e p : j_src (jCopy PT PS e p) = negb (trgFlag p) /\ jPos PS (jCopy PT PS e p) = fpPos PT PS p /\ j_radius (jCopy PT PS e p) = fpRadius PT PS p /\
    (trgFlag p = false -> j_ep (jCopy PT PS e p) = epSrc p).
  Proof.
    destruct LS as (L1 & L2 & _). unfold jCopy, jSetPos, jPos. destruct (trgFlag p) eqn:H; cbn [negb j_src j_radius j_pos j_ep].
    - repeat split; try reflexivity. discriminate.
    - unfold fpPos. rewrite H. rewrite L2. repeat split; reflexivity.
  Qed.

  (** the kernel adds up exactly the source particles in range *)
  Lemma pairKernel_ok inRange zero (add : mixEPI Pos Rad EPT -> mixEPJ Pos Rad EPS -> Force -> Force) e l f :
    pairKernel inRange zero add e l f = if i_trg e then fold_left (fun f j => add e j f) (filter (fun j => j_src j && inRange e j) l) zero else zero.
  Proof.
    unfold pairKernel. destruct (i_trg e); [|reflexivity]. generalize zero. induction l as [|j l IH]; intros z; [reflexivity|]. cbn [fold_left filter].
    rewrite IH. destruct (j_src j), (inRange e j); reflexivity.
  Qed.
  (** order independent accumulation over any list with the right particles in range *)
  Lemma fold_perm (add : mixEPI Pos Rad EPT -> mixEPJ Pos Rad EPS -> Force -> Force) e l l' : (forall i j f, add e i (add e j f) = add e j (add e i f)) -> Permutation l l' ->
    forall f, fold_left (fun f j => add e j f) l f = fold_left (fun f j => add e j f) l' f.
  Proof. intros HC. induction 1; intros f; cbn [fold_left]; auto; [rewrite HC; reflexivity|]. etransitivity; [apply IHPermutation1|apply IHPermutation2]. Qed.
  Lemma filter_perm {A} (p : A -> bool) l l' : Permutation l l' -> Permutation (filter p l) (filter p l').
  Proof. induction 1; cbn [filter]; [constructor|destruct (p x); [constructor|]; assumption|destruct (p x), (p y); try constructor; apply Permutation_refl|etransitivity; eassumption]. Qed.
  Lemma pairKernel_images inRange zero (add : mixEPI Pos Rad EPT -> mixEPJ Pos Rad EPS -> Force -> Force) e l images f :
    (forall i j f, add e i (add e j f) = add e j (add e i f)) -> Permutation (filter (inRange e) l) (filter (inRange e) images) -> i_trg e = true ->
    pairKernel inRange zero add e l f = fold_left (fun f j => add e j f) (filter (fun j => j_src j && inRange e j) images) zero.
  Proof.
    intros HC HP He. rewrite pairKernel_ok, He. apply fold_perm; [exact HC|].
    assert (G : forall l, filter (fun j => j_src j && inRange e j) l = filter j_src (filter (inRange e) l)).
    { induction l0 as [|j l0 IH]; [reflexivity|]. cbn [filter]. destruct (inRange e j) eqn:E; cbn [filter]; destruct (j_src j); cbn [andb]; rewrite IH; reflexivity. }
    rewrite !G. apply filter_perm. exact HP.
  Qed.

  (** both steps together *)
  Lemma interaction_ok (LT : lawful PT) inRange zero (add : mixEPI Pos Rad EPT -> mixEPJ Pos Rad EPS -> Force -> Force) (images : list (mixEPJ Pos Rad EPS)) (t : tree Pos Rad EPS)
    o1 o2 o3 o4 wrap trg src mem ei fs fo :
    let n := length trg + length src in
    Permutation o1 (seq 0 (length trg)) -> Permutation o2 (seq 0 (length src)) -> length mem = n ->
    (forall t, In t trg -> exists x, wrap (getPos PT (copyT t)) = Done x) -> (forall s, In s src -> exists x, wrap (getPos PS (copyS s)) = Done x) ->
    Permutation (t_adr t) (seq 0 n) -> tiles 0 (t_groups t) n -> Permutation o3 (seq 0 (length (t_groups t))) -> Permutation o4 (seq 0 n) ->
    length ei = n -> length fs = n -> length fo = n ->
    (forall e i j f, add e i (add e j f) = add e j (add e i f)) ->
    (forall sys i k p g e, updateSystem PT PS copyT copyS o1 o2 wrap trg src mem = Done sys -> nth_error sys i = Some p -> nth_error ei i = Some e -> nth_error (t_adr t) k = Some i -> In g (t_groups t) -> holds g k ->
      Permutation (filter (inRange (iCopy PT PS e p)) (g_list g)) (filter (inRange (iCopy PT PS e p)) images)) ->
    exists sys res, updateSystem PT PS copyT copyS o1 o2 wrap trg src mem = Done sys /\
      computeForce PT PS (pairKernel inRange zero add) zero t o3 o4 ei fs fo sys (length trg) = Done res /\ length res = length trg /\
      forall i t0, nth_error trg i = Some t0 -> exists x e, wrap (getPos PT (copyT t0)) = Done x /\ target PT e (setPos PT (copyT t0) x) /\ iPos PT e = x /\
        nth_error res i = Some (fold_left (fun f j => add e j f) (filter (fun j => j_src j && inRange e j) images) zero).
  Proof.
    intros n P1 P2 Lm HT HS PA Ht P3 P4 Le Lf Lo HC HI.
    destruct (updateSystem_ok o1 o2 wrap trg src mem P1 P2 Lm HT HS) as (sys & Es & Ls & Wt & _).
    destruct (computeForce_ok (pairKernel inRange zero add) zero t o3 o4 ei fs fo sys (length trg)) as (res & Er & Lr & Wr); rewrite ?Ls; auto; [lia|].
    exists sys, res. split; [exact Es|]. split; [exact Er|]. split; [exact Lr|].
    intros i t0 Et. destruct (Wt i t0 Et) as (x & p & Ex & Ep & Hp & Hep).
    assert (Hi : i < length trg) by (apply nth_error_Some; congruence).
    destruct (Wr i p Hi Ep) as (e & k & g & Ee & Ek & Hg & Hh & Eres).
    destruct (iCopy_target LT e p Hp) as [A B]. exists x, (iCopy PT PS e p). split; [exact Ex|]. rewrite <- Hep. split; [exact A|]. split; [rewrite B, Hep; apply LT|].
    rewrite Eres. f_equal. apply pairKernel_images; [apply HC|eapply HI; eassumption|exact (proj1 A)].
  Qed.
End Mix.
