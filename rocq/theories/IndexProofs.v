From Coq Require Import List Arith ZArith Lia Bool Permutation.
From Verif Require Import Outcome ListUtil MPIModel MPIProofs PointsModel ParticleModel ParticleSpec ParticleProofs
  ExchangeProofs IndexModel IndexSpec.
Import ListNotations.
Local Open Scope Z_scope.

(** ** Ids *)
Lemma fold_max_spec l : forall a, a <= fold_left Z.max l a /\ (forall g, In g l -> g <= fold_left Z.max l a) /\
  (fold_left Z.max l a = a \/ In (fold_left Z.max l a) l).
Proof.
  induction l as [|x l IH]; intros a; cbn [fold_left]; [split; [lia|split; [intros g []|now left]]|].
  destruct (IH (Z.max a x)) as (A & B & C). split; [lia|]. split.
  - intros g [<-|H]; [lia|]. apply B, H.
  - destruct C as [C|C]; [|right; right; exact C].
    rewrite C. destruct (Z.max_spec a x) as [(_ & ->)|(_ & ->)]; [right; now left|now left].
Qed.

Lemma maxGidLocal_top l : top_id (maxGidLocal l) l.
Proof. unfold maxGidLocal. destruct (fold_max_spec l 0) as (A & B & C). split; [exact A|]. split; [exact B|exact C]. Qed.

Lemma maxReduce_spec l : l <> [] -> (forall g, In g l -> g <= maxReduce l) /\ In (maxReduce l) l.
Proof.
  destruct l as [|x r]; [congruence|]. intros _. cbn [maxReduce].
  destruct (fold_max_spec r x) as (A & B & C). split.
  - intros g [<-|H]; [exact A|apply B, H].
  - destruct C as [->|C]; [now left|now right].
Qed.

Lemma top_unique m m' ids : top_id m ids -> top_id m' ids -> m = m'.
Proof.
  intros (A & B & C) (A' & B' & C').
  destruct C as [->|C], C' as [->|C']; auto.
  - specialize (B _ C'). lia.
  - specialize (B' _ C). lia.
  - specialize (B _ C'). specialize (B' _ C). lia.
Qed.

Lemma getMaxGid_top {B} (ranks : list (list (obj B))) : ranks <> [] ->
  exists ml m, nth_error (getMaxGid ranks) 0 = Some (ml, m) /\ top_id m (map gid (concat ranks)).
Proof.
  intros HN. unfold getMaxGid. set (loc := map (fun l => maxGidLocal (map gid l)) ranks).
  assert (HL : loc <> []) by (unfold loc; destruct ranks; cbn; congruence).
  destruct (maxReduce_spec loc HL) as (A & D).
  destruct loc as [|ml r] eqn:EL; [congruence|]. rewrite <- EL in *.
  exists ml, (maxReduce loc). split; [rewrite EL; reflexivity|].
  assert (D' := D). unfold loc in D'. apply in_map_iff in D'. destruct D' as (l & E & Hl).
  pose proof (maxGidLocal_top (map gid l)) as (T1 & T2 & T3). rewrite E in *.
  split; [exact T1|]. split.
  - intros g Hg. rewrite concat_map in Hg. apply in_concat in Hg. destruct Hg as (gs & H1 & H2).
    apply in_map_iff in H1. destruct H1 as (l' & <- & H1).
    pose proof (maxGidLocal_top (map gid l')) as (_ & U & _). specialize (U g H2).
    specialize (A (maxGidLocal (map gid l'))). unfold loc in A at 1.
    assert (maxGidLocal (map gid l') <= maxReduce loc); [|lia].
    apply A. apply in_map_iff. exists l'. auto.
  - destruct T3 as [T3|T3]; [now left|right]. rewrite concat_map. apply in_concat.
    exists (map gid l). split; [apply in_map, Hl|exact T3].
Qed.

Lemma range_cons a n : range a (S n) = a :: range (a + 1) n.
Proof.
  unfold range. cbn [seq map]. f_equal; [lia|]. rewrite <- seq_shift, map_map. apply map_ext. intros. lia.
Qed.
Lemma range_length a n : length (range a n) = n.
Proof. unfold range. rewrite map_length, seq_length. reflexivity. Qed.
Lemma seq_off n m : seq n m = map (fun i => (n + i)%nat) (seq 0 m).
Proof.
  induction n as [|n IH]; [symmetry; apply map_id|].
  rewrite <- seq_shift, IH, map_map. reflexivity.
Qed.
Lemma range_app a n m : range a (n + m) = range a n ++ range (a + Z.of_nat n) m.
Proof.
  unfold range. rewrite seq_app, map_app. f_equal. cbn [Nat.add].
  rewrite (seq_off n m), map_map. apply map_ext. intros. lia.
Qed.
Lemma range_In a n g : In g (range a n) <-> a <= g < a + Z.of_nat n.
Proof.
  unfold range. rewrite in_map_iff. split.
  - intros (i & <- & Hi). apply in_seq in Hi. lia.
  - intros H. exists (Z.to_nat (g - a)). rewrite in_seq. lia.
Qed.
Lemma range_NoDup a n : NoDup (range a n).
Proof. unfold range. apply FinFun.Injective_map_NoDup; [intros x y; lia|apply seq_NoDup]. Qed.

Lemma iota_range n : forall v, v + Z.of_nat n <= INT_MAX -> iota n v = Done (range v n).
Proof.
  induction n as [|n IH]; intros v H; cbn [iota].
  - destruct (Z.ltb_spec INT_MAX v); [lia|]. reflexivity.
  - destruct (Z.ltb_spec INT_MAX v); [lia|]. rewrite IH by lia. cbn [obind]. rewrite range_cons. reflexivity.
Qed.
Lemma iota_bound n : forall v l, iota n v = Done l -> v + Z.of_nat n <= INT_MAX.
Proof.
  induction n as [|n IH]; intros v l; cbn [iota]; destruct (Z.ltb_spec INT_MAX v); try discriminate.
  - intros _. lia.
  - destruct (iota n (v + 1)) as [r| |] eqn:E; try discriminate. intros _. specialize (IH _ _ E). lia.
Qed.

(** scattering a pool by counts splits it into consecutive pieces *)
Fixpoint pieces {A} (counts : list nat) (l : list A) : list (list A) :=
  match counts with [] => [] | c :: r => firstn c l :: pieces r (skipn c l) end.
Lemma pieces_concat {A} counts : forall l : list A, length l = sum_list counts -> concat (pieces counts l) = l.
Proof.
  induction counts as [|c r IH]; intros l H; cbn [pieces concat].
  - destruct l; [reflexivity|discriminate].
  - rewrite IH; [apply firstn_skipn|]. rewrite skipn_length. rewrite sum_list_cons in H. lia.
Qed.
Lemma pieces_lengths {A} counts : forall l : list A, length l = sum_list counts -> map (@length _) (pieces counts l) = counts.
Proof.
  induction counts as [|c r IH]; intros l H; cbn [pieces map]; [reflexivity|].
  rewrite sum_list_cons in H. f_equal; [rewrite firstn_length; lia|]. apply IH. rewrite skipn_length. lia.
Qed.
Lemma pieces_length {A} counts : forall l : list A, length (pieces counts l) = length counts.
Proof. induction counts as [|c r IH]; intros l; cbn [pieces length]; [reflexivity|]. f_equal. apply IH. Qed.
Lemma pieces_nth {A} counts : forall (l : list A) i c, nth_error counts i = Some c ->
  nth_error (pieces counts l) i = Some (slice (sum_list (firstn i counts)) c l).
Proof.
  induction counts as [|c0 r IH]; intros l i c H; [destruct i; discriminate|].
  destruct i as [|i]; cbn [nth_error] in *.
  - assert (c = c0) by congruence. subst c. reflexivity.
  - cbn [pieces nth_error]. rewrite (IH _ _ _ H). rewrite firstn_cons, sum_list_cons. unfold slice. rewrite skipn_skipn.
    do 2 f_equal. f_equal. lia.
Qed.

Lemma scatterv_pieces {A} (pool : list A) counts : length pool = sum_list counts ->
  MPI_Scatterv_root (Build_vbuf pool counts (psum counts)) counts = Done (pieces counts pool).
Proof.
  intros H. unfold MPI_Scatterv_root.
  rewrite (map_seq_nth (pieces counts pool) []) at 1. rewrite pieces_length.
  apply omap_pure. intros i Hi. apply in_seq in Hi.
  destruct (nth_error counts i) as [c|] eqn:E; [|apply nth_error_None in E; lia].
  unfold vblock. cbn [vcounts vdispls vdata].
  assert (MR : mread counts i = Done c) by (unfold mread; rewrite E; reflexivity).
  rewrite MR. cbn [obind]. rewrite mread_psum by lia. cbn [obind].
  pose proof (sum_firstn_S counts i c E) as ES. pose proof (sum_firstn_le counts (S i)) as EL.
  destruct (Nat.leb_spec (sum_list (firstn i counts) + c) (length pool)); [|lia].
  cbn [obind]. unfold slice at 1. rewrite firstn_length, skipn_length.
  replace (Nat.min c (length pool - sum_list (firstn i counts))) with c by lia. rewrite Nat.eqb_refl.
  f_equal. symmetry. apply nth_error_nth. apply pieces_nth, E.
Qed.

Lemma concat_combine_set {B} (ranks news : list (list (obj B))) (ids : list (list Z)) :
  length ranks = length news -> map (@length _) ids = map (@length _) news ->
  let out := map (fun p => setNewGid (fst (fst p)) (snd (fst p)) (snd p)) (combine (combine ranks news) ids) in
  length out = length ranks /\
  Permutation (map gid (concat out)) (map gid (concat ranks) ++ concat ids) /\
  forall r old new i o, nth_error ranks r = Some old -> nth_error news r = Some new ->
    nth_error ids r = Some i -> nth_error out r = Some o ->
    exists added, o = old ++ added /\ map gid added = i /\ map body added = map body new.
Proof.
  revert news ids. induction ranks as [|a ranks IH]; intros [|b news] [|c ids] H1 H2; cbn in H1, H2; try discriminate.
  - split; [reflexivity|]. split; [constructor|]. intros [|r] *; discriminate.
  - assert (L1 : length ranks = length news) by congruence. assert (L2 : length c = length b) by congruence.
    assert (L3 : map (@length _) ids = map (@length _) news) by congruence.
    destruct (IH news ids L1 L3) as (A & P & N). cbn [combine map concat fst snd]. 
    assert (G : map gid (map (fun p => Obj (snd p) (body (fst p))) (combine b c)) = c).
    { rewrite map_map. cbn [gid]. rewrite combine_snd by lia. reflexivity. }
    split; [cbn [length]; f_equal; exact A|]. split.
    + unfold setNewGid at 1. rewrite <- app_assoc, !map_app, G.
      rewrite <- app_assoc. apply Permutation_app_head.
      rewrite P. rewrite !app_assoc. apply Permutation_app_tail, Permutation_app_comm.
    + intros [|r] old new i o; cbn [nth_error]; [|apply N].
      intros E1 E2 E3 E4. assert (old = a) by congruence. assert (new = b) by congruence. assert (i = c) by congruence.
      subst old new i. assert (E5 : o = setNewGid a b c) by congruence. subst o. unfold setNewGid.
      eexists. split; [reflexivity|]. split; [exact G|]. rewrite map_map. cbn [body].
      rewrite <- (map_map fst body), combine_fst by lia. reflexivity.
Qed.

Lemma addNewSylinder_correct B (shuffle : list Z -> list Z) (ranks news : list (list (obj B))) m :
  (forall l, Permutation (shuffle l) l) -> ranks <> [] -> length news = length ranks ->
  top_id m (map gid (concat ranks)) ->
  m + 1 + Z.of_nat (length (concat news)) <= INT_MAX ->
  exists out ids, addNewSylinder shuffle ranks news = Done (out, ids) /\
    length out = length ranks /\ length ids = length ranks /\
    Permutation (concat ids) (range (m + 1) (length (concat news))) /\
    Permutation (map gid (concat out)) (map gid (concat ranks) ++ range (m + 1) (length (concat news))) /\
    forall r old new i o, nth_error ranks r = Some old -> nth_error news r = Some new ->
      nth_error ids r = Some i -> nth_error out r = Some o ->
      exists added, o = old ++ added /\ map gid added = i /\ map body added = map body new.
Proof.
  intros SH HN HL HT HB. unfold addNewSylinder.
  destruct (getMaxGid_top ranks HN) as (ml & m' & E & T).
  assert (m' = m) by (eapply top_unique; eassumption). subst m'.
  assert (MR : mread (getMaxGid ranks) 0 = Done (ml, m)) by (unfold mread; rewrite E; reflexivity).
  rewrite MR. cbn [obind snd]. rewrite psum_last, <- concat_length.
  rewrite iota_range by lia. cbn [obind].
  set (pool := shuffle (range (m + 1) (length (concat news)))).
  assert (PP : Permutation pool (range (m + 1) (length (concat news)))) by apply SH.
  assert (PL : length pool = sum_list (map (@length _) news)).
  { rewrite (Permutation_length PP), range_length. apply concat_length. }
  rewrite scatterv_pieces by exact PL. cbn [obind].
  set (ids := pieces (map (@length _) news) pool).
  assert (EL : map (@length _) ids = map (@length _) news) by (apply pieces_lengths, PL).
  destruct (concat_combine_set ranks news ids (eq_sym HL) EL) as (A & P & N).
  eexists. exists ids. split; [reflexivity|]. split; [exact A|].
  split; [rewrite <- (map_length (@length _) ids), EL, map_length; exact HL|].
  assert (EC : concat ids = pool) by (apply pieces_concat, PL).
  rewrite EC in P |- *. split; [exact PP|]. split; [|exact N].
  rewrite P. apply Permutation_app_head, PP.
Qed.

Lemma ids_distinct (old : list Z) m n : top_id m old -> NoDup old -> NoDup (old ++ range (m + 1) n).
Proof.
  intros (_ & T & _) H. 
  assert (G : forall l, (forall x, In x l -> x <= m) -> NoDup l -> NoDup (l ++ range (m + 1) n)).
  { induction l as [|x l IH]; intros HB HD; cbn [app]; [apply range_NoDup|].
    inversion HD; subst. constructor.
    - rewrite in_app_iff, range_In. specialize (HB x (or_introl eq_refl)). intros [?|?]; [tauto|lia].
    - apply IH; [intros y Hy; apply HB; now right|assumption]. }
  apply G; auto.
Qed.

Lemma addNewSylinder_bound B (shuffle : list Z -> list Z) (ranks news : list (list (obj B))) m out ids :
  ranks <> [] -> top_id m (map gid (concat ranks)) ->
  addNewSylinder shuffle ranks news = Done (out, ids) -> m + 1 + Z.of_nat (length (concat news)) <= INT_MAX.
Proof.
  intros HN HT. unfold addNewSylinder.
  destruct (getMaxGid_top ranks HN) as (ml & m' & E & T).
  assert (m' = m) by (eapply top_unique; eassumption). subst m'.
  assert (MR : mread (getMaxGid ranks) 0 = Done (ml, m)) by (unfold mread; rewrite E; reflexivity).
  rewrite MR. cbn [obind snd]. rewrite psum_last, <- concat_length.
  destruct (iota _ _) as [l| |] eqn:EI; try discriminate. intros _. apply iota_bound in EI. lia.
Qed.

Section SysHistory.
  Context {B C : Type} (le lt : C -> C -> bool) (O : coord_order le lt) (getPos : obj B -> vec C).

  Lemma survivors_incl {P} (ptcl : list P) idx : exists gone, Permutation ptcl (gone ++ survivors ptcl idx).
  Proof.
    unfold survivors.
    exists (map snd (filter (fun p => negb (negb (existsb (Z.eqb (Z.of_nat (fst p))) idx))) (combine (seq 0 (length ptcl)) ptcl))).
    rewrite <- map_app.
    rewrite <- (combine_snd (seq 0 (length ptcl)) ptcl) at 1 by apply seq_length.
    apply Permutation_map. set (f := fun p : nat * P => negb (existsb (Z.eqb (Z.of_nat (fst p))) idx)).
    generalize (combine (seq 0 (length ptcl)) ptcl). intros l. induction l as [|x l IH]; [constructor|].
    cbn [filter]. fold (f x). destruct (f x) eqn:E; cbn [negb].
    - rewrite IH at 1. apply Permutation_middle.
    - cbn [app]. constructor. exact IH.
  Qed.

  Lemma step_ids s s' : system_step le lt getPos s s' -> NoDup (all_ids s) -> length s' = length s /\ NoDup (all_ids s').
  Proof.
    intros H HD. destruct H as [s news shuffle out ids SH HL HE|s s' HF|s s' di nx ny nz junk HG HN HL HI HE].
    - destruct s as [|r0 s0] eqn:ES.
      { split; [reflexivity|exact HD]. }
      rewrite <- ES in *.
      assert (NE : map (@pr_ptcl (obj B)) s <> []) by (rewrite ES; discriminate).
      destruct (getMaxGid_top (map pr_ptcl s) NE) as (ml & m & _ & T).
      pose proof (addNewSylinder_bound B shuffle _ news m out ids NE T HE) as HB.
      destruct (addNewSylinder_correct B shuffle (map pr_ptcl s) news m SH NE) as (out' & ids' & E' & L1 & _ & _ & P & _);
        [rewrite map_length; exact HL|exact T|exact HB|].
      assert (out' = out) by congruence. subst out'. rewrite map_length in L1.
      split; [rewrite map_length, combine_length; lia|].
      unfold all_ids. rewrite map_map. cbn [pr_ptcl].
      rewrite combine_snd by lia.
      eapply Permutation_NoDup; [symmetry; exact P|]. apply ids_distinct; assumption.
    - split; [clear HD; induction HF; cbn [length]; congruence|].
      assert (exists gone, Permutation (all_ids s) (gone ++ all_ids s')) as (gone & P).
      { clear HD. unfold all_ids. induction HF as [|a b s s' (idx & HI & HR) HF IH]; [exists []; constructor|].
        destruct IH as (gone & P). destruct (removeParticle_spec (pr_ptcl a) idx HI) as (out & E & PO & _).
        assert (out = pr_ptcl b) by congruence. subst out.
        destruct (survivors_incl (pr_ptcl a) idx) as (g0 & P0).
        exists (map gid g0 ++ gone). cbn [map concat]. rewrite !map_app, P.
        rewrite P0 at 1. rewrite <- PO, map_app, <- !app_assoc. apply Permutation_app_head.
        rewrite !app_assoc. apply Permutation_app_tail, Permutation_app_comm. }
      eapply Permutation_NoDup in HD; [|exact P]. clear -HD.
      induction gone as [|x gone IH]; [exact HD|]. inversion HD; subst. auto.
    - destruct (exchange_correct le lt O getPos di nx ny nz HG HN s HL junk HI) as (out & E & L & P & _).
      assert (out = s') by congruence. subst out. split; [exact L|].
      unfold all_ids. eapply Permutation_NoDup; [|exact HD]. apply Permutation_map. symmetry. exact P.
  Qed.

  Lemma history_ids s s' : history (system_step le lt getPos) s s' -> NoDup (all_ids s) ->
    length s' = length s /\ NoDup (all_ids s').
  Proof.
    induction 1 as [s|s s1 s2 H IH HS]; [auto|]. intros HD. destruct (IH HD) as (L & D).
    destruct (step_ids s1 s2 HS D) as (L2 & D2). split; [congruence|exact D2].
  Qed.
End SysHistory.

(** ** Maps *)
Lemma tmap_ok sizes : Z.of_nat (sum_list sizes) <= INT_MAX ->
  exists m, getTMAPFromLocalSize sizes = Done m /\ length m = length sizes /\
    (forall r n, nth_error sizes r = Some n -> nth_error m r = Some (range (Z.of_nat (sum_list (firstn r sizes))) n)).
Proof.
  intros H. unfold getTMAPFromLocalSize. destruct (Z.ltb_spec INT_MAX (Z.of_nat (sum_list sizes))); [lia|].
  eexists. split; [reflexivity|]. split; [rewrite map_length, seq_length; reflexivity|].
  intros r n E. assert (r < length sizes)%nat by (apply nth_error_Some; congruence).
  rewrite nth_error_map_seq by assumption. rewrite (nth_error_nth _ _ _ E). f_equal.
  unfold range. rewrite seq_off, map_map. apply map_ext. intros. lia.
Qed.

Lemma concat_ranges (sizes : list nat) : forall base (m : list (list Z)), length m = length sizes ->
  (forall r n, nth_error sizes r = Some n -> nth_error m r = Some (range (base + Z.of_nat (sum_list (firstn r sizes))) n)) ->
  concat m = range base (sum_list sizes).
Proof.
  induction sizes as [|n sizes IH]; intros base [|l m] HL H; try discriminate; [reflexivity|].
  cbn [concat]. rewrite sum_list_cons, range_app.
  pose proof (H 0%nat n eq_refl) as H0. cbn [nth_error firstn sum_list fold_right] in H0.
  replace (base + Z.of_nat 0) with base in H0 by lia. 
  assert (l = range base n) by congruence. subst l. f_equal.
  apply IH; [cbn in HL; lia|]. intros r k E. pose proof (H (S r) k E) as H1. cbn [nth_error] in H1. rewrite H1.
  rewrite firstn_cons, sum_list_cons. do 2 f_equal. lia.
Qed.

Lemma sum_list_scale k l : sum_list (map (fun n => (n * k)%nat) l) = (sum_list l * k)%nat.
Proof. induction l as [|a l IH]; [reflexivity|]. cbn [map]. rewrite !sum_list_cons, IH. lia. Qed.

Lemma range_nth a n i : (i < n)%nat -> nth_error (range a n) i = Some (a + Z.of_nat i).
Proof. intros H. unfold range. rewrite (nth_error_map_seq (fun i => a + Z.of_nat i)) by exact H. reflexivity. Qed.

Lemma updateSylinderMap_correct sizes : 6 * Z.of_nat (sum_list sizes) <= INT_MAX ->
  exists idx rows, updateSylinderMap sizes = Done (idx, rows) /\
    map (@length _) idx = sizes /\ map (@length _) rows = map (fun n => (6 * n)%nat) sizes /\
    concat idx = range 0 (sum_list sizes) /\ concat rows = range 0 (6 * sum_list sizes) /\
    forall r li lr i g, nth_error idx r = Some li -> nth_error rows r = Some lr -> nth_error li i = Some g ->
      forall j, (j < 6)%nat -> nth_error lr (6 * i + j) = Some (6 * g + Z.of_nat j).
Proof.
  intros H. unfold updateSylinderMap.
  destruct (tmap_ok sizes) as (m & E & L & N); [lia|]. rewrite E. cbn [obind].
  set (s6 := map (fun n => (n * 6)%nat) sizes).
  assert (S6 : sum_list s6 = (sum_list sizes * 6)%nat) by apply sum_list_scale.
  destruct (tmap_ok s6) as (rows & E2 & L2 & N2); [lia|]. rewrite E2. cbn [obind].
  set (idx := map _ _). exists idx, rows.
  assert (NI : forall r n, nth_error sizes r = Some n ->
    nth_error idx r = Some (range (0 + Z.of_nat (sum_list (firstn r sizes))) n)).
  { intros r n Er. unfold idx. erewrite map_nth_error.
    2:{ assert (G : forall (a : list nat) (b : list (list Z)) x y, nth_error a r = Some x -> nth_error b r = Some y ->
          nth_error (combine a b) r = Some (x, y)).
        { clear. revert r. induction r as [|r IH]; intros [|a0 a] [|b0 b] x y; cbn; try discriminate; [congruence|auto]. }
        apply G; [exact Er|apply N, Er]. }
    cbn [fst snd]. f_equal. unfold range at 2. apply map_ext_in. intros i Hi. apply in_seq in Hi.
    destruct n as [|n]; [lia|]. rewrite range_cons. cbn [hd]. lia. }
  assert (LI : length idx = length sizes) by (unfold idx; rewrite map_length, combine_length; lia).
  assert (LEN : forall (a : list (list Z)) (s : list nat), length a = length s ->
     (forall r n, nth_error s r = Some n -> exists l, nth_error a r = Some l /\ length l = n) -> map (@length _) a = s).
  { clear. intros a s Hl H. apply nth_error_ext. intros r.
    destruct (nth_error s r) as [n|] eqn:E.
    - destruct (H r n E) as (l & E1 & E2). rewrite (map_nth_error _ _ _ E1). congruence.
    - apply nth_error_None. rewrite map_length, Hl. apply nth_error_None, E. }
  split; [reflexivity|]. split; [|split; [|split; [|split]]].
  - apply LEN; [exact LI|]. intros r n Er. eexists. split; [apply NI, Er|apply range_length].
  - replace (map (fun n => (6 * n)%nat) sizes) with s6 by (apply map_ext; intros; lia).
    apply LEN; [exact L2|]. intros r n Er. eexists. split; [apply N2, Er|apply range_length].
  - apply concat_ranges; [exact LI|exact NI].
  - replace (6 * sum_list sizes)%nat with (sum_list s6) by lia. apply concat_ranges; [exact L2|].
    intros r n Er. rewrite (N2 r n Er). do 2 f_equal.
  - intros r li lr i g E3 E4 E5 j Hj.
    assert (Hr : (r < length sizes)%nat) by (rewrite <- LI; apply nth_error_Some; congruence).
    destruct (nth_error sizes r) as [n|] eqn:En; [|apply nth_error_None in En; lia].
    rewrite (NI r n En) in E3. assert (E6 : nth_error s6 r = Some (n * 6)%nat) by (unfold s6; apply (map_nth_error (fun n => (n * 6)%nat)), En).
    rewrite (N2 r _ E6) in E4.
    assert (li = range (0 + Z.of_nat (sum_list (firstn r sizes))) n) by congruence. subst li.
    assert (lr = range (Z.of_nat (sum_list (firstn r s6))) (n * 6)) by congruence. subst lr.
    assert (Hi : (i < n)%nat) by (rewrite <- (range_length (0 + Z.of_nat (sum_list (firstn r sizes))) n); apply nth_error_Some; congruence).
    rewrite range_nth in E5 by exact Hi. rewrite range_nth by lia.
    unfold s6. rewrite firstn_map, sum_list_scale. f_equal.
    assert (g = 0 + Z.of_nat (sum_list (firstn r sizes)) + Z.of_nat i) by congruence. lia.
Qed.

Lemma two_block_map (m1 m2 : list (list Z)) n1 n2 : length m1 = length m2 ->
  Permutation (concat m1) (range 0 n1) -> Permutation (concat m2) (range 0 n2) ->
  Z.of_nat n1 + Z.of_nat n2 <= INT_MAX ->
  exists m, getTMAPFromTwoBlockTMAP m1 m2 = Done m /\ length m = length m1 /\
    (forall r a b, nth_error m1 r = Some a -> nth_error m2 r = Some b ->
       nth_error m r = Some (a ++ map (fun g => g + Z.of_nat n1) b)) /\
    Permutation (concat m) (range 0 (n1 + n2)) /\ NoDup (concat m).
Proof.
  intros HL P1 P2 HB. unfold getTMAPFromTwoBlockTMAP, globalSize.
  assert (S1 : sum_list (map (@length _) m1) = n1) by (rewrite <- concat_length, (Permutation_length P1); apply range_length).
  assert (S2 : sum_list (map (@length _) m2) = n2) by (rewrite <- concat_length, (Permutation_length P2); apply range_length).
  rewrite S1, S2. destruct (Z.ltb_spec INT_MAX (Z.of_nat n1 + Z.of_nat n2)); [lia|].
  eexists. split; [reflexivity|]. split; [rewrite map_length, combine_length; lia|].
  assert (PP : Permutation (concat (map (fun p : list Z * list Z => fst p ++ map (fun g => g + Z.of_nat n1) (snd p)) (combine m1 m2)))
            (range 0 (n1 + n2))).
  { rewrite range_app, <- P1.
    assert (R2 : range (0 + Z.of_nat n1) n2 = map (fun g => g + Z.of_nat n1) (range 0 n2)).
    { unfold range. rewrite map_map. apply map_ext. intros. lia. }
    rewrite R2, <- P2. clear -HL. revert m2 HL. induction m1 as [|a m1 IH]; intros [|b m2] HL; try discriminate; [constructor|].
    cbn [combine map concat fst snd]. rewrite IH by (cbn in HL; lia). rewrite map_app, <- !app_assoc.
    apply Permutation_app_head. rewrite !app_assoc. apply Permutation_app_tail, Permutation_app_comm. }
  split; [|split; [exact PP|]].
  - intros r a b Ea Eb. erewrite map_nth_error.
    2:{ instantiate (1 := (a, b)). clear -Ea Eb. revert m1 m2 Ea Eb.
        induction r as [|r IH]; intros [|a0 m1] [|b0 m2]; cbn; try discriminate; [congruence|auto]. }
    reflexivity.
  - eapply Permutation_NoDup; [symmetry; exact PP|apply range_NoDup].
Qed.

Lemma two_block_vector {A} (zero : A) v1 v2 : getTVFromTwoBlockTV zero v1 v2 = Done (v1 ++ v2).
Proof.
  unfold getTVFromTwoBlockTV. rewrite repeat_app.
  pose proof (splice_app [] (repeat zero (length v1)) (repeat zero (length v2)) v1) as H1.
  cbn [app length] in H1. rewrite H1 by (rewrite repeat_length; reflexivity). cbn [obind].
  pose proof (splice_app v1 (repeat zero (length v2)) [] v2) as H2. rewrite !app_nil_r in H2.
  apply H2. rewrite repeat_length. reflexivity.
Qed.

Lemma firstn_snoc {A} (l : list A) k x : nth_error l k = Some x -> firstn (S k) l = firstn k l ++ [x].
Proof.
  revert l. induction k as [|k IH]; intros [|a l] H; try discriminate; cbn [nth_error] in H.
  - assert (a = x) by congruence. subst a. reflexivity.
  - rewrite firstn_cons, (IH l H), firstn_cons. reflexivity.
Qed.

Lemma vector_copy {A} (junk : A) l : getTVFromVector junk l = Done l.
Proof.
  unfold getTVFromVector.
  assert (G : forall k, (k <= length l)%nat ->
    ofold (fun out i => do x <- mread l i; mwrite out i x) (seq 0 k) (repeat junk (length l))
    = Done (firstn k l ++ repeat junk (length l - k))).
  { induction k as [|k IH]; intros Hk.
    - cbn [seq ofold firstn app]. rewrite Nat.sub_0_r. reflexivity.
    - rewrite seq_S, ofold_app, IH by lia. cbn [obind ofold Nat.add].
      destruct (nth_error l k) as [x|] eqn:E; [|apply nth_error_None in E; lia].
      unfold mread. rewrite E. cbn [obind]. unfold mwrite.
      rewrite app_length, firstn_length, repeat_length.
      destruct (Nat.ltb_spec k (Nat.min k (length l) + (length l - k))); [|lia]. cbn [obind]. f_equal.
      rewrite firstn_app, skipn_app, firstn_firstn, firstn_length.
      replace (Nat.min k k) with k by lia. replace (k - Nat.min k (length l))%nat with 0%nat by lia.
      rewrite firstn_O, app_nil_r. rewrite (skipn_all2 (firstn k l)) by (rewrite firstn_length; lia).
      replace (S k - Nat.min k (length l))%nat with 1%nat by lia.
      replace (length l - k)%nat with (S (length l - S k)) by lia. cbn [repeat skipn app].
      rewrite (firstn_snoc l k x E), <- app_assoc. reflexivity. }
  rewrite G by lia. rewrite firstn_all, Nat.sub_diag, app_nil_r. reflexivity.
Qed.

(** ** Links *)
Lemma gatherv_concat {A} (news : list (list A)) (junk : A) :
  MPI_Gatherv_root news (Build_vbuf (repeat junk (last (psum (map (@length _) news)) 0%nat)) (map (@length _) news) (psum (map (@length _) news)))
  = Done (concat news).
Proof.
  unfold MPI_Gatherv_root. cbn [vcounts vdispls vdata]. rewrite psum_last, <- concat_length.
  assert (G : forall k, (k <= length news)%nat ->
    ofold (fun buf s => do b <- mread news s; do c <- mread (map (@length _) news) s; do d <- mread (psum (map (@length _) news)) s;
       if (length b =? c)%nat then splice buf d b else UB) (seq 0 k) (repeat junk (length (concat news)))
    = Done (concat (firstn k news) ++ repeat junk (length (concat (skipn k news))))).
  { induction k as [|k IH]; intros Hk; [reflexivity|].
    rewrite seq_S, ofold_app, IH by lia. cbn [obind ofold Nat.add].
    destruct (nth_error news k) as [b|] eqn:E; [|apply nth_error_None in E; lia].
    unfold mread at 1. rewrite E. cbn [obind].
    unfold mread at 1. rewrite (map_nth_error (@length A) _ _ E). cbn [obind].
    rewrite mread_psum by (rewrite map_length; lia). cbn [obind]. rewrite Nat.eqb_refl.
    rewrite firstn_map, <- concat_length.
    assert (SK : skipn k news = b :: skipn (S k) news).
    { clear -E. revert news E. induction k as [|k IH]; intros [|a news] E; cbn in E |- *; try discriminate; [congruence|]. apply IH, E. }
    rewrite SK. cbn [concat]. rewrite app_length, repeat_app.
    rewrite splice_app by (rewrite repeat_length; reflexivity). cbn [obind]. f_equal.
    rewrite (firstn_snoc news k b E), concat_app. cbn [concat]. rewrite app_nil_r, <- app_assoc. reflexivity. }
  rewrite G by lia. rewrite firstn_all, skipn_all. cbn. rewrite app_nil_r. reflexivity.
Qed.

Lemma addNewLink_correct ranks news : addNewLink ranks news = Done (map (fun s => emplaceLinks s (concat news)) ranks).
Proof. unfold addNewLink. rewrite gatherv_concat. reflexivity. Qed.

Lemma emplace_links_are s ls new : links_are s ls -> links_are (emplaceLinks s new) (ls ++ new).
Proof.
  intros (A & B). split; cbn [emplaceLinks fwd rev].
  - apply Permutation_app_tail, A.
  - rewrite map_app. apply Permutation_app_tail, B.
Qed.

Lemma addLinks_history calls : forall ranks ls, Forall (fun s => links_are s ls) ranks ->
  exists out, ofold addNewLink calls ranks = Done out /\ length out = length ranks /\
    Forall (fun s => links_are s (ls ++ concat (map (@concat _) calls))) out.
Proof.
  induction calls as [|c calls IH]; intros ranks ls H; cbn [ofold map concat].
  - exists ranks. rewrite app_nil_r. auto.
  - rewrite addNewLink_correct. cbn [obind].
    destruct (IH (map (fun s => emplaceLinks s (concat c)) ranks) (ls ++ concat c)) as (out & E & L & F).
    { apply Forall_map. eapply Forall_impl; [|exact H]. intros s. apply emplace_links_are. }
    exists out. split; [exact E|]. split; [rewrite L; apply map_length|]. rewrite <- app_assoc in F. exact F.
Qed.

Lemma load_links s lines : rev s = [] ->
  links_are (setLinkMapFromFile s lines) (map parseLink (filter (fun l => hd 0 l =? 76) (skipn 2 lines))).
Proof. intros H. unfold setLinkMapFromFile, emplaceLinks, links_are. cbn [fwd rev]. rewrite H. split; reflexivity. Qed.

(** number formatting and reading *)
Lemma fmtDigits_spec f : forall n, 0 <= n < 10 ^ Z.of_nat f -> (f > 0)%nat ->
  fmtDigits f n <> [] /\ Forall (fun c => 48 <= c <= 57) (fmtDigits f n) /\ digitsValue (fmtDigits f n) = n.
Proof.
  induction f as [|f IH]; intros n Hn Hf; [lia|]. cbn [fmtDigits].
  destruct (Z.ltb_spec n 10) as [H|H].
  - split; [discriminate|]. split; [repeat constructor; lia|]. unfold digitsValue. cbn [fold_left]. lia.
  - assert (Hf' : (f > 0)%nat). { destruct f; [|lia]. cbn in Hn. lia. }
    assert (D : 0 <= n / 10 < 10 ^ Z.of_nat f).
    { split; [apply Z.div_pos; lia|]. apply Z.div_lt_upper_bound; [lia|].
      rewrite Nat2Z.inj_succ, Z.pow_succ_r in Hn by lia. lia. }
    destruct (IH (n / 10) D Hf') as (A & F & V).
    pose proof (Z.mod_pos_bound n 10 ltac:(lia)) as M.
    split; [destruct (fmtDigits f (n / 10)); discriminate|]. split.
    + apply Forall_app. split; [exact F|]. repeat constructor; lia.
    + unfold digitsValue in *. rewrite fold_left_app, V. cbn [fold_left].
      pose proof (Z.div_mod n 10 ltac:(lia)). lia.
Qed.

Lemma isDigit_true c : 48 <= c <= 57 -> isDigit c = true.
Proof. intros H. unfold isDigit. apply andb_true_intro. split; apply Z.leb_le; lia. Qed.

Lemma takeDigits_app ds rest : Forall (fun c => 48 <= c <= 57) ds ->
  match rest with [] => True | c :: _ => isDigit c = false end -> takeDigits (ds ++ rest) = (ds, rest).
Proof.
  intros F HR. induction F as [|c ds Hc F IH]; cbn [app takeDigits].
  - destruct rest as [|c r]; [reflexivity|]. cbn [takeDigits]. rewrite HR. reflexivity.
  - rewrite (isDigit_true c Hc), IH. reflexivity.
Qed.

Lemma readInt_fmt n rest : INT_MIN <= n <= INT_MAX ->
  match rest with [] => True | c :: _ => isDigit c = false end ->
  readInt (32 :: fmtInt n ++ rest) = (n, true, rest).
Proof.
  intros Hn HR. unfold INT_MIN, INT_MAX in Hn. unfold fmtInt.
  assert (W : forall c r, 48 <= c <= 57 -> skipWs (c :: r) = c :: r).
  { intros c r Hc. cbn [skipWs]. unfold isSpace. destruct (Z.eqb_spec c 32); [lia|].
    destruct (Z.leb_spec 9 c); [|lia]. destruct (Z.leb_spec c 13); [lia|]. reflexivity. }
  assert (NS : forall (c : Z) (r : list Z), 48 <= c <= 57 ->
     match c :: r with 45 :: t => (-1, t) | 43 :: t => (1, t) | _ => (1, c :: r) end = (1, c :: r)).
  { intros c r Hc. destruct c as [|c|c]; try lia.
    do 6 (destruct c as [c|c|]; try reflexivity; try lia). }
  destruct (Z.ltb_spec n 0) as [H|H].
  - destruct (fmtDigits_spec 10 (- n)) as (A & F & V); [change (10 ^ Z.of_nat 10) with 10000000000; lia|lia|].
    generalize dependent (fmtDigits 10 (- n)). intros ds0 A F V.
    assert (RI : readInt (32 :: (45 :: ds0) ++ rest) =
      let (ds, rest') := takeDigits (ds0 ++ rest) in
      match ds with
      | [] => (0, false, rest')
      | _ => let v := -1 * digitsValue ds in
             if v <? INT_MIN then (INT_MIN, false, rest')
             else if INT_MAX <? v then (INT_MAX, false, rest')
             else (v, true, rest')
      end) by reflexivity.
    rewrite RI, takeDigits_app by assumption. destruct ds0 as [|c ds]; [congruence|]. cbv zeta. rewrite V.
    replace (-1 * - n) with n by lia. unfold INT_MIN, INT_MAX.
    destruct (Z.ltb_spec n (-2147483648)); [lia|]. destruct (Z.ltb_spec 2147483647 n); [lia|]. reflexivity.
  - destruct (fmtDigits_spec 10 n) as (A & F & V); [change (10 ^ Z.of_nat 10) with 10000000000; lia|lia|].
    unfold readInt. cbn [skipWs]. change (isSpace 32) with true. cbn match.
    destruct (fmtDigits 10 n) as [|c ds] eqn:EF; [congruence|]. pose proof (Forall_inv F) as Hc. cbv beta in Hc.
    cbn [app]. rewrite W by exact Hc. rewrite (NS c _ Hc). change (c :: ds ++ rest) with ((c :: ds) ++ rest).
    rewrite takeDigits_app by assumption. rewrite V, Z.mul_1_l.
    unfold INT_MIN, INT_MAX.
    destruct (Z.ltb_spec n (-2147483648)); [lia|]. destruct (Z.ltb_spec 2147483647 n); [lia|]. reflexivity.
Qed.

Lemma parse_fmtLink l : INT_MIN <= fst l <= INT_MAX -> INT_MIN <= snd l <= INT_MAX -> parseLink (fmtLink l) = l.
Proof.
  intros H1 H2. destruct l as [p n]. cbn [fst snd] in *. unfold parseLink, fmtLink. cbn [fst snd].
  change (tl (skipWs (76 :: 32 :: fmtInt p ++ 32 :: fmtInt n))) with (32 :: fmtInt p ++ 32 :: fmtInt n).
  rewrite readInt_fmt by (auto; reflexivity).
  rewrite <- (app_nil_r (fmtInt n)). rewrite readInt_fmt by (auto; exact I). reflexivity.
Qed.

Lemma file_roundtrip s h1 h2 objects ls : rev s = [] ->
  Forall (fun l => hd 0 l <> 76) objects ->
  Forall (fun l => INT_MIN <= fst l <= INT_MAX /\ INT_MIN <= snd l <= INT_MAX) ls ->
  links_are (setLinkMapFromFile s (asciiLines h1 h2 objects ls)) ls.
Proof.
  intros HS HO HL. pose proof (load_links s (asciiLines h1 h2 objects ls) HS) as H.
  assert (E : map parseLink (filter (fun l => hd 0 l =? 76) (skipn 2 (asciiLines h1 h2 objects ls))) = ls).
  { unfold asciiLines. cbn [skipn]. rewrite filter_app_.
    rewrite filter_none. 2:{ intros a Ha. rewrite Forall_forall in HO. specialize (HO a Ha). apply Z.eqb_neq, HO. }
    rewrite filter_all. 2:{ intros a Ha. apply in_map_iff in Ha. destruct Ha as (x & <- & _). reflexivity. }
    cbn [app]. rewrite map_map. rewrite <- (map_id ls) at 2. apply map_ext_in. intros a Ha.
    rewrite Forall_forall in HL. destruct (HL a Ha). apply parse_fmtLink; assumption. }
  rewrite E in H. exact H.
Qed.

(** ** Directory *)
Lemma ddLookup_app {D} (l1 l2 : list (Z * D)) id :
  ddLookup (l1 ++ l2) id = match ddLookup l1 id with Some d => Some d | None => ddLookup l2 id end.
Proof.
  unfold ddLookup. induction l1 as [|e l1 IH]; [reflexivity|]. cbn [app find].
  destruct (fst e =? id); [reflexivity|exact IH].
Qed.
Lemma ddLookup_notin {D} (l : list (Z * D)) id : ~ In id (map fst l) -> ddLookup l id = None.
Proof.
  unfold ddLookup. induction l as [|e l IH]; [reflexivity|]. cbn [map In find]. intros H.
  destruct (Z.eqb_spec (fst e) id); [tauto|]. apply IH. tauto.
Qed.
Lemma ddLookup_in {D} (l : list (Z * D)) id d : NoDup (map fst l) -> In (id, d) l -> ddLookup l id = Some d.
Proof.
  unfold ddLookup. induction l as [|e l IH]; [intros _ []|]. cbn [map find]. intros HD [->|H].
  - cbn [fst]. rewrite Z.eqb_refl. reflexivity.
  - inversion HD; subst. destruct (Z.eqb_spec (fst e) id) as [E|E]; [|auto].
    exfalso. match goal with X : ~ In _ _ |- _ => apply X end. apply in_map_iff. exists (id, d). auto.
Qed.

Lemma directory_last {D} (pubs : list (list (list (Z * D)))) : forall dir,
  Forall (fun p => NoDup (map fst (concat p))) pubs ->
  (forall id d, last_published pubs id d -> ddLookup (fold_left buildIndex pubs dir) id = Some d) /\
  (forall id, never_published pubs id -> ddLookup (fold_left buildIndex pubs dir) id = ddLookup dir id).
Proof.
  induction pubs as [|p pubs IH]; intros dir HF; cbn [fold_left].
  - split; [|reflexivity]. intros id d (b & q & a & E & _). destruct b; discriminate.
  - inversion HF as [|? ? HP HF']; subst. destruct (IH (buildIndex dir p) HF') as (A & B). split.
    + intros id d (b & q & a & E & HI & HA). destruct b as [|b0 b].
      * cbn [app] in E. assert (q = p) by congruence. assert (a = pubs) by congruence. subst q a.
        rewrite B by exact HA. unfold buildIndex, ddUpdate. rewrite ddLookup_app.
        erewrite ddLookup_in; [reflexivity| |rewrite <- in_rev; exact HI].
        rewrite map_rev. apply NoDup_rev, HP.
      * apply A. exists b, q, a. split; [cbn [app] in E; congruence|]. auto.
    + intros id HN. rewrite B by (intros q Hq; apply HN; now right).
      unfold buildIndex, ddUpdate. rewrite ddLookup_app, ddLookup_notin; [reflexivity|].
      rewrite map_rev, <- in_rev. apply HN. now left.
Qed.

Lemma zddFind_correct {D} (fresh : D) junk pubs reqs data0 :
  Forall (fun p => NoDup (map fst (concat p))) pubs ->
  let dir := fold_left buildIndex pubs [] in
  let (res, ok) := zddFind fresh junk dir reqs data0 in
  length res = Nat.max (length reqs) (length data0) /\
  skipn (length reqs) res = skipn (length reqs) data0 /\
  (forall i id d, nth_error reqs i = Some id -> last_published pubs id d -> nth_error res i = Some d) /\
  (ok = true <-> Forall (fun id => exists d, last_published pubs id d) reqs).
Proof.
  intros HF dir. destruct (directory_last pubs [] HF) as (A & B). fold dir in A, B.
  unfold zddFind. set (f := fun id => match ddLookup dir id with Some d => d | None => junk id end).
  set (data := if (length data0 <? length reqs)%nat then _ else _).
  assert (LD : length data = Nat.max (length reqs) (length data0)).
  { unfold data. destruct (Nat.ltb_spec (length data0) (length reqs)); [rewrite app_length, repeat_length; lia|lia]. }
  split; [rewrite app_length, map_length, skipn_length, LD; lia|]. split; [|split].
  - rewrite skipn_app, skipn_all2 by (rewrite map_length; lia). rewrite map_length, Nat.sub_diag. cbn [app skipn].
    unfold data. destruct (Nat.ltb_spec (length data0) (length reqs)); [|reflexivity].
    rewrite !skipn_all2; [reflexivity|lia|rewrite app_length, repeat_length; lia].
  - intros i id d Ei HP. rewrite nth_error_app1 by (rewrite map_length; apply nth_error_Some; congruence).
    rewrite (map_nth_error f _ _ Ei). unfold f. rewrite (A id d HP). reflexivity.
  - rewrite forallb_forall, Forall_forall. split; intros H id Hid; specialize (H id Hid).
    + destruct (ddLookup dir id) as [d|] eqn:E; [|discriminate]. clear -A B E HF.
      assert (P : (exists d, last_published pubs id d) \/ never_published pubs id).
      { clear -pubs. induction pubs as [|p pubs IH]; [right; intros q []|].
        destruct IH as [(d & b & q & a & E & H)|H].
        - left. exists d, (p :: b), q, a. rewrite E. auto.
        - destruct (in_dec Z.eq_dec id (map fst (concat p))) as [I|I].
          + apply in_map_iff in I. destruct I as ((id', d) & E & I). cbn in E. subst id'.
            left. exists d, [], p, pubs. auto.
          + right. intros q [<-|Hq]; [exact I|apply H, Hq]. }
      destruct P as [P|P]; [exact P|]. rewrite (B id P) in E. discriminate.
    + destruct H as (d & H). rewrite (A id d H). reflexivity.
Qed.
