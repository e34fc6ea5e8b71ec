(** Calls on arrays of the pool. *)
From Coq Require Import List Arith ZArith Lia Bool.
From Verif Require Import Outcome ListUtil PoolModel PoolSpec PoolProofs PoolAlloc.
Import ListNotations.

Section Pool.
  Context {A : Type}.
  Notation heap := (heap A).
  Notation array := (array A).
  Notation ptr := (ptr A).

  (** ** An array that has no memory in the pool does not matter *)

  Definition setCell (h : heap) (o : nat) (v : option array) : heap := Heap (h_gen h) (h_mem h) (h_top h) (h_size h) (h_segs h) (h_epoch h) (h_bufs h) (put (h_arrs h) o v).

  Lemma nth_put {B} (l : list B) i v j : nth_error (put l i v) j = if i =? j then match nth_error l i with Some _ => Some v | None => None end else nth_error l j.
  Proof.
    destruct (Nat.eqb_spec i j) as [<-|N]; [|apply put_other; exact N]. destruct (nth_error l i) as [b|] eqn:E; [eapply put_same; exact E|]. apply nth_error_None. rewrite put_length. apply nth_error_None. exact E.
  Qed.
  Lemma put_comm {B} (l : list B) i v j w : i <> j -> put (put l i v) j w = put (put l j w) i v.
  Proof.
    intros N. apply nth_error_ext. intros n. rewrite !nth_put. destruct (Nat.eqb_spec j n), (Nat.eqb_spec i n), (Nat.eqb_spec i j), (Nat.eqb_spec j i); try congruence; subst; try reflexivity; try lia.
  Qed.

  Lemma repoint_cell gen o v : forall segs cum (arrs : list (option array)), (forall g, In g segs -> g_used g = true -> g_ptr g <> o) ->
    repoint gen segs cum (put arrs o v) = (do r <- repoint gen segs cum arrs; Done (put r o v)) /\ forall r, repoint gen segs cum arrs = Done r -> nth_error r o = nth_error arrs o.
  Proof.
    induction segs as [|g segs IH]; intros cum arrs H; cbn [repoint].
    - split; [reflexivity|]. intros r E. injection E as <-. reflexivity.
    - assert (H' : forall g, In g segs -> g_used g = true -> g_ptr g <> o) by (intros; apply H; [right|]; assumption). destruct (g_used g) eqn:U; [|cbn [obind]; apply IH; exact H']. pose proof (H g (or_introl eq_refl) U) as N. rewrite put_other by auto.
      destruct (nth_error arrs (g_ptr g)) as [[a|]|]; cbn [obind]; try (split; [reflexivity|discriminate]). rewrite put_comm by auto. destruct (IH (cum + g_cap g) (put arrs (g_ptr g) (Some (withData a (InPool gen cum)))) H') as (I1 & I2). split; [exact I1|]. intros r Er. rewrite (I2 r Er). apply put_other. auto.
  Qed.
  Lemma reInit_cell fresh add o v (h : heap) : (forall g, In g (h_segs h) -> g_used g = true -> g_ptr g <> o) ->
    reInitialize fresh add (setCell h o v) = (do r <- reInitialize fresh add h; Done (setCell r o v)) /\ forall r, reInitialize fresh add h = Done r -> nth_error (h_arrs r) o = nth_error (h_arrs h) o /\ h_bufs r = h_bufs h.
  Proof.
    intros H. unfold reInitialize. cbn [setCell h_mem h_gen h_segs h_arrs h_top h_size h_epoch h_bufs]. destruct (splice _ 0 (h_mem h)) as [mem| |]; cbn [obind]; [|split; [reflexivity|discriminate]..]. destruct (repoint_cell (S (h_gen h)) o v (h_segs h) 0 (h_arrs h) H) as (R1 & R2). rewrite R1.
    destruct (repoint (S (h_gen h)) (h_segs h) 0 (h_arrs h)) as [arrs| |]; cbn [obind]; [|split; [reflexivity|discriminate]..]. split; [reflexivity|]. intros r E. injection E as <-. cbn [h_arrs h_bufs]. auto.
  Qed.
  Lemma moveBufs_cell o v : forall bs (h : heap), (forall b, In b bs -> u_ptr b <> o) -> moveBufs bs (setCell h o v) = (do r <- moveBufs bs h; Done (setCell r o v)) /\ forall r, moveBufs bs h = Done r -> nth_error (h_arrs r) o = nth_error (h_arrs h) o.
  Proof.
    induction bs as [|b bs IH]; intros h H; cbn [moveBufs].
    - split; [reflexivity|]. intros r E. injection E as <-. reflexivity.
    - assert (H' : forall b, In b bs -> u_ptr b <> o) by (intros; apply H; right; assumption). destruct (u_used b); cbn [negb]; [|apply IH; exact H']. pose proof (H b (or_introl eq_refl)) as N. unfold addSegment. cbn [setCell h_segs h_gen h_mem h_top h_size h_epoch h_bufs h_arrs].
      destruct (SEGMENTS <=? Z.of_nat (length (h_segs h)))%Z; cbn [obind]; [split; [reflexivity|discriminate]|]. cbn [h_segs h_gen h_mem h_top h_size h_epoch h_bufs h_arrs]. destruct (splice (h_mem h) (h_top h) (u_data b)) as [mem| |]; cbn [obind]; [|split; [reflexivity|discriminate]..].
      unfold arr. cbn [h_arrs]. rewrite put_other by auto. destruct (nth_error (h_arrs h) (u_ptr b)) as [[a|]|]; cbn [obind]; [|split; [reflexivity|discriminate]..]. rewrite put_comm by auto.
      match goal with |- context [put (put (h_arrs h) (u_ptr b) ?x) o v] => set (w := x) end. destruct (IH (Heap (h_gen h) mem (h_top h + length (u_data b)) (h_size h + length (u_data b)) (h_segs h ++ [Seg (length (u_data b)) true (u_ptr b)]) (h_epoch h) (h_bufs h) (put (h_arrs h) (u_ptr b) w)) H') as (I1 & I2).
      split; [exact I1|]. intros r E. rewrite (I2 r E). cbn [h_arrs]. apply put_other. auto.
  Qed.
  Lemma unify_cell par fresh o v (h : heap) : (forall g, In g (h_segs h) -> g_used g = true -> g_ptr g <> o) -> (forall b, In b (h_bufs h) -> u_ptr b <> o) ->
    unifyMem par fresh (setCell h o v) = (do r <- unifyMem par fresh h; Done (setCell r o v)) /\ forall r, unifyMem par fresh h = Done r -> nth_error (h_arrs r) o = nth_error (h_arrs h) o.
  Proof.
    intros H1 H2. unfold unifyMem. cbn [setCell h_bufs h_mem h_size]. destruct (negb par && negb (length (h_bufs h) =? 0)); [|split; [reflexivity|intros r E; injection E as <-; reflexivity]].
    match goal with |- context [h_size h + ?x] => set (add := x) end. destruct (reInit_cell fresh add o v h H1) as (R1 & R2).
    assert (exists m, (if length (h_mem h) <? h_size h + add then reInitialize fresh add (setCell h o v) else Done (setCell h o v)) = (do r <- m; Done (setCell r o v)) /\ (if length (h_mem h) <? h_size h + add then reInitialize fresh add h else Done h) = m /\ forall r, m = Done r -> nth_error (h_arrs r) o = nth_error (h_arrs h) o /\ h_bufs r = h_bufs h) as (m & E1 & E2 & E3).
    { destruct (length (h_mem h) <? h_size h + add); [exists (reInitialize fresh add h); auto|exists (Done h); split; [reflexivity|split; [reflexivity|intros r E; injection E as <-; auto]]]. }
    rewrite E2. rewrite E1.
    destruct m as [h1| |]; cbn [obind]; [|split; [reflexivity|discriminate]..]. destruct (E3 h1 eq_refl) as (Q1 & Q2). cbn [setCell h_bufs]. destruct (moveBufs_cell o v (h_bufs h1) h1) as (M1 & M2); [rewrite Q2; exact H2|]. rewrite M1.
    destruct (moveBufs (h_bufs h1) h1) as [h2| |]; cbn [obind]; [|split; [reflexivity|discriminate]..]. split; [reflexivity|]. intros r E. injection E as <-. cbn [h_arrs]. rewrite (M2 h2 eq_refl). exact Q1.
  Qed.

  (** ** The arrays but one *)

  Definition others (h h' : heap) (o : nat) : Prop := length (h_arrs h') = length (h_arrs h) /\ forall o', o' <> o -> (nth_error (h_arrs h) o' = Some None -> nth_error (h_arrs h') o' = Some None) /\
    forall a, nth_error (h_arrs h) o' = Some (Some a) -> exists a', nth_error (h_arrs h') o' = Some (Some a') /\ alike a a' /\ bytes h' a' = bytes h a.
  Lemma keeps_others (h h' : heap) o : keeps h h' (Some o) -> others h h' o.
  Proof.
    intros (K1 & K2 & K3). split; [exact K1|]. intros o' N. split; [apply K2|]. intros a Ha. destruct (K3 o' a Ha) as (a' & Ha' & C). destruct (C ltac:(congruence)) as (C1 & C2). exists a'. split; [exact Ha'|]. split; [exact C1|]. destruct C1 as (D1 & _ & _ & D4 & _). unfold bytes. rewrite D1, D4. exact C2.
  Qed.
  Lemma others_trans (h1 h2 h3 : heap) o : others h1 h2 o -> others h2 h3 o -> others h1 h3 o.
  Proof.
    intros (A1 & A2) (B1 & B2). split; [congruence|]. intros o' N. destruct (A2 o' N) as (A3 & A4), (B2 o' N) as (B3 & B4). split; [auto|]. intros a Ha. destruct (A4 a Ha) as (a' & Ha' & (C1 & C2 & C3 & C4 & C5) & C6). destruct (B4 a' Ha') as (a'' & Ha'' & (D1 & D2 & D3 & D4 & D5) & D6). exists a''. split; [exact Ha''|]. split; [unfold alike; repeat split; congruence|congruence].
  Qed.
  Lemma others_refl (h : heap) o : others h h o.
  Proof. split; [reflexivity|]. intros o' N. split; [auto|]. intros a Ha. exists a. split; [exact Ha|]. split; [unfold alike; repeat split|reflexivity]. Qed.

  Definition empty_cell (v : option array) : Prop := match v with None => True | Some a => fine a /\ a_cap a = 0 /\ a_id a = (-1)%Z /\ a_data a = Null end.
  Lemma cell_ok (h : heap) o a v : Inv h (Some o) 0 -> nth_error (h_arrs h) o = Some (Some a) -> (forall i g, nth_error (h_segs h) i = Some g -> g_used g = true -> g_ptr g <> o) -> (forall i b, nth_error (h_bufs h) i = Some b -> u_ptr b <> o) -> empty_cell v -> sound (setCell h o v) /\ others h (setCell h o v) o /\ nth_error (h_arrs (setCell h o v)) o = Some v.
  Proof.
    intros I Ha H1 H2 Hv. assert (P1 : nth_error (put (h_arrs h) o v) o = Some v) by (eapply put_same; exact Ha). assert (P2 : forall o', o' <> o -> nth_error (put (h_arrs h) o v) o' = nth_error (h_arrs h) o') by (intros; apply put_other; auto). split; [|split; [|exact P1]].
    - destruct I as [I1 I2 I3 I4 I5 I6 I7 I8 I9]. constructor; cbn [setCell h_top h_size h_segs h_mem h_arrs h_bufs h_gen h_epoch]; try assumption.
      + intros i g Hi U. destruct (I6 i g Hi U) as (b & Hb & C). pose proof (H1 i g Hi U) as N. exists b. rewrite P2 by exact N. split; [exact Hb|]. intros _. apply C. congruence.
      + intros i u Hk Hi U. destruct (I7 i u Hk Hi U) as (b & Hb & C). pose proof (H2 i u Hi) as N. exists b. rewrite P2 by exact N. split; [exact Hb|]. intros _. apply C. congruence.
      + intros o' b Hb _. destruct (Nat.eq_dec o' o) as [->|N].
        * rewrite P1 in Hb. injection Hb as ->. destruct Hv as (V1 & V2 & V3 & V4). split; [exact V1|]. unfold home. rewrite V4. auto.
        * rewrite P2 in Hb by exact N. apply (I8 o' b Hb). congruence.
    - split; [apply put_length|]. cbn [setCell h_arrs]. intros o' N. rewrite P2 by exact N. split; [auto|]. intros b Hb. exists b. split; [exact Hb|]. split; [unfold alike; repeat split|reflexivity].
  Qed.

  (** memory of an array given back *)
  Lemma free_ok par fresh o (h : heap) a v : sound h -> tight h -> ~ full h -> nth_error (h_arrs h) o = Some (Some a) -> a_pool a = true -> (exists ge off, a_data a = InPool ge off) -> empty_cell v ->
    exists h', poolFree par fresh (a_id a) h = Done h' /\ nth_error (h_arrs h') o = Some (Some a) /\ sound (setCell h' o v) /\ tight (setCell h' o v) /\ others h (setCell h' o v) o /\ nth_error (h_arrs (setCell h' o v)) o = Some v.
  Proof.
    intros I T Hf Ha Ep (ge & off & Ed) Hv. destruct (where_is _ _ _ _ _ I ltac:(discriminate) Ha Ep) as [(_ & X & _)|[(i0 & g0 & Hi0 & U0 & E0 & (_ & Id0 & _ & _))|(i0 & b0 & _ & _ & _ & (_ & _ & X & _))]]; [congruence| |congruence].
    assert (Hid : (0 <= a_id a < SEGMENTS)%Z) by (assert (i0 < length (h_segs h)) by (apply nth_error_Some; congruence); unfold full in Hf; lia). assert (Ei : Z.to_nat (a_id a) = i0) by lia.
    destruct (release_ok par fresh (a_id a) h o (Inv_weak _ _ _ I) ltac:(eauto) Hid) as [(size & segs & E & I1 & R1 & R2 & R3 & R4)|(_ & N)]; [intros g Hg; rewrite Ei in Hg; assert (g = g0) by congruence; subst g; auto| |rewrite Ei in N; congruence]. set (h1 := setSegs h size segs) in *.
    assert (N1 : forall i g, nth_error (h_segs h1) i = Some g -> g_used g = true -> g_ptr g <> o). { intros i g Hi U Eg. destruct (R2 i g Hi U) as (Hi' & Ni & _). destruct (seg_id _ _ _ _ _ _ I Ha Hi' U Eg) as (_ & Y & _). lia. }
    assert (N2 : forall i b, nth_error (h_bufs h1) i = Some b -> u_ptr b <> o). { intros i b Hi Eb. destruct (buf_id _ _ _ _ _ I Ha Hi Eb) as (_ & Y & _). lia. }
    destruct (cell_ok h1 o a v I1 Ha N1 N2 Hv) as (I2 & K2 & Ha2). set (h2 := setCell h1 o v) in *.
    assert (T2 : tight h2).
    { intros g Hg Ug. change (h_segs h2) with segs in Hg. change (h_bufs h2) with (h_bufs h). assert (Ls : length segs = S (length segs - 1)) by (assert (length segs - 1 < length segs) by (apply nth_error_Some; congruence); lia). destruct (R4 g Ls Hg Ug) as (Hg' & Le). rewrite Le in Hg'. exact (T g Hg' Ug). }
    destruct (unify_ok par fresh h2 I2) as (h3 & t & E3 & I3 & K3 & Q1 & Q2 & Q3 & Q4 & Q5); [unfold few, full in *; change (h_segs h2) with segs; change (h_bufs h2) with (h_bufs h); lia|].
    destruct (unify_cell par fresh o v h1) as (C1 & C2).
    { intros g Hg. apply In_nth_error in Hg. destruct Hg as (i & Hi). exact (N1 i g Hi). }
    { intros b Hb. apply In_nth_error in Hb. destruct Hb as (i & Hi). exact (N2 i b Hi). }
    fold h2 in C1. rewrite E3 in C1. destruct (unifyMem par fresh h1) as [h4| |] eqn:E4; cbn [obind] in C1; try discriminate C1. injection C1 as ->. exists h4. split; [exact E|]. split; [rewrite (C2 h4 eq_refl); exact Ha|]. split; [exact I3|]. split; [exact (unify_tight _ _ _ Q1 Q2 Q4 T2)|].
    assert (Alive : o < length (h_arrs h4)) by (apply nth_error_Some; rewrite (C2 h4 eq_refl); change (nth_error (h_arrs h1) o) with (nth_error (h_arrs h) o); congruence).
    split; [|destruct (nth_error (h_arrs h4) o) eqn:X; [eapply put_same; exact X|apply nth_error_None in X; lia]].
    apply (others_trans h h1); [apply keeps_others, keeps_weak, setSegs_keeps|]. apply (others_trans h1 h2); [exact K2|]. apply keeps_others, keeps_weak. exact K3.
  Qed.

  (** ** What users see *)

  Definition view (h : heap) (a : array) : list A := firstn (a_sz a * a_size a) (bytes h a).
  Lemma fine_of (h : heap) o a : sound h -> nth_error (h_arrs h) o = Some (Some a) -> fine a.
  Proof. intros I Ha. apply (i_arrs _ _ _ I o a Ha). discriminate. Qed.
  Lemma view_length (h : heap) o a : sound h -> nth_error (h_arrs h) o = Some (Some a) -> length (view h a) = a_sz a * a_size a.
  Proof. intros I Ha. unfold view. rewrite firstn_length, (bytes_length h o a I Ha). destruct (fine_of h o a I Ha) as (_ & F & _). nia. Qed.
  Lemma shows_view (h : heap) o a : sound h -> nth_error (h_arrs h) o = Some (Some a) -> shows h o (a_sz a) (a_pool a) (view h a).
  Proof.
    intros I Ha. pose proof (view_length h o a I Ha) as L. exists a. split; [exact Ha|]. split; [reflexivity|]. split; [reflexivity|]. split; [exact L|]. rewrite L. destruct (fine_of h o a I Ha) as (_ & F & _). rewrite (read_ok h o a 0 _ I Ha) by nia. reflexivity.
  Qed.
  Lemma shows_only (h : heap) o a sz pool bs : sound h -> nth_error (h_arrs h) o = Some (Some a) -> shows h o sz pool bs -> sz = a_sz a /\ pool = a_pool a /\ bs = view h a.
  Proof.
    intros I Ha (a' & Ha' & E1 & E2 & L & E3). assert (a' = a) by congruence. subst a'. split; [auto|]. split; [auto|]. destruct (fine_of h o a I Ha) as (_ & F & _). rewrite L, <- E1, (read_ok h o a 0 _ I Ha) in E3 by nia. injection E3 as <-. reflexivity.
  Qed.

  Definition cellOf (h : heap) (v : option array) : option (nat * bool * list A) := match v with None => None | Some a => Some (a_sz a, a_pool a, view h a) end.
  Lemma shows_next (h h' : heap) o a v (m : world A) : sound h -> sound h' -> shows_all h m -> nth_error (h_arrs h) o = Some (Some a) -> others h h' o -> nth_error (h_arrs h') o = Some v -> shows_all h' (put m o (cellOf h' v)).
  Proof.
    intros I I' (L & S) Ha (K1 & K2) Hv. split; [rewrite put_length; congruence|]. intros o' x Hx. rewrite nth_put in Hx. destruct (Nat.eqb_spec o o') as [<-|N].
    - destruct (nth_error m o); [|discriminate Hx]. injection Hx as <-. destruct v as [a'|]; [|exact Hv]. cbn [cellOf]. apply shows_view; assumption.
    - destruct (K2 o' (not_eq_sym N)) as (K3 & K4). specialize (S o' x Hx). destruct x as [[[sz pool] bs]|]; [|apply K3; exact S]. pose proof S as (b & Hb & _). destruct (shows_only h o' b sz pool bs I Hb S) as (-> & -> & ->). destruct (K4 b Hb) as (b' & Hb' & (C1 & C2 & C3 & C4 & C5) & C6).
      assert (E : view h b = view h' b') by (unfold view; rewrite C1, C3, C6; reflexivity). rewrite E, <- C1, <- C2. apply shows_view; assumption.
  Qed.
  Lemma nth_world (h : heap) (m : world A) o a : sound h -> shows_all h m -> nth_error (h_arrs h) o = Some (Some a) -> nth_error m o = Some (Some (a_sz a, a_pool a, view h a)).
  Proof.
    intros I (L & S) Ha. destruct (nth_error m o) as [x|] eqn:E.
    - specialize (S o x E). destruct x as [[[sz pool] bs]|]; [|congruence]. destruct (shows_only h o a sz pool bs I Ha S) as (-> & -> & ->). reflexivity.
    - apply nth_error_None in E. assert (o < length (h_arrs h)) by (apply nth_error_Some; congruence). lia.
  Qed.

  (** ** Size and capacity *)

  Lemma size_ok (h : heap) o a n : sound h -> nth_error (h_arrs h) o = Some (Some a) -> n <= a_cap a -> sound (setArr h o (withSize a n)) /\ others h (setArr h o (withSize a n)) o /\ nth_error (h_arrs (setArr h o (withSize a n))) o = Some (Some (withSize a n)) /\ bytes (setArr h o (withSize a n)) (withSize a n) = bytes h a.
  Proof.
    intros I Ha Hn. destruct (setArr_ok h o 0 a (withSize a n) (Inv_weak _ _ _ I) Ha) as (I1 & K & Ha1). split; [|split; [apply keeps_others; exact K|split; [exact Ha1|reflexivity]]]. destruct (i_arrs _ _ _ I o a Ha ltac:(discriminate)) as ((F1 & F2 & F3 & F4) & Ho).
    apply (settle _ o 0 (withSize a n) I1 Ha1); [repeat split; assumption|exact Ho| |].
    - intros i g Hi U E. exact (seg_id _ _ _ _ _ _ I Ha Hi U E).
    - intros i b _ Hi U E. exact (buf_id _ _ _ _ _ I Ha Hi E).
  Qed.

  Lemma resized_of (s k : nat) (B B' : list A) : firstn s B' = firstn s B -> k <= length B' -> resized k (firstn s B) (firstn k B').
  Proof.
    intros H L. rewrite <- H. destruct (le_lt_dec k s) as [C|C].
    - exists []. rewrite app_nil_r, firstn_firstn, Nat.min_l by lia. split; [reflexivity|]. rewrite firstn_length. lia.
    - exists (skipn s (firstn k B')). rewrite firstn_firstn, Nat.min_r by lia. split; [|rewrite firstn_length; lia]. rewrite <- (firstn_skipn s (firstn k B')) at 1. rewrite firstn_firstn, Nat.min_l by lia. reflexivity.
  Qed.

  Lemma roomy_ge n : n < roomy n.
  Proof. unfold roomy. lia. Qed.
  Lemma roomy_z n : Z.of_nat (roomy n) = (Z.of_nat n + (Z.of_nat n + 10) / 10 + 100)%Z.
  Proof. unfold roomy. rewrite !Nat2Z.inj_add, Nat2Z.inj_div, Nat2Z.inj_add. reflexivity. Qed.
  Lemma roomy_moderate n : moderate n -> (Z.of_nat (roomy n) < PARTICLES)%Z.
  Proof.
    unfold moderate, PARTICLES. intros H. rewrite roomy_z. pose proof (Z.div_le_mono (Z.of_nat n + 10) 900000010 10 ltac:(lia) ltac:(lia)) as D. change (900000010 / 10)%Z with 90000001%Z in D. change (2 ^ 30)%Z with 1073741824%Z. lia.
  Qed.
  Lemma roomy_int n : (Z.of_nat n < PARTICLES)%Z -> (Z.of_nat (roomy n) <= INT_MAX)%Z.
  Proof.
    unfold PARTICLES, INT_MAX. change (2 ^ 30)%Z with 1073741824%Z. intros H. rewrite roomy_z. pose proof (Z.div_le_mono (Z.of_nat n + 10) 1073741834 10 ltac:(lia) ltac:(lia)) as D. change (1073741834 / 10)%Z with 107374183%Z in D. lia.
  Qed.
  Lemma moderate_particles n : moderate n -> (Z.of_nat n < PARTICLES)%Z.
  Proof. unfold moderate, PARTICLES. change (2 ^ 30)%Z with 1073741824%Z. lia. Qed.

  (** an array with memory that is not in a buffer *)
  Lemma in_pool (h : heap) o a : sound h -> nth_error (h_arrs h) o = Some (Some a) -> a_pool a = true -> ~ bare a -> ~ buffered a -> exists ge off, a_data a = InPool ge off.
  Proof.
    intros I Ha Hp N1 N2. destruct (i_arrs _ _ _ I o a Ha ltac:(discriminate)) as (_ & Ho). unfold bare, buffered, home in *. destruct (a_data a) eqn:E; [congruence|destruct Ho; congruence|eauto|exfalso; eauto].
  Qed.

  Lemma resize_ok par fresh n o (h : heap) a : sound h -> tight h -> ~ full h -> nth_error (h_arrs h) o = Some (Some a) -> moderate n \/ n <= a_cap a -> (a_cap a < n -> ~ buffered a) ->
    exists h' a', resize par fresh n o h = Done (Some h') /\ sound h' /\ tight h' /\ others h h' o /\ nth_error (h_arrs h') o = Some (Some a') /\ a_sz a' = a_sz a /\ a_pool a' = a_pool a /\ a_size a' = n /\ resized (a_sz a * n) (view h a) (view h' a').
  Proof.
    intros I T Hf Ha Hn Hb. pose proof (fine_of h o a I Ha) as (F1 & F2 & F3 & F4). unfold resize, arr at 1. rewrite Ha. cbn [obind].
    assert (Hp : (Z.of_nat n < PARTICLES)%Z) by (destruct Hn as [Hn|Hn]; [apply moderate_particles; exact Hn|lia]). pose proof (roomy_int n Hp) as Hi. replace (INT_MAX <? Z.of_nat (roomy n))%Z with false by (symmetry; apply Z.ltb_ge; exact Hi).
    set (cap := Nat.max (roomy n) (a_org a)). pose proof (roomy_ge n).
    assert (Hc : moderate n -> (Z.of_nat cap < PARTICLES)%Z) by (intros M; pose proof (roomy_moderate n M); unfold cap; lia).
    assert (Fin : forall h1 a1, sound h1 -> tight h1 -> others h h1 o -> nth_error (h_arrs h1) o = Some (Some a1) -> a_sz a1 = a_sz a -> a_pool a1 = a_pool a -> n <= a_cap a1 -> firstn (a_sz a * a_size a) (bytes h1 a1) = firstn (a_sz a * a_size a) (bytes h a) ->
      exists h' a', (do a <- arr h1 o; Done (Some (setArr h1 o (withSize a n)))) = Done (Some h') /\ sound h' /\ tight h' /\ others h h' o /\ nth_error (h_arrs h') o = Some (Some a') /\ a_sz a' = a_sz a /\ a_pool a' = a_pool a /\ a_size a' = n /\ resized (a_sz a * n) (view h a) (view h' a')).
    { intros h1 a1 I1 T1 K1 Ha1 E1 E2 E3 E4. unfold arr. rewrite Ha1. cbn [obind]. destruct (size_ok h1 o a1 n I1 Ha1 E3) as (I2 & K2 & Ha2 & Eb). exists (setArr h1 o (withSize a1 n)), (withSize a1 n). split; [reflexivity|]. split; [exact I2|]. split; [exact T1|]. split; [exact (others_trans _ _ _ _ K1 K2)|]. split; [exact Ha2|]. split; [exact E1|]. split; [exact E2|]. split; [reflexivity|].
      unfold view. rewrite Eb. cbn [withSize a_sz a_size]. rewrite E1. apply resized_of; [exact E4|]. rewrite (bytes_length h1 o a1 I1 Ha1), E1. nia. }
    destruct (a_data a) as [|l|ge off|e i] eqn:Ed.
    1: { destruct (i_arrs _ _ _ I o a Ha ltac:(discriminate)) as (_ & Ho). unfold home in Ho. rewrite Ed in Ho. destruct Ho as (C0 & _). assert (M : moderate n) by (destruct Hn as [Hn|Hn]; [exact Hn|]; unfold moderate; lia).
         destruct (first_memory par fresh cap o h a I T Hf Ha Ed (Hc M)) as (h1 & a1 & E & I1 & T1 & K1 & Ha1 & (G1 & G2 & G3 & G4 & G5)). rewrite E. cbn [obind]. apply (Fin h1 a1); auto; [apply keeps_others; exact K1|unfold cap in G5; lia|]. replace (a_size a) with 0 by lia. rewrite Nat.mul_0_r. reflexivity. }
    all: destruct (Nat.leb_spec n (a_cap a)) as [Hl|Hl]; cbn [obind]; [apply (Fin h a); auto using others_refl|].
    all: assert (M : moderate n) by (destruct Hn as [Hn|Hn]; [exact Hn|lia]); replace (PARTICLES <=? Z.of_nat cap)%Z with false by (symmetry; apply Z.leb_gt; exact (Hc M)).
    all: destruct (grow_ok par fresh cap o h a I T Hf Ha) as (h1 & a1 & E & I1 & T1 & K1 & Ha1 & (G1 & G2 & G3 & G4 & G5) & B); [intros Ep; apply (in_pool h o a I Ha Ep); [unfold bare; congruence|exact (Hb Hl)]|exact (Hc M)|unfold cap; lia|unfold cap; lia|].
    all: rewrite E; cbn [obind]; apply (Fin h1 a1); auto; [apply keeps_others; exact K1|unfold cap in G5; lia].
  Qed.

  Lemma reserve_ok par fresh n o (h : heap) a : sound h -> tight h -> ~ full h -> nth_error (h_arrs h) o = Some (Some a) -> moderate n -> (a_pool a = true -> a_cap a <= n -> ~ bare a /\ ~ buffered a) ->
    exists h' a', reserveAtLeast par fresh n o h = Done (Some h') /\ sound h' /\ tight h' /\ others h h' o /\ nth_error (h_arrs h') o = Some (Some a') /\ a_sz a' = a_sz a /\ a_pool a' = a_pool a /\ view h' a' = view h a.
  Proof.
    intros I T Hf Ha M Hb. pose proof (fine_of h o a I Ha) as (F1 & F2 & F3 & F4). unfold reserveAtLeast, arr at 1. rewrite Ha. cbn [obind]. destruct (Nat.ltb_spec n (a_cap a)) as [Hl|Hl]; [exists h, a; auto 12 using others_refl|].
    pose proof (roomy_int n (moderate_particles n M)) as Hi. replace (INT_MAX <? Z.of_nat (roomy n))%Z with false by (symmetry; apply Z.ltb_ge; exact Hi). pose proof (roomy_moderate n M) as Hp. replace (PARTICLES <=? Z.of_nat (roomy n))%Z with false by (symmetry; apply Z.leb_gt; exact Hp). pose proof (roomy_ge n).
    destruct (grow_ok par fresh (roomy n) o h a I T Hf Ha) as (h1 & a1 & E & I1 & T1 & K1 & Ha1 & (G1 & G2 & G3 & G4 & G5) & B); [intros Ep; destruct (Hb Ep Hl); apply (in_pool h o a I Ha Ep); auto|exact Hp|lia|lia|].
    exists h1, a1. split; [exact E|]. split; [exact I1|]. split; [exact T1|]. split; [apply keeps_others; exact K1|]. split; [exact Ha1|]. split; [exact G1|]. split; [exact G2|]. unfold view. rewrite G1, G3. exact B.
  Qed.

  Lemma setElement_ok i v o (h : heap) a : sound h -> tight h -> nth_error (h_arrs h) o = Some (Some a) -> length v = a_sz a -> i < a_cap a ->
    exists h' a', setElement i v o h = Done (Some h') /\ sound h' /\ tight h' /\ others h h' o /\ nth_error (h_arrs h') o = Some (Some a') /\ alike a a' /\ written (a_sz a * i) v (bytes h a) (bytes h' a').
  Proof.
    intros I T Ha Lv Hi. unfold setElement, arr. rewrite Ha. cbn [obind]. destruct (write_ok h o a (a_sz a * i) v I Ha) as (h1 & a1 & E & I1 & T1 & K1 & Ha1 & Al & _ & W); [nia|]. rewrite E. cbn [obind]. exists h1, a1. split; [reflexivity|]. split; [exact I1|]. split; [auto|]. split; [apply keeps_others; exact K1|]. auto.
  Qed.

  Lemma written_app k (v l l' : list A) : written k v l l' -> k + length v <= length l' -> firstn (k + length v) l' = firstn k l ++ v.
  Proof.
    intros W L. assert (Ll : k <= length l). { destruct (le_lt_dec k (length l)) as [H|H]; [exact H|]. exfalso. assert (Q : nth_error l' (length l) = None) by (rewrite W; destruct (Nat.leb_spec k (length l)); [lia|]; cbn [andb]; apply nth_error_None; lia). apply nth_error_None in Q. lia. }
    apply nth_error_ext. intros i. destruct (le_lt_dec (k + length v) i) as [H|H]; [rewrite (proj2 (nth_error_None (firstn _ l') i)), (proj2 (nth_error_None (firstn k l ++ v) i)) by (rewrite ?app_length, ?firstn_length; lia); reflexivity|]. rewrite nth_firstn, W by exact H. destruct (Nat.ltb_spec i (k + length v)); [|lia]. rewrite andb_true_r. destruct (Nat.leb_spec k i).
    - rewrite nth_error_app2; rewrite firstn_length_le by lia; [reflexivity|lia].
    - rewrite nth_error_app1 by (rewrite firstn_length_le; lia). rewrite nth_firstn by lia. reflexivity.
  Qed.
  Lemma written_mid k (v l l' : list A) : written k v l l' -> k + length v <= length l -> length l' = length l -> l = firstn k l ++ slice k (length v) l ++ skipn (k + length v) l /\ l' = firstn k l ++ v ++ skipn (k + length v) l.
  Proof.
    intros W L L'. split.
    - rewrite <- (firstn_skipn k l) at 1. f_equal. unfold slice. rewrite <- (firstn_skipn (length v) (skipn k l)) at 1. f_equal. apply nth_error_ext. intros i. rewrite !nth_skipn. f_equal. lia.
    - rewrite app_assoc, <- (written_app k v l l' W) by lia. rewrite <- (firstn_skipn (k + length v) l') at 1. f_equal. apply nth_error_ext. intros i. rewrite !nth_skipn, W. destruct (Nat.ltb_spec (k + length v + i) (k + length v)); [lia|]. rewrite andb_false_r. reflexivity.
  Qed.

  (** ** Every call *)

  Definition one (h h' : heap) (o : nat) (a a' : array) (c : call A) : Prop :=
    sound h' /\ tight h' /\ others h h' o /\ nth_error (h_arrs h') o = Some (Some a') /\ a_sz a' = a_sz a /\ changes c (a_sz a) (a_pool a) (view h a) (a_pool a') (view h' a').

  Lemma firstn_app_len (l r : list A) : firstn (length l) (l ++ r) = l.
  Proof. rewrite firstn_app, Nat.sub_diag, firstn_O, app_nil_r, firstn_all. reflexivity. Qed.

  Lemma call_one par fresh c o (h : heap) a : sound h -> tight h -> ~ full h -> nth_error (h_arrs h) o = Some (Some a) -> allowed h c o -> (forall sz, c <> New sz) -> c <> Destroy -> exists h' a', exec par fresh c o h = Done (Some h') /\ one h h' o a a' c.
  Proof.
    intros I T Hf Ha Al NN ND. pose proof (fine_of h o a I Ha) as F. pose proof F as (F1 & F2 & F3 & F4).
    assert (Al' : exists a0, nth_error (h_arrs h) o = Some (Some a0) /\ match c with
           | New _ => False | Initialize cap size pool => bare a0 /\ size <= cap /\ moderate cap | SetAllocMode _ => bare a0 | Resize n => moderate n /\ (a_cap a0 < n -> ~ buffered a0) | Reserve n => moderate n /\ (a_cap a0 < n -> a_pool a0 = false)
           | ReserveAtLeast n => moderate n /\ (a_pool a0 = true -> a_cap a0 <= n -> ~ bare a0 /\ ~ buffered a0) | ReserveEmptyArea n => moderate (n + a_size a0) /\ (a_pool a0 = true -> a_cap a0 <= n + a_size a0 -> ~ bare a0 /\ ~ buffered a0) | Clear => True
           | PushBack v => length v = a_sz a0 /\ moderate (S (a_size a0)) /\ (a_cap a0 <= a_size a0 -> ~ buffered a0) | PushBackNoCheck v => length v = a_sz a0 /\ a_size a0 < a_cap a0 | Set_ i v => length v = a_sz a0 /\ i < a_size a0
           | Increase n => moderate (a_size a0 + n) /\ (a_cap a0 < a_size a0 + n -> ~ buffered a0) | Decrease n => n <= a_size a0 | Free which => a_pool a0 = true -> which <> Some false -> ~ buffered a0 | Destroy => a_pool a0 = true -> ~ bare a0 /\ ~ buffered a0 end).
    { destruct c; exact Al || (exfalso; eapply NN; reflexivity). }
    clear Al. destruct Al' as (a0 & Ha0 & Al). assert (a0 = a) by congruence. subst a0. clear Ha0.
    destruct (i_arrs _ _ _ I o a Ha ltac:(discriminate)) as (_ & Ho).
    assert (Null0 : bare a -> a_cap a = 0 /\ a_id a = (-1)%Z /\ a_size a = 0) by (intros Hb; unfold bare in Hb; unfold home in Ho; rewrite Hb in Ho; destruct Ho; repeat split; auto; lia).
    destruct c as [sz|cap size pool|pool|n|n|n|n| |v|v|i v|n|n|which|]; cbn [exec]; unfold one; cbn [changes].
    - exfalso. exact (NN sz eq_refl).
    - destruct Al as (Hb & Hs & M). destruct (Null0 Hb) as (C0 & Id0 & S0). unfold initialize, arr at 1. rewrite Ha. cbn [obind]. replace (PARTICLES <=? Z.of_nat cap)%Z with false by (symmetry; apply Z.leb_gt, moderate_particles; exact M).
      set (a1 := Arr (a_sz a) pool (a_data a) (a_size a) (a_cap a) (a_org a) (a_id a)). destruct (plain_ok h o a a1 I Ha Id0) as (I1 & K1 & Ha1); [exact F|unfold home; cbn [a1 a_data]; unfold bare in Hb; rewrite Hb; auto|cbn [a1 a_data]; unfold bare in Hb; rewrite Hb; discriminate|].
      destruct (first_memory par fresh cap o _ a1 I1 T Hf Ha1 Hb (moderate_particles cap M)) as (h2 & a2 & E & I2 & T2 & K2 & Ha2 & (G1 & G2 & G3 & G4 & G5)). rewrite E. cbn [obind]. unfold arr. rewrite Ha2. cbn [obind]. destruct (size_ok h2 o a2 size I2 Ha2) as (I3 & K3 & Ha3 & Eb); [lia|].
      eexists _, _. split; [reflexivity|]. split; [exact I3|]. split; [exact T2|]. split; [exact (others_trans _ _ _ _ (keeps_others _ _ _ K1) (others_trans _ _ _ _ (keeps_others _ _ _ K2) K3))|]. split; [exact Ha3|]. split; [exact G1|]. split; [exact G2|]. rewrite (view_length _ o _ I3 Ha3). cbn [withSize a_sz a_size]. rewrite G1. reflexivity.
    - destruct (Null0 Al) as (C0 & Id0 & S0). unfold setAllocMode, arr. rewrite Ha. cbn [obind]. set (a1 := Arr (a_sz a) pool (a_data a) (a_size a) (a_cap a) (a_org a) (a_id a)). destruct (plain_ok h o a a1 I Ha Id0) as (I1 & K1 & Ha1); [exact F|unfold home; cbn [a1 a_data]; unfold bare in Al; rewrite Al; auto|cbn [a1 a_data]; unfold bare in Al; rewrite Al; discriminate|].
      eexists _, _. split; [reflexivity|]. split; [exact I1|]. split; [exact T|]. split; [exact (keeps_others _ _ _ K1)|]. split; [exact Ha1|]. auto.
    - destruct Al as (M & Hb). destruct (resize_ok par fresh n o h a I T Hf Ha (or_introl M) Hb) as (h1 & a1 & E & I1 & T1 & K1 & Ha1 & E1 & E2 & E3 & R). exists h1, a1. auto 10.
    - destruct Al as (M & Hb). unfold reserve, arr at 1. rewrite Ha. cbn [obind]. destruct (Nat.leb_spec n (a_cap a)) as [Hl|Hl]; [exists h, a; auto 12 using others_refl|]. specialize (Hb Hl). pose proof (moderate_particles n M) as Hp. replace (PARTICLES <=? Z.of_nat n)%Z with false by (symmetry; apply Z.leb_gt; exact Hp).
      assert (Eq : ReallocInner par fresh n o (setArr h o (withCap a n)) = ReallocInner par fresh n o h).
      { unfold ReallocInner, arr. cbn [setArr h_arrs]. rewrite (put_same _ _ (Some (withCap a n)) _ Ha), Ha. cbn [obind withCap a_pool]. rewrite Hb. change (readAt (setArr h o (withCap a n)) (a_data (withCap a n)) 0 (a_sz (withCap a n) * a_size (withCap a n))) with (readAt h (a_data a) 0 (a_sz a * a_size a)). destruct (readAt h (a_data a) 0 (a_sz a * a_size a)); cbn [obind]; try reflexivity.
        unfold getMemory, arr. cbn [setArr h_arrs]. rewrite (put_same _ _ (Some (withCap a n)) _ Ha), Ha. cbn [obind withCap a_pool]. rewrite Hb. cbn [obind]. unfold setArr. cbn [h_gen h_mem h_top h_size h_segs h_epoch h_bufs h_arrs]. rewrite put_put. reflexivity. }
      rewrite Eq. destruct (grow_ok par fresh n o h a I T Hf Ha) as (h1 & a1 & E & I1 & T1 & K1 & Ha1 & (G1 & G2 & G3 & G4 & G5) & B); [congruence|exact Hp|lia|lia|]. exists h1, a1. split; [exact E|]. split; [exact I1|]. split; [exact T1|]. split; [apply keeps_others; exact K1|]. split; [exact Ha1|]. split; [exact G1|]. split; [exact G2|]. unfold view. rewrite G1, G3. exact B.
    - destruct Al as (M & Hb). destruct (reserve_ok par fresh n o h a I T Hf Ha M Hb) as (h1 & a1 & E & I1 & T1 & K1 & Ha1 & E1 & E2 & R). exists h1, a1. auto 10.
    - destruct Al as (M & Hb). unfold reserveEmptyArea, arr at 1. rewrite Ha. cbn [obind]. destruct (reserve_ok par fresh (n + a_size a) o h a I T Hf Ha M Hb) as (h1 & a1 & E & I1 & T1 & K1 & Ha1 & E1 & E2 & R). exists h1, a1. auto 10.
    - unfold clearSize, arr. rewrite Ha. cbn [obind]. destruct (size_ok h o a 0 I Ha) as (I1 & K1 & Ha1 & Eb); [lia|]. eexists _, _. split; [reflexivity|]. split; [exact I1|]. split; [exact T|]. split; [exact K1|]. split; [exact Ha1|]. split; [reflexivity|]. split; [reflexivity|]. unfold view. cbn [withSize a_size a_sz]. rewrite Nat.mul_0_r. reflexivity.
    - destruct Al as (Lv & M & Hb). unfold pushBack, arr at 1. rewrite Ha. cbn [obind]. destruct (resize_ok par fresh (S (a_size a)) o h a I T Hf Ha (or_introl M)) as (h1 & a1 & E & I1 & T1 & K1 & Ha1 & E1 & E2 & E3 & (tail & R1 & R2)); [intros; apply Hb; lia|]. rewrite E. cbn [obind].
      pose proof (fine_of h1 o a1 I1 Ha1) as (_ & G2 & _). destruct (setElement_ok (a_size a) v o h1 a1 I1 T1 Ha1) as (h2 & a2 & E4 & I2 & T2 & K2 & Ha2 & (A1 & A2 & A3 & A4 & A5) & W); [congruence|lia|]. exists h2, a2. split; [exact E4|]. split; [exact I2|]. split; [exact T2|]. split; [exact (others_trans _ _ _ _ K1 K2)|]. split; [exact Ha2|]. split; [congruence|]. split; [congruence|].
      pose proof (view_length h o a I Ha) as Lw. pose proof (bytes_length h2 o a2 I2 Ha2) as L2. rewrite E1 in W. unfold view at 1. rewrite A1, A3, E1, E3. replace (a_sz a * S (a_size a)) with (a_sz a * a_size a + length v) by nia. rewrite (written_app _ _ _ _ W) by (rewrite L2, A1, A4, E1; nia). f_equal.
      unfold view in R1 at 1. rewrite E1, E3 in R1. rewrite (firstn_all2 (view h a)) in R1 by (rewrite Lw; nia). rewrite <- (firstn_app_len (view h a) tail), <- R1, Lw, firstn_firstn. f_equal. nia.
    - destruct Al as (Lv & Hc). unfold pushBackNoCheck, arr at 1. rewrite Ha. cbn [obind]. destruct (write_ok h o a (a_sz a * a_size a) v I Ha) as (h1 & a1 & E & I1 & T1 & K1 & Ha1 & (A1 & A2 & A3 & A4 & A5) & _ & W); [nia|]. rewrite E. cbn [obind]. unfold arr. rewrite Ha1. cbn [obind]. destruct (size_ok h1 o a1 (S (a_size a1)) I1 Ha1) as (I2 & K2 & Ha2 & Eb); [lia|].
      eexists _, _. split; [reflexivity|]. split; [exact I2|]. split; [exact (T1 T)|]. split; [exact (others_trans _ _ _ _ (keeps_others _ _ _ K1) K2)|]. split; [exact Ha2|]. split; [exact A1|]. split; [exact A2|]. unfold view at 1. rewrite Eb. cbn [withSize a_sz a_size]. rewrite A1, A3. replace (a_sz a * S (a_size a)) with (a_sz a * a_size a + length v) by nia. rewrite (written_app _ _ _ _ W); [reflexivity|]. rewrite (bytes_length h1 o a1 I1 Ha1), A1, A4. nia.
    - destruct Al as (Lv & Hi). destruct (setElement_ok i v o h a I T Ha Lv) as (h2 & a2 & E4 & I2 & T2 & K2 & Ha2 & (A1 & A2 & A3 & A4 & A5) & W); [lia|]. exists h2, a2. split; [exact E4|]. split; [exact I2|]. split; [exact T2|]. split; [exact K2|]. split; [exact Ha2|]. split; [exact A1|]. split; [exact A2|].
      pose proof (view_length h o a I Ha) as L1. pose proof (view_length h2 o a2 I2 Ha2) as L2. rewrite A1, A3 in L2. assert (Hk : a_sz a * i + length v <= a_sz a * a_size a) by nia. destruct (written_mid (a_sz a * i) v (view h a) (view h2 a2)) as (M1 & M2); [unfold view; rewrite A1, A3; apply written_firstn; assumption|lia|lia|].
      exists (firstn (a_sz a * i) (view h a)), (slice (a_sz a * i) (length v) (view h a)), (skipn (a_sz a * i + length v) (view h a)). split; [exact M1|]. split; [rewrite firstn_length; lia|]. split; [apply slice_length; lia|exact M2].
    - destruct Al as (M & Hb). unfold increaseSize, arr at 1. rewrite Ha. cbn [obind]. destruct (resize_ok par fresh (a_size a + n) o h a I T Hf Ha (or_introl M) Hb) as (h1 & a1 & E & I1 & T1 & K1 & Ha1 & E1 & E2 & E3 & R). exists h1, a1. rewrite (view_length h o a I Ha), <- Nat.mul_add_distr_l. auto 10.
    - unfold decreaseSize, arr at 1. rewrite Ha. cbn [obind]. destruct (resize_ok par fresh (a_size a - n) o h a I T Hf Ha) as (h1 & a1 & E & I1 & T1 & K1 & Ha1 & E1 & E2 & E3 & R); [right; lia|lia|]. exists h1, a1. rewrite (view_length h o a I Ha), <- Nat.mul_sub_distr_l. auto 10.
    - unfold freeMem, arr at 1. rewrite Ha. cbn [obind]. destruct (match which with None => true | Some b => Bool.eqb b (a_pool a) end) eqn:Ew; [|exists h, a; auto 12 using others_refl].
      destruct (a_pool a) eqn:Ep.
      + destruct (a_data a) as [|l|ge off|e i] eqn:Ed.
        { destruct (Null0 Ed) as (C0 & Id0 & S0). exists h, a. split; [reflexivity|]. split; [exact I|]. split; [exact T|]. split; [apply others_refl|]. split; [exact Ha|]. split; [reflexivity|]. split; [exact Ep|]. unfold view. rewrite S0, Nat.mul_0_r. reflexivity. }
        { exfalso. unfold home in Ho. rewrite Ed in Ho. destruct Ho. congruence. }
        2: { exfalso. apply (Al eq_refl); [|exists e, i; exact Ed]. destruct which as [[|]|]; try discriminate. }
        set (a' := Arr (a_sz a) true (@Null A) 0 0 (a_cap a) (-1)). destruct (free_ok par fresh o h a (Some a') I T Hf Ha Ep) as (h1 & E & Ha1 & I1 & T1 & K1 & Ha2); [eauto|cbn; unfold fine; cbn [a' a_sz a_size a_cap a_org a_id a_data]; repeat split; auto; unfold PARTICLES; lia|].
        rewrite E. cbn [obind]. unfold arr. rewrite Ha1. cbn [obind]. exists (setArr h1 o a'), a'. split; [reflexivity|]. split; [exact I1|]. split; [exact T1|]. split; [exact K1|]. split; [exact Ha2|]. split; [reflexivity|]. split; [reflexivity|]. unfold view. cbn [a' a_size a_sz]. rewrite Nat.mul_0_r. reflexivity.
      + assert (Hid : (a_id a = -1)%Z) by (unfold home in Ho; destruct (a_data a) eqn:Ed; [apply Ho|apply Ho| |]; exfalso; [destruct Ho as (i & g & Hi & U & E); destruct (seg_id _ _ _ _ _ _ I Ha Hi U E)|destruct Ho as (_ & b & Hi & U & E); destruct (buf_id _ _ _ _ _ I Ha Hi E)]; congruence).
        destruct (Nat.ltb_spec 0 (a_cap a)) as [Hc|Hc].
        * set (a' := Arr (a_sz a) false (Own (fill fresh (a_sz a * 10))) 0 10 (a_cap a) (a_id a)). destruct (plain_ok h o a a' I Ha Hid) as (I1 & K1 & Ha1); [unfold fine; cbn [a' a_sz a_size a_cap a_org]; repeat split; auto; unfold PARTICLES; lia|unfold home; cbn [a' a_data a_pool a_id a_sz a_cap]; rewrite fill_length; auto|discriminate|].
          exists (setArr h o a'), a'. split; [reflexivity|]. split; [exact I1|]. split; [exact T|]. split; [exact (keeps_others _ _ _ K1)|]. split; [exact Ha1|]. split; [reflexivity|]. split; [reflexivity|]. unfold view. cbn [a' a_size a_sz]. rewrite Nat.mul_0_r. reflexivity.
        * assert (S0 : a_size a = 0) by lia. set (a' := Arr (a_sz a) false (a_data a) (a_size a) (a_cap a) 0 (a_id a)). destruct (plain_ok h o a a' I Ha Hid) as (I1 & K1 & Ha1).
          { unfold fine. cbn [a' a_sz a_size a_cap a_org]. repeat split; auto. }
          { unfold home in *. cbn [a' a_data a_pool a_id a_sz a_cap]. destruct (a_data a) eqn:Ed; try exact Ho. destruct Ho as (? & ? & ?). auto. }
          { cbn [a' a_data]. intros ge off Ed. unfold home in Ho. rewrite Ed in Ho. destruct Ho as (i & g & Hi & U & E). destruct (seg_id _ _ _ _ _ _ I Ha Hi U E). congruence. }
          exists (setArr h o a'), a'. split; [reflexivity|]. split; [exact I1|]. split; [exact T|]. split; [exact (keeps_others _ _ _ K1)|]. split; [exact Ha1|]. split; [reflexivity|]. split; [reflexivity|]. unfold view. cbn [a' a_size a_sz]. rewrite S0, Nat.mul_0_r. reflexivity.
    - congruence.
  Qed.
End Pool.
