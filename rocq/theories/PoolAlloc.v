(** Memory given to arrays of the pool and taken back. *)
From Coq Require Import List Arith ZArith Lia Bool.
From Verif Require Import Outcome ListUtil PoolModel PoolSpec PoolProofs.
Import ListNotations.

Section Pool.
  Context {A : Type}.
  Notation heap := (heap A).
  Notation array := (array A).
  Notation ptr := (ptr A).

  Definition total (h : heap) : nat := length (h_segs h) + length (h_bufs h).

  Lemma keeps_alike (h h' : heap) o a : keeps h h' None -> nth_error (h_arrs h) o = Some (Some a) -> exists a', nth_error (h_arrs h') o = Some (Some a') /\ alike a a'.
  Proof. intros (_ & _ & K) H. destruct (K o a H) as (a' & H' & C). exists a'. split; [exact H'|]. apply C. discriminate. Qed.

  Lemma alloc_ok par fresh size o h a : sound h -> tight h -> ~ full h -> nth_error (h_arrs h) o = Some (Some a) -> a_pool a = true -> (a_id a < SEGMENTS)%Z -> 0 < size ->
    exists h' p a', alloc par fresh size o h = Done (Some (h', p)) /\ Inv h' (Some o) 0 /\ tight h' /\ keeps h h' (Some o) /\ nth_error (h_arrs h') o = Some (Some a') /\ alike a a' /\ given h' o size (a_id a) p a' /\ total h' <= S (total h) /\
      (a_id a <> a_id a' -> forall g, (0 <= a_id a)%Z -> nth_error (h_segs h') (Z.to_nat (a_id a)) = Some g -> g_used g = true /\ g_ptr g = o).
  Proof.
    intros I0 T0 Hf Ha0 Hp Hid Hs. unfold alloc. destruct (Nat.eqb_spec size 0) as [X|_]; [lia|]. unfold full in Hf.
    destruct (unify_ok par fresh h I0) as (h1 & t & E1 & I1 & K1 & Q1 & Q2 & Q3 & Q4 & Q5); [unfold few; lia|]. rewrite E1. cbn [obind].
    pose proof (unify_tight _ _ _ Q1 Q2 Q4 T0) as T1. destruct (keeps_alike _ _ _ _ K1 Ha0) as (a1 & Ha1 & Al). destruct (Q5 o a Ha0 Hid) as (a1' & Ha1' & Eid). assert (a1' = a1) by congruence. subst a1'.
    assert (Hp1 : a_pool a1 = true) by (destruct Al as (_ & Al & _); congruence).
    assert (L1 : total h1 <= total h) by (unfold total; rewrite Q1, app_length; lia).
    unfold arr at 1. rewrite Ha1. cbn [obind].
    assert (NoBuf : forall j b, nth_error (h_bufs h1) j = Some b -> u_ptr b <> o) by (intros j b Hj E; destruct (buf_id _ _ _ _ _ I1 Ha1 Hj E) as (_ & Y & _); rewrite Eid in Y; lia).
    assert (OneSeg : forall j g, nth_error (h_segs h1) j = Some g -> g_used g = true -> g_ptr g = o -> Z.of_nat j = a_id a) by (intros j g Hj U E; destruct (seg_id _ _ _ _ _ _ I1 Ha1 Hj U E) as (_ & Y & _); congruence).
    assert (OldSeg : forall g, (0 <= a_id a)%Z -> nth_error (h_segs h1) (Z.to_nat (a_id a)) = Some g -> g_used g = true /\ g_ptr g = o).
    { intros g H0 Hg. destruct (where_is _ _ _ _ _ I1 ltac:(discriminate) Ha1 Hp1) as [(Y & _)|[(i & g' & Hi & U & E & (_ & Y & _))|(i & b & Hi & U & E & _)]]; [lia| |exfalso; exact (NoBuf i b Hi E)]. rewrite Eid in Y. rewrite Y, Nat2Z.id in Hg. assert (g = g') by congruence. subst g'. auto. }
    set (sa := getAlignSize size). pose proof (align_ge size Hs) as Hsa. fold sa in Hsa. pose proof (align_pos size) as Hsp. fold sa in Hsp.
    destruct (findSegment sa (h_segs h1) 0 0) as [[i cum]|] eqn:Ef.
    - destruct (find_ok _ _ _ _ _ _ Ef) as (n & g & -> & -> & Hg & U & Sg). cbn [Nat.add] in *. rewrite Hg. set (g' := Seg (g_cap g) true o). set (segs := put (h_segs h1) n g').
      assert (P1 : nth_error segs n = Some g') by (eapply put_same; exact Hg). assert (P2 : forall j, j <> n -> nth_error segs j = nth_error (h_segs h1) j) by (intros j Hj; apply put_other; auto).
      assert (PL : length segs = length (h_segs h1)) by apply put_length. assert (PO : forall j, offset segs j = offset (h_segs h1) j) by (intros j; apply (offset_put _ _ g); auto).
      assert (PS : h_size h1 = sum_list (map g_cap segs)) by (rewrite (i_size _ _ _ I1), <- !offset_all, PL, PO; reflexivity).
      assert (Hh : Heap (h_gen h1) (h_mem h1) (h_top h1) (h_size h1) segs (h_epoch h1) (h_bufs h1) (h_arrs h1) = setSegs h1 (h_size h1) segs) by (rewrite (i_top _ _ _ I1); reflexivity). rewrite Hh. clear Hh.
      destruct (setSegs_ok h1 o 0 (h_size h1) segs) as (I2 & K2); [apply Inv_weak, I1|exact PS|apply (i_room _ _ _ I1)|rewrite PL; apply (i_few _ _ _ I1)| |eauto| | |].
      { intros j g0 H. destruct (Nat.eq_dec j n) as [->|N]; [rewrite P1 in H; injection H as <-; exact (i_caps _ _ _ I1 n g Hg)|rewrite P2 in H by exact N; exact (i_caps _ _ _ I1 j g0 H)]. }
      { intros j g0 H Ug N. rewrite <- P2; [exact H|]. intros ->. rewrite P1 in H. injection H as <-. cbn in N. congruence. }
      { intros j g0 H Ug N. split; [|apply PO]. rewrite P2; [exact H|]. intros ->. congruence. }
      set (h2 := setSegs h1 (h_size h1) segs) in *. destruct (setArr_ok h2 o 0 a1 (withId a1 (Z.of_nat n)) I2 Ha1) as (I3 & K3 & Ha3).
      eexists _, _, _. split; [reflexivity|]. split; [exact I3|]. split.
      { intros g0 H Ug. cbn [setArr h2 setSegs h_bufs h_segs] in *. rewrite PL in H. destruct (Nat.eq_dec (length (h_segs h1) - 1) n) as [N|N]; [rewrite N, P1 in H; injection H as <-; discriminate Ug|]. rewrite P2 in H by exact N. exact (T1 g0 H Ug). }
      split; [exact (keeps_trans _ _ _ _ (keeps_weak _ _ _ K1) (keeps_trans _ _ _ _ K2 K3))|]. split; [exact Ha3|]. split; [exact Al|]. cbn [withId a_id]. split; [|split].
      + left. exists n, g'. cbn [setArr h2 setSegs h_segs h_bufs h_gen]. split; [exact P1|]. split; [reflexivity|]. split; [reflexivity|]. split; [reflexivity|]. split; [rewrite PO; reflexivity|]. split; [cbn; lia|]. split; [|exact NoBuf].
        intros j g0 H Ug E. destruct (Nat.eq_dec j n) as [->|N]; [left; reflexivity|right]. rewrite P2 in H by exact N. exact (OneSeg j g0 H Ug E).
      + unfold total in *. cbn [setArr h2 setSegs h_segs h_bufs]. rewrite PL. lia.
      + intros N g0 H0 H. cbn [setArr h2 setSegs h_segs] in H. rewrite P2 in H by lia. exact (OldSeg g0 H0 H).
    - assert (Hl : (Z.of_nat (length (h_segs h1)) + 1 < SEGMENTS)%Z) by (unfold total in L1; lia). replace (SEGMENTS <=? Z.of_nat (length (h_segs h1)) + 1)%Z with false by (symmetry; apply Z.leb_gt; exact Hl).
      destruct (drop_ok h1 o a1 I1 Ha1 ltac:(lia)) as (segs & sz & Ed & I2 & Ls & Sub & Sz). rewrite Ed. set (h2 := setSegs h1 sz segs) in *. pose proof (setSegs_keeps h1 sz segs) as K2. fold h2 in K2.
      assert (Ha2 : nth_error (h_arrs h2) o = Some (Some a1)) by exact Ha1.
      destruct (length (h_mem h2) <? h_size h2 + sa) eqn:Er; cbn [andb].
      + destruct par.
        * set (nb := Buf (fill fresh sa) true o). destruct (setBufs_ok h2 o 0 (h_bufs h2 ++ [nb]) I2) as (I3 & K3).
          { intros b Hb. apply in_app_or in Hb. destruct Hb as [Hb|[<-|[]]]; [exact (i_bpos _ _ _ I2 b Hb)|]. cbn [nb u_data u_used]. rewrite fill_length. auto. }
          { eauto. }
          { intros i b Hi Ub N. destruct (le_lt_dec (length (h_bufs h2)) i) as [H|H]; [rewrite nth_error_app2 in Hi by exact H; destruct (i - length (h_bufs h2)) as [|m]; [injection Hi as <-; cbn in N; congruence|destruct m; discriminate Hi]|]. rewrite nth_error_app1 in Hi by exact H. exact Hi. }
          { intros i b Hi Ub N. rewrite nth_error_app1; [exact Hi|apply nth_error_Some; congruence]. }
          change (Heap (h_gen h2) (h_mem h2) (h_top h2) (h_size h2) (h_segs h2) (h_epoch h2) (h_bufs h2 ++ [nb]) (h_arrs h2)) with (setBufs h2 (h_bufs h2 ++ [nb])). set (h3 := setBufs h2 (h_bufs h2 ++ [nb])) in *.
          destruct (setArr_ok h3 o 0 a1 (withId a1 (Z.of_nat (length (h_bufs h2)) + SEGMENTS)) I3 Ha2) as (I4 & K4 & Ha4). eexists _, _, _. split; [reflexivity|]. split; [exact I4|]. split.
          { intros g0 _ _. cbn [setArr h3 setBufs h_bufs]. destruct (h_bufs h2); discriminate. }
          split; [exact (keeps_trans _ _ _ _ (keeps_weak _ _ _ K1) (keeps_trans _ _ _ _ (keeps_weak _ _ _ K2) (keeps_trans _ _ _ _ K3 K4)))|]. split; [exact Ha4|]. split; [exact Al|]. cbn [withId a_id]. split; [|split].
          -- right. exists (length (h_bufs h2)), nb. cbn [setArr h3 setBufs h_segs h_bufs h_epoch]. split; [rewrite nth_error_app2, Nat.sub_diag by lia; reflexivity|]. split; [reflexivity|]. split; [reflexivity|]. split; [reflexivity|]. split; [reflexivity|]. split; [cbn [nb u_data]; rewrite fill_length; exact Hsa|]. split.
             ++ intros j g0 H. apply OneSeg. exact (Sub j g0 H).
             ++ intros j b H E. destruct (le_lt_dec (length (h_bufs h2)) j) as [Hj|Hj]; [assert (j < length (h_bufs h2 ++ [nb])) by (apply nth_error_Some; congruence); rewrite app_length in *; cbn in *; lia|]. rewrite nth_error_app1 in H by exact Hj. exfalso. exact (NoBuf j b H E).
          -- unfold total in *. cbn [setArr h3 setBufs h2 setSegs h_segs h_bufs]. rewrite app_length. cbn. lia.
          -- intros _ g0 H0 H. exact (OldSeg g0 H0 (Sub _ _ H)).
        * destruct (reInit_ok fresh sa h2 (Some o) 0 I2) as (h3 & E3 & I3 & K3 & S1 & S2 & _ & S3 & S4 & S5). rewrite E3. cbn [obind]. destruct (S5 o a1 Ha2) as (p3 & Ha3).
          destruct (append_ok h3 o 0 sa I3) as (h4 & E4 & D4 & I4 & K4); [rewrite S1; cbn; lia|exact Hsp|specialize (S4 Hsp); rewrite S3; pose proof (i_room _ _ _ I2); lia|eauto|]. rewrite E4. cbn [obind].
          assert (Ha4 : nth_error (h_arrs h4) o = Some (Some (withData a1 p3))) by (rewrite D4; exact Ha3). unfold arr. rewrite Ha4. cbn [obind].
          destruct (setArr_ok h4 o 0 _ (withId (withData a1 p3) (Z.of_nat (length (h_segs h4)) - 1)) I4 Ha4) as (I5 & K5 & Ha5). eexists _, _, _. split; [reflexivity|]. split; [exact I5|].
          assert (Es : h_segs h4 = segs ++ [Seg sa true o]) by (rewrite D4; cbn; rewrite S1; reflexivity). assert (Eb : h_bufs h4 = h_bufs h1) by (rewrite D4; cbn; rewrite S2; reflexivity). split.
          { intros g0 H Ug. cbn [setArr h_segs] in H. rewrite Es, last_app in H by discriminate. injection H as <-. discriminate Ug. }
          split; [exact (keeps_trans _ _ _ _ (keeps_weak _ _ _ K1) (keeps_trans _ _ _ _ (keeps_weak _ _ _ K2) (keeps_trans _ _ _ _ K3 (keeps_trans _ _ _ _ K4 K5))))|]. split; [exact Ha5|]. split; [exact Al|]. cbn [withId withData a_id]. rewrite Es, app_length. cbn [length]. split; [|split].
          -- left. exists (length segs), (Seg sa true o). cbn [setArr h_segs h_bufs h_gen]. rewrite Es. split; [rewrite nth_error_app2, Nat.sub_diag by lia; reflexivity|]. split; [reflexivity|]. split; [reflexivity|]. split; [cbn [withId withData a_id]; lia|]. split.
             { rewrite offset_app, offset_all by lia. f_equal. rewrite (i_top _ _ _ I3), S3. exact Sz. }
             split; [cbn; exact Hsa|]. split; [|rewrite Eb; exact NoBuf]. intros j g0 H Ug E. destruct (le_lt_dec (length segs) j) as [Hj|Hj]; [left; assert (j < length (segs ++ [Seg sa true o])) by (apply nth_error_Some; congruence); rewrite app_length in *; cbn in *; lia|right]. rewrite nth_error_app1 in H by exact Hj. exact (OneSeg j g0 (Sub j g0 H) Ug E).
          -- unfold total in *. cbn [setArr h_segs h_bufs]. rewrite Es, Eb, app_length. cbn. lia.
          -- intros N g0 H0 H. cbn [setArr h_segs] in H. rewrite Es in H. assert (Hj : Z.to_nat (a_id a) < length segs) by (assert (Z.to_nat (a_id a) < length (segs ++ [Seg sa true o])) by (apply nth_error_Some; congruence); rewrite app_length in *; cbn in *; lia).
             rewrite nth_error_app1 in H by exact Hj. exact (OldSeg g0 H0 (Sub _ _ H)).
      + cbn [obind]. apply Nat.ltb_ge in Er.
        destruct (append_ok h2 o 0 sa I2) as (h4 & E4 & D4 & I4 & K4); [cbn; lia|exact Hsp|exact Er|eauto|]. rewrite E4. cbn [obind].
          assert (Ha4 : nth_error (h_arrs h4) o = Some (Some a1)) by (rewrite D4; exact Ha2). unfold arr. rewrite Ha4. cbn [obind].
          destruct (setArr_ok h4 o 0 _ (withId a1 (Z.of_nat (length (h_segs h4)) - 1)) I4 Ha4) as (I5 & K5 & Ha5). eexists _, _, _. split; [reflexivity|]. split; [exact I5|].
          assert (Es : h_segs h4 = segs ++ [Seg sa true o]) by (rewrite D4; reflexivity). assert (Eb : h_bufs h4 = h_bufs h1) by (rewrite D4; reflexivity). split.
          { intros g0 H Ug. cbn [setArr h_segs] in H. rewrite Es, last_app in H by discriminate. injection H as <-. discriminate Ug. }
          split; [exact (keeps_trans _ _ _ _ (keeps_weak _ _ _ K1) (keeps_trans _ _ _ _ (keeps_weak _ _ _ K2) (keeps_trans _ _ _ _ K4 K5)))|]. split; [exact Ha5|]. split; [exact Al|]. cbn [withId withData a_id]. rewrite Es, app_length. cbn [length]. split; [|split].
          -- left. exists (length segs), (Seg sa true o). cbn [setArr h_segs h_bufs h_gen]. rewrite Es. split; [rewrite nth_error_app2, Nat.sub_diag by lia; reflexivity|]. split; [reflexivity|]. split; [reflexivity|]. split; [cbn [withId withData a_id]; lia|]. split.
             { rewrite offset_app, offset_all by lia. f_equal. exact Sz. }
             split; [cbn; exact Hsa|]. split; [|rewrite Eb; exact NoBuf]. intros j g0 H Ug E. destruct (le_lt_dec (length segs) j) as [Hj|Hj]; [left; assert (j < length (segs ++ [Seg sa true o])) by (apply nth_error_Some; congruence); rewrite app_length in *; cbn in *; lia|right]. rewrite nth_error_app1 in H by exact Hj. exact (OneSeg j g0 (Sub j g0 H) Ug E).
          -- unfold total in *. cbn [setArr h_segs h_bufs]. rewrite Es, Eb, app_length. cbn. lia.
          -- intros N g0 H0 H. cbn [setArr h_segs] in H. rewrite Es in H. assert (Hj : Z.to_nat (a_id a) < length segs) by (assert (Z.to_nat (a_id a) < length (segs ++ [Seg sa true o])) by (apply nth_error_Some; congruence); rewrite app_length in *; cbn in *; lia).
             rewrite nth_error_app1 in H by exact Hj. exact (OldSeg g0 H0 (Sub _ _ H)).
  Qed.

  (** ** Bytes of an array *)

  Definition bytes (h : heap) (a : array) : list A := bytesOf h (a_data a) (a_sz a * a_cap a).
  Lemma firstn_slice (n : nat) (l : list A) : firstn n l = slice 0 n l.
  Proof. reflexivity. Qed.
  Lemma bytes_length (h : heap) o a : sound h -> nth_error (h_arrs h) o = Some (Some a) -> length (bytes h a) = a_sz a * a_cap a.
  Proof.
    intros I Ha. destruct (i_arrs _ _ _ I o a Ha ltac:(discriminate)) as (F & Ho). unfold bytes, home in *. destruct (a_data a) as [|l|ge off|e i] eqn:Ed; cbn [bytesOf].
    - destruct Ho as (-> & _). cbn. lia.
    - destruct Ho as (_ & _ & L). rewrite firstn_length. lia.
    - destruct Ho as (i & g & Hi & U & E). destruct (seg_id _ _ _ _ _ _ I Ha Hi U E) as (_ & _ & C3 & C4). assert (off = offset (h_segs h) i) by congruence. subst off. apply slice_length. pose proof (offset_end _ _ _ Hi). pose proof (i_size _ _ _ I). pose proof (i_room _ _ _ I). lia.
    - destruct Ho as (_ & b & Hi & U & E). destruct (buf_id _ _ _ _ _ I Ha Hi E) as (_ & _ & C3 & C4). rewrite Hi, firstn_length. lia.
  Qed.
  Lemma read_ok (h : heap) o a k n : sound h -> nth_error (h_arrs h) o = Some (Some a) -> k + n <= a_sz a * a_cap a -> readAt h (a_data a) k n = Done (slice k n (bytes h a)).
  Proof.
    intros I Ha Hn. unfold readAt. destruct (Nat.eqb_spec n 0) as [->|N]; [reflexivity|]. destruct (i_arrs _ _ _ I o a Ha ltac:(discriminate)) as (F & Ho). unfold bytes, home in *. destruct (a_data a) as [|l|ge off|e i] eqn:Ed; cbn [bytesOf].
    - destruct Ho as (Hc & _). rewrite Hc in Hn. lia.
    - destruct Ho as (_ & _ & L). destruct (Nat.leb_spec (k + n) (length l)); [|lia]. rewrite firstn_slice, slice_slice by lia. reflexivity.
    - destruct Ho as (i & g & Hi & U & E). destruct (seg_id _ _ _ _ _ _ I Ha Hi U E) as (_ & _ & C3 & C4). assert (off = offset (h_segs h) i /\ ge = h_gen h) as (-> & ->) by (split; congruence). rewrite Nat.eqb_refl. cbn [andb]. pose proof (offset_end _ _ _ Hi). pose proof (i_size _ _ _ I). pose proof (i_room _ _ _ I).
      destruct (Nat.leb_spec (offset (h_segs h) i + k + n) (length (h_mem h))); [|lia]. rewrite slice_slice by lia. reflexivity.
    - destruct Ho as (_ & b & Hi & U & E). destruct (buf_id _ _ _ _ _ I Ha Hi E) as (_ & _ & C3 & C4). assert (e = h_epoch h) as -> by congruence. rewrite Nat.eqb_refl, Hi. destruct (Nat.leb_spec (k + n) (length (u_data b))); [|lia]. rewrite firstn_slice, slice_slice by lia. reflexivity.
  Qed.

  Lemma settle_same (h0 h : heap) o a : sound h0 -> nth_error (h_arrs h0) o = Some (Some a) -> Inv h (Some o) 0 -> h_arrs h = h_arrs h0 -> h_segs h = h_segs h0 -> h_gen h = h_gen h0 -> h_epoch h = h_epoch h0 -> length (h_bufs h) = length (h_bufs h0) ->
    (forall i b, nth_error (h_bufs h) i = Some b -> exists b0, nth_error (h_bufs h0) i = Some b0 /\ u_ptr b = u_ptr b0 /\ length (u_data b) = length (u_data b0)) -> sound h.
  Proof.
    intros I0 Ha I E1 E2 E3 E4 E5 Hb. assert (Ha' : nth_error (h_arrs h) o = Some (Some a)) by (rewrite E1; exact Ha). destruct (i_arrs _ _ _ I0 o a Ha ltac:(discriminate)) as (F & Ho). apply (settle h o 0 a I Ha' F).
    - unfold home in *. destruct (a_data a) eqn:Ed; try exact Ho; [rewrite E2; exact Ho|]. destruct Ho as (Hk & b0 & Hi & U & E). split; [exact Hk|]. destruct (nth_error (h_bufs h) idx) as [b|] eqn:Eb.
      + destruct (Hb idx b Eb) as (b1 & Hb1 & Q1 & Q2). exists b. split; [reflexivity|]. split; [apply (i_bpos _ _ _ I b (nth_error_In _ _ Eb))|congruence].
      + apply nth_error_None in Eb. assert (idx < length (h_bufs h0)) by (apply nth_error_Some; congruence). lia.
    - intros i g Hi U E. rewrite E2 in Hi. pose proof (seg_id _ _ _ _ _ _ I0 Ha Hi U E) as S. unfold inSeg in *. rewrite E3, E2. exact S.
    - intros i b _ Hi U E. destruct (Hb i b Hi) as (b0 & Hb0 & Q1 & Q2). pose proof (buf_id _ _ _ _ _ I0 Ha Hb0 ltac:(congruence)) as S. unfold inBuf in *. rewrite E4, Q2. exact S.
  Qed.

  (** an array outside of the pool *)
  Lemma loose (h : heap) o a : sound h -> nth_error (h_arrs h) o = Some (Some a) -> (a_id a = -1)%Z -> (forall i g, nth_error (h_segs h) i = Some g -> g_used g = true -> g_ptr g <> o) /\ (forall i b, nth_error (h_bufs h) i = Some b -> u_ptr b <> o).
  Proof. intros I Ha Hid. split; [intros i g Hi U E; destruct (seg_id _ _ _ _ _ _ I Ha Hi U E) as (_ & Y & _)|intros i b Hi E; destruct (buf_id _ _ _ _ _ I Ha Hi E) as (_ & Y & _)]; unfold SEGMENTS in *; lia. Qed.
  Lemma plain_ok (h : heap) o a a' : sound h -> nth_error (h_arrs h) o = Some (Some a) -> (a_id a = -1)%Z -> fine a' -> home h 0 o a' -> (forall ge off, a_data a' <> InPool ge off) -> sound (setArr h o a') /\ keeps h (setArr h o a') (Some o) /\ nth_error (h_arrs (setArr h o a')) o = Some (Some a').
  Proof.
    intros I Ha Hid F Ho Hn. destruct (setArr_ok h o 0 a a' (Inv_weak _ _ _ I) Ha) as (I1 & K & Ha'). split; [|auto]. destruct (loose h o a I Ha Hid) as (L1 & L2). apply (settle _ o 0 a'); auto.
    - intros i g Hi U E. exfalso. exact (L1 i g Hi U E).
    - intros i b _ Hi U E. exfalso. exact (L2 i b Hi E).
  Qed.

  Definition written (k : nat) (v l l' : list A) : Prop := forall i, nth_error l' i = if (k <=? i) && (i <? k + length v) then nth_error v (i - k) else nth_error l i.
  Lemma written_firstn k v l l' n : written k v l l' -> k + length v <= n -> written k v (firstn n l) (firstn n l').
  Proof.
    intros W Hn i. destruct (le_lt_dec n i) as [H|H].
    - rewrite (proj2 (nth_error_None (firstn n l') i)), (proj2 (nth_error_None (firstn n l) i)) by (rewrite firstn_length; lia). destruct (Nat.ltb_spec i (k + length v)); [lia|]. rewrite andb_false_r. reflexivity.
    - rewrite !nth_firstn by exact H. apply W.
  Qed.
  Lemma write_ok (h : heap) o a k v : sound h -> nth_error (h_arrs h) o = Some (Some a) -> k + length v <= a_sz a * a_cap a ->
    exists h' a', writeAt h o k v = Done h' /\ sound h' /\ (tight h -> tight h') /\ keeps h h' (Some o) /\ nth_error (h_arrs h') o = Some (Some a') /\ alike a a' /\ (a_data a <> Null -> a_data a' <> Null) /\ written k v (bytes h a) (bytes h' a').
  Proof.
    intros I Ha Hk. unfold writeAt, arr. rewrite Ha. cbn [obind]. destruct (Nat.eqb_spec (length v) 0) as [Hv|Hv].
    { exists h, a. split; [reflexivity|]. split; [exact I|]. split; [auto|]. split; [apply keeps_refl|]. split; [exact Ha|]. split; [unfold alike; repeat split|]. split; [auto|]. intros i. destruct (Nat.leb_spec k i), (Nat.ltb_spec i (k + length v)); cbn [andb]; try reflexivity. lia. }
    destruct (i_arrs _ _ _ I o a Ha ltac:(discriminate)) as (F & Ho). pose proof Ho as Ho0. unfold home in Ho. destruct (a_data a) as [|l|ge off|e i] eqn:Ed.
    - destruct Ho as (Hc & _). rewrite Hc in Hk. lia.
    - destruct Ho as (H1 & H2 & L). destruct (splice_ok l k v) as (l' & E & L' & N); [lia|]. rewrite E. cbn [obind]. destruct (plain_ok h o a (withData a (Own l')) I Ha H2) as (I1 & K1 & Ha1); [exact F|cbn; rewrite L'; auto|discriminate|].
      eexists _, _. split; [reflexivity|]. split; [exact I1|]. split; [auto|]. split; [exact K1|]. split; [exact Ha1|]. split; [unfold alike; repeat split|]. split; [discriminate|]. unfold bytes. rewrite Ed. cbn [withData a_data bytesOf a_sz a_cap]. apply written_firstn; [exact N|exact Hk].
    - destruct Ho as (i & g & Hi & U & E). destruct (seg_id _ _ _ _ _ _ I Ha Hi U E) as (_ & _ & C3 & C4). assert (off = offset (h_segs h) i /\ ge = h_gen h) as (-> & ->) by (split; congruence). rewrite Nat.eqb_refl. pose proof (offset_end _ _ _ Hi). pose proof (i_size _ _ _ I). pose proof (i_room _ _ _ I).
      destruct (splice_ok (h_mem h) (offset (h_segs h) i + k) v) as (mem & Em & Lm & Nm); [lia|]. rewrite Em. cbn [obind]. destruct (setMem_ok h (Some o) 0 mem (Inv_weak _ _ _ I) Lm) as (I1 & K1).
      { intros j g' Hj Uj Hx. apply (splice_slice _ _ _ _ _ _ Nm). assert (j <> i) by (intros ->; congruence). assert (j < length (h_segs h)) by (apply nth_error_Some; congruence). assert (i < length (h_segs h)) by (apply nth_error_Some; congruence).
        destruct (lt_eq_lt_dec j i) as [[Hl|Hl]|Hl]; [left|lia|right]; [pose proof (offset_apart _ _ _ _ Hj Hl ltac:(lia)); lia|pose proof (offset_apart _ _ _ _ Hi Hl ltac:(lia)); lia]. }
      exists (setMem h mem), a. split; [reflexivity|]. split; [apply (settle_same h (setMem h mem) o a); auto; intros j b Hb; exists b; auto|]. split; [auto|]. split; [exact K1|]. split; [exact Ha|]. split; [unfold alike; repeat split|]. split; [congruence|].
      unfold bytes. rewrite Ed. cbn [bytesOf setMem h_mem]. intros j. rewrite !nth_slice. destruct (Nat.ltb_spec j (a_sz a * a_cap a)) as [Hj|Hj].
      + rewrite Nm. destruct (Nat.leb_spec (offset (h_segs h) i + k) (offset (h_segs h) i + j)), (Nat.leb_spec k j), (Nat.ltb_spec (offset (h_segs h) i + j) (offset (h_segs h) i + k + length v)), (Nat.ltb_spec j (k + length v)); try lia; cbn [andb]; try reflexivity. f_equal. lia.
      + destruct (Nat.ltb_spec j (k + length v)); [lia|]. rewrite andb_false_r. reflexivity.
    - destruct Ho as (_ & b & Hi & U & E). destruct (buf_id _ _ _ _ _ I Ha Hi E) as (_ & _ & C3 & C4). assert (e = h_epoch h) as -> by congruence. rewrite Nat.eqb_refl, Hi. destruct (splice_ok (u_data b) k v) as (d & Em & Lm & Nm); [lia|]. rewrite Em. cbn [obind].
      set (nb := Buf d (u_used b) (u_ptr b)). set (bufs := put (h_bufs h) i nb). assert (P1 : nth_error bufs i = Some nb) by (eapply put_same; exact Hi). assert (P2 : forall j, j <> i -> nth_error bufs j = nth_error (h_bufs h) j) by (intros j Hj; apply put_other; auto).
      destruct (setBufs_ok h o 0 bufs (Inv_weak _ _ _ I)) as (I1 & K1).
      { intros b' Hb'. apply In_nth_error in Hb'. destruct Hb' as (j & Hj). destruct (Nat.eq_dec j i) as [->|N]; [rewrite P1 in Hj; injection Hj as <-; cbn [nb u_data u_used]; rewrite Lm; exact (i_bpos _ _ _ I b (nth_error_In _ _ Hi))|rewrite P2 in Hj by exact N; exact (i_bpos _ _ _ I b' (nth_error_In _ _ Hj))]. }
      { eauto. }
      { intros j b' Hj Uj N. rewrite <- P2; [exact Hj|]. intros ->. rewrite P1 in Hj. injection Hj as <-. cbn in N. congruence. }
      { intros j b' Hj Uj N. rewrite P2; [exact Hj|]. intros ->. congruence. }
      exists (setBufs h bufs), a. split; [reflexivity|]. split.
      { apply (settle_same h (setBufs h bufs) o a); auto; [apply put_length|]. intros j b' Hj. cbn [setBufs h_bufs] in Hj. destruct (Nat.eq_dec j i) as [->|N]; [rewrite P1 in Hj; injection Hj as <-; exists b; auto|rewrite P2 in Hj by exact N; exists b'; auto]. }
      split; [intros T g Hg Ug X; apply (T g Hg Ug); cbn [setBufs h_bufs] in X; apply length_zero_iff_nil; rewrite <- (put_length (h_bufs h) i nb); fold bufs; rewrite X; reflexivity|]. split; [exact K1|]. split; [exact Ha|]. split; [unfold alike; repeat split|]. split; [congruence|].
      unfold bytes. rewrite Ed. cbn [bytesOf setBufs h_bufs]. rewrite P1, Hi. apply written_firstn; [exact Nm|exact Hk].
  Qed.

  (** ** Arrays get memory *)

  Lemma settle_given (h : heap) o a p cap idold : Inv h (Some o) 0 -> let b := withCap (withData a p) cap in nth_error (h_arrs h) o = Some (Some b) -> a_pool a = true -> fine b -> given h o (a_sz a * cap) idold p a ->
    (forall j g, nth_error (h_segs h) j = Some g -> g_used g = true -> g_ptr g = o -> Z.of_nat j = idold -> Z.of_nat j = a_id a) -> sound h.
  Proof.
    intros I b Hb Hp F G Hold. destruct G as [(i & g & Hi & U & E & Q1 & Q2 & Q3 & Q4 & Q5)|(i & u & Hi & U & E & Q1 & Q2 & Q3 & Q4 & Q5)]; apply (settle h o 0 b I Hb F).
    - unfold home. cbn [b withCap withData a_data]. rewrite Q2. exists i, g. auto.
    - intros j g' Hj Uj Ej. assert (j = i). { destruct (Q4 j g' Hj Uj Ej) as [X|X]; [exact X|]. pose proof (Hold j g' Hj Uj Ej X). lia. } subst j. assert (g' = g) by congruence. subst g'. unfold inSeg. cbn [b withCap withData a_data a_pool a_id a_sz a_cap]. auto.
    - intros j b' _ Hj Uj Ej. exfalso. exact (Q5 j b' Hj Ej).
    - unfold home. cbn [b withCap withData a_data]. rewrite Q2. split; [lia|]. exists u. auto.
    - intros j g' Hj Uj Ej. exfalso. pose proof (Hold j g' Hj Uj Ej (Q4 j g' Hj Uj Ej)) as X. assert (j < length (h_segs h)) by (apply nth_error_Some; congruence). pose proof (i_few _ _ _ I). lia.
    - intros j b' _ Hj Uj Ej. assert (j = i) by exact (Q5 j b' Hj Ej). subst j. assert (b' = u) by congruence. subst b'. unfold inBuf. cbn [b withCap withData a_data a_pool a_id a_sz a_cap]. auto.
  Qed.

  Definition grown (a a' : array) cap : Prop := a_sz a' = a_sz a /\ a_pool a' = a_pool a /\ a_size a' = a_size a /\ a_org a' = a_org a /\ a_cap a' = cap.
  Lemma fine_grown (a a' : array) cap : fine a -> grown a a' cap -> a_size a <= cap -> (Z.of_nat cap < PARTICLES)%Z -> fine a'.
  Proof. intros (F1 & F2 & F3 & F4) (G1 & G2 & G3 & G4 & G5) H1 H2. unfold fine. rewrite G1, G3, G4, G5. auto. Qed.

  Lemma fill_own fresh n cap (a : array) : n = a_sz a * cap -> length (fill (A := A) fresh n) = a_sz a * cap.
  Proof. intros ->. apply fill_length. Qed.

  (** an array without memory *)
  Lemma first_memory par fresh cap o (h : heap) a : sound h -> tight h -> ~ full h -> nth_error (h_arrs h) o = Some (Some a) -> a_data a = Null -> (Z.of_nat cap < PARTICLES)%Z ->
    exists h' a', getMemory par fresh cap o h = Done (Some h') /\ sound h' /\ tight h' /\ keeps h h' (Some o) /\ nth_error (h_arrs h') o = Some (Some a') /\ grown a a' cap.
  Proof.
    intros I T Hf Ha Hd Hc. destruct (i_arrs _ _ _ I o a Ha ltac:(discriminate)) as (F & Ho). unfold home in Ho. rewrite Hd in Ho. destruct Ho as (H0 & Hid). assert (Hs : a_size a = 0) by (destruct F as (_ & F & _); lia). unfold getMemory, arr at 1. rewrite Ha. cbn [obind]. destruct (a_pool a) eqn:Ep.
    - destruct (Nat.eq_dec cap 0) as [->|Nc].
      + rewrite Nat.mul_0_r. cbn [alloc Nat.eqb obind]. unfold arr. rewrite Ha. cbn [obind]. assert (Ea : withCap (withData a Null) 0 = a) by (clear - Hd H0; destruct a; cbn in Hd, H0; subst; reflexivity). rewrite Ea. destruct (plain_ok h o a a I Ha Hid F) as (I1 & K1 & Ha1); [unfold home; rewrite Hd; auto|rewrite Hd; discriminate|].
        exists (setArr h o a), a. split; [reflexivity|]. split; [exact I1|]. split; [exact T|]. split; [exact K1|]. split; [exact Ha1|]. unfold grown. auto.
      + destruct (alloc_ok par fresh (a_sz a * cap) o h a I T Hf Ha Ep) as (h1 & p & a1 & E1 & I1 & T1 & K1 & Ha1 & Al & G & _); [unfold SEGMENTS; lia|destruct F; nia|]. rewrite E1. cbn [obind]. unfold arr. rewrite Ha1. cbn [obind].
        destruct (setArr_ok h1 o 0 a1 (withCap (withData a1 p) cap) I1 Ha1) as (I2 & K2 & Ha2). assert (Gr : grown a (withCap (withData a1 p) cap) cap) by (destruct Al as (A1 & A2 & A3 & A4 & A5); unfold grown; cbn; auto).
        exists (setArr h1 o (withCap (withData a1 p) cap)), (withCap (withData a1 p) cap). split; [reflexivity|]. split; [|split; [exact T1|split; [exact (keeps_trans _ _ _ _ K1 K2)|split; [exact Ha2|exact Gr]]]].
        destruct Al as (A1 & A2 & A3 & A4 & A5). apply (settle_given _ o a1 p cap (a_id a)); auto; [congruence|apply (fine_grown a _ cap); auto; lia|rewrite A1; exact G|]. intros j g _ _ _ X. lia.
    - set (a' := withCap (withData a (Own (fill fresh (a_sz a * cap)))) cap). assert (Gr : grown a a' cap) by (unfold grown; auto). destruct (plain_ok h o a a' I Ha Hid) as (I1 & K1 & Ha1); [apply (fine_grown a _ cap); auto; lia|unfold home; cbn [a' withCap withData a_data a_pool a_id a_sz a_cap]; rewrite fill_length; auto|discriminate|].
      exists (setArr h o a'), a'. auto 8.
  Qed.

  (** a larger place for an array, which keeps its elements *)
  Lemma grow_ok par fresh cap o (h : heap) a : sound h -> tight h -> ~ full h -> nth_error (h_arrs h) o = Some (Some a) -> (a_pool a = true -> exists ge off, a_data a = InPool ge off) -> (Z.of_nat cap < PARTICLES)%Z -> a_size a <= cap -> 0 < cap ->
    exists h' a', ReallocInner par fresh cap o h = Done (Some h') /\ sound h' /\ tight h' /\ keeps h h' (Some o) /\ nth_error (h_arrs h') o = Some (Some a') /\ grown a a' cap /\ firstn (a_sz a * a_size a) (bytes h' a') = firstn (a_sz a * a_size a) (bytes h a).
  Proof.
    intros I T Hf Ha Hd Hc Hs Hc0. destruct (i_arrs _ _ _ I o a Ha ltac:(discriminate)) as (F & Ho). pose proof F as (F1 & F2 & F3 & F4). unfold ReallocInner, arr at 1. rewrite Ha. cbn [obind]. pose proof (bytes_length h o a I Ha) as BL.
    assert (Write : forall h1 a1 d, sound h1 -> tight h1 -> keeps h h1 (Some o) -> nth_error (h_arrs h1) o = Some (Some a1) -> grown a a1 cap -> d = firstn (a_sz a * a_size a) (bytes h a) ->
      exists h' a', (do h2 <- writeAt h1 o 0 d; Done (Some h2)) = Done (Some h') /\ sound h' /\ tight h' /\ keeps h h' (Some o) /\ nth_error (h_arrs h') o = Some (Some a') /\ grown a a' cap /\ firstn (a_sz a * a_size a) (bytes h' a') = firstn (a_sz a * a_size a) (bytes h a)).
    { intros h1 a1 d I1 T1 K1 Ha1 (G1 & G2 & G3 & G4 & G5) ->. set (d := firstn (a_sz a * a_size a) (bytes h a)). assert (Ld : length d = a_sz a * a_size a) by (unfold d; rewrite firstn_length, BL; nia).
      destruct (write_ok h1 o a1 0 d I1 Ha1) as (h2 & a2 & E2 & I2 & T2 & K2 & Ha2 & (A1 & A2 & A3 & A4 & A5) & _ & W); [rewrite G1, G5, Ld; cbn; nia|]. rewrite E2. cbn [obind]. exists h2, a2. split; [reflexivity|]. split; [exact I2|]. split; [auto|]. split; [exact (keeps_trans _ _ _ _ K1 K2)|]. split; [exact Ha2|]. split; [unfold grown; repeat split; congruence|].
      fold d. apply nth_error_ext. intros i. destruct (le_lt_dec (a_sz a * a_size a) i) as [H|H]; [rewrite (proj2 (nth_error_None d i)), (proj2 (nth_error_None (firstn _ (bytes h2 a2)) i)) by (rewrite ?Ld, ?firstn_length; lia); reflexivity|]. rewrite nth_firstn by exact H. rewrite W. cbn [Nat.leb andb Nat.add]. rewrite Ld. destruct (Nat.ltb_spec i (a_sz a * a_size a)); [|lia]. f_equal. lia. }
    destruct (a_pool a) eqn:Ep.
    - destruct (Hd eq_refl) as (ge & off & Ed). rewrite (read_ok h o a 0 _ I Ha) by lia. cbn [obind]. unfold getMemory at 1, arr at 1. rewrite Ha. cbn [obind]. rewrite Ep.
      destruct (where_is _ _ _ _ _ I ltac:(discriminate) Ha Ep) as [(_ & X & _)|[(i0 & g0 & Hi0 & U0 & E0 & (_ & Id0 & _ & _))|(i0 & b0 & _ & _ & _ & (_ & _ & X & _))]]; [congruence| |congruence].
      assert (Hid : (0 <= a_id a < SEGMENTS)%Z) by (assert (i0 < length (h_segs h)) by (apply nth_error_Some; congruence); unfold full in Hf; lia).
      destruct (alloc_ok par fresh (a_sz a * cap) o h a I T Hf Ha Ep (proj2 Hid)) as (h1 & p & a1 & E1 & I1 & T1 & K1 & Ha1 & Al & G & Tot & Old); [nia|]. rewrite E1. cbn [obind]. unfold arr at 1. rewrite Ha1. cbn [obind]. set (a2 := withCap (withData a1 p) cap).
      destruct (setArr_ok h1 o 0 a1 a2 I1 Ha1) as (I2 & K2 & Ha2). set (h2 := setArr h1 o a2) in *. unfold arr at 1. rewrite Ha2. cbn [obind]. destruct Al as (A1 & A2 & A3 & A4 & A5). assert (Gr : grown a a2 cap) by (unfold grown; cbn; auto).
      assert (Fi : fine a2) by (apply (fine_grown a _ cap); auto). assert (Ep1 : a_pool a1 = true) by congruence. assert (G2 : given h2 o (a_sz a1 * cap) (a_id a) p a1) by (rewrite A1; exact G). pose proof (keeps_trans _ _ _ _ K1 K2) as K12.
      assert (exists h3 a3, (if (a_id a =? a_id a2)%Z then Done h2 else poolFree par fresh (a_id a) h2) = Done h3 /\ sound h3 /\ tight h3 /\ keeps h h3 (Some o) /\ nth_error (h_arrs h3) o = Some (Some a3) /\ grown a a3 cap) as (h3 & a3 & E3 & I3 & T3 & K3 & Ha3 & Gr3).
      { change (a_id a2) with (a_id a1). destruct (Z.eqb_spec (a_id a) (a_id a1)) as [Eid|Nid].
        - exists h2, a2. split; [reflexivity|]. split; [|auto]. apply (settle_given h2 o a1 p cap (a_id a)); auto. intros j g _ _ _ X. congruence.
        - destruct (release_ok par fresh (a_id a) h2 o I2 ltac:(eauto) Hid) as [(size & segs & E & I3 & R1 & R2 & R3 & R4)|(E & N)].
          { intros g Hg. exact (Old Nid g (proj1 Hid) Hg). }
          + set (h3 := setSegs h2 size segs) in *. assert (S3 : sound h3).
            { apply (settle_given h3 o a1 p cap (a_id a)); auto.
              - destruct G2 as [(i & g & Hi & U & Eo & Q1 & Q2 & Q3 & Q4 & Q5)|(i & b & Hi & U & Eo & Q1 & Q2 & Q3 & Q4 & Q5)].
                + left. assert (Hi' : nth_error segs i = Some g) by (apply R3; auto; lia). exists i, g. split; [exact Hi'|]. split; [exact U|]. split; [exact Eo|]. split; [exact Q1|]. split; [rewrite Q2; change (h_gen h3) with (h_gen h2); change (h_segs h3) with segs; f_equal; symmetry; apply (R2 i g Hi' U)|]. split; [exact Q3|]. split; [|exact Q5]. intros j g' Hj Uj Ej. apply (Q4 j g'); auto. apply (R2 j g' Hj Uj).
                + right. exists i, b. split; [exact Hi|]. split; [exact U|]. split; [exact Eo|]. split; [exact Q1|]. split; [exact Q2|]. split; [exact Q3|]. split; [|exact Q5]. intros j g' Hj Uj Ej. apply (Q4 j g'); auto. apply (R2 j g' Hj Uj).
              - intros j g Hj Uj Ej X. exfalso. destruct (R2 j g Hj Uj) as (_ & Y & _). lia. }
            assert (T3 : tight h3).
            { intros g Hg Ug. change (h_segs h3) with segs in Hg. change (h_bufs h3) with (h_bufs h2). assert (Ls : length segs = S (length segs - 1)) by (assert (length segs - 1 < length segs) by (apply nth_error_Some; congruence); lia). destruct (R4 g Ls Hg Ug) as (Hg' & Le). rewrite Le in Hg'. exact (T1 g Hg' Ug). }
            destruct (unify_ok par fresh h3 S3) as (h4 & t & E4 & I4 & K4 & Q1 & Q2 & Q3 & Q4 & Q5).
            { unfold few, full, total in *. change (h_segs h3) with segs. change (h_bufs h3) with (h_bufs h1). change (h_segs h2) with (h_segs h1) in R1. lia. }
            destruct (keeps_alike h3 h4 o a2 K4 Ha2) as (a4 & Ha4 & (B1 & B2 & B3 & B4 & B5)). exists h4, a4. split; [congruence|]. split; [exact I4|]. split; [exact (unify_tight _ _ _ Q1 Q2 Q4 T3)|]. split; [exact (keeps_trans _ _ _ _ K12 (keeps_trans _ _ _ _ (keeps_weak _ _ _ (setSegs_keeps h2 size segs)) (keeps_weak _ _ _ K4)))|]. split; [exact Ha4|]. destruct Gr as (? & ? & ? & ? & ?). unfold grown. repeat split; congruence.
          + exists h2, a2. split; [exact E|]. split; [|auto]. apply (settle_given h2 o a1 p cap (a_id a)); auto. intros j g Hj _ _ X. exfalso. rewrite <- X, Nat2Z.id in N. congruence. }
      rewrite E3. cbn [obind]. unfold readAt at 1. destruct (Nat.eqb_spec (a_sz a * a_size a) 0) as [Z0|N0]; cbn [obind].
      + apply (Write h3 a3); auto. rewrite Z0. reflexivity.
      + cbn [Nat.add]. change (slice 0 (a_sz a * a_cap a) (bytes h a)) with (firstn (a_sz a * a_cap a) (bytes h a)). rewrite firstn_all2 by lia. destruct (Nat.leb_spec (a_sz a * a_size a) (length (bytes h a))) as [_|X]; [|nia]. cbn [obind]. apply (Write h3 a3); auto.
    - assert (Hid : (a_id a = -1)%Z) by (unfold home in Ho; destruct (a_data a) eqn:Ed; [apply Ho|apply Ho| |]; exfalso; [destruct Ho as (i & g & Hi & U & E); destruct (seg_id _ _ _ _ _ _ I Ha Hi U E)|destruct Ho as (_ & b & Hi & U & E); destruct (buf_id _ _ _ _ _ I Ha Hi E)]; congruence).
      rewrite (read_ok h o a 0 _ I Ha) by nia. cbn [obind]. unfold getMemory, arr. rewrite Ha. cbn [obind]. rewrite Ep. cbn [obind]. set (a' := withCap (withData a (Own (fill fresh (a_sz a * cap)))) cap). assert (Gr : grown a a' cap) by (unfold grown; auto).
      destruct (plain_ok h o a a' I Ha Hid) as (I1 & K1 & Ha1); [apply (fine_grown a _ cap); auto; lia|unfold home; cbn [a' withCap withData a_data a_pool a_id a_sz a_cap]; rewrite fill_length; auto|discriminate|]. apply (Write _ a'); auto.
  Qed.
End Pool.
