(** Whole runs with the memory pool. *)
From Coq Require Import List Arith ZArith Lia Bool.
From Verif Require Import Outcome ListUtil PoolModel PoolSpec PoolProofs PoolAlloc PoolCalls.
Import ListNotations.

Section Pool.
  Context {A : Type}.
  Notation heap := (heap A).
  Notation array := (array A).

  Definition good (h : heap) : Prop := sound h /\ tight h.

  Lemma start_good fresh cap : good (start (A := A) fresh cap).
  Proof.
    split; [constructor; cbn [start h_top h_size h_segs h_mem h_arrs h_bufs h_gen h_epoch]|]; try reflexivity; try lia.
    - unfold SEGMENTS. cbn. lia.
    - intros [|i] g Hi; discriminate Hi.
    - intros [|i] g Hi; discriminate Hi.
    - intros [|i] g _ Hi; discriminate Hi.
    - intros [|i] g Hi; discriminate Hi.
    - intros b [].
    - intros g Hg. discriminate Hg.
  Qed.

  Lemma construct_ok sz (h : heap) m : 0 < sz -> good h -> shows_all h m -> good (construct sz h) /\ shows_all (construct sz h) (m ++ [Some (sz, false, [])]).
  Proof.
    intros Hz (I & T) (L & S). set (a0 := Arr sz false (@Null A) 0 0 0 (-1)). assert (Old : forall o v, nth_error (h_arrs h) o = Some v -> nth_error (h_arrs h ++ [Some a0]) o = Some v) by (intros o v H; rewrite nth_error_app1; [exact H|apply nth_error_Some; congruence]).
    split; [split; [|exact T]|].
    - destruct I as [I1 I2 I3 I4 I5 I6 I7 I8 I9]. constructor; cbn [construct h_top h_size h_segs h_mem h_arrs h_bufs h_gen h_epoch]; try assumption.
      + intros i g Hi U. destruct (I6 i g Hi U) as (a & Ha & C). exists a. split; [apply Old; exact Ha|exact C].
      + intros i b Hk Hi U. destruct (I7 i b Hk Hi U) as (a & Ha & C). exists a. split; [apply Old; exact Ha|exact C].
      + intros o a Ha Hx. destruct (le_lt_dec (length (h_arrs h)) o) as [H|H].
        * rewrite nth_error_app2 in Ha by exact H. destruct (o - length (h_arrs h)) as [|n]; [injection Ha as <-|destruct n; discriminate Ha]. split; [unfold fine; cbn; unfold PARTICLES; repeat split; lia|]. unfold home. cbn. auto.
        * rewrite nth_error_app1 in Ha by exact H. exact (I8 o a Ha Hx).
    - split; [cbn [construct h_arrs]; rewrite !app_length; cbn; lia|]. intros o x Hx. destruct (le_lt_dec (length m) o) as [H|H].
      + rewrite nth_error_app2 in Hx by exact H. destruct (o - length m) as [|n] eqn:En; [injection Hx as <-|destruct n; discriminate Hx]. exists a0. cbn [construct h_arrs]. rewrite nth_error_app2, (proj2 (Nat.sub_0_le _ _)) by lia. repeat split. cbn. lia.
      + rewrite nth_error_app1 in Hx by exact H. specialize (S o x Hx). destruct x as [[[s p] bs]|]; [|apply Old; exact S]. destruct S as (a & Ha & E). exists a. split; [apply Old; exact Ha|exact E].
  Qed.

  Lemma call_ok par fresh c o (h : heap) m : good h -> shows_all h m -> allowed h c o -> ~ full h -> exists h' m', exec par fresh c o h = Done (Some h') /\ good h' /\ does c o m m' /\ shows_all h' m'.
  Proof.
    intros G Sh Al Hf. pose proof G as (I & T).
    assert (C : (exists sz, c = New sz) \/ c = Destroy \/ ((forall sz, c <> New sz) /\ c <> Destroy)) by (destruct c; eauto; right; right; split; discriminate).
    destruct C as [(sz & ->)|[->|(N1 & N2)]].
    - destruct (construct_ok sz h m Al G Sh) as (G' & S'). exists (construct sz h), (m ++ [Some (sz, false, [])]). split; [reflexivity|]. split; [exact G'|]. split; [reflexivity|exact S'].
    - destruct Al as (a & Ha & Al). pose proof (nth_world h m o a I Sh Ha) as Hm.
      assert (exists h', destroy par fresh o h = Done (Some h') /\ sound h' /\ tight h' /\ others h h' o /\ nth_error (h_arrs h') o = Some None) as (h' & E & I' & T' & K & Hn).
      { unfold destroy, arr. rewrite Ha. cbn [obind]. destruct (a_pool a) eqn:Ep.
        - destruct (Al eq_refl) as (B1 & B2). destruct (free_ok par fresh o h a None I T Hf Ha Ep (in_pool h o a I Ha Ep B1 B2) Logic.I) as (h1 & E & _ & I1 & T1 & K1 & H1). rewrite E. cbn [obind]. exists (setCell h1 o None). auto.
        - cbn [obind]. assert (Hid : (a_id a = -1)%Z).
          { destruct (i_arrs _ _ _ I o a Ha ltac:(discriminate)) as (_ & Ho). unfold home in Ho. destruct (a_data a) eqn:Ed; [apply Ho|apply Ho| |]; exfalso; [destruct Ho as (i & g & Hi & U & E); destruct (seg_id _ _ _ _ _ _ I Ha Hi U E)|destruct Ho as (_ & b & Hi & U & E); destruct (buf_id _ _ _ _ _ I Ha Hi E)]; congruence. }
          destruct (loose h o a I Ha Hid) as (L1 & L2). destruct (cell_ok h o a None (Inv_weak _ _ _ I) Ha L1 L2 Logic.I) as (I1 & K1 & H1). exists (setCell h o None). auto. }
      exists h', (put m o None). split; [exact E|]. split; [split; assumption|]. split; [|exact (shows_next h h' o a None m I I' Sh Ha K Hn)].
      cbn [does]. split; [apply put_length|]. split; [intros o' No; apply put_other; auto|]. exists (a_sz a), (a_pool a), (view h a). split; [exact Hm|]. eapply put_same. exact Hm.
    - assert (exists a, nth_error (h_arrs h) o = Some (Some a)) as (a & Ha) by (destruct c; cbn [allowed] in Al; try (destruct Al as (a & Ha & _); eauto); exfalso; eapply N1; reflexivity).
      pose proof (nth_world h m o a I Sh Ha) as Hm. destruct (call_one par fresh c o h a I T Hf Ha Al N1 N2) as (h' & a' & E & I' & T' & K & Ha' & Ez & Ch). exists h', (put m o (cellOf h' (Some a'))). split; [exact E|]. split; [split; assumption|]. split; [|exact (shows_next h h' o a (Some a') m I I' Sh Ha K Ha')].
      assert (D : length (put m o (cellOf h' (Some a'))) = length m /\ (forall o', o' <> o -> nth_error (put m o (cellOf h' (Some a'))) o' = nth_error m o') /\ exists sz pool bs, nth_error m o = Some (Some (sz, pool, bs)) /\ exists pool' bs', nth_error (put m o (cellOf h' (Some a'))) o = Some (Some (sz, pool', bs')) /\ changes c sz pool bs pool' bs').
      { split; [apply put_length|]. split; [intros o' No; apply put_other; auto|]. exists (a_sz a), (a_pool a), (view h a). split; [exact Hm|]. exists (a_pool a'), (view h' a'). split; [|exact Ch]. rewrite (put_same m o _ _ Hm). cbn [cellOf]. congruence. }
      destruct c; try exact D; exfalso; [eapply N1; reflexivity|apply N2; reflexivity].
  Qed.

  Lemma full_dec (h : heap) : full h \/ ~ full h.
  Proof. unfold full. lia. Qed.

  Theorem call_holds par fresh c o (h : heap) m : good h -> shows_all h m -> allowed h c o -> full h \/ exists h' m', exec par fresh c o h = Done (Some h') /\ good h' /\ does c o m m' /\ shows_all h' m'.
  Proof. intros G Sh Al. destruct (full_dec h) as [F|F]; [left; exact F|right]. exact (call_ok par fresh c o h m G Sh Al F). Qed.

  Theorem run_ok : forall es (h : heap) m, good h -> shows_all h m -> well_used es h -> gets_full es h \/ exists h' m', execAll es h = Done (Some h') /\ good h' /\ does_all es m m' /\ shows_all h' m'.
  Proof.
    induction es as [|e es IH]; intros h m G Sh W.
    - right. exists h, m. split; [reflexivity|]. split; [exact G|]. split; [reflexivity|exact Sh].
    - destruct W as (W1 & W2). cbn [gets_full]. destruct (full_dec h) as [F|F]; [left; left; exact F|]. destruct (call_ok (v_par e) (v_fresh e) (v_call e) (v_arr e) h m G Sh W1 F) as (h1 & m1 & E & G1 & D1 & S1). destruct (IH h1 m1 G1 S1 (W2 h1 E)) as [X|(h2 & m2 & E2 & G2 & D2 & S2)]; [left; right; exists h1; auto|].
      right. exists h2, m2. cbn [execAll]. rewrite E. cbn [obind]. split; [exact E2|]. split; [exact G2|]. split; [exists m1; auto|exact S2].
  Qed.

  Theorem trace_holds fresh cap es : well_used es (start (A := A) fresh cap) -> gets_full es (start fresh cap) \/ exists h m, execAll es (start fresh cap) = Done (Some h) /\ does_all es [] m /\ shows_all h m.
  Proof.
    intros W. destruct (run_ok es (start fresh cap) [] (start_good fresh cap)) as [X|(h & m & E & _ & D & S)]; auto; [split; [reflexivity|intros [|o] x H; discriminate H]|]. right. eauto.
  Qed.

  (** arrays without memory in the pool leave nothing in it *)
  Lemma empty_pool (h : heap) : good h -> (forall o a, nth_error (h_arrs h) o = Some (Some a) -> a_pool a = true -> bare a) -> h_segs h = [] /\ h_bufs h = [] /\ h_size h = 0 /\ h_top h = 0.
  Proof.
    intros (I & T) H. assert (B : h_bufs h = []).
    { destruct (h_bufs h) as [|b bs] eqn:E; [reflexivity|exfalso]. assert (Hb : nth_error (h_bufs h) 0 = Some b) by (rewrite E; reflexivity). destruct (i_bpos _ _ _ I b (nth_error_In _ _ Hb)) as (_ & U). destruct (i_bufs _ _ _ I 0 b (le_n _) Hb U) as (a & Ha & C). destruct (C ltac:(discriminate)) as (C1 & _ & C3 & _). pose proof (H _ a Ha C1) as X. unfold bare in X. congruence. }
    assert (S : h_segs h = []).
    { destruct (nth_error (h_segs h) (length (h_segs h) - 1)) as [g|] eqn:E.
      - exfalso. destruct (g_used g) eqn:U; [|exact (T g E U B)]. destruct (i_segs _ _ _ I _ g E U) as (a & Ha & C). destruct (C ltac:(discriminate)) as (C1 & _ & C3 & _). pose proof (H _ a Ha C1) as X. unfold bare in X. congruence.
      - apply nth_error_None in E. destruct (h_segs h); [reflexivity|cbn in E; lia]. }
    pose proof (i_size _ _ _ I) as Z. rewrite S in Z. cbn in Z. pose proof (i_top _ _ _ I) as Y. rewrite Z in Y. auto.
  Qed.
  Theorem released_holds fresh cap es : well_used es (start (A := A) fresh cap) -> ~ gets_full es (start fresh cap) -> exists h, execAll es (start fresh cap) = Done (Some h) /\
    ((forall o a, nth_error (h_arrs h) o = Some (Some a) -> a_pool a = true -> bare a) -> h_segs h = [] /\ h_bufs h = [] /\ h_size h = 0 /\ h_top h = 0).
  Proof.
    intros W N. destruct (run_ok es (start fresh cap) [] (start_good fresh cap)) as [X|(h & m & E & G & D & S)]; auto; [split; [reflexivity|intros [|o] x H; discriminate H]|contradiction|]. exists h. split; [exact E|]. exact (empty_pool h G).
  Qed.
  (** a part of what was read *)
  Lemma slice_part (L l v r : list A) off : slice off (length (l ++ v ++ r)) L = l ++ v ++ r -> slice (off + length l) (length v) L = v.
  Proof.
    unfold slice. rewrite Nat.add_comm, <- skipn_skipn. generalize (skipn off L) as M. intros M H.
    rewrite <- (firstn_skipn (length (l ++ v ++ r)) M), H, <- !app_assoc, skipn_app, skipn_all2, Nat.sub_diag by lia. cbn [app skipn].
    rewrite firstn_app, firstn_all, Nat.sub_diag. cbn [firstn]. apply app_nil_r.
  Qed.
  Theorem element_holds (h : heap) m o sz pool l v r i : shows_all h m -> nth_error m o = Some (Some (sz, pool, l ++ v ++ r)) -> length l = sz * i -> length v = sz -> getElement i o h = Done v.
  Proof.
    intros (_ & S) H Hl Hv. destruct (S o _ H) as (a & Ha & Es & _ & Hs & E). unfold getElement, arr. rewrite Ha. cbn [obind]. rewrite Es, <- Hl. rewrite <- Hv. unfold readAt in *.
    destruct v as [|x v']; [reflexivity|]. remember (x :: v') as v eqn:Ev. replace (length v =? 0) with false by (subst v; reflexivity).
    assert (Z : length (l ++ v ++ r) =? 0 = false) by (apply Nat.eqb_neq; rewrite !app_length, Ev; cbn; lia). rewrite Z in E.
    assert (Q : length (l ++ v ++ r) = length l + length v + length r) by (rewrite !app_length; lia).
    destruct (a_data a) as [|d|g off|e j].
    - discriminate E.
    - destruct (0 + length (l ++ v ++ r) <=? length d) eqn:C; [|discriminate E]. apply Nat.leb_le in C. injection E as E. replace (length l + length v <=? length d) with true by (symmetry; apply Nat.leb_le; lia). f_equal. exact (slice_part d l v r 0 E).
    - destruct (g =? h_gen h); [|discriminate E]. cbn [andb] in *. destruct (off + 0 + length (l ++ v ++ r) <=? length (h_mem h)) eqn:C; [|discriminate E]. apply Nat.leb_le in C. injection E as E. rewrite Nat.add_0_r in E. replace (off + length l + length v <=? length (h_mem h)) with true by (symmetry; apply Nat.leb_le; lia). f_equal. exact (slice_part _ l v r off E).
    - destruct (e =? h_epoch h); [|discriminate E]. destruct (nth_error (h_bufs h) j) as [b|]; [|discriminate E]. destruct (0 + length (l ++ v ++ r) <=? length (u_data b)) eqn:C; [|discriminate E]. apply Nat.leb_le in C. injection E as E. replace (length l + length v <=? length (u_data b)) with true by (symmetry; apply Nat.leb_le; lia). f_equal. exact (slice_part _ l v r 0 E).
  Qed.
End Pool.
