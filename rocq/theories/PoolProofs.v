(** The invariant of the memory pool. *)
From Coq Require Import List Arith ZArith Lia Bool.
From Verif Require Import Outcome ListUtil PoolModel PoolSpec.
Import ListNotations.

(** ** Lists *)

Section Lists.
  Context {B : Type}.
  Lemma put_length (l : list B) i v : length (put l i v) = length l.
  Proof. unfold put. rewrite app_length, firstn_length. pose proof (skipn_length i l) as H. destruct (skipn i l) as [|b r]; cbn [length] in *; lia. Qed.
  Lemma put_same (l : list B) i v b : nth_error l i = Some b -> nth_error (put l i v) i = Some v.
  Proof.
    intros H. assert (Hi : i < length l) by (apply nth_error_Some; congruence). unfold put. rewrite nth_error_app2; rewrite firstn_length_le by lia; [|lia]. rewrite Nat.sub_diag.
    pose proof (skipn_length i l) as L. destruct (skipn i l) as [|b' r]; cbn [length] in *; [lia|reflexivity].
  Qed.
  Lemma put_other (l : list B) i v j : i <> j -> nth_error (put l i v) j = nth_error l j.
  Proof.
    intros H. destruct (le_lt_dec (length l) i) as [Hi|Hi].
    { unfold put. rewrite skipn_all2, firstn_all2, app_nil_r by lia. reflexivity. }
    rewrite <- (firstn_skipn i l) at 2. unfold put. pose proof (skipn_length i l) as L. destruct (skipn i l) as [|b r]; cbn [length] in *; [lia|].
    destruct (le_lt_dec i j) as [Hj|Hj].
    - rewrite !nth_error_app2; rewrite firstn_length_le by lia; [|lia|lia]. destruct (j - i) as [|n] eqn:E; [lia|]. reflexivity.
    - rewrite !nth_error_app1 by (rewrite firstn_length_le; lia). reflexivity.
  Qed.
  Lemma put_put (l : list B) i v w : put (put l i v) i w = put l i w.
  Proof.
    apply nth_error_ext. intros j. destruct (Nat.eq_dec i j) as [<-|H].
    - destruct (nth_error l i) as [b|] eqn:E.
      + rewrite (put_same l i w b E). exact (put_same _ i w v (put_same l i v b E)).
      + apply nth_error_None in E. rewrite !(proj2 (nth_error_None _ _)); rewrite ?put_length; auto.
    - rewrite !put_other by exact H. reflexivity.
  Qed.

  Lemma nth_firstn (l : list B) : forall n j, j < n -> nth_error (firstn n l) j = nth_error l j.
  Proof. induction l as [|b l IH]; intros [|n] [|j] H; cbn; try lia; auto. apply IH. lia. Qed.
  Lemma nth_skipn (l : list B) : forall n j, nth_error (skipn n l) j = nth_error l (n + j).
  Proof. induction l as [|b l IH]; intros [|n] j; cbn; auto. destruct j; reflexivity. Qed.
  Lemma slice_length off n (l : list B) : off + n <= length l -> length (slice off n l) = n.
  Proof. intros H. unfold slice. rewrite firstn_length, skipn_length. lia. Qed.
  Lemma nth_slice off n (l : list B) i : nth_error (slice off n l) i = if i <? n then nth_error l (off + i) else None.
  Proof.
    unfold slice. destruct (Nat.ltb_spec i n) as [H|H].
    - rewrite nth_firstn by exact H. apply nth_skipn.
    - apply nth_error_None. rewrite firstn_length. lia.
  Qed.
  Lemma splice_ok (l : list B) off b : off + length b <= length l -> exists l', splice l off b = Done l' /\ length l' = length l /\
    forall i, nth_error l' i = if (off <=? i) && (i <? off + length b) then nth_error b (i - off) else nth_error l i.
  Proof.
    intros H. unfold splice. destruct (Nat.leb_spec (off + length b) (length l)); [|lia]. eexists. split; [reflexivity|]. split; [rewrite !app_length, firstn_length, skipn_length; lia|].
    intros i. destruct (Nat.leb_spec off i) as [Hi|Hi]; cbn [andb].
    - rewrite nth_error_app2; rewrite firstn_length_le by lia; [|lia]. destruct (Nat.ltb_spec i (off + length b)) as [Hj|Hj].
      + rewrite nth_error_app1 by lia. reflexivity.
      + rewrite nth_error_app2 by lia. rewrite nth_skipn. f_equal. lia.
    - rewrite nth_error_app1 by (rewrite firstn_length_le; lia). apply nth_firstn. exact Hi.
  Qed.
  (** reading elsewhere, and what was written *)
  Lemma splice_slice (l l' b : list B) off k n : (forall i, nth_error l' i = if (off <=? i) && (i <? off + length b) then nth_error b (i - off) else nth_error l i) ->
    k + n <= off \/ off + length b <= k -> slice k n l' = slice k n l.
  Proof.
    intros H D. apply nth_error_ext. intros i. rewrite !nth_slice. destruct (Nat.ltb_spec i n) as [Hi|]; [|reflexivity]. rewrite H. destruct (Nat.leb_spec off (k + i)), (Nat.ltb_spec (k + i) (off + length b)); cbn [andb]; try reflexivity. lia.
  Qed.
  Lemma splice_slice_in (l l' b : list B) off k n : (forall i, nth_error l' i = if (off <=? i) && (i <? off + length b) then nth_error b (i - off) else nth_error l i) ->
    off <= k -> k + n <= off + length b -> slice k n l' = slice (k - off) n b.
  Proof.
    intros H D1 D2. apply nth_error_ext. intros i. rewrite !nth_slice. destruct (Nat.ltb_spec i n) as [Hi|]; [|reflexivity]. rewrite H. destruct (Nat.leb_spec off (k + i)), (Nat.ltb_spec (k + i) (off + length b)); cbn [andb]; try lia. f_equal. lia.
  Qed.
  Lemma slice_0 n (l : list B) : slice 0 n l = firstn n l.
  Proof. reflexivity. Qed.
  Lemma slice_slice a b c d (l : list B) : c + d <= b -> slice c d (slice a b l) = slice (a + c) d l.
  Proof. intros H. apply nth_error_ext. intros i. rewrite !nth_slice. destruct (Nat.ltb_spec i d); [|reflexivity]. destruct (Nat.ltb_spec (c + i) b); [|lia]. f_equal. lia. Qed.
End Lists.

Lemma align_ge n : 0 < n -> n <= getAlignSize n.
Proof. intros H. unfold getAlignSize. pose proof (Nat.div_mod (n - 1) 8 ltac:(lia)). pose proof (Nat.mod_upper_bound (n - 1) 8 ltac:(lia)). lia. Qed.
Lemma align_pos n : 0 < getAlignSize n.
Proof. unfold getAlignSize. lia. Qed.

Section Pool.
  Context {A : Type}.
  Notation heap := (heap A).
  Notation array := (array A).
  Notation ptr := (ptr A).

  Lemma fill_length (fresh : nat -> A) n : length (fill fresh n) = n.
  Proof. unfold fill. rewrite map_length, seq_length. reflexivity. Qed.

  (** ** The invariant *)

  Definition offset (segs : list seg) (i : nat) : nat := sum_list (map g_cap (firstn i segs)).
  Lemma offset_cons g segs i : offset (g :: segs) (S i) = g_cap g + offset segs i.
  Proof. reflexivity. Qed.
  Lemma offset_end segs i g : nth_error segs i = Some g -> offset segs i + g_cap g <= sum_list (map g_cap segs).
  Proof. revert i. induction segs as [|s segs IH]; intros [|i] H; try discriminate H; cbn [nth_error] in H. - injection H as <-. cbn. lia. - rewrite offset_cons. cbn [map]. rewrite sum_list_cons. specialize (IH i H). lia. Qed.
  (** segments are apart *)
  Lemma offset_apart segs i j g : nth_error segs i = Some g -> i < j -> j <= length segs -> offset segs i + g_cap g <= offset segs j.
  Proof.
    revert i j. induction segs as [|s segs IH]; intros i j H Hij Hj; [destruct i; discriminate H|]. destruct j as [|j]; [lia|]. rewrite offset_cons. destruct i as [|i]; cbn [nth_error] in H; [injection H as <-; cbn; lia|].
    rewrite offset_cons. cbn [length] in Hj. specialize (IH i j H ltac:(lia) ltac:(lia)). lia.
  Qed.
  Lemma offset_app segs t i : i <= length segs -> offset (segs ++ t) i = offset segs i.
  Proof. intros H. unfold offset. rewrite firstn_app. replace (i - length segs) with 0 by lia. rewrite firstn_O, app_nil_r. reflexivity. Qed.
  Lemma offset_all segs : offset segs (length segs) = sum_list (map g_cap segs).
  Proof. unfold offset. rewrite firstn_all. reflexivity. Qed.
  Lemma offset_put segs i g g' j : nth_error segs i = Some g -> g_cap g' = g_cap g -> offset (put segs i g') j = offset segs j.
  Proof.
    intros H E. unfold offset. f_equal. rewrite <- !firstn_map. f_equal. apply nth_error_ext. intros n. rewrite !nth_error_map. destruct (Nat.eq_dec i n) as [<-|D]; [rewrite (put_same _ _ _ _ H), H; cbn; congruence|rewrite put_other by exact D; reflexivity].
  Qed.

  Definition bytesOf (h : heap) (p : ptr) (n : nat) : list A :=
    match p with Null => [] | Own l => firstn n l | InPool _ off => slice off n (h_mem h) | InBuf _ i => match nth_error (h_bufs h) i with Some b => firstn n (u_data b) | None => [] end end.
  (** the array o has its home in segment i or buffer i *)
  Definition inSeg (h : heap) (i : nat) (g : seg) (a : array) : Prop :=
    a_pool a = true /\ a_id a = Z.of_nat i /\ a_data a = InPool (h_gen h) (offset (h_segs h) i) /\ a_sz a * a_cap a <= g_cap g.
  Definition inBuf (h : heap) (i : nat) (b : buf A) (a : array) : Prop :=
    a_pool a = true /\ a_id a = (Z.of_nat i + SEGMENTS)%Z /\ a_data a = InBuf (h_epoch h) i /\ a_sz a * a_cap a <= length (u_data b).
  Definition home (h : heap) (k o : nat) (a : array) : Prop :=
    match a_data a with
    | Null => a_cap a = 0 /\ a_id a = (-1)%Z
    | Own l => a_pool a = false /\ a_id a = (-1)%Z /\ length l = a_sz a * a_cap a
    | InPool _ _ => exists i g, nth_error (h_segs h) i = Some g /\ g_used g = true /\ g_ptr g = o
    | InBuf _ i => k <= i /\ exists b, nth_error (h_bufs h) i = Some b /\ u_used b = true /\ u_ptr b = o
    end.
  Definition fine (a : array) : Prop := 0 < a_sz a /\ a_size a <= a_cap a /\ (Z.of_nat (a_cap a) < PARTICLES)%Z /\ (Z.of_nat (a_org a) < PARTICLES)%Z.
  (** [x]: an array that is being given memory, [k]: the buffers before it have been moved *)
  Record Inv (h : heap) (x : option nat) (k : nat) : Prop := {
    i_top : h_top h = h_size h;
    i_size : h_size h = sum_list (map g_cap (h_segs h));
    i_room : h_size h <= length (h_mem h);
    i_few : (Z.of_nat (length (h_segs h)) <= SEGMENTS)%Z;
    i_caps : forall i g, nth_error (h_segs h) i = Some g -> 0 < g_cap g;
    i_segs : forall i g, nth_error (h_segs h) i = Some g -> g_used g = true -> exists a, nth_error (h_arrs h) (g_ptr g) = Some (Some a) /\ (x <> Some (g_ptr g) -> inSeg h i g a);
    i_bufs : forall i b, k <= i -> nth_error (h_bufs h) i = Some b -> u_used b = true -> exists a, nth_error (h_arrs h) (u_ptr b) = Some (Some a) /\ (x <> Some (u_ptr b) -> inBuf h i b a);
    i_arrs : forall o a, nth_error (h_arrs h) o = Some (Some a) -> x <> Some o -> fine a /\ home h k o a;
    i_bpos : forall b, In b (h_bufs h) -> 0 < length (u_data b) /\ u_used b = true }.
  Definition sound (h : heap) : Prop := Inv h None 0.

  Definition alike (a a' : array) : Prop := a_sz a' = a_sz a /\ a_pool a' = a_pool a /\ a_size a' = a_size a /\ a_cap a' = a_cap a /\ a_org a' = a_org a.
  (** all arrays are kept, with their bytes, but for [x] *)
  Definition keeps (h h' : heap) (x : option nat) : Prop := length (h_arrs h') = length (h_arrs h) /\ (forall o, nth_error (h_arrs h) o = Some None -> nth_error (h_arrs h') o = Some None) /\ forall o a, nth_error (h_arrs h) o = Some (Some a) -> exists a', nth_error (h_arrs h') o = Some (Some a') /\ (x <> Some o -> alike a a' /\ bytesOf h' (a_data a') (a_sz a * a_cap a) = bytesOf h (a_data a) (a_sz a * a_cap a)).
  Lemma keeps_refl h x : keeps h h x.
  Proof. split; [reflexivity|]. split; [auto|]. intros o a H. exists a. split; [exact H|]. intros _. unfold alike. repeat split. Qed.
  Lemma keeps_trans h1 h2 h3 x : keeps h1 h2 x -> keeps h2 h3 x -> keeps h1 h3 x.
  Proof.
    intros (A1 & A2 & A3) (B1 & B2 & B3). split; [congruence|]. split; [auto|]. intros o a H. destruct (A3 o a H) as (a' & H' & C). destruct (B3 o a' H') as (a'' & H'' & D). exists a''. split; [exact H''|]. intros Hx. destruct (C Hx) as ((C1 & C2 & C3 & C4 & C5) & C6), (D Hx) as ((D1 & D2 & D3 & D4 & D5) & D6).
    split; [unfold alike; repeat split; congruence|]. rewrite C1, C4 in D6. congruence.
  Qed.
  Lemma keeps_weak h h' x : keeps h h' None -> keeps h h' x.
  Proof. intros (A1 & A2 & A3). split; [exact A1|]. split; [exact A2|]. intros o a H. destruct (A3 o a H) as (a' & H' & C). exists a'. split; [exact H'|]. intros _. apply C. discriminate. Qed.
  Lemma Inv_weak h x k : Inv h None k -> Inv h x k.
  Proof.
    intros [I1 I2 I3 I4 I5 I6 I7 I8 I9]. constructor; try assumption.
    - intros i g H U. destruct (I6 i g H U) as (a & Ha & C). exists a. split; [exact Ha|]. intros _. apply C. discriminate.
    - intros i b Hk H U. destruct (I7 i b Hk H U) as (a & Ha & C). exists a. split; [exact Ha|]. intros _. apply C. discriminate.
    - intros o a H _. apply (I8 o a H). discriminate.
  Qed.

  (** one array has one segment *)
  Lemma seg_unique h x k i j g g' : Inv h x k -> nth_error (h_segs h) i = Some g -> g_used g = true -> nth_error (h_segs h) j = Some g' -> g_used g' = true -> g_ptr g' = g_ptr g -> x <> Some (g_ptr g) -> j = i.
  Proof.
    intros I Hi Ui Hj Uj E Hx. destruct (i_segs _ _ _ I i g Hi Ui) as (a & Ha & Ca). destruct (i_segs _ _ _ I j g' Hj Uj) as (b & Hb & Cb). rewrite E in Hb, Cb. destruct (Ca Hx) as (_ & X & _), (Cb Hx) as (_ & Y & _). assert (a = b) by congruence. subst b. rewrite X in Y. lia.
  Qed.

  (** ** reInitialize *)

  Lemma repoint_ok gen : forall segs cum arrs, (forall i g, nth_error segs i = Some g -> g_used g = true -> exists a : array, nth_error arrs (g_ptr g) = Some (Some a)) ->
    exists arrs', repoint gen segs cum arrs = Done arrs' /\ length arrs' = length arrs /\ (forall o, nth_error arrs o = Some None -> nth_error arrs' o = Some None) /\
      forall o a, nth_error arrs o = Some (Some a) -> exists p, nth_error arrs' o = Some (Some (withData a p)) /\
        ((forall i g, nth_error segs i = Some g -> g_used g = true -> g_ptr g <> o) -> p = a_data a) /\
        (forall i g, nth_error segs i = Some g -> g_used g = true -> g_ptr g = o -> (forall j g', nth_error segs j = Some g' -> g_used g' = true -> g_ptr g' = o -> j = i) -> p = InPool gen (cum + offset segs i)).
  Proof.
    induction segs as [|s segs IH]; intros cum arrs HA.
    - exists arrs. split; [reflexivity|]. split; [reflexivity|]. split; [auto|]. intros o a H. exists (a_data a). split; [destruct a; exact H|]. split; [auto|]. intros [|i] g Hi; discriminate Hi.
    - cbn [repoint]. destruct (g_used s) eqn:U.
      + destruct (HA 0 s eq_refl U) as (a0 & H0). rewrite H0. cbn [obind]. set (arrs1 := put arrs (g_ptr s) (Some (withData a0 (InPool gen cum)))).
        assert (O1 : forall o, o <> g_ptr s -> nth_error arrs1 o = nth_error arrs o) by (intros o Ho; apply put_other; auto). assert (O2 : nth_error arrs1 (g_ptr s) = Some (Some (withData a0 (InPool gen cum)))) by (eapply put_same; exact H0).
        destruct (IH (cum + g_cap s) arrs1) as (arrs' & E & L & D & P).
        { intros i g Hi Ug. destruct (HA (S i) g Hi Ug) as (a & Ha). destruct (Nat.eq_dec (g_ptr g) (g_ptr s)) as [X|X]; [rewrite X; eauto|rewrite O1 by exact X; eauto]. }
        exists arrs'. split; [exact E|]. split; [rewrite L; apply put_length|]. split.
        { intros o Ho. apply D. rewrite O1; [exact Ho|]. intros ->. congruence. }
        intros o a Ho. destruct (Nat.eq_dec o (g_ptr s)) as [->|X].
        * destruct (P _ _ O2) as (p & Hp & P1 & P2). assert (a = a0) by congruence. subst a0. exists p. split; [exact Hp|]. split.
          { intros N. exfalso. exact (N 0 s eq_refl U eq_refl). }
          intros i g Hi Ug Eg Un. assert (i = 0) by (symmetry; apply (Un 0 s eq_refl U eq_refl)). subst i. rewrite P1; [cbn [withData a_data]; unfold offset; cbn; f_equal; lia|]. intros j g' Hj Uj Ej. specialize (Un (S j) g' Hj Uj Ej). discriminate Un.
        * rewrite <- (O1 o X) in Ho. destruct (P _ _ Ho) as (p & Hp & P1 & P2). exists p. split; [exact Hp|]. split; [intros N; apply P1; intros i g Hi; exact (N (S i) g Hi)|].
          intros [|i] g Hi Ug Eg Un; cbn [nth_error] in Hi; [congruence|]. rewrite (P2 i g Hi Ug Eg); [rewrite offset_cons; f_equal; lia|]. intros j g' Hj Uj Ej. specialize (Un (S j) g' Hj Uj Ej). lia.
      + cbn [obind]. destruct (IH (cum + g_cap s) arrs) as (arrs' & E & L & D & P); [intros i g Hi; exact (HA (S i) g Hi)|]. exists arrs'. split; [exact E|]. split; [exact L|]. split; [exact D|].
        intros o a Ho. destruct (P o a Ho) as (p & Hp & P1 & P2). exists p. split; [exact Hp|]. split; [intros N; apply P1; intros i g Hi; exact (N (S i) g Hi)|].
        intros [|i] g Hi Ug Eg Un; cbn [nth_error] in Hi; [injection Hi as ->; congruence|]. rewrite (P2 i g Hi Ug Eg); [rewrite offset_cons; f_equal; lia|]. intros j g' Hj Uj Ej. specialize (Un (S j) g' Hj Uj Ej). lia.
  Qed.

  Lemma reInit_ok fresh add h x k : Inv h x k -> exists h', reInitialize fresh add h = Done h' /\ Inv h' x k /\ keeps h h' x /\ h_segs h' = h_segs h /\ h_bufs h' = h_bufs h /\ h_epoch h' = h_epoch h /\
    h_size h' = h_size h /\ (0 < add -> length (h_mem h) + add <= length (h_mem h')) /\ forall o a, nth_error (h_arrs h) o = Some (Some a) -> exists p, nth_error (h_arrs h') o = Some (Some (withData a p)).
  Proof.
    intros I. unfold reInitialize. set (cn := getAlignSize (length (h_mem h) + add)).
    assert (Hcn : length (h_mem h) + add <= cn \/ (length (h_mem h) = 0 /\ add = 0)) by (destruct (Nat.eq_dec (length (h_mem h) + add) 0); [lia|left; apply align_ge; lia]).
    destruct (splice_ok (fill fresh cn) 0 (h_mem h)) as (mem & E & L & N); [rewrite fill_length; lia|]. rewrite E. cbn [obind]. rewrite fill_length in L.
    destruct (repoint_ok (S (h_gen h)) (h_segs h) 0 (h_arrs h)) as (arrs & Er & La & Da & Pa). { intros i g Hi U. destruct (i_segs _ _ _ I i g Hi U) as (a & Ha & _). eauto. }
    rewrite Er. cbn [obind]. eexists. split; [reflexivity|].
    assert (Hd : forall i g a, nth_error (h_segs h) i = Some g -> g_used g = true -> x <> Some (g_ptr g) -> nth_error (h_arrs h) (g_ptr g) = Some (Some a) -> nth_error arrs (g_ptr g) = Some (Some (withData a (InPool (S (h_gen h)) (offset (h_segs h) i))))).
    { intros i g a Hi U Hx Ha. destruct (Pa _ _ Ha) as (p & Hp & _ & P2). rewrite Hp. rewrite (P2 i g Hi U eq_refl); [reflexivity|]. intros j g' Hj Uj Ej. exact (seg_unique h x k i j g g' I Hi U Hj Uj Ej Hx). }
    assert (Hn : forall o a, nth_error (h_arrs h) o = Some (Some a) -> x <> Some o -> (forall ge off, a_data a <> InPool ge off) -> nth_error arrs o = Some (Some a)).
    { intros o a Ha Hx Hp. destruct (Pa o a Ha) as (p & Hq & P1 & _). rewrite Hq, P1; [destruct a; reflexivity|]. intros i g Hi U <-. destruct (i_segs _ _ _ I i g Hi U) as (a' & Ha' & C). assert (a' = a) by congruence. subst a'. destruct (C Hx) as (_ & _ & C3 & _). exact (Hp _ _ C3). }
    split.
    - destruct I as [I1 I2 I3 I4 I5 I6 I7 I8 I9]. constructor; cbn [h_top h_size h_segs h_mem h_arrs h_bufs h_gen h_epoch]; try assumption.
      + lia.
      + intros i g Hi U. destruct (I6 i g Hi U) as (a & Ha & C). destruct (Pa _ _ Ha) as (p & Hp & _). exists (withData a p). split; [exact Hp|]. intros Hx. rewrite (Hd i g a Hi U Hx Ha) in Hp. injection Hp as <-. destruct (C Hx) as (C1 & C2 & C3 & C4). repeat split; assumption.
      + intros i b Hk Hi U. destruct (I7 i b Hk Hi U) as (a & Ha & C). destruct (Pa _ _ Ha) as (p & Hp & _). exists (withData a p). split; [exact Hp|]. intros Hx. destruct (C Hx) as (C1 & C2 & C3 & C4).
        rewrite (Hn _ a Ha Hx) in Hp by (rewrite C3; discriminate). assert (Q : withData a p = a) by congruence. rewrite Q. repeat split; assumption.
      + intros o a' Ha' Hx. assert (exists a, nth_error (h_arrs h) o = Some (Some a)) as (a & Ha).
        { destruct (nth_error (h_arrs h) o) as [[a|]|] eqn:Y; [eauto|rewrite (Da o Y) in Ha'; discriminate Ha'|]. exfalso. apply nth_error_None in Y. assert (o < length arrs) by (apply nth_error_Some; congruence). lia. }
        destruct (I8 o a Ha Hx) as (F & Ho). destruct (a_data a) as [|l|ge off|e i] eqn:Ed.
        * rewrite (Hn o a Ha Hx) in Ha' by (rewrite Ed; discriminate). injection Ha' as <-. split; [exact F|]. unfold home in *. rewrite Ed in *. exact Ho.
        * rewrite (Hn o a Ha Hx) in Ha' by (rewrite Ed; discriminate). injection Ha' as <-. split; [exact F|]. unfold home in *. rewrite Ed in *. exact Ho.
        * unfold home in Ho. rewrite Ed in Ho. destruct Ho as (i & g & Hi & U & <-). rewrite (Hd i g a Hi U Hx Ha) in Ha'. injection Ha' as <-. split; [exact F|]. unfold home. cbn [withData a_data]. exists i, g. auto.
        * rewrite (Hn o a Ha Hx) in Ha' by (rewrite Ed; discriminate). injection Ha' as <-. split; [exact F|]. unfold home in *. rewrite Ed in *. exact Ho.
    - split; [|repeat split; cbn [h_segs h_bufs h_epoch h_size h_mem h_arrs]; try lia].
      + split; [exact La|]. split; [exact Da|]. intros o a Ha. destruct (Pa o a Ha) as (p & Hp & _). exists (withData a p). split; [exact Hp|]. intros Hx. split; [unfold alike; repeat split|].
        destruct (i_arrs _ _ _ I o a Ha Hx) as (F & Ho). destruct (a_data a) as [|l|ge off|e i] eqn:Ed; [| |unfold home in Ho; rewrite Ed in Ho; destruct Ho as (i & g & Hi & U & <-)|].
        1,2,4: rewrite (Hn o a Ha Hx) in Hp by (rewrite Ed; discriminate); assert (Q : withData a p = a) by congruence; rewrite Q, Ed; reflexivity.
        rewrite (Hd i g a Hi U Hx Ha) in Hp. assert (Q : p = InPool (S (h_gen h)) (offset (h_segs h) i)) by (unfold withData in Hp; congruence). rewrite Q. cbn [withData a_data bytesOf h_mem]. destruct (i_segs _ _ _ I i g Hi U) as (a' & Ha2 & C). assert (a' = a) by congruence. subst a'. destruct (C Hx) as (_ & _ & C3 & C4). assert (ge = h_gen h /\ off = offset (h_segs h) i) as (-> & ->) by (split; congruence).
        pose proof (offset_end _ _ _ Hi). pose proof (i_room _ _ _ I). pose proof (i_size _ _ _ I). rewrite (splice_slice_in _ _ _ _ _ _ N) by lia. rewrite Nat.sub_0_r. reflexivity.
      + intros o a Ha. destruct (Pa o a Ha) as (p & Hp & _). eauto.
  Qed.

  (** ** Small steps *)

  Lemma setArr_ok h o k a a' : Inv h (Some o) k -> nth_error (h_arrs h) o = Some (Some a) -> Inv (setArr h o a') (Some o) k /\ keeps h (setArr h o a') (Some o) /\ nth_error (h_arrs (setArr h o a')) o = Some (Some a').
  Proof.
    intros I Ha. assert (P1 : nth_error (put (h_arrs h) o (Some a')) o = Some (Some a')) by (eapply put_same; exact Ha). assert (P2 : forall o', o' <> o -> nth_error (put (h_arrs h) o (Some a')) o' = nth_error (h_arrs h) o') by (intros; apply put_other; auto).
    split; [|split; [|exact P1]].
    - destruct I as [I1 I2 I3 I4 I5 I6 I7 I8 I9]. constructor; cbn [setArr h_top h_size h_segs h_mem h_arrs h_bufs h_gen h_epoch]; try assumption.
      + intros i g Hi U. destruct (I6 i g Hi U) as (b & Hb & C). destruct (Nat.eq_dec (g_ptr g) o) as [E|E]; [exists a'; rewrite E; split; [exact P1|congruence]|exists b; rewrite P2 by exact E; auto].
      + intros i u Hk Hi U. destruct (I7 i u Hk Hi U) as (b & Hb & C). destruct (Nat.eq_dec (u_ptr u) o) as [E|E]; [exists a'; rewrite E; split; [exact P1|congruence]|exists b; rewrite P2 by exact E; auto].
      + intros o' b Hb Hx. assert (o' <> o) by congruence. rewrite P2 in Hb by assumption. exact (I8 o' b Hb Hx).
    - split; [apply put_length|]. cbn [setArr h_arrs]. split.
      + intros o' H. rewrite P2; [exact H|]. intros ->. congruence.
      + intros o' b Hb. destruct (Nat.eq_dec o' o) as [->|E]; [exists a'; split; [exact P1|congruence]|]. exists b. rewrite P2 by exact E. split; [exact Hb|]. intros _. unfold alike. repeat split.
  Qed.

  Definition setMem (h : heap) mem : heap := Heap (h_gen h) mem (h_top h) (h_size h) (h_segs h) (h_epoch h) (h_bufs h) (h_arrs h).
  (** bytes above the segments do not matter, and those of the array that is being given memory *)
  Lemma setMem_ok h x k mem : Inv h x k -> length mem = length (h_mem h) ->
    (forall i g, nth_error (h_segs h) i = Some g -> g_used g = true -> x <> Some (g_ptr g) -> slice (offset (h_segs h) i) (g_cap g) mem = slice (offset (h_segs h) i) (g_cap g) (h_mem h)) ->
    Inv (setMem h mem) x k /\ keeps h (setMem h mem) x.
  Proof.
    intros I L S. split.
    - destruct I as [I1 I2 I3 I4 I5 I6 I7 I8 I9]. constructor; cbn [setMem h_top h_size h_segs h_mem h_arrs h_bufs h_gen h_epoch]; try assumption. lia.
    - split; [reflexivity|]. split; [auto|]. cbn [setMem h_arrs]. intros o a Ha. exists a. split; [exact Ha|]. intros Hx. split; [unfold alike; repeat split|]. destruct (i_arrs _ _ _ I o a Ha Hx) as (F & Ho). unfold home in Ho. destruct (a_data a) as [|l|ge off|e i] eqn:Ed; try reflexivity.
      destruct Ho as (i & g & Hi & U & <-). destruct (i_segs _ _ _ I i g Hi U) as (a' & Ha' & C). assert (a' = a) by congruence. subst a'. destruct (C Hx) as (_ & _ & C3 & C4). assert (off = offset (h_segs h) i) by congruence. subst off. cbn [bytesOf setMem h_mem].
      pose proof (f_equal (slice 0 (a_sz a * a_cap a)) (S i g Hi U Hx)) as Q. rewrite !slice_slice, Nat.add_0_r in Q by lia. exact Q.
  Qed.

  Definition setSegs (h : heap) size segs : heap := Heap (h_gen h) (h_mem h) size size segs (h_epoch h) (h_bufs h) (h_arrs h).
  (** other segments, as long as those of the other arrays stay *)
  Lemma setSegs_ok h o k size segs : Inv h (Some o) k -> size = sum_list (map g_cap segs) -> size <= length (h_mem h) -> (Z.of_nat (length segs) <= SEGMENTS)%Z -> (forall i g, nth_error segs i = Some g -> 0 < g_cap g) ->
    (exists a, nth_error (h_arrs h) o = Some (Some a)) ->
    (forall i g, nth_error segs i = Some g -> g_used g = true -> g_ptr g <> o -> nth_error (h_segs h) i = Some g) -> (forall i g, nth_error (h_segs h) i = Some g -> g_used g = true -> g_ptr g <> o -> nth_error segs i = Some g /\ offset segs i = offset (h_segs h) i) ->
    Inv (setSegs h size segs) (Some o) k /\ keeps h (setSegs h size segs) (Some o).
  Proof.
    intros I S1 S2 S3 S4 (a0 & H0) S5 S6. split.
    - destruct I as [I1 I2 I3 I4 I5 I6 I7 I8 I9]. constructor; cbn [setSegs h_top h_size h_segs h_mem h_arrs h_bufs h_gen h_epoch]; try assumption; try reflexivity.
      + intros i g Hi U. destruct (Nat.eq_dec (g_ptr g) o) as [E|E]; [rewrite E; exists a0; split; [exact H0|congruence]|]. pose proof (S5 i g Hi U E) as Hi'. destruct (I6 i g Hi' U) as (a & Ha & C). exists a. split; [exact Ha|]. intros Hx. destruct (C Hx) as (C1 & C2 & C3 & C4).
        destruct (S6 i g Hi' U E) as (_ & O). unfold inSeg. cbn [setSegs h_gen h_segs]. rewrite O. auto.
      + intros o' a Ha Hx. destruct (I8 o' a Ha Hx) as (F & Ho). split; [exact F|]. unfold home in *. cbn [setSegs h_segs h_bufs]. destruct (a_data a); try exact Ho. destruct Ho as (i & g & Hi & U & E). exists i, g. split; [apply (S6 i g Hi U); congruence|auto].
    - split; [reflexivity|]. split; [auto|]. cbn [setSegs h_arrs]. intros o' a Ha. exists a. split; [exact Ha|]. intros _. split; [unfold alike; repeat split|reflexivity].
  Qed.

  Definition setBufs (h : heap) bufs : heap := Heap (h_gen h) (h_mem h) (h_top h) (h_size h) (h_segs h) (h_epoch h) bufs (h_arrs h).
  Lemma setBufs_ok h o k bufs : Inv h (Some o) k -> (forall b, In b bufs -> 0 < length (u_data b) /\ u_used b = true) -> (exists a, nth_error (h_arrs h) o = Some (Some a)) ->
    (forall i b, nth_error bufs i = Some b -> u_used b = true -> u_ptr b <> o -> nth_error (h_bufs h) i = Some b) -> (forall i b, nth_error (h_bufs h) i = Some b -> u_used b = true -> u_ptr b <> o -> nth_error bufs i = Some b) ->
    Inv (setBufs h bufs) (Some o) k /\ keeps h (setBufs h bufs) (Some o).
  Proof.
    intros I S7 (a0 & H0) S5 S6. split.
    - destruct I as [I1 I2 I3 I4 I5 I6 I7 I8 I9]. constructor; cbn [setBufs h_top h_size h_segs h_mem h_arrs h_bufs h_gen h_epoch]; try assumption; try reflexivity.
      + intros i b Hk Hi U. destruct (Nat.eq_dec (u_ptr b) o) as [E|E]; [rewrite E; exists a0; split; [exact H0|congruence]|]. exact (I7 i b Hk (S5 i b Hi U E) U).
      + intros o' a Ha Hx. destruct (I8 o' a Ha Hx) as (F & Ho). split; [exact F|]. unfold home in *. cbn [setBufs h_segs h_bufs]. destruct (a_data a); try exact Ho. destruct Ho as (Hk & b & Hi & U & E). split; [exact Hk|]. exists b. split; [apply (S6 _ b Hi U); congruence|auto].
    - split; [reflexivity|]. split; [auto|]. cbn [setBufs h_arrs]. intros o' a Ha. exists a. split; [exact Ha|]. intros Hx. split; [unfold alike; repeat split|]. destruct (i_arrs _ _ _ I o' a Ha Hx) as (_ & Ho). unfold home in Ho. destruct (a_data a) as [|l|ge off|e i] eqn:Ed; try reflexivity.
      destruct Ho as (_ & b & Hi & U & E). cbn [bytesOf setBufs h_bufs]. rewrite Hi, (S6 i b Hi U) by congruence. reflexivity.
  Qed.

  (** the array has its one home again *)
  Lemma settle h o k a : Inv h (Some o) k -> nth_error (h_arrs h) o = Some (Some a) -> fine a -> home h k o a ->
    (forall i g, nth_error (h_segs h) i = Some g -> g_used g = true -> g_ptr g = o -> inSeg h i g a) -> (forall i b, k <= i -> nth_error (h_bufs h) i = Some b -> u_used b = true -> u_ptr b = o -> inBuf h i b a) -> Inv h None k.
  Proof.
    intros [I1 I2 I3 I4 I5 I6 I7 I8 I9] Ha F Ho Hs Hb. constructor; try assumption.
    - intros i g Hi U. destruct (I6 i g Hi U) as (a' & Ha' & C). exists a'. split; [exact Ha'|]. intros _. destruct (Nat.eq_dec (g_ptr g) o) as [E|E]; [|apply C; congruence]. assert (a' = a) by congruence. subst a'. exact (Hs i g Hi U E).
    - intros i b Hk Hi U. destruct (I7 i b Hk Hi U) as (a' & Ha' & C). exists a'. split; [exact Ha'|]. intros _. destruct (Nat.eq_dec (u_ptr b) o) as [E|E]; [|apply C; congruence]. assert (a' = a) by congruence. subst a'. exact (Hb i b Hk Hi U E).
    - intros o' a' Ha' _. destruct (Nat.eq_dec o' o) as [->|E]; [assert (a' = a) by congruence; subst a'; auto|]. apply (I8 o' a' Ha'). congruence.
  Qed.

  (** a new segment at the tail for the array o *)
  Lemma append_ok h o k cap : Inv h (Some o) k -> (Z.of_nat (length (h_segs h)) < SEGMENTS)%Z -> 0 < cap -> h_size h + cap <= length (h_mem h) -> (exists a, nth_error (h_arrs h) o = Some (Some a)) ->
    exists h', addSegment cap o h = Done h' /\ h' = setSegs h (h_size h + cap) (h_segs h ++ [Seg cap true o]) /\ Inv h' (Some o) k /\ keeps h h' (Some o).
  Proof.
    intros I Hf Hc Hr Ho. unfold addSegment. replace (SEGMENTS <=? Z.of_nat (length (h_segs h)))%Z with false by (symmetry; apply Z.leb_gt; exact Hf). eexists. split; [reflexivity|]. rewrite (i_top _ _ _ I). split; [reflexivity|].
    apply (setSegs_ok h o k); [exact I| |exact Hr| | |exact Ho| |].
    - rewrite map_app, sum_list_app, (i_size _ _ _ I). cbn. lia.
    - rewrite app_length. cbn [length]. lia.
    - intros i g Hi. destruct (le_lt_dec (length (h_segs h)) i) as [H|H]; [rewrite nth_error_app2 in Hi by exact H; destruct (i - length (h_segs h)) as [|n]; [injection Hi as <-; exact Hc|destruct n; discriminate Hi]|].
      rewrite nth_error_app1 in Hi by exact H. exact (i_caps _ _ _ I i g Hi).
    - intros i g Hi U E. destruct (le_lt_dec (length (h_segs h)) i) as [H|H]; [rewrite nth_error_app2 in Hi by exact H; destruct (i - length (h_segs h)) as [|n]; [injection Hi as <-; cbn in E; congruence|destruct n; discriminate Hi]|].
      rewrite nth_error_app1 in Hi by exact H. exact Hi.
    - intros i g Hi U E. assert (H : i < length (h_segs h)) by (apply nth_error_Some; congruence). split; [rewrite nth_error_app1 by exact H; exact Hi|]. apply offset_app. lia.
  Qed.

  (** ** unifyMem *)

  Lemma Inv_next h o k : Inv h (Some o) k -> (forall b, nth_error (h_bufs h) k = Some b -> u_used b = true -> u_ptr b = o) -> Inv h (Some o) (S k).
  Proof.
    intros [I1 I2 I3 I4 I5 I6 I7 I8 I9] Hb. constructor; try assumption.
    - intros i b Hk. apply I7. lia.
    - intros o' a Ha Hx. destruct (I8 o' a Ha Hx) as (F & Ho). split; [exact F|]. unfold home in *. destruct (a_data a); try exact Ho. destruct Ho as (Hk & b & Hi & U & E). split; [|exists b; auto]. destruct (Nat.eq_dec k idx) as [->|]; [|lia]. exfalso. apply Hx. f_equal. rewrite <- (Hb b Hi U). exact E.
  Qed.
  (** arrays that are not in a buffer keep their id *)
  Definition same_ids (h h' : heap) : Prop := forall o a, nth_error (h_arrs h) o = Some (Some a) -> (a_id a < SEGMENTS)%Z -> exists a', nth_error (h_arrs h') o = Some (Some a') /\ a_id a' = a_id a.
  Definition used_cap (b : buf A) : nat := if u_used b then length (u_data b) else 0.
  Lemma moveBufs_ok : forall bs h k pre, h_bufs h = pre ++ bs -> length pre = k -> Inv h None k -> h_size h + sum_list (map used_cap bs) <= length (h_mem h) -> (Z.of_nat (length (h_segs h) + length bs) <= SEGMENTS)%Z ->
    exists h', moveBufs bs h = Done h' /\ Inv h' None (length (h_bufs h)) /\ keeps h h' None /\ h_bufs h' = h_bufs h /\ exists t, h_segs h' = h_segs h ++ t /\ length t = length bs /\ Forall (fun g => g_used g = true) t /\ same_ids h h'.
  Proof.
    induction bs as [|b bs IH]; intros h k pre Eb Lp I HR HF.
    - exists h. split; [reflexivity|]. split; [rewrite Eb, app_nil_r, Lp; exact I|]. split; [apply keeps_refl|]. split; [reflexivity|]. exists []. rewrite app_nil_r. repeat split; auto. intros o a Ha _. eauto.
    - assert (Hk : nth_error (h_bufs h) k = Some b) by (rewrite Eb, nth_error_app2, <- Lp, Nat.sub_diag by lia; reflexivity).
      cbn [map] in HR. rewrite sum_list_cons in HR. cbn [length] in HF. cbn [moveBufs]. destruct (u_used b) eqn:U; cbn [negb].
      2: { exfalso. destruct (i_bpos _ _ _ I b (nth_error_In _ _ Hk)) as (_ & X). congruence. }
      unfold used_cap at 1 in HR. rewrite U in HR. pose proof (proj1 (i_bpos _ _ _ I b (nth_error_In _ _ Hk))) as Hpos. destruct (i_bufs _ _ _ I k b (le_n _) Hk U) as (a & Ha & C). specialize (C ltac:(discriminate)). destruct C as (C1 & C2 & C3 & C4).
      set (o := u_ptr b) in *. destruct (append_ok h o k (length (u_data b)) (Inv_weak _ _ _ I)) as (h1 & E1 & -> & I1 & K1); [lia|exact Hpos|lia|eauto|]. rewrite E1. cbn [obind].
      set (h1 := setSegs h (h_size h + length (u_data b)) (h_segs h ++ [Seg (length (u_data b)) true o])) in *. change (h_mem h1) with (h_mem h). rewrite (i_top _ _ _ I).
      destruct (splice_ok (h_mem h) (h_size h) (u_data b)) as (mem & Em & Lm & Nm); [lia|]. rewrite Em. cbn [obind]. unfold arr at 1. change (h_arrs h1) with (h_arrs h). rewrite Ha. cbn [obind].
      destruct (setMem_ok h1 (Some o) k mem I1 Lm) as (I2 & K2).
      { intros i g Hi Ug Hx. apply (splice_slice _ _ _ _ _ _ Nm). left. cbn [h1 setSegs h_segs] in Hi. assert (Hl : i < length (h_segs h)).
        { destruct (le_lt_dec (length (h_segs h)) i) as [H|H]; [|exact H]. rewrite nth_error_app2 in Hi by exact H. destruct (i - length (h_segs h)) as [|n]; [injection Hi as <-; cbn in Hx; congruence|destruct n; discriminate Hi]. }
        rewrite nth_error_app1 in Hi by exact Hl. change (h_segs h1) with (h_segs h ++ [Seg (length (u_data b)) true o]). rewrite offset_app by lia. rewrite (i_size _ _ _ I). exact (offset_end _ _ _ Hi). }
      set (h2 := setMem h1 mem) in *. set (a' := withId (withData a (InPool (h_gen h1) (h_size h))) (Z.of_nat (length (h_segs h1)) - 1)).
      destruct (setArr_ok h2 o k a a' I2 Ha) as (I3 & K3 & Ha3). change (Heap (h_gen h1) mem (h_top h1) (h_size h1) (h_segs h1) (h_epoch h1) (h_bufs h1) (put (h_arrs h) o (Some a'))) with (setArr h2 o a'). set (h3 := setArr h2 o a') in *.
      destruct (i_arrs _ _ _ I o a Ha ltac:(discriminate)) as (F & _).
      assert (Ls : length (h_segs h1) = S (length (h_segs h))) by (cbn; rewrite app_length; cbn; lia).
      assert (New : forall i g, nth_error (h_segs h3) i = Some g -> g_used g = true -> g_ptr g = o -> i = length (h_segs h) /\ g = Seg (length (u_data b)) true o).
      { intros i g Hi Ug Eg. change (h_segs h3) with (h_segs h ++ [Seg (length (u_data b)) true o]) in Hi. destruct (le_lt_dec (length (h_segs h)) i) as [H|H].
        - rewrite nth_error_app2 in Hi by exact H. destruct (i - length (h_segs h)) as [|n] eqn:En; [injection Hi as <-; split; [lia|reflexivity]|destruct n; discriminate Hi].
        - rewrite nth_error_app1 in Hi by exact H. exfalso. destruct (i_segs _ _ _ I i g Hi Ug) as (a2 & Ha2 & D). rewrite Eg in Ha2. assert (a2 = a) by congruence. subst a2. destruct (D ltac:(discriminate)) as (_ & _ & D3 & _). congruence. }
      assert (I4 : Inv h3 None (S k)).
      { apply (settle h3 o (S k) a').
        - apply Inv_next; [exact I3|]. intros b' Hb' _. change (h_bufs h3) with (h_bufs h) in Hb'. assert (b' = b) by congruence. subst b'. reflexivity.
        - exact Ha3.
        - exact F.
        - unfold home. cbn [a' withId withData a_data]. exists (length (h_segs h)), (Seg (length (u_data b)) true o). split; [change (h_segs h3) with (h_segs h ++ [Seg (length (u_data b)) true o]); rewrite nth_error_app2, Nat.sub_diag by lia; reflexivity|auto].
        - intros i g Hi Ug Eg. destruct (New i g Hi Ug Eg) as (-> & ->). unfold inSeg. cbn [a' withId withData a_pool a_id a_data a_sz a_cap g_cap]. split; [exact C1|]. split; [rewrite Ls; lia|]. split; [|exact C4]. change (h_segs h3) with (h_segs h ++ [Seg (length (u_data b)) true o]). rewrite offset_app, offset_all, (i_size _ _ _ I) by lia. reflexivity.
        - intros i b' Hi Hb' Ub Eb'. exfalso. change (h_bufs h3) with (h_bufs h) in Hb'. destruct (i_bufs _ _ _ I i b' ltac:(lia) Hb' Ub) as (a2 & Ha2 & D). rewrite Eb' in Ha2. assert (a2 = a) by congruence. subst a2. destruct (D ltac:(discriminate)) as (_ & D2 & _). lia. }
      assert (K4 : keeps h h3 None).
      { destruct (keeps_trans _ _ _ _ K1 (keeps_trans _ _ _ _ K2 K3)) as (Q1 & Q2 & Q3). split; [exact Q1|]. split; [exact Q2|]. intros o' x Hx. destruct (Q3 o' x Hx) as (x' & Hx' & D). exists x'. split; [exact Hx'|]. intros _. destruct (Nat.eq_dec o' o) as [->|N]; [|apply D; congruence].
        assert (x = a) by congruence. assert (x' = a') by congruence. subst x x'. split; [unfold alike; repeat split|]. rewrite C3. cbn [a' withId withData a_data bytesOf]. change (h_mem h3) with mem. rewrite Hk. change (h_gen h1) with (h_gen h). rewrite (splice_slice_in _ _ _ _ _ _ Nm) by lia. rewrite Nat.sub_diag. reflexivity. }
      destruct (IH h3 (S k) (pre ++ [b])) as (h' & E & R1 & R2 & R3 & t & R4 & R5 & R6 & R7).
      + rewrite <- app_assoc. exact Eb.
      + rewrite app_length. cbn. lia.
      + exact I4.
      + change (h_size h3) with (h_size h + length (u_data b)). change (h_mem h3) with mem. lia.
      + change (h_segs h3) with (h_segs h1). rewrite Ls. lia.
      + exists h'. split; [exact E|]. change (h_bufs h3) with (h_bufs h) in R1, R3. split; [exact R1|]. split; [exact (keeps_trans _ _ _ _ K4 R2)|]. split; [exact R3|]. exists (Seg (length (u_data b)) true o :: t). split; [rewrite R4; change (h_segs h3) with (h_segs h ++ [Seg (length (u_data b)) true o]); rewrite <- app_assoc; reflexivity|]. split; [cbn [length]; lia|]. split; [constructor; [reflexivity|exact R6]|].
        intros o' x Hx Hid. apply (R7 o' x); [|exact Hid]. assert (o' <> o) by (intros ->; assert (x = a) by congruence; subst x; lia). change (h_arrs h3) with (put (h_arrs h) o (Some a')). rewrite put_other by auto. exact Hx.
  Qed.

  Lemma setSegs_keeps h size segs : keeps h (setSegs h size segs) None.
  Proof. split; [reflexivity|]. split; [auto|]. cbn [setSegs h_arrs]. intros o' a Ha. exists a. split; [exact Ha|]. intros _. split; [unfold alike; repeat split|reflexivity]. Qed.

  Definition few (h : heap) : Prop := (Z.of_nat (length (h_segs h) + length (h_bufs h)) <= SEGMENTS)%Z.
  Lemma unify_ok par fresh h : sound h -> few h -> exists h' t, unifyMem par fresh h = Done h' /\ sound h' /\ keeps h h' None /\ h_segs h' = h_segs h ++ t /\ length t + length (h_bufs h') = length (h_bufs h) /\ (par = false -> h_bufs h' = []) /\ Forall (fun g => g_used g = true) t /\ same_ids h h'.
  Proof.
    intros I HF. unfold unifyMem. destruct (negb par && negb (length (h_bufs h) =? 0)) eqn:Ec.
    2: { exists h, []. split; [reflexivity|]. split; [exact I|]. split; [apply keeps_refl|]. split; [rewrite app_nil_r; reflexivity|]. split; [cbn; lia|]. split; [|split; [constructor|intros o a Ha _; eauto]]. intros ->. cbn [negb andb] in Ec. apply negb_false_iff, Nat.eqb_eq in Ec. destruct (h_bufs h); [reflexivity|discriminate Ec]. }
    set (add := sum_list (map (fun b => if u_used b then length (u_data b) else 0) (h_bufs h))).
    assert (exists h1, (if length (h_mem h) <? h_size h + add then reInitialize fresh add h else Done h) = Done h1 /\ sound h1 /\ keeps h h1 None /\ h_segs h1 = h_segs h /\ h_bufs h1 = h_bufs h /\ h_size h1 + add <= length (h_mem h1) /\ same_ids h h1) as (h1 & E1 & I1 & K1 & Q1 & Q2 & Q3 & Q9).
    { destruct (Nat.ltb_spec (length (h_mem h)) (h_size h + add)) as [Hl|Hl].
      - destruct (reInit_ok fresh add h None 0 I) as (h1 & E & I1 & K & S1 & S2 & _ & S3 & S4 & S5). exists h1. pose proof (i_room _ _ _ I). rewrite S3. split; [exact E|]. split; [exact I1|]. split; [exact K|]. split; [exact S1|]. split; [exact S2|]. split; [lia|]. intros o a Ha _. destruct (S5 o a Ha) as (p & Hp). eexists. split; [exact Hp|reflexivity].
      - exists h. split; [reflexivity|]. split; [exact I|]. split; [apply keeps_refl|]. split; [reflexivity|]. split; [reflexivity|]. split; [exact Hl|]. intros o a Ha _. eauto. }
    rewrite E1. cbn [obind]. destruct (moveBufs_ok (h_bufs h1) h1 0 [] eq_refl eq_refl I1) as (h2 & E2 & I2 & K2 & Q4 & t & Q5 & Q6 & Q7 & Q8); [rewrite Q2 at 1; exact Q3|unfold few in HF; rewrite Q1, Q2; exact HF|]. rewrite E2. cbn [obind].
    exists (Heap (h_gen h2) (h_mem h2) (h_top h2) (h_size h2) (h_segs h2) (S (h_epoch h2)) [] (h_arrs h2)), t. split; [reflexivity|].
    assert (NB : forall o a, nth_error (h_arrs h2) o = Some (Some a) -> forall e i, a_data a <> InBuf e i).
    { intros o a Ha e i Ed. destruct (i_arrs _ _ _ I2 o a Ha ltac:(discriminate)) as (_ & Ho). unfold home in Ho. rewrite Ed in Ho. destruct Ho as (Hk & b & Hi & _). assert (i < length (h_bufs h2)) by (apply nth_error_Some; congruence). rewrite Q4 in *. lia. }
    split; [|split; [|split; [cbn [h_segs]; congruence|split; [cbn [h_bufs length]; rewrite <- Q2; lia|split; [reflexivity|split; [exact Q7|]]]]]].
    3: { intros o a Ha Hid. destruct (Q9 o a Ha Hid) as (a1 & Ha1 & E). destruct (Q8 o a1 Ha1 ltac:(lia)) as (a2 & Ha2 & E'). exists a2. split; [exact Ha2|congruence]. }
    - destruct I2 as [I21 I22 I23 I24 I25 I26 I27 I28 I29]. constructor; cbn [h_top h_size h_segs h_mem h_arrs h_bufs h_gen h_epoch]; try assumption.
      + intros i b _ Hi. destruct i; discriminate Hi.
      + intros o a Ha Hx. destruct (I28 o a Ha Hx) as (F & Ho). split; [exact F|]. unfold home in *. cbn [h_segs h_bufs]. destruct (a_data a) eqn:Ed; try exact Ho. exfalso. exact (NB o a Ha _ _ Ed).
      + intros b [].
    - apply (keeps_trans _ _ _ _ (keeps_trans _ _ _ _ K1 K2)). split; [reflexivity|]. split; [auto|]. intros o a Ha. exists a. split; [exact Ha|]. intros _. split; [unfold alike; repeat split|]. destruct (a_data a) eqn:Ed; try reflexivity. exfalso. exact (NB o a Ha _ _ Ed).
  Qed.

  (** ** freeMem of the pool *)

  Definition used_in (segs : list seg) (i o : nat) : Prop := exists g, nth_error segs i = Some g /\ g_used g = true /\ g_ptr g = o.

  Lemma firstn_last (l : list seg) i g : nth_error l i = Some g -> length l = S i -> l = firstn i l ++ [g].
  Proof. intros H L. rewrite <- (firstn_skipn i l) at 1. f_equal. pose proof (skipn_length i l) as Ls. pose proof (nth_skipn l i 0) as Hn. rewrite Nat.add_0_r, H in Hn. destruct (skipn i l) as [|x [|y r]]; cbn in *; try lia. congruence. Qed.
  Lemma pop_ok : forall n segs size, length segs = n -> size = sum_list (map g_cap segs) -> exists m, popUnused n segs size = (sum_list (map g_cap (firstn m segs)), firstn m segs) /\ m <= length segs /\ (forall i g, m <= i -> nth_error segs i = Some g -> g_used g = false) /\ (forall g, m = S (m - 1) -> nth_error segs (m - 1) = Some g -> g_used g = true).
  Proof.
    induction n as [|n IH]; intros segs size L S.
    - exists 0. destruct segs; [|discriminate L]. split; [subst; reflexivity|]. split; [cbn; lia|]. split; [intros [|i] g _ H; discriminate H|intros g H; discriminate H].
    - cbn [popUnused]. destruct (nth_error segs n) as [g|] eqn:E; [|apply nth_error_None in E; lia]. pose proof (firstn_last segs n g E L) as Q. destruct (g_used g) eqn:U.
      + exists (Datatypes.S n). rewrite firstn_all2 by lia. split; [congruence|]. split; [lia|]. split; [intros i g' Hi Hg; assert (i < length segs) by (apply nth_error_Some; congruence); lia|]. intros g' _ Hg. cbn [Nat.sub] in Hg. rewrite Nat.sub_0_r in Hg. congruence.
      + assert (Sz : size - g_cap g = sum_list (map g_cap (firstn n segs))) by (rewrite S, Q at 1; rewrite map_app, sum_list_app; cbn; lia).
        destruct (IH (firstn n segs) (size - g_cap g)) as (m & E2 & M1 & M2 & M3); [rewrite firstn_length; lia|exact Sz|]. rewrite firstn_length in M1. exists m. rewrite E2, firstn_firstn, Nat.min_l by lia. split; [reflexivity|]. split; [lia|]. split.
        * intros i g' Hi Hg. assert (i < length segs) by (apply nth_error_Some; congruence). destruct (Nat.eq_dec i n) as [->|N]; [congruence|]. apply (M2 i g' Hi). rewrite nth_firstn by lia. exact Hg.
        * intros g' Hm Hg. apply M3; [exact Hm|]. rewrite nth_firstn by lia. exact Hg.
  Qed.

  (** a segment of o given back: before unifyMem *)
  Lemma release_ok par fresh id h o : Inv h (Some o) 0 -> (exists a, nth_error (h_arrs h) o = Some (Some a)) -> (0 <= id < SEGMENTS)%Z -> (forall g, nth_error (h_segs h) (Z.to_nat id) = Some g -> g_used g = true /\ g_ptr g = o) ->
    (exists size segs, poolFree par fresh id h = unifyMem par fresh (setSegs h size segs) /\ Inv (setSegs h size segs) (Some o) 0 /\
      length segs <= length (h_segs h) /\ (forall i g, nth_error segs i = Some g -> g_used g = true -> nth_error (h_segs h) i = Some g /\ i <> Z.to_nat id /\ offset segs i = offset (h_segs h) i) /\
      (forall i g, nth_error (h_segs h) i = Some g -> g_used g = true -> i <> Z.to_nat id -> nth_error segs i = Some g) /\
      (forall g, length segs = S (length segs - 1) -> nth_error segs (length segs - 1) = Some g -> g_used g = false -> nth_error (h_segs h) (length segs - 1) = Some g /\ length segs = length (h_segs h))) \/
    poolFree par fresh id h = Done h /\ nth_error (h_segs h) (Z.to_nat id) = None.
  Proof.
    intros I Ho Hid Hg. unfold poolFree. replace (((id <? 0) || (SEGMENTS <=? id))%Z) with false by (symmetry; apply orb_false_iff; split; [apply Z.ltb_ge|apply Z.leb_gt]; lia). set (i := Z.to_nat id) in *.
    destruct (nth_error (h_segs h) i) as [g|] eqn:Ei; [|right; auto]. left. destruct (Hg g eq_refl) as (U & Ep). pose proof (i_caps _ _ _ I i g Ei) as Hc. destruct (g_cap g =? 0) eqn:E0; [apply Nat.eqb_eq in E0; lia|].
    set (g' := Seg (g_cap g) false (g_ptr g)). set (segs := put (h_segs h) i g'). pose proof (put_same _ _ g' _ Ei) as P1. assert (P2 : forall j, j <> i -> nth_error segs j = nth_error (h_segs h) j) by (intros j Hj; apply put_other; auto). fold segs in P1.
    assert (PL : length segs = length (h_segs h)) by apply put_length. assert (PO : forall j, offset segs j = offset (h_segs h) j) by (intros j; apply (offset_put _ _ g); auto).
    assert (PS : h_size h = sum_list (map g_cap segs)) by (rewrite (i_size _ _ _ I), <- !offset_all, PL, PO; reflexivity).
    assert (exists m, (if S i =? length segs then popUnused (S i) segs (h_size h) else (h_size h, segs)) = (sum_list (map g_cap (firstn m segs)), firstn m segs) /\ m <= length segs /\ (forall j g, m <= j -> nth_error segs j = Some g -> g_used g = false) /\ (S i = length segs -> forall g, m = S (m - 1) -> nth_error segs (m - 1) = Some g -> g_used g = true) /\ (S i <> length segs -> m = length segs)) as (m & Em & M1 & M2 & M3 & M4).
    { destruct (Nat.eqb_spec (S i) (length segs)) as [E|E].
      - destruct (pop_ok (S i) segs (h_size h) (eq_sym E) PS) as (m & Em & M1 & M2 & M3). exists m. intuition congruence.
      - exists (length segs). rewrite firstn_all. split; [congruence|]. split; [lia|]. split; [intros j g0 Hj H; assert (j < length segs) by (apply nth_error_Some; congruence); lia|]. split; [congruence|auto]. }
    fold g'. fold segs. rewrite Em. set (segs' := firstn m segs). assert (L' : length segs' = m) by (unfold segs'; rewrite firstn_length; lia).
    assert (N1 : forall j g0, nth_error segs' j = Some g0 -> j < m /\ nth_error segs j = Some g0) by (intros j g0 H; assert (j < m) by (rewrite <- L'; apply nth_error_Some; congruence); unfold segs' in H; rewrite nth_firstn in H by lia; auto).
    assert (O' : forall j, j <= m -> offset segs' j = offset (h_segs h) j) by (intros j Hj; rewrite <- PO; unfold segs'; rewrite <- (firstn_skipn m segs) at 2; symmetry; apply offset_app; fold segs'; lia).
    exists (sum_list (map g_cap segs')), segs'. split; [reflexivity|].
    assert (R1 : forall j g0, nth_error segs' j = Some g0 -> g_used g0 = true -> nth_error (h_segs h) j = Some g0 /\ j <> i /\ offset segs' j = offset (h_segs h) j).
    { intros j g0 H Ug. destruct (N1 j g0 H) as (Hm & Hs). assert (j <> i) by (intros ->; rewrite P1 in Hs; injection Hs as <-; discriminate Ug). rewrite P2 in Hs by assumption. split; [exact Hs|]. split; [assumption|]. apply O'. lia. }
    assert (R2 : forall j g0, nth_error (h_segs h) j = Some g0 -> g_used g0 = true -> j <> i -> nth_error segs' j = Some g0).
    { intros j g0 H Ug Hj. rewrite <- P2 in H by exact Hj. unfold segs'. rewrite nth_firstn; [exact H|]. destruct (le_lt_dec m j) as [Q|Q]; [rewrite (M2 j g0 Q H) in Ug; discriminate Ug|exact Q]. }
    split; [apply setSegs_ok|split; [lia|split; [exact R1|split; [exact R2|]]]].
    - exact I.
    - reflexivity.
    - rewrite <- (offset_all segs'), L', O' by lia. pose proof (i_room _ _ _ I). pose proof (i_size _ _ _ I). unfold offset. rewrite <- (firstn_skipn m (h_segs h)) in H0. rewrite map_app, sum_list_app in H0. lia.
    - pose proof (i_few _ _ _ I). lia.
    - intros j g0 H. destruct (N1 j g0 H) as (_ & Hs). destruct (Nat.eq_dec j i) as [->|N]; [rewrite P1 in Hs; injection Hs as <-; exact Hc|rewrite P2 in Hs by exact N; exact (i_caps _ _ _ I j g0 Hs)].
    - exact Ho.
    - intros j g0 H Ug _. apply (R1 j g0 H Ug).
    - intros j g0 H Ug Np. assert (Q : nth_error segs' j = Some g0) by (apply R2; [exact H|exact Ug|intros ->; congruence]). split; [exact Q|]. apply (R1 j g0 Q Ug).
    - rewrite L'. intros g0 Hm H Ug. destruct (N1 _ _ H) as (_ & Hs). destruct (Nat.eq_dec (S i) (length segs)) as [E|E]; [rewrite (M3 E g0 Hm Hs) in Ug; discriminate Ug|]. pose proof (M4 E) as Em'. split; [|lia]. rewrite P2 in Hs by lia. exact Hs.
  Qed.

  (** ** alloc *)

  (** the last segment is in use, or there are emergency buffers *)
  Definition tight (h : heap) : Prop := forall g, nth_error (h_segs h) (length (h_segs h) - 1) = Some g -> g_used g = false -> h_bufs h <> [].
  Lemma last_app (l t : list seg) : t <> [] -> nth_error (l ++ t) (length (l ++ t) - 1) = nth_error t (length t - 1).
  Proof. intros H. destruct t as [|x t]; [congruence|]. rewrite app_length. cbn [length]. rewrite nth_error_app2 by lia. f_equal. lia. Qed.
  Lemma unify_tight (h h' : heap) t : h_segs h' = h_segs h ++ t -> length t + length (h_bufs h') = length (h_bufs h) -> Forall (fun g => g_used g = true) t -> tight h -> tight h'.
  Proof.
    intros E L F T g Hg U. destruct t as [|x t].
    - rewrite app_nil_r in E. rewrite E in Hg. specialize (T g Hg U). intros X. rewrite X in L. cbn in L. destruct (h_bufs h); [auto|discriminate L].
    - rewrite E, last_app in Hg by discriminate. rewrite Forall_forall in F. rewrite (F g (nth_error_In _ _ Hg)) in U. discriminate U.
  Qed.

  Lemma find_ok size : forall segs j cum i c, findSegment size segs j cum = Some (i, c) -> exists n g, i = j + n /\ c = cum + offset segs n /\ nth_error segs n = Some g /\ g_used g = false /\ size <= g_cap g.
  Proof.
    induction segs as [|s segs IH]; intros j cum i c H; [discriminate H|]. cbn [findSegment] in H. destruct (negb (g_used s) && (size <=? g_cap s)) eqn:E.
    - injection H as <- <-. apply andb_prop in E. destruct E as (E1 & E2). exists 0, s. apply negb_true_iff in E1. apply Nat.leb_le in E2. unfold offset. cbn. repeat split; auto.
    - destruct (IH _ _ _ _ H) as (n & g & -> & -> & Hg & U & Sz). exists (S n), g. rewrite offset_cons. repeat split; auto; lia.
  Qed.

  (** where an array of the pool is *)
  Lemma where_is h x k o a : Inv h x k -> x <> Some o -> nth_error (h_arrs h) o = Some (Some a) -> a_pool a = true ->
    a_id a = (-1)%Z /\ a_data a = Null /\ a_cap a = 0 \/ (exists i g, nth_error (h_segs h) i = Some g /\ g_used g = true /\ g_ptr g = o /\ inSeg h i g a) \/ (exists i b, nth_error (h_bufs h) i = Some b /\ u_used b = true /\ u_ptr b = o /\ inBuf h i b a).
  Proof.
    intros I Hx Ha Hp. destruct (i_arrs _ _ _ I o a Ha Hx) as (F & Ho). unfold home in Ho. destruct (a_data a) eqn:Ed.
    - left. intuition.
    - destruct Ho as (Y & _). congruence.
    - right. left. destruct Ho as (i & g & Hi & U & E). exists i, g. repeat split; auto; destruct (i_segs _ _ _ I i g Hi U) as (a' & Ha' & C); rewrite E in Ha', C; assert (a' = a) by congruence; subst a'; apply (C Hx).
    - right. right. destruct Ho as (Hk & b & Hi & U & E). exists idx, b. repeat split; auto; destruct (i_bufs _ _ _ I idx b Hk Hi U) as (a' & Ha' & C); rewrite E in Ha', C; assert (a' = a) by congruence; subst a'; apply (C Hx).
  Qed.
  Lemma seg_id h k o a i g : Inv h None k -> nth_error (h_arrs h) o = Some (Some a) -> nth_error (h_segs h) i = Some g -> g_used g = true -> g_ptr g = o -> inSeg h i g a.
  Proof. intros I Ha Hi U E. destruct (i_segs _ _ _ I i g Hi U) as (a' & Ha' & C). rewrite E in Ha'. assert (a' = a) by congruence. subst a'. apply C. discriminate. Qed.
  Lemma buf_id h o a i b : Inv h None 0 -> nth_error (h_arrs h) o = Some (Some a) -> nth_error (h_bufs h) i = Some b -> u_ptr b = o -> inBuf h i b a.
  Proof. intros I Ha Hi E. destruct (i_bpos _ _ _ I b (nth_error_In _ _ Hi)) as (_ & U). destruct (i_bufs _ _ _ I i b ltac:(lia) Hi U) as (a' & Ha' & C). rewrite E in Ha'. assert (a' = a) by congruence. subst a'. apply C. discriminate. Qed.

  (** memory given to o: the rest of what o has is its old segment *)
  Definition given (h : heap) (o size : nat) (id_old : Z) (p : ptr) (a : array) : Prop :=
    (exists i g, nth_error (h_segs h) i = Some g /\ g_used g = true /\ g_ptr g = o /\ a_id a = Z.of_nat i /\ p = InPool (h_gen h) (offset (h_segs h) i) /\ size <= g_cap g /\
       (forall j g', nth_error (h_segs h) j = Some g' -> g_used g' = true -> g_ptr g' = o -> j = i \/ Z.of_nat j = id_old) /\ (forall j b, nth_error (h_bufs h) j = Some b -> u_ptr b <> o)) \/
    (exists i b, nth_error (h_bufs h) i = Some b /\ u_used b = true /\ u_ptr b = o /\ a_id a = (Z.of_nat i + SEGMENTS)%Z /\ p = InBuf (h_epoch h) i /\ size <= length (u_data b) /\
       (forall j g', nth_error (h_segs h) j = Some g' -> g_used g' = true -> g_ptr g' = o -> Z.of_nat j = id_old) /\ (forall j b', nth_error (h_bufs h) j = Some b' -> u_ptr b' = o -> j = i)).

  Lemma nth_removelast (l : list seg) j : nth_error (removelast l) j = if j <? length l - 1 then nth_error l j else None.
  Proof.
    rewrite removelast_firstn_len. destruct (Nat.ltb_spec j (length l - 1)); [apply nth_firstn; lia|]. apply nth_error_None. rewrite firstn_length. lia.
  Qed.
  Lemma drop_ok h o a : Inv h None 0 -> nth_error (h_arrs h) o = Some (Some a) -> (a_id a < SEGMENTS)%Z -> exists segs size, (if isLastSegment (a_id a) h then dropLast h else h) = setSegs h size segs /\ Inv (setSegs h size segs) (Some o) 0 /\
    length segs <= length (h_segs h) /\ (forall i g, nth_error segs i = Some g -> nth_error (h_segs h) i = Some g) /\ size = sum_list (map g_cap segs).
  Proof.
    intros I Ha Hid. destruct (isLastSegment (a_id a) h) eqn:El.
    2: { exists (h_segs h), (h_size h). split; [unfold setSegs; rewrite <- (i_top _ _ _ I) at 1; destruct h; reflexivity|]. split; [|split; [lia|split; [auto|apply (i_size _ _ _ I)]]]. apply (setSegs_ok h o 0); [apply Inv_weak, I|apply (i_size _ _ _ I)|apply (i_room _ _ _ I)|apply (i_few _ _ _ I)|apply (i_caps _ _ _ I)|eauto|auto|auto]. }
    unfold isLastSegment in El. apply andb_prop in El. destruct El as (El & E3). apply andb_prop in El. destruct El as (_ & E2). apply Z.eqb_eq in E3. apply Nat.ltb_lt in E2. set (n := length (h_segs h)) in *.
    destruct (exists_last (l := h_segs h)) as (s & g & Es); [intros X; unfold n in E2; rewrite X in E2; cbn in E2; lia|]. assert (Ln : n = S (length s)) by (unfold n; rewrite Es, app_length; cbn; lia).
    assert (Hg : nth_error (h_segs h) (length s) = Some g) by (rewrite Es, nth_error_app2, Nat.sub_diag by lia; reflexivity).
    exists s, (h_size h - g_cap g). unfold dropLast. rewrite Es at 1 2 3. rewrite rev_app_distr, removelast_last. cbn [rev app]. rewrite (i_top _ _ _ I). split; [reflexivity|].
    assert (Sz : h_size h - g_cap g = sum_list (map g_cap s)) by (rewrite (i_size _ _ _ I), Es, map_app, sum_list_app; cbn; lia).
    assert (Sub : forall i g0, nth_error s i = Some g0 -> nth_error (h_segs h) i = Some g0) by (intros i g0 H; rewrite Es, nth_error_app1; [exact H|apply nth_error_Some; congruence]).
    split; [|split; [lia|split; [exact Sub|exact Sz]]]. apply (setSegs_ok h o 0); eauto using Inv_weak.
    - pose proof (i_room _ _ _ I). lia.
    - pose proof (i_few _ _ _ I). fold n in H. lia.
    - intros i g0 H. exact (i_caps _ _ _ I i g0 (Sub i g0 H)).
    - intros i g0 H U N. assert (Q : i <> length s).
      { intros ->. assert (g0 = g) by congruence. subst g0. destruct (i_segs _ _ _ I _ _ Hg U) as (a' & Ha' & C). destruct (C ltac:(discriminate)) as (C1 & C2 & C3 & C4).
        assert (Hpool : a_id a = Z.of_nat (length s)) by lia. destruct (i_arrs _ _ _ I o a Ha ltac:(discriminate)) as (F & Ho). unfold home in Ho. destruct (a_data a) eqn:Ed.
        - destruct Ho as (_ & Y). lia.
        - destruct Ho as (_ & Y & _). lia.
        - destruct Ho as (i & g' & Hi & Ui & Ei). pose proof (seg_id h 0 o a i g' I Ha Hi Ui Ei) as (_ & D & _). assert (i = length s) by lia. subst i. congruence.
        - destruct Ho as (_ & b & Hi & Ui & Ei). pose proof (buf_id h o a _ b I Ha Hi Ei) as (_ & D & _). lia. }
      assert (i < n) by (unfold n; apply nth_error_Some; congruence). assert (i < length s) by lia. split; [rewrite Es, nth_error_app1 in H by assumption; exact H|]. rewrite Es. symmetry. apply offset_app. lia.
  Qed.
End Pool.
