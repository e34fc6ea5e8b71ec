(** Merging the tables of LetModel, and sending with them. *)
From Coq Require Import List Arith ZArith Lia Permutation.
From Verif Require Import Outcome ListUtil Arith ParticleModel DomainModel MPIModel MPIProofs TreeModel TreeSpec LetModel LetArrays LetTable.
Import ListNotations.

Section Send.
  Context {N : arith} {P : Type}.
  Notation parcel := (@parcel N).

  (** ** One table *)
  Section One.
    Context (work : nat -> parcel) (n : nat).
    Let ps := map work (seq 0 n).
    Let x := tableOf ps.
    Let all := concat ps.

    Lemma x_shift_all : x_shift x = map fst all.
    Proof. unfold x, all, tableOf. cbn [x_shift]. rewrite concat_map. reflexivity. Qed.
    Lemma x_per_all : x_per x = map (fun q => length (snd q)) all.
    Proof. unfold x, all, tableOf. cbn [x_per]. rewrite concat_map. reflexivity. Qed.
    Lemma x_adr_all : x_adr x = concat (map snd all).
    Proof. unfold x, all, tableOf. cbn [x_adr]. induction ps as [|p l IH]; [reflexivity|]. cbn [map concat]. rewrite map_app, concat_app, IH. reflexivity. Qed.
    Lemma x_image_eq : x_image x = map (@length _) ps. Proof. reflexivity. Qed.
    Lemma x_image_nth i : i < n -> nth_error (x_image x) i = Some (length (work i)).
    Proof. intros H. unfold x, ps. cbn [tableOf x_image]. rewrite map_map, nth_error_map_seq by exact H. reflexivity. Qed.

    Definition head (i : nat) : nat := sum_list (firstn i (map (@length _) ps)).
    Lemma all_nth i q : i < n -> forall k, nth_error (work i) k = Some q -> nth_error all (head i + k) = Some q.
    Proof.
      intros Hi k Hk. unfold all, head.
      assert (Hw : nth_error ps i = Some (work i)) by (unfold ps; apply nth_error_map_seq; exact Hi).
      pose proof (slice_concat _ _ _ Hw) as E. rewrite <- firstn_map in E.
      set (o := sum_list (firstn i (map (@length _) ps))) in *. rewrite <- E in Hk. unfold slice in Hk.
      clear -Hk. revert o Hk. generalize (concat ps) as l. generalize (length (work i)) as m. intros m l o.
      rewrite <- (firstn_skipn o l) at 2.
      assert (X : nth_error (firstn m (skipn o l)) k = Some q -> nth_error (skipn o l) k = Some q).
      { intros H. rewrite <- (firstn_skipn m (skipn o l)). rewrite nth_error_app1; [exact H|]. apply nth_error_Some. congruence. }
      intros H. apply X in H. destruct (Nat.le_gt_cases o (length l)) as [L|L].
      - rewrite nth_error_app2; rewrite firstn_length, Nat.min_l by lia; [|lia]. replace (o + k - o) with k by lia. exact H.
      - rewrite skipn_all2 in H by lia. destruct k; discriminate.
    Qed.

    (** image j of the table *)
    Lemma image_reads j q : nth_error all j = Some q ->
      mread (psum (x_per x)) j = Done (sum_list (firstn j (x_per x))) /\
      mread (psum (x_per x)) (S j) = Done (sum_list (firstn j (x_per x)) + length (snd q)) /\
      mread (x_shift x) j = Done (fst q) /\ mread (x_per x) j = Done (length (snd q)) /\
      slice (sum_list (firstn j (x_per x))) (length (snd q)) (x_adr x) = snd q /\
      sum_list (firstn j (x_per x)) + length (snd q) <= length (x_adr x).
    Proof.
      intros H. assert (L : j < length (x_per x)) by (rewrite x_per_all, map_length; apply nth_error_Some; congruence).
      assert (Ep : nth_error (x_per x) j = Some (length (snd q))) by (rewrite x_per_all, nth_error_map, H; reflexivity).
      rewrite !mread_psum by lia. rewrite (sum_firstn_S _ _ _ Ep).
      split; [reflexivity|]. split; [reflexivity|]. split; [|split; [|split]].
      - unfold mread. rewrite x_shift_all, nth_error_map, H. reflexivity.
      - unfold mread. rewrite Ep. reflexivity.
      - rewrite x_adr_all. assert (Hq : nth_error (map snd all) j = Some (snd q)) by (rewrite nth_error_map, H; reflexivity).
        pose proof (slice_concat _ _ _ Hq) as E. rewrite <- firstn_map, map_map in E. rewrite x_per_all. exact E.
      - rewrite <- (sum_firstn_S _ _ _ Ep), x_adr_all, concat_length, map_map, <- x_per_all. apply sum_firstn_le.
    Qed.

    Lemma copyStep_ok ih eh i sh per adr a b : i < n ->
      ih + a + length (work i) <= length sh -> ih + a + length (work i) <= length per -> eh + b + length (adrs (work i)) <= length adr ->
      copyStep x ih eh i ((sh, per, adr), (a, b)) =
      Done ((put (ih + a) (map fst (work i)) sh, put (ih + a) (map (fun q => length (snd q)) (work i)) per, put (eh + b) (adrs (work i)) adr),
            (a + length (work i), b + length (adrs (work i)))).
    Proof.
      intros Hi L1 L2 L3. unfold copyStep. rewrite x_image_eq.
      rewrite mread_psum by (unfold ps; rewrite !map_length, seq_length; lia). cbn [obind].
      rewrite mread_psum by (unfold ps; rewrite !map_length, seq_length; lia). cbn [obind].
      rewrite (sum_firstn_S _ i (length (work i))) by (exact (x_image_nth i Hi)). fold (head i).
      replace (head i + length (work i) - head i) with (length (work i)) by lia.
      pose proof (all_nth i) as Hall.
      match goal with |- ofold ?st _ _ = _ => set (step := st) end.
      assert (G : forall p j sh per adr a b, (forall k q, nth_error p k = Some q -> nth_error all (j + k) = Some q) ->
        ih + a + length p <= length sh -> ih + a + length p <= length per -> eh + b + length (adrs p) <= length adr ->
        ofold step (seq j (length p)) ((sh, per, adr), (a, b)) =
        Done ((put (ih + a) (map fst p) sh, put (ih + a) (map (fun q => length (snd q)) p) per, put (eh + b) (adrs p) adr), (a + length p, b + length (adrs p)))).
      { clear. induction p as [|q p IH]; intros j sh per adr a b Hp L1 L2 L3.
        - cbn. rewrite !put_nil, !Nat.add_0_r. reflexivity.
        - cbn [length seq ofold]. pose proof (Hp 0 q eq_refl) as Hq. rewrite Nat.add_0_r in Hq.
          destruct (image_reads j q Hq) as (R1 & R2 & R3 & R4 & R5 & R6).
          assert (Ea : adrs (q :: p) = snd q ++ adrs p) by reflexivity. rewrite Ea, app_length in *. cbn [length] in *.
          unfold step at 1. cbn beta iota. rewrite R1. cbn [obind]. rewrite R2. cbn [obind]. rewrite R3. cbn [obind].
          rewrite mwrite_put by lia. cbn [obind]. rewrite R4. cbn [obind]. rewrite mwrite_put by lia. cbn [obind].
          replace (sum_list (firstn j (x_per x)) + length (snd q) - sum_list (firstn j (x_per x))) with (length (snd q)) by lia.
          rewrite copyRange_ok by lia. cbn [obind]. rewrite R5.
          rewrite IH.
          + replace (ih + S a) with (ih + a + length [fst q]) by (cbn [length]; lia).
            change (map fst (q :: p)) with ([fst q] ++ map fst p). rewrite <- put_app by (rewrite map_length; cbn [length]; lia).
            replace (ih + a + length [fst q]) with (ih + a + length [length (snd q)]) at 2 by reflexivity.
            change (map (fun q => length (snd q)) (q :: p)) with ([length (snd q)] ++ map (fun q => length (snd q)) p). rewrite <- put_app by (rewrite map_length; cbn [length]; lia).
            rewrite <- (put_app (eh + b) (snd q) (adrs p)) by lia. rewrite Nat.add_assoc.
            do 2 f_equal; f_equal; lia.
          + intros k q' Hk. replace (S j + k) with (j + S k) by lia. apply Hp. exact Hk.
          + rewrite put_length; cbn [length]; lia.
          + rewrite put_length; cbn [length]; lia.
          + rewrite put_length; lia. }
      apply G; try assumption. intros k q. apply Hall. exact Hi.
    Qed.
  End One.

  Lemma merge_ok jv jn jz order (w1 w2 : nat -> parcel) n : Permutation order (seq 0 n) ->
    mergeTables jv jn jz order (tableOf (map w1 (seq 0 n))) (tableOf (map w2 (seq 0 n))) = Done (tableOf (map (fun r => w1 r ++ w2 r) (seq 0 n))).
  Proof.
    intros HP. set (w := fun r => w1 r ++ w2 r). set (ps := map w (seq 0 n)).
    unfold mergeTables.
    set (x1 := tableOf (map w1 (seq 0 n))). set (x2 := tableOf (map w2 (seq 0 n))).
    assert (ES : map (fun p => fst p + snd p) (combine (x_send x1) (x_send x2)) = map (fun p => length (adrs p)) ps).
    { unfold x1, x2, ps. cbn [tableOf x_send]. rewrite !map_map, combine_map_same, map_map. apply map_ext. intros r. cbn [fst snd]. unfold w. rewrite adrs_app, app_length. reflexivity. }
    assert (EI : map (fun p => fst p + snd p) (combine (x_image x1) (x_image x2)) = map (@length _) ps).
    { unfold x1, x2, ps. cbn [tableOf x_image]. rewrite !map_map, combine_map_same, map_map. apply map_ext. intros r. cbn [fst snd]. unfold w. rewrite app_length. reflexivity. }
    rewrite ES, EI.
    assert (ET : length (x_shift x1) + length (x_shift x2) = sum_list (map (@length _) ps)).
    { rewrite <- EI. unfold x1, x2. cbn [tableOf x_shift x_image]. rewrite !concat_len. clear. rewrite !map_map. rewrite combine_map_same, map_map. cbn [fst snd].
      induction (seq 0 n) as [|r l IH]; [reflexivity|]. cbn [map]. rewrite !sum_list_cons. cbn [fst snd]. lia. }
    rewrite ET.
    match goal with |- context [ofold ?st order ?s] => set (step := st); set (s0 := s) end.
    set (ok := fun (S : list nat) (st : list (vec N) * list nat * list Z) => let '(sh, per, adr) := st in
       filled (map (map fst) ps) S sh /\ filled (map (map (fun q => length (snd q))) ps) S per /\ filled (map adrs ps) S adr).
    assert (G : forall rs S st, (forall r, In r rs -> r < n) -> ok S st -> exists st', ofold step rs st = Done st' /\ ok (rs ++ S) st').
    { induction rs as [|r rs IH]; intros S st Hrs O.
      - exists st. split; [reflexivity|exact O].
      - cbn [ofold]. assert (Hr : r < n) by (apply Hrs; now left).
        destruct st as [[sh per] adr]. destruct O as (F1 & F2 & F3).
        assert (B1 : nth_error (map (map fst) ps) r = Some (map fst (w r))) by (unfold ps; rewrite map_map; apply (nth_error_map_seq (fun r => map fst (w r))); exact Hr).
        assert (B2 : nth_error (map (map (fun q => length (snd q))) ps) r = Some (map (fun q => length (snd q)) (w r))) by (unfold ps; rewrite map_map; apply (nth_error_map_seq (fun r => map (fun q => length (snd q)) (w r))); exact Hr).
        assert (B3 : nth_error (map adrs ps) r = Some (adrs (w r))) by (unfold ps; rewrite map_map; apply (nth_error_map_seq (fun r => adrs (w r))); exact Hr).
        pose proof (off_in _ _ _ B1) as I1. pose proof (off_in _ _ _ B2) as I2. pose proof (off_in _ _ _ B3) as I3.
        unfold off in I1, I2, I3. rewrite map_length_map in I1. rewrite map_length_map in I2. rewrite map_map in I3. rewrite map_length in I1, I2.
        destruct F1 as [L1 F1]. destruct F2 as [L2 F2]. destruct F3 as [L3 F3].
        unfold step at 1. cbn beta iota.
        rewrite mread_psum by (unfold ps; rewrite !map_length, seq_length; lia). cbn [obind].
        rewrite mread_psum by (unfold ps; rewrite !map_length, seq_length; lia). cbn [obind].
        set (ih := sum_list (firstn r (map (@length _) ps))) in *. set (eh := sum_list (firstn r (map (fun p => length (adrs p)) ps))) in *.
        assert (Lw : length (w r) = length (w1 r) + length (w2 r)) by (unfold w; apply app_length).
        assert (La : length (adrs (w r)) = length (adrs (w1 r)) + length (adrs (w2 r))) by (unfold w; rewrite adrs_app; apply app_length).
        unfold x1. rewrite copyStep_ok by lia. cbn [obind].
        unfold x2. rewrite copyStep_ok by (rewrite ?put_length by (rewrite ?map_length; lia); lia). cbn [obind fst].
        rewrite !Nat.add_0_r, !Nat.add_0_l.
        assert (P1 : put (ih + length (w1 r)) (map fst (w2 r)) (put ih (map fst (w1 r)) sh) = put ih (map fst (w1 r) ++ map fst (w2 r)) sh).
        { rewrite <- put_app by (rewrite !map_length; lia). rewrite map_length. reflexivity. }
        assert (P2 : put (ih + length (w1 r)) (map (fun q => length (snd q)) (w2 r)) (put ih (map (fun q => length (snd q)) (w1 r)) per)
                   = put ih (map (fun q => length (snd q)) (w1 r) ++ map (fun q => length (snd q)) (w2 r)) per).
        { rewrite <- put_app by (rewrite !map_length; lia). rewrite map_length. reflexivity. }
        rewrite P1, P2. clear P1 P2.
        rewrite put_app by lia. rewrite <- !map_app, <- adrs_app. change (w1 r ++ w2 r) with (w r).
        destruct (IH (r :: S) (put ih (map fst (w r)) sh, put ih (map (fun q => length (snd q)) (w r)) per, put eh (adrs (w r)) adr)) as (st' & E & O').
        + intros q Hq. apply Hrs. now right.
        + cbn [ok].
          assert (Q1 : off (map (map fst) ps) r = ih) by (unfold off; rewrite map_length_map; reflexivity).
          assert (Q2 : off (map (map (fun q => length (snd q))) ps) r = ih) by (unfold off; rewrite map_length_map; reflexivity).
          assert (Q3 : off (map adrs ps) r = eh) by (unfold off; rewrite map_map; reflexivity).
          split; [|split].
          * rewrite <- Q1. apply filled_put; [split; assumption|exact B1].
          * rewrite <- Q2. apply filled_put; [split; assumption|exact B2].
          * rewrite <- Q3. apply filled_put; [split; assumption|exact B3].
        + exists st'. split; [exact E|]. destruct st' as [[s1 p1] a1]. destruct O' as (O1 & O2 & O3).
          assert (X : forall q, In q ((r :: rs) ++ S) -> In q (rs ++ r :: S)) by (intros q; cbn [app In]; rewrite !in_app_iff; cbn [In]; tauto).
          split; [|split]; (eapply filled_eq; [eassumption|]); intros q _; apply X. }
    destruct (G order [] s0) as ([[sh per] adr] & E & (F1 & F2 & F3)).
    - intros r Hr. apply (Permutation_in _ HP) in Hr. apply in_seq in Hr. lia.
    - unfold s0, ok. split; [|split]; apply filled_nil; rewrite map_length, seq_length.
      + rewrite concat_len. reflexivity.
      + rewrite concat_len. reflexivity.
      + rewrite concat_length, map_map. reflexivity.
    - rewrite E. cbn [obind]. unfold tableOf.
      assert (X : forall r, r < n -> In r (order ++ [])) by (intros r Hr; rewrite app_nil_r; apply (Permutation_in _ (Permutation_sym HP)); apply in_seq; lia).
      rewrite (filled_all _ _ _ F1) by (unfold ps; rewrite !map_length, seq_length; exact X).
      rewrite (filled_all _ _ _ F2) by (unfold ps; rewrite !map_length, seq_length; exact X).
      rewrite (filled_all _ _ _ F3) by (unfold ps; rewrite !map_length, seq_length; exact X). reflexivity.
  Qed.

  (** ** Sending *)

  (** what the images of a parcel hold, [it a] being the particle at a *)
  Definition contents (it : Z -> item N P) (p : parcel) : list (item N P) := flat_map (fun q => map (fun a => moved (it a) (fst q)) (snd q)) p.
  Lemma contents_length it p : length (contents it p) = length (adrs p).
  Proof. induction p as [|q p IH]; [reflexivity|]. unfold contents, adrs in *. cbn [flat_map map concat]. rewrite !app_length, map_length. f_equal. exact IH. Qed.
  Lemma contents_app it p q : contents it (p ++ q) = contents it p ++ contents it q.
  Proof. apply flat_map_app. Qed.

  Lemma fillSend_ok jp order (work : nat -> parcel) n (eps : list (item N P)) it :
    let x := tableOf (map work (seq 0 n)) in
    Permutation order (seq 0 (length (x_per x))) -> (forall r a, r < n -> In a (adrs (work r)) -> zread eps a = Done (it a)) ->
    fillSend jp order x eps = Done (concat (map (fun r => contents it (work r)) (seq 0 n))).
  Proof.
    intros x HP HE. set (all := concat (map work (seq 0 n))). set (blocks := map (fun q : vec N * list Z => map (fun a => moved (it a) (fst q)) (snd q)) all).
    assert (Eper : x_per x = map (@length _) blocks).
    { unfold x. rewrite (x_per_all work n). unfold blocks. rewrite map_map. apply map_ext. intros q. rewrite map_length. reflexivity. }
    assert (EC : concat (map (fun r => contents it (work r)) (seq 0 n)) = concat blocks).
    { unfold blocks, all. clear. induction (seq 0 n) as [|r l IH]; [reflexivity|]. cbn [map concat]. rewrite map_app, concat_app, IH. f_equal. unfold contents. apply flat_map_concat_map. }
    rewrite EC. unfold fillSend.
    assert (EL : sum_list (x_send x) = length (concat blocks)).
    { rewrite concat_length, <- Eper. unfold x. cbn [tableOf x_send x_per]. symmetry. apply per_sum. }
    rewrite EL.
    match goal with |- ofold ?st order ?s = _ => set (step := st); set (s0 := s) end.
    assert (G : forall is S buf, (forall i, In i is -> i < length all) -> filled blocks S buf -> exists buf', ofold step is buf = Done buf' /\ filled blocks (is ++ S) buf').
    { induction is as [|i is IH]; intros S buf Hi F.
      - exists buf. split; [reflexivity|exact F].
      - cbn [ofold]. assert (Li : i < length all) by (apply Hi; now left).
        destruct (nth_error all i) as [q|] eqn:Eq; [|apply nth_error_None in Eq; lia].
        destruct (image_reads work n i q Eq) as (R1 & _ & R3 & R4 & R5 & R6). fold x in R1, R3, R4, R5, R6.
        unfold step at 1. cbn beta iota. rewrite R3. cbn [obind]. rewrite R4. cbn [obind]. rewrite R1. cbn [obind].
        set (d := sum_list (firstn i (x_per x))) in *.
        assert (Bi : nth_error blocks i = Some (map (fun a => moved (it a) (fst q)) (snd q))) by (unfold blocks; rewrite nth_error_map, Eq; reflexivity).
        assert (Od : off blocks i = d) by (unfold off, d; rewrite Eper; reflexivity).
        pose proof (off_in _ _ _ Bi) as Ii. rewrite map_length, Od in Ii. destruct F as [LF F].
        set (a0 := 0%Z).
        set (v := fun j => moved (it (nth j (snd q) a0)) (fst q)).
        assert (W : forall buf, length buf = length (concat blocks) -> ofold (fun buf j => do adr <- mread (x_adr x) (d + j); do e <- zread eps adr; mwrite buf (d + j) (moved e (fst q))) (seq 0 (length (snd q))) buf
                    = Done (put d (map (fun a => moved (it a) (fst q)) (snd q)) buf)).
        { intros b Lb. rewrite (ofold_ext_in _ (fun buf j => do y <- Done (v j); mwrite buf (d + j) y)).
          - rewrite (write_range _ v) by (try lia; reflexivity). do 2 f_equal. unfold v. exact (map_nth_error_seq (snd q) (fun a => moved (it a) (fst q)) a0).
          - intros j b' Hj. apply in_seq in Hj.
            assert (Ej : nth_error (x_adr x) (d + j) = Some (nth j (snd q) a0)).
            { assert (Lq : length (snd q) = length (firstn (length (snd q)) (skipn d (x_adr x)))) by (rewrite firstn_length, skipn_length; lia).
              rewrite <- (nth_error_nth' (snd q) a0) by lia. rewrite <- R5 at 1. unfold slice.
              rewrite <- (firstn_skipn d (x_adr x)) at 1. rewrite nth_error_app2; rewrite firstn_length, Nat.min_l by lia; [|lia].
              replace (d + j - d) with j by lia. rewrite <- (firstn_skipn (length (snd q)) (skipn d (x_adr x))) at 1. rewrite nth_error_app1 by lia. reflexivity. }
            unfold mread at 1. rewrite Ej. cbn [obind].
            destruct (in_concat (map work (seq 0 n)) q) as [X _]. destruct X as (p & Hp & Hqp); [fold all; apply nth_error_In in Eq; exact Eq|].
            apply in_map_iff in Hp as (r & <- & Hr). apply in_seq in Hr.
            rewrite (HE r); [reflexivity|lia|]. unfold adrs. apply in_concat. exists (snd q). split; [apply in_map; exact Hqp|]. apply nth_In. lia. }
        rewrite W by exact LF. cbn [obind].
        destruct (IH (i :: S) (put d (map (fun a => moved (it a) (fst q)) (snd q)) buf)) as (buf' & E & F').
        + intros k Hk. apply Hi. now right.
        + rewrite <- Od. apply filled_put; [split; assumption|exact Bi].
        + exists buf'. split; [exact E|]. eapply filled_eq; [exact F'|]. intros k _. cbn [app In]. rewrite !in_app_iff. cbn [In]. tauto. }
    assert (LA : length (x_per x) = length all) by (rewrite Eper; unfold blocks; rewrite !map_length; reflexivity).
    destruct (G order [] s0) as (buf & E & F).
    - intros i Hi. apply (Permutation_in _ HP) in Hi. apply in_seq in Hi. lia.
    - apply filled_nil. unfold s0. rewrite map_length, seq_length. reflexivity.
    - rewrite E. f_equal. apply (filled_all _ _ _ F). intros i Hi. rewrite app_nil_r. apply (Permutation_in _ (Permutation_sym HP)). apply in_seq.
      rewrite LA. unfold blocks in Hi. rewrite map_length in Hi. lia.
  Qed.

  (** [work s r] is what rank s sends to rank r *)
  Lemma sendItems_ok jp order (work : nat -> nat -> parcel) n (eps : list (list (item N P))) it :
    length eps = n -> (forall r m, Permutation (order r m) (seq 0 m)) ->
    (forall s r a e, s < n -> r < n -> nth_error eps s = Some e -> In a (adrs (work s r)) -> zread e a = Done (it s a)) ->
    sendItems jp order (map (fun s => tableOf (map (work s) (seq 0 n))) (seq 0 n)) (map (fun r => map (fun s => length (adrs (work s r))) (seq 0 n)) (seq 0 n)) eps
    = Done (map (fun r => concat (map (fun s => contents (it s) (work s r)) (seq 0 n))) (seq 0 n)).
  Proof.
    intros LE HO HE. unfold sendItems. rewrite map_length, seq_length.
    set (B := fun s r => contents (it s) (work s r)).
    assert (Cn : forall s, map (fun p => length (adrs p)) (map (work s) (seq 0 n)) = cnts B n s).
    { intros s. unfold cnts, B. rewrite map_map. apply map_ext. intros r. rewrite contents_length. reflexivity. }
    assert (Rn : forall r, map (fun s => length (adrs (work s r))) (seq 0 n) = rcnts B n r).
    { intros r. unfold rcnts, B. apply map_ext. intros s. rewrite contents_length. reflexivity. }
    rewrite (omap_pure _ (fun s => Build_vbuf (sendrow B n s) (cnts B n s) (psum (cnts B n s)))).
    - cbn [obind]. rewrite (omap_pure _ (fun r => Build_vbuf ([] ++ map (jp r) (seq 0 (sum_list (rcnts B n r)))) (rcnts B n r) (psum (rcnts B n r)))).
      + cbn [obind]. rewrite (alltoallv_blocks B n (fun s => psum (cnts B n s)) (fun r => psum (rcnts B n r)) (fun _ => []) (fun r => map (jp r) (seq 0 (sum_list (rcnts B n r))))).
        * reflexivity.
        * reflexivity.
        * intros r i _ _. cbn [length]. rewrite map_ext with (g := fun k => k) by reflexivity. rewrite map_id. reflexivity.
        * intros r _. rewrite map_length, seq_length. apply rcnts_sum.
      + intros r Hr. apply in_seq in Hr. rewrite (mread_map_seq (fun r => map (fun s => length (adrs (work s r))) (seq 0 n))) by lia. cbn [obind]. rewrite Rn. reflexivity.
    - intros s Hs. apply in_seq in Hs. rewrite mread_map_seq by lia. cbn [obind].
      assert (X : exists e, nth_error eps s = Some e) by (destruct (nth_error eps s) eqn:Q; [eauto|apply nth_error_None in Q; lia]). destruct X as (e & He).
      unfold mread at 1. rewrite He. cbn [obind].
      rewrite (fillSend_ok (jp s) _ (work s) n e (it s)); [|apply HO|].
      + cbn [obind]. cbn [tableOf x_send]. rewrite Cn. reflexivity.
      + intros r a Hr Ha. exact (HE s r a e ltac:(lia) Hr He Ha).
  Qed.

  Lemma counts_ok (work : nat -> nat -> parcel) n :
    MPI_Alltoall (map (@x_send N) (map (fun s => tableOf (map (work s) (seq 0 n))) (seq 0 n))) = Done (map (fun r => map (fun s => length (adrs (work s r))) (seq 0 n)) (seq 0 n)).
  Proof.
    pose proof (alltoall_counts (fun s r => adrs (work s r)) n) as H. unfold cnts, rcnts in H. rewrite <- H. f_equal. rewrite map_map. apply map_ext. intros s. cbn [tableOf x_send]. rewrite map_map. reflexivity.
  Qed.
End Send.
