(** The tables of LetModel, and what is received with them. *)
From Coq Require Import List Arith ZArith Lia Permutation.
From Verif Require Import Outcome ListUtil Arith ParticleModel DomainModel MPIModel MPIProofs TreeModel TreeSpec LetModel LetArrays.
Import ListNotations.

Section Table.
  Context {N : arith} {P : Type}.
  (** images to send to a rank: the shift and the addresses *)
  Definition parcel : Type := list (vec N * list Z).
  Definition adrs (p : parcel) : list Z := concat (map snd p).
  Definition tableOf (ps : list parcel) : table N :=
    Table (map (fun p => length (adrs p)) ps) (map (@length _) ps) (concat (map (map fst) ps)) (concat (map (map (fun q => length (snd q))) ps)) (concat (map adrs ps)).

  Lemma adrs_app p q : adrs (p ++ q) = adrs p ++ adrs q.
  Proof. unfold adrs. rewrite map_app, concat_app. reflexivity. Qed.

  Lemma adrs_length p : length (adrs p) = sum_list (map (fun q => length (snd q)) p).
  Proof. unfold adrs. rewrite concat_length, map_map. reflexivity. Qed.

  Lemma per_sum ps : sum_list (concat (map (map (fun q : vec N * list Z => length (snd q))) ps)) = sum_list (map (fun p => length (adrs p)) ps).
  Proof. induction ps as [|p ps IH]; [reflexivity|]. cbn [map concat]. rewrite sum_list_app, sum_list_cons, IH, adrs_length. reflexivity. Qed.

  Lemma map_length_map {X Y} (g : X -> Y) (ls : list (list X)) : map (@length Y) (map (map g) ls) = map (@length X) ls.
  Proof. rewrite map_map. apply map_ext. intros l. apply map_length. Qed.

  (** ** The buffers of the threads *)

  (** the buffers after the ranks, work r being what rank r is sent *)
  Definition bufOf (work : nat -> parcel) (ranks : list nat) : buffers N :=
    Buffers ranks (concat (map (fun r => map fst (work r)) ranks)) (concat (map (fun r => adrs (work r)) ranks)) (concat (map (fun r => map (fun q => length (snd q)) (work r)) ranks)).

  Lemma bufOf_snoc work ranks i : bufOf work (ranks ++ [i]) =
    Buffers (ranks ++ [i]) (b_shift (bufOf work ranks) ++ map fst (work i)) (b_adr (bufOf work ranks) ++ adrs (work i))
      (b_per (bufOf work ranks) ++ map (fun q => length (snd q)) (work i)).
  Proof. unfold bufOf. cbn [b_shift b_adr b_per]. rewrite !map_app, !concat_app. cbn [map concat]. rewrite !app_nil_r. reflexivity. Qed.

  Lemma nth_map_in {X Y} (f : nat -> X) (g : X -> list Y) n k : k < n -> nth k (map g (map f (seq 0 n))) [] = g (f k).
  Proof. intros H. rewrite map_map. apply nth_error_nth. rewrite nth_error_map, nth_error_seq by assumption. reflexivity. Qed.

  Section Assemble.
    Context (work : nat -> parcel) (n : nat).
    Let ps := map work (seq 0 n).
    Let nImage := map (@length _) ps.

    Lemma placeImages_ok {X} (g : vec N * list Z -> X) ranks S out : (forall r, In r ranks -> r < n) -> filled (map (map g) ps) S out ->
      exists out', placeImages nImage ranks (concat (map (fun r => map g (work r)) ranks)) out = Done out' /\ filled (map (map g) ps) (ranks ++ S) out'.
    Proof.
      intros HR F. unfold placeImages.
      match goal with |- context [ofold ?st ranks (out, 0)] => set (step := st) end.
      destruct (fill_ok (map (map g) ps) step (concat (map (fun r => map g (work r)) ranks)) ranks S out [] []) as (out' & Ho & Fo).
      - intros o cnt k b Hk Hb. unfold step. cbn [fst snd].
        unfold ps in Hb. rewrite map_map, nth_error_map_seq in Hb by (apply HR; exact Hk). injection Hb as <-.
        rewrite mread_psum by (unfold nImage, ps; rewrite !map_length, seq_length; specialize (HR k Hk); lia). cbn [obind].
        assert (En : mread nImage k = Done (length (work k))) by (unfold nImage, ps; rewrite map_map; apply (mread_map_seq (fun r => length (work r))); apply HR; exact Hk).
        rewrite En. cbn [obind].
        unfold off. rewrite map_length_map. fold nImage. rewrite map_length. reflexivity.
      - intros k Hk. unfold ps. rewrite !map_length, seq_length. apply HR. exact Hk.
      - rewrite app_nil_r. cbn [app]. f_equal. apply map_ext_in. intros k Hk. unfold ps. rewrite nth_map_in by (apply HR; exact Hk). reflexivity.
      - exact F.
      - exists out'. change 0 with (length (@nil X)). rewrite Ho. cbn [obind fst]. split; [reflexivity|exact Fo].
    Qed.

    Let imgs : list (list Z) := concat (map (map snd) ps).
    Let nPer := concat (map (map (fun q : vec N * list Z => length (snd q))) ps).

    Lemma imgs_lengths : map (@length Z) imgs = nPer.
    Proof. unfold imgs, nPer. rewrite concat_map, map_map. f_equal. apply map_ext. intros p. rewrite map_map. reflexivity. Qed.

    (** the images of rank r *)
    Definition imageNos (r : nat) : list nat := seq (sum_list (firstn r nImage)) (length (work r)).

    Lemma imgs_nth r : r < n -> map (fun k => nth k imgs []) (imageNos r) = map snd (work r).
    Proof.
      intros H. unfold imageNos.
      assert (Hr : nth_error (map (map snd) ps) r = Some (map snd (work r))) by (unfold ps; rewrite map_map, nth_error_map_seq by assumption; reflexivity).
      pose proof (slice_concat _ _ _ Hr) as E. rewrite map_length in E.
      rewrite firstn_map, map_length_map, <- firstn_map in E. fold nImage in E.
      fold imgs in E.
      assert (L : sum_list (firstn r nImage) + length (work r) <= length imgs).
      { unfold imgs. rewrite concat_length, map_length_map. fold nImage.
        rewrite <- (sum_firstn_S nImage r (length (work r))) by (unfold nImage, ps; rewrite map_map, nth_error_map_seq by assumption; reflexivity). apply sum_firstn_le. }
      rewrite <- (slice_map_nth _ _ imgs []) in E by exact L. rewrite <- E. clear.
      generalize (sum_list (firstn r nImage)) as a. generalize (length (work r)) as m. intros m a.
      rewrite <- (map_map (fun k => a + k) (fun k => nth k imgs [])). f_equal.
      rewrite <- (Nat.add_0_r a) at 1. generalize 0 as s. induction m as [|m IH]; intros s; [reflexivity|]. cbn [seq map]. f_equal. rewrite <- IH. f_equal. lia.
    Qed.
    Lemma imageNos_lt r k : r < n -> In k (imageNos r) -> k < length imgs.
    Proof.
      intros H Hk. unfold imageNos in Hk. apply in_seq in Hk.
      assert (L : sum_list (firstn r nImage) + length (work r) <= length imgs); [|lia].
      unfold imgs. rewrite concat_length, map_length_map. fold nImage.
      rewrite <- (sum_firstn_S nImage r (length (work r))) by (unfold nImage, ps; rewrite map_map, nth_error_map_seq by assumption; reflexivity). apply sum_firstn_le.
    Qed.
    Lemma imageNos_all k : k < length imgs -> exists r, r < n /\ In k (imageNos r).
    Proof.
      unfold imgs. rewrite concat_length, map_length_map. fold nImage. intros H.
      assert (G : forall m, m <= n -> k < sum_list (firstn m nImage) -> exists r, r < n /\ In k (imageNos r)).
      { induction m as [|m IH]; intros Hm Hk; [cbn in Hk; lia|].
        rewrite (sum_firstn_S nImage m (length (work m))) in Hk by (unfold nImage, ps; rewrite map_map, nth_error_map_seq by lia; reflexivity).
        destruct (Nat.lt_ge_cases k (sum_list (firstn m nImage))) as [L|L]; [apply IH; [lia|exact L]|].
        exists m. split; [lia|]. unfold imageNos. apply in_seq. lia. }
      apply (G n); [lia|]. rewrite firstn_all2 by (unfold nImage, ps; rewrite !map_length, seq_length; lia). exact H.
    Qed.

    Lemma placeAdrs_ok ranks S out : (forall r, In r ranks -> r < n) -> filled imgs S out ->
      exists out', placeAdrs nImage nPer ranks (concat (map (fun r => adrs (work r)) ranks)) out = Done out' /\ filled imgs (concat (map imageNos ranks) ++ S) out'.
    Proof.
      intros HR F. unfold placeAdrs.
      set (src := concat (map (fun r => adrs (work r)) ranks)).
      match goal with |- context [ofold ?st ranks (out, 0)] => set (step := st) end.
      assert (G : forall rs pre post S out, (forall r, In r rs -> r < n) -> src = pre ++ concat (map (fun r => adrs (work r)) rs) ++ post -> filled imgs S out ->
        exists out', ofold step rs (out, length pre) = Done (out', length (pre ++ concat (map (fun r => adrs (work r)) rs))) /\ filled imgs (concat (map imageNos rs) ++ S) out').
      { induction rs as [|r rs IH]; intros pre post S0 o HRs E F0.
        - exists o. cbn. rewrite app_nil_r. split; [reflexivity|exact F0].
        - cbn [ofold]. assert (Hr : r < n) by (apply HRs; now left). unfold step at 1. cbn beta iota.
          rewrite mread_psum by (unfold nImage, ps; rewrite !map_length, seq_length; lia). cbn [obind].
          rewrite mread_psum by (unfold nImage, ps; rewrite !map_length, seq_length; lia). cbn [obind].
          rewrite (sum_firstn_S nImage r (length (work r))) by (unfold nImage, ps; rewrite map_map, nth_error_map_seq by assumption; reflexivity).
          replace (sum_list (firstn r nImage) + length (work r) - sum_list (firstn r nImage)) with (length (work r)) by lia. fold (imageNos r).
          match goal with |- context [ofold ?st2 (imageNos r) (o, length pre)] => set (step2 := st2) end.
          cbn [map concat] in E.
          destruct (fill_ok imgs step2 src (imageNos r) S0 o pre (concat (map (fun r => adrs (work r)) rs) ++ post)) as (o1 & H1 & F1).
          + intros o' cnt k b Hk Hb. unfold step2.
            assert (Lk : k < length nPer) by (rewrite <- imgs_lengths, map_length; apply nth_error_Some; congruence).
            rewrite mread_psum by lia. cbn [obind]. rewrite mread_psum by lia. cbn [obind].
            assert (Ek : nth_error nPer k = Some (length b)) by (rewrite <- imgs_lengths, nth_error_map, Hb; reflexivity).
            rewrite (sum_firstn_S nPer k _ Ek). unfold off. rewrite imgs_lengths.
            replace (sum_list (firstn k nPer) + length b - sum_list (firstn k nPer)) with (length b) by lia. reflexivity.
          + intros k. apply imageNos_lt. exact Hr.
          + rewrite imgs_nth by exact Hr. rewrite E, <- !app_assoc. reflexivity.
          + exact F0.
          + rewrite H1. cbn [obind]. rewrite imgs_nth by exact Hr. fold (adrs (work r)).
            destruct (IH (pre ++ adrs (work r)) post (imageNos r ++ S0) o1) as (o2 & H2 & F2).
            * intros q Hq. apply HRs. now right.
            * rewrite E, <- !app_assoc. reflexivity.
            * exact F1.
            * exists o2. rewrite H2. cbn [map concat]. rewrite <- !app_assoc. split; [reflexivity|].
              eapply filled_eq; [exact F2|]. intros k _. rewrite !in_app_iff. tauto. }
      destruct (G ranks [] [] S out HR) as (out' & Ho & Fo); [rewrite app_nil_r; reflexivity|exact F|].
      exists out'. change 0 with (length (@nil Z)). rewrite Ho. cbn [obind fst]. split; [reflexivity|exact Fo].
    Qed.

    Lemma threads_ok {X} (blocks : list (list X)) (ix : list nat -> list nat) (f : list X -> buffers N -> outcome (list X)) :
      forall bs S out, (forall ranks S out, In ranks bs -> filled blocks S out -> exists out', f out (bufOf work ranks) = Done out' /\ filled blocks (ix ranks ++ S) out') ->
      filled blocks S out -> exists out', ofold f (map (bufOf work) bs) out = Done out' /\ filled blocks (concat (map ix bs) ++ S) out'.
    Proof.
      induction bs as [|ranks bs IH]; intros S out H F.
      - exists out. cbn. split; [reflexivity|exact F].
      - cbn [map ofold concat]. destruct (H ranks S out (or_introl eq_refl) F) as (o1 & H1 & F1). rewrite H1. cbn [obind].
        destruct (IH (ix ranks ++ S) o1) as (o2 & H2 & F2); [intros; apply H; [now right|assumption]|exact F1|].
        exists o2. split; [exact H2|]. eapply filled_eq; [exact F2|]. intros k _. rewrite !in_app_iff. tauto.
    Qed.

    Lemma concat_len {X Y} (g : X -> Y) (ls : list (list X)) : length (concat (map (map g) ls)) = sum_list (map (@length X) ls).
    Proof. rewrite concat_length, map_length_map. reflexivity. Qed.

    (** every rank with something to send is in the share of a thread *)
    Lemma assemble_ok jv jn jz deal : (forall ranks r, In ranks deal -> In r ranks -> r < n) -> (forall r, r < n -> work r <> [] -> In r (concat deal)) ->
      assemble jv jn jz (map (bufOf work) deal) nImage (map (fun p => length (adrs p)) ps) = Done (tableOf ps).
    Proof.
      intros HD HA. unfold assemble.
      assert (Hin : forall r, In r (concat deal) -> r < n) by (intros r Hr; apply in_concat in Hr as (l & Hl & Hr); exact (HD l r Hl Hr)).
      assert (All : forall {X} (g : vec N * list Z -> X) out, filled (map (map g) ps) (concat deal ++ []) out -> out = concat (map (map g) ps)).
      { intros X g out [L F]. apply filled_concat; [exact L|]. intros r b Hb.
        assert (Hr : r < n).
        { assert (X1 : r < length (map (map g) ps)) by (apply nth_error_Some; congruence). unfold ps in X1. rewrite !map_length, seq_length in X1. exact X1. }
        destruct (work r) as [|q w] eqn:Ew.
        - unfold ps in Hb. rewrite map_map, nth_error_map_seq, Ew in Hb by exact Hr. injection Hb as <-. unfold slice. cbn [length firstn]. reflexivity.
        - apply F; [|exact Hb]. apply in_or_app. left. apply HA; [exact Hr|congruence]. }
      assert (one : forall {X} (g : vec N * list Z -> X) (f : list X -> buffers N -> outcome (list X)) out,
        (forall o ranks, f o (bufOf work ranks) = placeImages nImage ranks (concat (map (fun r => map g (work r)) ranks)) o) ->
        length out = sum_list nImage -> ofold f (map (bufOf work) deal) out = Done (concat (map (map g) ps))).
      { intros X g f out Hf L.
        destruct (threads_ok (map (map g) ps) (fun l => l) f deal [] out) as (o & Ho & Fo).
        - intros ranks S o Hr F. rewrite Hf. apply placeImages_ok; [|exact F]. intros r. apply HD. exact Hr.
        - apply filled_nil. rewrite concat_len. exact L.
        - rewrite map_id in Fo. rewrite Ho, (All X g o Fo). reflexivity. }
      rewrite (one _ fst); [|reflexivity|rewrite map_length, seq_length; reflexivity]. cbn [obind].
      rewrite (one _ (fun q => length (snd q))); [|reflexivity|rewrite map_length, seq_length; reflexivity]. cbn [obind].
      fold nPer.
      destruct (threads_ok imgs (fun l => concat (map imageNos l)) (fun out b => placeAdrs nImage nPer (b_rank b) (b_adr b) out) deal [] (map jz (seq 0 (sum_list nPer)))) as (o & Ho & Fo).
      - intros ranks S o Hr F. cbn [bufOf b_rank b_adr]. apply placeAdrs_ok; [|exact F]. intros r. apply HD. exact Hr.
      - apply filled_nil. rewrite map_length, seq_length, concat_length, imgs_lengths. reflexivity.
      - rewrite Ho. cbn [obind]. unfold tableOf. do 2 f_equal.
        assert (E : o = concat imgs).
        { apply (filled_all imgs _ o Fo). intros k Hk. destruct (imageNos_all k Hk) as (r & Hr & Hin').
          apply in_or_app. left. assert (Hd : In r (concat deal)).
          { apply HA; [exact Hr|]. intros E. unfold imageNos in Hin'. rewrite E in Hin'. exact Hin'. }
          apply in_concat in Hd as (l & Hl & Hrl). apply in_concat. exists (concat (map imageNos l)). split; [apply (in_map (fun l => concat (map imageNos l))); exact Hl|].
          apply in_concat. exists (imageNos r). split; [apply in_map; exact Hrl|exact Hin']. }
        rewrite E. unfold imgs. clear. induction ps as [|p l IH]; [reflexivity|]. cbn [map concat]. rewrite concat_app, IH. reflexivity.
    Qed.

    (** the loop over the ranks of the threads *)
    Lemma deal_ok (step : buffers N * (list nat * list nat) -> nat -> outcome (buffers N * (list nat * list nat))) (c0 : list nat * list nat) deal :
      (forall ranks i a b, i < n -> length a = n -> length b = n -> In i (concat deal) ->
        step (bufOf work ranks, (a, b)) i = Done (bufOf work (ranks ++ [i]), (put i [length (work i)] a, put i [length (adrs (work i))] b))) ->
      NoDup (concat deal) -> (forall r, In r (concat deal) -> r < n) ->
      length (fst c0) = n -> length (snd c0) = n ->
      (forall r, r < n -> ~ In r (concat deal) -> work r = [] /\ nth_error (fst c0) r = Some 0 /\ nth_error (snd c0) r = Some 0) ->
      ofold (fun (st : list (buffers N) * (list nat * list nat)) ranks =>
               let (bs, counts) := st in do r <- ofold step ranks (Buffers [] [] [] [], counts); Done (bs ++ [fst r], snd r)) deal ([], c0)
      = Done (map (bufOf work) deal, (nImage, map (fun p => length (adrs p)) ps)).
    Proof.
      intros HS HN HD L1 L2 H0.
      set (good := fun (S : list nat) (c : list nat * list nat) => length (fst c) = n /\ length (snd c) = n /\
         forall r, r < n -> In r S \/ ~ In r (concat deal) -> nth_error (fst c) r = Some (length (work r)) /\ nth_error (snd c) r = Some (length (adrs (work r)))).
      assert (step_good : forall S c i, good S c -> i < n -> good (i :: S) (put i [length (work i)] (fst c), put i [length (adrs (work i))] (snd c))).
      { intros S [a b] i (G1 & G2 & G3) Hi. cbn [fst snd] in *. assert (X : forall (l : list nat) v, length l = n -> length (put i [v] l) = n /\ forall r, r < n -> nth_error (put i [v] l) r = if r =? i then Some v else nth_error l r).
        { intros l v Hl. split; [rewrite put_length; cbn [length]; lia|]. intros r Hr. unfold put. cbn [app length].
          destruct (Nat.eqb_spec r i) as [->|Hne].
          - rewrite nth_error_app2 by (rewrite firstn_length; lia). rewrite firstn_length, Nat.min_l by lia. rewrite Nat.sub_diag. reflexivity.
          - rewrite <- (firstn_skipn i l) at 3. destruct (Nat.lt_ge_cases r i) as [Lr|Lr].
            + rewrite !nth_error_app1 by (rewrite firstn_length; lia). reflexivity.
            + rewrite !nth_error_app2 by (rewrite firstn_length; lia). rewrite firstn_length, Nat.min_l by lia.
              replace (r - i) with (Datatypes.S (r - i - 1)) by lia. cbn [nth_error].
              replace (i + 1) with (1 + i) by lia. rewrite <- (skipn_skipn 1 i l). destruct (skipn i l); cbn [skipn nth_error]; [destruct (r - i - 1)|]; reflexivity. }
        destruct (X a (length (work i)) G1) as [A1 A2]. destruct (X b (length (adrs (work i))) G2) as [B1 B2].
        split; [exact A1|split; [exact B1|]]. intros r Hr Hc. cbn [fst snd]. rewrite A2, B2 by exact Hr. destruct (Nat.eqb_spec r i) as [->|Hne]; [split; reflexivity|].
        apply G3; [exact Hr|]. destruct Hc as [[E|Hc]|Hc]; [congruence|now left|now right]. }
      assert (inner : forall rs done S c, (forall r, In r rs -> In r (concat deal)) -> good S c ->
         exists c', ofold step rs (bufOf work done, c) = Done (bufOf work (done ++ rs), c') /\ good (rs ++ S) c').
      { induction rs as [|i rs IH]; intros done S [a b] Hrs G.
        - exists (a, b). rewrite app_nil_r. split; [reflexivity|exact G].
        - cbn [ofold]. pose proof G as (G1 & G2 & _). cbn [fst snd] in G1, G2. assert (Hi : In i (concat deal)) by (apply Hrs; now left).
          rewrite HS by (try assumption; apply HD; exact Hi). cbn [obind].
          destruct (IH (done ++ [i]) (i :: S) (put i [length (work i)] a, put i [length (adrs (work i))] b)) as (c' & E & G').
          + intros r Hr. apply Hrs. now right.
          + apply (step_good S (a, b) i G). apply HD. exact Hi.
          + exists c'. rewrite E, <- app_assoc. split; [reflexivity|].
            destruct G' as (K1 & K2 & K3). split; [exact K1|split; [exact K2|]]. intros r Hr Hc. apply K3; [exact Hr|].
            destruct Hc as [Hc|Hc]; [left|now right]. rewrite in_app_iff in *. cbn [In] in *. tauto. }
      assert (outer : forall d bs S c, (forall ranks r, In ranks d -> In r ranks -> In r (concat deal)) -> good S c ->
         exists c', ofold (fun (st : list (buffers N) * (list nat * list nat)) ranks =>
               let (bs, counts) := st in do r <- ofold step ranks (Buffers [] [] [] [], counts); Done (bs ++ [fst r], snd r)) d (bs, c)
            = Done (bs ++ map (bufOf work) d, c') /\ good (concat d ++ S) c').
      { induction d as [|ranks d IH]; intros bs S c Hd G.
        - exists c. cbn. rewrite app_nil_r. split; [reflexivity|exact G].
        - cbn [ofold]. destruct (inner ranks [] S c) as (c1 & E1 & G1); [intros r; apply Hd; now left|exact G|].
          cbn [app] in E1. change (bufOf work []) with (Buffers (N := N) [] [] [] []) in E1. rewrite E1. cbn [obind fst snd].
          destruct (IH (bs ++ [bufOf work ranks]) (ranks ++ S) c1) as (c2 & E2 & G2); [intros rk r Hrk; apply Hd; now right|exact G1|].
          exists c2. rewrite E2. cbn [map concat]. rewrite <- app_assoc. split; [reflexivity|].
          destruct G2 as (K1 & K2 & K3). split; [exact K1|split; [exact K2|]]. intros r Hr Hc. apply K3; [exact Hr|].
          destruct Hc as [Hc|Hc]; [left|now right]. rewrite !in_app_iff in *. tauto. }
      destruct (outer deal [] [] c0) as ([a b] & E & (G1 & G2 & G3)).
      - intros ranks r Hrk Hr. apply in_concat. exists ranks. split; assumption.
      - split; [exact L1|split; [exact L2|]]. intros r Hr [[]|Hc]. destruct (H0 r Hr Hc) as (E1 & E2 & E3). rewrite E1, E2, E3. split; reflexivity.
      - rewrite E. cbn [app]. cbn [fst snd] in *. do 3 f_equal.
        + apply nth_error_ext. intros i. destruct (Nat.lt_ge_cases i n) as [L|L].
          * unfold nImage, ps. rewrite map_map, nth_error_map_seq by exact L. apply G3; [exact L|]. destruct (in_dec Nat.eq_dec i (concat deal)) as [Hi|Hi]; [left; apply in_or_app; now left|now right].
          * rewrite !(proj2 (nth_error_None _ _)); [reflexivity| |lia]. unfold nImage, ps. rewrite !map_length, seq_length. exact L.
        + apply nth_error_ext. intros i. destruct (Nat.lt_ge_cases i n) as [L|L].
          * unfold ps. rewrite map_map, nth_error_map_seq by exact L. apply G3; [exact L|]. destruct (in_dec Nat.eq_dec i (concat deal)) as [Hi|Hi]; [left; apply in_or_app; now left|now right].
          * rewrite !(proj2 (nth_error_None _ _)); [reflexivity| |lia]. unfold ps. rewrite !map_length, seq_length. exact L.
    Qed.
  End Assemble.
End Table.
