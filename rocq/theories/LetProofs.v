(** The exchange of LetModel on all ranks: which particle is sent to which rank, as which image. *)
From Coq Require Import List Arith ZArith Lia Bool Permutation Reals Lra Sorted.
From Verif Require Import Outcome ListUtil Arith ParticleModel VecModel DomainModel MPIModel MPIProofs TreeModel TreeSpec TreeProofs TreeLink TreeMoment TreeLists TreeSearch LetModel LetArrays LetTable LetSend LetWalk LetSpec LetImages LetFind.
Import ListNotations.

Lemma pick {A} (a0 : A) n (Q : nat -> A -> Prop) : (forall i, i < n -> exists a, Q i a) -> exists f, forall i, i < n -> Q i (f i).
Proof.
  induction n as [|n IH]; intros H; [exists (fun _ => a0); intros; lia|]. destruct IH as (f & Hf); [intros; apply H; lia|]. destruct (H n ltac:(lia)) as (a & Ha).
  exists (fun i => if i =? n then a else f i). intros i Hi. destruct (Nat.eqb_spec i n) as [->|Hn]; [assumption|]. apply Hf. lia.
Qed.
Lemma bounded n (f : nat -> nat) : exists m, forall i, i < n -> f i <= m.
Proof. induction n as [|n (m & H)]; [exists 0; intros; lia|]. exists (max m (f n)). intros i Hi. destruct (Nat.eq_dec i n) as [->|]; [lia|]. specialize (H i ltac:(lia)). lia. Qed.

Lemma filter_shorter {A} (f : A -> bool) l : length (filter f l) <= length l.
Proof. induction l as [|a l IH]; [reflexivity|]. cbn [filter]. destruct (f a); cbn [length]; lia. Qed.

Notation neg := opposite.
Lemma neg_neg k : neg (neg k) = k. Proof. destruct k. unfold opposite. cbn. rewrite !Z.opp_involutive. reflexivity. Qed.
Lemma neg_inj k k' : neg k = neg k' -> k = k'. Proof. intros H. rewrite <- (neg_neg k), H. apply neg_neg. Qed.
Lemma neg_origin k : neg k = origin <-> k = origin. Proof. split; [intros H; apply neg_inj; exact H|intros ->; reflexivity]. Qed.

Lemma pairs_nodup (s : nat) (p : list (vec Z * list Z)) : NoDup (map fst p) -> (forall q, In q p -> NoDup (snd q)) -> NoDup (flat_map (fun q => map (fun a => (s, a, fst q)) (snd q)) p).
Proof.
  induction p as [|q p IH]; intros H1 H2; [constructor|]. cbn [flat_map map] in *. inversion H1; subst. apply nodup_app.
  - apply FinFun.Injective_map_NoDup; [intros a b Eq; congruence|]. apply H2. now left.
  - apply IH; [assumption|]. intros q' Hq. apply H2. now right.
  - intros x X Y. apply in_map_iff in X. destruct X as (a & <- & _). apply in_flat_map in Y. destruct Y as (q' & Hq & Y). apply in_map_iff in Y. destruct Y as (b & Eq & _). injection Eq as _ Eq. apply H3. rewrite <- Eq. apply in_map. exact Hq.
Qed.
Lemma Forall2_at {A B} (Q : A -> B -> Prop) l l' b : Forall2 Q l l' -> In b l' -> exists a, In a l /\ Q a b.
Proof. induction 1 as [|x y l l' H F IH]; intros Hb; [destruct Hb|]. destruct Hb as [<-|Hb]; [exists x; split; [now left|exact H]|]. destruct (IH Hb) as (a & Ha & Q'). exists a. split; [now right|exact Q']. Qed.
Lemma Forall2_at' {A B} (Q : A -> B -> Prop) l l' a : Forall2 Q l l' -> In a l -> exists b, In b l' /\ Q a b.
Proof. induction 1 as [|x y l l' H F IH]; intros Ha; [destruct Ha|]. destruct Ha as [<-|Ha]; [exists y; split; [now left|exact H]|]. destruct (IH Ha) as (b & Hb & Q'). exists b. split; [now right|exact Q']. Qed.

Section Exchange.
  Context {N : arith} (ok : N -> Prop) (val : N -> R) (HO : ordered N ok val) {P : Type}.
  Notation okB := (okB ok).
  Context (ch : nat -> chance N P) (key : vec N -> outcome Z) (fuel : nat) (pa : vec bool) (root : ort N) (doms : list (ort N)) (E : list (list (item N P))) (trees : list (list cell * list (moment N))) (limit : Z).
  Let n := length doms.
  Context (D : nat -> ort N) (own : nat -> list (item N P)) (T : nat -> list cell * list (moment N)) (G : nat -> Z -> moment N) (ks : nat -> nat -> list (vec Z)).
  Definition sitesOf (s : nat) := map i_site (own s).
  Definition at_shift (k : vec Z) : vec N := imageShift (fullLength root) k.
  Definition it (s : nat) (a : Z) : item N P := nth (Z.to_nat a) (own s) (c_item (ch 0) 0).
  Definition chosen (s r : nat) (k : vec Z) : list Z :=
    if (s =? r) && (vx k =? 0)%Z && (vy k =? 0)%Z && (vz k =? 0)%Z then [] else sel1 (sitesOf s) (G s) D r (at_shift k).
  Definition plan1 (s r : nat) : list (vec Z * list Z) := map (fun k => (k, chosen s r k)) (ks s r).
  Definition shifted (p : list (vec Z * list Z)) : parcel := map (fun q => (at_shift (fst q), snd q)) p.
  Definition batchesOf (r s : nat) : batch := map (fun q => (neg (fst q), map (fun a => moved (it s a) (at_shift (fst q))) (snd q))) (plan1 s r).

  Hypothesis HD : forall i, i < n -> nth_error doms i = Some (D i).
  Hypothesis HE : forall i, i < n -> nth_error E i = Some (own i).
  Hypothesis LE : length E = n.
  Hypothesis HT : forall i, i < n -> nth_error trees i = Some (T i).
  Hypothesis W : forall s, s < n -> walked ok val limit (T s) (sitesOf s) (G s).
  Hypothesis HS : forall s r acc, s < n -> r < n -> imageShifts fuel pa (fullLength root) (v_out (mo (snd (T s)) 0)) (D r) acc = Done (acc ++ map at_shift (ks s r)).
  Hypothesis HN : forall s r, s < n -> r < n -> NoDup (ks s r).
  Hypothesis Hhead : forall s, s < n -> ks s s = [] \/ exists k', ks s s = origin :: k'.
  Hypothesis HB : forall s r k, s < n -> r < n -> In k (ks s r) -> okB (shiftBox (D r) (at_shift k)).
  Hypothesis HI : forall s r k a, s < n -> r < n -> In k (ks s r) -> In a (chosen s r k) -> imageId fuel pa root (s_pos (i_site (moved (it s a) (at_shift k)))) = Done (neg k).
  Hypothesis HK : forall s r k, s < n -> r < n -> In k (ks s r) -> chosen s r k <> [] -> neg k <> sentinel /\ okB (shiftBox (D s) (at_shift (neg k))) /\ few (length (own s)) /\ forall a, In a (chosen s r k) -> keyed ok val key (moved (it s a) (at_shift k)).
  Hypothesis Hdeal1 : forall r, Permutation (concat (c_deal1 (ch r))) (seq 0 n).
  Hypothesis Hdeal2 : forall r l, Permutation (concat (c_deal2 (ch r) l)) l.
  Hypothesis Hord1 : forall r m, Permutation (c_images1 (ch r) m) (seq 0 m).
  Hypothesis Hord : forall r m, Permutation (c_images (ch r) m) (seq 0 m).
  Hypothesis Hmerge : forall r, Permutation (c_merge (ch r)) (seq 0 n).
  Hypothesis Hsort : forall r l, Permutation (c_sort (ch r) l) l /\ StronglySorted Z.le (map fst (c_sort (ch r) l)).
  Hypothesis Hmk : forall r keys eps, fits 1 keys -> length eps = length keys -> usable ok val eps -> exists A gA, c_tree (ch r) keys eps = Done A /\ walked ok val 1 A eps gA.

  Lemma work1_plan s r : s < n -> r < n -> work1 (sitesOf s) (G s) s D (fun i => map at_shift (ks s i)) r = shifted (plan1 s r).
  Proof using HN Hhead.
    clear W HI HK HS HB HD HE HT LE. intros Hs Hr. unfold work1, shifted, plan1. rewrite map_map. cbn [fst snd]. unfold chosen. destruct (Nat.eqb_spec s r) as [<-|Hne].
    - pose proof (HN s s Hs Hs) as Hn. destruct (Hhead s Hs) as [->|(k' & Ek)]; [reflexivity|]. rewrite Ek in *. cbn [map]. inversion Hn; subst. f_equal. rewrite map_map. apply map_ext_in. intros k Hk. f_equal.
      destruct ((vx k =? 0)%Z && (vy k =? 0)%Z && (vz k =? 0)%Z) eqn:Eo; cbn [andb]; rewrite Eo; [|reflexivity]. exfalso. apply H1. rewrite !andb_true_iff, !Z.eqb_eq in Eo. destruct k. cbn in Eo. destruct Eo as ((-> & ->) & ->). exact Hk.
    - cbn [andb]. destruct (ks s r); [reflexivity|]. cbn [map]. f_equal. rewrite map_map. reflexivity.
  Qed.

  Lemma chosen_range s r k a : In a (chosen s r k) -> (0 <= a < Z.of_nat (length (own s)))%Z.
  Proof using. clear. unfold chosen. destruct (_ && _); [intros []|]. unfold sel1. rewrite filter_In, zrange_in. unfold sitesOf. rewrite map_length. tauto. Qed.
  Lemma it_read s a : (0 <= a < Z.of_nat (length (own s)))%Z -> at_ (own s) a (it s a).
  Proof using. clear. intros H. split; [lia|]. unfold it. apply nth_error_nth'. lia. Qed.
  Lemma shifted_adrs p : adrs (shifted p) = concat (map snd p).
  Proof using. clear. unfold adrs, shifted. rewrite map_map. reflexivity. Qed.
  Lemma batches_contents r s : concat (map snd (batchesOf r s)) = contents (it s) (shifted (plan1 s r)).
  Proof using. clear. unfold batchesOf, contents, shifted. rewrite map_map, flat_map_concat_map, map_map. reflexivity. Qed.
  Lemma chosen_length s r k : length (chosen s r k) <= length (own s).
  Proof using. clear. unfold chosen. destruct (_ && _); [cbn; lia|]. unfold sel1. etransitivity; [apply filter_shorter|]. unfold zrange. rewrite map_length, seq_length. unfold sitesOf. rewrite map_length. lia. Qed.

  (** what rank s sends to rank r in the second step *)
  Definition answered (s r : nat) (plan2 : list (vec Z * list Z)) : Prop :=
    Forall2 (fun q v => fst v = fst q /\ exists isOv, reaches ok val (snd q) isOv /\
      snd v = filter (fun k => negb (overlapsBox (shiftBox (D r) (at_shift (fst q))) (v_out (G s k))) && ((Z.of_nat (length (sitesOf s)) <=? limit)%Z || isOv (v_in (G s k)))) (zrange 0 (Z.of_nat (length (sitesOf s)))))
      (full (batchesOf s r)) plan2.

  Lemma exchange_ok : exists plan2 : nat -> nat -> list (vec Z * list Z), (forall s r, s < n -> r < n -> answered s r (plan2 s r)) /\
    exchangeLet ch key fuel pa root doms E trees limit = Done (map (fun r => concat (map (fun s => contents (it s) (shifted (plan1 s r ++ plan2 s r))) (seq 0 n))) (seq 0 n)).
  Proof using HO HD HE LE HT W HS HN Hhead HB HI HK Hdeal1 Hdeal2 Hord1 Hord Hmerge Hsort Hmk.
    unfold exchangeLet. fold n.
    rewrite (omap_pure _ (fun s => tableOf (map (fun r => shifted (plan1 s r)) (seq 0 n)))).
    2:{ intros s Hs. apply in_seq in Hs. unfold mread. rewrite HT by lia. cbn [obind].
        rewrite (findScatter_ok ok val HO fuel pa root doms (T s) limit (sitesOf s) (G s) (W s ltac:(lia)) s D (fun i => map at_shift (ks s i)) HD); [|intros i acc Hi; apply HS; [lia|exact Hi]|intros i v Hi Hv; apply in_map_iff in Hv; destruct Hv as (k & <- & Hk); apply (HB s); [lia|exact Hi|exact Hk]|apply Hdeal1].
        fold n. do 2 f_equal. apply map_ext_in. intros r Hr. apply in_seq in Hr. apply work1_plan; lia. }
    cbn [obind]. rewrite (counts_ok (fun s r => shifted (plan1 s r)) n). cbn [obind].
    rewrite (sendItems_ok _ _ (fun s r => shifted (plan1 s r)) n E it LE); [|exact (fun r m => Hord1 r m)|].
    2:{ intros s r a e Hs Hr He Ha. rewrite HE in He by exact Hs. injection He as <-. apply zread_at, it_read. rewrite shifted_adrs in Ha. apply in_concat in Ha. destruct Ha as (l & Hl & Ha). apply in_map_iff in Hl. destruct Hl as (q & <- & Hq). apply in_map_iff in Hq. destruct Hq as (k & <- & Hk). apply (chosen_range s r k). exact Ha. }
    cbn [obind].
    assert (F : forall r, r < n -> exists plan2 : nat -> list (vec Z * list Z), (forall i, i < n -> answered r i (plan2 i)) /\
      findDouble (c_vec (ch r)) (c_nat (ch r)) (c_adr (ch r)) (c_deal2 (ch r)) key (c_sort (ch r)) (c_tree (ch r)) fuel pa root doms (T r) limit
        (map (fun s => length (adrs (shifted (plan1 s r)))) (seq 0 n)) (concat (map (fun s => contents (it s) (shifted (plan1 s r))) (seq 0 n))) = Done (tableOf (map (fun i => shifted (plan2 i)) (seq 0 n)))).
    { intros r Hr. destruct (findDouble_ok ok val HO fuel pa root doms (T r) limit (sitesOf r) (G r) (W r Hr) D key (c_sort (ch r)) (c_tree (ch r)) HD (Hsort r) (Hmk r) (batchesOf r)
        (map (fun s => length (adrs (shifted (plan1 s r)))) (seq 0 n)) (concat (map (fun s => contents (it s) (shifted (plan1 s r))) (seq 0 n)))) with (jv := c_vec (ch r)) (jn := c_nat (ch r)) (jz := c_adr (ch r)) (deal := c_deal2 (ch r)) as (work & W1 & W2).
      - fold n. apply map_ext. intros s. rewrite batches_contents, contents_length. reflexivity.
      - fold n. f_equal. apply map_ext. intros s. rewrite batches_contents. reflexivity.
      - fold n. intros i Hi. split; [|split].
        + intros id l e Hin He. apply in_map_iff in Hin. destruct Hin as ([k ad] & Eq & Hk). injection Eq as <- <-. apply in_map_iff in Hk. destruct Hk as (k0 & Eq & Hk). injection Eq as -> <-. cbn [fst snd] in *. apply in_map_iff in He. destruct He as (a & <- & Ha). apply (HI i r k a); assumption.
        + unfold batchesOf, plan1. rewrite !map_map. cbn [fst]. apply FinFun.Injective_map_NoDup; [exact neg_inj|]. apply HN; assumption.
        + intros X. apply in_map_iff in X. destruct X as (q & Eq & X). apply full_in in X. destruct X as (X & Hne). apply in_map_iff in X. destruct X as (q0 & <- & X). apply in_map_iff in X. destruct X as (k & <- & X). cbn [fst snd] in *. destruct (HK i r k Hi Hr X) as (K1 & _); [intros Z0; rewrite Z0 in Hne; cbn in Hne; congruence|]. congruence.
      - fold n. intros i q Hi X. apply full_in in X. destruct X as (X & Hne). apply in_map_iff in X. destruct X as (q0 & <- & X). apply in_map_iff in X. destruct X as (k & <- & X). cbn [fst snd] in *. destruct (HK i r k Hi Hr X) as (_ & K2 & K3 & K4); [intros Z0; rewrite Z0 in Hne; cbn in Hne; congruence|].
        split; [|split].
        + intros e He. apply in_map_iff in He. destruct He as (a & <- & Ha). apply K4. exact Ha.
        + pose proof (chosen_length i r k) as Hc. unfold few in *. rewrite map_length. assert (Z.of_nat (length (chosen i r k)) / 2 <= Z.of_nat (length (own i)) / 2)%Z by (apply Z.div_le_mono; lia). lia.
        + (* okB for the receiver's shift *) fold (at_shift (neg k)). exact K2.
      - exact (Hdeal2 r).
      - fold n in W1, W2. exists (fun i => combine (map fst (full (batchesOf r i))) (map snd (work i))).
        assert (C : forall i, i < n -> shifted (combine (map fst (full (batchesOf r i))) (map snd (work i))) = work i /\ answered r i (combine (map fst (full (batchesOf r i))) (map snd (work i)))).
        { intros i Hi. specialize (W1 i Hi). unfold answered. clear - W1. induction W1 as [|q v b w (A1 & isOv & A2 & A3) F IH]; [split; [reflexivity|constructor]|]. destruct IH as (I1 & I2). cbn [map combine]. split.
          - unfold shifted in *. cbn [map]. rewrite I1. f_equal. cbn [fst snd]. fold (at_shift (fst q)) in A1. rewrite <- A1. destruct v; reflexivity.
          - constructor; [|exact I2]. split; [reflexivity|]. exists isOv. split; [exact A2|]. cbn [snd]. rewrite A3, A1. reflexivity. }
        split; [intros i Hi; apply C; exact Hi|]. rewrite W2. do 2 f_equal. apply map_ext_in. intros i Hi. apply in_seq in Hi. symmetry. apply C. lia. }
    destruct (pick (fun _ => []) n _ F) as (plan2 & HP). exists plan2. split; [intros s r Hs Hr; apply (HP s Hs); exact Hr|].
    rewrite (omap_pure _ (fun s => tableOf (map (fun r => shifted (plan2 s r)) (seq 0 n)))).
    2:{ intros s Hs. apply in_seq in Hs. unfold mread. rewrite HT by lia. cbn [obind]. rewrite (nth_error_map_seq (fun r => map (fun s => length (adrs (shifted (plan1 s r)))) (seq 0 n))) by lia. cbn [obind].
        rewrite (nth_error_map_seq (fun r => concat (map (fun s => contents (it s) (shifted (plan1 s r))) (seq 0 n)))) by lia. cbn [obind]. apply HP. lia. }
    cbn [obind]. rewrite (counts_ok (fun s r => shifted (plan2 s r)) n). cbn [obind].
    rewrite (omap_pure _ (fun s => tableOf (map (fun r => shifted (plan1 s r) ++ shifted (plan2 s r)) (seq 0 n)))).
    2:{ intros s Hs. apply in_seq in Hs. unfold mread. rewrite (nth_error_map_seq (fun s => tableOf (map (fun r => shifted (plan1 s r)) (seq 0 n)))) by lia. cbn [obind]. rewrite (nth_error_map_seq (fun s => tableOf (map (fun r => shifted (plan2 s r)) (seq 0 n)))) by lia. cbn [obind]. apply merge_ok. apply Hmerge. }
    cbn [obind].
    rewrite (omap_pure _ (fun r => map (fun s => length (adrs (shifted (plan1 s r) ++ shifted (plan2 s r)))) (seq 0 n))).
    2:{ intros r Hr. apply in_seq in Hr. unfold mread. rewrite (nth_error_map_seq (fun r => map (fun s => length (adrs (shifted (plan1 s r)))) (seq 0 n))) by lia. cbn [obind]. rewrite (nth_error_map_seq (fun r => map (fun s => length (adrs (shifted (plan2 s r)))) (seq 0 n))) by lia. cbn [obind].
        f_equal. rewrite combine_map_same, map_map. apply map_ext. intros s. cbn [fst snd]. rewrite adrs_app, app_length. reflexivity. }
    cbn [obind].
    rewrite (sendItems_ok _ _ (fun s r => shifted (plan1 s r) ++ shifted (plan2 s r)) n E it LE); [|exact (fun r m => Hord r m)|].
    { f_equal. apply map_ext. intros r. f_equal. apply map_ext. intros s. unfold shifted. rewrite map_app. reflexivity. }
    intros s r a e Hs Hr He Ha. rewrite HE in He by exact Hs. injection He as <-. apply zread_at, it_read. rewrite adrs_app, !shifted_adrs in Ha. apply in_app_or in Ha. destruct Ha as [Ha|Ha]; apply in_concat in Ha; destruct Ha as (l & Hl & Ha); apply in_map_iff in Hl; destruct Hl as (q & <- & Hq).
    - apply in_map_iff in Hq. destruct Hq as (k & <- & Hk). apply (chosen_range s r k). exact Ha.
    - destruct (HP s Hs) as (A & _). specialize (A r Hr). clear - A Hq Ha. unfold answered in A. induction A as [|q0 v b w (A1 & isOv & A2 & A3) F IH]; [destruct Hq|]. destruct Hq as [<-|Hq]; [|exact (IH Hq)]. rewrite A3 in Ha. apply filter_In in Ha. destruct Ha as (Ha & _). apply zrange_in in Ha. unfold sitesOf in Ha. rewrite map_length in Ha. exact Ha.
  Qed.

  (** ** What the ranks get *)
  Context (slack : R -> R) (img : vec Z -> item N P -> item N P).
  Hypothesis HL : forall s r k, s < n -> r < n -> In k (ks s r) -> lattice pa k.
  Hypothesis HG : forall s k f, s < n -> lattice pa k -> In f (own s) -> moved f (at_shift k) = img k f.
  Hypothesis Hmeet : forall s r j k, s < n -> r < n -> lattice pa k -> (0 <= j < Z.of_nat (length (own s)))%Z -> overlapsBox (shiftBox (D r) (at_shift k)) (v_out (G s j)) = true -> In k (ks s r).
  Hypothesis Hsees : forall s r i j e f k, s < n -> r < n -> lattice pa k -> at_ (own r) i e -> at_ (own s) j f -> sees val slack (i_site e) (i_site (img k f)) ->
    overlapsBox (shiftBox (D r) (at_shift k)) (v_out (G s j)) = true \/
    (overlapsBox (shiftBox (D s) (at_shift (neg k))) (v_out (G r i)) = true /\ overlapsBox (ball (i_site (moved e (at_shift (neg k))))) (v_in (G s j)) = true).

  Context (need : nat -> nat -> vec Z -> Prop).
  Hypothesis Hneed : forall s r k, s < n -> r < n -> In k (ks s r) -> chosen s r k <> [] -> need r s k /\ need s r (neg k).

  Lemma chosen_in s r k a : In a (chosen s r k) <-> (s = r -> k <> origin) /\ (0 <= a < Z.of_nat (length (own s)))%Z /\ overlapsBox (shiftBox (D r) (at_shift k)) (v_out (G s a)) = true.
  Proof using.
    clear. unfold chosen. assert (Q : (s =? r) && (vx k =? 0)%Z && (vy k =? 0)%Z && (vz k =? 0)%Z = true <-> s = r /\ k = origin).
    { rewrite !andb_true_iff, Nat.eqb_eq, !Z.eqb_eq. destruct k as [a1 b1 c1]. cbn. unfold origin. split; [intros (((-> & ->) & ->) & ->); auto|intros (-> & X); injection X as -> -> ->; auto]. }
    destruct (_ && _).
    - destruct (proj1 Q eq_refl) as (Q1 & Q2). split; [intros []|]. intros (X & _). exfalso. apply X; assumption.
    - unfold sel1, sitesOf. rewrite map_length, filter_In, zrange_in. assert (NQ : s = r -> k <> origin) by (intros E1 E2; assert (false = true) by (apply Q; auto); discriminate). tauto.
  Qed.
  Lemma lattice_neg k : lattice pa (neg k) <-> lattice pa k.
  Proof using. clear. unfold lattice, opposite. cbn [vx vy vz]. split; intros (A & B & C); (split; [|split]); intros X; [specialize (A X)|specialize (B X)|specialize (C X)|specialize (A X)|specialize (B X)|specialize (C X)]; lia. Qed.

  Lemma exchange_delivers : exists out, exchangeLet ch key fuel pa root doms E trees limit = Done out /\ length out = n /\ forall r o, nth_error out r = Some o -> delivers val slack pa img E (need r) r o.
  Proof using HO HD HE LE HT W HS HN Hhead HB HI HK Hdeal1 Hdeal2 Hord1 Hord Hmerge Hsort Hmk HL HG Hmeet Hsees Hneed.
    destruct exchange_ok as (plan2 & HA & EX). eexists. split; [exact EX|]. split; [rewrite map_length, seq_length; reflexivity|]. intros r o Ho.
    assert (Hr : r < n). { assert (X : r < length (map (fun r => concat (map (fun s => contents (it s) (shifted (plan1 s r ++ plan2 s r))) (seq 0 n))) (seq 0 n))) by (apply nth_error_Some; congruence). rewrite map_length, seq_length in X. exact X. }
    rewrite (nth_error_map_seq (fun r => concat (map (fun s => contents (it s) (shifted (plan1 s r ++ plan2 s r))) (seq 0 n)))) in Ho by exact Hr. injection Ho as <-.
    set (tg := fun (s : nat) (q : vec Z * list Z) => map (fun a => (s, a, fst q)) (snd q)).
    (* members of the second plan *)
    assert (P2 : forall s q a, s < n -> In q (plan2 s r) -> In a (snd q) -> In (neg (fst q)) (ks r s) /\ chosen r s (neg (fst q)) <> [] /\ (0 <= a < Z.of_nat (length (own s)))%Z /\ overlapsBox (shiftBox (D r) (at_shift (fst q))) (v_out (G s a)) = false).
    { intros s q a Hs Hq Ha. destruct (Forall2_at _ _ _ _ (HA s r Hs Hr) Hq) as (b & Hb & Eb & isOv & _ & Es). apply full_in in Hb. destruct Hb as (Hb & Hne). apply in_map_iff in Hb. destruct Hb as (q0 & <- & Hb). apply in_map_iff in Hb. destruct Hb as (k & <- & Hk). cbn [fst snd] in *.
      rewrite Eb, neg_neg. split; [exact Hk|]. split; [intros X; rewrite X in Hne; cbn in Hne; congruence|]. rewrite Es in Ha. apply filter_In in Ha. destruct Ha as (Ha & Hf). apply zrange_in in Ha. unfold sitesOf in Ha. rewrite map_length in Ha. split; [exact Ha|]. apply andb_true_iff in Hf. destruct Hf as (Hf & _). apply negb_true_iff in Hf. exact Hf. }
    exists (flat_map (fun s => flat_map (tg s) (plan1 s r ++ plan2 s r)) (seq 0 n)). split; [|split].
    - apply (nodup_flat _ (fun t => fst (fst t))); [apply seq_NoDup| |].
      2:{ intros s y Hy. apply in_flat_map in Hy. destruct Hy as (q & _ & Hy). apply in_map_iff in Hy. destruct Hy as (a & <- & _). reflexivity. }
      intros s Hs. apply in_seq in Hs. rewrite flat_map_app. apply nodup_app.
      + apply pairs_nodup; [unfold plan1; rewrite map_map; cbn [fst]; rewrite map_id; apply HN; lia|]. intros q Hq. apply in_map_iff in Hq. destruct Hq as (k & <- & Hk). cbn [snd]. unfold chosen. destruct (_ && _); [constructor|]. apply NoDup_filter. apply zrange_nodup.
      + apply pairs_nodup.
        * assert (Em : map fst (plan2 s r) = map fst (full (batchesOf s r))) by (specialize (HA s r ltac:(lia) Hr); clear - HA; unfold answered in HA; induction HA as [|x y l l' (Q & _) F IH]; [reflexivity|]; cbn [map]; rewrite IH, Q; reflexivity).
          rewrite Em. apply full_nodup. unfold batchesOf, plan1. rewrite !map_map. cbn [fst]. apply FinFun.Injective_map_NoDup; [exact neg_inj|]. apply HN; lia.
        * intros q Hq. destruct (Forall2_at _ _ _ _ (HA s r ltac:(lia) Hr) Hq) as (b & _ & _ & isOv & _ & Es). rewrite Es. apply NoDup_filter. apply zrange_nodup.
      + intros x X Y. apply in_flat_map in X, Y. destruct X as (q & Hq & X), Y as (q' & Hq' & Y). apply in_map_iff in X, Y. destruct X as (a & Ea & X), Y as (b & Eb & Y). subst x. injection Eb as -> Eb.
        apply in_map_iff in Hq. destruct Hq as (k & <- & Hk). cbn [fst snd] in *. apply chosen_in in X. destruct X as (_ & _ & X). destruct (P2 s q' a ltac:(lia) Hq' Y) as (_ & _ & _ & Y'). congruence.
    - assert (EO : concat (map (fun s => contents (it s) (shifted (plan1 s r ++ plan2 s r))) (seq 0 n)) = map (fun t => let '(s, a, k) := t in moved (it s a) (at_shift k)) (flat_map (fun s => flat_map (tg s) (plan1 s r ++ plan2 s r)) (seq 0 n))).
      { rewrite <- flat_map_concat_map. clear. induction (seq 0 n) as [|s l IH]; [reflexivity|]. cbn [flat_map]. rewrite map_app, <- IH. f_equal. clear. unfold contents, shifted. induction (plan1 s r ++ plan2 s r) as [|q p IH]; [reflexivity|]. cbn [flat_map map]. rewrite map_app, <- IH. f_equal. unfold tg. rewrite map_map. reflexivity. }
      rewrite EO.
      assert (Hall : forall t, In t (flat_map (fun s => flat_map (tg s) (plan1 s r ++ plan2 s r)) (seq 0 n)) -> let '(s, j, k) := t in lattice pa k /\ (s = r -> k <> origin) /\ need r s k /\ exists l f, nth_error E s = Some l /\ at_ l j f /\ moved (it s j) (at_shift k) = img k f).
      { intros t Ht. apply in_flat_map in Ht. destruct Ht as (s & Hs & Ht). apply in_seq in Hs. apply in_flat_map in Ht. destruct Ht as (q & Hq & Ht). apply in_map_iff in Ht. destruct Ht as (a & <- & Ha).
        assert (X : lattice pa (fst q) /\ (s = r -> fst q <> origin) /\ need r s (fst q) /\ (0 <= a < Z.of_nat (length (own s)))%Z).
        { apply in_app_or in Hq. destruct Hq as [Hq|Hq].
          - apply in_map_iff in Hq. destruct Hq as (k & <- & Hk). cbn [fst snd] in *. split; [apply (HL s r); [lia|exact Hr|exact Hk]|]. assert (Hn : chosen s r k <> []) by (intros X; rewrite X in Ha; destruct Ha). apply chosen_in in Ha. split; [tauto|]. split; [apply Hneed; [lia|exact Hr|exact Hk|exact Hn]|tauto].
          - destruct (P2 s q a ltac:(lia) Hq Ha) as (X1 & X2 & X3 & _). split; [apply lattice_neg; apply (HL r s); [exact Hr|lia|exact X1]|]. split; [|split; [|exact X3]]. 2:{ rewrite <- (neg_neg (fst q)). apply (Hneed r s); [exact Hr|lia|exact X1|exact X2]. } intros -> Eo. apply X2. destruct (chosen r r (neg (fst q))) as [|z zs] eqn:Ec; [reflexivity|]. exfalso. assert (Hz : In z (chosen r r (neg (fst q)))) by (rewrite Ec; now left). apply chosen_in in Hz. destruct Hz as (Hz & _). apply Hz; [reflexivity|]. apply (proj2 (neg_origin _)). exact Eo. }
        destruct X as (X1 & X2 & X4 & X3). split; [exact X1|]. split; [exact X2|]. split; [exact X4|]. exists (own s), (it s a). split; [apply HE; lia|]. assert (At := it_read s a X3). split; [exact At|]. apply (HG s); [lia|exact X1|]. destruct At as (_ & At). apply nth_error_In in At. exact At. }
      revert Hall. generalize (flat_map (fun s => flat_map (tg s) (plan1 s r ++ plan2 s r)) (seq 0 n)). clear. induction l as [|t l IH]; intros H; [constructor|]. cbn [map]. constructor; [|apply IH; intros; apply H; now right]. specialize (H t (or_introl eq_refl)). destruct t as [[s j] k]. exact H.
    - intros ow e s l j f k Hown He Hl Hf Hk Hne Hse.
      rewrite HE in Hown by exact Hr. injection Hown as <-. assert (Hs : s < n) by (rewrite <- LE; apply nth_error_Some; congruence). rewrite HE in Hl by exact Hs. injection Hl as <-.
      apply In_nth_error in He. destruct He as (i & He). assert (Ai : at_ (own r) (Z.of_nat i) e) by (split; [lia|rewrite Nat2Z.id; exact He]). assert (Hi : (0 <= Z.of_nat i < Z.of_nat (length (own r)))%Z) by (assert (i < length (own r)) by (apply nth_error_Some; congruence); lia).
      assert (Hj : (0 <= j < Z.of_nat (length (own s)))%Z) by (destruct Hf as (Hf0 & Hf); assert (Z.to_nat j < length (own s)) by (apply nth_error_Some; congruence); lia).
      apply in_flat_map. exists s. split; [apply in_seq; lia|]. rewrite flat_map_app. apply in_or_app.
      destruct (overlapsBox (shiftBox (D r) (at_shift k)) (v_out (G s j))) eqn:Eo.
      + left. apply in_flat_map. exists (k, chosen s r k). split; [apply in_map_iff; exists k; split; [reflexivity|]; apply (Hmeet s r j); assumption|]. apply in_map_iff. exists j. split; [reflexivity|]. apply chosen_in. auto.
      + right. destruct (Hsees s r (Z.of_nat i) j e f k Hs Hr Hk Ai Hf Hse) as [X|(X1 & X2)]; [congruence|].
        assert (Hne' : r = s -> neg k <> origin) by (intros -> X; apply (proj1 (neg_origin k)) in X; exact (Hne eq_refl X)).
        assert (Ci : In (Z.of_nat i) (chosen r s (neg k))) by (apply chosen_in; auto).
        assert (Ki : In (neg k) (ks r s)) by (apply (Hmeet r s (Z.of_nat i)); try assumption; apply lattice_neg; exact Hk).
        set (q := (neg (neg k), map (fun a => moved (it r a) (at_shift (neg k))) (chosen r s (neg k)))).
        assert (Hq : In q (full (batchesOf s r))).
        { apply full_in. split; [apply in_map_iff; exists (neg k, chosen r s (neg k)); split; [reflexivity|]; apply in_map_iff; exists (neg k); auto|]. cbn [snd q]. intros X. destruct (chosen r s (neg k)); [destruct Ci|discriminate]. }
        destruct (Forall2_at' _ _ _ _ (HA s r Hs Hr) Hq) as (v & Hv & Ev & isOv & (_ & Rv) & Es). apply in_flat_map. exists v. split; [exact Hv|]. apply in_map_iff. exists j. split; [rewrite Ev; cbn [fst q]; rewrite neg_neg; reflexivity|].
        rewrite Es. apply filter_In. unfold sitesOf. rewrite map_length. split; [apply zrange_in; lia|]. cbn [fst q]. rewrite neg_neg, Eo. cbn [negb andb]. apply orb_true_iff. right.
        assert (Ei : it r (Z.of_nat i) = e). { destruct (it_read r (Z.of_nat i) Hi) as (_ & Y). rewrite Nat2Z.id in Y. congruence. }
        apply (Rv (moved e (at_shift (neg k)))); [cbn [snd q]; apply in_map_iff; exists (Z.of_nat i); rewrite Ei; auto| |exact X2].
        destruct (walked_sub ok val limit (T s) (sitesOf s) (G s) (W s Hs) j) as (_ & (_ & O2)); [unfold sitesOf; rewrite map_length; lia|exact O2].
  Qed.
End Exchange.
