(** The two sorts of CallModel. *)
From Coq Require Import List Arith NArith ZArith Lia Bool Permutation Sorted Reals.
From Verif Require Import Outcome ListUtil Arith ParticleModel VecModel RadixModel RadixSpec RadixProofs TreeModel TreeSpec TreeProofs LetModel LetSpec LetProofs CallModel CallSpec.
Import ListNotations.

(** l' has the elements sg of l *)
Definition shuffled {A} (l : list A) (sg : list nat) (l' : list A) : Prop := Permutation sg (seq 0 (length l)) /\ Forall2 (fun i e => nth_error l i = Some e) sg l'.

Lemma omap_each {A B} (f : A -> outcome B) (Q : A -> B -> Prop) l : (forall a, In a l -> exists b, f a = Done b /\ Q a b) -> exists bs, omap f l = Done bs /\ Forall2 Q l bs.
Proof.
  induction l as [|a l IH]; intros H; [exists []; split; [reflexivity|constructor]|]. destruct (H a (or_introl eq_refl)) as (b & Eb & Qb). destruct IH as (bs & Es & Qs); [intros x Hx; apply H; now right|].
  exists (b :: bs). cbn [omap]. rewrite Eb. cbn [obind]. rewrite Es. split; [reflexivity|constructor; assumption].
Qed.
Lemma Forall2_len {A B} (Q : A -> B -> Prop) l l' : Forall2 Q l l' -> length l = length l'.
Proof. induction 1; cbn; congruence. Qed.
Lemma Forall2_nth {A B} (Q : A -> B -> Prop) l l' : Forall2 Q l l' -> forall i b, nth_error l' i = Some b -> exists a, nth_error l i = Some a /\ Q a b.
Proof. induction 1 as [|x y l l' H F IH]; intros [|i] b Hb; cbn in *; try discriminate; [injection Hb as <-; eauto|]. apply IH. exact Hb. Qed.
Lemma Forall2_nth' {A B} (Q : A -> B -> Prop) l l' : Forall2 Q l l' -> forall i a, nth_error l i = Some a -> exists b, nth_error l' i = Some b /\ Q a b.
Proof. induction 1 as [|x y l l' H F IH]; intros [|i] b Hb; cbn in *; try discriminate; [injection Hb as <-; eauto|]. apply IH. exact Hb. Qed.
Lemma Forall2_imp {A B} (Q Q' : A -> B -> Prop) l l' : (forall a b, In a l -> In b l' -> Q a b -> Q' a b) -> Forall2 Q l l' -> Forall2 Q' l l'.
Proof. intros H F. induction F as [|x y l l' HQ F IH]; constructor; [apply H; [now left|now left|exact HQ]|]. apply IH. intros a b Ha Hb. apply H; now right. Qed.
Lemma Forall2_map_l {A B C} (Q : B -> C -> Prop) (f : A -> B) l l' : Forall2 Q (map f l) l' <-> Forall2 (fun a c => Q (f a) c) l l'.
Proof. revert l'. induction l as [|a l IH]; intros [|c l']; split; intros H; inversion H; subst; constructor; try assumption; apply IH; assumption. Qed.
Lemma Forall2_same {A} (Q : A -> A -> Prop) l : (forall a, In a l -> Q a a) -> Forall2 Q l l.
Proof. induction l as [|a l IH]; intros H; constructor; [apply H; now left|]. apply IH. intros b Hb. apply H. now right. Qed.

Lemma shuffled_length {A} (l l' : list A) sg : shuffled l sg l' -> length l' = length l /\ length sg = length l.
Proof. intros (H & F). apply Permutation_length in H. rewrite seq_length in H. apply Forall2_len in F. lia. Qed.
Lemma shuffled_in {A} (l l' : list A) sg a : shuffled l sg l' -> (In a l' <-> In a l).
Proof.
  intros (H & F). split; intros Ha.
  - destruct (Forall2_at _ _ _ _ F Ha) as (i & _ & Hi). exact (nth_error_In _ _ Hi).
  - apply In_nth_error in Ha. destruct Ha as (i & Hi). assert (Hin : In i sg) by (apply (Permutation_in _ (Permutation_sym H)); apply in_seq; split; [lia|]; cbn; apply nth_error_Some; congruence).
    destruct (Forall2_at' _ _ _ _ F Hin) as (b & Hb & E). congruence.
Qed.
Lemma shuffled_read {A} (l l' : list A) sg x a : shuffled l sg l' -> nth_error l' x = Some a -> exists i, nth_error sg x = Some i /\ nth_error l i = Some a.
Proof. intros (_ & F) H. destruct (Forall2_nth _ _ _ F x a H) as (i & Hi & E). eauto. Qed.
Lemma shuffled_find {A} (l l' : list A) sg i a : shuffled l sg l' -> nth_error l i = Some a -> exists x, nth_error sg x = Some i /\ nth_error l' x = Some a.
Proof.
  intros (H & F) Ha. assert (Hin : In i sg) by (apply (Permutation_in _ (Permutation_sym H)); apply in_seq; split; [lia|]; cbn; apply nth_error_Some; congruence).
  apply In_nth_error in Hin. destruct Hin as (x & Hx). exists x. split; [exact Hx|]. destruct (Forall2_nth' _ _ _ F x i Hx) as (b & Hb & E). congruence.
Qed.
Lemma shuffled_inj {A} (l l' : list A) sg x y i : shuffled l sg l' -> nth_error sg x = Some i -> nth_error sg y = Some i -> x = y.
Proof.
  intros (H & _) Hx Hy. assert (ND : NoDup sg) by (apply (Permutation_NoDup (Permutation_sym H)), seq_NoDup). rewrite NoDup_nth_error in ND. apply ND; [apply nth_error_Some; congruence|congruence].
Qed.
Lemma shuffled_perm {A} (l l' : list A) sg : shuffled l sg l' -> Permutation l' l.
Proof.
  intros (H & F). assert (E : map Some l' = map (nth_error l) sg) by (clear H; induction F as [|i a sg l' E F IH]; cbn; [reflexivity|]; rewrite E, IH; reflexivity).
  assert (E2 : map (nth_error l) (seq 0 (length l)) = map Some l).
  { clear. assert (G : forall (pre l : list A), map (nth_error (pre ++ l)) (seq (length pre) (length l)) = map Some l).
    { intros pre m. revert pre. induction m as [|a m IH]; intros pre; [reflexivity|]. cbn [length seq map]. f_equal; [rewrite nth_error_app2, Nat.sub_diag by lia; reflexivity|]. specialize (IH (pre ++ [a])). rewrite <- app_assoc, app_length in IH. cbn [app length] in IH. rewrite Nat.add_1_r in IH. exact IH. }
    exact (G [] l). }
  assert (X : Permutation (map Some l') (map Some l)) by (rewrite E, <- E2; apply Permutation_map; exact H).
  apply (Permutation_map (fun o : option A => match o with Some a => [a] | None => [] end)) in X. rewrite !map_map in X. apply (Permutation_flat_map (fun x => x)) in X. 
  assert (U : forall m : list A, flat_map (fun x => x) (map (fun a => [a]) m) = m) by (induction m as [|a m IH]; cbn; [reflexivity|]; f_equal; exact IH). rewrite !U in X. exact X.
Qed.

Lemma sorted_from (keys : list Z) : (forall k, In k keys -> (0 <= k < 8 ^ 21)%Z) -> StronglySorted Z.le keys -> sorted_keys keys.
Proof.
  intros Hr Hs i j Hi Hij Hj. unfold keyAt. assert (G : forall n, (n < length keys)%nat -> (0 <= nth n keys 0 < 8 ^ 21)%Z) by (intros n Hn; apply Hr, nth_In; exact Hn).
  assert (M : forall (l : list Z) a b, StronglySorted Z.le l -> (a <= b < length l)%nat -> (nth a l 0 <= nth b l 0)%Z).
  { clear. induction l as [|x l IH]; intros a b S H; [cbn in H; lia|]. inversion S as [|? ? S' F]; subst. destruct a as [|a], b as [|b]; cbn [nth length] in *; [lia| |lia|apply IH; [exact S'|lia]]. rewrite Forall_forall in F. apply F, nth_In. lia. }
  specialize (M keys (Z.to_nat i) (Z.to_nat j) Hs ltac:(lia)). pose proof (G (Z.to_nat i) ltac:(lia)). pose proof (G (Z.to_nat j) ltac:(lia)). lia.
Qed.

Lemma sortTp_ok s tp : any_sorter (length tp) s -> (forall t, In t tp -> (0 <= fst t < 8 ^ 21)%Z) -> exists tp', sortTp s tp = Done tp' /\ Permutation tp' tp /\ sorted_keys (map fst tp').
Proof.
  intros (nt & H0 & Hg & Hc & Hb & Hp & Hl) Hk. unfold sortTp.
  destruct (sort_ok (fun t : Z * nat => Z.to_N (fst t)) 8 ltac:(lia) 64 (length tp) nt (so_gs s) (so_copy s) (so_b s) (so_p s) tp (so_buf s)) as (r & buf & E1 & (E2 & E3 & _) & _); try assumption; try lia.
  { intros x Hx. rewrite firstn_all in Hx. specialize (Hk x Hx). change (2 ^ N.of_nat 64)%N with (Z.to_N (2 ^ 64)). change (8 ^ 21)%Z with (2 ^ 63)%Z in Hk. apply Z2N.inj_lt; lia. }
  rewrite E1. cbn [obind fst]. rewrite skipn_all, app_nil_r. rewrite firstn_all in E2. exists r. split; [reflexivity|]. split; [apply Permutation_sym; exact E2|].
  assert (Hr : forall t, In t r -> (0 <= fst t < 8 ^ 21)%Z) by (intros t Ht; apply Hk; apply (Permutation_in _ (Permutation_sym E2)); exact Ht).
  apply sorted_from; [intros k Hk'; apply in_map_iff in Hk'; destruct Hk' as (t & <- & Ht); apply Hr; exact Ht|].
  clear - E3 Hr. induction E3 as [|t l S IH F]; [constructor|]. cbn [map]. constructor; [apply IH; intros x Hx; apply Hr; now right|]. rewrite Forall_forall in *. intros k Hk. apply in_map_iff in Hk. destruct Hk as (x & <- & Hx).
  specialize (F x Hx). pose proof (Hr t (or_introl eq_refl)). pose proof (Hr x (or_intror Hx)). cbv beta in F. apply Z2N.inj_le; lia.
Qed.

Section Sorts.
  Context {N : arith} {P : Type} (key : vec N -> outcome Z).
  Notation item := (item N P).

  Lemma setTp_ok (ep : list item) a n : (a + n <= length ep)%nat -> (forall e, In e (skipn a ep) -> keyed_at key (s_pos (i_site e))) ->
    exists tp, setTp key ep a n = Done tp /\ map snd tp = seq a n /\ forall t, In t tp -> (0 <= fst t < 8 ^ 21)%Z.
  Proof using.
    intros Hn Hk. unfold setTp.
    destruct (omap_each (fun i => do e <- mread ep i; do k <- key (s_pos (i_site e)); Done (k, i)) (fun i t => snd t = i /\ (0 <= fst t < 8 ^ 21)%Z) (seq a n)) as (tp & E & F).
    { intros i Hi. apply in_seq in Hi. destruct (nth_error ep i) as [e|] eqn:Ee; [|apply nth_error_None in Ee; lia].
      destruct (Hk e) as (z & Ez & Hz). { apply (nth_error_In _ (i - a)). rewrite <- (firstn_skipn a ep) in Ee. rewrite nth_error_app2 in Ee by (rewrite firstn_length; lia). rewrite firstn_length, Nat.min_l in Ee by lia. exact Ee. }
      exists (z, i). unfold mread. rewrite Ee. cbn [obind]. rewrite Ez. split; [reflexivity|]. split; [reflexivity|exact Hz]. }
    exists tp. split; [exact E|]. split; [|intros t Ht; destruct (Forall2_at _ _ _ _ F Ht) as (i & _ & _ & H); exact H].
    clear - F. induction F as [|i t l tp (H & _) F IH]; [reflexivity|]. cbn [map]. congruence.
  Qed.

  Lemma reads_ok (ep : list item) (tp : list (Z * nat)) : (forall t, In t tp -> (snd t < length ep)%nat) -> exists l, omap (fun t => mread ep (snd t)) tp = Done l /\ Forall2 (fun i e => nth_error ep i = Some e) (map snd tp) l.
  Proof using.
    intros H. destruct (omap_each (fun t : Z * nat => mread ep (snd t)) (fun t e => nth_error ep (snd t) = Some e) tp) as (l & E & F).
    { intros t Ht. destruct (nth_error ep (snd t)) as [e|] eqn:Ee; [|apply nth_error_None in Ee; specialize (H t Ht); lia]. exists e. unfold mread. rewrite Ee. auto. }
    exists l. split; [exact E|]. apply Forall2_map_l. exact F.
  Qed.

  Lemma sorted_tp (ep : list item) (tp : list (Z * nat)) s : any_sorter (length ep) s -> Permutation (map snd tp) (seq 0 (length ep)) -> (forall t, In t tp -> (0 <= fst t < 8 ^ 21)%Z) ->
    exists tp' l, (do tp <- sortTp s tp; do own <- omap (fun t => mread ep (snd t)) tp; Done (tp, own)) = Done (tp', l) /\ shuffled ep (map snd tp') l /\ sorted_keys (map fst tp') /\ (forall t, In t tp' -> (0 <= fst t < 8 ^ 21)%Z).
  Proof using.
    intros Hs Hp Hk. assert (L : length tp = length ep) by (apply Permutation_length in Hp; rewrite map_length, seq_length in Hp; exact Hp).
    destruct (sortTp_ok s tp ltac:(rewrite L; exact Hs) Hk) as (tp' & E1 & E2 & E3). assert (Hp' : Permutation (map snd tp') (seq 0 (length ep))) by (rewrite <- Hp; apply Permutation_map; exact E2).
    destruct (reads_ok ep tp') as (l & E4 & E5); [intros t Ht; assert (H : In (snd t) (seq 0 (length ep))) by (apply (Permutation_in _ Hp'); apply in_map; exact Ht); apply in_seq in H; lia|].
    exists tp', l. rewrite E1. cbn [obind]. rewrite E4. split; [reflexivity|]. split; [split; assumption|]. split; [exact E3|]. intros t Ht. apply Hk. apply (Permutation_in _ E2). exact Ht.
  Qed.

  Lemma sortLocal_ok s (ep : list item) : any_sorter (length ep) s -> (forall e, In e ep -> keyed_at key (s_pos (i_site e))) ->
    exists tp own, sortLocal key s ep = Done (tp, own) /\ shuffled ep (map snd tp) own /\ sorted_keys (map fst tp) /\ (forall t, In t tp -> (0 <= fst t < 8 ^ 21)%Z).
  Proof using.
    intros Hs Hk. unfold sortLocal. destruct (setTp_ok ep 0 (length ep)) as (tp & E1 & E2 & E3); [lia|exact Hk|]. rewrite E1. cbn [obind]. apply sorted_tp; [exact Hs|rewrite E2; apply Permutation_refl|exact E3].
  Qed.

  Lemma sortGlobal_ok s tp (ep recv : list item) : any_sorter (length ep + length recv) s -> Permutation (map snd tp) (seq 0 (length ep)) -> (forall t, In t tp -> (0 <= fst t < 8 ^ 21)%Z) -> (forall e, In e recv -> keyed_at key (s_pos (i_site e))) ->
    exists tp' all, sortGlobal key s tp ep recv = Done (tp', all) /\ shuffled (ep ++ recv) (map snd tp') all /\ sorted_keys (map fst tp').
  Proof using.
    intros Hs Hp Ht Hk. unfold sortGlobal. destruct (setTp_ok (ep ++ recv) (length ep) (length recv)) as (new & E1 & E2 & E3); [rewrite app_length; lia|rewrite skipn_app, skipn_all, Nat.sub_diag; exact Hk|].
    rewrite E1. cbn [obind]. destruct (sorted_tp (ep ++ recv) (tp ++ new) s) as (tp' & all & S1 & S2 & S3 & _).
    - rewrite app_length. exact Hs.
    - rewrite map_app, E2, app_length, seq_app. apply Permutation_app; [exact Hp|apply Permutation_refl].
    - intros t H. apply in_app_or in H. destruct H as [H|H]; [exact (Ht t H)|exact (E3 t H)].
    - exists tp', all. auto.
  Qed.
End Sorts.
