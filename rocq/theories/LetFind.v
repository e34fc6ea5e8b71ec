(** The two searches of LetModel on one rank. *)
From Coq Require Import List Arith ZArith Lia Bool Permutation Reals Lra Sorted.
From Verif Require Import Outcome ListUtil Arith ParticleModel VecModel DomainModel MPIModel MPIProofs TreeModel TreeSpec TreeProofs TreeLink TreeMoment TreeLists TreeSearch LetModel LetArrays LetTable LetSend LetWalk.
Import ListNotations.

Section Find.
  Context {N : arith} (ok : N -> Prop) (val : N -> R) (HO : ordered N ok val) {P : Type}.
  Notation okB := (okB ok).
  Context (fuel : nat) (pa : vec bool) (root : ort N) (doms : list (ort N)) (t : list cell * list (moment N)) (limit : Z) (sites : list (site N)) (g : Z -> moment N).
  Hypotheses (W : walked ok val limit t sites g) (Hlim : (0 <= limit)%Z).
  Let n := length doms.
  Let num := Z.of_nat (length sites).

  (** ** First step *)
  Section Scatter.
    Context (my : nat) (D : nat -> ort N) (sh : nat -> list (vec N)).
    Hypothesis HD : forall i, i < n -> nth_error doms i = Some (D i).
    Hypothesis HS : forall i acc, i < n -> imageShifts fuel pa (fullLength root) (v_out (mo (snd t) 0)) (D i) acc = Done (acc ++ sh i).
    Hypothesis HB : forall i s, i < n -> In s (sh i) -> okB (shiftBox (D i) s).

    Definition sel1 (i : nat) (s : vec N) : list Z := filter (fun a => overlapsBox (shiftBox (D i) s) (v_out (g a))) (zrange 0 num).
    Definition work1 (i : nat) : @parcel N :=
      match sh i with [] => [] | s :: r => (s, if my =? i then [] else sel1 i s) :: map (fun s => (s, sel1 i s)) r end.

    Lemma work1_fst i : map fst (work1 i) = sh i.
    Proof. unfold work1. destruct (sh i); [reflexivity|]. cbn [map fst]. rewrite map_map, map_id. reflexivity. Qed.

    Lemma scatterRank_ok ranks i a b : i < n -> length a = n -> length b = n ->
      scatterRank fuel pa root doms my (fst t) (snd t) limit (bufOf work1 ranks, (a, b)) i = Done (bufOf work1 (ranks ++ [i]), (put i [length (work1 i)] a, put i [length (adrs (work1 i))] b)).
    Proof.
      intros Hi La Lb. unfold scatterRank. unfold mread at 1. rewrite (HD i Hi). cbn [obind].
      destruct (walked_root ok val limit t sites g W) as (M1 & _). rewrite (zread_at _ _ _ M1). cbn [obind]. rewrite HS by exact Hi. cbn [obind].
      set (pre := b_shift (bufOf work1 ranks)). rewrite app_length. replace (length pre + length (sh i) - length pre) with (length (sh i)) by lia.
      assert (Lw : length (sh i) = length (work1 i)) by (rewrite <- work1_fst, map_length; reflexivity).
      rewrite mwrite_put by lia. cbn [obind].
      assert (G : forall p s adr per, (forall k q, nth_error p k = Some q -> mread (pre ++ sh i) (s + k) = Done (fst q) /\ snd q = (if (my =? i) && (s + k =? length pre) then [] else sel1 i (fst q)) /\ In (fst q) (sh i)) ->
        ofold (scatterImage (fst t) (snd t) limit my i (length pre) (D i) (pre ++ sh i)) (seq s (length p)) (adr, per) = Done (adr ++ adrs p, per ++ map (fun q => length (snd q)) p)).
      { induction p as [|q p IH]; intros s adr per Hp; [cbn; rewrite !app_nil_r; reflexivity|]. cbn [length seq ofold]. destruct (Hp 0 q eq_refl) as (P1 & P2 & P3). rewrite Nat.add_0_r in *.
        assert (Hp' : forall k q0, nth_error p k = Some q0 -> mread (pre ++ sh i) (S s + k) = Done (fst q0) /\ snd q0 = (if (my =? i) && (S s + k =? length pre) then [] else sel1 i (fst q0)) /\ In (fst q0) (sh i)).
        { intros k q0 Hk. replace (S s + k) with (s + S k) by lia. apply Hp. exact Hk. }
        assert (EA : adrs (q :: p) = snd q ++ adrs p) by reflexivity. rewrite EA. cbn [map]. unfold scatterImage at 1. destruct ((my =? i) && (s =? length pre)).
        - cbn [obind]. rewrite IH by exact Hp'. rewrite P2. cbn [length app]. rewrite <- app_assoc. reflexivity.
        - rewrite P1. cbn [obind]. rewrite (scatterTop_ok ok val HO limit t sites g W) by (apply HB; assumption). cbn [obind]. fold num. fold (sel1 i (fst q)). rewrite <- P2.
          rewrite IH by exact Hp'. rewrite app_length. replace (length adr + length (snd q) - length adr) with (length (snd q)) by lia. rewrite <- !app_assoc. reflexivity. }
      rewrite Lw. rewrite G.
      - cbn [obind]. rewrite app_length. replace (length (b_adr (bufOf work1 ranks)) + length (adrs (work1 i)) - length (b_adr (bufOf work1 ranks))) with (length (adrs (work1 i))) by lia.
        rewrite mwrite_put by lia. cbn [obind]. rewrite bufOf_snoc. rewrite work1_fst. reflexivity.
      - intros k q Hk.
        assert (E1 : nth_error (sh i) k = Some (fst q)) by (rewrite <- work1_fst, nth_error_map, Hk; reflexivity).
        split; [unfold mread; rewrite nth_error_app2 by lia; replace (length pre + k - length pre) with k by lia; rewrite E1; reflexivity|]. split; [|apply nth_error_In in E1; exact E1].
        unfold work1 in Hk. destruct (sh i) as [|s0 r] eqn:Es; [destruct k; discriminate|]. destruct k as [|k].
        + cbn [nth_error] in Hk. injection Hk as <-. cbn [fst snd]. rewrite Nat.add_0_r, Nat.eqb_refl, andb_true_r. reflexivity.
        + cbn [nth_error] in Hk. rewrite nth_error_map in Hk. destruct (nth_error r k); [|discriminate]. injection Hk as <-. cbn [fst snd].
          replace (length pre + S k =? length pre) with false by (symmetry; apply Nat.eqb_neq; lia). rewrite andb_false_r. reflexivity.
    Qed.

    Lemma findScatter_ok jv jn jz deal : Permutation (concat deal) (seq 0 n) -> findScatter jv jn jz deal fuel pa root doms my t limit = Done (tableOf (map work1 (seq 0 n))).
    Proof.
      intros HP. assert (Hin : forall r, In r (concat deal) <-> r < n) by (intros r; split; intros H; [apply (Permutation_in _ HP) in H; apply in_seq in H; lia|apply (Permutation_in _ (Permutation_sym HP)), in_seq; lia]).
      unfold findScatter. fold n. rewrite (deal_ok work1 n).
      - cbn [obind]. apply assemble_ok.
        + intros ranks r H1 H2. apply Hin. apply in_concat. exists ranks. auto.
        + intros r Hr _. apply Hin. exact Hr.
      - intros ranks i a b Hi La Lb _. apply scatterRank_ok; assumption.
      - apply (Permutation_NoDup (Permutation_sym HP)). apply seq_NoDup.
      - intros r Hr. apply Hin. exact Hr.
      - cbn [fst]. rewrite map_length, seq_length. reflexivity.
      - cbn [snd]. rewrite map_length, seq_length. reflexivity.
      - intros r Hr Hn. exfalso. apply Hn, Hin, Hr.
    Qed.
  End Scatter.

  (** ** Second step *)

  (** particles received from a rank: those of each image *)
  Definition batch : Type := list (vec Z * list (item N P)).
  Definition full (b : batch) : batch := filter (fun q => negb (length (snd q) =? 0)) b.
  Fixpoint runsOf (s : nat) (b : batch) : list (nat * nat * vec Z) :=
    match b with [] => [] | q :: r => (s, length (snd q), fst q) :: runsOf (s + length (snd q)) r end.

  Definition sentinel : vec Z := Vec (-9999)%Z (-9999)%Z (-9999)%Z.
  Definition recognised (b : batch) : Prop := forall id l e, In (id, l) b -> In e l -> imageId fuel pa root (s_pos (i_site e)) = Done id.

  Lemma vec_eqb (u v : vec Z) : (vx u =? vx v)%Z && (vy u =? vy v)%Z && (vz u =? vz v)%Z = true <-> u = v.
  Proof using. clear W. rewrite !andb_true_iff, !Z.eqb_eq. destruct u, v. cbn. split; [intros ((-> & ->) & ->); reflexivity|intros E; injection E as -> -> ->; auto]. Qed.

  Lemma run_grows recv id : forall l s runs a m, (forall k e, nth_error l k = Some e -> nth_error recv (s + k) = Some e /\ imageId fuel pa root (s_pos (i_site (P := P) e)) = Done id) ->
    ofold (addToRuns fuel pa root recv) (seq s (length l)) (runs ++ [(a, m, id)], id) = Done (runs ++ [(a, m + length l, id)], id).
  Proof using.
    clear W Hlim n num doms t limit sites g. induction l as [|e l IH]; intros s runs a m Hl; [cbn; rewrite Nat.add_0_r; reflexivity|]. cbn [length seq ofold]. destruct (Hl 0 e eq_refl) as (R1 & R2). rewrite Nat.add_0_r in R1.
    unfold addToRuns at 1. unfold mread. rewrite R1. cbn [obind]. rewrite R2. cbn [obind]. rewrite (proj2 (vec_eqb id id) eq_refl). rewrite rev_app_distr. cbn [rev app]. rewrite rev_involutive. cbn [obind].
    replace (m + S (length l)) with (S m + length l) by lia. rewrite IH; [reflexivity|]. intros k e' Hk. replace (S s + k) with (s + S k) by lia. apply Hl. exact Hk.
  Qed.
  Lemma runs_ok recv : forall b s runs old, (forall q, In q b -> snd q <> []) -> NoDup (map fst b) -> ~ In old (map fst b) -> recognised b ->
    (forall k e, nth_error (concat (map snd b)) k = Some e -> nth_error recv (s + k) = Some e) ->
    exists new, ofold (addToRuns fuel pa root recv) (seq s (length (concat (map snd b)))) (runs, old) = Done (runs ++ runsOf s b, new).
  Proof using.
    clear W Hlim n num doms t limit sites g. induction b as [|[id l] b IH]; intros s runs old Hne Hnd Hold Hrec Hrd; [exists old; cbn; rewrite app_nil_r; reflexivity|].
    cbn [map snd concat]. rewrite app_length, seq_app, ofold_app. destruct l as [|e l]; [exfalso; apply (Hne (id, [])); [now left|reflexivity]|].
    cbn [length seq ofold]. assert (R1 := Hrd 0 e eq_refl). rewrite Nat.add_0_r in R1.
    assert (R2 : imageId fuel pa root (s_pos (i_site e)) = Done id) by (apply (Hrec id (e :: l)); now left).
    unfold addToRuns at 1. unfold mread. rewrite R1. cbn [obind]. rewrite R2. cbn [obind].
    destruct ((vx old =? vx id)%Z && (vy old =? vy id)%Z && (vz old =? vz id)%Z) eqn:E; [apply vec_eqb in E; subst; exfalso; apply Hold; now left|]. cbn [obind].
    rewrite (run_grows recv id l (S s) runs s 1).
    2:{ intros k e' Hk. split; [|apply (Hrec id (e :: l)); [now left|right; apply nth_error_In in Hk; exact Hk]]. replace (S s + k) with (s + S k) by lia. apply Hrd. cbn [map snd concat app nth_error]. rewrite nth_error_app1; [exact Hk|]. apply nth_error_Some. congruence. }
    cbn [obind]. inversion Hnd as [|? ? Hni Hnd']; subst.
    destruct (IH (s + S (length l)) (runs ++ [(s, 1 + length l, id)]) id) as (new & E').
    - intros q Hq. apply Hne. now right.
    - exact Hnd'.
    - exact Hni.
    - intros id' l' e' Hin. apply Hrec. now right.
    - intros k e' Hk. rewrite <- Nat.add_assoc. apply Hrd. cbn [map snd concat]. rewrite nth_error_app2 by (cbn [length]; lia). replace (S (length l) + k - length (e :: l)) with k by (cbn [length]; lia). exact Hk.
    - exists new. rewrite E'. rewrite <- app_assoc. reflexivity.
  Qed.
  Lemma full_concat (b : batch) : concat (map snd (full b)) = concat (map snd b).
  Proof using. clear W. induction b as [|[id [|e l]] b IH]; cbn [full filter snd length negb Nat.eqb map concat app]; [reflexivity|exact IH|f_equal; f_equal; exact IH]. Qed.

  Lemma full_in (b : batch) q : In q (full b) <-> In q b /\ snd q <> [].
  Proof using. clear W Hlim n num doms t limit sites g. unfold full. rewrite filter_In. destruct (snd q); cbn; intuition (try discriminate; congruence). Qed.
  Lemma full_nodup (b : batch) : NoDup (map fst b) -> NoDup (map fst (full b)).
  Proof using.
    clear W Hlim n num doms t limit sites g. induction b as [|q b IH]; intros H; [constructor|]. cbn [map] in H. inversion H; subst. cbn [full filter]. destruct (negb _); [|apply IH; assumption]. cbn [map]. constructor; [|apply IH; assumption].
    intros X. apply H2. apply in_map_iff in X. destruct X as (q' & <- & X). apply in_map. apply full_in in X. tauto.
  Qed.

  Section Double.
    Context (D : nat -> ort N) (key : vec N -> outcome Z) (sort : list (Z * nat) -> list (Z * nat)) (mk : list Z -> list (site N) -> outcome (list cell * list (moment N))).
    Hypothesis HD : forall i, i < n -> nth_error doms i = Some (D i).
    Hypothesis Hsort : forall l, Permutation (sort l) l /\ StronglySorted Z.le (map fst (sort l)).
    Hypothesis Hmk : forall keys eps, fits 1 keys -> length eps = length keys -> usable ok val eps -> exists A gA, mk keys eps = Done A /\ walked ok val 1 A eps gA.
    (** what the particles of a run need for a tree *)
    Definition keyed (e : item N P) : Prop := (exists z, key (s_pos (i_site e)) = Done z /\ (0 <= z < 8 ^ 21)%Z) /\ usable ok val [i_site e].
    Definition few (m : nat) : Prop := (8 + 168 * (Z.of_nat m / 2) < 2 ^ 31)%Z.

    Lemma few_half m : few m -> (2 * Z.of_nat m <= 2 ^ 31)%Z.
    Proof using. clear. unfold few. intros H. pose proof (Z.div_mod (Z.of_nat m) 2 ltac:(lia)). pose proof (Z.mod_pos_bound (Z.of_nat m) 2 ltac:(lia)). lia. Qed.

    (** the test for the search spheres of a run *)
    Definition reaches (l : list (item N P)) (isOv : ort N -> bool) : Prop :=
      (forall b b', okB b -> okB b' -> box_in val b b' -> isOv b = true -> isOv b' = true) /\ forall e b, In e l -> okB b -> overlapsBox (ball (i_site e)) b = true -> isOv b = true.

    Lemma sorted_fits keys : StronglySorted Z.le keys -> (forall z, In z keys -> (0 <= z < 8 ^ 21)%Z) -> few (length keys) -> fits 1 keys.
    Proof using.
      clear. intros HS HB HF. split; [|split; [apply few_half; exact HF|exact HF]]. intros i j Hi Hij Hj. unfold keyAt.
      assert (In (nth (Z.to_nat i) keys 0%Z) keys) by (apply nth_In; lia). assert (In (nth (Z.to_nat j) keys 0%Z) keys) by (apply nth_In; lia). apply HB in H, H0.
      assert (nth (Z.to_nat i) keys 0 <= nth (Z.to_nat j) keys 0)%Z; [|lia]. assert (Hn : (Z.to_nat i <= Z.to_nat j)%nat) by lia. assert (Hm : (Z.to_nat j < length keys)%nat) by lia. revert Hn Hm. generalize (Z.to_nat i), (Z.to_nat j). clear - HS.
      induction HS as [|x l HS IH F]; intros a b Hab Hb; [cbn in Hb; lia|]. destruct a as [|a], b as [|b]; cbn [nth]; try lia.
      - rewrite Forall_forall in F. apply F. apply nth_In. cbn in Hb. lia.
      - apply IH; cbn in Hb; lia.
    Qed.

    Lemma runTree_ok recv s id l : l <> [] -> few (length l) -> (forall e, In e l -> keyed e) -> (forall k e, nth_error l k = Some e -> nth_error recv (s + k) = Some e) ->
      exists A isOv, runTree key sort mk recv (s, length l, id) = Done A /\ (forall b, okB b -> isOverlappedTop A 1 b = Done (isOv b)) /\ reaches l isOv.
    Proof using HO Hsort Hmk.
      clear W HD Hlim n num D doms t limit sites g. intros Hne Hfew Hkey Hrd. unfold runTree.
      assert (K : forall m a l', (forall e, In e l' -> keyed e) -> length l' = m -> (forall k e, nth_error l' k = Some e -> nth_error recv (a + k) = Some e) ->
        exists zs, omap (fun ip => do e <- mread recv ip; do k <- key (s_pos (i_site e)); Done (k, ip)) (seq a m) = Done (combine zs (seq a m)) /\ length zs = m /\ forall z, In z zs -> (0 <= z < 8 ^ 21)%Z).
      { clear. induction m as [|m IH]; intros a l' Hk Hl Hr; [exists []; split; [reflexivity|]; split; [reflexivity|intros z []]|]. destruct l' as [|e l']; [discriminate|]. cbn [seq omap].
        assert (R1 := Hr 0 e eq_refl). rewrite Nat.add_0_r in R1. unfold mread at 1. rewrite R1. cbn [obind]. destruct (Hk e (or_introl eq_refl)) as ((z & Z1 & Z2) & _). rewrite Z1. cbn [obind].
        destruct (IH (S a) l') as (zs & E & L & B); [intros; apply Hk; now right|cbn in Hl; lia|intros k e' He; replace (S a + k) with (a + S k) by lia; apply Hr; exact He|].
        rewrite E. cbn [obind]. exists (z :: zs). split; [reflexivity|]. split; [cbn; lia|]. intros z' [<-|Hz]; [exact Z2|apply B; exact Hz]. }
      destruct (K (length l) s l Hkey eq_refl Hrd) as (zs & E & Lz & Bz). rewrite E. cbn [obind]. set (tp := combine zs (seq s (length l))). destruct (Hsort tp) as (SP & SS).
      assert (Ltp : length (sort tp) = length l) by (rewrite (Permutation_length SP); unfold tp; rewrite combine_length, seq_length, Lz; lia).
      assert (Hsnd : forall p, In p (sort tp) -> s <= snd p < s + length l). { intros p Hp. apply (Permutation_in _ SP) in Hp. destruct p as [z i]. apply in_combine_r in Hp. apply in_seq in Hp. exact Hp. }
      assert (Hfst : forall z, In z (map fst (sort tp)) -> (0 <= z < 8 ^ 21)%Z). { intros z Hz. apply in_map_iff in Hz. destruct Hz as ([z' i] & <- & Hp). apply (Permutation_in _ SP) in Hp. apply in_combine_l in Hp. apply Bz. exact Hp. }
      assert (Hat : forall i, s <= i < s + length l -> exists e, In e l /\ nth_error l (i - s) = Some e /\ nth_error recv i = Some e).
      { intros i Hi. destruct (nth_error l (i - s)) as [e|] eqn:Ee; [|apply nth_error_None in Ee; lia]. exists e. split; [apply nth_error_In in Ee; exact Ee|]. split; [reflexivity|]. replace i with (s + (i - s)) by lia. apply Hrd. exact Ee. }
      assert (EP : forall q : list (Z * nat), (forall p, In p q -> s <= snd p < s + length l) -> exists es, omap (fun ka => do e <- mread recv (snd ka); Done (i_site e)) q = Done (map i_site es) /\ length es = length q /\ (forall e, In e es -> In e l) /\ (forall i e, In i (map snd q) -> nth_error recv i = Some e -> In e es)).
      { clear - Hat. induction q as [|p q IH]; intros Hq; [exists []; split; [reflexivity|]; split; [reflexivity|]; split; [intros ? []|intros ? ? []]|]. destruct IH as (es & E & L & M1 & M2); [intros; apply Hq; now right|]. destruct (Hat (snd p) (Hq p (or_introl eq_refl))) as (e & I1 & _ & I2).
        cbn [omap]. unfold mread at 1. rewrite I2. cbn [obind]. rewrite E. cbn [obind]. exists (e :: es). split; [reflexivity|]. split; [cbn; lia|]. split; [intros e' [<-|He]; auto|]. intros i e' [<-|Hi] He; [left; congruence|right; apply (M2 i); assumption]. }
      destruct (EP (sort tp) Hsnd) as (es & E2 & L2 & M1 & M2). rewrite E2. cbn [obind].
      destruct (Hmk (map fst (sort tp)) (map i_site es)) as (A & gA & EA & WA).
      { apply sorted_fits; [exact SS|exact Hfst|rewrite map_length, Ltp; exact Hfew]. }
      { rewrite !map_length. exact L2. }
      { intros x Hx. apply in_map_iff in Hx. destruct Hx as (e & <- & He). apply (Hkey e (M1 e He)). now left. }
      rewrite EA. exists A, (fun b => existsb (fun k => overlapsBox (v_out (gA k)) b) (zrange 0 (Z.of_nat (length (map i_site es))))). split; [reflexivity|].
      assert (Les : length es = length l) by lia.
      split; [intros b Hb; apply (isOverlappedTop_ok ok val HO 1 A (map i_site es) gA); [lia|exact WA|exact Hb|]; rewrite map_length, Les; destruct l; [congruence|cbn [length]; lia]|]. split.
      - intros b b' Hb Hb' Hbb Hx. apply existsb_exists in Hx. destruct Hx as (k & Hk & Hx). apply existsb_exists. exists k. split; [exact Hk|]. apply zrange_in in Hk. destruct (walked_sub ok val 1 A (map i_site es) gA WA k Hk) as (_ & (O1 & _)). apply (overlapsBox_mono ok val HO _ b b'); assumption.
      - intros e b He Hb Hx. assert (Hes : In e es).
        { destruct (In_nth_error _ _ He) as (k & Hk). apply (M2 (s + k)); [|apply Hrd; exact Hk].
          apply (Permutation_in _ (Permutation_sym (Permutation_map snd SP))). unfold tp. assert (Es : map snd (combine zs (seq s (length l))) = seq s (length l)) by (clear - Lz; revert zs s Lz; induction (length l) as [|m IH]; intros zs s Hz; destruct zs; cbn in *; try discriminate; [reflexivity|]; f_equal; apply IH; lia).
          rewrite Es. apply in_seq. assert (k < length l) by (apply nth_error_Some; congruence). lia. }
        apply In_nth_error in Hes. destruct Hes as (k & Hk). assert (Hkl : k < length es) by (apply nth_error_Some; congruence).
        apply existsb_exists. exists (Z.of_nat k). split; [apply zrange_in; rewrite map_length; lia|].
        destruct WA as (SA & HH & _). destruct (HH (Z.of_nat k) (i_site e)) as (B1 & _); [rewrite map_length; lia|split; [lia|rewrite Nat2Z.id, nth_error_map, Hk; reflexivity]|].
        destruct (skel_sub ok val _ _ _ _ _ _ _ _ SA (Z.of_nat k)) as (_ & (O1 & _)); [rewrite map_length; lia|]. rewrite overlapsBox_sym in *.
        assert (Oe : okB (ball (i_site e))) by (destruct (Hkey e He) as (_ & U); destruct (U (i_site e) (or_introl eq_refl)) as (_ & U' & _); intros c Hc; destruct (U' c Hc) as (? & ? & _); auto).
        apply (overlapsBox_mono ok val HO b (ball (i_site e))); assumption.
    Qed.

    (** what a run makes the rank send *)
    Definition answers (i : nat) (q : vec Z * list (item N P)) (a : vec N * list Z) : Prop :=
      fst a = imageShift (fullLength root) (fst q) /\ exists isOv, reaches (snd q) isOv /\
      snd a = filter (fun k => negb (overlapsBox (shiftBox (D i) (fst a)) (v_out (g k))) && ((num <=? limit)%Z || isOv (v_in (g k)))) (zrange 0 num).

    Lemma answer_runs i recv : i < n -> forall b s, (forall q, In q b -> snd q <> []) -> (forall q e, In q b -> In e (snd q) -> keyed e) -> (forall q, In q b -> few (length (snd q))) -> (forall q, In q b -> okB (shiftBox (D i) (imageShift (fullLength root) (fst q)))) ->
      (forall k e, nth_error (concat (map snd b)) k = Some e -> nth_error recv (s + k) = Some e) ->
      exists w, Forall2 (answers i) b w /\ forall shifts adr per,
        ofold (fun (st : list (vec N) * list Z * list nat) run =>
                     let '(shifts, adr, per) := st in
                     let shift := imageShift (fullLength root) (snd run) in
                     do A <- runTree key sort mk recv run;
                     do adr' <- doubleWalkTop A t limit (shiftBox (D i) shift) adr;
                     Done (shifts ++ [shift], adr', per ++ [length adr' - length adr])) (runsOf s b) (shifts, adr, per)
        = Done (shifts ++ map fst w, adr ++ adrs w, per ++ map (fun q => length (snd q)) w).
    Proof using HO W Hsort Hmk.
      intros Hi. induction b as [|[id l] b IH]; intros s Hne Hkey Hfew HB Hrd; [exists []; split; [constructor|]; intros; cbn; rewrite !app_nil_r; reflexivity|].
      destruct (IH (s + length l)) as (w & Fw & Ew).
      { intros q Hq. apply Hne. now right. } { intros q e Hq. apply Hkey. now right. } { intros q Hq. apply Hfew. now right. } { intros q Hq. apply HB. now right. }
      { intros k e Hk. rewrite <- Nat.add_assoc. apply Hrd. cbn [map snd concat]. rewrite nth_error_app2 by lia. replace (length l + k - length l) with k by lia. exact Hk. }
      destruct (runTree_ok recv s id l) as (A & isOv & EA & OA & RA).
      { apply (Hne (id, l)). now left. } { apply (Hfew (id, l)). now left. } { intros e He. apply (Hkey (id, l)); [now left|exact He]. }
      { intros k e Hk. apply Hrd. cbn [map snd concat]. rewrite nth_error_app1; [exact Hk|]. apply nth_error_Some. congruence. }
      set (shift := imageShift (fullLength root) id).
      set (sel := filter (fun k => negb (overlapsBox (shiftBox (D i) shift) (v_out (g k))) && ((num <=? limit)%Z || isOv (v_in (g k)))) (zrange 0 num)).
      exists ((shift, sel) :: w). split; [constructor; [|exact Fw]; split; [reflexivity|]; exists isOv; split; [exact RA|reflexivity]|].
      intros shifts adr per. cbn [runsOf ofold fst snd]. fold shift. rewrite EA. cbn [obind].
      rewrite (doubleWalkTop_ok ok val HO limit t sites g W A isOv (shiftBox (D i) shift) adr); [|apply (HB (id, l)); now left|exact OA|apply RA]. cbn [obind]. fold num. fold sel.
      rewrite Ew. assert (EA' : adrs ((shift, sel) :: w) = sel ++ adrs w) by reflexivity. rewrite EA', app_length. replace (length adr + length sel - length adr) with (length sel) by lia. cbn [map fst snd]. rewrite <- !app_assoc. reflexivity.
    Qed.

    (** the batches received *)
    Context (batches : nat -> batch) (nSrc : list nat) (recv : list (item N P)).
    Hypothesis HnSrc : nSrc = map (fun i => length (concat (map snd (batches i)))) (seq 0 n).
    Hypothesis Hrecv : recv = concat (map (fun i => concat (map snd (batches i))) (seq 0 n)).
    Hypothesis Hrec : forall i, i < n -> recognised (batches i) /\ NoDup (map fst (batches i)) /\ ~ In sentinel (map fst (full (batches i))).
    Hypothesis Hok : forall i q, i < n -> In q (full (batches i)) -> (forall e, In e (snd q) -> keyed e) /\ few (length (snd q)) /\ okB (shiftBox (D i) (imageShift (fullLength root) (fst q))).

    Lemma doubleRank_ok i : i < n -> exists w, Forall2 (answers i) (full (batches i)) w /\ forall (work : nat -> parcel) ranks a b, work i = w -> length a = n -> length b = n ->
      doubleRank key sort mk fuel pa root doms t limit nSrc recv (bufOf work ranks, (a, b)) i = Done (bufOf work (ranks ++ [i]), (put i [length (work i)] a, put i [length (adrs (work i))] b)).
    Proof using HO W Hsort Hmk HD HnSrc Hrecv Hrec Hok.
      intros Hi. destruct (Hrec i Hi) as (R1 & R2 & R3). set (blocks := map (fun i => concat (map snd (batches i))) (seq 0 n)).
      assert (Eb : nth_error blocks i = Some (concat (map snd (batches i)))) by (apply (nth_error_map_seq (fun i => concat (map snd (batches i)))); exact Hi).
      assert (El : map (@length _) blocks = nSrc) by (rewrite HnSrc; unfold blocks; apply map_map).
      set (head := sum_list (firstn i nSrc)).
      assert (Hrd : forall k e, nth_error (concat (map snd (full (batches i)))) k = Some e -> nth_error recv (head + k) = Some e).
      { intros k e Hk. rewrite full_concat in Hk. pose proof (slice_concat _ _ _ Eb) as Sl. rewrite <- firstn_map, El in Sl. fold head in Sl. rewrite <- Sl in Hk. unfold slice in Hk. rewrite Hrecv. fold blocks.
        set (m := length (concat (map snd (batches i)))) in *. clearbody m. clear - Hk.
        assert (X : nth_error (skipn head (concat blocks)) k = Some e). { rewrite <- (firstn_skipn m (skipn head (concat blocks))). rewrite nth_error_app1; [exact Hk|]. apply nth_error_Some. congruence. }
        destruct (Nat.le_gt_cases head (length (concat blocks))) as [L|L]; [|rewrite skipn_all2 in X by lia; destruct k; discriminate].
        rewrite <- (firstn_skipn head (concat blocks)). rewrite nth_error_app2; rewrite firstn_length, Nat.min_l by lia; [|lia]. replace (head + k - head) with k by lia. exact X. }
      destruct (answer_runs i recv Hi (full (batches i)) head) as (w & Fw & Ew).
      { intros q Hq. apply full_in in Hq. tauto. } { intros q e Hq. apply (Hok i q Hi Hq). } { intros q Hq. apply (Hok i q Hi Hq). } { intros q Hq. apply (Hok i q Hi Hq). } { exact Hrd. }
      exists w. split; [exact Fw|]. intros work ranks a b Ewk La Lb. unfold doubleRank.
      assert (Ln : length nSrc = n) by (rewrite HnSrc, map_length, seq_length; reflexivity).
      rewrite mread_psum by lia. cbn [obind]. rewrite mread_psum by lia. cbn [obind].
      assert (En : nth_error nSrc i = Some (length (concat (map snd (batches i))))) by (rewrite HnSrc; apply (nth_error_map_seq (fun i => length (concat (map snd (batches i))))); exact Hi).
      rewrite (sum_firstn_S _ _ _ En). fold head. replace (head + length (concat (map snd (batches i))) - head) with (length (concat (map snd (full (batches i))))) by (rewrite full_concat; lia).
      destruct (runs_ok recv (full (batches i)) head [] sentinel) as (new & E).
      { intros q Hq. apply full_in in Hq. tauto. } { apply full_nodup. exact R2. } { exact R3. } { intros id l e Hin. apply R1. apply full_in in Hin. tauto. } { exact Hrd. }
      fold sentinel. rewrite E. cbn [obind fst app]. assert (Lr : forall (b : batch) s, length (runsOf s b) = length b) by (clear; induction b as [|q b IH]; intros s; [reflexivity|]; cbn [runsOf length]; rewrite IH; reflexivity). rewrite Lr.
      rewrite mwrite_put by lia. cbn [obind]. unfold mread. rewrite (HD i Hi). cbn [obind]. rewrite Ew. cbn [obind].
      rewrite app_length. replace (length (b_adr (bufOf work ranks)) + length (adrs w) - length (b_adr (bufOf work ranks))) with (length (adrs w)) by lia. rewrite mwrite_put by lia. cbn [obind].
      rewrite bufOf_snoc, Ewk. replace (length (full (batches i))) with (length w) by (clear - Fw; induction Fw; cbn; congruence). reflexivity.
    Qed.

    Lemma findDouble_ok jv jn jz deal : (forall l, Permutation (concat (deal l)) l) ->
      exists work, (forall i, i < n -> Forall2 (answers i) (full (batches i)) (work i)) /\
      findDouble jv jn jz deal key sort mk fuel pa root doms t limit nSrc recv = Done (tableOf (map work (seq 0 n))).
    Proof using HO W Hsort Hmk HD HnSrc Hrecv Hrec Hok.
      intros HP.
      assert (C : forall m, m <= n -> exists work : nat -> parcel, forall i, i < m -> Forall2 (answers i) (full (batches i)) (work i) /\ forall (work' : nat -> parcel) ranks a b, work' i = work i -> length a = n -> length b = n ->
        doubleRank key sort mk fuel pa root doms t limit nSrc recv (bufOf work' ranks, (a, b)) i = Done (bufOf work' (ranks ++ [i]), (put i [length (work' i)] a, put i [length (adrs (work' i))] b))).
      { induction m as [|m IH]; intros Hm; [exists (fun _ => []); intros; lia|]. destruct IH as (work & Hw); [lia|]. destruct (doubleRank_ok m ltac:(lia)) as (w & W1 & W2). exists (fun i => if i =? m then w else work i). intros i Him. destruct (Nat.eqb_spec i m) as [->|Hne].
        - split; [exact W1|]. intros work' ranks a b E. apply W2. exact E.
        - apply Hw. lia. }
      destruct (C n (le_n n)) as (work & Hw). exists work. split; [intros i Hi; apply (Hw i Hi)|]. unfold findDouble. fold n. set (src := filter _ _).
      assert (Hsrc : forall r, In r (concat (deal src)) <-> r < n /\ length (concat (map snd (batches r))) <> 0).
      { intros r. assert (Pm := HP src). split.
        - intros H. apply (Permutation_in _ Pm) in H. apply filter_In in H. destruct H as (H1 & H2). apply in_seq in H1. split; [lia|]. apply Nat.ltb_lt in H2. rewrite HnSrc in H2. rewrite (nth_error_nth _ _ _ (nth_error_map_seq (fun i => length (concat (map snd (batches i)))) n r ltac:(lia))) in H2. lia.
        - intros (H1 & H2). apply (Permutation_in _ (Permutation_sym Pm)). apply filter_In. split; [apply in_seq; lia|]. apply Nat.ltb_lt. rewrite HnSrc. rewrite (nth_error_nth _ _ _ (nth_error_map_seq (fun i => length (concat (map snd (batches i)))) n r ltac:(lia))). lia. }
      assert (Hnil : forall r, r < n -> ~ In r (concat (deal src)) -> work r = []).
      { intros r Hr Hn. assert (length (concat (map snd (batches r))) = 0) by (destruct (Nat.eq_dec (length (concat (map snd (batches r)))) 0); [assumption|exfalso; apply Hn, Hsrc; auto]).
        destruct (Hw r Hr) as (F & _). assert (full (batches r) = []). { destruct (full (batches r)) as [|q b] eqn:Ef; [reflexivity|]. exfalso. assert (In q (full (batches r))) by (rewrite Ef; now left). apply full_in in H0. rewrite <- full_concat, Ef in H. cbn [map concat] in H. rewrite app_length in H. destruct H0 as (_ & H0). destruct (snd q); [congruence|cbn in H; lia]. }
        rewrite H0 in F. inversion F. reflexivity. }
      rewrite (deal_ok work n).
      - cbn [obind]. apply assemble_ok.
        + intros ranks r H1 H2. apply (Hsrc r). apply in_concat. exists ranks. auto.
        + intros r Hr Hne. destruct (in_dec Nat.eq_dec r (concat (deal src))); [assumption|]. exfalso. apply Hne, Hnil; assumption.
      - intros ranks i a b Hi La Lb _. apply (Hw i Hi); [reflexivity|exact La|exact Lb].
      - apply (Permutation_NoDup (Permutation_sym (HP src))). apply NoDup_filter, seq_NoDup.
      - intros r Hr. apply Hsrc in Hr. tauto.
      - cbn [fst]. apply repeat_length.
      - cbn [snd]. apply repeat_length.
      - intros r Hr Hn. split; [apply Hnil; assumption|]. cbn [fst snd]. split; apply nth_error_repeat; exact Hr.
    Qed.
  End Double.
End Find.
