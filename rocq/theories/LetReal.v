(** The exchange of LetModel with exact numbers. *)
From Coq Require Import List Arith ZArith Lia Bool Permutation Reals Lra Sorted.
From Verif Require Import Outcome ListUtil Arith ParticleModel VecModel DomainModel MPIModel MPIProofs TreeModel TreeSpec TreeProofs TreeLink TreeMoment TreeLists TreeSearch LetModel LetArrays LetTable LetSend LetWalk LetSpec LetImages LetFind LetProofs.
Import ListNotations.
Local Open Scope R_scope.

Notation id := (fun x : R_arith => x).

Lemma within a b c r : 0 <= r -> a ^ 2 + b ^ 2 + c ^ 2 <= r ^ 2 -> - r <= a <= r /\ - r <= b <= r /\ - r <= c <= r.
Proof. intros Hr H. assert (X : forall u, u ^ 2 <= r ^ 2 -> - r <= u <= r) by (intros u Hu; split; nra). pose proof (pow2_ge_0 a). pose proof (pow2_ge_0 b). pose proof (pow2_ge_0 c). repeat split; try (apply X; lra). Qed.

Lemma fits_more limit keys : (1 <= limit)%Z -> fits 1 keys -> fits limit keys.
Proof.
  intros Hl (F1 & F2 & F3). split; [exact F1|]. split; [exact F2|]. assert (Z.of_nat (length keys) / (limit + 1) <= Z.of_nat (length keys) / (1 + 1))%Z by (apply Z.div_le_compat_l; lia). lia.
Qed.

Lemma own_walked {N : arith} (ok : N -> Prop) (val : N -> R) (HO : ordered N ok val) {P} limit (own : list (item N P)) t : (1 <= limit)%Z -> own_tree ok val limit own t ->
  few (length own) /\ exists g, walked ok val limit t (map i_site own) g.
Proof.
  intros Hl (U & junk & jm & sched & sched' & keys & tc & part & H1 & H2 & H3 & H4 & H5 & H6).
  split; [destruct H4 as (_ & _ & H4); unfold few; rewrite H5; exact H4|].
  destruct (built_walked ok val HO junk jm sched sched' keys (map i_site own) limit tc part H1 H2 (fits_more limit keys Hl H4)) as (t' & g & E & W); [rewrite map_length; exact H5|exact H3|exact Hl|exact U|].
  exists g. rewrite H6 in E. injection E as <-. exact W.
Qed.
Lemma chance_trees {N : arith} (ok : N -> Prop) (val : N -> R) (HO : ordered N ok val) {P} n (c : chance N P) : any_chance n c ->
  forall keys eps, fits 1 keys -> length eps = length keys -> usable ok val eps -> exists A gA, c_tree c keys eps = Done A /\ walked ok val 1 A eps gA.
Proof.
  intros (_ & _ & _ & _ & _ & _ & H) keys eps F L U. destruct (H keys eps) as (junk & jm & sched & sched' & tc & part & H1 & H2 & H3 & H4).
  destruct (built_walked ok val HO junk jm sched sched' keys eps 1 tc part H1 H2 F L H3 ltac:(lia) U) as (t & g & E & W). exists t, g. rewrite H4. auto.
Qed.

Section Reals.
  Context {P : Type} (ch : nat -> chance R_arith P) (key : vec R -> outcome Z) (pa : vec bool) (root : ort R) (doms : list (ort R)) (E : list (list (item R_arith P))) (trees : list (list cell * list (moment R_arith))) (limit : Z).
  Let n := length doms.
  Hypothesis HL : periodic_box pa root.
  Hypothesis HT : forall d, In d doms -> domain_in pa root d.
  Hypothesis LE : length E = n.
  Hypothesis LT : length trees = n.
  Hypothesis Hlim : (1 <= limit)%Z.
  Hypothesis HH : homes root doms E.
  Hypothesis HO : forall r own t, nth_error E r = Some own -> nth_error trees r = Some t -> own_tree all_ok id limit own t.
  Hypothesis HC : forall r, any_chance n (ch r).
  Hypothesis HR : reachable pa root key doms E.

  Let D (i : nat) : ort R := nth i doms (Ort (Vec 0 0 0) (Vec 0 0 0)).
  Let own (i : nat) := nth i E [].
  Let T (i : nat) := nth i trees ([], []).
  Notation okR := (fun c _ => conj I I).

  Lemma D_at i : (i < n)%nat -> nth_error doms i = Some (D i). Proof using. apply nth_error_nth'. Qed.
  Lemma own_at i : (i < n)%nat -> nth_error E i = Some (own i). Proof using LE. intros H. apply nth_error_nth'. rewrite LE. exact H. Qed.
  Lemma T_at i : (i < n)%nat -> nth_error trees i = Some (T i). Proof using LT. intros H. apply nth_error_nth'. rewrite LT. exact H. Qed.
  Lemma own_home s e : (s < n)%nat -> In e (own s) -> inside (D s) (s_pos (i_site e)) /\ inside root (s_pos (i_site e)).
  Proof using LE HH. intros Hs He. apply (HH s (own s) (D s)); [apply own_at; exact Hs|apply D_at; exact Hs|exact He]. Qed.
  Lemma own_rad s e : (s < n)%nat -> In e (own s) -> 0 <= s_rad (i_site e).
  Proof using LE LT HO. intros Hs He. destruct (HO s (own s) (T s) (own_at s Hs) (T_at s Hs)) as (U & _). destruct (U (i_site e)) as (_ & _ & _ & H); [apply in_map; exact He|exact H]. Qed.

  Section Walked.
    Context (G : nat -> Z -> moment R_arith).
    Hypothesis W : forall s, (s < n)%nat -> walked all_ok id limit (T s) (map i_site (own s)) (G s).
    Let O (s : nat) : ort R := v_out (mo (snd (T s)) 0).

    Lemma out_hull s : (s < n)%nat -> own s <> [] -> @hull R_arith all_ok id (map (fun e => ball (i_site e)) (own s)) (O s).
    Proof using W LE LT HO HH. intros Hs Hne. destruct (W s Hs) as (_ & _ & _ & _ & H). rewrite map_length in H. rewrite <- map_map. apply H. destruct (own s); [congruence|cbn [length]; lia]. Qed.
    Lemma out_empty s : (s < n)%nat -> own s = [] -> O s = @emptyBox R_arith.
    Proof using W LE LT HO HH. intros Hs Hne. destruct (W s Hs) as (_ & _ & _ & H & _). unfold O. rewrite H; [reflexivity|]. rewrite Hne. reflexivity. Qed.
    Lemma out_point s e : (s < n)%nat -> In e (own s) -> inBox (O s) (s_pos (i_site e)).
    Proof using W LE LT HO HH.
      intros Hs He c Hc. destruct (out_hull s Hs) as (_ & H & _); [intros X; rewrite X in He; destruct He|]. specialize (H (ball (i_site e))). pose proof (own_rad s e Hs He) as Hr.
      destruct (H (in_map (fun e => ball (i_site e)) _ _ He) c Hc) as (H1 & H2). clear - Hc H1 H2 Hr.
      set (r := s_rad (i_site e) : R) in *. set (p := s_pos (i_site e) : vec R) in *. destruct Hc as [<-|[<-|[<-|[]]]]; cbn [ball olow ohigh vx vy vz] in H1, H2;
      [change (vx (olow (O s)) <= vx p - r) in H1; change (vx p + r <= vx (ohigh (O s))) in H2|change (vy (olow (O s)) <= vy p - r) in H1; change (vy p + r <= vy (ohigh (O s))) in H2|change (vz (olow (O s)) <= vz p - r) in H1; change (vz p + r <= vz (ohigh (O s))) in H2]; lra.
    Qed.
    Lemma out_holding s : (s < n)%nat -> holding root (O s).
    Proof using W LE LT HO HH.
      intros Hs. destruct (own s) as [|e l] eqn:Eo; [right; apply out_empty; assumption|]. left. assert (He : In e (own s)) by (rewrite Eo; now left). exists (s_pos (i_site e)). split; [apply (own_home s e Hs He)|apply out_point; assumption].
    Qed.
    Lemma leaf_meets s r j k : (s < n)%nat -> (r < n)%nat -> (0 <= j < Z.of_nat (length (own s)))%Z -> @overlapsBox R_arith (@shiftBox R_arith (D r) (at_shift root k)) (v_out (G s j)) = true -> meets root (O s) (D r) k.
    Proof using W LE LT HO HH.
      intros Hs Hr Hj H. apply overlaps_meets. rewrite overlapsBox_sym. destruct (walked_sub all_ok id limit (T s) (map i_site (own s)) (G s) (W s Hs) j) as ((S1 & _) & (O1 & _)); [rewrite map_length; exact Hj|].
      refine (overlapsBox_mono all_ok id reals_ordered _ (v_out (G s j)) _ _ _ _ S1 H); intros c _; split; exact I.
    Qed.
    Lemma leaf_hits s r j k : (s < n)%nat -> (r < n)%nat -> (0 <= j < Z.of_nat (length (own s)))%Z -> @overlapsBox R_arith (@shiftBox R_arith (D r) (at_shift root k)) (v_out (G s j)) = true -> hits root (own s) (D r) k.
    Proof using W LE LT HO HH. intros Hs Hr Hj H. exists (O s). split; [apply out_hull; [exact Hs|intros X; rewrite X in Hj; cbn in Hj; lia]|]. apply (leaf_meets s r j); assumption. Qed.

    Lemma sees_leaf s r i j e f k : (s < n)%nat -> (r < n)%nat -> at_ (own r) i e -> at_ (own s) j f -> @sees R_arith id tight (i_site e) (i_site (image root k f)) ->
      @overlapsBox R_arith (@shiftBox R_arith (D r) (at_shift root k)) (v_out (G s j)) = true \/
      (@overlapsBox R_arith (@shiftBox R_arith (D s) (at_shift root (neg k))) (v_out (G r i)) = true /\ @overlapsBox R_arith (ball (i_site (moved e (at_shift root (neg k))))) (v_in (G s j)) = true).
    Proof using W LE LT HO HH.
      intros Hs Hr He Hf Hse.
      assert (Ie : In e (own r)) by (destruct He as (_ & He); apply nth_error_In in He; exact He). assert (If : In f (own s)) by (destruct Hf as (_ & Hf); apply nth_error_In in Hf; exact Hf).
      destruct (own_home r e Hr Ie) as (He1 & _). destruct (own_home s f Hs If) as (Hf1 & _). pose proof (own_rad r e Hr Ie) as Re. pose proof (own_rad s f Hs If) as Rf.
      assert (Bi : (0 <= i < Z.of_nat (length (own r)))%Z) by (destruct He as (He0 & He); assert ((Z.to_nat i < length (own r))%nat) by (apply nth_error_Some; congruence); lia).
      assert (Bj : (0 <= j < Z.of_nat (length (own s)))%Z) by (destruct Hf as (Hf0 & Hf); assert ((Z.to_nat j < length (own s))%nat) by (apply nth_error_Some; congruence); lia).
      destruct (W r Hr) as (_ & Wr & _), (W s Hs) as (_ & Ws & _). rewrite map_length in Wr, Ws.
      destruct (Wr i (i_site e)) as (Er & _); [lia|destruct He as (He0 & He); split; [exact He0|rewrite nth_error_map, He; reflexivity]|].
      destruct (Ws j (i_site f)) as (Fo & Fi); [lia|destruct Hf as (Hf0 & Hf); split; [exact Hf0|rewrite nth_error_map, Hf; reflexivity]|].
      clear Wr Ws He Hf Ie If. destruct e as [[pe re] ye], f as [[pf rf] yf]. cbn [i_site s_pos s_rad image moved ball point] in *.
      rewrite !(overlapsBox_iff all_ok id reals_ordered) by (intros c _; split; exact I).
      unfold sees, apart, tight in Hse. cbn [s_pos s_rad away vx vy vz] in Hse.
      destruct Hse as [Hse|Hse]; [right|left].
      - destruct (within _ _ _ _ Re Hse) as (Ax & Ay & Az). split.
        + intros c [<-|[<-|[<-|[]]]].
          * specialize (Er vx ltac:(cbn; auto)). specialize (Hf1 vx ltac:(cbn; auto)). cbn in *. rewrite opp_IZR. unfold edge in *. lra.
          * specialize (Er vy ltac:(cbn; auto)). specialize (Hf1 vy ltac:(cbn; auto)). cbn in *. rewrite opp_IZR. unfold edge in *. lra.
          * specialize (Er vz ltac:(cbn; auto)). specialize (Hf1 vz ltac:(cbn; auto)). cbn in *. rewrite opp_IZR. unfold edge in *. lra.
        + intros c [<-|[<-|[<-|[]]]].
          * specialize (Fi vx ltac:(cbn; auto)). cbn in *. rewrite opp_IZR. unfold edge in *. lra.
          * specialize (Fi vy ltac:(cbn; auto)). cbn in *. rewrite opp_IZR. unfold edge in *. lra.
          * specialize (Fi vz ltac:(cbn; auto)). cbn in *. rewrite opp_IZR. unfold edge in *. lra.
      - destruct (within _ _ _ _ Rf Hse) as (Ax & Ay & Az). intros c [<-|[<-|[<-|[]]]].
        + specialize (Fo vx ltac:(cbn; auto)). specialize (He1 vx ltac:(cbn; auto)). cbn in *. unfold edge in *. lra.
        + specialize (Fo vy ltac:(cbn; auto)). specialize (He1 vy ltac:(cbn; auto)). cbn in *. unfold edge in *. lra.
        + specialize (Fo vz ltac:(cbn; auto)). specialize (He1 vz ltac:(cbn; auto)). cbn in *. unfold edge in *. lra.
    Qed.
  End Walked.

  Theorem let_delivers : exists F, forall fuel, (F <= fuel)%nat -> exists out,
    @exchangeLet R_arith P ch key fuel pa root doms E trees limit = Done out /\ length out = n /\ forall r o, nth_error out r = Some o -> delivers id tight pa (image root) E (needed root doms E r) r o.
  Proof using HL HT LE LT Hlim HH HO HC HR.
    destruct (pick (fun _ => @initMoment R_arith) n (fun s g => few (length (own s)) /\ walked all_ok id limit (T s) (map i_site (own s)) g)) as (G & HG).
    { intros s Hs. destruct (own_walked all_ok id reals_ordered limit (own s) (T s) Hlim (HO s _ _ (own_at s Hs) (T_at s Hs))) as (F & g & W). exists g. auto. }
    assert (W : forall s, (s < n)%nat -> walked all_ok id limit (T s) (map i_site (own s)) (G s)) by (intros s Hs; apply HG; exact Hs).
    assert (Few : forall s, (s < n)%nat -> few (length (own s))) by (intros s Hs; apply HG; exact Hs). clear HG.
    set (O := fun s => v_out (mo (snd (T s)) 0) : ort R).
    set (good := fun s r (FK : nat * list (vec Z)) => let (F, ks) := FK in
      (forall fuel acc, (F <= fuel)%nat -> @imageShifts R_arith fuel pa (@fullLength R_arith root) (O s) (D r) acc = Done (acc ++ map (@imageShift R_arith (@fullLength R_arith root)) ks)) /\ NoDup ks /\
      (forall k, In k ks -> lattice pa k /\ ((vx pa || vy pa || vz pa)%bool = true -> meets root (O s) (D r) k)) /\
      (forall k, lattice pa k -> meets root (O s) (D r) k -> In k ks) /\ (meets root (O s) (D r) origin -> exists ks', ks = origin :: ks') /\ (forall k, In k ks -> (Z.to_nat (norm (neg k)) < F)%nat)).
    assert (Hin : forall r, (r < n)%nat -> In (D r) doms) by (intros r Hr; apply nth_In; exact Hr).
    destruct (pick (fun _ => (0%nat, [])) n (fun s f => forall r, (r < n)%nat -> good s r (f r))) as (FK & HFK).
    { intros s Hs. apply (pick (0%nat, []) n (good s)). intros r Hr. destruct (images_ok pa root (O s) (D r) HL (HT _ (Hin r Hr)) (out_holding G W s Hs)) as (F & ks & I1 & I2 & I3 & I4 & I5).
      assert (B : exists m, forall k, In k ks -> (Z.to_nat (norm (neg k)) < m)%nat).
      { clear. induction ks as [|k ks (m & H)]; [exists 0%nat; intros k []|]. exists (m + S (Z.to_nat (norm (neg k))))%nat. intros k' [<-|Hk]; [lia|]. specialize (H k' Hk). lia. }
      destruct B as (m & Hm). exists ((F + m)%nat, ks). unfold good. split; [intros fuel acc Hf; apply I1; lia|]. split; [exact I2|]. split; [exact I3|]. split; [exact I4|]. split; [exact I5|]. intros k Hk. specialize (Hm k Hk). lia. }
    set (ks := fun s r => snd (FK s r)).
    destruct (pick 0%nat n (fun s m => forall r, (r < n)%nat -> (fst (FK s r) <= m)%nat)) as (M & HM); [intros s Hs; apply bounded|].
    destruct (bounded n M) as (F & HF). exists F. intros fuel Hfuel.
    assert (A : forall s r, (s < n)%nat -> (r < n)%nat -> good s r (fst (FK s r), ks s r) /\ (fst (FK s r) <= fuel)%nat).
    { intros s r Hs Hr. split; [unfold ks; rewrite <- surjective_pairing; apply HFK; assumption|]. specialize (HM s Hs r Hr). specialize (HF s Hs). lia. }
    assert (Hhit : forall s r k a, (s < n)%nat -> (r < n)%nat -> lattice pa k -> In a (chosen root D own G s r k) -> hits root (own s) (D r) k).
    { intros s r k a Hs Hr Hk Ha. apply chosen_in in Ha. destruct Ha as (_ & Ha & Ho). apply (leaf_hits G W s r a); assumption. }
    assert (Hpt : forall s r k a, (s < n)%nat -> In a (chosen root D own G s r k) -> In (it ch own s a) (own s)).
    { intros s r k a Hs Ha. apply chosen_in in Ha. destruct Ha as (_ & Ha & _). destruct (it_read ch own s a Ha) as (_ & X). apply nth_error_In in X. exact X. }
    apply (exchange_delivers all_ok id reals_ordered ch key fuel pa root doms E trees limit D own T G ks).
    - exact D_at.
    - exact own_at.
    - exact LE.
    - exact T_at.
    - exact W.
    - intros s r acc Hs Hr. destruct (A s r Hs Hr) as ((I1 & _) & I2). apply I1. exact I2.
    - intros s r Hs Hr. destruct (A s r Hs Hr) as ((_ & I2 & _) & _). exact I2.
    - intros s Hs. destruct (A s s Hs Hs) as ((_ & I2 & I3 & _ & I5 & _) & _). destruct (own s) as [|e l] eqn:Eo.
      + destruct (vx pa || vy pa || vz pa)%bool eqn:Ep.
        * left. destruct (ks s s) as [|k l] eqn:Ek; [reflexivity|]. exfalso. destruct (I3 k (or_introl eq_refl)) as (_ & X). apply (empty_misses pa root (O s) (D s) HL (HT _ (Hin s Hs)) k (out_empty G W s Hs Eo) Ep). apply X. reflexivity.
        * apply orb_false_iff in Ep. destruct Ep as (Ep & Ez). apply orb_false_iff in Ep. destruct Ep as (Ex & Ey). destruct (ks s s) as [|k l] eqn:Ek; [left; reflexivity|]. right. exists l. destruct (I3 k (or_introl eq_refl)) as ((X & Y & Z) & _). f_equal. destruct k as [k1 k2 k3]. cbn [vx vy vz] in X, Y, Z. unfold origin. rewrite X, Y, Z by assumption. reflexivity.
      + right. apply I5. assert (He : In e (own s)) by (rewrite Eo; now left). pose proof (out_point G W s e Hs He) as X1. destruct (own_home s e Hs He) as (X2 & _). fold O in X1.
        assert (Z : forall c, In c coords -> c (olow (O s)) <= c (ohigh (D s)) + 0 * edge root c /\ c (olow (D s)) + 0 * edge root c <= c (ohigh (O s))) by (intros c Hc; specialize (X1 c Hc); specialize (X2 c Hc); fold (O s) in X1; lra).
        intros c i [X|[X|[X|[]]]]; injection X as <- <-; apply Z; cbn; auto.
    - intros s r k Hs Hr Hk c Hc. split; exact I.
    - intros s r k a Hs Hr Hk Ha. destruct (A s r Hs Hr) as ((_ & _ & I3 & _ & _ & I6) & I7). destruct (I3 k Hk) as (Lk & _).
      pose proof (imageId_ok pa root (s_pos (i_site (it ch own s a))) (neg k) HL (proj2 (own_home s _ Hs (Hpt s r k a Hs Ha))) (proj2 (lattice_neg pa k) Lk) fuel) as X.
      change (Vec (- vx (neg k)) (- vy (neg k)) (- vz (neg k)))%Z with (neg (neg k)) in X. rewrite neg_neg in X. apply X. specialize (I6 k Hk). lia.
    - intros s r k Hs Hr Hk Hne. destruct (A s r Hs Hr) as ((_ & _ & I3 & _) & _). destruct (I3 k Hk) as (Lk & _).
      assert (Hh : hits root (own s) (D r) k) by (destruct (chosen root D own G s r k) as [|a l] eqn:Ec; [congruence|]; apply (Hhit s r k a Hs Hr Lk); rewrite Ec; now left).
      destruct (HR (own s) (D r) k) as (R1 & R2); [apply nth_In; rewrite LE; exact Hs|apply Hin; exact Hr|exact Lk|exact Hh|].
      split; [intros X; apply R1; unfold sentinel, opposite in X; destruct k as [x y z]; cbn [vx vy vz] in X; injection X as X Y Z; f_equal; lia|]. split; [intros c Hc; split; exact I|]. split; [apply Few; exact Hs|].
      intros a Ha. destruct (R2 (it ch own s a) (Hpt s r k a Hs Ha)) as (K1 & K2). split; [exact K1|exact K2].
    - intros r. apply HC.
    - intros r. apply HC.
    - intros r. apply HC.
    - intros r. apply HC.
    - intros r. apply HC.
    - intros r. apply HC.
    - intros r. apply (chance_trees all_ok id reals_ordered n). apply HC.
    - intros s r k Hs Hr Hk. destruct (A s r Hs Hr) as ((_ & _ & I3 & _) & _). apply I3. exact Hk.
    - intros s k f Hs Hk Hf. reflexivity.
    - intros s r j k Hs Hr Hk Hj Ho. destruct (A s r Hs Hr) as ((_ & _ & _ & I4 & _) & _). apply I4; [exact Hk|]. apply (leaf_meets G W s r j); assumption.
    - intros s r i j e f k Hs Hr Hk He Hf Hse. apply (sees_leaf G W s r i j e f k); assumption.
    - intros s r k Hs Hr Hk Hne. destruct (A s r Hs Hr) as ((_ & _ & I3 & _) & _). destruct (I3 k Hk) as (Lk & _).
      assert (Hh : hits root (own s) (D r) k) by (destruct (chosen root D own G s r k) as [|a l] eqn:Ec; [congruence|]; apply (Hhit s r k a Hs Hr Lk); rewrite Ec; now left).
      split; [exists (D r), (D s), (own r), (own s)|exists (D s), (D r), (own s), (own r); rewrite neg_neg]; (split; [apply D_at; assumption|]); (split; [apply D_at; assumption|]); (split; [apply own_at; assumption|]); (split; [apply own_at; assumption|]); [left|right]; exact Hh.
  Qed.
End Reals.
