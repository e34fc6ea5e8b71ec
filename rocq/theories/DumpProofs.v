(** Proofs about dumpPoints. *)
From Coq Require Import List ZArith Reals Bool Lia Lra.
From Flocq Require Import Core BinarySingleNaN.
From Verif Require Import Outcome ListUtil F64 IndexModel IndexProofs AscModel AscSpec AscNum AscText AscMore PointsModel PointsProps DumpModel DumpSpec.
Import ListNotations.
Local Open Scope Z_scope.

(** * The text *)
Lemma fmtDigits_len f n : fmtDigits f n <> [] -> (1 <= length (fmtDigits f n))%nat.
Proof. destruct (fmtDigits f n); [contradiction|cbn; lia]. Qed.
Lemma fmtF6_len v : is_finite v = true -> (6 <= length (fmtF6 v))%nat.
Proof.
  destruct v as [s|s| |s m e H]; intros F; try discriminate F.
  - destruct s; cbn; lia.
  - unfold fmtF6. destruct (ratio m e) as [n d]. rewrite !app_length. cbn [length]. rewrite digitsN_length. lia.
Qed.
Lemma fmtW6_eq v : is_finite v = true -> fmtW6 v = fmtF6 v.
Proof. intros F. unfold fmtW6. pose proof (fmtF6_len v F). replace (6 - length (fmtF6 v))%nat with O by lia. reflexivity. Qed.
Lemma number v rest : moderate v -> stops rest -> exists v', readDouble (fmtW6 v ++ rest) = (Some v', true, rest) /\ readDouble (32 :: fmtW6 v ++ rest) = (Some v', true, rest) /\ near v v'.
Proof.
  intros (F & B) S. rewrite fmtW6_eq by exact F. destruct (time_ok v rest F B S) as (v' & E & N1 & N2). exists v'. split; [exact E|]. split; [exact E|]. split; assumption.
Qed.
Lemma stops32 r : stops (32 :: r). Proof. cbn. repeat split; try lia; reflexivity. Qed.
Lemma stops59 r : stops (59 :: r). Proof. cbn. repeat split; try lia; reflexivity. Qed.
Lemma numbers vs rest : Forall moderate vs -> exists vs', readNumbers (length vs) (flat_map (fun v => 32 :: fmtW6 v) vs ++ 32 :: rest) = Some (vs', 32 :: rest) /\ Forall2 near vs vs'.
Proof.
  induction vs as [|v vs IH]; intros F; [exists []; split; [reflexivity|constructor]|]. inversion F as [|? ? Fv Fr]; subst. destruct (IH Fr) as (vs' & E & N).
  cbn [length readNumbers flat_map]. rewrite <- app_assoc. cbn [app].
  assert (S : stops (flat_map (fun v => 32 :: fmtW6 v) vs ++ 32 :: rest)) by (destruct vs; apply stops32).
  destruct (number v _ Fv S) as (v' & _ & E1 & N1). rewrite E1, E. exists (v' :: vs'). split; [reflexivity|]. constructor; assumption.
Qed.
Lemma point x y z vs rest : moderate x -> moderate y -> moderate z -> Forall moderate vs ->
  exists xs' vs', readPoint (length vs) ((fmtW6 x ++ 32 :: fmtW6 y ++ 32 :: fmtW6 z ++ 59 :: flat_map (fun v => 32 :: fmtW6 v) vs ++ [32; 10]) ++ rest) = Some (xs', vs', rest) /\
    Forall2 near [x; y; z] xs' /\ Forall2 near vs vs'.
Proof.
  intros X Y HZ V. destruct (numbers vs (10 :: rest) V) as (vs' & EV & NV).
  set (r3 := 59 :: flat_map (fun v => 32 :: fmtW6 v) vs ++ 32 :: 10 :: rest).
  destruct (number z r3 HZ (stops59 _)) as (z' & _ & EZ & NZ).
  destruct (number y (32 :: fmtW6 z ++ r3) Y (stops32 _)) as (y' & _ & EY & NY).
  destruct (number x (32 :: fmtW6 y ++ 32 :: fmtW6 z ++ r3) X (stops32 _)) as (x' & EX & _ & NX).
  exists [x'; y'; z'], vs'. split; [|split; [constructor; [exact NX|constructor; [exact NY|constructor; [exact NZ|constructor]]]|exact NV]].
  replace ((fmtW6 x ++ 32 :: fmtW6 y ++ 32 :: fmtW6 z ++ 59 :: flat_map (fun v => 32 :: fmtW6 v) vs ++ [32; 10]) ++ rest) with (fmtW6 x ++ 32 :: fmtW6 y ++ 32 :: fmtW6 z ++ r3).
  2:{ unfold r3. repeat (rewrite <- app_assoc; cbn [app]). reflexivity. }
  unfold readPoint. cbn [readNumbers]. rewrite EX, EY, EZ. unfold r3. rewrite EV. reflexivity.
Qed.

(** reading the i-th group of d numbers *)
Lemma mread_in {A} (l : list A) i a : nth_error l i = Some a -> mread l i = Done a. Proof. intros H. unfold mread. rewrite H. reflexivity. Qed.
Lemma group {A} d i (l : list A) : (d * i + d <= length l)%nat -> omap (fun j => mread l (d * i + j)%nat) (seq 0 d) = Done (firstn d (skipn (d * i) l)).
Proof.
  intros H. set (k := (d * i)%nat) in *. clearbody k. revert k H. induction d as [|d IH]; intros k H; [reflexivity|].
  destruct (nth_error l k) as [a|] eqn:E; [|apply nth_error_None in E; lia].
  cbn [seq omap]. rewrite Nat.add_0_r, (mread_in l k a E). cbn [obind]. rewrite <- seq_shift.
  assert (Q : omap (fun j => mread l (k + j)%nat) (map S (seq 0 d)) = omap (fun j => mread l (S k + j)%nat) (seq 0 d)).
  { rewrite MPIProofs.omap_map. apply MPIProofs.omap_ext_in. intros j _. f_equal. lia. }
  rewrite Q, (IH (S k)) by lia. cbn [obind]. f_equal.
  assert (S1 : skipn k l = a :: skipn (S k) l). { clear - E. revert k E. induction l as [|b l IH]; intros [|k] E; try discriminate E; [injection E as ->; reflexivity|]. cbn [skipn]. apply (IH k E). }
  rewrite S1. reflexivity.
Qed.
Lemma lines d n : forall coord value, length coord = (3 * n)%nat -> length value = (d * n)%nat -> Forall moderate coord -> Forall moderate value ->
  exists ls xs vs, omap (pointLine d coord value) (seq 0 n) = Done ls /\ readPoints d n (concat ls) = Some (xs, vs) /\ Forall2 near coord xs /\ Forall2 near value vs.
Proof.
  induction n as [|n IH]; intros coord value LC LV FC FV.
  - destruct coord; [|discriminate LC]. destruct value; [|rewrite Nat.mul_0_r in LV; discriminate LV]. exists [], [], []. repeat split; constructor.
  - destruct coord as [|x [|y [|z coord]]]; try (cbn in LC; lia).
    assert (LC' : length coord = (3 * n)%nat) by (cbn [length] in LC; lia).
    rewrite <- (firstn_skipn d value) in FV. apply Forall_app in FV. destruct FV as [FV1 FV2].
    assert (LV' : length (skipn d value) = (d * n)%nat) by (rewrite skipn_length, LV; nia).
    inversion FC as [|? ? X FC1]; subst. inversion FC1 as [|? ? Y FC2]; subst. inversion FC2 as [|? ? HZ FC3]; subst.
    destruct (IH coord (skipn d value) LC' LV' FC3 FV2) as (ls & xs & vs & E & R & N1 & N2).
    assert (LD : length (firstn d value) = d) by (rewrite firstn_length, LV; nia).
    set (line := fmtW6 x ++ 32 :: fmtW6 y ++ 32 :: fmtW6 z ++ 59 :: flat_map (fun v => 32 :: fmtW6 v) (firstn d value) ++ [32; 10]).
    destruct (point x y z (firstn d value) (concat ls) X Y HZ FV1) as (xs' & vs' & EP & P1 & P2). fold line in EP. rewrite LD in EP.
    assert (L0 : pointLine d (x :: y :: z :: coord) value 0 = Done line).
    { unfold pointLine. change (mread (x :: y :: z :: coord) (3 * 0)) with (Done x). change (mread (x :: y :: z :: coord) (3 * 0 + 1)) with (Done y).
      change (mread (x :: y :: z :: coord) (3 * 0 + 2)) with (Done z). cbn [obind]. rewrite group by (rewrite LV; nia). rewrite Nat.mul_0_r. reflexivity. }
    assert (LS : omap (pointLine d (x :: y :: z :: coord) value) (map S (seq 0 n)) = omap (pointLine d coord (skipn d value)) (seq 0 n)).
    { rewrite MPIProofs.omap_map. apply MPIProofs.omap_ext_in. intros i Hi. apply in_seq in Hi. unfold pointLine.
      assert (K : forall j, mread (x :: y :: z :: coord) (3 * S i + j) = mread coord (3 * i + j)).
      { intros j. replace (3 * S i + j)%nat with (S (S (S (3 * i + j)))) by lia. reflexivity. }
      pose proof (K 0%nat) as K0. rewrite !Nat.add_0_r in K0. rewrite K0, !K. rewrite !group by (rewrite ?LV, ?LV'; nia).
      replace (skipn (d * S i) value) with (skipn (d * i) (skipn d value)); [reflexivity|]. rewrite skipn_skipn. f_equal. nia. }
    exists (line :: ls), (xs' ++ xs), (vs' ++ vs). split.
    { cbn [seq omap]. rewrite L0. cbn [obind]. rewrite <- seq_shift, LS, E. reflexivity. }
    cbn [concat readPoints]. rewrite EP, R. split; [reflexivity|]. split.
    + change (x :: y :: z :: coord) with ([x; y; z] ++ coord). apply Forall2_app; assumption.
    + rewrite <- (firstn_skipn d value). apply Forall2_app; assumption.
Qed.

(** * The file shared by the ranks *)
Lemma set_nth (l : list place) r p k : (r < length l)%nat -> nth_error (setPlace r p l) k = if Nat.eqb k r then Some p else nth_error l k.
Proof.
  unfold setPlace.
  revert r k. induction l as [|a l IH]; intros r k H; [cbn in H; lia|]. destruct r as [|r]; [destruct k; reflexivity|].
  destruct k as [|k]; [reflexivity|]. cbn [length] in H. exact (IH r k ltac:(lia)).
Qed.
Lemma opened_all ps : forallb opened ps = true <-> forall k, nth_error ps k <> Some Start.
Proof.
  split.
  - intros H k E. rewrite forallb_forall in H. apply nth_error_In in E. apply H in E. discriminate E.
  - intros H. apply forallb_forall. intros p I. apply In_nth_error in I. destruct I as (k & E). destruct p; try reflexivity. exfalso. exact (H k E).
Qed.
Definition fine (t : list Z) (st : list place * list Z) : Prop :=
  let '(ps, file) := st in
  ((forall k, nth_error ps k <> Some Start) -> (nth_error ps 0 = Some Finished -> file = t) /\ (nth_error ps 0 <> Some Finished -> file = [])) /\
  ((exists k, nth_error ps k = Some Start) -> forall k, nth_error ps k <> Some Collected /\ nth_error ps k <> Some Finished).
Lemma step_fine t m st r : fine t st -> fine t (step (t :: repeat [] m) st r).
Proof.
  destruct st as [ps file]. intros (A & B). unfold step. destruct (nth_error ps r) as [p|] eqn:E; [|split; assumption].
  assert (L : (r < length ps)%nat) by (apply nth_error_Some; rewrite E; discriminate).
  destruct p.
  - specialize (B (ex_intro _ r E)). cbv beta iota zeta. split.
    + intros H. split; [|reflexivity]. intros F. rewrite set_nth in F by exact L. destruct (Nat.eqb 0 r); [discriminate F|]. exfalso. apply (proj2 (B 0%nat)), F.
    + intros _ k. rewrite set_nth by exact L. destruct (Nat.eqb k r); [split; discriminate|apply B].
  - destruct (forallb opened ps) eqn:O; [|split; assumption]. pose proof (proj1 (opened_all ps) O) as O'. clear O. rename O' into O. cbv beta iota zeta. specialize (A O). split.
    + intros _. rewrite set_nth by exact L. destruct (Nat.eqb_spec 0 r) as [<-|N].
      * split; [discriminate|]. intros _. apply A. rewrite E. discriminate.
      * exact A.
    + intros (k & H). exfalso. rewrite set_nth in H by exact L. destruct (Nat.eqb k r); [discriminate H|]. exact (O k H).
  - cbv beta iota zeta. assert (O : forall k, nth_error ps k <> Some Start).
    { intros k H. destruct (B (ex_intro _ k H) r) as [C _]. exact (C E). }
    specialize (A O). split.
    + intros _. rewrite set_nth by exact L. destruct (Nat.eqb_spec 0 r) as [<-|N].
      * split; [|intros Q; exfalso; apply Q; reflexivity]. intros _. cbn [nth]. rewrite (proj2 A) by (rewrite E; discriminate).
        unfold overwrite. rewrite skipn_nil. apply app_nil_r.
      * destruct r as [|r]; [contradiction|]. cbn [nth]. replace (nth r (repeat [] m) []) with (@nil Z); [exact A|]. symmetry.
        clear. revert r. induction m as [|m IH]; intros [|r]; cbn; try reflexivity. apply IH.
    + intros (k & H). exfalso. rewrite set_nth in H by exact L. destruct (Nat.eqb k r); [discriminate H|]. exact (O k H).
  - split; assumption.
Qed.
Theorem run_file t m sched old : Forall (fun p => p = Finished) (fst (run (t :: repeat [] m) sched old)) -> snd (run (t :: repeat [] m) sched old) = t.
Proof.
  set (st0 := (repeat Start (length (t :: repeat [] m)), old)).
  assert (K : forall sched st, fine t st -> fine t (fold_left (step (t :: repeat [] m)) sched st)).
  { induction sched0 as [|r l IH]; intros st H; [exact H|]. cbn [fold_left]. apply IH, step_fine, H. }
  assert (LN : forall sched st, length (fst (fold_left (step (t :: repeat [] m)) sched st)) = length (fst st)).
  { induction sched0 as [|r l IH]; intros st; [reflexivity|]. cbn [fold_left]. rewrite IH. destruct st as [ps file]. unfold step.
    assert (SL : forall p, (r < length ps)%nat -> length (setPlace r p ps) = length ps).
    { intros p H. unfold setPlace. rewrite app_length. cbn [length]. rewrite firstn_length, skipn_length. lia. }
    destruct (nth_error ps r) as [p|] eqn:E; [|reflexivity]. assert (L : (r < length ps)%nat) by (apply nth_error_Some; rewrite E; discriminate).
    destruct p; [|destruct (forallb opened ps); [|reflexivity]| |reflexivity]; apply SL, L. }
  assert (F0 : fine t st0).
  { split.
    - intros H. exfalso. exact (H 0%nat eq_refl).
    - intros _ k. assert (Q : forall n k p, nth_error (repeat Start n) k = Some p -> p = Start) by (induction n as [|n IH]; intros [|j] p Hp; cbn in Hp; try discriminate Hp; [injection Hp as <-; reflexivity|apply (IH j p Hp)]).
      split; intros H; apply Q in H; discriminate H. }
  intros H. unfold run in *. fold st0 in H |- *. pose proof (K sched st0 F0) as KF. pose proof (LN sched st0) as LL. cbn [st0 fst] in LL. rewrite repeat_length in LL.
  destruct (fold_left _ sched st0) as [ps file]. cbn [fst snd] in *. destruct KF as [A _].
  assert (G : forall k p, nth_error ps k = Some p -> p = Finished) by (intros k p E; apply nth_error_In in E; rewrite Forall_forall in H; exact (H p E)).
  apply A; [intros k E; apply G in E; discriminate E|]. destruct ps as [|p ps]; [discriminate LL|]. cbn. f_equal. exact (G 0%nat p eq_refl).
Qed.

(** * All ranks *)
Lemma as_int_in z : (- 2 ^ 31 <= z <= INT_MAX)%Z -> as_int z = Done z.
Proof. intros H. unfold as_int, INT_MIN, INT_MAX in *. change (2 ^ 31) with 2147483648 in H. destruct (Z.leb_spec (-2147483648) z); destruct (Z.leb_spec z 2147483647); cbn; try reflexivity; lia. Qed.
Lemma text_ok d n coord value : length coord = (3 * n)%nat -> length value = (d * n)%nat -> Z.of_nat n <= INT_MAX -> Z.of_nat (d * n) <= INT_MAX ->
  Forall moderate coord -> Forall moderate value ->
  exists t xs vs, rankText (Z.of_nat d) coord value = Done (Some t) /\ readPoints d n t = Some (xs, vs) /\ Forall2 near coord xs /\ Forall2 near value vs.
Proof.
  intros LC LV N1 N2 FC FV. destruct (lines d n coord value LC LV FC FV) as (ls & xs & vs & E & R & A & B).
  exists (concat ls), xs, vs. split; [|split; [exact R|split; assumption]]. unfold rankText. rewrite LC, LV.
  replace (Z.of_nat (3 * n) / 3) with (Z.of_nat n) by (rewrite Nat2Z.inj_mul, Z.mul_comm, Z.div_mul; lia).
  rewrite as_int_in by lia. cbn [obind]. rewrite as_int_in by lia. cbn [obind]. rewrite Nat2Z.inj_mul, Z.eqb_refl. cbn [negb]. rewrite !Nat2Z.id, E. reflexivity.
Qed.
Theorem dump_ok d n coords values : coords <> [] -> length values = length coords -> length (concat coords) = (3 * n)%nat -> length (concat values) = (d * n)%nat ->
  Z.of_nat (3 * n) <= INT_MAX -> Z.of_nat (d * n) <= INT_MAX -> Forall moderate (concat coords) -> Forall moderate (concat values) ->
  exists texts t xs vs, allTexts (Z.of_nat d) coords values = Done (map Some texts) /\ length texts = length coords /\
    readPoints d n t = Some (xs, vs) /\ Forall2 near (concat coords) xs /\ Forall2 near (concat values) vs /\
    forall sched old, Forall (fun p => p = Finished) (fst (run texts sched old)) -> snd (run texts sched old) = t.
Proof.
  intros NE LR LC LV N1 N2 FC FV. destruct (text_ok d n _ _ LC LV ltac:(lia) N2 FC FV) as (t & xs & vs & E & R & A & B).
  exists (t :: repeat [] (length coords - 1)), t, xs, vs.
  split; [|split; [destruct coords; [contradiction|]; cbn [length]; rewrite repeat_length; lia|split; [exact R|split; [exact A|split; [exact B|intros sched old; apply run_file]]]]].
  unfold allTexts. rewrite !C06_collect by (rewrite ?LC, ?LV; assumption). destruct coords as [|c cs]; [contradiction|]. destruct values as [|v vs0]; [discriminate LR|].
  cbn [obind]. rewrite LR. cbn [combine omap fst snd]. rewrite E. cbn [obind map]. generalize (length (c :: cs) - 1)%nat. intros k.
  assert (Q : omap (fun cv => rankText (Z.of_nat d) (fst cv) (snd cv)) (combine (repeat [] k) (repeat [] k)) = Done (map Some (repeat [] k))).
  { induction k as [|k IH]; [reflexivity|]. cbn [repeat combine omap fst snd].
    assert (Z0 : rankText (Z.of_nat d) [] [] = Done (Some [])).
    { unfold rankText. cbn [length]. change (Z.of_nat 0 / 3) with 0. rewrite as_int_in by (unfold INT_MAX; lia). cbn [obind]. rewrite Z.mul_0_r, as_int_in by (unfold INT_MAX; lia). reflexivity. }
    rewrite Z0. cbn [obind]. rewrite IH. reflexivity. }
  rewrite Q. reflexivity.
Qed.
(** a rank leaves the program exactly when the number of values is wrong *)
Theorem mismatch d coord value n : length coord = (3 * n)%nat -> Z.of_nat n <= INT_MAX -> - 2 ^ 31 <= d * Z.of_nat n <= INT_MAX ->
  (rankText d coord value = Done None <-> Z.of_nat (length value) <> d * Z.of_nat n).
Proof.
  intros LC N1 N2. unfold rankText. rewrite LC. replace (Z.of_nat (3 * n) / 3) with (Z.of_nat n) by (rewrite Nat2Z.inj_mul, Z.mul_comm, Z.div_mul; lia).
  rewrite as_int_in by lia. cbn [obind]. rewrite as_int_in by lia. cbn [obind]. destruct (Z.eqb_spec (Z.of_nat (length value)) (d * Z.of_nat n)) as [E|E]; cbn [negb].
  - split; [|contradiction]. destruct (omap _ _); cbn [obind]; discriminate.
  - split; [intros _; exact E|reflexivity].
Qed.
(** as long as not all ranks are done, one can go on *)
Theorem no_deadlock texts ps file : (exists p, In p ps /\ p <> Finished) -> exists r, fst (step texts (ps, file) r) <> ps.
Proof.
  intros (p & I & N). apply In_nth_error in I. destruct I as (k & E).
  assert (M : forall r q q', nth_error ps r = Some q -> q <> q' -> setPlace r q' ps <> ps).
  { intros r q q' Er Hq H. assert (L : (r < length ps)%nat) by (apply nth_error_Some; rewrite Er; discriminate).
    pose proof (set_nth ps r q' r L) as S. rewrite H, Nat.eqb_refl, Er in S. injection S as S. exact (Hq S). }
  destruct (forallb opened ps) eqn:O.
  - exists k. unfold step. rewrite E. destruct p; [|rewrite O| |contradiction]; cbn [fst]; apply (M k _ _ E); discriminate.
  - assert (X : exists r, nth_error ps r = Some Start).
    { destruct (existsb (fun p => negb (opened p)) ps) eqn:Q.
      - apply existsb_exists in Q. destruct Q as (q & Iq & Hq). apply In_nth_error in Iq. destruct Iq as (r & Er). exists r. destruct q; try discriminate Hq. exact Er.
      - exfalso. assert (T : forallb opened ps = true); [|rewrite T in O; discriminate O]. apply forallb_forall. intros q Iq. destruct (opened q) eqn:Oq; [reflexivity|].
        assert (existsb (fun p => negb (opened p)) ps = true); [|congruence]. apply existsb_exists. exists q. rewrite Oq. split; [exact Iq|reflexivity]. }
    destruct X as (r & Er). exists r. unfold step. rewrite Er. cbn [fst]. apply (M r _ _ Er). discriminate.
Qed.
Lemma small_lost : exists v, is_finite v = true /\ Bcompare v f_zero = Some Gt /\ fmtW6 v = fmtW6 f_zero.
Proof. exists (f_lit 1 (-30)). split; [|split]; vm_compute; reflexivity. Qed.
Lemma leftover : exists coord t, length coord = 4%nat /\ rankText 0 coord [] = Done (Some t) /\ rankText 0 (firstn 3 coord) [] = Done (Some t).
Proof. exists (repeat f_zero 4). eexists. split; [reflexivity|]. split; vm_compute; reflexivity. Qed.
