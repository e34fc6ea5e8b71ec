(** Arrays that are filled block by block, for LetProofs. *)
From Coq Require Import List Arith Lia Permutation.
From Verif Require Import Outcome ListUtil MPIModel MPIProofs LetModel.
Import ListNotations.

(** the array out with the elements b at d *)
Definition put {A} (d : nat) (b out : list A) : list A := firstn d out ++ b ++ skipn (d + length b) out.

Section Put.
  Context {A : Type}.
  Implicit Types (b out : list A).

  Lemma put_length d b out : d + length b <= length out -> length (put d b out) = length out.
  Proof. intros H. unfold put. rewrite !app_length, firstn_length, skipn_length. lia. Qed.
  Lemma put_nil d out : put d [] out = out.
  Proof. unfold put. cbn [length app]. rewrite Nat.add_0_r. apply firstn_skipn. Qed.
  Lemma put_split d b out : d + length b <= length out -> exists u v w, out = u ++ v ++ w /\ length u = d /\ length v = length b /\ put d b out = u ++ b ++ w.
  Proof.
    intros H. exists (firstn d out), (firstn (length b) (skipn d out)), (skipn (d + length b) out).
    split; [|split; [rewrite firstn_length; lia|split; [rewrite firstn_length, skipn_length; lia|reflexivity]]].
    rewrite <- (firstn_skipn d out) at 1. f_equal. rewrite <- (firstn_skipn (length b) (skipn d out)) at 1. f_equal.
    rewrite skipn_skipn. f_equal. lia.
  Qed.
  Lemma put_app d b1 b2 out : d + length b1 + length b2 <= length out -> put (d + length b1) b2 (put d b1 out) = put d (b1 ++ b2) out.
  Proof.
    intros H. unfold put at 1. unfold put at 3. rewrite app_length.
    unfold put.
    rewrite firstn_app, firstn_length, Nat.min_l by lia. rewrite firstn_all2 by (rewrite firstn_length; lia).
    replace (d + length b1 - d) with (length b1) by lia.
    rewrite firstn_app, firstn_all, Nat.sub_diag. cbn [firstn]. rewrite app_nil_r.
    rewrite skipn_app, firstn_length, Nat.min_l by lia. rewrite skipn_all2 by (rewrite firstn_length; lia). cbn [app].
    rewrite skipn_app, skipn_all2 by lia. cbn [app]. rewrite skipn_skipn. rewrite <- !app_assoc. do 3 f_equal. f_equal. lia.
  Qed.

  Lemma slice_app_l off cnt (u v : list A) : off + cnt <= length u -> slice off cnt (u ++ v) = slice off cnt u.
  Proof.
    intros H. unfold slice. rewrite skipn_app, firstn_app. rewrite skipn_length.
    replace (cnt - (length u - off)) with 0 by lia. cbn [firstn]. apply app_nil_r.
  Qed.
  Lemma slice_app_r off cnt (u v : list A) : slice (length u + off) cnt (u ++ v) = slice off cnt v.
  Proof. unfold slice. rewrite skipn_app, skipn_all2 by lia. cbn [app]. do 2 f_equal. lia. Qed.

  Lemma put_same d b out : d + length b <= length out -> slice d (length b) (put d b out) = b.
  Proof.
    intros H. destruct (put_split d b out H) as (u & v & w & _ & Hu & _ & ->). subst d.
    rewrite <- (Nat.add_0_r (length u)). rewrite slice_app_r, slice_app_l by lia. unfold slice. cbn [skipn]. apply firstn_all.
  Qed.
  Lemma put_before d b out d' n : d + length b <= length out -> d' + n <= d -> slice d' n (put d b out) = slice d' n out.
  Proof.
    intros H L. destruct (put_split d b out H) as (u & v & w & E & Hu & _ & ->). rewrite E, !slice_app_l by lia. reflexivity.
  Qed.
  Lemma put_after d b out d' n : d + length b <= length out -> d + length b <= d' -> slice d' n (put d b out) = slice d' n out.
  Proof.
    intros H L. destruct (put_split d b out H) as (u & v & w & E & Hu & Hv & ->). rewrite E, !app_assoc.
    replace d' with (length (u ++ b) + (d' - d - length b)) at 1 by (rewrite app_length; lia). rewrite slice_app_r.
    replace d' with (length (u ++ v) + (d' - d - length b)) at 2 by (rewrite app_length; lia). rewrite slice_app_r. reflexivity.
  Qed.

  (** the loops that write consecutive elements *)
  Lemma mwrite_put i v out : i < length out -> mwrite out i v = Done (put i [v] out).
  Proof. intros H. unfold mwrite, put. destruct (Nat.ltb_spec i (length out)); [|lia]. cbn [length app]. rewrite Nat.add_1_r. reflexivity. Qed.

  Lemma write_range (g : nat -> outcome A) (v : nat -> A) n d out : d + n <= length out -> (forall j, j < n -> g j = Done (v j)) ->
    ofold (fun buf j => do x <- g j; mwrite buf (d + j) x) (seq 0 n) out = Done (put d (map v (seq 0 n)) out).
  Proof.
    induction n as [|n IH]; intros H G.
    - cbn. rewrite put_nil. reflexivity.
    - rewrite seq_S, ofold_app, IH by (try lia; intros; apply G; lia). cbn [obind ofold Nat.add]. rewrite G by lia. cbn [obind].
      rewrite mwrite_put by (rewrite put_length; rewrite ?map_length, ?seq_length; lia). cbn [obind].
      rewrite map_app. cbn [map]. rewrite <- put_app by (rewrite ?map_length, ?seq_length; cbn [length]; lia).
      rewrite map_length, seq_length. reflexivity.
  Qed.

  Lemma slice_map_nth s n (src : list A) a : s + n <= length src -> map (fun k => nth (s + k) src a) (seq 0 n) = slice s n src.
  Proof.
    intros H. apply nth_error_ext. intros i. destruct (Nat.lt_ge_cases i n) as [L|L].
    - rewrite nth_error_map_seq by assumption. unfold slice.
      assert (E : nth_error (firstn n (skipn s src)) i = nth_error (skipn s src) i).
      { rewrite <- (firstn_skipn n (skipn s src)) at 2. rewrite nth_error_app1; [reflexivity|]. rewrite firstn_length, skipn_length. lia. }
      rewrite E. rewrite <- (firstn_skipn s src) at 1. rewrite app_nth2; rewrite firstn_length, Nat.min_l by lia; [|lia].
      replace (s + i - s) with i by lia. symmetry. apply nth_error_nth'. rewrite skipn_length. lia.
    - rewrite !(proj2 (nth_error_None _ _)); [reflexivity| |].
      + unfold slice. rewrite firstn_length. lia.
      + rewrite map_length, seq_length. lia.
  Qed.

  Lemma copyRange_ok (src : list A) s n dst d : s + n <= length src -> d + n <= length dst -> copyRange src s n dst d = Done (put d (slice s n src) dst).
  Proof.
    intros H1 H2. destruct src as [|a0 src'] eqn:E.
    - cbn in H1. replace n with 0 by lia. unfold copyRange, slice. cbn. rewrite put_nil. reflexivity.
    - rewrite <- E in *. unfold copyRange. rewrite (write_range _ (fun k => nth (s + k) src a0)); [|lia|].
      + rewrite slice_map_nth by lia. reflexivity.
      + intros j Hj. unfold mread. rewrite (nth_error_nth' src a0) by lia. reflexivity.
  Qed.
End Put.

Section Fill.
  Context {A : Type} (blocks : list (list A)).
  Definition off (r : nat) : nat := sum_list (firstn r (map (@length A) blocks)).
  (** the blocks in S are in their places *)
  Definition filled (S : list nat) (out : list A) : Prop :=
    length out = length (concat blocks) /\ forall r b, In r S -> nth_error blocks r = Some b -> slice (off r) (length b) out = b.

  Lemma off_S r b : nth_error blocks r = Some b -> off (S r) = off r + length b.
  Proof. intros H. unfold off. apply sum_firstn_S. rewrite nth_error_map, H. reflexivity. Qed.
  Lemma off_mono r r' : r <= r' -> off r <= off r'.
  Proof.
    intros H. unfold off. replace (map (@length A) blocks) with (map (@length A) blocks) by reflexivity.
    rewrite <- (firstn_skipn r (firstn r' (map (@length A) blocks))). rewrite firstn_firstn, Nat.min_l by lia. rewrite sum_list_app. lia.
  Qed.
  Lemma off_le r : off r <= length (concat blocks).
  Proof. unfold off. rewrite concat_length. apply sum_firstn_le. Qed.
  Lemma off_in r b : nth_error blocks r = Some b -> off r + length b <= length (concat blocks).
  Proof. intros H. rewrite <- (off_S r b H). apply off_le. Qed.

  Lemma filled_put S out r b : filled S out -> nth_error blocks r = Some b -> filled (r :: S) (put (off r) b out).
  Proof.
    intros [L F] Hr. pose proof (off_in r b Hr) as Hin. split; [rewrite put_length; lia|].
    intros q c Hq Hc. destruct (Nat.eq_dec q r) as [->|Hne].
    - rewrite Hr in Hc. injection Hc as <-. apply put_same. lia.
    - destruct Hq as [E|Hq]; [congruence|].
      destruct (Nat.lt_ge_cases q r) as [Hlt|Hge].
      + rewrite put_before; [exact (F q c Hq Hc)|lia|]. rewrite <- (off_S q c Hc). apply off_mono. lia.
      + rewrite put_after; [exact (F q c Hq Hc)|lia|]. rewrite <- (off_S r b Hr). apply off_mono. lia.
  Qed.

  Lemma filled_nil out : length out = length (concat blocks) -> filled [] out.
  Proof. intros H. split; [exact H|]. intros r b []. Qed.
  Lemma filled_eq S S' out : filled S out -> (forall r, r < length blocks -> In r S' -> In r S) -> filled S' out.
  Proof. intros [L F] H. split; [exact L|]. intros r b Hr Hb. apply F; [|exact Hb]. apply H; [|exact Hr]. apply nth_error_Some. congruence. Qed.
End Fill.

Lemma filled_concat {A} (blocks : list (list A)) : forall out, length out = length (concat blocks) ->
  (forall r b, nth_error blocks r = Some b -> slice (off blocks r) (length b) out = b) -> out = concat blocks.
Proof.
  induction blocks as [|b0 bs IH]; intros out L F.
  - cbn in L. apply length_zero_iff_nil in L. exact L.
  - cbn [concat] in *. rewrite app_length in L.
    rewrite <- (firstn_skipn (length b0) out). f_equal.
    + specialize (F 0 b0 eq_refl). exact F.
    + apply IH; [rewrite skipn_length; lia|]. intros r b Hr. specialize (F (S r) b Hr).
      unfold off in *. cbn [map firstn] in F. rewrite sum_list_cons in F. unfold slice in *. rewrite skipn_skipn. rewrite Nat.add_comm. exact F.
Qed.
Lemma filled_all {A} (blocks : list (list A)) S out : filled blocks S out -> (forall r, r < length blocks -> In r S) -> out = concat blocks.
Proof.
  intros [L F] H. apply filled_concat; [exact L|]. intros r b Hb. apply F; [|exact Hb]. apply H. apply nth_error_Some. congruence.
Qed.

(** blocks copied from where a thread has put them one after the other *)
Lemma fill_ok {A} (blocks : list (list A)) (step : list A * nat -> nat -> outcome (list A * nat)) (src : list A) : forall ks S out pre post,
  (forall out cnt k b, In k ks -> nth_error blocks k = Some b ->
     step (out, cnt) k = do out' <- copyRange src cnt (length b) out (off blocks k); Done (out', cnt + length b)) ->
  (forall k, In k ks -> k < length blocks) ->
  src = pre ++ concat (map (fun k => nth k blocks []) ks) ++ post -> filled blocks S out ->
  exists out', ofold step ks (out, length pre) = Done (out', length (pre ++ concat (map (fun k => nth k blocks []) ks))) /\ filled blocks (ks ++ S) out'.
Proof.
  induction ks as [|k ks IH]; intros S out pre post HS HK E F.
  - exists out. cbn. rewrite app_nil_r. split; [reflexivity|exact F].
  - cbn [ofold]. assert (Hb : nth_error blocks k = Some (nth k blocks [])) by (apply nth_error_nth'; apply HK; now left).
    rewrite (HS _ _ _ _ (or_introl eq_refl) Hb). set (b := nth k blocks []) in *.
    cbn [map concat] in E. fold b in E. pose proof (off_in blocks k b Hb) as Hin. destruct F as [L F].
    rewrite copyRange_ok; [|rewrite E, !app_length; lia|lia]. cbn [obind].
    assert (Es : slice (length pre) (length b) src = b).
    { rewrite E. rewrite <- (Nat.add_0_r (length pre)), slice_app_r. rewrite <- app_assoc, slice_app_l by lia. unfold slice. cbn [skipn]. apply firstn_all. }
    rewrite Es. replace (length pre + length b) with (length (pre ++ b)) by (rewrite app_length; reflexivity).
    destruct (IH (k :: S) (put (off blocks k) b out) (pre ++ b) post) as (out' & Ho & Fo).
    + intros out0 cnt q c Hq. apply HS. now right.
    + intros q Hq. apply HK. now right.
    + rewrite E, <- !app_assoc. reflexivity.
    + apply filled_put; [split; assumption|exact Hb].
    + exists out'. split.
      * rewrite Ho. cbn [map concat]. fold b. rewrite <- !app_assoc. reflexivity.
      * eapply filled_eq; [exact Fo|]. intros r _ [<-|Hr]; [apply in_or_app; right; now left|].
        apply in_app_or in Hr. apply in_or_app. destruct Hr; [now left|right; now right].
Qed.
