(** The mobility matrix (C30). *)
From Coq Require Import List Arith ZArith Reals Lra Psatz Lia Bool Permutation.
From Verif Require Import Outcome ListUtil MPIProofs RngProofs Overlay Arith ParticleModel ConModel ConProofs VecModel VecSpec VecProofs
  SylModel SylSpec SylProofs QPSpec.
Import ListNotations.

(** ** Assembly *)
Section Assembly.
  Context {N : arith}.
  Variables (flog : N -> N) (Pi mu : N).

  Lemma rowptr : forall m k, k <= m ->
    ofold (fun rp i => do v <- mread rp (i - 1); mwrite rp i (v + 3)%nat) (seq 1 k) (repeat 0%nat (m + 1))
    = Done (map (fun i => if i <=? k then 3 * i else 0) (seq 0 (m + 1))).
  Proof.
    intros m. induction k as [|k IH]; intro H.
    - cbn [seq ofold]. f_equal. rewrite map_const_repeat. apply map_ext_in. intros i Hi.
      destruct (Nat.leb_spec i 0); lia.
    - rewrite seq_S, ofold_app, IH by lia. cbn [obind ofold].
      rewrite mread_map_seq by lia. cbn [obind]. rewrite mwrite_map_seq by lia. cbn [obind]. f_equal.
      apply map_ext_in. intros i Hi. replace (1 + k - 1) with k by lia. rewrite Nat.leb_refl.
      destruct (Nat.eqb_spec i (1 + k)), (Nat.leb_spec i k), (Nat.leb_spec i (S k)); lia.
  Qed.

  Lemma mobEntries_len : forall i s, length (mobEntries flog Pi mu i s) = 18.
  Proof. intros. unfold mobEntries. destruct (mobBlocks flog Pi mu s). rewrite app_length, !map_length. reflexivity. Qed.

  Definition mobList (ss : list (sylinder N)) : list (list (nat * N)) :=
    map (fun i => match nth_error ss i with Some s => mobEntries flog Pi mu i s | None => [] end) (seq 0 (length ss)).

  Lemma mobList_len18 : forall ss q, In q (mobList ss) -> length q = 18.
  Proof.
    intros ss q H. apply in_map_iff in H. destruct H as (i & <- & Hi). apply in_seq in Hi.
    destruct (nth_error ss i) eqn:E; [apply mobEntries_len|]. apply nth_error_None in E. lia.
  Qed.

  Lemma len_concat18 {A} : forall Qs : list (list A), (forall q, In q Qs -> length q = 18) -> length (concat Qs) = 18 * length Qs.
  Proof.
    induction Qs as [|q Qs IH]; intro H; [reflexivity|]. cbn [concat length]. rewrite app_length, IH, (H q); [lia|left; reflexivity|].
    intros; apply H; right; assumption.
  Qed.

  Lemma off18 {A} : forall (Qs : list (list A)) t, (forall q, In q Qs -> length q = 18) -> t <= length Qs -> off Qs t = 18 * t.
  Proof.
    intros Qs t H Ht. unfold off. rewrite <- concat_length, len_concat18, firstn_length_le; [reflexivity|exact Ht|].
    intros q Hq. apply H. rewrite <- (firstn_skipn t Qs). apply in_or_app. left. exact Hq.
  Qed.

  Lemma skipn18 {A} : forall (Qs : list (list A)) t k, (forall q, In q Qs -> length q = 18) -> k <= 18 ->
    skipn (18 * t + k) (concat Qs) = skipn k (concat (skipn t Qs)).
  Proof.
    intros Qs t. revert Qs. induction t as [|t IH]; intros Qs k H Hk; [reflexivity|].
    destruct Qs as [|q Qs]; [cbn; rewrite !skipn_nil; reflexivity|].
    cbn [skipn concat]. rewrite skipn_app. rewrite (H q) by (left; reflexivity).
    rewrite (skipn_all2 q) by (rewrite (H q) by (left; reflexivity); lia). cbn [app].
    replace (18 * S t + k - 18) with (18 * t + k) by lia. apply IH; [|exact Hk]. intros; apply H; right; assumption.
  Qed.

  Lemma calcMob_ok : forall order junk ss, Permutation order (seq 0 (length ss)) ->
    calcMobMatrix flog Pi mu order junk ss
    = Done (map (fun i => 3 * i) (seq 0 (6 * length ss + 1)), concat (mobList ss)).
  Proof.
    intros order junk ss Hp. unfold calcMobMatrix. rewrite rowptr by lia. cbn [obind].
    assert (E : map (fun i => if i <=? length ss * 6 then 3 * i else 0) (seq 0 (length ss * 6 + 1)) = map (fun i => 3 * i) (seq 0 (6 * length ss + 1))).
    { rewrite (Nat.mul_comm (length ss)). apply map_ext_in. intros i Hi. apply in_seq in Hi. destruct (Nat.leb_spec i (6 * length ss)); lia. }
    rewrite E. rewrite mread_map_seq by lia. cbn [obind].
    assert (L : length (mobList ss) = length ss) by (unfold mobList; rewrite map_length, seq_length; reflexivity).
    assert (S : ofold (fun es i => do s <- mread ss i; splice es (18 * i) (mobEntries flog Pi mu i s)) order (repeat junk (3 * (length ss * 6)))
              = ofold (fun m t => splice m (off (mobList ss) t) (nth t (mobList ss) [])) order (repeat junk (3 * (length ss * 6)))).
    { apply ofold_ext_in. intros i es Hi. apply (Permutation_in _ Hp) in Hi. apply in_seq in Hi.
      rewrite (off18 _ _ (mobList_len18 ss)) by lia.
      destruct (nth_error ss i) as [s|] eqn:Es; [|apply nth_error_None in Es; lia].
      unfold mread. rewrite Es. cbn [obind]. f_equal. symmetry.
      apply nth_error_nth. unfold mobList. rewrite nth_error_map_seq by lia. rewrite Es. reflexivity. }
    rewrite S, splice_order.
    - reflexivity.
    - intros t Ht. apply (Permutation_in _ (Permutation_sym Hp)). apply in_seq. lia.
    - intros t Ht. apply (Permutation_in _ Hp) in Ht. apply in_seq in Ht. lia.
    - rewrite repeat_length, (len_concat18 _ (mobList_len18 ss)), L. lia.
  Qed.

  (** row a of object i *)
  Lemma mobRow_ok : forall ss i s a, nth_error ss i = Some s -> a < 6 ->
    mobRow (map (fun i => 3 * i) (seq 0 (6 * length ss + 1)), concat (mobList ss)) (6 * i + a)
    = firstn 3 (skipn (3 * a) (mobEntries flog Pi mu i s)).
  Proof.
    intros ss i s a Hs Ha. assert (Hi : i < length ss) by (apply nth_error_Some; congruence).
    unfold mobRow. cbn [fst snd].
    assert (E : forall j, j < 6 * length ss + 1 -> nth j (map (fun i => 3 * i) (seq 0 (6 * length ss + 1))) 0 = 3 * j).
    { intros j Hj. apply nth_error_nth. rewrite nth_error_map_seq by exact Hj. reflexivity. }
    rewrite !E by lia. replace (3 * S (6 * i + a) - 3 * (6 * i + a)) with 3 by lia.
    replace (3 * (6 * i + a)) with (18 * i + 3 * a) by lia. rewrite skipn18 by (try lia; apply mobList_len18).
    assert (En : nth_error (mobList ss) i = Some (mobEntries flog Pi mu i s)).
    { unfold mobList. rewrite nth_error_map_seq by lia. rewrite Hs. reflexivity. }
    assert (Eskip : skipn i (mobList ss) = mobEntries flog Pi mu i s :: skipn (S i) (mobList ss)).
    { clear - En. revert En. generalize (mobEntries flog Pi mu i s). generalize (mobList ss). induction i; intro l0; [|destruct l0 as [|x l0]]; intros q En; cbn in *; try discriminate; [destruct l0; [discriminate|congruence]|apply IHi; exact En]. }
    rewrite Eskip. cbn [concat]. rewrite skipn_app, firstn_app, skipn_length, mobEntries_len.
    replace (3 - (18 - 3 * a)) with 0 by lia. cbn [firstn]. rewrite app_nil_r. reflexivity.
  Qed.
End Assembly.

Local Open Scope R_scope.
(** ** The action on real vectors *)
Definition matvec (m : mat3 R) (v : vec R) : vec R := Vec (dot3 (vx m) v) (dot3 (vy m) v) (dot3 (vz m) v).
Definition list6 (f t : vec R) : list R := [vx f; vy f; vz f; vx t; vy t; vz t].

Fixpoint blockApply (bs : list (mat3 R * mat3 R)) (x : list R) : list R :=
  match bs, x with
  | (T, Q) :: bs, f0 :: f1 :: f2 :: t0 :: t1 :: t2 :: x' =>
      list6 (matvec T (Vec f0 f1 f2)) (matvec Q (Vec t0 t1 t2)) ++ blockApply bs x'
  | _, _ => []
  end.

Lemma seq6 : forall n, seq 0 (6 * n) = flat_map (fun i => [6 * i + 0; 6 * i + 1; 6 * i + 2; 6 * i + 3; 6 * i + 4; 6 * i + 5]%nat) (seq 0 n).
Proof.
  induction n as [|n IH]; [reflexivity|]. rewrite seq_S, flat_map_app, <- IH. replace (6 * S n)%nat with (6 * n + 6)%nat by lia.
  rewrite seq_app. f_equal. cbn [flat_map]. rewrite app_nil_r. cbn [seq Nat.add].
  replace (6 * n + 0)%nat with (6 * n)%nat by lia. replace (6 * n + 1)%nat with (S (6 * n)) by lia.
  replace (6 * n + 2)%nat with (S (S (6 * n))) by lia. replace (6 * n + 3)%nat with (S (S (S (6 * n)))) by lia.
  replace (6 * n + 4)%nat with (S (S (S (S (6 * n))))) by lia. replace (6 * n + 5)%nat with (S (S (S (S (S (6 * n)))))) by lia. reflexivity.
Qed.

Lemma nth6 : forall (a0 a1 a2 a3 a4 a5 : R) x i k, nth (6 * S i + k) (a0 :: a1 :: a2 :: a3 :: a4 :: a5 :: x) 0 = nth (6 * i + k) x 0.
Proof. intros. replace (6 * S i + k)%nat with (6 + (6 * i + k))%nat by lia. reflexivity. Qed.
Lemma nth6' : forall (a0 a1 a2 a3 a4 a5 : R) x i, nth (6 * S i) (a0 :: a1 :: a2 :: a3 :: a4 :: a5 :: x) 0 = nth (6 * i) x 0.
Proof. intros. replace (6 * S i)%nat with (6 + 6 * i)%nat by lia. reflexivity. Qed.

Lemma force_of_S : forall a0 a1 a2 a3 a4 a5 x i, force_of (a0 :: a1 :: a2 :: a3 :: a4 :: a5 :: x) (S i) = force_of x i.
Proof. intros. unfold force_of. rewrite !nth6, nth6'. reflexivity. Qed.
Lemma torque_of_S : forall a0 a1 a2 a3 a4 a5 x i, torque_of (a0 :: a1 :: a2 :: a3 :: a4 :: a5 :: x) (S i) = torque_of x i.
Proof. intros. unfold torque_of. rewrite !nth6. reflexivity. Qed.

Lemma six_cases : forall (x : list R) n, length x = (6 * S n)%nat ->
  exists a0 a1 a2 a3 a4 a5 x', x = a0 :: a1 :: a2 :: a3 :: a4 :: a5 :: x' /\ length x' = (6 * n)%nat.
Proof.
  intros x n H. do 6 (destruct x as [|? x]; [cbn in H; lia|]). do 7 eexists. split; [reflexivity|]. cbn in H. lia.
Qed.

Lemma flat_blocks : forall (bs : list (mat3 R * mat3 R)) x, length x = (6 * length bs)%nat ->
  flat_map (fun i => match nth_error bs i with Some (T, Q) => list6 (matvec T (force_of x i)) (matvec Q (torque_of x i)) | None => [] end)
    (seq 0 (length bs)) = blockApply bs x.
Proof.
  induction bs as [|[T Q] bs IH]; intros x H; [reflexivity|]. cbn [length] in H.
  destruct (six_cases x _ H) as (a0 & a1 & a2 & a3 & a4 & a5 & x' & -> & Hx'). cbn [length seq flat_map nth_error blockApply].
  f_equal. rewrite <- IH by exact Hx'. rewrite <- seq_shift, flat_map_concat_map, flat_map_concat_map, map_map. f_equal.
  apply map_ext. intro i. cbn [nth_error]. destruct (nth_error bs i) as [[T' Q']|]; [|reflexivity].
  rewrite force_of_S, torque_of_S. reflexivity.
Qed.

Definition mobOf (mu : R) (ss : list (sylinder R_arith)) :=
  (map (fun i => 3 * i)%nat (seq 0 (6 * length ss + 1)), concat (mobList (N := R_arith) ln PI mu ss)).

Lemma mobApply_blocks : forall mu ss x, length x = (6 * length ss)%nat ->
  mobApply (N := R_arith) (mobOf mu ss) (6 * length ss) x = blockApply (map (mobBlocks (N := R_arith) ln PI mu) ss) x.
Proof.
  intros mu ss x Hx. rewrite <- flat_blocks by (rewrite map_length; exact Hx). rewrite map_length.
  unfold mobApply. rewrite seq6, !flat_map_concat_map, concat_map, map_map. f_equal. apply map_ext_in. intros i Hi. apply in_seq in Hi.
  destruct (nth_error ss i) as [s|] eqn:Es; [|apply nth_error_None in Es; lia].
  rewrite (map_nth_error _ _ _ Es). cbn [map]. unfold mobOf. rewrite !(mobRow_ok ln PI mu ss i s) by (try exact Es; lia).
  unfold mobEntries. destruct (mobBlocks (N := R_arith) ln PI mu s) as [T Q]. destruct T as [[a1 a2 a3] [a4 a5 a6] [a7 a8 a9]], Q as [[b1 b2 b3] [b4 b5 b6] [b7 b8 b9]].
  unfold ij33. cbn [list_prod seq map app fst snd]. 
  change (3 * 0)%nat with 0%nat. change (3 * 1)%nat with 3%nat. change (3 * 2)%nat with 6%nat. change (3 * 3)%nat with 9%nat.
  change (3 * 4)%nat with 12%nat. change (3 * 5)%nat with 15%nat. cbn [skipn firstn map fst snd fold_left mget vget vx vy vz].
  unfold force_of, torque_of, list6, matvec, dot3. cbn [vx vy vz]. rewrite <- !Nat.add_assoc, !Nat.add_0_r. cbn [Nat.add].
  unfold mget. cbn [vget vx vy vz].
  repeat (apply f_equal2; [rarith; ring|]). reflexivity.
Qed.

(** the two blocks of one object *)
Lemma blocks_R : forall mu s para perp rot T Q, calcDragCoeff (N := R_arith) ln PI mu s = (para, perp, rot) ->
  mobBlocks (N := R_arith) ln PI mu s = (T, Q) ->
  forall v, matvec T v = (if immovable s then zero3 else response (axis (N := R_arith) s) para perp v) /\
            matvec Q v = (if immovable s then zero3 else scale3 (/ rot) v).
Proof.
  intros mu s para perp rot T Q Hd Hb v. unfold mobBlocks in Hb. rewrite Hd in Hb.
  destruct (axis (N := R_arith) s) as [x y z]. apply pair_equal_spec in Hb. destruct Hb as [<- <-]. destruct v as [a b c].
  destruct (immovable s); split; unfold response, matvec, mget, mkmat; cbn [vget Nat.eqb vx vy vz]; rarith;
    veq; unfold Rdiv; ring.
Qed.

Lemma blockApply_length : forall bs x, length x = (6 * length bs)%nat -> length (blockApply bs x) = (6 * length bs)%nat.
Proof.
  induction bs as [|[T Q] bs IH]; intros x H; [reflexivity|]. cbn [length] in H.
  destruct (six_cases x _ H) as (a0 & a1 & a2 & a3 & a4 & a5 & x' & -> & Hx'). cbn [blockApply list6 app length]. rewrite IH by exact Hx'. lia.
Qed.

Lemma blockApply_nth : forall bs x i T Q, length x = (6 * length bs)%nat -> nth_error bs i = Some (T, Q) ->
  force_of (blockApply bs x) i = matvec T (force_of x i) /\ torque_of (blockApply bs x) i = matvec Q (torque_of x i).
Proof.
  induction bs as [|[T' Q'] bs IH]; intros x i T Q H Hi; [destruct i; discriminate|]. cbn [length] in H.
  destruct (six_cases x _ H) as (a0 & a1 & a2 & a3 & a4 & a5 & x' & -> & Hx'). cbn [blockApply list6 app].
  destruct i as [|i]; cbn [nth_error] in Hi.
  - injection Hi as -> ->. split; reflexivity.
  - rewrite !force_of_S, !torque_of_S. apply IH; assumption.
Qed.

Lemma mob_moves : forall mu ss x, length x = (6 * length ss)%nat ->
  moves mu ss x (mobApply (N := R_arith) (mobOf mu ss) (6 * length ss) x).
Proof.
  intros mu ss x Hx. rewrite mobApply_blocks by exact Hx. split.
  - rewrite blockApply_length; rewrite map_length; [reflexivity|exact Hx].
  - intros i s Hs. destruct (mobBlocks (N := R_arith) ln PI mu s) as [T Q] eqn:Eb.
    destruct (calcDragCoeff (N := R_arith) ln PI mu s) as [[para perp] rot] eqn:Ed.
    destruct (blockApply_nth (map (mobBlocks (N := R_arith) ln PI mu) ss) x i T Q) as [F1 F2].
    { rewrite map_length. exact Hx. } { rewrite (map_nth_error _ _ _ Hs), Eb. reflexivity. }
    rewrite F1, F2. pose proof (blocks_R mu s para perp rot T Q Ed Eb) as B.
    destruct (immovable s).
    + split; apply B.
    + intros pa pe ro E. assert (pa = para /\ pe = perp /\ ro = rot) as (-> & -> & ->) by (repeat split; congruence). split; apply B.
Qed.

(** symmetric, positive semi-definite 3x3 blocks *)
Record psd3 (m : mat3 R) : Prop := { p3_sym : forall v w, dot3 v (matvec m w) = dot3 w (matvec m v); p3_pos : forall v, 0 <= dot3 v (matvec m v) }.

Lemma response_quad : forall u para perp v, unit3 u -> dot3 v (response u para perp v)
  = dot3 v u * dot3 v u / para + dot3 (reject u v) (reject u v) / perp.
Proof.
  intros u para perp v Hu. unfold response. dot3s.
  assert (E : dot3 v (reject u v) = dot3 (reject u v) (reject u v)).
  { unfold reject. dot3s. rewrite Hu. rewrite (dot3_comm u v). ring. }
  rewrite E. unfold Rdiv. ring.
Qed.

Lemma blocks_psd : forall mu s T Q, 0 < mu -> proper s -> mobBlocks (N := R_arith) ln PI mu s = (T, Q) -> psd3 T /\ psd3 Q.
Proof.
  intros mu s T Q Hm (Hr & Hl & Hq) Hb.
  destruct (drag_ok s mu Hr Hl Hm) as (para & perp & rot & Ed & P1 & P2 & P3 & _).
  pose proof (blocks_R mu s para perp rot T Q Ed Hb) as B. pose proof (axis_unit s Hq) as Hu.
  apply Rinv_0_lt_compat in P3. pose proof (Rinv_0_lt_compat _ P1). pose proof (Rinv_0_lt_compat _ P2).
  destruct (immovable s).
  - assert (Z : forall v, dot3 v zero3 = 0) by (intro; unfold dot3, zero3; cbn; ring).
    split; constructor; intros; rewrite ?(proj1 (B _)), ?(proj2 (B _)), ?Z; lra.
  - split; constructor.
    + intros v w. rewrite !(proj1 (B _)). unfold response, reject. dot3s. rewrite (dot3_comm w v). unfold Rdiv. ring.
    + intros v. rewrite (proj1 (B _)), response_quad by exact Hu. unfold Rdiv. pose proof (dot3_self (reject (axis (N := R_arith) s) v)).
      apply Rplus_le_le_0_compat; apply Rmult_le_pos; try lra. nra.
    + intros v w. rewrite !(proj2 (B _)). dot3s. rewrite (dot3_comm w v). reflexivity.
    + intros v. rewrite (proj2 (B _)). dot3s. pose proof (dot3_self v). apply Rmult_le_pos; lra.
Qed.

Lemma ip6 : forall a0 a1 a2 a3 a4 a5 b0 b1 b2 b3 b4 b5 x y,
  ip (a0 :: a1 :: a2 :: a3 :: a4 :: a5 :: x) (b0 :: b1 :: b2 :: b3 :: b4 :: b5 :: y)
  = dot3 (Vec a0 a1 a2) (Vec b0 b1 b2) + dot3 (Vec a3 a4 a5) (Vec b3 b4 b5) + ip x y.
Proof. intros. unfold dot3. cbn. ring. Qed.

Lemma matvec_lin : forall m t v w, matvec m (add3 (scale3 t v) w) = add3 (scale3 t (matvec m v)) (matvec m w).
Proof. intros m t v w. unfold matvec. dot3s. veq; ring. Qed.

Lemma block_psd : forall bs, (forall T Q, In (T, Q) bs -> psd3 T /\ psd3 Q) -> sym_psd (6 * length bs) (blockApply bs).
Proof.
  induction bs as [|[T Q] bs IH]; intro H.
  { split; cbn; intros; try lra; try reflexivity; destruct x; cbn in *; try lra; try lia; destruct z; cbn in *; try lra; try lia; reflexivity. }
  destruct (H T Q (or_introl eq_refl)) as [HT HQ]. specialize (IH (fun T' Q' Hi => H T' Q' (or_intror Hi))).
  split; cbn [length].
  - intros x Hx. rewrite blockApply_length; [reflexivity|exact Hx].
  - intros t x z Hx Hz. destruct (six_cases x _ Hx) as (a0 & a1 & a2 & a3 & a4 & a5 & x' & -> & Hx').
    destruct (six_cases z _ Hz) as (b0 & b1 & b2 & b3 & b4 & b5 & z' & -> & Hz').
    pose proof (sp_lin _ _ IH t x' z' Hx' Hz') as L. cbn [axpy blockApply]. unfold list6. cbn [app axpy]. rewrite L. unfold matvec, dot3. cbn. repeat (apply f_equal2; [ring|]). reflexivity.
  - intros x z Hx Hz. destruct (six_cases x _ Hx) as (a0 & a1 & a2 & a3 & a4 & a5 & x' & -> & Hx').
    destruct (six_cases z _ Hz) as (b0 & b1 & b2 & b3 & b4 & b5 & z' & -> & Hz').
    cbn [blockApply]. unfold list6. cbn [app]. rewrite !ip6.
    pose proof (p3_sym T HT (Vec a0 a1 a2) (Vec b0 b1 b2)) as E1. pose proof (p3_sym Q HQ (Vec a3 a4 a5) (Vec b3 b4 b5)) as E2.
    rewrite (sp_sym _ _ IH x' z' Hx' Hz'). unfold matvec in *. cbn [vx vy vz] in *. rewrite E1, E2. reflexivity.
  - intros x Hx. destruct (six_cases x _ Hx) as (a0 & a1 & a2 & a3 & a4 & a5 & x' & -> & Hx').
    cbn [blockApply]. unfold list6. cbn [app]. rewrite ip6.
    pose proof (p3_pos T HT (Vec a0 a1 a2)) as E1. pose proof (p3_pos Q HQ (Vec a3 a4 a5)) as E2.
    pose proof (sp_pos _ _ IH x' Hx'). unfold matvec in *. cbn [vx vy vz] in *. lra.
Qed.

Lemma block_definite : forall bs, (forall T Q, In (T, Q) bs -> (psd3 T /\ psd3 Q) /\ (forall v, v <> zero3 -> 0 < dot3 v (matvec T v) /\ 0 < dot3 v (matvec Q v))) ->
  forall x, length x = (6 * length bs)%nat -> (exists a, In a x /\ a <> 0) -> 0 < ip x (blockApply bs x).
Proof.
  induction bs as [|[T Q] bs IH]; intros H x Hx [a [Ha Hne]].
  { destruct x; [destruct Ha|cbn in Hx; lia]. }
  destruct (H T Q (or_introl eq_refl)) as [[HT HQ] HP]. specialize (IH (fun T' Q' Hi => H T' Q' (or_intror Hi))).
  assert (PS : sym_psd (6 * length bs) (blockApply bs)) by (apply block_psd; intros; apply H; right; assumption).
  cbn [length] in Hx. destruct (six_cases x _ Hx) as (a0 & a1 & a2 & a3 & a4 & a5 & x' & -> & Hx').
  cbn [blockApply]. unfold list6. cbn [app]. rewrite ip6.
  pose proof (p3_pos T HT (Vec a0 a1 a2)) as E1. pose proof (p3_pos Q HQ (Vec a3 a4 a5)) as E2. pose proof (sp_pos _ _ PS x' Hx') as E3.
  change (0 < dot3 (Vec a0 a1 a2) (matvec T (Vec a0 a1 a2)) + dot3 (Vec a3 a4 a5) (matvec Q (Vec a3 a4 a5)) + ip x' (blockApply bs x')).
  destruct (vec3_dec (Vec a0 a1 a2)) as [Z1|Z1]; [|apply HP in Z1; lra].
  destruct (vec3_dec (Vec a3 a4 a5)) as [Z2|Z2]; [|apply HP in Z2; lra].
  assert (0 < ip x' (blockApply bs x')); [|lra]. apply IH; [exact Hx'|]. exists a. split; [|exact Hne].
  injection Z1 as -> -> ->. injection Z2 as -> -> ->. cbn in Ha. repeat (destruct Ha as [Ha|Ha]; [congruence|]). exact Ha.
Qed.

Lemma sym_psd_ext : forall n A B, (forall x, length x = n -> A x = B x) -> sym_psd n B -> sym_psd n A.
Proof.
  intros n A B E [P1 P2 P3 P4]. assert (La : forall t x z, length x = n -> length z = n -> length (axpy t z x) = n).
  { intros t x z Hx Hz. revert x z Hx Hz. clear. induction n as [|n IH]; intros [|a x] [|b z]; cbn; intros Hx Hz; try lia. f_equal. apply IH; lia. }
  split; intros.
  - rewrite E by assumption. apply P1; assumption.
  - rewrite !E by (try assumption; apply La; assumption). apply P2; assumption.
  - rewrite !E by assumption. apply P3; assumption.
  - rewrite E by assumption. apply P4; assumption.
Qed.

Lemma mob_psd : forall mu ss, 0 < mu -> Forall proper ss ->
  sym_psd (6 * length ss) (mobApply (N := R_arith) (mobOf mu ss) (6 * length ss)).
Proof.
  intros mu ss Hm Hs. apply sym_psd_ext with (blockApply (map (mobBlocks (N := R_arith) ln PI mu) ss)).
  - intros x Hx. apply mobApply_blocks; exact Hx.
  - rewrite <- (map_length (mobBlocks (N := R_arith) ln PI mu) ss). apply block_psd. intros T Q Hi.
    apply in_map_iff in Hi. destruct Hi as (s & E & Hi). apply (blocks_psd mu s); [exact Hm|exact (proj1 (Forall_forall _ _) Hs s Hi)|exact E].
Qed.

Lemma mob_definite : forall mu ss x, 0 < mu -> Forall proper ss -> Forall (fun s => immovable s = false) ss ->
  length x = (6 * length ss)%nat -> (exists a, In a x /\ a <> 0) ->
  0 < ip x (mobApply (N := R_arith) (mobOf mu ss) (6 * length ss) x).
Proof.
  intros mu ss x Hm Hs Hmov Hx Hne. rewrite mobApply_blocks by exact Hx. apply block_definite; [|rewrite map_length; exact Hx|exact Hne].
  intros T Q Hi. apply in_map_iff in Hi. destruct Hi as (s & E & Hi). pose proof (proj1 (Forall_forall _ _) Hs s Hi) as Hps.
  split; [apply (blocks_psd mu s); assumption|].
  destruct Hps as (Hr & Hl & Hq). destruct (drag_ok s mu Hr Hl Hm) as (para & perp & rot & Ed & P1 & P2 & P3 & _).
  pose proof (blocks_R mu s para perp rot T Q Ed E) as B. pose proof (axis_unit s Hq) as Hu.
  rewrite (proj1 (Forall_forall _ _) Hmov s Hi) in B. intros v Hv. rewrite (proj1 (B v)), (proj2 (B v)).
  assert (Hvv : 0 < dot3 v v). { destruct (dot3_self v) as [|Hz]; [assumption|]. exfalso. apply Hv, dot3_zero. symmetry. exact Hz. }
  split; [|rewrite dot3_scale_r; apply Rmult_lt_0_compat; [apply Rinv_0_lt_compat; exact P3|exact Hvv]].
  rewrite response_quad by exact Hu. set (u := axis (N := R_arith) s) in *.
  assert (Ed2 : dot3 v v = dot3 v u * dot3 v u + dot3 (reject u v) (reject u v)).
  { unfold reject. dot3s. rewrite Hu, (dot3_comm u v). ring. }
  pose proof (dot3_self (reject u v)) as Hj. pose proof (Rinv_0_lt_compat _ P1). pose proof (Rinv_0_lt_compat _ P2). unfold Rdiv.
  destruct (Req_dec (dot3 v u) 0) as [Z|Z].
  - rewrite Z in *. assert (0 < dot3 (reject u v) (reject u v)) by lra.
    assert (0 < dot3 (reject u v) (reject u v) * / perp) by (apply Rmult_lt_0_compat; assumption). lra.
  - assert (0 < dot3 v u * dot3 v u * / para) by (apply Rmult_lt_0_compat; [nra|assumption]).
    assert (0 <= dot3 (reject u v) (reject u v) * / perp) by (apply Rmult_le_pos; lra). lra.
Qed.

(** ** Statements about the assembled matrix *)
Lemma mob_assembled : forall {N : arith} (flog : N -> N) (Pi mu : N) order junk ss, Permutation order (seq 0 (length ss)) ->
  exists m, calcMobMatrix flog Pi mu order junk ss = Done m /\ length (snd m) = (18 * length ss)%nat /\
    forall i s T Q a, nth_error ss i = Some s -> mobBlocks flog Pi mu s = (T, Q) -> (a < 3)%nat ->
      mobRow m (6 * i + a) = map (fun j => ((6 * i + j)%nat, mget T a j)) (seq 0 3) /\
      mobRow m (6 * i + 3 + a) = map (fun j => ((6 * i + 3 + j)%nat, mget Q a j)) (seq 0 3).
Proof.
  intros N flog Pi mu order junk ss Hp. eexists. split; [apply calcMob_ok; exact Hp|]. cbn [snd]. split.
  - rewrite (len_concat18 _ (mobList_len18 flog Pi mu ss)). unfold mobList. rewrite map_length, seq_length. reflexivity.
  - intros i s T Q a Hs Hb Ha. rewrite <- (Nat.add_assoc (6 * i) 3 a). rewrite !(mobRow_ok flog Pi mu ss i s) by (try exact Hs; lia).
    unfold mobEntries. rewrite Hb. destruct a as [|[|[|a]]]; [| | |lia]; split; reflexivity.
Qed.

Lemma mobOf_eq : forall mu order junk ss m, Permutation order (seq 0 (length ss)) ->
  calcMobMatrix (N := R_arith) ln PI mu order junk ss = Done m -> m = mobOf mu ss.
Proof. intros mu order junk ss m Hp E. rewrite calcMob_ok in E by exact Hp. injection E as E. symmetry. exact E. Qed.

Lemma mob_moves' : forall mu order junk ss m x, Permutation order (seq 0 (length ss)) ->
  calcMobMatrix (N := R_arith) ln PI mu order junk ss = Done m -> length x = (6 * length ss)%nat ->
  moves mu ss x (mobApply m (6 * length ss) x).
Proof. intros mu order junk ss m x Hp E Hx. rewrite (mobOf_eq mu order junk ss m Hp E). apply mob_moves, Hx. Qed.
Lemma mob_psd' : forall mu order junk ss m, Permutation order (seq 0 (length ss)) ->
  calcMobMatrix (N := R_arith) ln PI mu order junk ss = Done m -> 0 < mu -> Forall proper ss ->
  sym_psd (6 * length ss) (mobApply m (6 * length ss)).
Proof. intros mu order junk ss m Hp E Hm Hs. rewrite (mobOf_eq mu order junk ss m Hp E). apply mob_psd; assumption. Qed.
Lemma mob_definite' : forall mu order junk ss m x, Permutation order (seq 0 (length ss)) ->
  calcMobMatrix (N := R_arith) ln PI mu order junk ss = Done m -> 0 < mu -> Forall proper ss -> Forall (fun s => immovable s = false) ss ->
  length x = (6 * length ss)%nat -> (exists a, In a x /\ a <> 0) -> 0 < ip x (mobApply m (6 * length ss) x).
Proof. intros mu order junk ss m x Hp E Hm Hs Hv Hx Hn. rewrite (mobOf_eq mu order junk ss m Hp E). apply mob_definite; assumption. Qed.
