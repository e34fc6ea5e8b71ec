(** Proofs about the snapshot files. *)
From Coq Require Import List Arith ZArith Bool Ascii String Reals Lia Lra Permutation.
From Flocq Require Import Core.
From Verif Require Import Outcome ListUtil MPIProofs RngProofs Overlay Arith ParticleModel ConModel ConProofs VecModel VecSpec VecProofs SylModel StepModel StepProofs RunModel
  VtpModel VtpSpec.
Import ListNotations.
Local Notation length := List.length.
Local Notation concat := List.concat.
Local Open Scope nat_scope.

Section Fill.
  Context {N : arith} {X : Type}.

  Definition blocks (f : field N X) (xs : list X) : list (list (value N)) :=
    map (fun p => f_get f (fst p) (snd p)) (combine (seq 0 (length xs)) xs).
  Definition arr (f : field N X) (xs : list X) : darray N := DArray (f_name f) (f_type f) (f_comp f) (concat (blocks f xs)).
  Definition sized (f : field N X) : Prop := forall i x, length (f_get f i x) = f_per f.

  Lemma nth_combine_seq (xs : list X) : forall k i, nth_error (combine (seq k (length xs)) xs) i = option_map (fun x => (k + i, x)) (nth_error xs i).
  Proof.
    induction xs as [|x xs IH]; intros k [|i]; cbn [length seq combine nth_error option_map]; try reflexivity.
    - rewrite Nat.add_0_r. reflexivity.
    - rewrite IH. destruct (nth_error xs i); cbn [option_map]; [do 2 f_equal; lia|reflexivity].
  Qed.
  Lemma nth_blocks f xs i : nth_error (blocks f xs) i = option_map (f_get f i) (nth_error xs i).
  Proof. unfold blocks. rewrite nth_error_map, nth_combine_seq. destruct (nth_error xs i); reflexivity. Qed.
  Lemma blocks_length f xs : length (blocks f xs) = length xs.
  Proof. unfold blocks. rewrite map_length, combine_length, seq_length. lia. Qed.

  Lemma blocks_each f xs : sized f -> forall q, In q (blocks f xs) -> length q = f_per f.
  Proof. intros H q Hq. apply in_map_iff in Hq as (p & <- & _). apply H. Qed.
  Lemma const_concat {A} (m : nat) (Qs : list (list A)) : (forall q, In q Qs -> length q = m) -> length (concat Qs) = m * length Qs.
  Proof.
    induction Qs as [|q Qs IH]; intros H; cbn [concat length]; [lia|]. rewrite app_length, IH by (intros; apply H; right; assumption).
    rewrite (H q) by (left; reflexivity). lia.
  Qed.
  Lemma const_off {A} (m : nat) (Qs : list (list A)) t : (forall q, In q Qs -> length q = m) -> t <= length Qs -> off Qs t = m * t.
  Proof.
    unfold off. intros H. revert t. induction Qs as [|q Qs IH]; intros [|t] Ht; cbn [firstn map]; try (cbn [length] in Ht; lia); try (cbn; lia).
    rewrite sum_list_cons, IH; [|intros; apply H; right; assumption|cbn [length] in Ht; lia]. rewrite (H q) by (left; reflexivity). lia.
  Qed.

  Lemma fillArray_ok order f xs : Permutation order (seq 0 (length xs)) -> sized f -> fillArray order f xs = Done (arr f xs).
  Proof.
    intros Hp Hs. unfold fillArray.
    assert (Hin : forall t, In t order <-> t < length xs) by (apply perm_in, Hp).
    rewrite (ofold_ext_in _ (fun a i => splice a (off (blocks f xs) i) (nth i (blocks f xs) []))).
    - rewrite splice_order; [reflexivity| | |].
      + intros t Ht. rewrite blocks_length in Ht. apply Hin, Ht.
      + intros t Ht. rewrite blocks_length. apply Hin, Ht.
      + rewrite repeat_length, (const_concat (f_per f)) by (apply blocks_each, Hs). rewrite blocks_length. reflexivity.
    - intros i a Hi. apply Hin in Hi. destruct (nth_error xs i) as [x|] eqn:E; [|apply nth_error_None in E; lia].
      unfold mread. rewrite E. cbn [obind]. rewrite (const_off (f_per f)); [|apply blocks_each, Hs|rewrite blocks_length; lia].
      assert (E' : nth_error (blocks f xs) i = Some (f_get f i x)) by (rewrite nth_blocks, E; reflexivity).
      rewrite (nth_error_nth _ _ [] E'). reflexivity.
  Qed.

  Lemma slice_concat {A} (m : nat) (Qs : list (list A)) i q a b : (forall q, In q Qs -> length q = m) -> nth_error Qs i = Some q -> a + b <= m ->
    firstn b (skipn (m * i + a) (concat Qs)) = firstn b (skipn a q).
  Proof.
    revert i. induction Qs as [|x Qs IH]; intros [|i] H E Hab; try discriminate; cbn [nth_error] in E.
    - assert (x = q) by congruence. subst x. cbn [concat]. rewrite Nat.mul_0_r, Nat.add_0_l, skipn_app, firstn_app.
      assert (Hq : length q = m) by (apply H; left; reflexivity).
      rewrite skipn_length. replace (b - (length q - a)) with 0 by lia. rewrite firstn_O, app_nil_r. reflexivity.
    - cbn [concat]. assert (Hx : length x = m) by (apply H; left; reflexivity).
      rewrite skipn_app, (skipn_all2 x) by lia. cbn [app]. replace (m * S i + a - length x) with (m * i + a) by lia.
      apply IH; [intros; apply H; right; assumption|exact E|exact Hab].
  Qed.

  Lemma arr_length f xs : sized f -> length (a_data (arr f xs)) = f_per f * length xs.
  Proof. intros H. cbn [arr a_data]. rewrite (const_concat (f_per f)) by (apply blocks_each, H). rewrite blocks_length. reflexivity. Qed.

  Lemma tuple_one f xs i x : sized f -> f_per f = f_comp f -> nth_error xs i = Some x -> tuple (arr f xs) i = Some (f_get f i x).
  Proof.
    intros Hs Hc E. unfold tuple. rewrite (arr_length f xs Hs). cbn [arr a_comp a_data].
    assert (Hi : i < length xs) by (apply nth_error_Some; congruence).
    destruct (Nat.leb_spec (f_comp f * (i + 1)) (f_per f * length xs)) as [_|C]; [|exfalso; rewrite Hc in C; nia].
    f_equal. rewrite <- Hc. rewrite <- (Nat.add_0_r (f_per f * i)).
    rewrite (slice_concat (f_per f) _ i (f_get f i x) 0 (f_per f)); [|apply blocks_each, Hs|rewrite nth_blocks, E; reflexivity|lia].
    cbn [skipn]. rewrite <- (Hs i x) at 1. apply firstn_all.
  Qed.

  Lemma tuple_two f xs i x l r : sized f -> f_per f = 2 * f_comp f -> nth_error xs i = Some x -> f_get f i x = l ++ r -> length l = f_comp f ->
    tuple (arr f xs) (2 * i) = Some l /\ tuple (arr f xs) (2 * i + 1) = Some r.
  Proof.
    intros Hs Hc E Eg Hl. unfold tuple. rewrite (arr_length f xs Hs). cbn [arr a_comp a_data].
    assert (Hi : i < length xs) by (apply nth_error_Some; congruence).
    assert (Hr : length r = f_comp f). { pose proof (Hs i x) as HH. rewrite Eg, app_length in HH. lia. }
    destruct (Nat.leb_spec (f_comp f * (2 * i + 1)) (f_per f * length xs)) as [_|C]; [|exfalso; rewrite Hc in C; nia].
    destruct (Nat.leb_spec (f_comp f * (2 * i + 1 + 1)) (f_per f * length xs)) as [_|C]; [|exfalso; rewrite Hc in C; nia].
    replace (f_comp f * (2 * i)) with (f_per f * i + 0) by (rewrite Hc; lia).
    replace (f_comp f * (2 * i + 1)) with (f_per f * i + f_comp f) by (rewrite Hc; lia).
    assert (Eb : nth_error (blocks f xs) i = Some (f_get f i x)) by (rewrite nth_blocks, E; reflexivity).
    rewrite (slice_concat (f_per f) _ i (f_get f i x) 0 (f_comp f)); [|apply blocks_each, Hs|exact Eb|lia].
    rewrite (slice_concat (f_per f) _ i (f_get f i x) (f_comp f) (f_comp f)); [|apply blocks_each, Hs|exact Eb|lia].
    rewrite Eg. cbn [skipn]. split; f_equal.
    - rewrite firstn_app, Hl, Nat.sub_diag. cbn [firstn]. rewrite app_nil_r, <- Hl. apply firstn_all.
    - rewrite <- Hl at 2. rewrite skipn_app, skipn_all, Nat.sub_diag. cbn [skipn app]. rewrite <- Hr. apply firstn_all.
  Qed.
End Fill.

Lemma fillPool_ok {N : arith} order (f : field N (block N)) (p : pool N) :
  Permutation order (seq 0 (length p)) -> sized f -> fillPool order f p = Done (arr f (concat p)).
Proof.
  intros Hp Hs. rewrite <- (fillArray_ok (concat (map (fun t => map (fun j => off p t + j) (seq 0 (length (nth t p [])))) order)) f (concat p)); [| |exact Hs].
  2:{ rewrite <- positions. apply perm_map_concat, Hp. }
  unfold fillPool, fillArray, buildConIndex. cbn [snd]. rewrite psum_last, <- concat_length. f_equal.
  rewrite ofold_concat, ofold_map. apply ofold_ext_in. intros t a Ht. apply (perm_in _ _ Hp) in Ht.
  destruct (nth_error p t) as [q|] eqn:Eq; [|apply nth_error_None in Eq; lia].
  unfold mread at 1. rewrite Eq. cbn [obind]. rewrite mread_psum by (rewrite map_length; lia). cbn [obind].
  rewrite (nth_error_nth _ _ [] Eq), ofold_map, firstn_map. apply ofold_ext_in. intros j w Hj. apply in_seq in Hj.
  fold (off p t). pose proof (nth_error_concat p t q j Eq ltac:(lia)) as EN.
  unfold mread at 2. rewrite EN. unfold mread. reflexivity.
Qed.

Lemma omap_fields {N : arith} {X} (g : field N X -> outcome (darray N)) (h : field N X -> darray N) (fs : list (field N X)) :
  Forall sized fs -> (forall f, sized f -> g f = Done (h f)) -> omap g fs = Done (map h fs).
Proof. intros H E. apply omap_pure. intros f Hf. apply E. rewrite Forall_forall in H. apply H, Hf. Qed.

Ltac sized_all := repeat (apply Forall_cons; [intros ? ?; reflexivity|]); apply Forall_nil.
Lemma line_sized {N : arith} {X} : Forall sized (@lineFields N X). Proof. sized_all. Qed.
Lemma point_sized {N : arith} : Forall sized (@pointFields N). Proof. sized_all. Qed.
Lemma cell_sized {N : arith} f32 : Forall sized (@cellFields N f32). Proof. sized_all. Qed.
Lemma con_point_sized {N : arith} f32 : Forall sized (@conPointFields N f32). Proof. sized_all. Qed.
Lemma con_cell_sized {N : arith} f32 : Forall sized (@conCellFields N f32). Proof. sized_all. Qed.

Definition pieceOf {N : arith} (f32 : N -> N) (ss : list (sylinder N)) : piece N :=
  Piece (length ss * 2) (length ss) (arr posField ss) (map (fun f => arr f ss) lineFields) (map (fun f => arr f ss) pointFields)
    (map (fun f => arr f ss) (cellFields f32)).
Lemma writeVTP_eq {N : arith} (f32 : N -> N) order (ss : list (sylinder N)) :
  Permutation order (seq 0 (length ss)) -> writeVTP f32 order ss = Done (pieceOf f32 ss).
Proof.
  intros Hp. unfold writeVTP.
  rewrite fillArray_ok; [|exact Hp|intros ? ?; reflexivity]. cbn [obind].
  rewrite (omap_fields _ (fun f => arr f ss) _ line_sized) by (intros f Hf; apply fillArray_ok; assumption). cbn [obind].
  rewrite (omap_fields _ (fun f => arr f ss) _ point_sized) by (intros f Hf; apply fillArray_ok; assumption). cbn [obind].
  rewrite (omap_fields _ (fun f => arr f ss) _ (cell_sized f32)) by (intros f Hf; apply fillArray_ok; assumption). reflexivity.
Qed.

Definition conPieceOf {N : arith} (f32 : N -> N) (bs : list (block N)) : piece N :=
  Piece (length bs * 2) (length bs) (arr conPosField bs) (map (fun f => arr f (repeat tt (length bs))) lineFields) (map (fun f => arr f bs) (conPointFields f32))
    (map (fun f => arr f bs) (conCellFields f32)).
Lemma writeConVTP_eq {N : arith} (f32 : N -> N) o1 o2 (p : pool N) :
  Permutation o1 (seq 0 (length (concat p))) -> Permutation o2 (seq 0 (length p)) -> writeConVTP f32 o1 o2 p = Done (conPieceOf f32 (concat p)).
Proof.
  intros H1 H2. unfold writeConVTP.
  assert (EL : last (snd (buildConIndex p)) 0 = length (concat p)) by (unfold buildConIndex; cbn [snd]; rewrite psum_last, <- concat_length; reflexivity).
  rewrite EL. cbv zeta.
  rewrite (omap_fields _ (fun f => arr f (repeat tt (length (concat p)))) _ line_sized)
    by (intros f Hf; apply fillArray_ok; [rewrite repeat_length; exact H1|exact Hf]). cbn [obind].
  rewrite fillPool_ok; [|exact H2|intros ? ?; reflexivity]. cbn [obind].
  rewrite (omap_fields _ (fun f => arr f (concat p)) _ (con_point_sized f32)) by (intros f Hf; apply fillPool_ok; assumption). cbn [obind].
  rewrite (omap_fields _ (fun f => arr f (concat p)) _ (con_cell_sized f32)) by (intros f Hf; apply fillPool_ok; assumption). reflexivity.
Qed.

Lemma line_of {N : arith} {X} (xs : list X) (p : piece N) i : i < length xs -> p_lines p = map (fun f => arr f xs) lineFields -> line p i (2 * i) (2 * i + 1).
Proof.
  intros Hi E. unfold line. rewrite E. exists (2 * i + 2).
  assert (EO : forall k, k < length xs -> named (map (fun f => arr f xs) (lineFields (N := N))) (txt "offsets") k = Some [VI (Z.of_nat (2 * k + 2))]).
  { intros k Hk. destruct (nth_error xs k) as [x|] eqn:Ex; [|apply nth_error_None in Ex; lia].
    refine (tuple_one _ xs k x _ _ Ex); [intros ? ?; reflexivity|reflexivity]. }
  split; [apply EO, Hi|]. split; [lia|]. split.
  - intros Hk. rewrite EO by lia. do 3 f_equal. lia.
  - destruct (nth_error xs i) as [x|] eqn:Ex; [|apply nth_error_None in Ex; lia].
    replace (2 * i + 2 - 2) with (2 * i) by lia. replace (2 * i + 2 - 1) with (2 * i + 1) by lia.
    refine (tuple_two (Field (txt "connectivity") Int32 1 2 (fun i _ => [VI (Z.of_nat (2 * i)); VI (Z.of_nat (2 * i + 1))])) xs i x
      [VI (Z.of_nat (2 * i))] [VI (Z.of_nat (2 * i + 1))] _ _ Ex _ _); try reflexivity. intros ? ?; reflexivity.
Qed.

Lemma pieceOf_shows {N : arith} (f32 : N -> N) (ss : list (sylinder N)) i s : nth_error ss i = Some s -> shows f32 (pieceOf f32 ss) i s.
Proof.
  intros E. unfold shows. cbv zeta.
  assert (Hi : i < length ss) by (apply nth_error_Some; congruence).
  split; [apply (line_of ss); [exact Hi|reflexivity]|].
  destruct (tuple_two posField ss i s (vals (endMinus s)) (vals (endPlus s)) ltac:(intros ? ?; reflexivity) eq_refl E eq_refl eq_refl) as [P0 P1].
  split; [exact P0|]. split; [exact P1|].
  destruct (tuple_two (N := N) (Field (txt "endLabel") UInt8 1 2 (fun _ _ => [VI 0; VI 1])) ss i s [VI 0%Z] [VI 1%Z] ltac:(intros ? ?; reflexivity) eq_refl E eq_refl eq_refl) as [L0 L1].
  split; [exact L0|]. split; [exact L1|].
  repeat match goal with |- _ /\ _ => split end;
    (refine (tuple_one _ ss i s _ _ E); [intros ? ?; reflexivity|reflexivity]).
Qed.

Lemma conPieceOf_shows {N : arith} (f32 : N -> N) (bs : list (block N)) i b : nth_error bs i = Some b -> showsBlock f32 (conPieceOf f32 bs) i b.
Proof.
  intros E. unfold showsBlock.
  assert (Hi : i < length bs) by (apply nth_error_Some; congruence).
  split; [apply (line_of (repeat tt (length bs))); [rewrite repeat_length; exact Hi|reflexivity]|].
  assert (T : forall (f : field N (block N)) l r, sized f -> f_per f = 2 * f_comp f -> f_get f i b = l ++ r -> length l = f_comp f ->
     tuple (arr f bs) (2 * i) = Some l /\ tuple (arr f bs) (2 * i + 1) = Some r) by (intros f l r H1 H2 H3 H4; exact (tuple_two f bs i b l r H1 H2 E H3 H4)).
  destruct (T conPosField (vals (labI b)) (vals (labJ b)) ltac:(intros ? ?; reflexivity) eq_refl eq_refl eq_refl) as [P0 P1].
  destruct (T (Field (txt "gid") Int32 1 2 (fun _ b => [VI (gidI b); VI (gidJ b)])) [VI (gidI b)] [VI (gidJ b)] ltac:(intros ? ?; reflexivity) eq_refl eq_refl eq_refl) as [G0 G1].
  destruct (T (Field (txt "globalIndex") Int32 1 2 (fun _ b => [VI (globalIndexI b); VI (globalIndexJ b)])) [VI (globalIndexI b)] [VI (globalIndexJ b)] ltac:(intros ? ?; reflexivity) eq_refl eq_refl eq_refl) as [I0 I1].
  destruct (T (Field (txt "posIJ") Float32 3 6 (fun _ b => vals32 f32 (posI b) ++ vals32 f32 (posJ b))) (vals32 f32 (posI b)) (vals32 f32 (posJ b)) ltac:(intros ? ?; reflexivity) eq_refl eq_refl eq_refl) as [Q0 Q1].
  destruct (T (Field (txt "normIJ") Float32 3 6 (fun _ b => vals32 f32 (normI b) ++ vals32 f32 (normJ b))) (vals32 f32 (normI b)) (vals32 f32 (normJ b)) ltac:(intros ? ?; reflexivity) eq_refl eq_refl eq_refl) as [R0 R1].
  split; [exact P0|]. split; [exact P1|]. split; [exact G0|]. split; [exact G1|]. split; [exact I0|]. split; [exact I1|].
  split; [exact Q0|]. split; [exact Q1|]. split; [exact R0|]. split; [exact R1|].
  repeat match goal with |- _ /\ _ => split end;
    try (refine (tuple_one _ bs i b _ _ E); [intros ? ?; reflexivity|reflexivity]).
  intros H9.
  assert (ES : atCell (conPieceOf f32 bs) "Stress" i = Some (map (fun kk => VR (f32 (nth kk (stress b) (a_Z 0)))) (seq 0 9))).
  { refine (tuple_one _ bs i b _ _ E); [intros ? ?; reflexivity|reflexivity]. }
  rewrite ES. f_equal. destruct (list9 _ H9) as (x0 & x1 & x2 & x3 & x4 & x5 & x6 & x7 & x8 & ->). reflexivity.
Qed.

Lemma fields_wellSized {N : arith} {X} (fs : list (field N X)) (xs : list X) k n : Forall sized fs -> Forall (fun f => f_per f = k * f_comp f) fs ->
  n = k * length xs -> forall a, In a (map (fun f => arr f xs) fs) -> length (a_data a) = a_comp a * n.
Proof.
  intros H1 H2 -> a Ha. apply in_map_iff in Ha as (f & <- & Hf). rewrite Forall_forall in H1, H2.
  rewrite (arr_length f xs (H1 f Hf)), (H2 f Hf). cbn [arr a_comp]. lia.
Qed.
Ltac per_all := repeat (apply Forall_cons; [reflexivity|]); apply Forall_nil.

Lemma pieceOf_sized {N : arith} (f32 : N -> N) (ss : list (sylinder N)) : wellSized (pieceOf f32 ss).
Proof.
  unfold wellSized. cbn [pieceOf n_points n_lines p_points p_point p_cell]. split; [|split; [|split]].
  - rewrite (arr_length posField ss) by (intros ? ?; reflexivity). cbn [arr posField f_per f_comp a_comp]. lia.
  - apply (fields_wellSized _ ss 2); [apply point_sized|per_all|lia].
  - apply (fields_wellSized _ ss 1); [apply cell_sized|per_all|lia].
  - lia.
Qed.
Lemma conPieceOf_sized {N : arith} (f32 : N -> N) (bs : list (block N)) : wellSized (conPieceOf f32 bs).
Proof.
  unfold wellSized. cbn [conPieceOf n_points n_lines p_points p_point p_cell]. split; [|split; [|split]].
  - rewrite (arr_length conPosField bs) by (intros ? ?; reflexivity). cbn [arr conPosField f_per f_comp a_comp]. lia.
  - apply (fields_wellSized _ bs 2); [apply con_point_sized|per_all|lia].
  - apply (fields_wellSized _ bs 1); [apply con_cell_sized|per_all|lia].
  - lia.
Qed.

Lemma snapshot_ok {N : arith} (f32 : N -> N) order (ss : list (sylinder N)) snapID nProcs : Permutation order (seq 0 (length ss)) ->
  exists p, writeVTP f32 order ss = Done p /\ n_lines p = length ss /\ wellSized p /\ describes (writePVTP (dec snapID) nProcs) p /\
    forall i s, nth_error ss i = Some s -> shows f32 p i s.
Proof.
  intros Hp. exists (pieceOf f32 ss). split; [apply writeVTP_eq, Hp|]. split; [reflexivity|]. split; [apply pieceOf_sized|].
  split; [repeat split|]. intros i s E. apply pieceOf_shows, E.
Qed.
Lemma con_snapshot_ok {N : arith} (f32 : N -> N) o1 o2 (p : pool N) prefix snapID nProcs :
  Permutation o1 (seq 0 (length (concat p))) -> Permutation o2 (seq 0 (length p)) ->
  exists q, writeConVTP f32 o1 o2 p = Done q /\ n_lines q = length (concat p) /\ wellSized q /\ describes (writeConPVTP prefix (dec snapID) nProcs) q /\
    forall i b, nth_error (concat p) i = Some b -> showsBlock f32 q i b.
Proof.
  intros H1 H2. exists (conPieceOf f32 (concat p)). split; [apply writeConVTP_eq; assumption|]. split; [reflexivity|]. split; [apply conPieceOf_sized|].
  split; [repeat split|]. intros i b E. apply conPieceOf_shows, E.
Qed.
Lemma pieces_ok snapID nProcs :
  h_pieces (writePVTP (dec snapID) nProcs) = map (fun r => fileName (FPiece r snapID)) (seq 0 nProcs) /\
  h_pieces (writeConPVTP [] (dec snapID) nProcs) = map (fun r => fileName (FConPiece r snapID)) (seq 0 nProcs).
Proof. split; apply map_ext; intros r; reflexivity. Qed.

(** ** Reading back *)
Lemma blocks_const {N : arith} {X} (f : field N X) (g : X -> list (value N)) xs : (forall i x, f_get f i x = g x) -> blocks f xs = map g xs.
Proof.
  intros H. apply nth_error_ext. intros i. rewrite nth_blocks, nth_error_map. destruct (nth_error xs i); cbn [option_map]; [rewrite H|]; reflexivity.
Qed.
Lemma concat_concat_map {A B} (g : A -> list B) (sss : list (list A)) : concat (map (fun ss => concat (map g ss)) sss) = concat (map g (concat sss)).
Proof. induction sss as [|ss sss IH]; cbn [map concat]; [reflexivity|]. rewrite map_app, concat_app, IH. reflexivity. Qed.
Lemma nth_concat_const {A B} (m : nat) (g : A -> list B) l i x j : (forall x, length (g x) = m) -> nth_error l i = Some x -> j < m ->
  nth_error (concat (map g l)) (m * i + j) = nth_error (g x) j.
Proof.
  intros H E Hj. rewrite <- (const_off m (map g l) i).
  - apply nth_error_concat; [rewrite nth_error_map, E; reflexivity|rewrite H; exact Hj].
  - intros q Hq. apply in_map_iff in Hq as (y & <- & _). apply H.
  - rewrite map_length. assert (i < length l) by (apply nth_error_Some; congruence). lia.
Qed.

Lemma merged_ok {N : arith} (f32 : N -> N) (sss : list (list (sylinder N))) name (f : field N (sylinder N)) g : sss <> [] ->
  (forall ss, lookup name (map (fun f => arr f ss) (cellFields f32)) = Some (arr f ss)) -> (forall i x, f_get f i x = g x) ->
  merged (map (pieceOf f32) sss) name = Some (DArray name (f_type f) (f_comp f) (concat (map g (concat sss)))).
Proof.
  intros Hne HL Hg. destruct sss as [|ss0 sss']; [congruence|]. unfold merged. cbn [map]. change (p_cell (pieceOf f32 ss0)) with (map (fun f => arr f ss0) (cellFields f32)). rewrite HL. cbn [arr a_type a_comp].
  change (pieceOf f32 ss0 :: map (pieceOf f32) sss') with (map (pieceOf f32) (ss0 :: sss')). f_equal. f_equal. rewrite <- concat_concat_map. rewrite map_map. f_equal. cbn [map].
  apply f_equal2; [cbn [arr a_data]; rewrite (blocks_const f g) by exact Hg; reflexivity|]. apply map_ext. intros ss.
  cbn [pieceOf p_cell]. rewrite HL. cbn [arr a_data]. rewrite (blocks_const f g) by exact Hg. reflexivity.
Qed.

Lemma posData_ok {N : arith} (f32 : N -> N) (sss : list (list (sylinder N))) :
  concat (map (fun p => a_data (p_points p)) (map (pieceOf f32) sss)) = concat (map (fun s => vals (endMinus s) ++ vals (endPlus s)) (concat sss)).
Proof.
  rewrite <- concat_concat_map, map_map. f_equal. apply map_ext. intros ss. cbn [pieceOf p_points arr a_data].
  rewrite (blocks_const posField (fun s => vals (endMinus s) ++ vals (endPlus s))) by reflexivity. reflexivity.
Qed.

Definition rebuilt {N : arith} (f32 : N -> N) (eps : N) (perp : vec N -> vec N -> vec N) (s old : sylinder N) : sylinder N :=
  let m := mot old in
  let c3 (v : vec N) := Vec (f32 (vx v)) (f32 (vy v)) (f32 (vz v)) in
  Syl (s_gid s) (s_index old) (s_rank old) (s_group s) (immovable s) (f32 (radius s)) (f32 (radiusCol s)) (f32 (slength s)) (f32 (lengthCol s))
    (radiusSearch old) (sepmin old) (colBuf old)
    (vscale (a_lit 1 (-1)) (vadd (endMinus s) (endPlus s))) (fromTwoVectorsAny eps perp (Vec (a_Z 0) (a_Z 0) (a_Z 1)) (c3 (axis s)))
    (Motion (c3 (vel (mot s))) (c3 (omega (mot s))) (velCol m) (omegaCol m) (velBi m) (omegaBi m) (velNonB m) (omegaNonB m) (velBrown m) (omegaBrown m)
       (force m) (torque m) (forceCol m) (torqueCol m) (forceBi m) (torqueBi m) (forceNonB m) (torqueNonB m)).

Lemma readObject_ok {N : arith} (f32 : N -> N) eps perp (sss : list (list (sylinder N))) i s old : sss <> [] -> nth_error (concat sss) i = Some s ->
  readObject eps perp (map (pieceOf f32) sss) i old = Done (rebuilt f32 eps perp s old).
Proof.
  intros Hne E. unfold readObject. rewrite posData_ok. cbv zeta.
  set (gp := fun s : sylinder N => vals (endMinus s) ++ vals (endPlus s)).
  assert (Ep : forall j, j < 6 -> nth_error (concat (map gp (concat sss))) (6 * i + j) = nth_error (gp s) j)
    by (intros j Hj; apply (nth_concat_const 6); [reflexivity|exact E|exact Hj]).
  unfold getPoint.
  replace (3 * (i * 2) + 1) with (6 * i + 1) by lia. replace (3 * (i * 2) + 2) with (6 * i + 2) by lia. replace (3 * (i * 2)) with (6 * i + 0) by lia.
  replace (3 * (i * 2 + 1) + 1) with (6 * i + 4) by lia. replace (3 * (i * 2 + 1) + 2) with (6 * i + 5) by lia. replace (3 * (i * 2 + 1)) with (6 * i + 3) by lia.
  rewrite !Ep by lia. unfold gp at 1 2 3 4 5 6. cbn [vals app nth_error obind].
  assert (EI : forall name t (g : sylinder N -> Z), (t = Int32 \/ t = UInt8) ->
    (forall ss, lookup name (map (fun f => arr f ss) (cellFields f32)) = Some (arr (Field name t 1 1 (fun _ s => [VI (g s)])) ss)) ->
    intComponent t (merged (map (pieceOf f32) sss) name) i = Done (g s)).
  { intros name t g Ht HL. rewrite (merged_ok f32 sss name _ (fun s => [VI (g s)]) Hne HL) by reflexivity.
    unfold intComponent. cbn [f_type f_comp a_type a_comp a_data].
    pose proof (nth_concat_const 1 (fun s => [VI (N := N) (g s)]) _ i s 0 ltac:(reflexivity) E ltac:(lia)) as En. rewrite Nat.add_0_r in En. rewrite En.
    destruct Ht as [-> | ->]; reflexivity. }
  assert (EN : forall name (g : sylinder N -> N), 
    (forall ss, lookup name (map (fun f => arr f ss) (cellFields f32)) = Some (arr (numField f32 name g) ss)) ->
    component (merged (map (pieceOf f32) sss) name) i 0 = Done (f32 (g s))).
  { intros name g HL. rewrite (merged_ok f32 sss name _ (fun s => [VR (f32 (g s))]) Hne HL) by reflexivity.
    unfold component. cbn [numField f_type f_comp a_type a_comp a_data].
    rewrite (nth_concat_const 1 (fun s => [VR (N := N) (f32 (g s))]) _ i s 0 ltac:(reflexivity) E ltac:(lia)). reflexivity. }
  assert (EV : forall name (g : sylinder N -> vec N), 
    (forall ss, lookup name (map (fun f => arr f ss) (cellFields f32)) = Some (arr (vecField f32 name g) ss)) ->
    component3 (merged (map (pieceOf f32) sss) name) i = Done (Vec (f32 (vx (g s))) (f32 (vy (g s))) (f32 (vz (g s))))).
  { intros name g HL. rewrite (merged_ok f32 sss name _ (fun s => vals32 f32 (g s)) Hne HL) by reflexivity.
    unfold component3, component. cbn [vecField f_type f_comp a_type a_comp a_data].
    rewrite !(nth_concat_const 3 (fun s => vals32 f32 (g s)) _ i s _ ltac:(reflexivity) E) by lia. reflexivity. }
  rewrite (EI (txt "gid") Int32 (@s_gid N)) by (auto || (intros; reflexivity)).
  rewrite (EI (txt "group") Int32 (@s_group N)) by (auto || (intros; reflexivity)).
  rewrite (EI (txt "isImmovable") UInt8 (fun s => if immovable s then 1 else 0)%Z) by (auto || (intros; reflexivity)).
  rewrite (EN (txt "length") (@slength N)) by (intros; reflexivity).
  rewrite (EN (txt "lengthCollision") (@lengthCol N)) by (intros; reflexivity).
  rewrite (EN (txt "radius") (@radius N)) by (intros; reflexivity).
  rewrite (EN (txt "radiusCollision") (@radiusCol N)) by (intros; reflexivity).
  rewrite (EV (txt "znorm") (fun s => qrot (orient s) (Vec (a_Z 0) (a_Z 0) (a_Z 1)))) by (intros; reflexivity).
  rewrite (EV (txt "vel") (fun s => vel (mot s))) by (intros; reflexivity).
  rewrite (EV (txt "omega") (fun s => omega (mot s))) by (intros; reflexivity).
  cbn [obind]. unfold rebuilt. cbv zeta.
  change (qrot (orient s) (Vec (a_Z 0) (a_Z 0) (a_Z 1))) with (axis s).
  replace (0 <? (if immovable s then 1 else 0))%Z with (immovable s) by (destruct (immovable s); reflexivity). reflexivity.
Qed.

Lemma read_back {N : arith} (f32 : N -> N) eps perp fresh cont order (sss : list (list (sylinder N))) : sss <> [] ->
  Permutation order (seq 0 (length (concat sss))) ->
  exists objs, setInitialFromVTKFile eps perp fresh order 0 (map (pieceOf f32) sss) cont = Done objs /\ length objs = length (concat sss) /\
    forall i s, nth_error (concat sss) i = Some s -> exists old, nth_error objs i = Some (rebuilt f32 eps perp s old).
Proof.
  intros Hne Hp. unfold setInitialFromVTKFile. cbn [Nat.eqb negb].
  destruct (map (pieceOf f32) sss) as [|p0 ps] eqn:EM; [destruct sss; [congruence|discriminate]|]. rewrite <- EM. clear EM.
  rewrite posData_ok.
  assert (EL : length (concat (map (fun s => vals (endMinus s) ++ vals (endPlus s)) (concat sss))) / 3 / 2 = length (concat sss)).
  { rewrite (const_concat 6) by (intros q Hq; apply in_map_iff in Hq as (y & <- & _); reflexivity). rewrite map_length, Nat.div_div by lia.
    rewrite Nat.mul_comm. apply Nat.div_mul. lia. }
  cbv zeta. rewrite EL. set (n := length (concat sss)) in *.
  assert (ER : length (resize n fresh cont) = n). { unfold resize. rewrite app_length, firstn_length, repeat_length. lia. }
  assert (Hlt : forall i o, nth_error (resize n fresh cont) i = Some o -> exists s, nth_error (concat sss) i = Some s).
  { intros i o Ei. destruct (nth_error (concat sss) i) as [s|] eqn:Es; [eauto|]. apply nth_error_None in Es. assert (i < length (resize n fresh cont)) by (apply nth_error_Some; congruence).
    rewrite ER in H. unfold n in H. lia. }
  destruct (forEach_ok order (readObject eps perp (map (pieceOf f32) sss))
    (fun i o => match nth_error (concat sss) i with Some s => rebuilt f32 eps perp s o | None => o end) (resize n fresh cont)) as (objs & E1 & E2 & E3).
  - rewrite ER. exact Hp.
  - intros i o Ei. destruct (Hlt i o Ei) as (s & Es). rewrite Es. apply readObject_ok; assumption.
  - exists objs. split; [exact E1|]. split; [congruence|]. intros i s Es.
    assert (Hi : i < length (resize n fresh cont)) by (rewrite ER; unfold n; apply nth_error_Some; congruence).
    destruct (nth_error (resize n fresh cont) i) as [o|] eqn:Eo; [|apply nth_error_None in Eo; lia].
    exists o. rewrite E3, Eo. cbn [option_map]. rewrite Es. reflexivity.
Qed.

Local Open Scope R_scope.
Lemma from_ez (eps : R) (perp : vec R -> vec R -> vec R) (d : vec R) :
  (forall a b, norm3 (perp a b) = 1 /\ dot3 (perp a b) a = 0) -> 0 < eps <= 1 ->
  let n := norm3 d in 0 < n -> (-1 + eps <= vz d / n \/ (vx d = 0 /\ vy d = 0)) ->
  let q := fromTwoVectorsAny (N := R_arith) eps perp (Vec 0 0 1) d in
  unitq q /\ qrot (N := R_arith) q (Vec 0 0 1) = Vec (vx d / n) (vy d / n) (vz d / n).
Proof.
  intros Hp He n Hn Hc q. destruct d as [x y z]. cbn [vx vy vz] in *.
  assert (Hnn : n * n = x * x + y * y + z * z) by (apply sqrt_sqrt; nra).
  assert (Ez : vnormalized (N := R_arith) (Vec 0 0 1 : vec R) = Vec 0 0 1).
  { unfold vnormalized, vdot. cbn [vx vy vz]. rarith. replace (0 * 0 + 0 * 0 + 1 * 1) with 1 by ring. rewrite Rlt_bool_true by lra. rewrite sqrt_1. apply vec_eq; cbn [vx vy vz]; field. }
  assert (Ed : vnormalized (N := R_arith) (Vec x y z : vec R) = Vec (x / n) (y / n) (z / n)).
  { unfold vnormalized, vdot. cbn [vx vy vz]. rarith. rewrite Rlt_bool_true by nra. unfold n, norm3. cbn [vx vy vz]. reflexivity. }
  set (X := x / n) in *. set (Y := y / n) in *. set (Z := z / n) in *.
  assert (HU : X * X + Y * Y + Z * Z = 1). { unfold X, Y, Z. replace (x / n * (x / n) + y / n * (y / n) + z / n * (z / n)) with ((x * x + y * y + z * z) / (n * n)) by (field; lra). rewrite <- Hnn. field. lra. }
  assert (HZ : -1 <= Z <= 1) by (split; nra).
  unfold q, fromTwoVectorsAny. change (a_Z (a := R_arith) 0) with 0. 
  rewrite Ez, Ed. unfold vdot. cbn [vx vy vz]. rarith. cbv zeta.
  replace (X * 0 + Y * 0 + Z * 1) with Z by ring.
  assert (HN : (Z = -1 /\ X = 0 /\ Y = 0 /\ Rlt_bool Z (-1 + eps) = true) \/ (-1 < Z /\ Rlt_bool Z (-1 + eps) = false)).
  { destruct Hc as [Hc|[-> ->]]; [right; split; [lra|apply Rlt_bool_false; lra]|].
    assert (X = 0) by (unfold X; field; lra). assert (Y = 0) by (unfold Y; field; lra).
    assert (Z * Z = 1) by nra. destruct (Req_dec Z 1) as [E1|E1].
    - right. split; [lra|apply Rlt_bool_false; lra].
    - assert (Z = -1) by nra. left. repeat split; try assumption. apply Rlt_bool_true; lra. }
  destruct HN as [(E1 & EX & EY & ->)|(H1 & ->)].
  - rewrite E1. rewrite Rlt_bool_false by lra. destruct (Hp (Vec 0 0 1) (Vec X Y (-1))) as [Q1 Q2].
    destruct (perp (Vec 0 0 1) (Vec X Y (-1))) as [a b c]. cbn [vx vy vz]. unfold norm3 in Q1. unfold dot3 in Q2. cbn [vx vy vz] in Q1, Q2.
    assert (Q3 : a * a + b * b + c * c = 1). { rewrite <- (sqrt_sqrt (a * a + b * b + c * c)) by nra. rewrite Q1. ring. }
    replace ((1 + -1) * (1 * bpow radix2 (-1))) with 0 by ring.
    rewrite sqrt_0. replace (1 - 0) with 1 by ring. rewrite sqrt_1.
    assert (c = 0) by lra. subst c. rewrite EX, EY. split.
    + unfold unitq. cbn [qx qy qz qw]. lra.
    + unfold qrot, qvec. cbn [qx qy qz qw]. vecR. veq; rarith; nra.
  - unfold fromTwoVectors. rewrite Ez, Ed. unfold vdot, vcross. cbn [vx vy vz]. rarith. cbv zeta.
    replace ((1 + (X * 0 + Y * 0 + Z * 1)) * 2) with (2 * (1 + Z)) by ring.
    replace (1 * bpow radix2 (-1)) with (/ 2) by (cbn; field).
    set (s := sqrt (2 * (1 + Z))).
    assert (Hs : s * s = 2 * (1 + Z)) by (apply sqrt_sqrt; lra). assert (Hs0 : 0 < s) by (apply sqrt_lt_R0; lra).
    assert (HI : 1 / s * (1 / s) * (2 * (1 + Z)) = 1) by (rewrite <- Hs; field; lra).
    assert (HJ : s * (1 / s) = 1) by (field; lra).
    set (t := 1 / s) in *.
    assert (HK : t * t * (X * X + Y * Y) = (1 - Z) / 2).
    { replace (X * X + Y * Y) with ((1 - Z) * (1 + Z)) by (replace (X * X + Y * Y) with (1 - Z * Z) by lra; ring).
      replace (t * t * ((1 - Z) * (1 + Z))) with ((t * t * (2 * (1 + Z))) * ((1 - Z) / 2)) by field. rewrite HI. ring. }
    split.
    + unfold unitq. cbn [qx qy qz qw].
      transitivity (t * t * (X * X + Y * Y) + s * s / 4); [field|]. rewrite HK, Hs. field.
    + unfold qrot, qvec. cbn [qx qy qz qw]. vecR. veq; rarith.
      * transitivity ((s * t) * X); [field|]. rewrite HJ. ring.
      * transitivity ((s * t) * Y); [field|]. rewrite HJ. ring.
      * transitivity (1 - 2 * (t * t * (X * X + Y * Y))); [field|]. rewrite HK. field.
Qed.

Lemma rebuilt_restored (f32 : R -> R) (eps : R) perp (s old : sylinder R_arith) :
  (forall a b, norm3 (perp a b) = 1 /\ dot3 (perp a b) a = 0) -> 0 < eps <= 1 ->
  restored f32 eps s (rebuilt (N := R_arith) f32 eps perp s old).
Proof.
  intros Hp He. unfold restored, rebuilt. cbn [s_gid s_group immovable radius radiusCol slength lengthCol spos mot vel omega orient].
  do 7 (split; [reflexivity|]). split.
  { unfold endMinus, endPlus. set (h := vscale _ _). apply vec_eq; unfold vscale, vadd, vsub; cbn [vx vy vz]; rarith; cbn; field. }
  split; [reflexivity|]. split; [reflexivity|]. intros Hn Hc. unfold axis, ez at 1.
  apply (from_ez eps perp (map3 f32 (axis (N := R_arith) s)) Hp He Hn Hc).
Qed.

Lemma restart_ok (f32 : R -> R) (eps : R) perp fresh cont order orders (sss : list (list (sylinder R_arith))) :
  (forall a b, norm3 (perp a b) = 1 /\ dot3 (perp a b) a = 0) -> 0 < eps <= 1 -> sss <> [] ->
  Forall2 (fun o ss => Permutation o (seq 0 (length ss))) orders sss -> Permutation order (seq 0 (length (concat sss))) ->
  exists ps objs,
    Forall2 (fun oss p => writeVTP (N := R_arith) f32 (fst oss) (snd oss) = Done p) (combine orders sss) ps /\
    setInitialFromVTKFile (N := R_arith) eps perp fresh order 0 ps cont = Done objs /\
    length objs = length (concat sss) /\
    (forall i s, nth_error (concat sss) i = Some s -> exists t, nth_error objs i = Some t /\ restored f32 eps s t) /\
    (forall rank, (rank > 0)%nat -> setInitialFromVTKFile (N := R_arith) eps perp fresh order rank ps cont = Done []).
Proof.
  intros Hp He Hne HF Hor. exists (map (pieceOf (N := R_arith) f32) sss).
  destruct (read_back (N := R_arith) f32 eps perp fresh cont order sss Hne Hor) as (objs & E1 & E2 & E3).
  exists objs. split; [|split; [exact E1|split; [exact E2|split]]].
  - clear - HF. induction HF as [|o ss orders sss H HF IH]; cbn [combine map]; constructor; [apply writeVTP_eq, H|exact IH].
  - intros i s Es. destruct (E3 i s Es) as (old & Eo). eexists. split; [exact Eo|]. apply rebuilt_restored; assumption.
  - intros rank Hr. unfold setInitialFromVTKFile. destruct rank; [lia|reflexivity].
Qed.

Lemma perp_exists : exists perp : vec R -> vec R -> vec R, forall a b, norm3 (perp a b) = 1 /\ dot3 (perp a b) a = 0.
Proof.
  exists (fun a _ => let h := sqrt (vx a * vx a + vy a * vy a) in if Rlt_bool 0 h then Vec (- vy a / h) (vx a / h) 0 else Vec 1 0 0).
  intros [x y z] _. cbn [vx vy vz]. cbv zeta. set (h := sqrt (x * x + y * y)).
  assert (Hh : h * h = x * x + y * y) by (apply sqrt_sqrt; nra). assert (H0 : 0 <= h) by apply sqrt_pos.
  destruct (Rlt_bool 0 h) eqn:B; unfold norm3, dot3; cbn [vx vy vz].
  - destruct (Rlt_bool_spec 0 h) as [Hp|]; [|discriminate]. split; [|field; lra].
    replace (- y / h * (- y / h) + x / h * (x / h) + 0 * 0) with ((x * x + y * y) / (h * h)) by (field; lra). rewrite <- Hh.
    replace (h * h / (h * h)) with 1 by (field; lra). apply sqrt_1.
  - destruct (Rlt_bool_spec 0 h) as [|Hn]; [discriminate|]. assert (h = 0) by lra. split.
    + replace (1 * 1 + 0 * 0 + 0 * 0) with 1 by ring. apply sqrt_1.
    + nra.
Qed.
