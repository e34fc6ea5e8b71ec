(** The files of objects and constraints, the parallel headers, the precision of floats, restart from the text. *)
From Coq Require Import String List Arith NArith ZArith Reals Lia Lra Bool Ascii Permutation.
From Flocq Require Import Core BinarySingleNaN Relative.
From Verif Require Import Outcome ListUtil F64 Arith ParticleModel ConModel VecModel SylModel RunModel RunProofs VtpModel VtpSpec VtpProofs Base64Model Base64Spec XmlModel XmlSpec XmlBytes XmlProofs XmlMain.
Import ListNotations.
Local Open Scope list_scope.
Local Notation length := List.length.
Local Notation concat := List.concat.

(** ** What is written can be stored *)
Definition typed {X} (m : nat) (P : X -> Prop) (f : VtpModel.field F_arith X) : Prop :=
  quotable (f_name f) /\ (f_per f * bytesOf (f_type f) <= 48)%nat /\ forall i x, (i < m)%nat -> P x -> Forall (ofType (f_type f)) (f_get f i x).
Lemma typed_storable {X} (P : X -> Prop) f (xs : list X) : sized f -> typed (length xs) P f -> Forall P xs -> (48 * N.of_nat (length xs) < 2 ^ 32)%N -> storable (arr f xs).
Proof.
  intros Hs (Q & B & T) F L. split; [exact Q|]. split.
  - cbn [arr a_data a_type]. apply Forall_concat. apply Forall_forall. intros q Hq. apply In_nth_error in Hq as (i & Hi). rewrite nth_blocks in Hi.
    destruct (nth_error xs i) as [x|] eqn:E; [|discriminate]. cbn in Hi. injection Hi as <-.
    assert (i < length xs)%nat by (apply nth_error_Some; congruence). apply T; [assumption|]. rewrite Forall_forall in F. apply F. eapply nth_error_In, E.
  - rewrite (arr_length f xs Hs). cbn [arr a_type]. nia.
Qed.
Lemma typed_all {X} (P : X -> Prop) fs (xs : list X) : Forall sized fs -> Forall (typed (length xs) P) fs -> Forall P xs -> (48 * N.of_nat (length xs) < 2 ^ 32)%N ->
  Forall storable (map (fun f => arr f xs) fs).
Proof.
  intros Hs Ht F L. apply Forall_map. rewrite Forall_forall in *. intros f Hf. apply (typed_storable P); [apply Hs, Hf|apply Ht, Hf|rewrite Forall_forall; exact F|exact L].
Qed.

Definition int32 (z : Z) : Prop := (- 2 ^ 31 <= z < 2 ^ 31)%Z.
Lemma float_type x : ofType Float32 (VR (to32 x : F_arith)). Proof. exists (narrow x). reflexivity. Qed.
Ltac valuesOk := repeat (apply Forall_cons; [first [exact I | apply float_type | cbn; unfold int32 in *; lia | match goal with |- context [if ?b then _ else _] => destruct b end; cbn; lia]|]); apply Forall_nil.
Ltac typedOne := split; [repeat constructor; intros H; repeat (destruct H as [H|H]; [discriminate H|]); exact H |split; [cbn; lia|intros i x Hi Hx; cbn [f_get f_type vals vals32 vecField numField app map seq]]].
Ltac typedAll := repeat (apply Forall_cons; [typedOne|]); try apply Forall_nil.

Lemma lines_typed {X} (P : X -> Prop) m : (48 * N.of_nat m < 2 ^ 32)%N -> Forall (typed m P) lineFields.
Proof. intros L. typedAll; valuesOk. Qed.
Lemma point_typed m : Forall (typed m (fun s : sylinder F_arith => int32 (s_gid s) /\ int32 (s_group s))) pointFields.
Proof. typedAll; valuesOk. Qed.
Lemma cell_typed m : Forall (typed m (fun s : sylinder F_arith => int32 (s_gid s) /\ int32 (s_group s))) (cellFields to32).
Proof. unfold cellFields. typedAll; destruct Hx; valuesOk. Qed.
Definition conInts (b : block F_arith) : Prop := int32 (gidI b) /\ int32 (gidJ b) /\ int32 (globalIndexI b) /\ int32 (globalIndexJ b).
Lemma con_point_typed m : Forall (typed m conInts) (conPointFields to32).
Proof. unfold conPointFields. typedAll; destruct Hx as (? & ? & ? & ?); valuesOk. Qed.
Lemma con_cell_typed m : Forall (typed m conInts) (conCellFields to32).
Proof. unfold conCellFields. typedAll; valuesOk. Qed.

Lemma objects_storable (ss : list (sylinder F_arith)) : Forall (fun s => int32 (s_gid s) /\ int32 (s_group s)) ss -> (48 * N.of_nat (length ss) < 2 ^ 32)%N ->
  storablePiece (pieceOf to32 ss).
Proof.
  intros F L. split; [|split; [|split]]; cbn [pieceOf p_points p_lines p_point p_cell].
  - apply (typed_storable (fun _ => True)); [intros ? ?; reflexivity| |apply Forall_forall; auto|exact L]. typedOne; valuesOk.
  - apply (typed_all (fun _ => True)); [apply line_sized|apply lines_typed, L|apply Forall_forall; auto|exact L].
  - eapply typed_all; [apply point_sized|apply point_typed|exact F|exact L].
  - eapply typed_all; [apply cell_sized|apply cell_typed|exact F|exact L].
Qed.
Lemma blocks_storable (bs : list (block F_arith)) : Forall conInts bs -> (48 * N.of_nat (length bs) < 2 ^ 32)%N -> storablePiece (conPieceOf to32 bs).
Proof.
  intros F L. split; [|split; [|split]]; cbn [conPieceOf p_points p_lines p_point p_cell].
  - apply (typed_storable (fun _ => True)); [intros ? ?; reflexivity| |apply Forall_forall; auto|exact L]. typedOne; valuesOk.
  - apply (typed_all (fun _ => True)); [apply line_sized|rewrite repeat_length; apply lines_typed, L|apply Forall_forall; auto|rewrite repeat_length; exact L].
  - eapply typed_all; [apply con_point_sized|apply con_point_typed|exact F|exact L].
  - eapply typed_all; [apply con_cell_sized|apply con_cell_typed|exact F|exact L].
Qed.

Theorem objects_text order (ss : list (sylinder F_arith)) : Permutation order (seq 0 (length ss)) ->
  Forall (fun s => (- 2 ^ 31 <= s_gid s < 2 ^ 31)%Z /\ (- 2 ^ 31 <= s_group s < 2 ^ 31)%Z) ss -> (48 * N.of_nat (length ss) < 2 ^ 32)%N ->
  exists p t, writeVTP (N := F_arith) to32 order ss = Done p /\ fileVTP p = Done t /\ readVTP t = Some p.
Proof.
  intros Hp F L. destruct (file_ok _ (objects_storable ss F L)) as (t & E & R). exists (pieceOf to32 ss), t. split; [apply writeVTP_eq, Hp|]. split; assumption.
Qed.
Theorem blocks_text o1 o2 (p : pool F_arith) : Permutation o1 (seq 0 (length (concat p))) -> Permutation o2 (seq 0 (length p)) ->
  Forall conInts (concat p) -> (48 * N.of_nat (length (concat p)) < 2 ^ 32)%N ->
  exists q t, writeConVTP (N := F_arith) to32 o1 o2 p = Done q /\ fileVTP q = Done t /\ readVTP t = Some q.
Proof.
  intros H1 H2 F L. destruct (file_ok _ (blocks_storable _ F L)) as (t & E & R). exists (conPieceOf to32 (concat p)), t. split; [apply writeConVTP_eq; assumption|]. split; assumption.
Qed.

(** ** Parallel headers *)
Lemma pData_ok f : quotable (h_name f) -> exists n, emits (pDataArray f) [n] /\ isNamed (str "PDataArray") n = true /\ XmlSpec.field n = Some f.
Proof.
  intros Q. exists (Element (str "PDataArray") (arrayAttrs (h_name f) (h_type f) (h_comp f)) []). split; [|split; [reflexivity|rewrite field_ok; destruct f; reflexivity]].
  set (raw := str "PDataArray" ++ showAttrs (arrayAttrs (h_name f) (h_type f) (h_comp f)) ++ ["/"%char]).
  assert (P : parseTag raw = Some (Empty (str "PDataArray") (arrayAttrs (h_name f) (h_type f) (h_comp f)))).
  { pose proof (parseTag_open (str "PDataArray") _ true eq_refl (arrayAttrs_ok (h_name f) (h_type f) (h_comp f) Q)) as H. unfold raw. rewrite <- ?app_assoc in H. exact H. }
  assert (S : scan false raw = Some false).
  { unfold raw. rewrite scan_app, scan_name by reflexivity. rewrite scan_app, scan_attrs by (try apply arrayAttrs_ok, Q; reflexivity). reflexivity. }
  pose proof (emits_app _ _ [nl] [] (emits_empty raw _ _ S P) (emits_blank [nl] eq_refl)) as M. cbn [app] in M.
  match type of M with emits ?u _ => match goal with |- emits ?v _ => replace v with u end end; [exact M|].
  unfold raw, pDataArray, arrayAttrs, showAttrs, showAttr. cbn [map concat fst snd txt str list_ascii_of_string app]. repeat (progress (rewrite <- ?app_assoc; cbn [app])). reflexivity.
Qed.
Lemma pDatas_ok fs : Forall (fun f => quotable (h_name f)) fs -> exists ns, emits (concat (map pDataArray fs)) ns /\ filter (isNamed (str "PDataArray")) ns = ns /\ all XmlSpec.field ns = Some fs.
Proof.
  induction 1 as [|f fs Q F (ns & M & N & A)]; [exists []; repeat split; apply emits_nil|]. destruct (pData_ok f Q) as (n & Mn & Nn & An).
  exists (n :: ns). cbn [map concat filter all]. rewrite Nn, N, An, A. split; [exact (emits_app _ [n] _ ns Mn M)|]. split; reflexivity.
Qed.
Definition pieceNode (s : chars) : node := Element (str "Piece") [(str "Source", s)] [].
Lemma source_ok s : quotable s -> emits (txt "<Piece Source=""" ++ s ++ txt """/>" ++ [nl]) [pieceNode s].
Proof.
  intros Q. set (as_ := [(str "Source", s)]). assert (G : goodAttrs as_) by (split; [repeat constructor; exact Q|repeat constructor; intros []]).
  set (raw := str "Piece" ++ showAttrs as_ ++ ["/"%char]).
  assert (P : parseTag raw = Some (Empty (str "Piece") as_)).
  { pose proof (parseTag_open (str "Piece") _ true eq_refl G) as H. unfold raw. rewrite <- ?app_assoc in H. exact H. }
  assert (S : scan false raw = Some false).
  { unfold raw. rewrite scan_app, scan_name by reflexivity. rewrite scan_app, scan_attrs by (try exact G; reflexivity). reflexivity. }
  pose proof (emits_app _ _ [nl] [] (emits_empty raw _ _ S P) (emits_blank [nl] eq_refl)) as M. cbn [app] in M.
  match type of M with emits ?u _ => match goal with |- emits ?v _ => replace v with u end end; [exact M|].
  unfold raw, as_, showAttrs, showAttr. cbn [map concat fst snd txt str list_ascii_of_string app]. repeat (progress (rewrite <- ?app_assoc; cbn [app])). reflexivity.
Qed.
Lemma sources_ok l : Forall quotable l -> emits (concat (map (fun piece => txt "<Piece Source=""" ++ piece ++ txt """/>" ++ [nl]) l)) (map pieceNode l).
Proof. induction 1 as [|s l Q F IH]; [apply emits_nil|]. cbn [map concat]. exact (emits_app _ [pieceNode s] _ _ (source_ok s Q) IH). Qed.

Definition gridKind (kind : string) : Prop := kind = "PolyData"%string \/ kind = "UnstructuredGrid"%string.
Lemma sources_filter l : filter (isNamed (str "Piece")) (map pieceNode l) = map pieceNode l /\ filter (isNamed (str "PPointData")) (map pieceNode l) = [] /\
  filter (isNamed (str "PCellData")) (map pieceNode l) = [] /\ filter (isNamed (str "PPoints")) (map pieceNode l) = [] /\ all (attr "Source") (map pieceNode l) = Some l.
Proof.
  induction l as [|s l (A & B & C & D & E)]; [repeat split|]. cbn [map filter all].
  change (isNamed (str "Piece") (pieceNode s)) with true. change (isNamed (str "PPointData") (pieceNode s)) with false.
  change (isNamed (str "PCellData") (pieceNode s)) with false. change (isNamed (str "PPoints") (pieceNode s)) with false.
  change (attr "Source" (pieceNode s)) with (Some s). cbv iota. rewrite A, B, C, D, E. repeat split.
Qed.

Lemma emits_open name attrs blanks inner ns : properName name = true -> goodAttrs attrs -> forallb blank blanks = true -> emits inner ns ->
  emits (("<"%char :: (name ++ showAttrs attrs) ++ [">"%char]) ++ blanks ++ inner ++ ("<"%char :: ("/"%char :: name) ++ [">"%char])) [Element name attrs ns].
Proof.
  intros P G Bl I. replace (_ ++ blanks ++ _) with (("<"%char :: (name ++ showAttrs attrs) ++ [">"%char]) ++ (blanks ++ inner) ++ ("<"%char :: ("/"%char :: name) ++ [">"%char]))
    by (rewrite <- !app_assoc; reflexivity).
  apply emits_element; [| |exact P|].
  - rewrite scan_app, scan_name by apply proper_all, P. apply scan_attrs; [exact G|reflexivity].
  - pose proof (parseTag_open name attrs false P G) as H. rewrite app_nil_r in H. exact H.
  - apply (emits_app blanks [] inner ns); [apply emits_blank, Bl|exact I].
Qed.

Definition posNode : node := Element (str "PDataArray") [(str "NumberOfComponents", str "3"); (str "type", str "Float64"); (str "format", str "binary")] [].
Lemma ppoints_ok : emits (txt "<PPoints> " ++ [nl] ++ txt "<PDataArray NumberOfComponents=""3"" type=""Float64"" format=""binary""/>" ++ [nl] ++ txt "</PPoints> " ++ [nl]) [Element (str "PPoints") [] [posNode]].
Proof.
  pose proof (emits_empty (str "PDataArray NumberOfComponents=""3"" type=""Float64"" format=""binary""/") (str "PDataArray") [(str "NumberOfComponents", str "3"); (str "type", str "Float64"); (str "format", str "binary")]
    ltac:(vm_compute; reflexivity) ltac:(vm_compute; reflexivity)) as M0.
  pose proof (emits_app _ _ [nl] [] M0 (emits_blank [nl] eq_refl)) as M1. rewrite app_nil_r in M1.
  assert (G : goodAttrs []) by (split; constructor).
  pose proof (emits_open (str "PPoints") [] [" "%char; nl] _ _ eq_refl G eq_refl M1) as M2.
  exact (emits_app _ _ [" "%char; nl] [] M2 (emits_blank [" "%char; nl] eq_refl)).
Qed.

Section Parallel.
  Variables (kind : string) (K : gridKind kind).
  Let ghost := [(str "GhostLevel", str "0")].
  Let sc := [(str "Scalars", str "scalars")].
  Let ra := [(str "type", str "P" ++ str kind); (str "version", str "1.0"); (str "byte_order", str "LittleEndian"); (str "header_type", str "UInt32")].
  Lemma parallel_xml inner ns : emits inner ns ->
    parseXML (pHead (txt kind) ++ inner ++ txt "</P" ++ txt kind ++ txt ">" ++ [nl] ++ txt "</VTKFile>" ++ [nl]) =
    Some (Element (str "VTKFile") ra [Element (str "P" ++ str kind) ghost ns]).
  Proof.
    intros M. assert (Pk : properName (str "P" ++ str kind) = true) by (destruct K; subst; reflexivity).
    assert (Gg : goodAttrs ghost) by attrsOk.
    pose proof (emits_attrs (str "P" ++ str kind) ghost [" "%char; nl] _ _ Pk Gg eq_refl M) as MD.
    pose proof (emits_app [" "%char; nl] [] _ _ (emits_blank [" "%char; nl] eq_refl) MD) as MN.
    set (root := str "VTKFile" ++ showAttrs ra).
    assert (S : scan false root = Some false) by (unfold root, ra; destruct K; subst; vm_compute; reflexivity).
    assert (P : parseTag root = Some (Opening (str "VTKFile") ra)) by (unfold root, ra; destruct K; subst; vm_compute; reflexivity).
    pose proof (document root ra _ _ S P MN) as X.
    match type of X with parseXML ?u = _ => match goal with |- context [parseXML ?v] => replace v with u end end; [exact X|].
    unfold root, ra, ghost, pHead, showAttrs, showAttr. change (txt kind) with (str kind). cbn [map concat fst snd txt str list_ascii_of_string app]. repeat (progress (rewrite <- ?app_assoc; cbn [app])). reflexivity.
  Qed.
  Lemma parallel_body ns : body (str "P" ++ str kind) (Element (str "VTKFile") ra [Element (str "P" ++ str kind) ghost ns]) = Some (Element (str "P" ++ str kind) ghost ns).
  Proof. destruct K; subst; reflexivity. Qed.
  Lemma scalars_ok name inner ns : properName name = true -> emits inner ns ->
    emits ("<"%char :: name ++ txt " Scalars=""scalars"">" ++ [nl] ++ inner ++ txt "</" ++ name ++ txt ">" ++ [nl]) [Element name sc ns].
  Proof.
    intros P M. assert (Gs : goodAttrs sc) by attrsOk. pose proof (emits_attrs name sc [nl] _ _ P Gs eq_refl M) as X.
    match type of X with emits ?u _ => match goal with |- emits ?v _ => replace v with u end end; [exact X|].
    unfold sc, showAttrs, showAttr. cbn [map concat fst snd txt str list_ascii_of_string app]. repeat (progress (rewrite <- ?app_assoc; cbn [app])). reflexivity.
  Qed.

  Theorem parallel_ok pts cells pieces : Forall (fun f => quotable (h_name f)) pts -> Forall (fun f => quotable (h_name f)) cells -> Forall quotable pieces ->
    readParallel kind (writeParallel (txt kind) pts cells pieces) = Some (Header pts cells (3%nat, Float64) pieces).
  Proof.
    intros Qp Qc Qs. destruct (pDatas_ok pts Qp) as (np & Mp & Np & Ap). destruct (pDatas_ok cells Qc) as (nc & Mc & Nc & Ac).
    pose proof (emits_app _ _ _ _ (scalars_ok (str "PPointData") _ _ eq_refl Mp) (emits_app _ _ _ _ (scalars_ok (str "PCellData") _ _ eq_refl Mc)
      (emits_app _ _ _ _ ppoints_ok (sources_ok pieces Qs)))) as M. cbn [app] in M.
    pose proof (parallel_xml _ _ M) as X. unfold readParallel.
    match type of X with parseXML ?u = _ => match goal with |- context [parseXML ?v] => replace v with u end end.
    2: { unfold writeParallel, pTail. cbn [txt str list_ascii_of_string app]. repeat (progress (rewrite <- ?app_assoc; cbn [app])). reflexivity. }
    rewrite X, parallel_body. destruct (sources_filter pieces) as (F1 & F2 & F3 & F4 & F5).
    set (d := Element (str "P" ++ str kind) ghost _).
    assert (C1 : children (str "PPointData") d = [Element (str "PPointData") sc np]) by (unfold d; cbn [children filter]; rewrite F2; reflexivity).
    assert (C2 : children (str "PCellData") d = [Element (str "PCellData") sc nc]) by (unfold d; cbn [children filter]; rewrite F3; reflexivity).
    assert (C3 : children (str "PPoints") d = [Element (str "PPoints") [] [posNode]]) by (unfold d; cbn [children filter]; rewrite F4; reflexivity).
    assert (C4 : children (str "Piece") d = map pieceNode pieces) by (unfold d; cbn [children filter]; rewrite F1; reflexivity).
    unfold fields, child. rewrite C1, C2, C3, C4. cbn [children]. rewrite Np, Nc, Ap, Ac, F5. reflexivity.
  Qed.
  Theorem parallelPoint_ok pts pieces : Forall (fun f => quotable (h_name f)) pts -> Forall quotable pieces ->
    readParallel kind (writeParallelPoint (txt kind) pts pieces) = Some (Header pts [] (3%nat, Float64) pieces).
  Proof.
    intros Qp Qs. destruct (pDatas_ok pts Qp) as (np & Mp & Np & Ap).
    pose proof (emits_app _ _ _ _ (scalars_ok (str "PPointData") _ _ eq_refl Mp) (emits_app _ _ _ _ ppoints_ok (sources_ok pieces Qs))) as M. cbn [app] in M.
    pose proof (parallel_xml _ _ M) as X. unfold readParallel.
    match type of X with parseXML ?u = _ => match goal with |- context [parseXML ?v] => replace v with u end end.
    2: { unfold writeParallelPoint, pTail. cbn [txt str list_ascii_of_string app]. repeat (progress (rewrite <- ?app_assoc; cbn [app])). reflexivity. }
    rewrite X, parallel_body. destruct (sources_filter pieces) as (F1 & F2 & F3 & F4 & F5).
    set (d := Element (str "P" ++ str kind) ghost _).
    assert (C1 : children (str "PPointData") d = [Element (str "PPointData") sc np]) by (unfold d; cbn [children filter]; rewrite F2; reflexivity).
    assert (C2 : children (str "PCellData") d = []) by (unfold d; cbn [children filter]; rewrite F3; reflexivity).
    assert (C3 : children (str "PPoints") d = [Element (str "PPoints") [] [posNode]]) by (unfold d; cbn [children filter]; rewrite F4; reflexivity).
    assert (C4 : children (str "Piece") d = map pieceNode pieces) by (unfold d; cbn [children filter]; rewrite F1; reflexivity).
    unfold fields, child. rewrite C1, C2, C3, C4. cbn [children]. rewrite Np, Ap, F5. reflexivity.
  Qed.
End Parallel.

Lemma headers_quotable h postfix : quotable postfix -> (h = (fun n => writePVTP postfix n) \/ exists prefix, quotable prefix /\ h = (fun n => writeConPVTP prefix postfix n)) -> forall n,
  Forall (fun f => quotable (h_name f)) (h_point (h n)) /\ Forall (fun f => quotable (h_name f)) (h_cell (h n)) /\ Forall quotable (h_pieces (h n)).
Proof.
  intros Q Hh n. assert (D : forall i, quotable (dec (Z.of_nat i))) by (intros; apply quotable_dec).
  destruct Hh as [->|(prefix & Qp & ->)]; (split; [|split]); cbn [writePVTP writeConPVTP h_point h_cell h_pieces].
  1,2,4,5: repeat (apply Forall_cons; [cbn [h_name fv]; repeat constructor; intros H; repeat (destruct H as [H|H]; [discriminate H|]); exact H|]); apply Forall_nil.
  all: apply Forall_map, Forall_forall; intros i _; repeat apply quotable_app; try assumption; try apply D;
    repeat constructor; intros H; repeat (destruct H as [H|H]; [discriminate H|]); exact H.
Qed.
Theorem header_text snapID nProcs : readParallel "PolyData" (filePVTP (writePVTP (dec (Z.of_nat snapID)) nProcs)) = Some (writePVTP (dec (Z.of_nat snapID)) nProcs).
Proof.
  destruct (headers_quotable _ _ (quotable_dec snapID) (or_introl eq_refl) nProcs) as (A & B & C). exact (parallel_ok "PolyData" (or_introl eq_refl) _ _ _ A B C).
Qed.
Theorem con_header_text prefix snapID nProcs : quotable prefix ->
  readParallel "PolyData" (filePVTP (writeConPVTP prefix (dec (Z.of_nat snapID)) nProcs)) = Some (writeConPVTP prefix (dec (Z.of_nat snapID)) nProcs).
Proof.
  intros Q. destruct (headers_quotable _ _ (quotable_dec snapID) (or_intror (ex_intro _ prefix (conj Q eq_refl))) nProcs) as (A & B & C). exact (parallel_ok "PolyData" (or_introl eq_refl) _ _ _ A B C).
Qed.

(** ** Precision of a float *)
Local Open Scope R_scope.
Lemma bpow_half e : (/ 2 * bpow radix2 (e + 1) = bpow radix2 e)%R.
Proof. rewrite bpow_plus. change (bpow radix2 1) with 2%R. field. Qed.
Lemma rnd_err emin prec x : (0 < prec)%Z -> (Rabs (round radix2 (FLT_exp emin prec) ZnearestE x - x) <= bpow radix2 (- prec) * Rabs x + bpow radix2 (emin - 1))%R.
Proof.
  intros Hp. destruct (error_N_FLT radix2 emin prec Hp (fun z => negb (Z.even z)) x) as (eps & eta & He & Ht & _ & E).
  rewrite E. replace (x * (1 + eps) + eta - x)%R with (x * eps + eta)%R by ring.
  apply Rle_trans with (1 := Rabs_triang _ _). apply Rplus_le_compat.
  - rewrite Rabs_mult, Rmult_comm. apply Rmult_le_compat_r; [apply Rabs_pos|]. rewrite bpow_half in He. exact He.
  - pose proof (bpow_half (emin - 1)) as H. replace (emin - 1 + 1)%Z with emin in H by lia. rewrite H in Ht. exact Ht.
Qed.
Lemma max32_format : generic_format radix2 fexp32 (IZR (2 ^ 24 - 1) * bpow radix2 104).
Proof. replace (IZR (2 ^ 24 - 1) * bpow radix2 104)%R with (F2R (Float radix2 (2 ^ 24 - 1) 104)) by reflexivity. apply (generic_format_FLT radix2 (-149) 24). apply (FLT_spec _ _ _ _ (Float radix2 (2 ^ 24 - 1) 104)); [reflexivity|cbn; lia|cbn; lia]. Qed.
Theorem to32_error (x : f64) : is_finite x = true -> (Rabs (B2R x) <= IZR (2 ^ 24 - 1) * bpow radix2 104)%R ->
  is_finite (to32 x) = true /\ (Rabs (B2R (to32 x) - B2R x) <= bpow radix2 (-24) * Rabs (B2R x) + bpow radix2 (-150))%R.
Proof.
  intros F L.
  assert (B : (Rabs (rnd32 (B2R x)) < bpow radix2 128)%R).
  { apply Rle_lt_trans with (IZR (2 ^ 24 - 1) * bpow radix2 104)%R.
    - apply abs_round_le_generic; [apply (FLT_exp_valid (-149) 24)|apply valid_rnd_N|apply max32_format|exact L].
    - replace (bpow radix2 128) with (IZR (2 ^ 24) * bpow radix2 104)%R by (change (IZR (2 ^ 24)) with (bpow radix2 24); rewrite <- bpow_plus; reflexivity).
      apply Rmult_lt_compat_r; [apply bpow_gt_0|apply IZR_lt; lia]. }
  destruct (narrow_R x F B) as (E1 & E2 & _). destruct (widen_R (narrow x)) as (E3 & E4 & _). unfold to32. rewrite E3, E4, E1. split; [exact E2|].
  apply (rnd_err (-149) 24 (B2R x)). reflexivity.
Qed.
Theorem to32_exact (x : f64) : is_finite x = true -> generic_format radix2 (FLT_exp (-149) 24) (B2R x) -> (Rabs (B2R x) < bpow radix2 128)%R -> to32 x = x.
Proof.
  intros F G L. assert (E : rnd32 (B2R x) = B2R x) by (apply round_generic; [apply valid_rnd_N|exact G]).
  destruct (narrow_R x F) as (E1 & E2 & E3); [rewrite E; exact L|]. destruct (widen_R (narrow x)) as (E4 & E5 & E6).
  apply BinarySingleNaN.B2R_Bsign_inj; [unfold to32; rewrite E5; exact E2|exact F|unfold to32; rewrite E4, E1; exact E|unfold to32; rewrite (E6 E2); exact E3].
Qed.

(** ** The middle of the two ends *)
Lemma rnd64_err x : (Rabs (rnd64 x - x) <= bpow radix2 (-53) * Rabs x + bpow radix2 (-1075))%R.
Proof. exact (rnd_err (-1074) 53 x eq_refl). Qed.
Lemma rnd64_big x e : (-1074 <= e < 1024)%Z -> (Rabs x <= bpow radix2 e)%R -> (Rabs (rnd64 x) < bpow radix2 emax64)%R.
Proof. intros He H. apply Rle_lt_trans with (bpow radix2 e); [apply rnd64_bpow_le; [lia|exact H]|apply bpow_lt; unfold emax64; lia]. Qed.
Lemma middle (p a : f64) : near p a (fmul (f_lit 1 (-1)) (fadd (fsub p a) (fadd p a))).
Proof.
  intros Fp Fa Lp La. set (m := fmul _ _).
  assert (P1 : bpow radix2 1001 = 2 * bpow radix2 1000) by (change 1001%Z with (1 + 1000)%Z; rewrite bpow_plus; reflexivity).
  assert (P2 : bpow radix2 1002 = 2 * bpow radix2 1001) by (change 1002%Z with (1 + 1001)%Z; rewrite bpow_plus; reflexivity).
  pose proof (bpow_gt_0 radix2 1000) as Pos.
  set (x := B2R p) in *. set (y := B2R a) in *.
  pose proof (Rabs_triang x (- y)) as T1. rewrite Rabs_Ropp in T1. fold (x - y) in T1. pose proof (Rabs_triang x y) as T2.
  destruct (fsub_R p a Fp Fa) as (E1 & F1); [apply rnd64_big with 1001%Z; [lia|fold x y; lra]|]. destruct (fadd_R p a Fp Fa) as (E2 & F2); [apply rnd64_big with 1001%Z; [lia|fold x y; lra]|].
  fold x y in E1, E2. set (l := rnd64 (x - y)) in *. set (r := rnd64 (x + y)) in *.
  assert (Ll : Rabs l <= bpow radix2 1001) by (apply rnd64_bpow_le; [lia|lra]). assert (Lr : Rabs r <= bpow radix2 1001) by (apply rnd64_bpow_le; [lia|lra]).
  pose proof (Rabs_triang l r) as T3.
  destruct (fadd_R (fsub p a) (fadd p a) F1 F2) as (E3 & F3); [rewrite E1, E2; apply rnd64_big with 1002%Z; [lia|lra]|]. rewrite E1, E2 in E3.
  set (s := rnd64 (l + r)) in *. assert (Ls : Rabs s <= bpow radix2 1002) by (apply rnd64_bpow_le; [lia|lra]).
  destruct (f_lit_pow2 (-1) ltac:(lia)) as (E4 & F4).
  assert (Eh : bpow radix2 (-1) = / 2) by reflexivity.
  assert (Lh : Rabs (s * / 2) <= bpow radix2 1002) by (rewrite Rabs_mult, (Rabs_pos_eq (/ 2)) by lra; pose proof (Rabs_pos s); lra).
  destruct (fmul_R (f_lit 1 (-1)) (fadd (fsub p a) (fadd p a)) F4 F3) as (E5 & F5); [rewrite E3, E4, Eh, Rmult_comm; apply rnd64_big with 1002%Z; [lia|exact Lh]|].
  rewrite E3, E4, Eh, Rmult_comm in E5. split; [exact F5|]. unfold m. rewrite E5.
  pose proof (rnd64_err (x - y)) as R1. pose proof (rnd64_err (x + y)) as R2. pose proof (rnd64_err (l + r)) as R3. pose proof (rnd64_err (s * / 2)) as R4.
  fold l in R1. fold r in R2. fold s in R3. set (q := rnd64 (s * / 2)) in *.
  assert (B3 : bpow radix2 (-1073) = 4 * bpow radix2 (-1075)) by (change (-1073)%Z with (2 + -1075)%Z; rewrite bpow_plus; reflexivity).
  assert (B4 : bpow radix2 (-51) = 4 * bpow radix2 (-53)) by (change (-51)%Z with (2 + -53)%Z; rewrite bpow_plus; reflexivity).
  rewrite B3, B4. pose proof (bpow_gt_0 radix2 (-1075)) as Pt. pose proof (bpow_gt_0 radix2 (-53)) as Pu.
  assert (U : bpow radix2 (-53) <= / 100) by (apply Rle_trans with (bpow radix2 (-7)); [apply bpow_le; lia|cbn; lra]).
  set (u := bpow radix2 (-53)) in *. set (t := bpow radix2 (-1075)) in *. clearbody u t q l r s. clear - R1 R2 R3 R4 T1 T2 T3 Pt Pu U.
  set (X := Rabs x) in *. set (Y := Rabs y) in *.
  assert (HX : 0 <= X) by apply Rabs_pos. assert (HY : 0 <= Y) by apply Rabs_pos.
  (* l + r is 2 x up to 2 u (X + Y) + 2 t *)
  assert (A1 : Rabs (l - (x - y)) <= u * (X + Y) + t) by (apply Rle_trans with (1 := R1); apply Rplus_le_compat_r, Rmult_le_compat_l; lra).
  assert (A2 : Rabs (r - (x + y)) <= u * (X + Y) + t) by (apply Rle_trans with (1 := R2); apply Rplus_le_compat_r, Rmult_le_compat_l; lra).
  assert (A3 : Rabs (l + r - 2 * x) <= 2 * (u * (X + Y)) + 2 * t).
  { replace (l + r - 2 * x) with ((l - (x - y)) + (r - (x + y))) by ring. apply Rle_trans with (1 := Rabs_triang _ _). lra. }
  assert (A4 : Rabs (l + r) <= 2 * X + (2 * (u * (X + Y)) + 2 * t)).
  { replace (l + r) with (2 * x + (l + r - 2 * x)) by ring. apply Rle_trans with (1 := Rabs_triang _ _). rewrite Rabs_mult, (Rabs_pos_eq 2) by lra. fold X. lra. }
  assert (A5 : Rabs (s - 2 * x) <= u * (2 * X + (2 * (u * (X + Y)) + 2 * t)) + t + (2 * (u * (X + Y)) + 2 * t)).
  { replace (s - 2 * x) with ((s - (l + r)) + (l + r - 2 * x)) by ring. apply Rle_trans with (1 := Rabs_triang _ _).
    apply Rplus_le_compat; [|exact A3]. apply Rle_trans with (1 := R3). apply Rplus_le_compat_r, Rmult_le_compat_l; lra. }
  assert (A6 : Rabs (s * / 2 - x) = / 2 * Rabs (s - 2 * x)).
  { replace (s * / 2 - x) with (/ 2 * (s - 2 * x)) by field. rewrite Rabs_mult, (Rabs_pos_eq (/ 2)) by lra. reflexivity. }
  assert (A7 : Rabs (s * / 2) <= X + Rabs (s * / 2 - x)).
  { replace (s * / 2) with (x + (s * / 2 - x)) at 1 by ring. apply Rabs_triang. }
  assert (A8 : Rabs (q - x) <= (u * Rabs (s * / 2) + t) + Rabs (s * / 2 - x)).
  { replace (q - x) with ((q - s * / 2) + (s * / 2 - x)) by ring. apply Rle_trans with (1 := Rabs_triang _ _). apply Rplus_le_compat_r. exact R4. }
  set (Z := u * (X + Y)) in *. assert (HZ : 0 <= Z) by (unfold Z; apply Rmult_le_pos; lra).
  assert (HuX : 0 <= u * X <= Z) by (unfold Z; split; [apply Rmult_le_pos; lra|apply Rmult_le_compat_l; lra]).
  assert (HuZ : 0 <= u * Z <= / 100 * Z) by (split; [apply Rmult_le_pos; lra|apply Rmult_le_compat_r; lra]).
  assert (Hut : 0 <= u * t <= / 100 * t) by (split; [apply Rmult_le_pos; lra|apply Rmult_le_compat_r; lra]).
  set (D := Rabs (s * / 2 - x)) in *.
  assert (HD : D <= / 2 * (2 * (u * X) + 2 * (u * Z) + 2 * (u * t) + t + (2 * Z + 2 * t))) by (rewrite A6; apply Rmult_le_compat_l; [lra|]; apply Rle_trans with (1 := A5); apply Req_le; ring).
  assert (HD0 : 0 <= D) by apply Rabs_pos.
  assert (HuD : u * Rabs (s * / 2) <= u * X + / 100 * D).
  { apply Rle_trans with (u * (X + D)); [apply Rmult_le_compat_l; lra|]. rewrite Rmult_plus_distr_l. apply Rplus_le_compat_l, Rmult_le_compat_r; lra. }
  replace (4 * u * (X + Y)) with (4 * Z) by (unfold Z; ring). lra.
Qed.

(** ** Restart from the texts *)
Lemma rebuilt_F eps perp s old : restoredF s (rebuilt (N := F_arith) to32 eps perp s old).
Proof. repeat (split; [reflexivity|]). cbv zeta. split; [|split]; apply middle. Qed.
Theorem restart_text eps perp fresh cont order orders (sss : list (list (sylinder F_arith))) : sss <> [] ->
  Forall2 (fun o ss => Permutation o (seq 0 (length ss))) orders sss -> Permutation order (seq 0 (length (concat sss))) ->
  Forall (Forall (fun s => (- 2 ^ 31 <= s_gid s < 2 ^ 31)%Z /\ (- 2 ^ 31 <= s_group s < 2 ^ 31)%Z)) sss -> Forall (fun ss => (48 * N.of_nat (length ss) < 2 ^ 32)%N) sss ->
  exists texts ps objs,
    Forall2 (fun oss t => (do p <- writeVTP (N := F_arith) to32 (fst oss) (snd oss); fileVTP p) = Done t) (combine orders sss) texts /\ all readVTP texts = Some ps /\
    setInitialFromVTKFile (N := F_arith) eps perp fresh order 0 ps cont = Done objs /\ length objs = length (concat sss) /\
    forall i s, nth_error (concat sss) i = Some s -> exists t, nth_error objs i = Some t /\ restoredF s t.
Proof.
  intros Hne HF Hor Hi Hn.
  destruct (read_back (N := F_arith) to32 eps perp fresh cont order sss Hne Hor) as (objs & E1 & E2 & E3).
  assert (T : exists texts, Forall2 (fun oss t => (do p <- writeVTP (N := F_arith) to32 (fst oss) (snd oss); fileVTP p) = Done t) (combine orders sss) texts /\
    all readVTP texts = Some (map (pieceOf (N := F_arith) to32) sss)).
  { clear - HF Hi Hn. induction HF as [|o ss orders sss H HF IH]; [exists []; split; constructor|].
    inversion_clear Hi as [|? ? Hi1 Hi2]. inversion_clear Hn as [|? ? Hn1 Hn2]. destruct (IH Hi2 Hn2) as (texts & A & B).
    destruct (file_ok _ (objects_storable ss Hi1 Hn1)) as (t & Et & Rt). exists (t :: texts). split.
    - cbn [combine]. constructor; [|exact A]. cbn [fst snd]. rewrite (writeVTP_eq _ _ _ H). exact Et.
    - cbn [all map]. rewrite Rt, B. reflexivity. }
  destruct T as (texts & A & B). exists texts, (map (pieceOf (N := F_arith) to32) sss), objs. repeat (split; [assumption|]).
  intros i s E. destruct (E3 i s E) as (old & Eo). eexists. split; [exact Eo|apply rebuilt_F].
Qed.
