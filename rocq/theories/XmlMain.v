(** The files are read back as they were written. *)
From Coq Require Import String List Arith NArith ZArith Reals Lia Lra Bool Ascii Permutation.
From Flocq Require Import Core BinarySingleNaN Relative.
From Verif Require Import Outcome ListUtil F64 Arith ParticleModel ConModel VecModel SylModel RunModel RunProofs VtpModel VtpSpec VtpProofs Base64Model Base64Spec XmlModel XmlSpec XmlBytes XmlProofs.
Import ListNotations.
Local Open Scope list_scope.
Local Notation length := List.length.
Local Notation concat := List.concat.

(** ** Numbers and types in attributes *)
Lemma dec_isDigit n : Forall (fun c => isDigit c = true /\ isSpace c = false) (dec (Z.of_nat n)).
Proof. apply dec_digits. lia. Qed.
Lemma decimal_dec n : decimal (dec (Z.of_nat n)) = Some n.
Proof.
  unfold decimal. assert (D : forallb (fun c => (48 <=? nat_of_ascii c) && (nat_of_ascii c <=? 57))%nat (dec (Z.of_nat n)) = true).
  { apply forallb_forall. intros c C. exact (proj1 (proj1 (Forall_forall _ _) (dec_isDigit n) c C)). }
  rewrite D. destruct (dec (Z.of_nat n)) eqn:E; [exfalso; exact (dec_nonnil _ E)|]. rewrite <- E. cbn [negb andb].
  change (fold_left _ (dec (Z.of_nat n)) 0%Z) with (fold_left (fun a c => 10 * a + digitVal c)%Z (dec (Z.of_nat n)) 0%Z). rewrite dec_value by lia. rewrite Nat2Z.id. reflexivity.
Qed.
Lemma quotable_dec n : quotable (dec (Z.of_nat n)).
Proof. eapply Forall_impl; [|apply dec_isDigit]. intros c (D & _) I. cbn in I. destruct I as [<-|[<-|[<-|[]]]]; discriminate. Qed.
Lemma quotable_type t : quotable (typeName t).
Proof. destruct t; repeat constructor; intros I; cbn in I; decompose [or] I; try discriminate; assumption. Qed.
Lemma typeNamed_ok t : typeNamed (typeName t) = Some t.
Proof. destruct t; reflexivity. Qed.
Ltac plainQ := repeat constructor; let I := fresh in intros I; cbn in I; decompose [or] I; try discriminate; assumption.
Ltac attrsOk := split; [repeat constructor; cbn [fst snd]; try reflexivity; try assumption; try apply quotable_type; try apply quotable_dec; try plainQ|
  repeat constructor; let I := fresh in intros I; cbn in I; decompose [or] I; try discriminate; try assumption].

(** ** Arrays *)
Lemma letters_ok c : is_letter c \/ c = equals_sign -> (c < 256)%N /\ plain [ascii_of_N c] = true /\ blank (ascii_of_N c) = false.
Proof.
  intros H. assert (F : forallb (fun v => (letter (N.of_nat v) <? 256)%N && plain [ascii_of_N (letter (N.of_nat v))] && negb (blank (ascii_of_N (letter (N.of_nat v))))) (seq 0 64) = true) by (vm_compute; reflexivity).
  destruct H as [(v & V & ->)| ->]; [|repeat split].
  assert (I : In (N.to_nat v) (seq 0 64)) by (apply in_seq; lia). pose proof (proj1 (forallb_forall _ _) F _ I) as G. cbv beta in G. rewrite N2Nat.id in G.
  apply andb_prop in G as (G & G3). apply andb_prop in G as (G1 & G2). apply N.ltb_lt in G1. destruct (blank _); [discriminate|]. repeat split; assumption.
Qed.
Lemma plain_app a b : plain (a ++ b) = plain a && plain b.
Proof. apply forallb_app. Qed.
Lemma text64 b : Forall (fun c => is_letter c \/ c = equals_sign) b ->
  plain (map ascii_of_N b) = true /\ map N_of_ascii (filter (fun c => negb (blank c)) (map ascii_of_N b)) = b /\ (b <> [] -> forallb blank (map ascii_of_N b) = false).
Proof.
  induction 1 as [|c b H F (IH1 & IH2 & _)]; [repeat split; congruence|]. destruct (letters_ok c H) as (L & P & B). cbn [map filter forallb]. rewrite B. cbn [negb andb map].
  repeat split; [|rewrite IH2, N_ascii_embedding by exact L; reflexivity]. change (ascii_of_N c :: map ascii_of_N b) with ([ascii_of_N c] ++ map ascii_of_N b). rewrite plain_app, P, IH1. reflexivity.
Qed.
Ltac texts := unfold showAttrs, showAttr; cbn [map concat fst snd txt str list_ascii_of_string app]; repeat (progress (rewrite <- ?app_assoc; cbn [app])); reflexivity.

Definition arrayAttrs (name : chars) (t : vtype) (comp : nat) : list (chars * chars) :=
  [(str "Name", name); (str "type", typeName t); (str "NumberOfComponents", dec (Z.of_nat comp)); (str "format", str "binary")].
Lemma arrayAttrs_ok name t comp : quotable name -> goodAttrs (arrayAttrs name t comp).
Proof. intros Q. attrsOk. Qed.
Lemma field_ok tag name t comp l : field (Element tag (arrayAttrs name t comp) l) = Some (FieldVTU comp t name).
Proof.
  unfold field. change (attr "Name" (Element tag (arrayAttrs name t comp) l)) with (Some name). change (attr "type" (Element tag (arrayAttrs name t comp) l)) with (Some (typeName t)).
  change (attr "NumberOfComponents" (Element tag (arrayAttrs name t comp) l)) with (Some (dec (Z.of_nat comp))). cbv iota. rewrite typeNamed_ok, decimal_dec. reflexivity.
Qed.

Lemma array_ok a : storable a -> exists t n, writeDataArrayBase64 a = Done t /\ emits t [n] /\ isNamed (str "DataArray") n = true /\ array n = Some a.
Proof.
  intros (Q & T & S). replace (bytesOf (a_type a)) with (sizeOf (a_type a)) in S by (destruct (a_type a); reflexivity).
  destruct (content_ok (a_type a) (a_data a) T S) as (b64 & E & L & D & G). unfold writeDataArrayBase64. rewrite E. cbn [obind].
  destruct (text64 b64 L) as (P & F & Nb).
  assert (B : b64 <> []) by (assert (Z0 : decode64 [] = None) by (vm_compute; reflexivity); intros ->; rewrite Z0 in D; discriminate). specialize (Nb B).
  set (content := nl :: map ascii_of_N b64 ++ [nl]). set (attrs := arrayAttrs (a_name a) (a_type a) (a_comp a)).
  eexists. exists (Element (str "DataArray") attrs [Chars content]). split; [reflexivity|]. split; [|split; [reflexivity|]].
  - match goal with |- emits ?t _ => replace t with ((("<"%char :: (str "DataArray" ++ showAttrs attrs) ++ [">"%char]) ++ content ++ ("<"%char :: ("/"%char :: str "DataArray") ++ [">"%char])) ++ [nl]) by
      (unfold attrs, content, arrayAttrs; texts) end.
    apply (emits_app _ [_] [nl] []); [|apply emits_blank; reflexivity]. assert (Ga : goodAttrs attrs) by (apply arrayAttrs_ok, Q). apply emits_text.
    + rewrite scan_app. change (scan false (str "DataArray")) with (Some false). apply scan_attrs; [exact Ga|reflexivity].
    + pose proof (parseTag_open (str "DataArray") attrs false eq_refl Ga) as H. rewrite app_nil_r in H. exact H.
    + reflexivity.
    + unfold content. change (nl :: map ascii_of_N b64 ++ [nl]) with ([nl] ++ map ascii_of_N b64 ++ [nl]). rewrite !plain_app, P. reflexivity.
    + unfold content. change (nl :: map ascii_of_N b64 ++ [nl]) with ([nl] ++ map ascii_of_N b64 ++ [nl]). rewrite !forallb_app, Nb. reflexivity.
  - cbn [array]. change (isAttr "format" "binary" (Element (str "DataArray") attrs [Chars content])) with true. cbn [negb]. unfold attrs. rewrite field_ok.
    assert (Fc : map N_of_ascii (filter (fun c => negb (blank c)) content) = b64).
    { unfold content. cbn [filter]. change (negb (blank nl)) with false. cbv iota. rewrite filter_app. change (filter (fun c => negb (blank c)) [nl]) with (@nil ascii). rewrite app_nil_r. exact F. }
    rewrite Fc, D. cbn [h_name h_type h_comp]. rewrite G. destruct a; reflexivity.
Qed.
Lemma arrays_ok l : Forall storable l -> exists ts ns, omap writeDataArrayBase64 l = Done ts /\ emits (concat ts) ns /\ filter (isNamed (str "DataArray")) ns = ns /\ all array ns = Some l.
Proof.
  induction 1 as [|a l H F (ts & ns & E & M & N & A)]; [exists [], []; repeat split; apply emits_nil|].
  destruct (array_ok a H) as (t & n & Et & Mt & Nt & At). exists (t :: ts), (n :: ns). cbn [omap]. rewrite Et. cbn [obind]. rewrite E. cbn [obind]. split; [reflexivity|].
  split; [exact (emits_app t [n] _ ns Mt M)|]. cbn [filter all]. rewrite Nt, N, At, A. split; reflexivity.
Qed.

(** ** An element with constant text around *)
Lemma emits_simple name inner ns : properName name = true -> emits inner ns ->
  emits (("<"%char :: name ++ [">"%char]) ++ [nl] ++ inner ++ ("<"%char :: ("/"%char :: name) ++ [">"%char]) ++ [nl]) [Element name [] ns].
Proof.
  intros P I. replace (_ ++ [nl] ++ _) with ((("<"%char :: name ++ [">"%char]) ++ ([nl] ++ inner) ++ ("<"%char :: ("/"%char :: name) ++ [">"%char])) ++ [nl]).
  2: { rewrite <- !app_assoc. reflexivity. }
  apply (emits_app _ [_] [nl] []); [|apply emits_blank; reflexivity]. apply emits_element; [apply scan_name, proper_all, P| |exact P|].
  - pose proof (parseTag_open name [] false P) as H. cbn [showAttrs map concat app] in H. rewrite app_nil_r in H. apply H. split; constructor.
  - apply (emits_app [nl] [] inner ns); [apply emits_blank; reflexivity|exact I].
Qed.
Lemma emits_attrs name attrs blanks inner ns : properName name = true -> goodAttrs attrs -> forallb blank blanks = true -> emits inner ns ->
  emits (("<"%char :: (name ++ showAttrs attrs) ++ [">"%char]) ++ blanks ++ inner ++ ("<"%char :: ("/"%char :: name) ++ [">"%char]) ++ [nl]) [Element name attrs ns].
Proof.
  intros P G Bl I. replace (_ ++ blanks ++ _) with ((("<"%char :: (name ++ showAttrs attrs) ++ [">"%char]) ++ (blanks ++ inner) ++ ("<"%char :: ("/"%char :: name) ++ [">"%char])) ++ [nl]).
  2: { rewrite <- !app_assoc. reflexivity. }
  apply (emits_app _ [_] [nl] []); [|apply emits_blank; reflexivity]. apply emits_element; [| |exact P|].
  - rewrite scan_app, scan_name by apply proper_all, P. apply scan_attrs; [exact G|reflexivity].
  - pose proof (parseTag_open name attrs false P G) as H. rewrite app_nil_r in H. exact H.
  - apply (emits_app blanks [] inner ns); [apply emits_blank, Bl|exact I].
Qed.

Definition storablePiece (p : piece F_arith) : Prop := storable (p_points p) /\ Forall storable (p_lines p) /\ Forall storable (p_point p) /\ Forall storable (p_cell p).

Theorem file_ok p : storablePiece p -> exists t, fileVTP p = Done t /\ readVTP t = Some p.
Proof.
  intros (Sp & Sl & St & Sc). destruct (array_ok _ Sp) as (tp & np & Ep & Mp & Np & Ap). destruct (arrays_ok _ Sl) as (tl & nsl & El & Ml & Nl & Al).
  destruct (arrays_ok _ St) as (tt & nst & Et & Mt & Nt & At). destruct (arrays_ok _ Sc) as (tc & nsc & Ec & Mc & Nc & Ac).
  unfold fileVTP, writePiece. rewrite Ep. cbn [obind]. rewrite El. cbn [obind]. rewrite Et. cbn [obind]. rewrite Ec. cbn [obind]. eexists. split; [reflexivity|].
  set (attrs := [(str "NumberOfPoints", dec (Z.of_nat (n_points p))); (str "NumberOfLines", dec (Z.of_nat (n_lines p)))]).
  set (sc := [(str "Scalars", str "scalars")]).
  assert (Gs : goodAttrs sc) by attrsOk. assert (Ga : goodAttrs attrs) by attrsOk.
  pose proof (emits_simple (str "Points") tp [np] eq_refl Mp) as M1. pose proof (emits_simple (str "Lines") (concat tl) nsl eq_refl Ml) as M2.
  pose proof (emits_attrs (str "PointData") sc [nl] (concat tt) nst eq_refl Gs eq_refl Mt) as M3. pose proof (emits_attrs (str "CellData") sc [nl] (concat tc) nsc eq_refl Gs eq_refl Mc) as M4.
  pose proof (emits_app _ _ _ _ M1 (emits_app _ _ _ _ M2 (emits_app _ _ _ _ M3 M4))) as M. cbn [app] in M.
  pose proof (emits_attrs (str "Piece") attrs [nl] _ _ eq_refl Ga eq_refl M) as MP.
  pose proof (emits_simple (str "PolyData") _ _ eq_refl MP) as MD.
  pose proof (emits_app [nl] [] _ _ (emits_blank [nl] eq_refl) MD) as MN.
  set (root := txt "VTKFile type=""PolyData"" version=""1.0"" byte_order=""LittleEndian""  header_type=""UInt32""").
  set (ra := [(str "type", str "PolyData"); (str "version", str "1.0"); (str "byte_order", str "LittleEndian"); (str "header_type", str "UInt32")]).
  pose proof (document root ra _ _ ltac:(vm_compute; reflexivity) ltac:(vm_compute; reflexivity) MN) as X.
  unfold readVTP. match type of X with parseXML ?u = _ => match goal with |- context [parseXML ?v] => replace v with u end end.
  2: { unfold root, writeHead, writeTail, attrs, sc, showAttrs, showAttr. cbn [map concat fst snd txt str list_ascii_of_string app]. repeat (progress (rewrite <- ?app_assoc; cbn [app])). reflexivity. }
  rewrite X. cbn [app]. set (pn := Element (str "Piece") attrs _). change (body (str "PolyData") (Element (str "VTKFile") ra [Element (str "PolyData") [] [pn]])) with (Some (Element (str "PolyData") [] [pn])). cbv iota.
  change (child (str "Piece") (Element (str "PolyData") [] [pn])) with (Some pn). cbv iota.
  change (attr "NumberOfPoints" pn) with (Some (dec (Z.of_nat (n_points p)))). change (attr "NumberOfLines" pn) with (Some (dec (Z.of_nat (n_lines p)))). cbv iota. rewrite !decimal_dec.
  unfold arrays. change (child (str "Points") pn) with (Some (Element (str "Points") [] [np])). change (child (str "Lines") pn) with (Some (Element (str "Lines") [] nsl)).
  change (child (str "PointData") pn) with (Some (Element (str "PointData") sc nst)). change (child (str "CellData") pn) with (Some (Element (str "CellData") sc nsc)). cbv iota. cbn [children].
  cbn [filter]. rewrite Np. cbn [all]. rewrite Ap. cbv iota. rewrite Nl, Nt, Nc, Al, At, Ac. destruct p; reflexivity.
Qed.
