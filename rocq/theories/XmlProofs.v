(** The reader of XML on texts made of tags. *)
From Coq Require Import String List Arith NArith ZArith Lia Bool Ascii.
From Verif Require Import Outcome ListUtil F64 Arith RunModel RunProofs VtpModel Base64Model Base64Spec XmlModel XmlSpec XmlBytes.
Import ListNotations.
Local Open Scope list_scope.
Local Notation length := List.length.
Local Notation concat := List.concat.

Lemma readChars_app s a b : readChars s (a ++ b) = readChars (readChars s a) b.
Proof. apply fold_left_app. Qed.

(** ** Inside of a tag *)
Definition scan1 (q : option bool) (c : ascii) : option bool :=
  match q with
  | None => None
  | Some q => if Ascii.eqb c "<" || Ascii.eqb c "&" then None else if Ascii.eqb c ">" && negb q then None else Some (if Ascii.eqb c """" then negb q else q)
  end.
Definition scan (q : bool) (t : chars) : option bool := fold_left scan1 t (Some q).
Lemma scan_none t : fold_left scan1 t None = None.
Proof. induction t; [reflexivity|exact IHt]. Qed.
Lemma scan_app q a b : scan q (a ++ b) = match scan q a with Some q => scan q b | None => None end.
Proof. unfold scan. rewrite fold_left_app. destruct (fold_left scan1 a (Some q)); [reflexivity|apply scan_none]. Qed.
Lemma readTag t : forall q q' seen r l, scan q t = Some q' -> readChars (Some (Reading r l (InTag q seen))) t = Some (Reading r l (InTag q' (rev t ++ seen))).
Proof.
  induction t as [|c t IH]; intros q q' seen r l H; [injection H as ->; reflexivity|].
  unfold scan in H. cbn [fold_left] in H. destruct (scan1 (Some q) c) as [q1|] eqn:S; [|rewrite scan_none in H; discriminate].
  change (readChars (Some (Reading r l (InTag q seen))) (c :: t)) with (readChars (readChar (Reading r l (InTag q seen)) c) t). unfold readChar. cbn [at_ root opened].
  unfold scan1 in S. destruct (Ascii.eqb c "<" || Ascii.eqb c "&"); [discriminate|]. destruct (Ascii.eqb c ">" && negb q); [discriminate|]. injection S as <-.
  rewrite IH with (q' := q'); [cbn [rev]; rewrite <- app_assoc; reflexivity|exact H].
Qed.
Lemma scan_quoted t : quotable t -> scan true t = Some true.
Proof.
  induction 1 as [|c t N H IH]; [reflexivity|]. unfold scan in *. cbn [fold_left scan1]. destruct (Ascii.eqb_spec c "<"); [exfalso; apply N; subst; cbn; tauto|].
  destruct (Ascii.eqb_spec c "&"); [exfalso; apply N; subst; cbn; tauto|]. destruct (Ascii.eqb_spec c """"); [exfalso; apply N; subst; cbn; tauto|].
  cbn [orb negb]. rewrite andb_false_r. exact IH.
Qed.
Lemma quotable_app a b : quotable a -> quotable b -> quotable (a ++ b).
Proof. intros. apply Forall_app. split; assumption. Qed.
Lemma name_not c d : nameChar c = true -> nameChar d = false -> Ascii.eqb c d = false.
Proof. intros A B. destruct (Ascii.eqb_spec c d); [subst; rewrite A in B; discriminate|reflexivity]. Qed.
Lemma name_not_blank c : nameChar c = true -> blank c = false.
Proof. intros A. destruct (blank c) eqn:B; [|reflexivity]. exfalso. destruct c as [[] [] [] [] [] [] [] []]; vm_compute in A, B; discriminate. Qed.
Lemma scan_name t : forallb nameChar t = true -> scan false t = Some false.
Proof.
  induction t as [|c t IH]; [reflexivity|]. cbn [forallb]. intros H. apply andb_prop in H as (A & B). unfold scan in *. cbn [fold_left scan1].
  rewrite !(name_not c) by (exact A || reflexivity). cbn [orb andb]. exact (IH B).
Qed.
Lemma proper_all t : properName t = true -> forallb nameChar t = true.
Proof. destruct t; [discriminate|exact (fun H => H)]. Qed.

(** ** Attributes *)
Definition showAttr (kv : chars * chars) : chars := " "%char :: fst kv ++ "="%char :: """"%char :: snd kv ++ [""""%char].
Definition showAttrs (l : list (chars * chars)) : chars := concat (map showAttr l).
Definition goodAttrs (l : list (chars * chars)) : Prop := Forall (fun kv => properName (fst kv) = true /\ quotable (snd kv)) l /\ NoDup (map fst l).

Lemma cut_ok p a c b : forallb (fun x => negb (p x)) a = true -> p c = true -> cut p (a ++ c :: b) = (a, c :: b).
Proof. intros A C. induction a as [|x a IH]; cbn [app cut]; [rewrite C; reflexivity|]. cbn [forallb] in A. apply andb_prop in A as (X & A). rewrite (IH A). destruct (p x); [discriminate|reflexivity]. Qed.
Lemma cut_all p a : forallb (fun x => negb (p x)) a = true -> cut p a = (a, []).
Proof. intros A. induction a as [|x a IH]; [reflexivity|]. cbn [forallb cut] in *. apply andb_prop in A as (X & A). rewrite (IH A). destruct (p x); [discriminate|reflexivity]. Qed.
Lemma same_refl a : same a a = true.
Proof. unfold same. destruct (list_eq_dec ascii_dec a a); [reflexivity|contradiction]. Qed.
Lemma same_not a b : a <> b -> same a b = false.
Proof. unfold same. destruct (list_eq_dec ascii_dec a b); [contradiction|reflexivity]. Qed.
Lemma quotable_noquote t : quotable t -> forallb (fun x => negb (Ascii.eqb x """")) t = true.
Proof. intros H. apply forallb_forall. intros c C. destruct (Ascii.eqb_spec c """"); [|reflexivity]. exfalso. apply (proj1 (Forall_forall _ _) H c C). subst. cbn. tauto. Qed.
Lemma name_nocut (p : ascii -> bool) t : forallb nameChar t = true -> (forall c, nameChar c = true -> p c = false) -> forallb (fun x => negb (p x)) t = true.
Proof. intros H P. apply forallb_forall. intros c C. rewrite (P c); [reflexivity|]. exact (proj1 (forallb_forall _ _) H c C). Qed.

Lemma attributes_ok l : goodAttrs l -> forall fuel (slash : bool), (length l < fuel)%nat -> attributes fuel (showAttrs l ++ if slash then ["/"%char] else []) = Some (l, slash).
Proof.
  intros (G & D). induction l as [|(k, v) l IH]; intros fuel slash F; (destruct fuel as [|fuel]; [cbn in F; lia|]).
  - destruct slash; reflexivity.
  - inversion G as [|? ? (Pk & Qv) G']; subst. inversion D as [|? ? Nk D']; subst. cbn [fst snd] in *.
    unfold showAttrs. cbn [map concat]. unfold showAttr at 1. cbn [fst snd].
    set (rest := concat (map showAttr l) ++ if slash then ["/"%char] else []) in *.
    replace ((" "%char :: k ++ "="%char :: """"%char :: v ++ [""""%char]) ++ concat (map showAttr l)) with (" "%char :: k ++ "="%char :: """"%char :: v ++ """"%char :: concat (map showAttr l)).
    2: { cbn [app]. rewrite <- app_assoc. cbn [app]. rewrite <- app_assoc. reflexivity. }
    assert (E : (" "%char :: k ++ "="%char :: """"%char :: v ++ """"%char :: concat (map showAttr l)) ++ (if slash then ["/"%char] else []) = " "%char :: k ++ "="%char :: """"%char :: v ++ """"%char :: rest).
    { unfold rest. cbn [app]. rewrite <- app_assoc. cbn [app]. rewrite <- app_assoc. reflexivity. }
    rewrite E. destruct k as [|c k]; [discriminate Pk|]. pose proof (proper_all _ Pk) as Pa. cbn [forallb] in Pa. apply andb_prop in Pa as (Pc & Pa).
    assert (C : cut (fun c => negb (blank c)) (" "%char :: (c :: k) ++ "="%char :: """"%char :: v ++ """"%char :: rest) = ([" "%char], (c :: k) ++ "="%char :: """"%char :: v ++ """"%char :: rest)).
    { cbn [app cut]. rewrite (name_not_blank c Pc). reflexivity. }
    cbn [attributes]. rewrite C. cbn [snd]. change (negb (blank " ")) with false. cbv iota. rewrite <- app_comm_cons.
    assert (K : cut (fun c0 => Ascii.eqb c0 "=" || blank c0) (c :: k ++ "="%char :: """"%char :: v ++ """"%char :: rest) = (c :: k, "="%char :: """"%char :: v ++ """"%char :: rest)).
    { rewrite app_comm_cons. apply cut_ok; [|reflexivity]. apply name_nocut; [cbn [forallb]; rewrite Pc; exact Pa|]. intros d Hd. rewrite (name_not d), (name_not_blank d) by (exact Hd || reflexivity). reflexivity. }
    assert (V : cut (fun c0 => Ascii.eqb c0 """") (v ++ """"%char :: rest) = (v, """"%char :: rest)) by (apply cut_ok; [apply quotable_noquote, Qv|reflexivity]).
    rewrite K. destruct (k ++ "="%char :: """"%char :: v ++ """"%char :: rest) as [|d t'] eqn:T; [destruct k; discriminate|].
    assert (Nn : forall (X Y : option (list (chars * chars) * bool)), (match c with "/"%char => match d :: t' with [] => X | _ => Y end | _ => Y end) = Y).
    { intros X Y. destruct c as [[] [] [] [] [] [] [] []]; reflexivity. }
    assert (Rest : attributes fuel rest = Some (l, slash)) by (apply (IH G' D'); cbn in F; lia).
    assert (Ne : existsb (fun kv : chars * chars => same (fst kv) (c :: k)) l = false).
    { apply Bool.not_true_iff_false. intros Ex. apply existsb_exists in Ex as (kv & I & S). apply Nk. unfold same in S. destruct (list_eq_dec ascii_dec (fst kv) (c :: k)) as [<-|]; [|discriminate]. apply in_map, I. }
    assert (Main : (if negb (Ascii.eqb "=" "=" && Ascii.eqb """" """" && properName (c :: k)) then None
      else let (v0, r1) := cut (fun c0 : ascii => Ascii.eqb c0 """") (v ++ """"%char :: rest) in
        match r1 with [] => None | _ :: r2 => match attributes fuel r2 with Some (l0, s) => if existsb (fun kv => same (fst kv) (c :: k)) l0 then None else Some ((c :: k, v0) :: l0, s) | None => None end end)
      = Some ((c :: k, v) :: l, slash)).
    { rewrite Pk, V, Rest, Ne. reflexivity. }
    destruct c as [[] [] [] [] [] [] [] []]; exact Main.
Qed.
Lemma showAttrs_long l : (length l <= length (showAttrs l))%nat.
Proof. unfold showAttrs. induction l as [|kv l IH]; [reflexivity|]. cbn [map concat length]. rewrite app_length. unfold showAttr at 1. cbn [length]. lia. Qed.
Lemma scan_attrs l q : goodAttrs l -> q = false -> scan q (showAttrs l) = Some q.
Proof.
  intros (G & _) ->. unfold showAttrs. induction G as [|(k, v) l (Pk & Qv) G IH]; [reflexivity|]. cbn [map concat fst snd]. rewrite scan_app. unfold showAttr at 1. cbn [fst snd] in *.
  change (" "%char :: k ++ "="%char :: """"%char :: v ++ [""""%char]) with ([" "%char] ++ k ++ ["="%char; """"%char] ++ v ++ [""""%char]).
  rewrite !scan_app. change (scan false [" "%char]) with (Some false). cbv iota. rewrite scan_app, (scan_name k) by apply proper_all, Pk. rewrite scan_app. change (scan false ["="%char; """"%char]) with (Some true). cbv iota. rewrite scan_app, (scan_quoted v Qv). change (scan true [""""%char]) with (Some false). exact IH.
Qed.

Lemma parseTag_open name l (slash : bool) : properName name = true -> goodAttrs l ->
  parseTag (name ++ showAttrs l ++ if slash then ["/"%char] else []) = Some (if slash then Empty name l else Opening name l).
Proof.
  intros P G. pose proof (proper_all _ P) as A. destruct name as [|c name]; [discriminate|]. cbn [forallb] in A. apply andb_prop in A as (Ac & A).
  set (r := showAttrs l ++ _).
  assert (C : cut (fun c0 => blank c0 || Ascii.eqb c0 "/") ((c :: name) ++ r) = (c :: name, r)).
  { assert (Na : forallb (fun x => negb (blank x || Ascii.eqb x "/")) (c :: name) = true).
    { apply name_nocut; [cbn [forallb]; rewrite Ac; exact A|]. intros d Hd. rewrite (name_not d), (name_not_blank d) by (exact Hd || reflexivity). reflexivity. }
    destruct l as [|kv l].
    - destruct slash; [apply cut_ok; [exact Na|reflexivity]|]. change r with (@nil ascii). rewrite app_nil_r. apply cut_all, Na.
    - assert (Er : exists r', r = " "%char :: r') by (unfold r, showAttrs; cbn [map concat]; unfold showAttr at 1; eexists; reflexivity).
      destruct Er as (r' & ->). apply cut_ok; [exact Na|reflexivity]. }
  assert (R : attributes (S (length r)) r = Some (l, slash)).
  { unfold r. apply attributes_ok; [exact G|]. rewrite app_length. pose proof (showAttrs_long l). lia. }
  assert (Main : (let (name, r) := cut (fun c => blank c || Ascii.eqb c "/"%char) ((c :: name) ++ r) in
         if negb (properName name) then None else
         match attributes (S (length r)) r with
         | None => None
         | Some (l, true) => Some (Empty name l)
         | Some (l, false) => Some (Opening name l)
         end) = Some (if slash then Empty (c :: name) l else Opening (c :: name) l)).
  { rewrite C, P. cbn [negb]. rewrite R. destruct slash; reflexivity. }
  rewrite <- Main. destruct c as [[] [] [] [] [] [] [] []]; try reflexivity; vm_compute in Ac; discriminate.
Qed.
Lemma parseTag_close name : properName name = true -> parseTag ("/"%char :: name) = Some (Closing name).
Proof.
  intros P. cbn [parseTag]. rewrite cut_all; [rewrite P; reflexivity|]. apply name_nocut; [apply proper_all, P|exact name_not_blank].
Qed.

(** ** Elements *)
Definition emits (t : chars) (ns : list node) : Prop :=
  forall u l seen, forallb blank seen = true -> exists seen', forallb blank seen' = true /\
    readChars (Some (Reading None (u :: l) (InText seen))) t = Some (Reading None (Unfinished (u_name u) (u_attrs u) (rev ns ++ u_content u) :: l) (InText seen')).

Lemma emits_nil : emits [] [].
Proof. intros u l seen B. exists seen. split; [exact B|]. destruct u; reflexivity. Qed.
Lemma emits_app t1 n1 t2 n2 : emits t1 n1 -> emits t2 n2 -> emits (t1 ++ t2) (n1 ++ n2).
Proof.
  intros H1 H2 u l seen B. destruct (H1 u l seen B) as (s1 & B1 & E1). destruct (H2 (Unfinished (u_name u) (u_attrs u) (rev n1 ++ u_content u)) l s1 B1) as (s2 & B2 & E2).
  exists s2. split; [exact B2|]. rewrite readChars_app, E1, E2. cbn [u_name u_attrs u_content]. rewrite rev_app_distr, <- app_assoc. reflexivity.
Qed.
Lemma emits_concat ts ns : Forall2 (fun t n => emits t [n]) ts ns -> emits (concat ts) ns.
Proof. induction 1 as [|t n ts ns H F IH]; [exact emits_nil|]. cbn [concat]. apply (emits_app t [n] (concat ts) ns H IH). Qed.

Lemma blank_char c seen r l : blank c = true -> readChar (Reading r l (InText seen)) c = Some (Reading r l (InText (c :: seen))).
Proof. intros B. unfold readChar. cbn [at_ root opened]. destruct (Ascii.eqb_spec c "<"); [subst; discriminate|]. destruct (Ascii.eqb_spec c "&"); [subst; discriminate|]. reflexivity. Qed.
Lemma blanks_read t : forallb blank t = true -> forall seen r l, readChars (Some (Reading r l (InText seen))) t = Some (Reading r l (InText (rev t ++ seen))).
Proof.
  induction t as [|c t IH]; intros B seen r l; [reflexivity|]. cbn [forallb] in B. apply andb_prop in B as (C & B).
  change (readChars (Some (Reading r l (InText seen))) (c :: t)) with (readChars (readChar (Reading r l (InText seen)) c) t). rewrite blank_char by exact C.
  rewrite (IH B). cbn [rev]. rewrite <- app_assoc. reflexivity.
Qed.
Lemma forallb_rev {A} (p : A -> bool) l : forallb p (rev l) = forallb p l.
Proof. induction l; [reflexivity|]. cbn [rev forallb]. rewrite forallb_app, IHl. cbn. rewrite andb_true_r. apply andb_comm. Qed.
Lemma emits_blank t : forallb blank t = true -> emits t [].
Proof. intros B u l seen S. exists (rev t ++ seen). split; [rewrite forallb_app, forallb_rev, B, S; reflexivity|]. rewrite (blanks_read t B). destruct u; reflexivity. Qed.

Lemma open_tag r l seen raw g : forallb blank seen = true -> scan false raw = Some false -> parseTag raw = Some g ->
  readChars (Some (Reading r l (InText seen))) ("<"%char :: raw ++ [">"%char]) = tagDone g r l.
Proof.
  intros B S P. change ("<"%char :: raw ++ [">"%char]) with (["<"%char] ++ raw ++ [">"%char]). rewrite !readChars_app.
  assert (E : readChars (Some (Reading r l (InText seen))) ["<"%char] = Some (Reading r l (InTag false []))).
  { cbn. unfold textDone. rewrite forallb_rev, B. reflexivity. }
  rewrite E, (readTag raw false false) by exact S. cbn. rewrite app_nil_r, rev_involutive, P. reflexivity.
Qed.
Lemma emits_empty raw name attrs : scan false raw = Some false -> parseTag raw = Some (Empty name attrs) -> emits ("<"%char :: raw ++ [">"%char]) [Element name attrs []].
Proof. intros S P u l seen B. exists []. split; [reflexivity|]. rewrite (open_tag _ _ _ _ _ B S P). reflexivity. Qed.
Lemma close_scan name : properName name = true -> scan false ("/"%char :: name) = Some false.
Proof. intros P. change ("/"%char :: name) with (["/"%char] ++ name). rewrite scan_app. change (scan false ["/"%char]) with (Some false). apply scan_name, proper_all, P. Qed.
Lemma emits_element raw name attrs inner ns : scan false raw = Some false -> parseTag raw = Some (Opening name attrs) -> properName name = true -> emits inner ns ->
  emits (("<"%char :: raw ++ [">"%char]) ++ inner ++ ("<"%char :: ("/"%char :: name) ++ [">"%char])) [Element name attrs ns].
Proof.
  intros S P N I u l seen B. exists []. split; [reflexivity|]. rewrite !readChars_app, (open_tag _ _ _ _ _ B S P). cbn [tagDone].
  destruct (I (Unfinished name attrs []) (u :: l) [] eq_refl) as (s & Bs & E). rewrite E. cbn [u_name u_attrs u_content]. rewrite app_nil_r.
  rewrite (open_tag _ _ _ _ (Closing name) Bs (close_scan name N) (parseTag_close name N)). cbn [tagDone u_name u_attrs u_content]. rewrite same_refl, rev_involutive. reflexivity.
Qed.
(** text without tags *)
Definition plain (t : chars) : bool := forallb (fun c => negb (Ascii.eqb c "<" || Ascii.eqb c "&")) t.
Lemma plain_read t : plain t = true -> forall seen r l, readChars (Some (Reading r l (InText seen))) t = Some (Reading r l (InText (rev t ++ seen))).
Proof.
  induction t as [|c t IH]; intros B seen r l; [reflexivity|]. unfold plain in *. cbn [forallb] in B. apply andb_prop in B as (C & B).
  change (readChars (Some (Reading r l (InText seen))) (c :: t)) with (readChars (readChar (Reading r l (InText seen)) c) t). unfold readChar at 1. cbn [at_ root opened].
  destruct (Ascii.eqb c "<"); [discriminate|]. destruct (Ascii.eqb c "&"); [discriminate|]. rewrite (IH B). cbn [rev]. rewrite <- app_assoc. reflexivity.
Qed.
Lemma emits_text raw name attrs t : scan false raw = Some false -> parseTag raw = Some (Opening name attrs) -> properName name = true -> plain t = true -> forallb blank t = false ->
  emits (("<"%char :: raw ++ [">"%char]) ++ t ++ ("<"%char :: ("/"%char :: name) ++ [">"%char])) [Element name attrs [Chars t]].
Proof.
  intros S P N T Nb u l seen B. exists []. split; [reflexivity|]. rewrite !readChars_app, (open_tag _ _ _ _ _ B S P). cbn [tagDone]. rewrite (plain_read t T), app_nil_r.
  change ("<"%char :: ("/"%char :: name) ++ [">"%char]) with (["<"%char] ++ ("/"%char :: name) ++ [">"%char]). rewrite !readChars_app.
  assert (E : readChars (Some (Reading None (Unfinished name attrs [] :: u :: l) (InText (rev t)))) ["<"%char] = Some (Reading None (Unfinished name attrs [Chars t] :: u :: l) (InTag false []))).
  { cbn. unfold textDone. rewrite rev_involutive, Nb. reflexivity. }
  rewrite E, (readTag _ false false _ _ _ (close_scan name N)). cbn [readChars fold_left readChar at_]. cbn [Ascii.eqb Bool.eqb orb andb negb]. rewrite app_nil_r, rev_involutive, (parseTag_close name N).
  cbn [tagDone u_name u_attrs u_content root opened]. rewrite same_refl. reflexivity.
Qed.
(** a whole file *)
Lemma document raw attrs inner ns : scan false raw = Some false -> parseTag raw = Some (Opening (str "VTKFile") attrs) -> emits inner ns ->
  parseXML ((txt "<?xml version=""1.0""?>" ++ [nl]) ++ ("<"%char :: raw ++ [">"%char]) ++ inner ++ txt "</VTKFile>" ++ [nl]) = Some (Element (str "VTKFile") attrs ns).
Proof.
  intros S P I. unfold parseXML. rewrite readChars_app.
  assert (E : readChars (Some (Reading None [] (InText []))) (txt "<?xml version=""1.0""?>" ++ [nl]) = Some (Reading None [] (InText [nl]))) by (vm_compute; reflexivity).
  rewrite E, readChars_app, (open_tag None [] [nl] raw _ eq_refl S P). cbn [tagDone]. rewrite readChars_app.
  destruct (I (Unfinished (str "VTKFile") attrs []) [] [] eq_refl) as (s & Bs & E'). rewrite E'. cbn [u_name u_attrs u_content]. rewrite app_nil_r, readChars_app.
  change (txt "</VTKFile>") with ("<"%char :: ("/"%char :: str "VTKFile") ++ [">"%char]).
  rewrite (open_tag None _ s ("/"%char :: str "VTKFile") (Closing (str "VTKFile")) Bs eq_refl eq_refl). cbn [tagDone u_name u_attrs u_content]. rewrite same_refl, rev_involutive. cbn. reflexivity.
Qed.
