(** Proofs about the texts of the command line parser. *)
From Coq Require Import List Arith ZArith Bool Ascii String Lia.
From Verif Require Import Outcome ParticleModel RunModel VtpModel YamlProofs CmdModel CmdSpec CmdProofs CmdMsgModel CmdMsgSpec.
From Verif Require RunProofs.
Import ListNotations.
Local Notation length := List.length.

(** * Usage *)
Lemma split_none sep t : ~ In sep t -> split sep t = [t].
Proof.
  induction t as [|c t IH]; intros H; [reflexivity|]. cbn [split].
  destruct (Ascii.eqb_spec c sep) as [->|_]; [exfalso; apply H; left; reflexivity|].
  rewrite IH; [reflexivity|]. intros I. apply H. right. exact I.
Qed.
Lemma split_app sep t r : ~ In sep t -> split sep (t ++ sep :: r) = t :: split sep r.
Proof.
  induction t as [|c t IH]; intros H; cbn [app split].
  - rewrite Ascii.eqb_refl. reflexivity.
  - destruct (Ascii.eqb_spec c sep) as [->|_]; [exfalso; apply H; left; reflexivity|].
    rewrite IH; [reflexivity|]. intros I. apply H. right. exact I.
Qed.
Lemma after_app p t : after p (p ++ t) = Some t.
Proof. induction p as [|a p IH]; [destruct t; reflexivity|]. cbn. rewrite Ascii.eqb_refl. exact IH. Qed.
Lemma between_app p s t : between p s (p ++ t ++ s) = Some t.
Proof. unfold between. rewrite after_app, rev_app_distr, after_app, rev_involutive. reflexivity. Qed.

Lemma not_in_cons (x a : ascii) l : x <> a -> ~ In x l -> ~ In x (a :: l).
Proof. intros H1 H2 [E|I]; [congruence | contradiction]. Qed.
Lemma not_in_app (x : ascii) l l' : ~ In x l -> ~ In x l' -> ~ In x (l ++ l').
Proof. intros H1 H2 I. apply in_app_iff in I. destruct I; contradiction. Qed.
Lemma command_without x c : x <> "-"%char -> ~ In x (name c) -> ~ In x (command c).
Proof. intros Hx H. unfold command. destruct (name c) as [|a n]; [intros [] | apply not_in_cons; assumption]. Qed.
Lemma alternative_without x c : x <> "-"%char -> ~ In x (alt c) -> ~ In x (alternative c).
Proof. intros Hx H. unfold alternative. destruct (alt c) as [|a n]; [intros [] | apply not_in_cons; [|apply not_in_cons]; assumption]. Qed.
(** literals *)
Definition lacks (x : ascii) (t : text) : bool := negb (existsb (Ascii.eqb x) t).
Lemma lacks_ok x t : lacks x t = true -> ~ In x t.
Proof.
  unfold lacks. intros H I. apply negb_true_iff in H. rewrite <- not_true_iff_false in H. apply H.
  apply existsb_exists. exists x. split; [exact I | apply Ascii.eqb_refl].
Qed.

Lemma Done_inj {A} (a b : A) : Done a = Done b -> a = b.
Proof. intros H. injection H as <-. reflexivity. Qed.
Lemma entry_read o v real e rest : clean o v -> (required (fst o) = false -> print_value real (fst o) = Done v) ->
  usageEntry real o = Done e ->
  readEntries (split nl (e ++ rest)) = match readEntries (split nl rest) with Some is => Some (tells o v :: is) | None => None end.
Proof.
  intros (C1 & C2 & C3 & C4 & C5 & C6) Hv E. unfold usageEntry in E.
  assert (NN : nl <> "-"%char) by discriminate. assert (NT : tab <> "-"%char) by discriminate.
  pose proof (command_without nl (fst o) NN C1) as Kc. pose proof (command_without tab (fst o) NT C2) as Kt.
  pose proof (alternative_without nl (fst o) NN C3) as Ac. pose proof (alternative_without tab (fst o) NT C4) as At.
  unfold tells. destruct (required (fst o)).
  - apply Done_inj in E. subst e. cbv iota.
    match goal with |- readEntries (split nl ?t) = _ =>
      replace t with ((txt "  " ++ command (fst o) ++ tab :: alternative (fst o) ++ tab :: txt "(required)") ++ nl :: (txt "   " ++ snd o) ++ nl :: [] ++ nl :: rest)
        by (repeat first [rewrite <- app_assoc | progress cbn [app]]; reflexivity) end.
    rewrite split_app; [rewrite split_app; [rewrite split_app|]|].
    + cbn [readEntries]. rewrite !after_app.
      change (ascii_of_nat 9) with tab. rewrite split_app by exact Kt. rewrite split_app by exact At.
      rewrite split_none by (apply lacks_ok; reflexivity).
      destruct (split nl rest) as [|r1 rs]; reflexivity.
    + intros [].
    + apply not_in_app; [apply lacks_ok; reflexivity | exact C5].
    + apply not_in_app; [apply lacks_ok; reflexivity|]. apply not_in_app; [exact Kc|]. apply not_in_cons; [discriminate|].
      apply not_in_app; [exact Ac|]. apply not_in_cons; [discriminate|]. apply lacks_ok; reflexivity.
  - rewrite Hv in E by reflexivity. cbn [obind] in E. apply Done_inj in E. subst e.
    remember (txt "This parameter is optional. The default value is '") as lit.
    cbv iota.
    match goal with |- readEntries (split nl ?t) = _ =>
      replace t with ((txt "  " ++ command (fst o) ++ tab :: alternative (fst o)) ++ nl :: (txt "   " ++ snd o) ++ nl :: ((txt "   " ++ lit) ++ v ++ txt "'.") ++ nl :: [] ++ nl :: rest)
        by (repeat first [rewrite <- app_assoc | progress cbn [app]]; reflexivity) end.
    assert (El : txt "   " ++ lit = txt "   This parameter is optional. The default value is '") by (subst lit; reflexivity).
    rewrite El.
    rewrite split_app; [rewrite split_app; [rewrite split_app; [rewrite split_app|]|]|].
    + cbn [readEntries]. rewrite !after_app.
      change (ascii_of_nat 9) with tab. rewrite split_app by exact Kt. rewrite split_none by exact At.
      rewrite between_app. reflexivity.
    + intros [].
    + apply not_in_app; [apply lacks_ok; reflexivity|]. apply not_in_app; [exact C6 | apply lacks_ok; reflexivity].
    + apply not_in_app; [apply lacks_ok; reflexivity | exact C5].
    + apply not_in_app; [apply lacks_ok; reflexivity|]. apply not_in_app; [exact Kc|]. apply not_in_cons; [discriminate | exact Ac].
Qed.

Fixpoint entries (real : Z -> text) (os : list opt) : outcome (list text) :=
  match os with [] => Done [] | o :: os => do e <- usageEntry real o ; do r <- entries real os ; Done (e :: r) end.
Lemma usage_entries real os : usage real os = do es <- entries real os ; Done (txt "Available parameters:" ++ [nl; nl] ++ List.concat es).
Proof.
  unfold usage.
  match goal with |- obind (?f os) _ = _ => assert (E : forall os, f os = entries real os) end.
  { induction os0 as [|o os0 IH]; [reflexivity|]. cbn [entries]. rewrite <- IH. reflexivity. }
  rewrite E. reflexivity.
Qed.

Lemma entry_done real o v : (required (fst o) = false -> print_value real (fst o) = Done v) -> exists e, usageEntry real o = Done e.
Proof.
  intros H. unfold usageEntry. destruct (required (fst o)); [eexists; reflexivity|].
  rewrite H by reflexivity. cbn [obind]. eexists. reflexivity.
Qed.

Theorem usage_read real os vs : Forall2 (fun o v => clean o v /\ (required (fst o) = false -> print_value real (fst o) = Done v)) os vs ->
  exists t, usage real os = Done t /\ readUsage t = Some (map (fun p => tells (fst p) (snd p)) (combine os vs)).
Proof.
  intros H. rewrite usage_entries.
  assert (G : exists es, entries real os = Done es /\ readEntries (split nl (List.concat es)) = Some (map (fun p => tells (fst p) (snd p)) (combine os vs))).
  { induction H as [|o v os vs [Hc Hv] _ (es & E & R)]; [exists []; split; reflexivity|].
    destruct (entry_done real o v Hv) as (e & Ee). exists (e :: es). cbn [entries]. rewrite Ee. cbn [obind]. rewrite E. cbn [obind].
    split; [reflexivity|]. cbn [List.concat]. rewrite (entry_read o v real e _ Hc Hv Ee), R. reflexivity. }
  destruct G as (es & E & R). rewrite E. cbn [obind]. eexists. split; [reflexivity|].
  unfold readUsage. change (ascii_of_nat 10) with nl. cbn [app].
  rewrite split_app by (apply lacks_ok; reflexivity).
  change (nl :: List.concat es) with ([] ++ nl :: List.concat es). rewrite split_app by intros []. exact R.
Qed.

(** * Help *)
Theorem help_on os : has_help (map (fun c => (c, [])) (enable_help []) ++ os) = true.
Proof. reflexivity. Qed.
Theorem help_off os : disable_help (map (fun c => (c, [])) (enable_help []) ++ os) = os.
Proof. reflexivity. Qed.
Theorem help_meaning os : has_help os = true <-> exists o, In o os /\ command (fst o) = txt "-h" /\ alternative (fst o) = txt "--help".
Proof.
  unfold has_help. rewrite existsb_exists. split; intros (o & I & H); exists o; (split; [exact I|]); unfold isHelp in *.
  - apply andb_true_iff in H. destruct H as [H1 H2]. apply teq_spec in H1, H2. split; [|exact H2]. unfold command. rewrite H1. reflexivity.
  - destruct H as [H1 H2]. apply andb_true_iff. split; apply teq_spec; [|exact H2]. unfold command in H1. destruct (name (fst o)); [discriminate H1|]. injection H1 as -> ->. reflexivity.
Qed.
Lemma dec_digitsOf z : (0 <= z)%Z -> digitsOf z (dec z).
Proof.
  intros H. split; [apply RunProofs.dec_nonnil|]. split.
  - eapply Forall_impl; [|apply RunProofs.dec_digits, H]. intros c (D & _). unfold isDigit in D. apply andb_true_iff in D. destruct D as [D1 D2]. apply Nat.leb_le in D1, D2. lia.
  - exact (RunProofs.dec_value z H).
Qed.
Theorem int_text real z : exists t, stringify real (VInt z) = Done t /\ integerText z t.
Proof.
  cbn [stringify]. eexists. split; [reflexivity|]. destruct (Z.ltb_spec z 0) as [H|H].
  - right. split; [exact H|]. eexists. split; [reflexivity|]. apply dec_digitsOf. lia.
  - left. split; [exact H|]. apply dec_digitsOf, H.
Qed.

(** * Messages *)
Lemma assign_length args : forall cs cur, length (fst (assign cs cur args)) = length cs.
Proof.
  induction args as [|a args IH]; intros cs cur; [reflexivity|]. cbn [assign].
  destruct (match a with c :: _ => Ascii.eqb c "-" | [] => false end).
  - destruct (find cs a) as [i|].
    + rewrite IH. apply modify_length.
    + destruct cur as [i|]; [|reflexivity]. rewrite IH. apply modify_length.
  - destruct cur as [i|]; [|reflexivity]. rewrite IH. apply modify_length.
Qed.
Lemma combine_fst {A B} (a : list A) : forall b : list B, length a = length b -> map fst (combine a b) = a.
Proof. induction a as [|x a IH]; intros [|y b] H; try discriminate; [reflexivity|]. cbn. rewrite IH; [reflexivity | cbn in H; lia]. Qed.
Lemma combine_snd {A B} (a : list A) : forall b : list B, length a = length b -> map snd (combine a b) = b.
Proof. induction a as [|x a IH]; intros [|y b] H; try discriminate; [reflexivity|]. cbn. rewrite IH; [reflexivity | cbn in H; lia]. Qed.

Lemma parseLoop_refines conv help dom os : forall os' e m, parseLoop conv help dom os = (os', e, m) ->
  parseAll conv dom (map fst os) = (map fst os', e) /\ map snd os' = map snd os.
Proof.
  induction os as [|o os IH]; intros os' e m H.
  - injection H as <- <- <-. split; reflexivity.
  - cbn [parseLoop] in H. cbn [map parseAll]. destruct (handled (fst o) && Bool.eqb (dominant (fst o)) dom).
    + destruct (parse conv (fst o)) as [v| | |].
      * destruct (parseLoop conv help dom os) as [[os1 e1] m1]. injection H as <- <- <-.
        destruct (IH _ _ _ eq_refl) as [A B]. rewrite A. cbn [map fst snd]. rewrite B. split; reflexivity.
      * injection H as <- <- <-. split; reflexivity.
      * injection H as <- <- <-. split; reflexivity.
      * injection H as <- <- <-. split; reflexivity.
    + destruct (parseLoop conv help dom os) as [[os1 e1] m1]. injection H as <- <- <-.
      destruct (IH _ _ _ eq_refl) as [A B]. rewrite A. cbn [map fst snd]. rewrite B. split; reflexivity.
Qed.
Lemma find_exists {A} (p : A -> bool) l : (match List.find p l with Some _ => true | None => false end) = existsb p l.
Proof. induction l as [|x l IH]; [reflexivity|]. cbn. destruct (p x); [reflexivity | exact IH]. Qed.
Lemma existsb_map {A B} (f : A -> B) (p : B -> bool) l : existsb p (map f l) = existsb (fun x => p (f x)) l.
Proof. induction l as [|x l IH]; [reflexivity|]. cbn. rewrite IH. reflexivity. Qed.

Theorem runMsg_refines conv os args os' e m : runMsg conv os args = (os', e, m) ->
  run conv (map fst os) args = (map fst os', e) /\ map snd os' = map snd os.
Proof.
  unfold runMsg, run. intros H.
  pose proof (assign_length args (map fst os) (find_default (map fst os))) as L.
  destruct (assign (map fst os) (find_default (map fst os)) args) as [cs ok]. cbn [fst] in L.
  assert (L' : length cs = length (map snd os)) by (rewrite L, !map_length; reflexivity).
  pose proof (combine_fst cs (map snd os) L') as F1. pose proof (combine_snd cs (map snd os) L') as F2.
  destruct ok; cbn [negb] in *.
  2:{ injection H as <- <- <-. rewrite F1. split; [reflexivity | exact F2]. }
  destruct (parseLoop conv (has_help os) true (combine cs (map snd os))) as [[os1 e1] m1] eqn:E1.
  apply parseLoop_refines in E1. rewrite F1, F2 in E1. destruct E1 as [A B]. rewrite A.
  destruct e1 as [[|]| |]; try (injection H as <- <- <-; split; [reflexivity | exact B]).
  rewrite existsb_map. rewrite <- find_exists.
  destruct (List.find (fun o => required (fst o) && negb (handled (fst o))) os1) as [o|].
  - injection H as <- <- <-. split; [reflexivity | exact B].
  - apply parseLoop_refines in H. destruct H as [C D]. split; [exact C | congruence].
Qed.

Lemma parseLoop_msg conv help dom os : forall os' e m, parseLoop conv help dom os = (os', e, m) ->
  (e <> Finished false /\ m = []) \/
  (e = Finished false /\ exists i o, nth_error os i = Some o /\ handled (fst o) = true /\ dominant (fst o) = dom /\ parse conv (fst o) = Threw /\ m = howto_use help o).
Proof.
  induction os as [|o os IH]; intros os' e m H.
  - injection H as <- <- <-. left. split; [discriminate | reflexivity].
  - cbn [parseLoop] in H.
    assert (Rec : forall os1 e1 m1, parseLoop conv help dom os = (os1, e1, m1) ->
      (e1 <> Finished false /\ m1 = []) \/
      (e1 = Finished false /\ exists i o', nth_error (o :: os) i = Some o' /\ handled (fst o') = true /\ dominant (fst o') = dom /\ parse conv (fst o') = Threw /\ m1 = howto_use help o')).
    { intros os1 e1 m1 E. destruct (IH _ _ _ E) as [K|(K & i & o' & N & R)]; [left; exact K | right; split; [exact K|]; exists (S i), o'; split; [exact N | exact R]]. }
    destruct (handled (fst o)) eqn:Eh; cbn [andb] in H.
    + destruct (Bool.eqb (dominant (fst o)) dom) eqn:Ed.
      * apply Bool.eqb_prop in Ed. destruct (parse conv (fst o)) as [v| | |] eqn:Ep.
        -- destruct (parseLoop conv help dom os) as [[os1 e1] m1]. injection H as <- <- <-. apply (Rec _ _ _ eq_refl).
        -- injection H as <- <- <-. right. split; [reflexivity|]. exists 0, o. auto.
        -- injection H as <- <- <-. left. split; [discriminate | reflexivity].
        -- injection H as <- <- <-. left. split; [discriminate | reflexivity].
      * destruct (parseLoop conv help dom os) as [[os1 e1] m1]. injection H as <- <- <-. apply (Rec _ _ _ eq_refl).
    + destruct (parseLoop conv help dom os) as [[os1 e1] m1]. injection H as <- <- <-. apply (Rec _ _ _ eq_refl).
Qed.

Lemma find_first {A} (p : A -> bool) l x : List.find p l = Some x -> exists i, nth_error l i = Some x /\ p x = true /\ forall j y, j < i -> nth_error l j = Some y -> p y = false.
Proof.
  induction l as [|a l IH]; cbn [List.find]; intros H; [discriminate|]. destruct (p a) eqn:E.
  - injection H as ->. exists 0. split; [reflexivity|]. split; [exact E|]. intros j y Hj. lia.
  - destruct (IH H) as (i & N & P & F). exists (S i). split; [exact N|]. split; [exact P|].
    intros [|j] y Hj Hy; [injection Hy as <-; exact E | apply (F j y); [lia | exact Hy]].
Qed.

Lemma nth_map_fst {A B} (l : list (A * B)) i a : nth_error (map fst l) i = Some a -> exists b, nth_error l i = Some (a, b).
Proof. rewrite nth_error_map. destruct (nth_error l i) as [[x y]|]; [|discriminate]. cbn. intros H. injection H as ->. exists y. reflexivity. Qed.
Lemma nth_both {A B} (l l' : list (A * B)) i x y : map snd l = map snd l' -> nth_error l i = Some x -> nth_error l' i = Some y -> snd x = snd y.
Proof.
  intros E H1 H2. assert (Some (snd x) = Some (snd y)); [|congruence].
  rewrite <- (map_nth_error snd i l H1), <- (map_nth_error snd i l' H2), E. reflexivity.
Qed.

Theorem run_blames conv os args os' e m : runMsg conv os args = (os', e, m) ->
  (e <> Finished false -> m = []) /\ (e = Finished false -> blames conv os args m).
Proof.
  unfold runMsg. unfold opt in *. intros H.
  pose proof (assign_length args (map fst os) (find_default (map fst os))) as L.
  destruct (assign_ok (map fst os) args) as [P G].
  destruct (assign (map fst os) (find_default (map fst os)) args) as [cs ok]. cbn [fst snd] in L, P.
  assert (L' : length cs = length (map snd os)) by (rewrite L, !map_length; reflexivity).
  pose proof (combine_fst cs (map snd os) L') as F1. pose proof (combine_snd cs (map snd os) L') as F2.
  destruct ok; cbn [negb] in H.
  2:{ injection H as <- <- <-. split; [intros N; exfalso; apply N; reflexivity|]. intros _. left.
      split; [|reflexivity]. intros K. apply P in K. discriminate. }
  assert (Pl : placed (map fst os) args) by (apply P; reflexivity). destruct (G cs eq_refl) as [_ GG]. clear G P.
  remember (combine cs (map snd os)) as os1 eqn:Eos1.
  (* an option after distribution, with the one it came from *)
  assert (Src : forall i o, nth_error os1 i = Some o -> exists c, nth_error os i = Some (c, snd o) /\ given (map fst os) args i c (fst o)).
  { intros i o No.
    assert (Li : i < length os).
    { assert (N : nth_error os1 i <> None) by congruence. apply nth_error_Some in N.
      pose proof (f_equal (@List.length _) F2) as LL. rewrite !map_length in LL. lia. }
    destruct (nth_error os i) as [[c d]|] eqn:En; [|apply nth_error_None in En; lia].
    exists c. assert (Ed : d = snd o) by (exact (eq_sym (nth_both os1 os i o (c, d) F2 No En))). subst d. split; [reflexivity|].
    destruct (GG i c) as (c1 & Nc1 & Gi); [rewrite (map_nth_error fst i os En); reflexivity|].
    assert (Eo : nth_error (map fst os1) i = Some (fst o)) by (apply map_nth_error; exact No). rewrite F1 in Eo.
    rewrite Nc1 in Eo. injection Eo as <-. exact Gi. }
  destruct (parseLoop conv (has_help os) true os1) as [[os2 e2] m2] eqn:E2. unfold opt in *.
  pose proof (parseLoop_msg _ _ _ _ _ _ _ E2) as M2. pose proof (parseLoop_refines _ _ _ _ _ _ _ E2) as [R2 S2].
  assert (Use : forall i o, nth_error os1 i = Some o -> handled (fst o) = true -> parse conv (fst o) = Threw -> forall d, d = snd o ->
     forall mm, mm = howto_use (has_help os) (fst o, d) -> blames conv os args mm).
  { intros i o No Ho Po d -> mm ->. right. split; [exact Pl|]. destruct (Src i o No) as (c & Nc & Gi).
    exists i, c, (snd o), (fst o). split; [exact Nc|]. split; [exact Gi|]. right. split; [exact Ho|]. split; [exact Po|].
    destruct Gi as (l & _ & En & _). unfold howto_use, invalidText. cbn [fst snd]. rewrite En. reflexivity. }
  destruct e2 as [[|]| |].
  - (* dominant options are done *)
    apply parseAll_ok in R2. rewrite F1 in R2.
    assert (Back : forall i o2, nth_error os2 i = Some o2 -> exists o1, nth_error os1 i = Some o1 /\ snd o1 = snd o2 /\ done1 conv true (fst o1) (fst o2)).
    { intros i o2 N2. apply Forall2_nth in R2 as [RL RN].
      assert (N : nth_error os2 i <> None) by congruence. apply nth_error_Some in N.
      pose proof (f_equal (@List.length _) S2) as LL. rewrite !map_length in LL.
      destruct (nth_error os1 i) as [o1|] eqn:N1; [|apply nth_error_None in N1; lia].
      exists o1. split; [reflexivity|]. split; [exact (eq_sym (nth_both os2 os1 i o2 o1 S2 N2 N1))|].
      assert (Nc : nth_error cs i = Some (fst o1)) by (rewrite <- F1; apply map_nth_error; exact N1).
      destruct (RN i (fst o1) Nc) as (b & Nb & D). rewrite (map_nth_error fst i os2 N2) in Nb. injection Nb as <-. exact D. }
    destruct (List.find (fun o => required (fst o) && negb (handled (fst o))) os2) as [o|] eqn:Ef.
    + injection H as <- <- <-. split; [intros N; exfalso; apply N; reflexivity|]. intros _.
      apply find_first in Ef. destruct Ef as (i & N2 & Po & First). apply andb_prop in Po. destruct Po as [Rq Hd]. apply negb_true_iff in Hd.
      destruct (Back i o N2) as (o1 & N1 & Sd & D). pose proof (done1_fields _ _ _ _ D) as [D1 D2].
      destruct (Src i o1 N1) as (c & Nc & Gi). right. split; [exact Pl|]. exists i, c, (snd o1), (fst o1).
      split; [exact Nc|]. split; [exact Gi|]. left. pose proof Gi as (l & _ & En & _ & Er & _).
      split; [congruence|]. split; [congruence|]. split.
      * unfold howto_required, missingText. rewrite <- Sd. 
        assert (Enm : name (fst o) = name c).
        { rewrite <- En. unfold done1 in D. destruct (_ && _); [destruct D as (v & _ & ->); reflexivity | rewrite D; reflexivity]. }
        rewrite Enm. reflexivity.
      * intros j c' Hj Nj Rj. destruct (GG j c' Nj) as (c1' & Nc1 & Gj). exists c1'. split; [exact Gj|].
        destruct (handled c1') eqn:Eh; [reflexivity|]. exfalso.
        apply Forall2_nth in R2 as [RL RN]. destruct (RN j c1' Nc1) as (b & Nb & Db). pose proof (done1_fields _ _ _ _ Db) as [B1 B2].
        apply nth_map_fst in Nb. destruct Nb as (dd & Nb). specialize (First j (b, dd) Hj Nb). cbn [fst] in First.
        destruct Gj as (l' & _ & _ & _ & Er' & _). rewrite B1, B2, Er', Rj, Eh in First. discriminate.
    + destruct (parseLoop_msg _ _ _ _ _ _ _ H) as [[K1 K2]|(K & i & o & N2 & Ho & Do & Po & Km)].
      * split; [intros _; exact K2 | intros C; contradiction].
      * split; [intros N; contradiction|]. intros _.
        destruct (Back i o N2) as (o1 & N1 & Sd & D).
        assert (Eo : fst o = fst o1).
        { unfold done1 in D. destruct (handled (fst o1) && Bool.eqb (dominant (fst o1)) true) eqn:Eb; [|exact D].
          destruct D as (v & _ & D). apply andb_prop in Eb. destruct Eb as [_ Eb]. apply Bool.eqb_prop in Eb.
          rewrite D in Do. cbn in Do. congruence. }
        apply (Use i o1 N1 ltac:(congruence) ltac:(congruence) (snd o1) eq_refl).
        rewrite Km. destruct o as [oc od]. cbn [fst snd] in *. subst oc od. reflexivity.
  - injection H as <- <- <-. split; [intros N; exfalso; apply N; reflexivity|]. intros _.
    destruct M2 as [[K _]|(_ & i & o & N1 & Ho & _ & Po & Km)]; [exfalso; apply K; reflexivity|].
    apply (Use i o N1 Ho Po (snd o) eq_refl). rewrite Km. destruct o; reflexivity.
  - injection H as <- <- <-. split; [|discriminate]. intros _. destruct M2 as [[_ K]|(K & _)]; [exact K | discriminate].
  - injection H as <- <- <-. split; [|discriminate]. intros _. destruct M2 as [[_ K]|(K & _)]; [exact K | discriminate].
Qed.

Lemma entry_same real c c' d : same c c' -> usageEntry real (c', d) = usageEntry real (c, d).
Proof.
  intros (E1 & E2 & E3 & _ & E5 & E6). unfold usageEntry, print_value, command, alternative. cbn [fst snd]. rewrite E1, E2, E3, E5, E6. reflexivity.
Qed.
Lemma usage_same real cs cs' : sames cs cs' -> forall ds, usage real (combine cs' ds) = usage real (combine cs ds).
Proof.
  intros H ds. rewrite !usage_entries.
  assert (E : entries real (combine cs' ds) = entries real (combine cs ds)); [|rewrite E; reflexivity].
  revert ds. induction H as [|c c' cs cs' Hc _ IH]; intros ds; [reflexivity|].
  destruct ds as [|d ds]; [reflexivity|]. cbn [combine entries]. rewrite (entry_same real c c' d Hc), IH. reflexivity.
Qed.
Lemma combine_split {A B} (l : list (A * B)) : combine (map fst l) (map snd l) = l.
Proof. induction l as [|[a b] l IH]; [reflexivity|]. cbn. rewrite IH. reflexivity. Qed.

(** the program with help enabled by the constructor and then other options declared *)
Theorem help_prints real conv (os : list opt) args : let all : list opt := map (fun c => (c, [] : text)) (enable_help []) ++ os in
  placed (map fst all) args -> In (txt "-h") args \/ In (txt "--help") args ->
  helpText real conv all args = usage real all.
Proof.
  intros all HP Hin.
  assert (Ea : map fst all = enable_help [] ++ map fst os) by reflexivity.
  pose proof HP as HP0. rewrite Ea in HP0.
  pose proof (help_ok conv (map fst os) args HP0 Hin) as HL. rewrite <- Ea in HL.
  unfold helpText, runMsg.
  pose proof (assign_length args (map fst all) (find_default (map fst all))) as L.
  destruct (assign_ok (map fst all) args) as [P G]. apply P in HP. unfold run in HL.
  destruct (assign (map fst all) (find_default (map fst all)) args) as [cs ok]. cbn [fst snd] in L, HP. subst ok. cbn [negb] in *.
  destruct (G cs eq_refl) as [_ GG].
  assert (S : sames (map fst all) cs).
  { apply Forall2_nth. split; [exact L|]. intros i c Nc. destruct (GG i c Nc) as (c1 & N1 & (l & _ & A1 & A2 & A3 & A4 & A5 & A6 & _)).
    exists c1. split; [exact N1|]. repeat split; assumption. }
  assert (U : usage real (combine cs (map snd all)) = usage real all) by (rewrite (usage_same real _ _ S), combine_split; reflexivity).
  destruct (GG 0 _ eq_refl) as (c1 & N1 & (l & _ & _ & _ & _ & Ed & Ew & _ & _ & Hh)).
  destruct cs as [|c cs]; [discriminate|]. injection N1 as ->. cbn in Ed, Ew.
  assert (Ep : parse conv c1 = Exits) by (unfold parse; rewrite Ew; reflexivity).
  assert (Eh : handled c1 = true).
  { apply Hh. right. left.
    assert (Hn : forall t, t = txt "-h" \/ t = txt "--help" -> names (map fst all) t 0).
    { intros t Ht. split; [|intros j c Hj; lia]. eexists. split; [reflexivity|]. destruct Ht as [->| ->]; [left; exists (txt "h")|right; exists (txt "help")]; (split; [discriminate|split; reflexivity]). }
    destruct Hin as [Hin|Hin]; eauto. }
  change (map snd all) with ([] :: map snd os) in *. cbn [combine] in *.
  cbn [negb combine parseLoop fst snd]. rewrite Eh, Ed, Ep. exact U.
Qed.

Theorem default_unset real t d : isVec t = false -> t <> TString ->
  usage real (combine (set_default t false []) [d]) = UB.
Proof.
  intros Hv Ht. rewrite usage_entries. cbn [set_default app combine entries].
  unfold usageEntry, print_value. cbn [fst required what val].
  assert (E : stringify real (fresh t) = UB) by (destruct t; try reflexivity; [contradiction | discriminate]).
  rewrite E. reflexivity.
Qed.

Lemma parseLoop_idle conv help dom (os : list opt) : Forall (fun o : opt => handled (fst o) = false) os -> parseLoop conv help dom os = (os, Finished true, []).
Proof. induction 1 as [|o os Ho _ IH]; [reflexivity|]. cbn [parseLoop]. rewrite Ho, IH. reflexivity. Qed.
Theorem empty_line conv (os : list opt) : Forall (fun o : opt => handled (fst o) = false) os ->
  (snd (fst (runMsg conv os [])) = Finished true <-> requirements os = 0).
Proof.
  intros H. unfold runMsg. cbn [assign negb]. rewrite combine_split.
  rewrite (parseLoop_idle conv _ true os H).
  unfold requirements.
  induction H as [|o os Ho Hs IH]; [split; reflexivity|].
  cbn [List.find filter]. rewrite Ho. cbn [negb]. rewrite andb_true_r.
  destruct (required (fst o)) eqn:Er; [split; discriminate|].
  assert (Hidle : forall h l, Forall (fun o : opt => handled (fst o) = false) l -> snd (fst (parseLoop conv h false l)) = Finished true).
  { intros h l K. rewrite parseLoop_idle by exact K. reflexivity. }
  rewrite <- IH. destruct (List.find (fun o0 : cmd * text => required (fst o0) && negb (handled (fst o0))) os) as [x|].
  - reflexivity.
  - split; intros _; apply Hidle; [exact Hs | constructor; assumption].
Qed.
