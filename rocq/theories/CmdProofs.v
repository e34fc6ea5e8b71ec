(** Proofs about the command line parser. *)
From Coq Require Import List Arith ZArith Bool Ascii String Lia.
From Verif Require Import Outcome ListUtil ParticleModel RunModel VtpModel YamlProofs CmdModel CmdSpec.
Import ListNotations.
Local Notation length := List.length.

Lemma findIndex_ok p cs i : findIndex p cs = Some i <-> (exists c, nth_error cs i = Some c /\ p c = true) /\ forall j c, j < i -> nth_error cs j = Some c -> p c = false.
Proof.
  revert i. induction cs as [|c cs IH]; intros i; cbn [findIndex].
  - split; [discriminate|]. intros [(c & E & _) _]. destruct i; discriminate.
  - destruct (p c) eqn:Ep.
    + split.
      * intros [= <-]. split; [exists c; split; [reflexivity|exact Ep]|]. intros j c' Hj. lia.
      * intros [_ H]. destruct i as [|i]; [reflexivity|]. specialize (H 0 c ltac:(lia) eq_refl). congruence.
    + split.
      * intros E. destruct (findIndex p cs) as [k|]; [|discriminate]. injection E as <-. destruct (proj1 (IH k) eq_refl) as [H1 H2]. split; [exact H1|].
        intros [|j] c' Hj E'; cbn in E'; [congruence|]. apply (H2 j c' ltac:(lia) E').
      * intros [(c' & E & Hc) H]. destruct i as [|i]; cbn in E; [congruence|]. 
        assert (findIndex p cs = Some i) as ->; [|reflexivity]. apply IH. split; [exists c'; auto|]. intros j c2 Hj E2. apply (H (S j) c2 ltac:(lia) E2).
Qed.
Lemma findIndex_none p cs : findIndex p cs = None <-> forall c, In c cs -> p c = false.
Proof.
  induction cs as [|c cs IH]; cbn [findIndex]; [split; [intros _ c []|reflexivity]|]. destruct (p c) eqn:Ep.
  - split; [discriminate|]. intros H. specialize (H c (or_introl eq_refl)). congruence.
  - split; [|intros H; assert (findIndex p cs = None) as -> by (apply IH; intros x Hx; apply H; right; exact Hx); reflexivity].
    intros E x [<-|Hx]; [exact Ep|]. apply IH; [|exact Hx]. destruct (findIndex p cs); [discriminate|reflexivity].
Qed.

(** the token test and the search of the loop *)
Definition look (cs : list cmd) (a : text) : option nat := if (match a with c :: _ => Ascii.eqb c "-" | [] => false end) then find cs a else None.

Lemma is_spells c t : (match t with x :: _ => Ascii.eqb x "-" | [] => false end) = true -> is c t = true <-> spells c t.
Proof.
  intros Ht. unfold is, spells. rewrite orb_true_iff, !teq_spec. unfold command, alternative. split.
  - intros [->| ->].
    + left. destruct (name c) as [|x n]; [discriminate|]. exists (x :: n). split; [discriminate|auto].
    + right. destruct (alt c) as [|x n]; [discriminate|]. exists (x :: n). split; [discriminate|auto].
  - intros [(n & Hn & E & ->)|(n & Hn & E & ->)]; [left|right]; rewrite E; destruct n; [contradiction|reflexivity|contradiction|reflexivity].
Qed.
Lemma spells_dash c t : spells c t -> (match t with x :: _ => Ascii.eqb x "-" | [] => false end) = true.
Proof. intros [(n & _ & _ & ->)|(n & _ & _ & ->)]; reflexivity. Qed.

Lemma look_names cs t i : look cs t = Some i <-> names cs t i.
Proof.
  unfold look, names. destruct (match t with x :: _ => Ascii.eqb x "-" | [] => false end) eqn:E.
  - unfold find. rewrite findIndex_ok. split; intros [(c & E1 & H1) H2]; (split; [exists c; split; [exact E1|apply is_spells; assumption]|]); intros j c' Hj E'.
    + specialize (H2 j c' Hj E'). intros Hs. apply is_spells in Hs; [congruence|exact E].
    + specialize (H2 j c' Hj E'). destruct (is c' t) eqn:Ei; [|reflexivity]. apply is_spells in Ei; [contradiction|exact E].
  - split; [discriminate|]. intros [(c & _ & Hs) _]. apply spells_dash in Hs. congruence.
Qed.
Lemma look_plain cs t : look cs t = None <-> plain cs t.
Proof.
  unfold plain. split.
  - intros E i H. apply look_names in H. congruence.
  - intros H. destruct (look cs t) as [i|] eqn:E; [|reflexivity]. apply look_names in E. destruct (H i E).
Qed.
Lemma default_ok cs i : find_default cs = Some i <-> default cs i.
Proof.
  unfold find_default, default. rewrite findIndex_ok. split; intros [(c & E & H) H2]; (split; [exists c; split; [exact E|apply teq_spec; assumption]|]); intros j c' Hj E' .
  - specialize (H2 j c' Hj E'). intros En. rewrite En, teq_refl in H2. discriminate.
  - apply teq_neq. apply (H2 j c' Hj E').
Qed.

(** ** the static part of the options *)
Definition same (c c' : cmd) : Prop := name c' = name c /\ alt c' = alt c /\ required c' = required c /\ dominant c' = dominant c /\ what c' = what c /\ val c' = val c.
Definition sames := Forall2 same.
Lemma same_refl c : same c c. Proof. repeat split. Qed.
Lemma sames_refl cs : sames cs cs. Proof. induction cs; constructor; [apply same_refl|assumption]. Qed.
Lemma same_trans a b c : same a b -> same b c -> same a c.
Proof. unfold same. intuition congruence. Qed.
Lemma sames_trans a b c : sames a b -> sames b c -> sames a c.
Proof. intros H. revert c. induction H; intros c' H'; inversion H'; subst; constructor; [eapply same_trans; eassumption|auto]. apply IHForall2. assumption. Qed.
Lemma findIndex_sames p cs cs' : (forall c c', same c c' -> p c = p c') -> sames cs cs' -> findIndex p cs' = findIndex p cs.
Proof. intros Hp H. induction H as [|c c' cs cs' Hc _ IH]; cbn [findIndex]; [reflexivity|]. rewrite <- (Hp c c' Hc), IH. reflexivity. Qed.
Lemma look_sames cs cs' t : sames cs cs' -> look cs' t = look cs t.
Proof.
  intros H. unfold look, find. destruct (match t with x :: _ => _ | [] => _ end); [|reflexivity]. apply findIndex_sames; [|exact H].
  intros c c' (E1 & E2 & _). unfold is, command, alternative. rewrite E1, E2. reflexivity.
Qed.
Lemma find_default_sames cs cs' : sames cs cs' -> find_default cs' = find_default cs.
Proof. intros H. apply findIndex_sames; [|exact H]. intros c c' (E1 & _). rewrite E1. reflexivity. Qed.
Lemma modify_sames i f cs : (forall c, same c (f c)) -> sames cs (modify i f cs).
Proof. intros Hf. revert i. induction cs as [|c cs IH]; intros i; [destruct i; constructor|]. destruct i; cbn [modify]; constructor; [apply Hf|apply sames_refl|apply same_refl|apply IH]. Qed.
Lemma handle_same c : same c (handle c). Proof. repeat split. Qed.
Lemma push_same t c : same c (push t c). Proof. repeat split. Qed.
Lemma nth_modify i f cs k : nth_error (modify i f cs) k = if i =? k then option_map f (nth_error cs k) else nth_error cs k.
Proof.
  revert i k. induction cs as [|c cs IH]; intros i k; [destruct i, k; cbn; try reflexivity; destruct (i =? k); reflexivity|].
  destruct i, k; cbn [modify nth_error Nat.eqb option_map]; try reflexivity. apply IH.
Qed.
Lemma sames_length cs cs' : sames cs cs' -> length cs = length cs'.
Proof. induction 1; cbn; congruence. Qed.
Lemma sames_nth cs cs' i c : sames cs cs' -> nth_error cs i = Some c -> exists c', nth_error cs' i = Some c' /\ same c c'.
Proof. intros H. revert i. induction H; intros [|i] E; cbn in *; try discriminate; [injection E as <-; eauto|auto]. Qed.
Lemma sames_nth' cs cs' i c' : sames cs cs' -> nth_error cs' i = Some c' -> exists c, nth_error cs i = Some c /\ same c c'.
Proof. intros H. revert i. induction H; intros [|i] E; cbn in *; try discriminate; [injection E as <-; eauto|auto]. Qed.
Lemma same_variadic c c' : same c c' -> variadic c' = variadic c.
Proof. intros (_ & _ & _ & _ & E & _). unfold variadic. rewrite E. reflexivity. Qed.

(** ** the loop, one token at the end *)
Definition next (cs : list cmd) (cur : option nat) (a : text) : option (list cmd * option nat) :=
  match look cs a with
  | Some i => Some (modify i handle cs, Some i)
  | None => match cur with
            | None => None
            | Some i => Some (modify i (push a) cs, match nth_error cs i with Some c => if variadic c then cur else find_default (modify i (push a) cs) | None => cur end)
            end
  end.
Fixpoint loop (cs : list cmd) (cur : option nat) (args : list text) : option (list cmd * option nat) :=
  match args with [] => Some (cs, cur) | a :: args => match next cs cur a with None => None | Some (cs, cur) => loop cs cur args end end.
Lemma loop_snoc args : forall cs cur t, loop cs cur (args ++ [t]) = match loop cs cur args with None => None | Some (cs, cur) => next cs cur t end.
Proof.
  induction args as [|a args IH]; intros cs cur t; cbn [app loop]; [destruct (next cs cur t) as [[? ?]|]; reflexivity|].
  destruct (next cs cur a) as [[cs' cur']|]; [apply IH|reflexivity].
Qed.
Lemma assign_loop args : forall cs cur cs', assign cs cur args = (cs', true) <-> exists cur', loop cs cur args = Some (cs', cur').
Proof.
  induction args as [|a args IH]; intros cs cur cs'; cbn [assign loop].
  - split; [intros [= <-]; eauto|]. intros (cur' & [= -> _]). reflexivity.
  - unfold next. cbv zeta. change (if (match a with c :: _ => Ascii.eqb c "-" | [] => false end) then find cs a else None) with (look cs a).
    destruct (look cs a) as [i|]; [apply IH|]. destruct cur as [i|]; [apply IH|]. split; [discriminate|intros (? & ?); discriminate].
Qed.
Lemma next_sames cs cur t cs' cur' : next cs cur t = Some (cs', cur') -> sames cs cs'.
Proof.
  unfold next. destruct (look cs t) as [i|]; [intros [= <- _]; apply modify_sames, handle_same|].
  destruct cur as [i|]; [|discriminate]. intros [= <- _]. apply modify_sames, push_same.
Qed.

(** ** who takes the next token *)
Lemma names_det cs t i j : names cs t i -> names cs t j -> i = j.
Proof. intros H1 H2. apply look_names in H1, H2. congruence. Qed.
Lemma default_det cs i j : default cs i -> default cs j -> i = j.
Proof. intros H1 H2. apply default_ok in H1, H2. congruence. Qed.
Lemma snoc_split {A} (pre : list A) t before t' args : pre ++ [t] = before ++ t' :: args ->
  (args = [] /\ before = pre /\ t' = t) \/ exists args', args = args' ++ [t] /\ pre = before ++ t' :: args'.
Proof.
  intros E. destruct args as [|x args _] using rev_ind.
  - left. apply app_inj_tail in E as [-> ->]. auto.
  - right. rewrite app_comm_cons, app_assoc in E. apply app_inj_tail in E as [-> ->]. eauto.
Qed.
Lemma reaches_nil cs i : ~ reaches cs [] i.
Proof. intros (b & t & a & E & _). destruct b; discriminate. Qed.
Lemma reaches_named cs pre t i j : names cs t i -> reaches cs (pre ++ [t]) j <-> j = i.
Proof.
  intros Hn. split.
  - intros (b & t' & a & E & Ht & HP & _). apply snoc_split in E as [(-> & -> & ->)|(a' & -> & ->)]; [eapply names_det; eassumption|].
    apply Forall_app in HP as [_ HP]. inversion HP; subst. exfalso. eapply H1. exact Hn.
  - intros ->. exists pre, t, []. auto.
Qed.
Lemma reaches_plain cs pre t j : plain cs t -> reaches cs (pre ++ [t]) j <-> reaches cs pre j /\ exists c, nth_error cs j = Some c /\ variadic c = true.
Proof.
  intros Hp. split.
  - intros (b & t' & a & E & Ht & HP & HV). apply snoc_split in E as [(-> & -> & ->)|(a' & -> & ->)]; [exfalso; eapply Hp; exact Ht|].
    apply Forall_app in HP as [HP _]. destruct HV as [E|HV]; [destruct a'; discriminate|]. split; [|exact HV]. exists b, t', a'. auto.
  - intros [(b & t' & a & -> & Ht & HP & _) HV]. exists b, t', (a ++ [t]). split; [rewrite <- app_assoc; reflexivity|]. split; [exact Ht|]. split; [|right; exact HV].
    apply Forall_app. split; [exact HP|constructor; [exact Hp|constructor]].
Qed.
Lemma reaches_det cs pre : forall i j, reaches cs pre i -> reaches cs pre j -> i = j.
Proof.
  induction pre as [|t pre IH] using rev_ind; intros i j Hi Hj; [destruct (reaches_nil _ _ Hi)|].
  destruct (look cs t) as [k|] eqn:E.
  - apply look_names in E. apply (reaches_named _ _ _ _ _ E) in Hi, Hj. congruence.
  - apply look_plain in E. apply (reaches_plain _ _ _ _ E) in Hi, Hj. apply IH; tauto.
Qed.
Lemma takes_det cs pre i j : takes cs pre i -> takes cs pre j -> i = j.
Proof.
  intros [Hi|[Hi Ni]] [Hj|[Hj Nj]]; [eapply reaches_det; eassumption|destruct (Nj _ Hi)|destruct (Ni _ Hj)|eapply default_det; eassumption].
Qed.

Lemma stored_det cs i pre : forall l l', stored cs i pre l -> stored cs i pre l' -> l = l'.
Proof.
  induction pre as [|t pre IH] using rev_ind; intros l l' H H'.
  - inversion H as [|p ? ? ? ? ? E|p ? ? ? ? E]; [|destruct p; discriminate..]. inversion H' as [|p ? ? ? ? ? E|p ? ? ? ? E]; [|destruct p; discriminate..]. reflexivity.
  - inversion H as [E|p ? ? ? ? ? E|p ? ? ? ? E]; [destruct pre; discriminate|..]; apply app_inj_tail in E as [-> ->];
      (inversion H' as [E'|p' ? ? ? ? ? E'|p' ? ? ? ? E']; [destruct pre; discriminate|..]; apply app_inj_tail in E' as [-> ->]); try (exfalso; tauto).
    + f_equal. auto.
    + auto.
Qed.

Lemma loop_ok cs pre cs' cur : loop cs (find_default cs) pre = Some (cs', cur) ->
  sames cs cs' /\ (forall i, cur = Some i <-> takes cs pre i) /\ placed cs pre /\
  forall i c c', nth_error cs i = Some c -> nth_error cs' i = Some c' ->
    exists l, stored cs i pre l /\ arguments c' = arguments c ++ l /\ (handled c' = true <-> handled c = true \/ (exists t, In t pre /\ names cs t i) \/ l <> []).
Proof.
  revert cs' cur. induction pre as [|t pre IH] using rev_ind; intros cs' cur H.
  - cbn in H. injection H as <- <-. split; [apply sames_refl|]. split; [|split].
    + intros i. rewrite default_ok. unfold takes. split; [intros Hd; right; split; [exact Hd|intros j; apply reaches_nil]|intros [Hr|[Hd _]]; [destruct (reaches_nil _ _ Hr)|exact Hd]].
    + intros p t q E. destruct p; discriminate.
    + intros i c c' E E'. exists []. split; [constructor|]. rewrite app_nil_r. split; [congruence|]. assert (c' = c) as -> by congruence.
      split; [auto|]. intros [H|[(t & [] & _)|H]]; [exact H|congruence].
  - rewrite loop_snoc in H. destruct (loop cs (find_default cs) pre) as [[cs1 cur1]|]; [|discriminate]. destruct (IH _ _ eq_refl) as (S1 & C1 & P1 & F1). clear IH.
    pose proof (next_sames _ _ _ _ _ H) as S2. pose proof (sames_trans _ _ _ S1 S2) as S3. split; [exact S3|].
    unfold next in H. rewrite (look_sames _ _ _ S1) in H. destruct (look cs t) as [k|] eqn:El.
    + injection H as <- <-. apply look_names in El. split; [|split].
      * intros i. unfold takes. split; [intros [= <-]; left; apply (reaches_named _ _ _ _ _ El); reflexivity|].
        intros [Hr|[_ Hn]]; [apply (reaches_named _ _ _ _ _ El) in Hr; congruence|]. exfalso. apply (Hn k). apply (reaches_named _ _ _ _ _ El). reflexivity.
      * intros p x q E Hp. apply snoc_split in E as [(-> & -> & ->)|(a' & -> & ->)]; [destruct (Hp _ El)|]. eapply P1; [reflexivity|exact Hp].
      * intros i c c' E E'. destruct (sames_nth _ _ _ _ S1 E) as (c1 & E1 & _). destruct (F1 i c c1 E E1) as (l & Hl & Ha & Hh).
        exists l. assert (Hs : stored cs i (pre ++ [t]) l) by (apply stored_skip; [exact Hl|intros [Hp _]; destruct (Hp _ El)]).
        split; [exact Hs|]. rewrite nth_modify, E1 in E'. destruct (Nat.eqb_spec k i) as [->|Hne]; cbn [option_map] in E'; injection E' as <-.
        -- cbn [arguments handle handled]. split; [exact Ha|]. split; [|auto]. intros _. right. left. exists t. split; [apply in_or_app; right; left; reflexivity|exact El].
        -- split; [exact Ha|]. rewrite Hh. split; (intros [X|[(x & Hx & Hn)|X]]; [auto| |auto]).
           ++ right. left. exists x. split; [apply in_or_app; auto|exact Hn].
           ++ apply in_app_or in Hx as [Hx|[<-|[]]]; [right; left; eauto|]. exfalso. apply Hne. eapply names_det; eassumption.
    + apply look_plain in El. destruct cur1 as [k|]; [|discriminate]. assert (Tk : takes cs pre k) by (apply C1; reflexivity).
      assert (Hc : exists c, nth_error cs k = Some c).
      { destruct Tk as [(b & t' & a & _ & [(c & Ec & _) _] & _)|[[(c & Ec & _) _] _]]; eauto. }
      destruct Hc as (ck & Ek). destruct (sames_nth _ _ _ _ S1 Ek) as (ck1 & Ek1 & Sk). rewrite Ek1 in H. injection H as <- <-.
      rewrite (find_default_sames _ _ S3), (same_variadic _ _ Sk). split; [|split].
      * intros i. destruct (variadic ck) eqn:Ev.
        -- split; [intros [= <-]|].
           ++ destruct Tk as [Hr|[Hd Hn]]; [left; apply (reaches_plain _ _ _ _ El); split; [exact Hr|eauto]|]. right. split; [exact Hd|]. intros j Hj. apply (reaches_plain _ _ _ _ El) in Hj as [Hj _]. eapply Hn; exact Hj.
           ++ intros Ti. f_equal. destruct Ti as [Hr|[Hd Hn]].
              ** apply (reaches_plain _ _ _ _ El) in Hr as [Hr _]. eapply takes_det; [exact Tk|left; exact Hr].
              ** destruct Tk as [Hr|[Hd' _]]; [|eapply default_det; eassumption]. exfalso. apply (Hn k). apply (reaches_plain _ _ _ _ El). eauto.
        -- rewrite default_ok. assert (Hno : forall j, ~ reaches cs (pre ++ [t]) j).
           { intros j Hj. apply (reaches_plain _ _ _ _ El) in Hj as [Hj (c & Ec & Hv)]. assert (j = k) as -> by (eapply takes_det; [left; exact Hj|exact Tk]). congruence. }
           split; [intros Hd; right; auto|]. intros [Hr|[Hd _]]; [destruct (Hno _ Hr)|exact Hd].
      * intros p x q E Hp. apply snoc_split in E as [(-> & -> & ->)|(a' & -> & ->)]; [eauto|]. eapply P1; [reflexivity|exact Hp].
      * intros i c c' E E'. destruct (sames_nth _ _ _ _ S1 E) as (c1 & E1 & _). destruct (F1 i c c1 E E1) as (l & Hl & Ha & Hh).
        rewrite nth_modify, E1 in E'. destruct (Nat.eqb_spec k i) as [->|Hne]; cbn [option_map] in E'; injection E' as <-.
        -- exists (l ++ [t]). split; [apply stored_take; assumption|]. cbn [arguments push handled]. rewrite Ha, app_assoc. split; [reflexivity|]. split; [|reflexivity]. intros _. right. right. destruct l; discriminate.
        -- exists l. split; [apply stored_skip; [exact Hl|intros [_ Ti]; apply Hne; eapply takes_det; eassumption]|]. split; [exact Ha|].
           rewrite Hh. split; (intros [X|[(x & Hx & Hn)|X]]; [auto| |auto]).
           ++ right. left. exists x. split; [apply in_or_app; auto|exact Hn].
           ++ apply in_app_or in Hx as [Hx|[<-|[]]]; [right; left; eauto|]. destruct (El _ Hn).
Qed.

Lemma loop_none cs pre : loop cs (find_default cs) pre = None -> ~ placed cs pre.
Proof.
  induction pre as [|t pre IH] using rev_ind; [discriminate|]. intros E HP. rewrite loop_snoc in E.
  destruct (loop cs (find_default cs) pre) as [[cs1 cur1]|] eqn:El.
  - destruct (loop_ok _ _ _ _ El) as (S1 & C1 & _). unfold next in E. rewrite (look_sames _ _ _ S1) in E.
    destruct (look cs t) as [k|] eqn:Et; [discriminate|]. destruct cur1 as [k|]; [discriminate|]. apply look_plain in Et.
    destruct (HP pre t [] eq_refl Et) as (i & Ti). apply C1 in Ti. discriminate.
  - apply (IH eq_refl). intros p x q -> Hp. apply (HP p x (q ++ [t])); [rewrite <- app_assoc; reflexivity|exact Hp].
Qed.

Lemma given_iff cs args i c c' : sames cs cs -> same c c' -> (exists l, stored cs i args l /\ arguments c' = arguments c ++ l /\ (handled c' = true <-> handled c = true \/ (exists t, In t args /\ names cs t i) \/ l <> [])) -> given cs args i c c'.
Proof.
  intros _ (E1 & E2 & E3 & E4 & E5 & E6) (l & Hl & Ha & Hh). exists l. repeat (split; [assumption|]). rewrite Hh. unfold seen. split.
  - intros [H|[H|H]]; [auto|auto|]. right. right. eauto.
  - intros [H|[H|(l' & Hl' & H)]]; [auto|auto|]. right. right. rewrite (stored_det _ _ _ _ _ Hl Hl'). exact H.
Qed.

Lemma assign_ok cs args : (placed cs args <-> snd (assign cs (find_default cs) args) = true) /\
  forall cs', assign cs (find_default cs) args = (cs', true) -> length cs' = length cs /\
    forall i c, nth_error cs i = Some c -> exists c', nth_error cs' i = Some c' /\ given cs args i c c'.
Proof.
  split.
  - destruct (assign cs (find_default cs) args) as [cs' b] eqn:E. cbn [snd]. destruct b.
    + apply assign_loop in E as (cur' & E). apply loop_ok in E. tauto.
    + split; [|discriminate]. intros HP. exfalso. destruct (loop cs (find_default cs) args) as [[cs1 cur1]|] eqn:El; [|eapply loop_none; eassumption].
      assert (E' : assign cs (find_default cs) args = (cs1, true)) by (apply assign_loop; eauto). congruence.
  - intros cs' E. apply assign_loop in E as (cur' & E). destruct (loop_ok _ _ _ _ E) as (S1 & _ & _ & F). split; [symmetry; eapply sames_length; exact S1|].
    intros i c Ec. destruct (sames_nth _ _ _ _ S1 Ec) as (c' & Ec' & Hs). exists c'. split; [exact Ec'|]. apply given_iff; [apply sames_refl|exact Hs|]. apply F; assumption.
Qed.

(** ** parsing *)
Definition done (conv : ty -> text -> option value) (c c' : cmd) : Prop :=
  if handled c then exists v, parse conv c = Parsed v /\ c' = setVal v c else c' = c.
Definition done1 (conv : ty -> text -> option value) (dom : bool) (c c' : cmd) : Prop :=
  if handled c && Bool.eqb (dominant c) dom then exists v, parse conv c = Parsed v /\ c' = setVal v c else c' = c.
Lemma parseAll_ok conv dom cs : forall cs', parseAll conv dom cs = (cs', Finished true) <-> Forall2 (done1 conv dom) cs cs'.
Proof.
  induction cs as [|c cs IH]; intros cs'; cbn [parseAll].
  - split; [intros [= <-]; constructor|intros H; inversion H; reflexivity].
  - unfold done1 at 1. split.
    + destruct (handled c && Bool.eqb (dominant c) dom) eqn:E.
      * destruct (parse conv c) as [v| | |] eqn:Ep; try discriminate. destruct (parseAll conv dom cs) as [cs1 e]. intros [= <- ->]. constructor; [|apply IH; reflexivity].
        unfold done1. rewrite E. eauto.
      * destruct (parseAll conv dom cs) as [cs1 e]. intros [= <- ->]. constructor; [|apply IH; reflexivity]. unfold done1. rewrite E. reflexivity.
    + intros H. inversion H as [|? c' ? cs1 H1 H2]; subst. apply IH in H2. unfold done1 in H1. destruct (handled c && Bool.eqb (dominant c) dom).
      * destruct H1 as (v & -> & ->). rewrite H2. reflexivity.
      * subst. rewrite H2. reflexivity.
Qed.
Lemma done_both conv c c' : done conv c c' <-> exists c1, done1 conv true c c1 /\ done1 conv false c1 c'.
Proof.
  unfold done, done1. destruct (handled c) eqn:Eh; cbn [andb].
  - destruct (dominant c) eqn:Ed; cbn [Bool.eqb].
    + split.
      * intros (v & Hp & ->). exists (setVal v c). split; [eauto|]. cbn [handled dominant setVal]. rewrite Eh, Ed. reflexivity.
      * intros (c1 & (v & Hp & ->) & H). cbn [handled dominant setVal] in H. rewrite Eh, Ed in H. cbn in H. eauto.
    + split.
      * intros (v & Hp & ->). exists c. split; [reflexivity|]. rewrite Eh, Ed. cbn. eauto.
      * intros (c1 & -> & H). rewrite Eh, Ed in H. exact H.
  - split; [intros ->; exists c; split; [reflexivity|]; rewrite Eh; reflexivity|]. intros (c1 & -> & H). rewrite Eh in H. exact H.
Qed.
Lemma Forall2_compose {A} (P Q R : A -> A -> Prop) : (forall a c, R a c <-> exists b, P a b /\ Q b c) -> forall l l', Forall2 R l l' <-> exists m, Forall2 P l m /\ Forall2 Q m l'.
Proof.
  intros HR. induction l as [|a l IH]; intros l'.
  - split; [intros H; inversion H; exists []; split; constructor|]. intros (m & H1 & H2). inversion H1; subst. inversion H2; subst. constructor.
  - split.
    + intros H. inversion H as [|? c ? l2 H1 H2]; subst. apply HR in H1 as (b & Hb & Hc). apply IH in H2 as (m & Hm & Hl). exists (b :: m). split; constructor; assumption.
    + intros (m & H1 & H2). inversion H1 as [|? b ? m' Hb Hm]; subst. inversion H2 as [|? c ? l2 Hc Hl]; subst. constructor; [apply HR; eauto|apply IH; eauto].
Qed.
Lemma Forall2_nth {A} (P : A -> A -> Prop) l l' : Forall2 P l l' <-> length l' = length l /\ forall i a, nth_error l i = Some a -> exists b, nth_error l' i = Some b /\ P a b.
Proof.
  split.
  - induction 1 as [|a b l l' H _ [IH1 IH2]]; [split; [reflexivity|intros [|]; discriminate]|]. split; [cbn; congruence|].
    intros [|i] x E; cbn in *; [injection E as <-; eauto|auto].
  - revert l'. induction l as [|a l IH]; intros [|b l'] [E H]; try discriminate; [constructor|]. constructor.
    + destruct (H 0 a eq_refl) as (b' & [= ->] & Hb). exact Hb.
    + apply IH. split; [cbn in E; lia|]. intros i x Ex. exact (H (S i) x Ex).
Qed.

Lemma given_det cs args i c c1 c2 : given cs args i c c1 -> given cs args i c c2 -> c1 = c2.
Proof.
  intros (l & Hl & A1 & A2 & A3 & A4 & A5 & A6 & A7 & A8) (l' & Hl' & B1 & B2 & B3 & B4 & B5 & B6 & B7 & B8).
  rewrite <- (stored_det _ _ _ _ _ Hl Hl') in *. assert (handled c1 = handled c2) by (apply eq_true_iff_eq; tauto).
  destruct c1, c2. cbn in *. congruence.
Qed.

(** the distributed options, if every token has a place *)
Lemma assign_unique cs args cs1 : placed cs args -> length cs1 = length cs -> (forall i c, nth_error cs i = Some c -> exists c1, nth_error cs1 i = Some c1 /\ given cs args i c c1) ->
  assign cs (find_default cs) args = (cs1, true).
Proof.
  intros HP HL HG. destruct (assign_ok cs args) as [H1 H2]. apply H1 in HP. destruct (assign cs (find_default cs) args) as [cs2 b]. cbn in HP. subst b.
  destruct (H2 cs2 eq_refl) as [HL2 HG2]. f_equal. apply nth_error_ext. intros i.
  destruct (nth_error cs i) as [c|] eqn:E.
  - destruct (HG i c E) as (c1 & -> & G1). destruct (HG2 i c E) as (c2 & -> & G2). f_equal. eapply given_det; eassumption.
  - apply nth_error_None in E. transitivity (@None cmd); [|symmetry]; apply nth_error_None; lia.
Qed.

Lemma done1_fields conv dom c c' : done1 conv dom c c' -> required c' = required c /\ handled c' = handled c.
Proof. unfold done1. destruct (_ && _); [intros (v & _ & ->)|intros ->]; auto. Qed.
Lemma missing_sames conv dom cs cs' : Forall2 (done1 conv dom) cs cs' -> existsb (fun c => required c && negb (handled c)) cs' = existsb (fun c => required c && negb (handled c)) cs.
Proof. induction 1 as [|c c' cs cs' H _ IH]; [reflexivity|]. apply done1_fields in H as [E1 E2]. cbn [existsb]. rewrite E1, E2, IH. reflexivity. Qed.

Lemma run_ok conv cs args cs' : run conv cs args = (cs', Finished true) <->
  placed cs args /\ length cs' = length cs /\
  forall i c, nth_error cs i = Some c -> exists c1 c', given cs args i c c1 /\ nth_error cs' i = Some c' /\ (required c = true -> handled c1 = true) /\
    (if handled c1 then exists v, parse conv c1 = Parsed v /\ c' = setVal v c1 else c' = c1).
Proof.
  unfold run. split.
  - destruct (assign cs (find_default cs) args) as [cs1 ok] eqn:Ea. destruct (assign_ok cs args) as [H1 H2]. rewrite Ea in H1, H2. cbn [snd] in H1.
    destruct ok; [|discriminate]. cbn [negb]. destruct (parseAll conv true cs1) as [cs2 e] eqn:E1. destruct e as [[|]| |]; try discriminate.
    apply parseAll_ok in E1. rewrite (missing_sames _ _ _ _ E1). destruct (existsb _ cs1) eqn:Em; [discriminate|]. intros E2. apply parseAll_ok in E2.
    destruct (H2 cs1 eq_refl) as [HL HG]. assert (D : Forall2 (done conv) cs1 cs') by (apply (Forall2_compose _ _ _ (done_both conv)); eauto).
    apply Forall2_nth in D as [DL DN]. split; [apply H1; reflexivity|]. split; [lia|]. intros i c Ec. destruct (HG i c Ec) as (c1 & Ec1 & G). destruct (DN i c1 Ec1) as (c' & Ec' & D).
    exists c1, c'. split; [exact G|]. split; [exact Ec'|]. split; [|exact D]. intros Hr. destruct (handled c1) eqn:Eh; [reflexivity|].
    assert (existsb (fun c => required c && negb (handled c)) cs1 = true); [|congruence]. apply existsb_exists. exists c1. split; [eapply nth_error_In; exact Ec1|].
    destruct G as (l & _ & _ & _ & -> & _). rewrite Hr, Eh. reflexivity.
  - intros (HP & HL & HN). assert (exists cs1, length cs1 = length cs /\ (forall i c, nth_error cs i = Some c -> exists c1, nth_error cs1 i = Some c1 /\ given cs args i c c1)) as (cs1 & HL1 & HG).
    { destruct (assign_ok cs args) as [H1 H2]. apply H1 in HP. destruct (assign cs (find_default cs) args) as [cs2 b]. cbn in HP. subst b. exists cs2. apply H2. reflexivity. }
    rewrite (assign_unique cs args cs1 HP HL1 HG). cbn [negb].
    assert (D : Forall2 (done conv) cs1 cs').
    { apply Forall2_nth. split; [lia|]. intros i c1 E1. assert (exists c, nth_error cs i = Some c) as (c & Ec).
      { destruct (nth_error cs i) as [c|] eqn:Ec; [eauto|]. apply nth_error_None in Ec. assert (nth_error cs1 i = None) by (apply nth_error_None; lia). congruence. }
      destruct (HN i c Ec) as (c1' & c' & G & Ec' & _ & D). destruct (HG i c Ec) as (c1'' & E1' & G'). assert (c1'' = c1) as -> by congruence.
      rewrite (given_det _ _ _ _ _ _ G G') in D. eauto. }
    apply (Forall2_compose _ _ _ (done_both conv)) in D as (cs2 & D1 & D2). pose proof (missing_sames _ _ _ _ D1) as Em. apply parseAll_ok in D1, D2. rewrite D1, Em, D2.
    destruct (existsb _ cs1) eqn:E; [|reflexivity]. exfalso. apply existsb_exists in E as (c1 & Hin & Hc). apply In_nth_error in Hin as (i & E1). apply andb_prop in Hc as [Hr Hh].
    assert (exists c, nth_error cs i = Some c) as (c & Ec).
    { destruct (nth_error cs i) as [c|] eqn:Ec; [eauto|]. apply nth_error_None in Ec. assert (nth_error cs1 i = None) by (apply nth_error_None; lia). congruence. }
    destruct (HN i c Ec) as (c1' & c' & G & Ec' & Hreq & _). destruct (HG i c Ec) as (c1'' & E1' & G'). assert (c1'' = c1) as -> by congruence.
    rewrite (given_det _ _ _ _ _ _ G G') in Hreq. destruct G' as (l & _ & _ & _ & E & _). rewrite Hreq in Hh by congruence. discriminate.
Qed.

Lemma unplaced_ok conv cs args : ~ placed cs args -> snd (run conv cs args) = Finished false.
Proof.
  intros H. unfold run. destruct (assign_ok cs args) as [H1 _]. destruct (assign cs (find_default cs) args) as [cs1 [|]]; cbn in H1; [|reflexivity]. tauto.
Qed.

Lemma help_ok conv cs args : placed (enable_help [] ++ cs) args -> In (txt "-h") args \/ In (txt "--help") args -> snd (run conv (enable_help [] ++ cs) args) = Left_program.
Proof.
  intros HP Hin. set (all := enable_help [] ++ cs) in *. unfold run. destruct (assign_ok all args) as [H1 H2]. apply H1 in HP.
  destruct (assign all (find_default all) args) as [cs1 b]. cbn in HP. subst b. cbn [negb]. destruct (H2 cs1 eq_refl) as [HL HG].
  destruct (HG 0 _ eq_refl) as (c1 & E1 & (l & Hl & _ & _ & _ & Ed & Ew & _ & _ & Hh)). cbn in Ed, Ew.
  assert (Hn : forall t, t = txt "-h" \/ t = txt "--help" -> names all t 0).
  { intros t Ht. split; [|intros j c Hj; lia]. eexists. split; [reflexivity|]. destruct Ht as [->| ->]; [left; exists (txt "h")|right; exists (txt "help")]; (split; [discriminate|split; reflexivity]). }
  assert (handled c1 = true) as Eh.
  { apply Hh. right. left. destruct Hin as [Hin|Hin]; eauto. }
  destruct cs1 as [|c cs1]; [discriminate|]. injection E1 as ->. cbn [parseAll]. rewrite Eh, Ed. cbn [andb Bool.eqb]. unfold parse. rewrite Ew. reflexivity.
Qed.

Lemma parseAll_later conv pre rest : Forall (fun c => dominant c = false) pre -> snd (parseAll conv true (pre ++ rest)) = snd (parseAll conv true rest).
Proof. induction 1 as [|c pre H _ IH]; [reflexivity|]. cbn [app parseAll]. rewrite H, andb_false_r. destruct (parseAll conv true (pre ++ rest)) as [cs e]. cbn [snd] in *. exact IH. Qed.
Lemma help_later conv pre cs args : Forall (fun c => dominant c = false) pre -> (forall c, In c pre -> ~ spells c (txt "-h") /\ ~ spells c (txt "--help")) ->
  placed (enable_help pre ++ cs) args -> In (txt "-h") args \/ In (txt "--help") args -> snd (run conv (enable_help pre ++ cs) args) = Left_program.
Proof.
  intros HD HS HP Hin. set (all := enable_help pre ++ cs) in *. unfold run. destruct (assign_ok all args) as [H1 H2]. apply H1 in HP.
  destruct (assign all (find_default all) args) as [cs1 b]. cbn in HP. subst b. cbn [negb]. destruct (H2 cs1 eq_refl) as [HL HG].
  assert (EN : exists h, nth_error all (length pre) = Some h /\ enable_help [] = [h]).
  { eexists. split; [|reflexivity]. unfold all, enable_help, set_callback. rewrite <- app_assoc, nth_error_app2, Nat.sub_diag by lia. reflexivity. }
  destruct EN as (h & EN & Eh0). destruct (HG _ _ EN) as (c1 & E1 & (l & Hl & _ & _ & _ & Ed & Ew & _ & _ & Hh)). injection Eh0 as <-. cbn in Ed, Ew.
  assert (EP : forall j c, j < length pre -> nth_error all j = Some c -> In c pre).
  { intros j c Hj Ec. unfold all, enable_help, set_callback in Ec. rewrite <- app_assoc, nth_error_app1 in Ec by exact Hj. eapply nth_error_In; exact Ec. }
  assert (Hn : forall t, t = txt "-h" \/ t = txt "--help" -> names all t (length pre)).
  { intros t Ht. split. { eexists. split; [exact EN|]. destruct Ht as [->| ->]; [left; exists (txt "h")|right; exists (txt "help")]; (split; [discriminate|split; reflexivity]). }
    intros j c Hj Ec. destruct (HS c (EP j c Hj Ec)). destruct Ht as [->| ->]; assumption. }
  assert (handled c1 = true) as Eh.
  { apply Hh. right. left. destruct Hin as [Hin|Hin]; eauto. }
  assert (L : length pre < length cs1) by (apply nth_error_Some; congruence).
  destruct (nth_error_split cs1 (length pre) E1) as (p & q & -> & Lp).
  assert (D : Forall (fun c => dominant c = false) p).
  { rewrite Forall_forall in *. intros c Hc. destruct (In_nth_error _ _ Hc) as (j & Ej). assert (Hj : j < length p) by (apply nth_error_Some; congruence).
    assert (exists c0, nth_error all j = Some c0) as (c0 & E0). { destruct (nth_error all j) eqn:E; [eauto|]. apply nth_error_None in E. rewrite <- HL, app_length in E. lia. }
    destruct (HG j c0 E0) as (c' & Ec' & (l' & _ & _ & _ & _ & Ed' & _)). rewrite nth_error_app1 in Ec' by exact Hj. assert (c' = c) as -> by congruence. rewrite Ed'. apply HD, (EP j); [lia|exact E0]. }
  pose proof (parseAll_later conv p (c1 :: q) D) as X. cbn [parseAll] in X. rewrite Eh, Ed in X. cbn [andb Bool.eqb] in X. unfold parse in X. rewrite Ew in X. cbn [snd] in X.
  destruct (parseAll conv true (p ++ c1 :: q)) as [cs2 e]. cbn [snd] in X. subst e. reflexivity.
Qed.

Lemma absent_keeps conv cs args cs' i c : run conv cs args = (cs', Finished true) -> nth_error cs i = Some c -> handled c = false -> ~ seen cs args i ->
  exists c', nth_error cs' i = Some c' /\ val c' = val c.
Proof.
  intros E Ec Hh Hs. apply run_ok in E as (_ & _ & H). destruct (H i c Ec) as (c1 & c' & G & Ec' & _ & D). exists c'. split; [exact Ec'|].
  destruct G as (l & _ & _ & _ & _ & _ & _ & Ev & _ & Hi). destruct (handled c1) eqn:E1; [|subst; exact Ev]. exfalso. rewrite Hh in Hi. destruct (proj1 Hi eq_refl); [discriminate|contradiction].
Qed.

(** an option nobody names, declared last *)
Lemma findIndex_last p cs c : p c = false -> findIndex p (cs ++ [c]) = findIndex p cs.
Proof. intros H. induction cs as [|x cs IH]; cbn [findIndex app]; [rewrite H; reflexivity|]. rewrite IH. reflexivity. Qed.
Lemma findIndex_lt p cs i : findIndex p cs = Some i -> i < length cs.
Proof. intros H. apply findIndex_ok in H. destruct H as [(c & E & _) _]. apply nth_error_Some. rewrite E. discriminate. Qed.
Lemma modify_last i f cs c : i < length cs -> modify i f (cs ++ [c]) = modify i f cs ++ [c].
Proof. revert i. induction cs as [|x cs IH]; intros [|i] H; cbn in *; try lia; [reflexivity|]. rewrite IH by lia. reflexivity. Qed.
Lemma modify_length i f cs : length (modify i f cs) = length cs.
Proof. revert i. induction cs as [|x cs IH]; intros [|i]; cbn; congruence. Qed.
Lemma assign_last c args : name c <> [] -> (forall x, In x args -> ~ spells c x) -> forall cs cur, (match cur with Some i => i < length cs | None => True end) ->
  assign (cs ++ [c]) cur args = (fst (assign cs cur args) ++ [c], snd (assign cs cur args)).
Proof.
  intros Hn. induction args as [|a args IH]; intros Hs cs cur Hc; cbn [assign]; [reflexivity|]. cbv zeta.
  assert (Hs' : forall x, In x args -> ~ spells c x) by (intros x Hx; apply Hs; right; exact Hx).
  assert (Ha : ~ spells c a) by (apply Hs; left; reflexivity).
  change (if match a with c0 :: _ => Ascii.eqb c0 "-" | [] => false end then find (cs ++ [c]) a else None) with (look (cs ++ [c]) a).
  change (if match a with c0 :: _ => Ascii.eqb c0 "-" | [] => false end then find cs a else None) with (look cs a).
  assert (EL : look (cs ++ [c]) a = look cs a).
  { unfold look. destruct (match a with x :: _ => Ascii.eqb x "-" | [] => false end) eqn:Ed; [|reflexivity]. apply findIndex_last.
    destruct (is c a) eqn:Ei; [|reflexivity]. exfalso. apply Ha. apply (is_spells c a Ed). exact Ei. }
  rewrite EL. destruct (look cs a) as [i|] eqn:E.
  - assert (Hi : i < length cs). { unfold look in E. destruct (match a with x :: _ => Ascii.eqb x "-" | [] => false end); [|discriminate]. exact (findIndex_lt _ _ _ E). }
    rewrite modify_last by exact Hi. apply IH; [exact Hs'|]. cbn. rewrite modify_length. exact Hi.
  - destruct cur as [i|]; [|reflexivity]. rewrite modify_last by exact Hc. rewrite nth_error_app1 by exact Hc.
    assert (ED : find_default (modify i (push a) cs ++ [c]) = find_default (modify i (push a) cs)).
    { apply findIndex_last. destruct (name c); [contradiction|reflexivity]. }
    rewrite ED. apply IH; [exact Hs'|].
    assert (B : match (match nth_error cs i with Some c0 => if variadic c0 then Some i else find_default (modify i (push a) cs) | None => Some i end) with
                Some k => k < length (modify i (push a) cs) | None => True end).
    { destruct (nth_error cs i) as [c0|]; [destruct (variadic c0)|]; cbn; rewrite ?modify_length; try exact Hc.
      destruct (find_default (modify i (push a) cs)) as [k|] eqn:Ef; [|exact I]. apply findIndex_lt in Ef. rewrite modify_length in Ef. exact Ef. }
    exact B.
Qed.
Lemma parseAll_last conv dom c : handled c = false -> forall cs, parseAll conv dom (cs ++ [c]) = (fst (parseAll conv dom cs) ++ [c], snd (parseAll conv dom cs)).
Proof.
  intros Hh. induction cs as [|x cs IH]; cbn [parseAll app]; [rewrite Hh; reflexivity|]. rewrite IH.
  destruct (handled x && Bool.eqb (dominant x) dom); [destruct (parse conv x)|]; destruct (parseAll conv dom cs); reflexivity.
Qed.
Lemma optional_run conv cs args c : name c <> [] -> required c = false -> handled c = false -> (forall x, In x args -> ~ spells c x) ->
  run conv (cs ++ [c]) args = (fst (run conv cs args) ++ [c], snd (run conv cs args)).
Proof.
  intros Hn Hr Hh Hs. unfold run. 
  assert (ED : find_default (cs ++ [c]) = find_default cs). { apply findIndex_last. destruct (name c); [contradiction|reflexivity]. }
  rewrite ED, (assign_last c args Hn Hs).
  2: { destruct (find_default cs) as [k|] eqn:Ef; [|exact I]. exact (findIndex_lt _ _ _ Ef). }
  destruct (assign cs (find_default cs) args) as [cs1 ok]. cbn [fst snd]. destruct ok; [|reflexivity]. cbn [negb].
  rewrite (parseAll_last conv true c Hh). destruct (parseAll conv true cs1) as [cs2 e]. cbn [fst snd].
  destruct e as [[]| |]; try reflexivity. rewrite existsb_app. cbn [existsb]. rewrite Hr. cbn [andb orb]. rewrite orb_false_r.
  destruct (existsb _ cs2); [reflexivity|]. rewrite (parseAll_last conv false c Hh). reflexivity.
Qed.
Lemma tyEq_ok a : forall b, tyEq a b = true <-> a = b.
Proof. induction a; intros b; destruct b; cbn [tyEq]; try (split; [discriminate|intros [=]]); try (split; reflexivity). rewrite IHa. split; [intros ->; reflexivity|intros [= ->]; reflexivity]. Qed.
Lemma get_last t n cs c v : (forall x, In x cs -> name x <> n) -> name c = n -> what c = Argument t -> val c = v -> v <> VUninit ->
  get t n (cs ++ [c]) = Done (Some v) /\ forall t', t' <> t -> get t' n (cs ++ [c]) = Done None.
Proof.
  intros Hn Hc Hw Hv Hu.
  assert (EF : List.find (fun x => teq (name x) n) (cs ++ [c]) = Some c).
  { induction cs as [|x cs IH]; cbn [List.find app].
    - rewrite Hc, teq_refl. reflexivity.
    - rewrite (teq_neq (name x) n (Hn x (or_introl eq_refl))).
      apply IH. intros y Hy. apply Hn. right. exact Hy. }
  unfold get. rewrite EF, Hw, Hv. split.
  - rewrite (proj2 (tyEq_ok t t) eq_refl). destruct v; try reflexivity. contradiction.
  - intros t' Ht. destruct (tyEq t' t) eqn:E; [|reflexivity]. apply tyEq_ok in E. contradiction.
Qed.
Lemma optional_ok conv t n a v dom cs args : n <> [] -> ~ In ("-"%char :: n) args -> (a <> [] -> ~ In ("-"%char :: "-"%char :: a) args) ->
  exists c, run conv (set_optional t n a v dom cs) args = (fst (run conv cs args) ++ [c], snd (run conv cs args)) /\
    ((forall x, In x (fst (run conv cs args)) -> name x <> n) -> v <> VUninit ->
     get t n (fst (run conv cs args) ++ [c]) = Done (Some v) /\ forall t', t' <> t -> get t' n (fst (run conv cs args) ++ [c]) = Done None).
Proof.
  intros Hn H1 H2. unfold set_optional. eexists. split.
  - apply optional_run; [exact Hn|reflexivity|reflexivity|]. intros x Hx [(m & _ & Em & ->)|(m & Hm & Em & ->)]; cbn in Em; subst m; [exact (H1 Hx)|exact (H2 Hm Hx)].
  - intros H Hv. apply (get_last t n _ _ v); [exact H|reflexivity|reflexivity|reflexivity|exact Hv].
Qed.
