(** Proofs about reading the configuration. *)
From Coq Require Import List Arith ZArith Bool Ascii String Lia.
From Coq Require Import Reals Lra.
From Flocq Require Import Core BinarySingleNaN.
From Verif Require Import Outcome F64 Arith ParticleModel VecModel BoundaryModel RunModel VtpModel YamlModel YamlSpec.
Import ListNotations.
Local Notation length := List.length.
Local Open Scope nat_scope.

Lemma teq_spec a b : teq a b = true <-> a = b.
Proof.
  revert b. induction a as [|x a IH]; intros [|y b]; cbn; try (split; [discriminate|discriminate]); [tauto|].
  destruct (ascii_dec x y) as [->|Hn]; [rewrite IH; split; congruence|]. split; [discriminate|congruence].
Qed.
Lemma teq_refl a : teq a a = true. Proof. apply teq_spec. reflexivity. Qed.
Lemma teq_neq a b : a <> b -> teq a b = false.
Proof. intros H. destruct (teq a b) eqn:E; [apply teq_spec in E; contradiction|reflexivity]. Qed.

Lemma entry_gives l k n : entryOf (fun k' => teq k' k) l = Some n <-> gives l k n.
Proof.
  split.
  - induction l as [|(k', n') l IH]; cbn; [discriminate|]. destruct (teq k' k) eqn:E.
    + apply teq_spec in E. subst k'. intros [= ->]. constructor.
    + intros H. constructor; [intros ->; rewrite teq_refl in E; discriminate|apply IH, H].
  - induction 1 as [k n l|k k' n n' l Hk H IH]; cbn; [rewrite teq_refl; reflexivity|]. rewrite teq_neq by exact Hk. exact IH.
Qed.
Lemma entry_absent l k : entryOf (fun k' => teq k' k) l = None <-> absent l k.
Proof.
  unfold absent. induction l as [|(k', n') l IH]; cbn; [tauto|]. destruct (teq k' k) eqn:E.
  - apply teq_spec in E. subst. split; [discriminate|intros H; exfalso; apply H; left; reflexivity].
  - rewrite IH. split; [intros H [->|H']; [rewrite teq_refl in E; discriminate|tauto]|tauto].
Qed.
Lemma gives_fun l k n n' : gives l k n -> gives l k n' -> n = n'.
Proof. rewrite <- !entry_gives. congruence. Qed.
Lemma gives_absent l k n : gives l k n -> absent l k -> False.
Proof. rewrite <- entry_gives, <- entry_absent. congruence. Qed.
Lemma gives_or_absent l k : (exists n, gives l k n) \/ absent l k.
Proof. destruct (entryOf (fun k' => teq k' k) l) as [n|] eqn:E; [left; exists n; apply entry_gives, E|right; apply entry_absent, E]. Qed.

Lemma rbind_ok {A B} (m : res A) (f : A -> res B) b : rbind m f = Ok b <-> exists a, m = Ok a /\ f a = Ok b.
Proof. destruct m; cbn; split; try discriminate; try (intros (? & ? & ?); congruence); eauto. Qed.

Lemma read_req {T} (cv : node -> option T) l k d x : readConfig cv (Map l) (txt k) d false = Ok x <-> scalar cv l k x.
Proof.
  unfold readConfig, scalar, member. cbn [rbind]. destruct (entryOf _ l) as [n|] eqn:E.
  - apply entry_gives in E. unfold as_. split.
    + intros H. exists n. split; [exact E|]. destruct (cv n); congruence.
    + intros (n' & G & C). rewrite (gives_fun _ _ _ _ E G), C. reflexivity.
  - apply entry_absent in E. split; [discriminate|]. intros (n & G & _). destruct (gives_absent _ _ _ G E).
Qed.
Lemma read_opt {T} (cv : node -> option T) l k d x : readConfig cv (Map l) (txt k) d true = Ok x <-> or_default (scalar cv) d l k x.
Proof.
  unfold or_default. destruct (gives_or_absent l (txt k)) as [(n & G)|A].
  - assert (R : readConfig cv (Map l) (txt k) d true = readConfig cv (Map l) (txt k) d false).
    { unfold readConfig, member. cbn [rbind]. apply entry_gives in G. rewrite G. reflexivity. }
    rewrite R, read_req. split; [tauto|]. intros [[A _]|H]; [destruct (gives_absent _ _ _ G A)|exact H].
  - unfold readConfig, member. cbn [rbind]. pose proof A as A'. apply entry_absent in A'. rewrite A'. split.
    + intros [= ->]. left. tauto.
    + intros [[_ ->]|(n & G & _)]; [reflexivity|destruct (gives_absent _ _ _ G A)].
Qed.

Lemma read_items {T} cs (cv : node -> option T) ns xs : readItems cs cv (Seq ns) (seq 0 (length ns)) = Ok xs <-> items cv ns xs.
Proof.
  assert (H : forall ns pre xs, readItems cs cv (Seq (pre ++ ns)) (seq (length pre) (length ns)) = Ok xs <-> items cv ns xs).
  { clear. unfold items. induction ns as [|n ns IH]; intros pre xs.
    - cbn. split; [intros [= <-]; constructor|intros H; inversion H; reflexivity].
    - cbn [length seq readItems]. unfold nodeAt. rewrite nth_error_app2, Nat.sub_diag by lia. cbn [nth_error rbind].
      replace (pre ++ n :: ns) with ((pre ++ [n]) ++ ns) by (rewrite <- app_assoc; reflexivity).
      replace (S (length pre)) with (length (pre ++ [n])) by (rewrite app_length; cbn; lia).
      unfold as_. destruct (cv n) as [v|] eqn:C; cbn [rbind].
      + split.
        * intros H. apply rbind_ok in H as (vs & E & [= <-]). apply IH in E. constructor; assumption.
        * intros H. inversion H as [|? x' ? xs' C' F']; subst. apply (IH (pre ++ [n])) in F'. rewrite F'. cbn. congruence.
      + split; [discriminate|]. intros H. inversion H as [|? x' ? xs' C' F']; subst. congruence. }
  apply (H ns []).
Qed.

Lemma arr_req {T} cs (cv : node -> option T) l k d xs : (forall m, ~ gives l (txt k) (Map m)) ->
  readArray cs cv (Map l) (txt k) d 3 false = Ok xs <-> triple cv l k xs.
Proof.
  intros HM. unfold readArray, triple, member. cbn [rbind]. destruct (entryOf _ l) as [n|] eqn:E.
  - apply entry_gives in E. destruct n as [|t|ns|m].
    + cbn. split; [discriminate|]. intros (ns & G & _). pose proof (gives_fun _ _ _ _ E G). discriminate.
    + cbn. split; [discriminate|]. intros (ns & G & _). pose proof (gives_fun _ _ _ _ E G). discriminate.
    + cbn [nodeSize]. destruct (length ns =? 3) eqn:L.
      * apply Nat.eqb_eq in L. change (negb true) with false. cbv iota. rewrite <- L, read_items. split; [intros H; exists ns; auto|].
        intros (ns' & G & _ & H). pose proof (gives_fun _ _ _ _ E G) as [= ->]. exact H.
      * cbn. apply Nat.eqb_neq in L. split; [discriminate|]. intros (ns' & G & L' & _). pose proof (gives_fun _ _ _ _ E G) as [= ->]. lia.
    + exfalso. apply (HM m), E.
  - apply entry_absent in E. split; [discriminate|]. intros (ns & G & _). destruct (gives_absent _ _ _ G E).
Qed.
Lemma arr_opt {T} cs (cv : node -> option T) l k d xs : (forall m, ~ gives l (txt k) (Map m)) ->
  readArray cs cv (Map l) (txt k) d 3 true = Ok xs <-> or_default (triple cv) d l k xs.
Proof.
  intros HM. unfold or_default. destruct (gives_or_absent l (txt k)) as [(n & G)|A].
  - assert (R : readArray cs cv (Map l) (txt k) d 3 true = readArray cs cv (Map l) (txt k) d 3 false).
    { unfold readArray, member. cbn [rbind]. apply entry_gives in G. rewrite G. reflexivity. }
    rewrite R, arr_req by exact HM. split; [tauto|]. intros [[A _]|H]; [destruct (gives_absent _ _ _ G A)|exact H].
  - unfold readArray, member. cbn [rbind]. pose proof A as A'. apply entry_absent in A'. rewrite A'. split.
    + intros [= ->]. left. tauto.
    + intros [[_ ->]|(ns & G & _)]; [reflexivity|destruct (gives_absent _ _ _ G A)].
Qed.

Ltac conv H := first
  [ apply read_req in H | apply read_opt in H
  | apply arr_req in H; [|assumption || (intros m; match goal with P : plain _ |- _ => apply P; cbn; tauto end)]
  | apply arr_opt in H; [|assumption || (intros m; match goal with P : plain _ |- _ => apply P; cbn; tauto end)] ].

Lemma load_ok cs l c : plain l -> loadConfig cs (Map l) = Ok c <-> says cs l c /\ readBoundaries cs (Map l) = Ok (boundaries c).
Proof.
  intros HP. unfold loadConfig. cbv zeta. split.
  - intros H. repeat (match type of H with rbind _ _ = _ => idtac end; let E := fresh "E" in apply rbind_ok in H as (? & E & H); match type of E with readBoundaries _ _ = _ => idtac | _ => conv E end).
    injection H as <-. cbn [boundaries]. unfold says. cbn [rngSeed simBoxLow simBoxHigh simBoxPBC viscosity KBT sylinderNumber sylinderLength sylinderDiameter dt timeTotal timeSnap
      conResTol conMaxIte conSolverChoice logLevel timerLevel monolayer initBoxLow initBoxHigh initOrient initCircularX initPreSteps linkKappa linkGap sylinderFixed
      sylinderLengthSigma sylinderDiameterColRatio sylinderLengthColRatio sylinderColBuf].
    repeat match goal with |- _ /\ _ => split end; assumption.
  - intros [H HB]. unfold says in H.
    repeat match type of H with _ /\ _ => let H1 := fresh in destruct H as [H1 H] end.
    apply rbind_ok; eexists; split; [apply read_req; eassumption|].
    do 3 (apply rbind_ok; eexists; split; [apply arr_req; [intros m; apply HP; cbn; tauto|eassumption]|]).
    do 11 (apply rbind_ok; eexists; split; [apply read_req; eassumption|]).
    do 3 (apply rbind_ok; eexists; split; [apply read_opt; eassumption|]).
    do 3 (apply rbind_ok; eexists; split; [apply arr_opt; [intros m; apply HP; cbn; tauto|eassumption]|]).
    do 9 (apply rbind_ok; eexists; split; [apply read_opt; eassumption|]).
    rewrite HB. destruct c. reflexivity.
Qed.


Lemma triple_three cs m k c : triple (asDouble cs) m k c -> c = three (vec3 c).
Proof.
  intros (ns & _ & L & F). assert (length c = 3) as Lc. { rewrite <- L. clear L. induction F; cbn; congruence. }
  destruct c as [|x [|y [|z [|]]]]; try discriminate Lc. reflexivity.
Qed.
Lemma boundary_ok cs m bs : bplain m -> readBoundary cs (Map m) = Ok bs <-> boundaryOf cs (Map m) bs.
Proof.
  intros HP. unfold readBoundary, member. cbn [rbind].
  assert (HC : forall k, In k ["center"; "norm"; "axis"]%string -> forall x, ~ gives m (txt k) (Map x)) by (intros k Hk x; apply HP, Hk).
  assert (TW : teq (txt "tube") (txt "wall") = false) by reflexivity. assert (SW : teq (txt "sphere") (txt "wall") = false) by reflexivity.
  assert (ST : teq (txt "sphere") (txt "tube") = false) by reflexivity.
  destruct (entryOf _ m) as [t|] eqn:E.
  2:{ apply entry_absent in E. split; [discriminate|]. intros H; inversion H; subst; exfalso; eapply gives_absent; eassumption. }
  apply entry_gives in E. unfold as_. destruct (asText cs t) as [x|] eqn:EX; cbn [rbind].
  2:{ split; [discriminate|]. intros H; inversion H; subst; match goal with G : gives m (txt "type") ?t' |- _ => pose proof (gives_fun _ _ _ _ E G); subst end; congruence. }
  split.
  - destruct (teq x (txt "wall")) eqn:W.
    { apply teq_spec in W. subst x. intros H. apply rbind_ok in H as (b & H & [= <-]). unfold readWall in H.
      apply rbind_ok in H as (c & E1 & H). apply arr_req in E1; [|apply HC; cbn; tauto].
      apply rbind_ok in H as (n & E2 & [= <-]). apply arr_req in E2; [|apply HC; cbn; tauto]. rewrite (triple_three _ _ _ _ E1) in E1. rewrite (triple_three _ _ _ _ E2) in E2. eapply b_wall; eassumption. }
    destruct (teq x (txt "tube")) eqn:T.
    { apply teq_spec in T. subst x. intros H. apply rbind_ok in H as (b & H & [= <-]). unfold readTube in H.
      apply rbind_ok in H as (c & E1 & H). apply arr_req in E1; [|apply HC; cbn; tauto].
      apply rbind_ok in H as (a & E2 & H). apply arr_req in E2; [|apply HC; cbn; tauto].
      apply rbind_ok in H as (i & E3 & H). apply read_req in E3. apply rbind_ok in H as (r & E4 & [= <-]). apply read_req in E4. rewrite (triple_three _ _ _ _ E1) in E1. rewrite (triple_three _ _ _ _ E2) in E2. eapply b_tube; eassumption. }
    destruct (teq x (txt "sphere")) eqn:S.
    { apply teq_spec in S. subst x. intros H. apply rbind_ok in H as (b & H & [= <-]). unfold readSphereShell in H.
      apply rbind_ok in H as (c & E1 & H). apply arr_req in E1; [|apply HC; cbn; tauto].
      apply rbind_ok in H as (r & E3 & H). apply read_req in E3. apply rbind_ok in H as (i & E4 & [= <-]). apply read_req in E4. rewrite (triple_three _ _ _ _ E1) in E1. eapply b_sphere; eassumption. }
    intros [= <-]. eapply b_other; [exact E|exact EX| | |]; intros ->; rewrite teq_refl in *; discriminate.
  - intros H. inversion H; subst; match goal with G : gives m (txt "type") ?t' |- _ => pose proof (gives_fun _ _ _ _ E G); subst end;
      match goal with G : asText cs ?t = Some ?y |- _ => first [constr_eq x y; fail 1 | assert (HE : x = y) by congruence; rewrite HE in *; clear HE] end;
      repeat match goal with v : vec _ |- _ => destruct v as [? ? ?] end.
    + rewrite teq_refl. apply rbind_ok. eexists. split; [|reflexivity]. unfold readWall.
      apply rbind_ok. eexists. split; [apply arr_req; [apply HC; cbn; tauto|eassumption]|]. apply rbind_ok. eexists. split; [apply arr_req; [apply HC; cbn; tauto|eassumption]|]. reflexivity.
    + rewrite TW, teq_refl. apply rbind_ok. eexists. split; [|reflexivity]. unfold readTube.
      apply rbind_ok. eexists. split; [apply arr_req; [apply HC; cbn; tauto|eassumption]|]. apply rbind_ok. eexists. split; [apply arr_req; [apply HC; cbn; tauto|eassumption]|].
      apply rbind_ok. eexists. split; [apply read_req; eassumption|]. apply rbind_ok. eexists. split; [apply read_req; eassumption|]. reflexivity.
    + rewrite SW, ST, teq_refl. apply rbind_ok. eexists. split; [|reflexivity]. unfold readSphereShell.
      apply rbind_ok. eexists. split; [apply arr_req; [apply HC; cbn; tauto|eassumption]|].
      apply rbind_ok. eexists. split; [apply read_req; eassumption|]. apply rbind_ok. eexists. split; [apply read_req; eassumption|]. reflexivity.
    + rewrite !teq_neq by assumption. reflexivity.
Qed.

Lemma boundary_list_ok cs ns bs : readBoundaryList cs ns = Ok bs <-> exists bss, Forall2 (fun n b => readBoundary cs n = Ok b) ns bss /\ bs = List.concat bss.
Proof.
  revert bs. induction ns as [|n ns IH]; intros bs; cbn [readBoundaryList].
  - split; [intros [= <-]; exists []; split; [constructor|reflexivity]|]. intros (bss & H & ->). inversion H. reflexivity.
  - split.
    + intros H. apply rbind_ok in H as (b & E & H). apply rbind_ok in H as (bs' & E' & [= <-]). apply IH in E' as (bss & F & ->). exists (b :: bss). split; [constructor; assumption|reflexivity].
    + intros (bss & H & ->). inversion H as [|? b ? bss' E F]; subst. rewrite E. cbn [rbind].
      assert (E' : readBoundaryList cs ns = Ok (List.concat bss')) by (apply IH; exists bss'; auto). rewrite E'. reflexivity.
Qed.

Lemma boundaries_ok cs l bs : readBoundaries cs (Map l) = Ok bs <->
  (absent l (txt "boundaries") /\ bs = []) \/
  (exists ns bss, gives l (txt "boundaries") (Seq ns) /\ Forall2 (fun n b => readBoundary cs n = Ok b) ns bss /\ bs = List.concat bss) \/
  (bs = [] /\ (gives l (txt "boundaries") Null \/ (exists t, gives l (txt "boundaries") (Scalar t)) \/ gives l (txt "boundaries") (Map []))).
Proof.
  unfold readBoundaries, member. cbn [rbind]. destruct (entryOf _ l) as [n|] eqn:E.
  - apply entry_gives in E. destruct n as [|t|ns|[|x m]].
    + split; [intros [= <-]; tauto|]. intros [[A _]|[(ns & bss & G & _)|[-> _]]]; [destruct (gives_absent _ _ _ E A)|pose proof (gives_fun _ _ _ _ E G); discriminate|reflexivity].
    + split; [intros [= <-]; right; right; split; [reflexivity|right; left; exists t; exact E]|].
      intros [[A _]|[(ns & bss & G & _)|[-> _]]]; [destruct (gives_absent _ _ _ E A)|pose proof (gives_fun _ _ _ _ E G); discriminate|reflexivity].
    + rewrite boundary_list_ok. split; [intros (bss & F & ->); right; left; exists ns, bss; auto|].
      intros [[A _]|[(ns' & bss & G & F & ->)|[_ [G|[(t & G)|G]]]]]; [destruct (gives_absent _ _ _ E A)| | | |];
        pose proof (gives_fun _ _ _ _ E G) as HH; try discriminate. injection HH as <-. exists bss. auto.
    + split; [intros [= <-]; tauto|]. intros [[A _]|[(ns & bss & G & _)|[-> _]]]; [destruct (gives_absent _ _ _ E A)|pose proof (gives_fun _ _ _ _ E G); discriminate|reflexivity].
    + split; [discriminate|]. intros [[A _]|[(ns & bss & G & _)|[_ [G|[(t & G)|G]]]]]; [destruct (gives_absent _ _ _ E A)| | | |];
        pose proof (gives_fun _ _ _ _ E G); discriminate.
  - apply entry_absent in E. split; [intros [= <-]; tauto|].
    intros [[_ ->]|[(ns & bss & G & _)|[-> _]]]; [reflexivity|destruct (gives_absent _ _ _ G E)|reflexivity].
Qed.

(** no plain hypothesis: a document that loads has every required key, and every array present has three elements *)
Lemma arr_size {T} cs (cv : node -> option T) l k d o xs : readArray cs cv (Map l) (txt k) d 3 o = Ok xs -> forall n, gives l (txt k) n -> nodeSize n = 3.
Proof.
  unfold readArray, member. cbn [rbind]. intros H n G. apply entry_gives in G. rewrite G in H. destruct (nodeSize n =? 3) eqn:E; [apply Nat.eqb_eq, E|discriminate].
Qed.
Lemma arr_present {T} cs (cv : node -> option T) l k d xs : readArray cs cv (Map l) (txt k) d 3 false = Ok xs -> exists n, gives l (txt k) n.
Proof.
  unfold readArray, member. cbn [rbind]. intros H. destruct (entryOf _ l) as [n|] eqn:E; [|discriminate]. exists n. apply entry_gives, E.
Qed.
Lemma load_required cs doc c : loadConfig cs doc = Ok c ->
  exists l, doc = Map l /\ (forall k, In k required -> exists n, gives l (txt k) n) /\
    (forall k n, In k arrays -> gives l (txt k) n -> nodeSize n = 3).
Proof.
  destruct doc as [|t|ns|l]; try discriminate. intros H. exists l. split; [reflexivity|].
  unfold loadConfig in H. cbv zeta in H.
  repeat (match type of H with rbind _ _ = _ => idtac end; let E := fresh "E" in apply rbind_ok in H as (? & E & H)).
  split.
  - intros k Hk. unfold required in Hk. cbn [In] in Hk.
    repeat (destruct Hk as [<-|Hk]; [solve [match goal with E : readConfig _ _ (txt ?s) _ false = Ok _ |- exists n, gives _ (txt ?s) n => apply read_req in E as (n & G & _); exists n; exact G end
      | eapply arr_present; eassumption]|]). destruct Hk.
  - intros k n Hk. unfold arrays in Hk. cbn [In] in Hk. revert n.
    repeat (destruct Hk as [<-|Hk]; [eapply arr_size; eassumption|]). destruct Hk.
Qed.

Lemma member_fail cs doc : (forall l, doc <> Map l) -> loadConfig cs doc = Exit1 \/ loadConfig cs doc = Thrown.
Proof. destruct doc as [|t|ns|l]; intros H; try (left; reflexivity); [right; reflexivity|]. destruct (H l eq_refl). Qed.

Lemma vector_ok {T} cs (cv : node -> option T) l k d o ns xs : gives l (txt k) (Seq ns) ->
  readVector cs cv (Map l) (txt k) d o = Ok xs <-> items cv ns xs.
Proof.
  intros G. unfold readVector, member. cbn [rbind]. apply entry_gives in G. rewrite G. cbn [nodeSize]. apply read_items.
Qed.
Lemma array_ok {T} cs (cv : node -> option T) l k d o dim ns xs : gives l (txt k) (Seq ns) ->
  readArray cs cv (Map l) (txt k) d dim o = Ok xs <-> length ns = dim /\ items cv ns xs.
Proof.
  intros G. unfold readArray, member. cbn [rbind]. apply entry_gives in G. rewrite G. cbn [nodeSize]. destruct (length ns =? dim) eqn:E.
  - apply Nat.eqb_eq in E. subst dim. cbn [negb]. rewrite read_items. tauto.
  - apply Nat.eqb_neq in E. cbn [negb]. split; [discriminate|tauto].
Qed.
Lemma absent_ok {T} cs (cv : node -> option T) l k x (d : list T) dim : absent l (txt k) ->
  readConfig cv (Map l) (txt k) x true = Ok x /\ readArray cs cv (Map l) (txt k) d dim true = Ok d /\ readVector cs cv (Map l) (txt k) d true = Ok d /\
  readConfig cv (Map l) (txt k) x false = Exit1 /\ readArray cs cv (Map l) (txt k) d dim false = Exit1 /\ readVector cs cv (Map l) (txt k) d false = Exit1.
Proof.
  intros A. unfold readConfig, readArray, readVector, member. cbn [rbind]. apply entry_absent in A. rewrite A. tauto.
Qed.

Lemma defaults_near : (Rabs (B2R hundredth - 1 / 100) <= / 2 * bpow radix2 (-59) /\ Rabs (B2R three_tenths - 3 / 10) <= / 2 * bpow radix2 (-54))%R.
Proof.
  assert (A : B2R hundredth = (5764607523034235 / 576460752303423488)%R). { rewrite <- SF2R_B2SF. change (B2SF hundredth) with (SpecFloat.S754_finite false 5764607523034235 (-59)). cbn [SF2R]. unfold F2R. cbn [Fnum Fexp cond_Zopp]. change (bpow radix2 (-59)) with (/ 576460752303423488)%R. lra. }
  assert (B : B2R three_tenths = (5404319552844595 / 18014398509481984)%R). { rewrite <- SF2R_B2SF. change (B2SF three_tenths) with (SpecFloat.S754_finite false 5404319552844595 (-54)). cbn [SF2R]. unfold F2R. cbn [Fnum Fexp cond_Zopp]. change (bpow radix2 (-54)) with (/ 18014398509481984)%R. lra. }
  rewrite A, B. change (bpow radix2 (-59)) with (/ 576460752303423488)%R. change (bpow radix2 (-54)) with (/ 18014398509481984)%R. split; apply Rabs_le; lra.
Qed.
