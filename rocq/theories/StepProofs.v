(** Proofs about the time step. *)
From Coq Require Import List Arith ZArith Bool Reals Lra Lia Permutation.
From Flocq Require Import Core.
From Verif Require Import Outcome ListUtil Arith ParticleModel VecModel VecSpec VecProofs ConModel MPIProofs RngProofs Overlay SylModel SylSpec SylProofs MobProofs
  QPModel QPReal NearProofs StepModel StepSpec.
Import ListNotations.

Lemma forEach_ok {S} (order : list nat) (f : nat -> S -> outcome S) (g : nat -> S -> S) (ss : list S) :
  Permutation order (seq 0 (length ss)) -> (forall i s, nth_error ss i = Some s -> f i s = Done (g i s)) ->
  exists ss', forEach order f ss = Done ss' /\ length ss' = length ss /\ forall i, nth_error ss' i = option_map (g i) (nth_error ss i).
Proof.
  intros Hp Hf. destruct ss as [|s0 ss].
  - cbn in Hp. apply Permutation_sym, Permutation_nil in Hp. subst order. exists []. split; [reflexivity|]. split; [reflexivity|].
    intros [|i]; reflexivity.
  - set (l := s0 :: ss) in *. exists (map (fun j => g j (nth j l s0)) (seq 0 (length l))). split; [|split].
    + unfold forEach. apply (inplace_list s0); [exact Hp|]. intros j Hj. apply Hf. apply nth_error_nth'. exact Hj.
    + rewrite map_length, seq_length. reflexivity.
    + intro i. destruct (Nat.lt_ge_cases i (length l)) as [C|C].
      * rewrite nth_error_map_seq by exact C. rewrite (nth_error_nth' l s0 C). reflexivity.
      * rewrite (proj2 (nth_error_None l i)) by exact C. cbn [option_map]. apply nth_error_None. rewrite map_length, seq_length. exact C.
Qed.

Section Any.
  Context {N : arith}.

  Lemma read3_ok : forall (x : list N) k, k + 2 < length x -> read3 x k = Done (Vec (nth k x (a_Z 0)) (nth (k + 1) x (a_Z 0)) (nth (k + 2) x (a_Z 0))).
  Proof.
    intros x k H. unfold read3, mread.
    rewrite (nth_error_nth' x (a_Z 0)) by lia. cbn [obind].
    rewrite (nth_error_nth' x (a_Z 0)) by lia. cbn [obind].
    rewrite (nth_error_nth' x (a_Z 0)) by lia. reflexivity.
  Qed.
  Lemma read_lin : forall (x : list N) n i, length x = 6 * n -> i < n -> read3 x (6 * i) = Done (lin x i).
  Proof. intros x n i H Hi. apply read3_ok. lia. Qed.
  Lemma read_rot : forall (x : list N) n i, length x = 6 * n -> i < n -> read3 x (6 * i + 3) = Done (rot x i).
  Proof. intros x n i H Hi. rewrite read3_ok by lia. unfold rot. rewrite <- !Nat.add_assoc. reflexivity. Qed.

  Lemma mwrite_nth : forall (x : list N) i v d, i < length x ->
    exists x', mwrite x i v = Done x' /\ length x' = length x /\ forall k, nth k x' d = if Nat.eqb k i then v else nth k x d.
  Proof.
    intros x i v d Hi. unfold mwrite. destruct (Nat.ltb_spec i (length x)); [|lia]. eexists. split; [reflexivity|]. split.
    - rewrite app_length, firstn_length. cbn [length]. rewrite skipn_length. lia.
    - intro k. assert (L : length (firstn i x) = i) by (rewrite firstn_length; lia).
      destruct (Nat.eqb_spec k i) as [->|C].
      + rewrite app_nth2 by lia. rewrite L, Nat.sub_diag. reflexivity.
      + destruct (Nat.lt_ge_cases k i).
        * rewrite app_nth1 by lia. rewrite <- (firstn_skipn i x) at 2. rewrite app_nth1 by lia. reflexivity.
        * rewrite app_nth2 by lia. rewrite L. destruct (k - i) as [|j] eqn:E; [lia|]. cbn [nth].
          rewrite <- (firstn_skipn (S i) x) at 2. rewrite app_nth2; rewrite firstn_length; [f_equal; lia|lia].
  Qed.

  Lemma zeroMono_fold : forall n order (x : list N), length x = 6 * n -> (forall i, In i order -> i < n) ->
    exists x', zeroMono order x = Done x' /\ length x' = 6 * n /\
      forall k, nth k x' (a_Z 0) = if existsb (fun i => Nat.eqb k (6 * i + 2) || Nat.eqb k (6 * i + 3) || Nat.eqb k (6 * i + 4)) order then a_Z 0 else nth k x (a_Z 0).
  Proof.
    intros n. unfold zeroMono. induction order as [|i order IH]; intros x L H.
    - exists x. split; [reflexivity|]. split; [exact L|]. reflexivity.
    - cbn [ofold]. assert (Hi : i < n) by (apply H; left; reflexivity).
      destruct (mwrite_nth x (6 * i + 2) (a_Z 0) (a_Z 0)) as (x1 & E1 & L1 & N1); [lia|]. rewrite E1. cbn [obind].
      destruct (mwrite_nth x1 (6 * i + 3) (a_Z 0) (a_Z 0)) as (x2 & E2 & L2 & N2); [lia|]. rewrite E2. cbn [obind].
      destruct (mwrite_nth x2 (6 * i + 4) (a_Z 0) (a_Z 0)) as (x3 & E3 & L3 & N3); [lia|]. rewrite E3. cbn [obind].
      destruct (IH x3) as (x' & E & L' & N'); [lia|intros; apply H; right; assumption|].
      exists x'. split; [exact E|]. split; [exact L'|]. intro k. rewrite N', N3, N2, N1. cbn [existsb].
      destruct (Nat.eqb k (6 * i + 2)), (Nat.eqb k (6 * i + 3)), (Nat.eqb k (6 * i + 4)); cbn [orb];
        destruct (existsb _ order); reflexivity.
  Qed.

  Lemma zeroMono_ok : forall n order (x : list N), length x = 6 * n -> Permutation order (seq 0 n) ->
    exists x', zeroMono order x = Done x' /\ length x' = 6 * n /\
      forall i, i < n -> lin x' i = Vec (vx (lin x i)) (vy (lin x i)) (a_Z 0) /\ rot x' i = Vec (a_Z 0) (a_Z 0) (vz (rot x i)).
  Proof.
    intros n order x L Hp.
    assert (Hin : forall i, In i order <-> i < n).
    { intro i. split; intro H; [apply (Permutation_in _ Hp) in H; apply in_seq in H; lia|]. apply (Permutation_in _ (Permutation_sym Hp)), in_seq. lia. }
    destruct (zeroMono_fold n order x L) as (x' & E & L' & N'); [intros; apply Hin; assumption|].
    exists x'. split; [exact E|]. split; [exact L'|]. intros i Hi.
    assert (T : forall k r, (r = 2 \/ r = 3 \/ r = 4) -> k = 6 * i + r -> nth k x' (a_Z 0) = a_Z 0).
    { intros k r Hr ->. rewrite N'. replace (existsb _ order) with true; [reflexivity|]. symmetry. apply existsb_exists. exists i. split; [apply Hin, Hi|].
      destruct Hr as [->|[->| ->]]; rewrite Nat.eqb_refl, ?orb_true_r; reflexivity. }
    assert (F : forall k r, (r = 0 \/ r = 1 \/ r = 5) -> k = 6 * i + r -> nth k x' (a_Z 0) = nth k x (a_Z 0)).
    { intros k r Hr ->. rewrite N'. replace (existsb _ order) with false; [reflexivity|]. symmetry. apply not_true_is_false. intro H. apply existsb_exists in H.
      destruct H as (j & _ & H). apply orb_prop in H. destruct H as [H|H]; [apply orb_prop in H; destruct H as [H|H]|]; apply Nat.eqb_eq in H; lia. }
    unfold lin, rot. cbn [vx vy vz].
    rewrite (F (6 * i) 0), (F (6 * i + 1) 1), (T (6 * i + 2) 2), (T (6 * i + 3) 3), (T (6 * i + 4) 4), (F (6 * i + 5) 5) by (try lia; auto). split; reflexivity.
  Qed.

  Lemma vupd_nth : forall (a b : N) x y k, length x = length y -> k < length x ->
    nth k (vupd a x b y) (a_Z 0) = a_add (a_mul a (nth k x (a_Z 0))) (a_mul b (nth k y (a_Z 0))).
  Proof.
    intros a b x y k L Hk. unfold vupd.
    rewrite (nth_indep _ (a_Z 0) ((fun p => a_add (a_mul a (fst p)) (a_mul b (snd p))) (a_Z 0, a_Z 0))) by (rewrite map_length, combine_length; lia).
    rewrite (map_nth (fun p => a_add (a_mul a (fst p)) (a_mul b (snd p)))), combine_nth by exact L. reflexivity.
  Qed.
  Lemma vupd_length : forall (a b : N) x y, length x = length y -> length (vupd a x b y) = length x.
  Proof. intros a b x y L. unfold vupd. rewrite map_length, combine_length. lia. Qed.

  (** ** the Brownian vector *)
  Lemma off6 {A} : forall (Qs : list (list A)) t, (forall q, In q Qs -> length q = 6) -> t <= length Qs -> off Qs t = 6 * t.
  Proof.
    unfold off. induction Qs as [|q Qs IH]; intros t H Ht; cbn [length] in Ht; [replace t with 0 by lia; reflexivity|].
    destruct t as [|t]; [reflexivity|]. cbn [firstn map]. rewrite sum_list_cons, (H q) by (left; reflexivity).
    rewrite IH; [lia| |lia]. intros; apply H; right; assumption.
  Qed.
  Lemma len_concat6 {A} : forall Qs : list (list A), (forall q, In q Qs -> length q = 6) -> length (concat Qs) = 6 * length Qs.
  Proof.
    induction Qs as [|q Qs IH]; intro H; [reflexivity|]. cbn [concat length]. rewrite app_length, (H q) by (left; reflexivity).
    rewrite IH; [lia|]. intros; apply H; right; assumption.
  Qed.
  Lemma nth_concat6 : forall (Qs : list (list N)) i q r, (forall q, In q Qs -> length q = 6) -> nth_error Qs i = Some q -> r < 6 ->
    nth (6 * i + r) (concat Qs) (a_Z 0) = nth r q (a_Z 0).
  Proof.
    intros Qs i q r H Hi Hr. assert (Hq : length q = 6) by (apply H, (nth_error_In _ _ Hi)).
    assert (HL : i < length Qs) by (apply nth_error_Some; congruence).
    rewrite <- (off6 Qs i H) by lia. apply nth_error_nth. rewrite (nth_error_concat Qs i q) by (try exact Hi; lia). apply nth_error_nth'. lia.
  Qed.

  Definition six (s : sylinder N) : list N :=
    let v := velBrown (mot s) in let om := omegaBrown (mot s) in [vx v; vy v; vz v; vx om; vy om; vz om].
  Lemma fill6 : forall order (ss : list (sylinder N)) x, Permutation order (seq 0 (length ss)) -> length x = 6 * length ss ->
    ofold (fun x i => do s <- mread ss i; splice x (6 * i) (six s)) order x = Done (concat (map six ss)).
  Proof.
    intros order ss x Hp L.
    assert (H6 : forall q, In q (map six ss) -> length q = 6).
    { intros q Hq. apply in_map_iff in Hq. destruct Hq as (s & <- & _). reflexivity. }
    rewrite <- (splice_order (map six ss) order x).
    - apply ofold_ext_in. intros i m Hi. apply (Permutation_in _ Hp) in Hi. apply in_seq in Hi. destruct Hi as [_ Hi]. cbn in Hi.
      rewrite (off6 _ _ H6) by (rewrite map_length; lia). unfold mread. destruct (nth_error ss i) as [s|] eqn:E; [|apply nth_error_None in E; lia].
      cbn [obind]. f_equal. symmetry. apply nth_error_nth. rewrite nth_error_map, E. reflexivity.
    - intros t Ht. rewrite map_length in Ht. apply (Permutation_in _ (Permutation_sym Hp)), in_seq. lia.
    - intros t Ht. rewrite map_length. apply (Permutation_in _ Hp) in Ht. apply in_seq in Ht. lia.
    - rewrite (len_concat6 _ H6), map_length. exact L.
  Qed.
  Lemma six_parts : forall (ss : list (sylinder N)) i s, nth_error ss i = Some s ->
    lin (concat (map six ss)) i = velBrown (mot s) /\ rot (concat (map six ss)) i = omegaBrown (mot s).
  Proof.
    intros ss i s Hi.
    assert (H6 : forall q, In q (map six ss) -> length q = 6).
    { intros q Hq. apply in_map_iff in Hq. destruct Hq as (s' & <- & _). reflexivity. }
    assert (E : nth_error (map six ss) i = Some (six s)) by (rewrite nth_error_map, Hi; reflexivity).
    unfold lin, rot. replace (6 * i) with (6 * i + 0) at 1 by lia.
    rewrite !(nth_concat6 _ i (six s)) by (try exact H6; try exact E; lia). unfold six. cbn [nth].
    destruct (velBrown (mot s)), (omegaBrown (mot s)). split; reflexivity.
  Qed.
End Any.

Section Any2.
  Context {N : arith}.
  Local Open Scope arith_scope.

  Definition pl (b : bool) (v : vec N) : vec N := if b then Vec (vx v) (vy v) (a_Z 0) else v.
  Definition pr (b : bool) (v : vec N) : vec N := if b then Vec (a_Z 0) (a_Z 0) (vz v) else v.
  Definition plus1 (a b : vec N) : vec N := vadd (vscale (a_Z 1) a) (vscale (a_Z 1) b).
  Definition zv : vec N := Vec (a_Z 0) (a_Z 0) (a_Z 0).

  Lemma vupd_parts : forall (x y : list N) n i, length x = (6 * n)%nat -> length y = (6 * n)%nat -> (i < n)%nat ->
    lin (vupd (a_Z 1) x (a_Z 1) y) i = plus1 (lin x i) (lin y i) /\ rot (vupd (a_Z 1) x (a_Z 1) y) i = plus1 (rot x i) (rot y i).
  Proof. intros x y n i Lx Ly Hi. unfold lin, rot. rewrite !vupd_nth by lia. split; reflexivity. Qed.

  Lemma mono_ok : forall (b : bool) n order (x : list N), length x = (6 * n)%nat -> Permutation order (seq 0 n) ->
    exists x', (if b then zeroMono order x else Done x) = Done x' /\ length x' = (6 * n)%nat /\
      forall i, (i < n)%nat -> lin x' i = pl b (lin x i) /\ rot x' i = pr b (rot x i).
  Proof.
    intros [] n order x L Hp; [exact (zeroMono_ok n order x L Hp)|]. exists x. split; [reflexivity|]. split; [exact L|]. split; reflexivity.
  Qed.

  Lemma add_ok : forall (b : bool) n order (o : option (list N)) (v : list N), sized n o -> length v = (6 * n)%nat -> Permutation order (seq 0 n) ->
    exists v', match o with None => Done v | Some u => do u <- (if b then zeroMono order u else Done u); Done (vupd (a_Z 1) u (a_Z 1) v) end = Done v' /\
      length v' = (6 * n)%nat /\ forall i, (i < n)%nat ->
        lin v' i = match o with None => lin v i | Some u => plus1 (pl b (lin u i)) (lin v i) end /\
        rot v' i = match o with None => rot v i | Some u => plus1 (pr b (rot u i)) (rot v i) end.
  Proof.
    intros b n order [u|] v Ho L Hp; [|exists v; auto]. cbn in Ho.
    destruct (mono_ok b n order u Ho Hp) as (u' & E & L' & P). rewrite E. cbn [obind]. eexists. split; [reflexivity|].
    split; [rewrite vupd_length; lia|]. intros i Hi. destruct (vupd_parts u' v n i L' L Hi) as [-> ->]. destruct (P i Hi) as [-> ->]. auto.
  Qed.

  Lemma zeros_parts : forall n i, (i < n)%nat -> lin (repeat (a_Z 0 : N) (n * 6)) i = zv /\ rot (repeat (a_Z 0 : N) (n * 6)) i = zv.
  Proof.
    intros n i Hi. assert (Z : forall k, nth k (repeat (a_Z 0 : N) (n * 6)) (a_Z 0) = a_Z 0).
    { intro k. destruct (Nat.lt_ge_cases k (n * 6)); [apply nth_repeat|apply nth_overflow; rewrite repeat_length; assumption]. }
    unfold lin, rot. rewrite !Z. split; reflexivity.
  Qed.

  Variables (flog fsin fcos : N -> N) (Pi tenth : N) (c : stepConfig N) (mob : list N -> list N).

  Lemma brown_ok : forall w o1 o2 (ss : list (sylinder N)), Permutation o1 (seq 0 (length ss)) -> Permutation o2 (seq 0 (length ss)) ->
    exists ss' x, calcVelocityBrown flog fsin fcos Pi tenth c w o1 o2 ss = Done (ss', x) /\ length ss' = length ss /\ length x = (6 * length ss)%nat /\
      forall i s, nth_error ss i = Some s -> exists v om, brownObject flog fsin fcos Pi tenth c (w i) s = (v, om) /\
        nth_error ss' i = Some (setBrown s v om) /\ lin x i = v /\ rot x i = om.
  Proof.
    intros w o1 o2 ss H1 H2. unfold calcVelocityBrown.
    destruct (forEach_ok o1 (fun i s => let '(v, om) := brownObject flog fsin fcos Pi tenth c (w i) s in Done (setBrown s v om))
      (fun i s => setBrown s (fst (brownObject flog fsin fcos Pi tenth c (w i) s)) (snd (brownObject flog fsin fcos Pi tenth c (w i) s))) ss H1) as (ss' & E & L & P).
    { intros i s _. destruct (brownObject _ _ _ _ _ _ _ _); reflexivity. }
    rewrite E. cbn [obind].
    match goal with |- context [ofold ?F o2 ?Z] => change (ofold F o2 Z) with (ofold (fun x i => do s <- mread ss' i; splice x (6 * i)%nat (six s)) o2 Z) end.
    rewrite fill6; [|rewrite L; exact H2|rewrite repeat_length; lia]. cbn [obind].
    eexists _, _. split; [reflexivity|]. split; [exact L|]. split.
    - rewrite len_concat6; [rewrite map_length; lia|]. intros q Hq. apply in_map_iff in Hq. destruct Hq as (s' & <- & _). reflexivity.
    - intros i s Hi. destruct (brownObject flog fsin fcos Pi tenth c (w i) s) as [v om] eqn:EB. exists v, om. split; [reflexivity|].
      assert (Q := P i). rewrite Hi in Q. cbn [option_map] in Q. rewrite EB in Q. cbn [fst snd] in Q. split; [exact Q|].
      destruct (six_parts ss' i _ Q) as [-> ->]. split; reflexivity.
  Qed.

  Definition base_lin (fNB : option (list N)) (i : nat) : vec N := match fNB with None => zv | Some f => pl (c_monolayer c) (lin (mob f) i) end.
  Definition base_rot (fNB : option (list N)) (i : nat) : vec N := match fNB with None => zv | Some f => pr (c_monolayer c) (rot (mob f) i) end.
  Definition more_lin (o : option (list N)) (i : nat) (v : vec N) : vec N := match o with None => v | Some u => plus1 (pl (c_monolayer c) (lin u i)) v end.
  Definition more_rot (o : option (list N)) (i : nat) (v : vec N) : vec N := match o with None => v | Some u => plus1 (pr (c_monolayer c) (rot u i)) v end.

  Lemma nonCon_ok : forall fNB vNB vB ord (ss : list (sylinder N)), (forall k, Permutation (ord k) (seq 0 (length ss))) ->
    (forall x, length x = (6 * length ss)%nat -> length (mob x) = (6 * length ss)%nat) ->
    sized (length ss) fNB -> sized (length ss) vNB -> sized (length ss) vB ->
    exists ss' v, calcVelocityNonCon c mob fNB vNB vB ord ss = Done (ss', v) /\ length ss' = length ss /\ length v = (6 * length ss)%nat /\
      forall i s, nth_error ss i = Some s ->
        nth_error ss' i = Some (setVelNonB (match fNB with Some f => setForceNonB s (lin f i) (rot f i) | None => s end)
                                 (more_lin vNB i (base_lin fNB i)) (more_rot vNB i (base_rot fNB i))) /\
        lin v i = more_lin vB i (more_lin vNB i (base_lin fNB i)) /\ rot v i = more_rot vB i (more_rot vNB i (base_rot fNB i)).
  Proof.
    intros fNB vNB vB ord ss Ho Hm Hf Hv HB. unfold calcVelocityNonCon. set (n := length ss) in *.
    assert (S1 : exists ss1 v1, match fNB with
            | None => Done (ss, repeat (a_Z 0) (n * 6))
            | Some f => do v <- (if c_monolayer c then zeroMono (ord 0%nat) (mob f) else Done (mob f));
                do ss <- forEach (ord 1%nat) (fun i s => do a <- read3 f (6 * i); do b <- read3 f (6 * i + 3); Done (setForceNonB s a b)) ss;
                Done (ss, v) end = Done (ss1, v1) /\ length ss1 = n /\ length v1 = (6 * n)%nat /\
       forall i s, nth_error ss i = Some s -> nth_error ss1 i = Some (match fNB with Some f => setForceNonB s (lin f i) (rot f i) | None => s end) /\
         lin v1 i = base_lin fNB i /\ rot v1 i = base_rot fNB i).
    { destruct fNB as [f|]; cbn [base_lin base_rot].
      - cbn in Hf. destruct (mono_ok (c_monolayer c) n (ord 0%nat) (mob f) (Hm f Hf) (Ho 0%nat)) as (v1 & E1 & L1 & P1). rewrite E1. cbn [obind].
        destruct (forEach_ok (ord 1%nat) (fun i s => do a <- read3 f (6 * i); do b <- read3 f (6 * i + 3); Done (setForceNonB s a b))
          (fun i s => setForceNonB s (lin f i) (rot f i)) ss (Ho 1%nat)) as (ss1 & E2 & L2 & P2).
        { intros i s Hi. assert (i < n)%nat by (apply nth_error_Some; congruence). rewrite (read_lin f n) by assumption. cbn [obind]. rewrite (read_rot f n) by assumption. reflexivity. }
        rewrite E2. cbn [obind]. exists ss1, v1. split; [reflexivity|]. split; [exact L2|]. split; [exact L1|].
        intros i s Hi. rewrite P2, Hi. split; [reflexivity|]. apply P1. apply nth_error_Some. congruence.
      - exists ss, (repeat (a_Z 0) (n * 6)). split; [reflexivity|]. split; [reflexivity|]. split; [rewrite repeat_length; lia|].
        intros i s Hi. split; [exact Hi|]. apply zeros_parts. apply nth_error_Some. congruence. }
    destruct S1 as (ss1 & v1 & E1 & L1 & K1 & P1). rewrite E1. cbn [obind].
    destruct (add_ok (c_monolayer c) n (ord 2%nat) vNB v1 Hv K1 (Ho 2%nat)) as (v2 & E2 & K2 & P2). rewrite E2. cbn [obind].
    destruct (forEach_ok (ord 3%nat) (fun i s => do a <- read3 v2 (6 * i); do b <- read3 v2 (6 * i + 3); Done (setVelNonB s a b))
      (fun i s => setVelNonB s (lin v2 i) (rot v2 i)) ss1) as (ss2 & E3 & L3 & P3).
    { rewrite L1. apply Ho. }
    { intros i s Hi. assert (i < n)%nat by (rewrite <- L1; apply nth_error_Some; congruence). rewrite (read_lin v2 n) by assumption. cbn [obind]. rewrite (read_rot v2 n) by assumption. reflexivity. }
    rewrite E3. cbn [obind].
    destruct (add_ok (c_monolayer c) n (ord 4%nat) vB v2 HB K2 (Ho 4%nat)) as (v3 & E4 & K4 & P4). rewrite E4. cbn [obind].
    exists ss2, v3. split; [reflexivity|]. split; [lia|]. split; [exact K4|]. intros i s Hi. assert (Hn : (i < n)%nat) by (apply nth_error_Some; congruence).
    destruct (P1 i s Hi) as (Q1 & Q2 & Q3). destruct (P2 i Hn) as (R1 & R2). destruct (P4 i Hn) as (R3 & R4).
    rewrite Q2 in R1. rewrite Q3 in R2. rewrite R1 in R3. rewrite R2 in R4. split; [|split; [exact R3|exact R4]].
    rewrite P3, Q1. cbn [option_map]. rewrite R1, R2. reflexivity.
  Qed.

  (** what a step stores in one object before it is moved *)
  Definition stepped (fNB vNB : option (list N)) (w : nat -> draws N) (fu vu fb vb : list N) (i : nat) (s : sylinder N) : sylinder N :=
    let s1 := if a_Z 0 <? c_KBT c then
                setBrown s (fst (brownObject flog fsin fcos Pi tenth c (w i) s)) (snd (brownObject flog fsin fcos Pi tenth c (w i) s)) else s in
    let s2 := match fNB with Some f => setForceNonB s1 (lin f i) (rot f i) | None => s1 end in
    let s3 := setVelNonB s2 (more_lin vNB i (base_lin fNB i)) (more_rot vNB i (base_rot fNB i)) in
    sumObject (setConstraint s3 (lin vu i) (rot vu i) (lin vb i) (rot vb i) (lin fu i) (rot fu i) (lin fb i) (rot fb i)).

  Lemma step_ok : forall fNB vNB w solver ord (ss : list (sylinder N)), (forall k, Permutation (ord k) (seq 0 (length ss))) ->
    (forall x, length x = (6 * length ss)%nat -> length (mob x) = (6 * length ss)%nat) -> sized (length ss) fNB -> sized (length ss) vNB ->
    exists sc vnc, length sc = length ss /\ length vnc = (6 * length ss)%nat /\
      (forall i s, nth_error ss i = Some s ->
        let B := brownObject flog fsin fcos Pi tenth c (w i) s in
        (exists m, nth_error sc i = Some (withMot s m)) /\
        lin vnc i = (if a_Z 0 <? c_KBT c then plus1 (pl (c_monolayer c) (fst B)) (more_lin vNB i (base_lin fNB i)) else more_lin vNB i (base_lin fNB i)) /\
        rot vnc i = (if a_Z 0 <? c_KBT c then plus1 (pr (c_monolayer c) (snd B)) (more_rot vNB i (base_rot fNB i)) else more_rot vNB i (base_rot fNB i))) /\
      (solver sc vnc = Done None -> runStep flog fsin fcos Pi tenth c mob fNB vNB w solver ord ss = Done None) /\
      (solver sc vnc = UB -> runStep flog fsin fcos Pi tenth c mob fNB vNB w solver ord ss = UB) /\
      (solver sc vnc = NoFuel -> runStep flog fsin fcos Pi tenth c mob fNB vNB w solver ord ss = NoFuel) /\
      forall fu vu fb vb, solver sc vnc = Done (Some (fu, vu, fb, vb)) ->
        length fu = (6 * length ss)%nat -> length vu = (6 * length ss)%nat -> length fb = (6 * length ss)%nat -> length vb = (6 * length ss)%nat ->
        exists ss1 ss2, runStep flog fsin fcos Pi tenth c mob fNB vNB w solver ord ss = Done (Some (ss1, ss2, vnc)) /\
          length ss1 = length ss /\ length ss2 = length ss /\
          forall i s, nth_error ss i = Some s ->
            nth_error ss1 i = Some (stepped fNB vNB w fu vu fb vb i s) /\
            nth_error ss2 i = Some (if c_fixed c then stepped fNB vNB w fu vu fb vb i s else stepEuler fsin fcos (c_dt c) (stepped fNB vNB w fu vu fb vb i s)).
  Proof.
    intros fNB vNB w solver ord ss Ho Hm Hf Hv. unfold runStep.
    assert (S0 : exists s0 vB, (if a_Z 0 <? c_KBT c then do r <- calcVelocityBrown flog fsin fcos Pi tenth c w (ord 5%nat) (ord 6%nat) ss; Done (fst r, Some (snd r))
              else Done (ss, None)) = Done (s0, vB) /\ length s0 = length ss /\ sized (length ss) vB /\
       forall i s, nth_error ss i = Some s -> let B := brownObject flog fsin fcos Pi tenth c (w i) s in
         nth_error s0 i = Some (if a_Z 0 <? c_KBT c then setBrown s (fst B) (snd B) else s) /\
         (forall v, more_lin vB i v = if a_Z 0 <? c_KBT c then plus1 (pl (c_monolayer c) (fst B)) v else v) /\
         (forall v, more_rot vB i v = if a_Z 0 <? c_KBT c then plus1 (pr (c_monolayer c) (snd B)) v else v)).
    { destruct (a_Z 0 <? c_KBT c).
      - destruct (brown_ok w (ord 5%nat) (ord 6%nat) ss (Ho _) (Ho _)) as (s0 & x & E & L & K & P). rewrite E. cbn [obind fst snd].
        exists s0, (Some x). split; [reflexivity|]. split; [exact L|]. split; [exact K|]. intros i s Hi. destruct (P i s Hi) as (v & om & E1 & E2 & E3 & E4).
        cbv zeta. rewrite E1. cbn [fst snd]. split; [exact E2|]. unfold more_lin, more_rot. rewrite E3, E4. split; reflexivity.
      - exists ss, None. split; [reflexivity|]. split; [reflexivity|]. split; [exact I|]. intros i s Hi. cbv zeta. split; [exact Hi|]. split; reflexivity. }
    destruct S0 as (s0 & vB & E0 & L0 & K0 & P0). rewrite E0. cbn [obind].
    destruct (nonCon_ok fNB vNB vB ord s0) as (sc & vnc & E1 & L1 & K1 & P1); try (rewrite L0; first [assumption | apply Ho]).
    rewrite E1. cbn [obind]. rewrite L0 in *. exists sc, vnc. split; [exact L1|]. split; [exact K1|]. split.
    - intros i s Hi. cbv zeta. destruct (P0 i s Hi) as (A1 & A2 & A3). destruct (P1 i _ A1) as (B1 & B2 & B3). rewrite A2 in B2. rewrite A3 in B3.
      split; [|split; [exact B2|exact B3]]. rewrite B1. destruct (a_Z 0 <? c_KBT c); destruct fNB; eexists; reflexivity.
    - do 3 (split; [intro E; rewrite E; reflexivity|]). intros fu vu fb vb E Lfu Lvu Lfb Lvb. rewrite E. cbn [obind]. unfold saveForceVelocityConstraints.
      destruct (forEach_ok (ord 7%nat) (fun i s =>
        do vc <- read3 vu (6 * i); do oc <- read3 vu (6 * i + 3); do vb' <- read3 vb (6 * i); do ob <- read3 vb (6 * i + 3);
        do fc <- read3 fu (6 * i); do tc <- read3 fu (6 * i + 3); do fb' <- read3 fb (6 * i); do tb <- read3 fb (6 * i + 3);
        Done (setConstraint s vc oc vb' ob fc tc fb' tb))
        (fun i s => setConstraint s (lin vu i) (rot vu i) (lin vb i) (rot vb i) (lin fu i) (rot fu i) (lin fb i) (rot fb i)) sc) as (s3 & E3 & L3 & P3).
      { rewrite L1. apply Ho. }
      { intros i s Hi. assert (i < length ss)%nat by (rewrite <- L1; apply nth_error_Some; congruence).
        rewrite (read_lin vu (length ss)) by assumption. cbn [obind]. rewrite (read_rot vu (length ss)) by assumption. cbn [obind].
        rewrite (read_lin vb (length ss)) by assumption. cbn [obind]. rewrite (read_rot vb (length ss)) by assumption. cbn [obind].
        rewrite (read_lin fu (length ss)) by assumption. cbn [obind]. rewrite (read_rot fu (length ss)) by assumption. cbn [obind].
        rewrite (read_lin fb (length ss)) by assumption. cbn [obind]. rewrite (read_rot fb (length ss)) by assumption. reflexivity. }
      rewrite E3. cbn [obind]. unfold sumForceVelocity.
      destruct (forEach_ok (ord 8%nat) (fun _ s => Done (sumObject s)) (fun _ s => sumObject s) s3) as (s4 & E4 & L4 & P4); [rewrite L3, L1; apply Ho|reflexivity|].
      rewrite E4. cbn [obind].
      assert (Q : forall i s, nth_error ss i = Some s -> nth_error s4 i = Some (stepped fNB vNB w fu vu fb vb i s)).
      { intros i s Hi. destruct (P0 i s Hi) as (A1 & _). destruct (P1 i _ A1) as (B1 & _). rewrite P4, P3, B1. reflexivity. }
      unfold stepEulerAll. destruct (c_fixed c).
      + cbn [obind]. exists s4, s4. split; [reflexivity|]. split; [lia|]. split; [lia|]. intros i s Hi. split; apply Q, Hi.
      + destruct (forEach_ok (ord 9%nat) (fun _ s => Done (stepEuler fsin fcos (c_dt c) s)) (fun _ s => stepEuler fsin fcos (c_dt c) s) s4) as (s5 & E5 & L5 & P5);
          [rewrite L4, L3, L1; apply Ho|reflexivity|]. rewrite E5. cbn [obind]. exists s4, s5. split; [reflexivity|]. split; [lia|]. split; [lia|].
        intros i s Hi. split; [apply Q, Hi|]. rewrite P5, (Q i s Hi). reflexivity.
  Qed.
End Any2.

(** ** Summary in any arithmetic *)
Lemma stepped_facts : forall {N : arith} flog fsin fcos Pi tenth (c : stepConfig N) mob fNB vNB w fu vu fb vb i (s : sylinder N),
  let t := stepped flog fsin fcos Pi tenth c mob fNB vNB w fu vu fb vb i s in
  t = withMot s (mot t) /\ totals (mot t) /\ constraint_parts fu vu fb vb i (mot t) /\
  (forall f, fNB = Some f -> forceNonB (mot t) = lin f i /\ torqueNonB (mot t) = rot f i) /\
  (fNB = None -> forceNonB (mot t) = forceNonB (mot s) /\ torqueNonB (mot t) = torqueNonB (mot s)) /\
  velNonB (mot t) = more_lin c vNB i (base_lin c mob fNB i) /\ omegaNonB (mot t) = more_rot c vNB i (base_rot c mob fNB i) /\
  (if a_lt (a_Z 0) (c_KBT c) then (velBrown (mot t), omegaBrown (mot t)) = brownObject flog fsin fcos Pi tenth c (w i) s
   else velBrown (mot t) = velBrown (mot s) /\ omegaBrown (mot t) = omegaBrown (mot s)).
Proof.
  intros. subst t. unfold stepped. destruct (a_lt (a_Z 0) (c_KBT c)), fNB as [f|];
    (split; [reflexivity|]; split; [repeat split|]; split; [repeat split|]; split; [intros f' E; try discriminate; injection E as <-; split; reflexivity|];
     split; [intro E; try discriminate; split; reflexivity|]; split; [reflexivity|]; split; [reflexivity|]; try (split; reflexivity); symmetry; apply surjective_pairing).
Qed.

Lemma step_any : forall {N : arith} flog fsin fcos Pi tenth (c : stepConfig N) mob fNB vNB w solver ord (ss : list (sylinder N)),
  (forall k, Permutation (ord k) (seq 0 (length ss))) ->
  (forall x, length x = (6 * length ss)%nat -> length (mob x) = (6 * length ss)%nat) -> sized (length ss) fNB -> sized (length ss) vNB ->
  exists sc vnc, length sc = length ss /\ length vnc = (6 * length ss)%nat /\
    (forall i s, nth_error ss i = Some s -> exists m, nth_error sc i = Some (withMot s m)) /\
    (solver sc vnc = Done None -> runStep flog fsin fcos Pi tenth c mob fNB vNB w solver ord ss = Done None) /\
    forall fu vu fb vb, solver sc vnc = Done (Some (fu, vu, fb, vb)) ->
      length fu = (6 * length ss)%nat -> length vu = (6 * length ss)%nat -> length fb = (6 * length ss)%nat -> length vb = (6 * length ss)%nat ->
      exists ss1 ss2, runStep flog fsin fcos Pi tenth c mob fNB vNB w solver ord ss = Done (Some (ss1, ss2, vnc)) /\
        length ss1 = length ss /\ length ss2 = length ss /\
        forall i s, nth_error ss i = Some s -> exists m, nth_error ss1 i = Some (withMot s m) /\
          totals m /\ constraint_parts fu vu fb vb i m /\
          nth_error ss2 i = Some (if c_fixed c then withMot s m else stepEuler fsin fcos (c_dt c) (withMot s m)).
Proof.
  intros N flog fsin fcos Pi tenth c mob fNB vNB w solver ord ss Ho Hm Hf Hv.
  destruct (step_ok flog fsin fcos Pi tenth c mob fNB vNB w solver ord ss Ho Hm Hf Hv) as (sc & vnc & L1 & L2 & P & E0 & _ & _ & E1).
  exists sc, vnc. split; [exact L1|]. split; [exact L2|]. split; [intros i s Hi; apply (P i s Hi)|]. split; [exact E0|].
  intros fu vu fb vb E A1 A2 A3 A4. destruct (E1 fu vu fb vb E A1 A2 A3 A4) as (ss1 & ss2 & R & L3 & L4 & Q). exists ss1, ss2.
  split; [exact R|]. split; [exact L3|]. split; [exact L4|]. intros i s Hi. destruct (Q i s Hi) as [Q1 Q2].
  destruct (stepped_facts flog fsin fcos Pi tenth c mob fNB vNB w fu vu fb vb i s) as (F1 & F2 & F3 & _).
  eexists. rewrite <- F1. split; [exact Q1|]. split; [exact F2|]. split; [exact F3|exact Q2].
Qed.

(** ** Real arithmetic *)
Local Open Scope R_scope.
Lemma plus1_R : forall a b : vec R_arith, plus1 (N := R_arith) a b = add3 a b.
Proof. intros a b. unfold plus1, vadd, vscale, add3. cbn [vx vy vz]. rarith. apply vec_eq; cbn [vx vy vz]; ring. Qed.
Lemma add3_0l : forall a, add3 zero3 a = a.
Proof. intros [x y z]. veq; ring. Qed.
Lemma add3_0r : forall a, add3 a zero3 = a.
Proof. intros [x y z]. veq; ring. Qed.

Lemma more_lin_R : forall (c : stepConfig R_arith) o i v, more_lin (N := R_arith) c o i v = add3 (planar_lin (c_monolayer c) (part lin_R o i)) v.
Proof.
  intros c [u|] i v; unfold more_lin; cbn [part]; [rewrite plus1_R; destruct (c_monolayer c); reflexivity|].
  destruct (c_monolayer c); symmetry; apply add3_0l.
Qed.
Lemma more_rot_R : forall (c : stepConfig R_arith) o i v, more_rot (N := R_arith) c o i v = add3 (planar_rot (c_monolayer c) (part rot_R o i)) v.
Proof.
  intros c [u|] i v; unfold more_rot; cbn [part]; [rewrite plus1_R; destruct (c_monolayer c); reflexivity|].
  destruct (c_monolayer c); symmetry; apply add3_0l.
Qed.
Lemma base_lin_R : forall (c : stepConfig R_arith) mob o i, base_lin (N := R_arith) c mob o i = planar_lin (c_monolayer c) (part (fun f => lin_R (mob f)) o i).
Proof. intros c mob [f|] i; unfold base_lin; cbn [part]; destruct (c_monolayer c); reflexivity. Qed.
Lemma base_rot_R : forall (c : stepConfig R_arith) mob o i, base_rot (N := R_arith) c mob o i = planar_rot (c_monolayer c) (part (fun f => rot_R (mob f)) o i).
Proof. intros c mob [f|] i; unfold base_rot; cbn [part]; destruct (c_monolayer c); reflexivity. Qed.

Lemma brown_immovable : forall (c : stepConfig R_arith) (tenth : R) w (s : sylinder R_arith), immovable s = true ->
  brownObject (N := R_arith) ln sin cos PI tenth c w s = (zero3, zero3).
Proof.
  intros c tenth w s Hs. unfold brownObject. destruct (calcDragCoeff (N := R_arith) ln PI (c_viscosity c) s) as [[p q] r]. rewrite Hs.
  unfold llt3, Nmat, mget, mkmat. cbn [vget vx vy vz Nat.eqb Nat.leb].
  set (u := axis (N := R_arith) s). set (u' := qrot (N := R_arith) (rotateEquatn (N := R_arith) sin cos (orient s) (w_rfdrot w) _) (ez (N := R_arith))).
  replace (a_le (a_add (a_mul (a_sub (a_Z 0) (a_Z 0)) (a_mul (vx u) (vx u))) (a_mul (a_Z 0) (a_Z 1))) (a_Z 0)) with true.
  - rarith. rewrite sqrt_0. apply f_equal2; unfold vadd, vscale, mvec, vdot, zero3; cbn [vx vy vz]; rarith; apply vec_eq; cbn [vx vy vz]; ring.
  - rarith. symmetry. apply Rle_bool_true. match goal with |- ?a <= _ => replace a with 0 by ring end. lra.
Qed.

Lemma step_parts : forall (tenth : R) (c : stepConfig R_arith) mob fNB vNB w solver ord (ss : list (sylinder R_arith)),
  (forall k, Permutation (ord k) (seq 0 (length ss))) ->
  (forall x, length x = (6 * length ss)%nat -> length (mob x) = (6 * length ss)%nat) -> sized (N := R_arith) (length ss) fNB -> sized (N := R_arith) (length ss) vNB ->
  forall ss1 ss2 vnc, runStep (N := R_arith) ln sin cos PI tenth c mob fNB vNB w solver ord ss = Done (Some (ss1, ss2, vnc)) ->
  (forall sc v r, solver sc v = Done (Some r) -> let '(fu, vu, fb, vb) := r in
     length fu = (6 * length ss)%nat /\ length vu = (6 * length ss)%nat /\ length fb = (6 * length ss)%nat /\ length vb = (6 * length ss)%nat) ->
  forall i s, nth_error ss i = Some s -> exists m, nth_error ss1 i = Some (withMot (N := R_arith) s m) /\
    velNonB m = add3 (planar_lin (c_monolayer c) (part lin_R vNB i)) (planar_lin (c_monolayer c) (part (fun f => lin_R (mob f)) fNB i)) /\
    omegaNonB m = add3 (planar_rot (c_monolayer c) (part rot_R vNB i)) (planar_rot (c_monolayer c) (part (fun f => rot_R (mob f)) fNB i)) /\
    (forall f, fNB = Some f -> forceNonB m = lin_R f i /\ torqueNonB m = rot_R f i) /\
    (0 < c_KBT c -> (velBrown m, omegaBrown m) = brownObject (N := R_arith) ln sin cos PI tenth c (w i) s /\
       lin_R vnc i = add3 (planar_lin (c_monolayer c) (velBrown m)) (velNonB m) /\ rot_R vnc i = add3 (planar_rot (c_monolayer c) (omegaBrown m)) (omegaNonB m)) /\
    (c_KBT c <= 0 -> velBrown m = velBrown (mot s) /\ omegaBrown m = omegaBrown (mot s) /\ lin_R vnc i = velNonB m /\ rot_R vnc i = omegaNonB m).
Proof.
  intros tenth c mob fNB vNB w solver ord ss Ho Hm Hf Hv ss1 ss2 vnc E HS i s Hi.
  destruct (step_ok (N := R_arith) ln sin cos PI tenth c mob fNB vNB w solver ord ss Ho Hm Hf Hv) as (sc & v & L1 & L2 & P & E0 & EU & EN & E1).
  destruct (solver sc v) as [[[[[fu vu] fb] vb]|]| |] eqn:ES; [|rewrite (E0 eq_refl) in E; discriminate|rewrite (EU eq_refl) in E; discriminate|rewrite (EN eq_refl) in E; discriminate].
  destruct (HS sc v _ ES) as (A1 & A2 & A3 & A4). destruct (E1 fu vu fb vb eq_refl A1 A2 A3 A4) as (t1 & t2 & R1 & _ & _ & Q).
    rewrite R1 in E. injection E as <- <- <-.
    destruct (Q i s Hi) as [Q1 _]. destruct (P i s Hi) as (_ & V1 & V2).
    destruct (stepped_facts (N := R_arith) ln sin cos PI tenth c mob fNB vNB w fu vu fb vb i s) as (F1 & _ & _ & F2 & _ & F3 & F4 & F5).
    eexists. rewrite <- F1. split; [exact Q1|]. rewrite F3, F4, more_lin_R, more_rot_R, base_lin_R, base_rot_R.
    split; [reflexivity|]. split; [reflexivity|]. split; [exact F2|].
    cbv zeta in V1, V2. rewrite plus1_R, more_lin_R, base_lin_R in V1. rewrite plus1_R, more_rot_R, base_rot_R in V2.
    change (a_lt (a_Z 0) (c_KBT c)) with (Rlt_bool 0 (c_KBT c)) in *.
    split; intro HK.
    - rewrite Rlt_bool_true in * by exact HK. rewrite <- F5 in V1, V2. split; [exact F5|]. split; [exact V1|exact V2].
    - rewrite Rlt_bool_false in * by exact HK. destruct F5. auto.
Qed.

Lemma euler_still : forall (s : sylinder R_arith) (dt : R), vel (mot s) = zero3 -> omega (mot s) = zero3 ->
  stepEuler (N := R_arith) sin cos dt s = s.
Proof.
  intros s dt Hv Hw. unfold stepEuler. rewrite Hv, Hw. unfold rotateEquatn. vecR.
  replace (a_lt (norm3 zero3) (a_lit 1 (-23))) with true.
  - destruct s as [a1 a2 a3 a4 a5 a6 a7 a8 a9 b1 b2 b3 p q m]. unfold withPose. cbn [spos orient]. f_equal. destruct p as [x y z]. veq; ring.
  - symmetry. rarith. apply Rlt_bool_true. replace (norm3 zero3) with 0; [cbn; lra|].
    unfold norm3, dot3, zero3. cbn [vx vy vz]. replace (0 * 0 + 0 * 0 + 0 * 0) with 0 by ring. symmetry. apply sqrt_0.
Qed.

Lemma immovable_ok : forall (tenth : R) (c : stepConfig R_arith) mob fNB w solver ord (ss : list (sylinder R_arith)),
  (forall k, Permutation (ord k) (seq 0 (length ss))) ->
  (forall x, length x = (6 * length ss)%nat -> length (mob x) = (6 * length ss)%nat /\ quiet ss (mob x)) -> sized (N := R_arith) (length ss) fNB ->
  forall ss1 ss2 vnc, runStep (N := R_arith) ln sin cos PI tenth c mob fNB None w solver ord ss = Done (Some (ss1, ss2, vnc)) ->
  (forall sc v r, solver sc v = Done (Some r) -> let '(fu, vu, fb, vb) := r in
     length fu = (6 * length ss)%nat /\ length vu = (6 * length ss)%nat /\ length fb = (6 * length ss)%nat /\ length vb = (6 * length ss)%nat /\
     quiet ss vu /\ quiet ss vb) ->
  forall i s, nth_error ss i = Some s -> immovable s = true -> velBrown (mot s) = zero3 -> omegaBrown (mot s) = zero3 ->
  exists m, nth_error ss2 i = Some (withMot (N := R_arith) s m) /\ vel m = zero3 /\ omega m = zero3.
Proof.
  intros tenth c mob fNB w solver ord ss Ho Hm Hf ss1 ss2 vnc E HS i s Hi Him HB1 HB2.
  destruct (step_ok (N := R_arith) ln sin cos PI tenth c mob fNB None w solver ord ss Ho (fun x Hx => proj1 (Hm x Hx)) Hf I) as (sc & v & L1 & L2 & P & E0 & EU & EN & E1).
  destruct (solver sc v) as [[[[[fu vu] fb] vb]|]| |] eqn:ES; [|rewrite (E0 eq_refl) in E; discriminate|rewrite (EU eq_refl) in E; discriminate|rewrite (EN eq_refl) in E; discriminate].
  destruct (HS sc v _ ES) as (A1 & A2 & A3 & A4 & Z1 & Z2). destruct (E1 fu vu fb vb eq_refl A1 A2 A3 A4) as (t1 & t2 & R1 & _ & _ & Q).
  rewrite R1 in E. injection E as <- <- <-. destruct (Q i s Hi) as [_ Q2].
  destruct (stepped_facts (N := R_arith) ln sin cos PI tenth c mob fNB None w fu vu fb vb i s) as (F1 & (T1 & T2 & _) & (C1 & C2 & C3 & C4 & _) & _ & _ & F3 & F4 & F5).
  set (t := stepped (N := R_arith) ln sin cos PI tenth c mob fNB None w fu vu fb vb i s) in *.
  assert (X : velBrown (mot t) = zero3 /\ omegaBrown (mot t) = zero3).
  { destruct (a_lt (a_Z 0) (c_KBT c)); [rewrite brown_immovable in F5 by exact Him; apply pair_equal_spec in F5; exact F5|destruct F5; split; congruence]. }
  destruct X as [X1 X2].
  assert (Y : velNonB (mot t) = zero3 /\ omegaNonB (mot t) = zero3).
  { rewrite F3, F4, more_lin_R, more_rot_R, base_lin_R, base_rot_R. cbn [part].
    assert (P0 : planar_lin (c_monolayer c) zero3 = zero3 /\ planar_rot (c_monolayer c) zero3 = zero3) by (destruct (c_monolayer c); split; reflexivity).
    destruct P0 as [P1 P2]. rewrite P1, P2, !add3_0l. destruct fNB as [f|]; cbn [part]; [|split; assumption].
    destruct (Hm f Hf) as [_ HQ]. destruct (HQ i s Hi Him) as [-> ->]. split; assumption. }
  destruct Y as [Y1 Y2]. destruct (Z1 i s Hi Him) as [W1 W2]. destruct (Z2 i s Hi Him) as [W3 W4].
  vecR. rewrite X1, Y1, C1, C3 in T1. rewrite X2, Y2, C2, C4 in T2.
  change (lin (N := R_arith)) with lin_R in *. change (rot (N := R_arith)) with rot_R in *. rewrite W1, W3, !add3_0l in T1. rewrite W2, W4, !add3_0l in T2.
  exists (mot t). rewrite <- F1. split; [|split; [exact T1|exact T2]]. rewrite Q2. destruct (c_fixed c); [reflexivity|]. f_equal. apply euler_still; assumption.
Qed.

Lemma mob_quiet : forall mu order junk ss m, Permutation order (seq 0 (length ss)) ->
  calcMobMatrix (N := R_arith) ln PI mu order junk ss = Done m -> forall x, length x = (6 * length ss)%nat ->
  length (mobApply (N := R_arith) m (6 * length ss) x) = (6 * length ss)%nat /\ quiet ss (mobApply (N := R_arith) m (6 * length ss) x).
Proof.
  intros mu order junk ss m Hp E x Hx. destruct (mob_moves' mu order junk ss m x Hp E Hx) as [L H]. split; [exact L|].
  intros i s Hi Him. specialize (H i s Hi). rewrite Him in H. exact H.
Qed.

Lemma split_quiet : forall (ss : list (sylinder R_arith)) mob D bi g x fu fb vu vb,
  (forall x, length x = (6 * length ss)%nat -> length (mob x) = (6 * length ss)%nat /\ quiet ss (mob x)) ->
  splitForces (N := R_arith) D (6 * length ss) mob bi g x = (fu, fb, vu, vb) ->
  length fu = (6 * length ss)%nat /\ length vu = (6 * length ss)%nat /\ length fb = (6 * length ss)%nat /\ length vb = (6 * length ss)%nat /\
  quiet ss vu /\ quiet ss vb.
Proof.
  intros ss mob D bi g x fu fb vu vb Hm E. unfold splitForces in E. apply pair_equal_spec in E. destruct E as [E <-].
  apply pair_equal_spec in E. destruct E as [E <-]. apply pair_equal_spec in E. destruct E as [<- <-].
  set (a := applyD (N := R_arith) D (6 * length ss) x). set (b := applyD (N := R_arith) D (6 * length ss) _).
  assert (La : length a = (6 * length ss)%nat) by apply applyD_length. assert (Lb : length b = (6 * length ss)%nat) by apply applyD_length.
  destruct (Hm a La) as [Ma Qa]. destruct (Hm b Lb) as [Mb Qb].
  assert (LL : forall y z : list R, length y = (6 * length ss)%nat -> length z = (6 * length ss)%nat -> length (vupd (N := R_arith) 1 y (-1) z) = (6 * length ss)%nat).
  { intros y z Hy Hz. etransitivity; [apply (vupd_length (N := R_arith)); transitivity (6 * length ss)%nat; [exact Hy|symmetry; exact Hz]|exact Hy]. }
  split; [apply LL; assumption|]. split; [apply LL; assumption|]. split; [exact Lb|]. split; [exact Mb|]. split; [|exact Qb].
  intros i s Hi Him. assert (i < length ss)%nat by (apply nth_error_Some; congruence). destruct (Qa i s Hi Him) as [A1 A2]. destruct (Qb i s Hi Him) as [B1 B2].
  assert (V : lin_R (vupd (N := R_arith) 1 (mob a) (-1) (mob b)) i = add3 (scale3 1 (lin_R (mob a) i)) (scale3 (-1) (lin_R (mob b) i)) /\
              rot_R (vupd (N := R_arith) 1 (mob a) (-1) (mob b)) i = add3 (scale3 1 (rot_R (mob a) i)) (scale3 (-1) (rot_R (mob b) i))).
  { unfold lin_R, rot_R, lin, rot. rewrite !vupd_nth by (first [etransitivity; [exact Ma|symmetry; exact Mb]|eapply Nat.lt_le_trans; [|apply Nat.eq_le_incl; symmetry; exact Ma]; lia]). split; reflexivity. }
  destruct V as [V1 V2]. rewrite A1, B1 in V1. rewrite A2, B2 in V2. split; etransitivity; [exact V1| |exact V2|]; veq; ring.
Qed.

(** ** Brownian motion *)
Lemma mix : forall a b s t : R, 0 < a -> 0 < b -> 0 <= s -> 0 <= t -> s + t = 1 -> 0 < a * s + b * t.
Proof.
  intros a b s t Ha Hb Hs Ht E. destruct (Rle_dec a b).
  - assert (0 <= (b - a) * t) by (apply Rmult_le_pos; lra). assert (a * s + a * t = a) by (rewrite <- Rmult_plus_distr_l, E; ring). lra.
  - assert (0 <= (a - b) * s) by (apply Rmult_le_pos; lra). assert (b * s + b * t = b) by (rewrite <- Rmult_plus_distr_l, E; ring). lra.
Qed.

Lemma llt_gram : forall (a b : R) (u : vec R_arith), 0 < a -> 0 < b -> unit3 u ->
  let M := Nmat (N := R_arith) a b u in let L := llt3 (N := R_arith) M in
  (forall i j, (i < 3)%nat -> (j < 3)%nat -> gram L i j = mget M i j) /\ mget L 0 1 = 0 /\ mget L 0 2 = 0 /\ mget L 1 2 = 0.
Proof.
  intros a b u Ha Hb Hu M L. unfold L, llt3. unfold unit3, dot3 in Hu.
  assert (E00 : mget M 0 0 = (a - b) * (vx u * vx u) + b) by (cbn; rarith; rring).
  assert (E10 : mget M 1 0 = (a - b) * (vx u * vy u)) by (cbn; rarith; rring).
  assert (E20 : mget M 2 0 = (a - b) * (vx u * vz u)) by (cbn; rarith; rring).
  assert (E11 : mget M 1 1 = (a - b) * (vy u * vy u) + b) by (cbn; rarith; rring).
  assert (E21 : mget M 2 1 = (a - b) * (vy u * vz u)) by (cbn; rarith; rring).
  assert (E22 : mget M 2 2 = (a - b) * (vz u * vz u) + b) by (cbn; rarith; rring).
  assert (E01 : mget M 0 1 = mget M 1 0) by (cbn; rarith; rring).
  assert (E02 : mget M 0 2 = mget M 2 0) by (cbn; rarith; rring).
  assert (E12 : mget M 1 2 = mget M 2 1) by (cbn; rarith; rring).
  rarith.
  set (x := vx u) in *. set (y := vy u) in *. set (z := vz u) in *.
  assert (Hxx : 0 <= x * x) by nra. assert (Hyy : 0 <= y * y) by nra. assert (Hzz : 0 <= z * z) by nra.
  assert (P0 : 0 < mget M 0 0) by (rewrite E00; replace ((a - b) * (x * x) + b) with (a * (x * x) + b * (1 - x * x)) by ring; apply mix; lra).
  rewrite Rle_bool_false by exact P0. cbv zeta.
  set (l00 := sqrt (mget M 0 0)). assert (S0 : l00 * l00 = mget M 0 0) by (apply sqrt_sqrt; lra). assert (Q0 : 0 < l00) by (apply sqrt_lt_R0; exact P0).
  set (l10 := mget M 1 0 / l00). assert (T10 : l10 * l00 = mget M 1 0) by (unfold l10; field; lra).
  set (l20 := mget M 2 0 / l00). assert (T20 : l20 * l00 = mget M 2 0) by (unfold l20; field; lra).
  set (x1 := mget M 1 1 - l10 * l10).
  assert (D1 : mget M 0 0 * x1 = b * (a * (x * x + y * y) + b * (z * z))).
  { unfold x1. rewrite Rmult_minus_distr_l. replace (mget M 0 0 * (l10 * l10)) with ((l10 * l00) * (l10 * l00)) by (rewrite <- S0; ring).
    rewrite T10, E00, E10, E11. transitivity (b * ((a - b) * (x * x + y * y) + b * 1)); [rring|]. rewrite <- Hu. rring. }
  assert (P1' : 0 < b * (a * (x * x + y * y) + b * (z * z))) by (apply Rmult_lt_0_compat; [exact Hb|]; exact (mix a b (x * x + y * y) (z * z) Ha Hb ltac:(lra) Hzz Hu)).
  assert (P1 : 0 < x1) by (apply (Rmult_lt_reg_l (mget M 0 0)); [exact P0|]; lra).
  rewrite Rle_bool_false by exact P1.
  set (l11 := sqrt x1). assert (S1 : l11 * l11 = x1) by (apply sqrt_sqrt; lra). assert (Q1 : 0 < l11) by (apply sqrt_lt_R0; exact P1).
  set (l21 := (mget M 2 1 - l20 * l10) / l11). assert (T21 : l21 * l11 = mget M 2 1 - l20 * l10) by (unfold l21; field; lra).
  set (x2 := mget M 2 2 - (l20 * l20 + l21 * l21)).
  assert (D2 : (mget M 0 0 * x1) * x2 = a * b * b).
  { assert (K : mget M 0 0 * (mget M 2 1 - l20 * l10) = mget M 0 0 * mget M 2 1 - mget M 2 0 * mget M 1 0) by (rewrite <- T20, <- T10, <- S0; ring).
    assert (K2 : (mget M 0 0 * x1) * (l20 * l20) = x1 * (mget M 2 0 * mget M 2 0)) by (rewrite <- T20, <- S0; ring).
    assert (K3 : (mget M 0 0 * x1) * (l21 * l21) = mget M 0 0 * ((mget M 2 1 - l20 * l10) * (mget M 2 1 - l20 * l10))) by (rewrite <- T21, <- S1; ring).
    apply (Rmult_eq_reg_l (mget M 0 0)); [|lra]. unfold x2.
    replace (mget M 0 0 * (mget M 0 0 * x1 * (mget M 2 2 - (l20 * l20 + l21 * l21))))
      with (mget M 0 0 * (mget M 0 0 * x1) * mget M 2 2 - mget M 0 0 * ((mget M 0 0 * x1) * (l20 * l20)) - mget M 0 0 * ((mget M 0 0 * x1) * (l21 * l21))) by ring.
    rewrite K2, K3.
    replace (mget M 0 0 * (x1 * (mget M 2 0 * mget M 2 0))) with ((mget M 0 0 * x1) * (mget M 2 0 * mget M 2 0)) by ring.
    replace (mget M 0 0 * (mget M 0 0 * ((mget M 2 1 - l20 * l10) * (mget M 2 1 - l20 * l10))))
      with ((mget M 0 0 * (mget M 2 1 - l20 * l10)) * (mget M 0 0 * (mget M 2 1 - l20 * l10))) by ring.
    rewrite K, D1, E00, E10, E20, E21, E22.
    assert (Z : z * z = 1 - x * x - y * y) by lra.
    assert (E' : forall p q : R, p - q = 0 -> p = q) by (intros; lra). apply E'.
    match goal with |- ?e = 0 => replace e with (e + 0) by ring end.
    ring_simplify. replace (z ^ 4) with ((z * z) * (z * z)) by ring. replace (z ^ 2) with (z * z) by ring. rewrite !Z. ring. }
  assert (P2 : 0 < x2) by (apply (Rmult_lt_reg_l (mget M 0 0 * x1)); [nra|]; rewrite D2, Rmult_0_r; apply Rmult_lt_0_compat; [nra|exact Hb]).
  rewrite Rle_bool_false by exact P2. set (l22 := sqrt x2). assert (S2 : l22 * l22 = x2) by (apply sqrt_sqrt; lra).
  clearbody M. split; [|repeat split; reflexivity].
  intros i j Hi Hj. unfold gram, dot3.
  destruct i as [|[|[|i]]]; try lia; (destruct j as [|[|[|j]]]; try lia); cbn [vget vx vy vz];
    rewrite ?E01, ?E02, ?E12; unfold x1, x2 in *; lra.
Qed.

Lemma brown_R : forall (tenth : R) (c : stepConfig R_arith) w (s : sylinder R_arith) v om,
  proper s -> immovable s = false -> 0 < c_viscosity c -> 0 <= c_KBT c -> 0 < c_dt c ->
  brownObject (N := R_arith) ln sin cos PI tenth c w s = (v, om) ->
  exists (B : mat3 R) (drift : vec R) (k : R),
    v = add3 (apply3 B (w_pos w)) drift /\ om = scale3 k (w_rot w) /\
    (forall i j, (i < 3)%nat -> (j < 3)%nat -> gram B i j = 2 * c_KBT c / c_dt c * mget (fst (mobBlocks (N := R_arith) ln PI (c_viscosity c) s)) i j) /\
    (forall a b, mobBlocks (N := R_arith) ln PI (c_viscosity c) s = (a, b) -> forall x : vec R, scale3 (k * k) x = scale3 (2 * c_KBT c / c_dt c) (apply3 b x)) /\
    (~ elongated s -> drift = zero3).
Proof.
  intros tenth c w s v om (Hr & Hl & Hq) Him Hmu HK Hdt E. unfold brownObject in E.
  destruct (drag_ok s (c_viscosity c) Hr Hl Hmu) as (para & perp & rt & Ed & P1 & P2 & P3 & Hs & _). rewrite Ed, Him in E.
  pose proof (axis_unit s Hq) as Hu. set (u := axis (N := R_arith) s) in *.
  change (a_div (a_Z (a := R_arith) 1) para) with (1 / para) in E. change (a_div (a_Z (a := R_arith) 1) perp) with (1 / perp) in E. change (a_div (a_Z (a := R_arith) 1) rt) with (1 / rt) in E.
  assert (I1 : 0 < 1 / para) by (apply Rdiv_lt_0_compat; lra). assert (I2 : 0 < 1 / perp) by (apply Rdiv_lt_0_compat; lra). assert (I3 : 0 < 1 / rt) by (apply Rdiv_lt_0_compat; lra).
  destruct (llt_gram (1 / para) (1 / perp) u I1 I2 Hu) as (G & _). set (M := Nmat (N := R_arith) (1 / para) (1 / perp) u) in *. set (L := llt3 (N := R_arith) M) in *.
  cbv zeta in G.
  change (a_sqrt (a_div (a_mul (a_Z (a := R_arith) 2) (c_KBT c)) (c_dt c))) with (sqrt (2 * c_KBT c / c_dt c)) in E.
  set (kf := sqrt (2 * c_KBT c / c_dt c)) in *.
  assert (Hkf : kf * kf = 2 * c_KBT c / c_dt c).
  { apply sqrt_sqrt. unfold Rdiv. apply Rmult_le_pos; [lra|]. apply Rlt_le, Rinv_0_lt_compat, Hdt. }
  cbv zeta in E. set (q' := qrot (N := R_arith) _ _) in E.
  set (M' := Nmat (N := R_arith) (1 / para) (1 / perp) q') in E.
  apply pair_equal_spec in E. destruct E as [<- <-]. vecR.
  exists (mkmat (fun i j => kf * mget L i j)), (scale3 (c_KBT c / (c_dt c * tenth)) (mvec (N := R_arith) (mkmat (fun i j => mget M' i j - mget M i j)) (w_rfdpos w))), (sqrt (1 / rt) * kf).
  assert (Eq : forall i j, (i < 3)%nat -> (j < 3)%nat -> mget M i j = mget (fst (mobBlocks (N := R_arith) ln PI (c_viscosity c) s)) i j).
  { intros i j Hi Hj. unfold mobBlocks. rewrite Ed, Him. fold u. cbn [fst]. unfold M, Nmat.
    destruct i as [|[|[|i]]]; try lia; (destruct j as [|[|[|j]]]; try lia); cbn; rarith; rring. }
  split; [|split; [reflexivity|split; [|split]]].
  - apply f_equal2; [|reflexivity]. unfold mvec, apply3, mkmat, mget. veq; cbn [vget vx vy vz]; change (@vdot R_arith) with dot3; unfold dot3; cbn [vx vy vz]; rarith; rring.
  - intros i j Hi Hj. rewrite <- Eq by assumption. rewrite <- G by assumption. rewrite <- Hkf. unfold gram.
    destruct i as [|[|[|i]]]; try lia; (destruct j as [|[|[|j]]]; try lia); unfold dot3, mkmat, mget; cbn [vget vx vy vz]; rarith; rring.
  - intros a b Eb x. destruct (blocks_R (c_viscosity c) s para perp rt a b Ed Eb x) as [_ X]. change (apply3 b x) with (MobProofs.matvec b x). rewrite X, Him.
    replace (sqrt (1 / rt) * kf * (sqrt (1 / rt) * kf)) with ((sqrt (1 / rt) * sqrt (1 / rt)) * (kf * kf)) by ring. rewrite sqrt_sqrt by lra. rewrite Hkf.
    veq; field; lra.
  - intro He. destruct (Hs He) as (X1 & X2 & _). assert (Epp : para = perp) by congruence.
    unfold mvec, mkmat, mget, M', M, Nmat. rewrite Epp. cbn [vget vx vy vz Nat.eqb]. change (@vdot R_arith) with dot3. unfold dot3. veq; unfold mkmat; cbn [vget vx vy vz Nat.eqb]; rarith; rring.
Qed.

(** ** Monolayer *)
Lemma mono_R : forall (c : stepConfig R_arith) (s : sylinder R_arith), unitq (orient s) ->
  let u := axis (N := R_arith) s in let h := sqrt (vx u * vx u + vy u * vy u) in let s' := monoObject (N := R_arith) c s in
  spos s' = Vec (vx (spos s)) (vy (spos s)) ((c_highZ c + c_lowZ c) / 2) /\ withPose (N := R_arith) s' (spos s) (orient s) = s /\
  (0 < h -> unitq (orient s') /\ axis (N := R_arith) s' = Vec (vx u / h) (vy u / h) 0) /\
  (h = 0 -> axis (N := R_arith) s' = Vec 0 0 1).
Proof.
  intros c s Hq u h s'. split; [reflexivity|]. split; [destruct s; reflexivity|].
  assert (Hs : sqrt 2 * sqrt 2 = 2) by (apply sqrt_sqrt; lra). assert (Hs' : 0 < sqrt 2) by (apply sqrt_lt_R0; lra).
  set (x := vx u) in *. set (y := vy u) in *.
  assert (Hhh : h * h = x * x + y * y) by (apply sqrt_sqrt; nra).
  assert (Ez : vnormalized (N := R_arith) (ez (N := R_arith)) = Vec 0 0 1).
  { unfold vnormalized, ez, vdot. cbn [vx vy vz]. rarith. replace (0 * 0 + 0 * 0 + 1 * 1) with 1 by ring. rewrite Rlt_bool_true by lra. rewrite sqrt_1. apply vec_eq; cbn [vx vy vz]; field. }
  assert (F : forall d : vec R, d = vnormalized (N := R_arith) (Vec x y 0) -> orient s' = Quat (N := R_arith) (- vy (vnormalized (N := R_arith) d) / sqrt 2) (vx (vnormalized (N := R_arith) d) / sqrt 2) 0 (sqrt 2 / 2) \/ vz (vnormalized (N := R_arith) d) <> 0).
  { intros d Ed. destruct (Req_dec (vz (vnormalized (N := R_arith) d)) 0) as [Zd|Zd]; [left|right; exact Zd].
    unfold s', monoObject. cbn [withPose orient]. fold u. cbv zeta. change (Vec (vx u) (vy u) (a_Z (a := R_arith) 0)) with (Vec x y 0 : vec R). rewrite <- Ed.
    unfold fromTwoVectors. rewrite Ez. set (e := vnormalized (N := R_arith) d) in *. unfold vdot, vcross. cbn [vx vy vz]. rarith.
    replace ((1 + (vx e * 0 + vy e * 0 + vz e * 1)) * 2) with 2 by (rewrite Zd; ring).
    assert (Q4 : forall a b c d a' b' c' d' : R, a = a' -> b = b' -> c = c' -> d = d' -> Quat (N := R_arith) a b c d = Quat (N := R_arith) a' b' c' d') by (intros; congruence).
    apply Q4; [field; lra|field; lra|field; lra|cbn; field]. }
  split; intro Hh.
  - assert (N1 : vnormalized (N := R_arith) (Vec x y 0) = Vec (x / h) (y / h) 0).
    { unfold vnormalized, vdot. cbn [vx vy vz]. rarith. replace (x * x + y * y + 0 * 0) with (x * x + y * y) by ring. fold h. rewrite Rlt_bool_true by nra.
      apply vec_eq; cbn [vx vy vz]; try reflexivity. field. lra. }
    assert (N2 : vnormalized (N := R_arith) (Vec (x / h) (y / h) 0) = Vec (x / h) (y / h) 0).
    { unfold vnormalized, vdot. cbn [vx vy vz]. rarith. replace (x / h * (x / h) + y / h * (y / h) + 0 * 0) with ((x * x + y * y) / (h * h)) by (field; lra).
      rewrite Hhh. replace ((x * x + y * y) / (x * x + y * y)) with 1 by (field; nra). rewrite Rlt_bool_true by lra. rewrite sqrt_1. apply vec_eq; cbn [vx vy vz]; field; lra. }
    destruct (F _ eq_refl) as [EO|EO]; [|exfalso; apply EO; rewrite N1, N2; reflexivity]. rewrite N1, N2 in EO. cbn [vx vy vz] in EO.
    assert (K : x / h * (x / h) + y / h * (y / h) = 1).
    { replace (x / h * (x / h) + y / h * (y / h)) with ((x * x + y * y) / (h * h)) by (field; lra). rewrite Hhh. field. nra. }
    set (p := x / h) in *. set (q := y / h) in *. clearbody p q.
    split.
    + rewrite EO. unfold unitq. cbn [qx qy qz qw].
      replace (- q / sqrt 2 * (- q / sqrt 2) + p / sqrt 2 * (p / sqrt 2) + 0 * 0 + sqrt 2 / 2 * (sqrt 2 / 2))
        with ((p * p + q * q) / (sqrt 2 * sqrt 2) + (sqrt 2 * sqrt 2) / 4) by (field; lra). rewrite Hs, K. field.
    + unfold axis. rewrite EO. unfold qrot, qvec, ez. cbn [qx qy qz qw]. vecR. veq; rarith.
      * transitivity ((sqrt 2 / 2 * (2 * (p / sqrt 2)))); [ring|field; lra].
      * transitivity ((sqrt 2 / 2 * (2 * (q / sqrt 2)))); [field; lra|field; lra].
      * transitivity (1 - 2 * ((p * p + q * q) / (sqrt 2 * sqrt 2))); [field; lra|]. rewrite Hs, K. field.
  - assert (X0 : x = 0) by nra. assert (Y0 : y = 0) by nra.
    assert (N1 : vnormalized (N := R_arith) (Vec x y 0) = Vec 0 0 0).
    { rewrite X0, Y0. unfold vnormalized, vdot. cbn [vx vy vz]. rarith. replace (0 * 0 + 0 * 0 + 0 * 0) with 0 by ring. rewrite Rlt_bool_false by lra. reflexivity. }
    assert (N2 : vnormalized (N := R_arith) (Vec 0 0 0) = Vec 0 0 0).
    { unfold vnormalized, vdot. cbn [vx vy vz]. rarith. replace (0 * 0 + 0 * 0 + 0 * 0) with 0 by ring. rewrite Rlt_bool_false by lra. reflexivity. }
    destruct (F _ eq_refl) as [EO|EO]; [|exfalso; apply EO; rewrite N1, N2; reflexivity]. rewrite N1, N2 in EO. cbn [vx vy vz] in EO.
    unfold axis. rewrite EO. unfold qrot, qvec, ez. cbn [qx qy qz qw]. vecR. veq; rarith; field; lra.
Qed.

Lemma prepare_any : forall {N : arith} dmax (c : stepConfig N) rank o1 o2 (ss : list (sylinder N)),
  Permutation o1 (seq 0 (length ss)) -> Permutation o2 (seq 0 (length ss)) ->
  exists ss', prepareObjects dmax c rank o1 o2 ss = Done ss' /\ length ss' = length ss /\
    forall i s, nth_error ss i = Some s -> exists s', nth_error ss' i = Some (if c_monolayer c then monoObject c s' else s') /\
      s_gid s' = s_gid s /\ s_group s' = s_group s /\ immovable s' = immovable s /\ spos s' = spos s /\ orient s' = orient s /\
      s_rank s' = rank /\ radius s' = radius s /\ slength s' = slength s /\ colBuf s' = c_colBuf c /\
      radiusCol s' = a_mul (radius s) (c_diameterRatio c) /\ lengthCol s' = a_mul (slength s) (c_lengthRatio c) /\
      (forall f, In f [vel; omega; velCol; omegaCol; velBi; omegaBi; velNonB; omegaNonB; velBrown; omegaBrown;
                       force; torque; forceCol; torqueCol; forceBi; torqueBi; forceNonB; torqueNonB] -> f (mot s') = Vec (a_Z 0) (a_Z 0) (a_Z 0)).
Proof.
  intros N dmax c rank o1 o2 ss H1 H2. unfold prepareObjects.
  destruct (forEach_ok o1 (fun _ s => Done (prepareObject dmax c rank s)) (fun _ s => prepareObject dmax c rank s) ss H1) as (s1 & E1 & L1 & P1); [reflexivity|].
  rewrite E1. cbn [obind].
  assert (X : exists ss', (if c_monolayer c then forEach o2 (fun _ s => Done (monoObject c s)) s1 else Done s1) = Done ss' /\ length ss' = length ss /\
     forall i s, nth_error ss i = Some s -> nth_error ss' i = Some (if c_monolayer c then monoObject c (prepareObject dmax c rank s) else prepareObject dmax c rank s)).
  { destruct (c_monolayer c).
    - destruct (forEach_ok o2 (fun _ s => Done (monoObject c s)) (fun _ s => monoObject c s) s1) as (s2 & E2 & L2 & P2); [rewrite L1; exact H2|reflexivity|].
      exists s2. split; [exact E2|]. split; [lia|]. intros i s Hi. rewrite P2, P1, Hi. reflexivity.
    - exists s1. split; [reflexivity|]. split; [exact L1|]. intros i s Hi. rewrite P1, Hi. reflexivity. }
  destruct X as (ss' & E & L & P). exists ss'. split; [exact E|]. split; [exact L|]. intros i s Hi. exists (prepareObject dmax c rank s).
  split; [apply P, Hi|]. do 11 (split; [reflexivity|]). intros f Hf. cbn [In] in Hf. repeat (destruct Hf as [<-|Hf]; [reflexivity|]). destruct Hf.
Qed.
