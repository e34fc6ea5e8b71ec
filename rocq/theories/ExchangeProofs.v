(** Proofs about exchangeParticle. *)
From Coq Require Import List Arith Lia Bool Permutation Reals.
From Flocq Require Import Core BinarySingleNaN.
From Verif Require Import Outcome ListUtil MPIModel MPIProofs CommProofs F64 ParticleModel ParticleSpec.
Import ListNotations.
Local Open Scope nat_scope.

(** ** Blocks inside a concatenation *)

Lemma seq_split n s : s < n -> seq 0 n = seq 0 s ++ s :: seq (S s) (n - S s).
Proof. intros H. replace n with (s + S (n - S s)) at 1 by lia. rewrite seq_app. reflexivity. Qed.

Lemma concat_update {A} (g : nat -> list A) n s b : s < n ->
  concat (map (fun k => if k =? s then b else g k) (seq 0 n))
  = concat (map g (seq 0 s)) ++ b ++ concat (map g (seq (S s) (n - S s))).
Proof.
  intros H. rewrite (seq_split n s H), map_app, concat_app. cbn [map concat]. rewrite Nat.eqb_refl.
  f_equal; [|f_equal].
  - f_equal. apply map_ext_in. intros k Hk. apply in_seq in Hk. destruct (Nat.eqb_spec k s); [lia|reflexivity].
  - f_equal. apply map_ext_in. intros k Hk. apply in_seq in Hk. destruct (Nat.eqb_spec k s); [lia|reflexivity].
Qed.

Lemma concat_at {A} (g : nat -> list A) n s : s < n ->
  concat (map g (seq 0 n)) = concat (map g (seq 0 s)) ++ g s ++ concat (map g (seq (S s) (n - S s))).
Proof. intros H. rewrite (seq_split n s H), map_app, concat_app. reflexivity. Qed.

Lemma offset_length {A} (g : nat -> list A) n s : s < n ->
  sum_list (firstn s (map (fun k => length (g k)) (seq 0 n))) = length (concat (map g (seq 0 s))).
Proof.
  intros H. rewrite concat_length, map_map.
  rewrite (seq_split n s H), map_app, firstn_app, map_length, seq_length, Nat.sub_diag.
  cbn [firstn]. rewrite app_nil_r, firstn_all2 by (rewrite map_length, seq_length; lia). reflexivity.
Qed.

Lemma mwrite_concat {A} (g : nat -> list A) n s u x w v : s < n -> g s = u ++ x :: w ->
  mwrite (concat (map g (seq 0 n)))
    (length u + sum_list (firstn s (map (fun k => length (g k)) (seq 0 n)))) v
  = Done (concat (map (fun k => if k =? s then u ++ v :: w else g k) (seq 0 n))).
Proof.
  intros Hs Hg. rewrite offset_length by assumption. rewrite concat_update by assumption.
  rewrite (concat_at g n s Hs), Hg.
  set (a := concat (map g (seq 0 s))). set (z := concat (map g (seq (S s) (n - S s)))).
  rewrite (Nat.add_comm (length u)). rewrite mwrite_app2.
  assert (E : mwrite ((u ++ x :: w) ++ z) (length u) v = Done ((u ++ v :: w) ++ z)).
  { rewrite <- !app_assoc. rewrite <- (Nat.add_0_r (length u)), mwrite_app2. cbn [app].
    unfold mwrite. cbn [length]. destruct (Nat.ltb_spec 0 (S (length (w ++ z)))); [|lia].
    reflexivity. }
  rewrite E. reflexivity.
Qed.

Lemma splice_concat {A} (pre : list A) (g : nat -> list A) n s b : s < n -> length b = length (g s) ->
  splice (pre ++ concat (map g (seq 0 n)))
    (sum_list (firstn s (map (fun k => length (g k)) (seq 0 n))) + length pre) b
  = Done (pre ++ concat (map (fun k => if k =? s then b else g k) (seq 0 n))).
Proof.
  intros Hs Hl. rewrite offset_length by assumption. rewrite concat_update by assumption.
  rewrite (concat_at g n s Hs). rewrite (app_assoc pre).
  rewrite (Nat.add_comm _ (length pre)), <- app_length.
  rewrite splice_app by (symmetry; assumption). rewrite <- app_assoc. reflexivity.
Qed.

(** ** Search in a grid *)

Section Search.
  Context {C : Type} (le lt : C -> C -> bool) (O : coord_order le lt).

  Lemma inDomain_inside p d : inDomain le lt p d = true <-> inside le lt p d.
  Proof. unfold inDomain, inside. rewrite !andb_true_iff. tauto. Qed.

  Lemma lt_false a b : lt a b = false <-> le b a = true.
  Proof. rewrite (co_lt _ _ O). destruct (le b a); cbn; split; congruence. Qed.
  Lemma lt_true a b : lt a b = true <-> le b a = false.
  Proof. rewrite (co_lt _ _ O). destruct (le b a); cbn; split; congruence. Qed.
  Lemma le_lt_contra a b : le a b = true -> lt b a = true -> False.
  Proof. intros H1 H2. apply lt_true in H2. congruence. Qed.

  Lemma advance_spec T : forall fuel high step x dom base (F : nat -> C),
    T <= fuel -> 0 < T ->
    (forall t, t < T -> exists d, nth_error dom (base + t * step) = Some d /\ high d = F (S t)) ->
    lt x (F T) = true ->
    exists t, t < T /\ advance le fuel high step x dom base = Done (base + t * step) /\
      lt x (F (S t)) = true /\ forall t', t' < t -> le (F (S t')) x = true.
  Proof.
    induction T as [|T IH]; intros fuel high step x dom base F Hf HT Hd Hx; [lia|].
    destruct fuel as [|fuel]; [lia|]. cbn [advance].
    destruct (Hd 0 ltac:(lia)) as (d & Ed & Hh). cbn in Ed. rewrite Nat.add_0_r in Ed.
    unfold mread. rewrite Ed. cbn [obind]. rewrite Hh.
    destruct (le (F 1) x) eqn:El.
    - destruct T as [|T].
      { exfalso. apply (le_lt_contra _ _ El Hx). }
      destruct (IH fuel high step x dom (base + step) (fun t => F (S t))) as (t & Ht & Ea & H1 & H2);
        [lia | lia | | exact Hx |].
      + intros t Ht. destruct (Hd (S t) ltac:(lia)) as (d' & E' & H'). exists d'.
        split; [|exact H']. rewrite <- E'. f_equal. cbn. lia.
      + exists (S t). split; [lia|]. split; [rewrite Ea; f_equal; cbn; lia|]. split; [exact H1|].
        intros t' Ht'. destruct t' as [|t']; [exact El | apply H2; lia].
    - exists 0. split; [lia|]. split; [f_equal; lia|]. split; [apply lt_true, El|]. intros; lia.
  Qed.

  Lemma increasing_le (f : nat -> C) n i j : increasing le f n -> i <= j -> j <= n -> le (f i) (f j) = true.
  Proof.
    intros H Hij Hj. induction j as [|j IH].
    - replace i with 0 by lia. destruct (co_total _ _ O (f 0) (f 0)); assumption.
    - destruct (Nat.eq_dec i (S j)) as [->|E].
      + destruct (co_total _ _ O (f (S j)) (f (S j))); assumption.
      + apply (co_trans _ _ O _ (f j)); [apply IH; lia | apply H; lia].
  Qed.

  (** the interval of a monotone sequence containing x is unique *)
  Lemma interval_unique (f : nat -> C) n i j x : increasing le f n -> i < n -> j < n ->
    le (f i) x = true -> lt x (f (S i)) = true -> le (f j) x = true -> lt x (f (S j)) = true -> i = j.
  Proof.
    intros H Hi Hj L1 U1 L2 U2.
    destruct (Nat.lt_trichotomy i j) as [L|[->|L]]; [exfalso|reflexivity|exfalso].
    - apply (le_lt_contra (f (S i)) x); [|assumption].
      apply (co_trans _ _ O _ (f j)); [apply (increasing_le f n); assumption || lia | assumption].
    - apply (le_lt_contra (f (S j)) x); [|assumption].
      apply (co_trans _ _ O _ (f i)); [apply (increasing_le f n); assumption || lia | assumption].
  Qed.

  Lemma first_low (F : nat -> C) t x : le (F 0) x = true ->
    (forall t', t' < t -> le (F (S t')) x = true) -> le (F t) x = true.
  Proof. intros H0 H. destruct t as [|t]; [exact H0 | apply H; lia]. Qed.

  Lemma pos_count (F : nat -> C) n x : le (F 0) x = true -> lt x (F n) = true -> 0 < n.
  Proof. intros H0 Hn. destruct n; [exfalso; apply (le_lt_contra _ _ H0 Hn) | lia]. Qed.

  Lemma grid_decode nx ny nz r : r < nx * ny * nz ->
    exists i j k, i < nx /\ j < ny /\ k < nz /\ r = (i * ny + j) * nz + k.
  Proof.
    intros H. destruct (Nat.eq_dec nz 0) as [->|Hz]; [lia|].
    destruct (Nat.eq_dec ny 0) as [->|Hy]; [lia|].
    exists (r / nz / ny), (r / nz mod ny), (r mod nz).
    assert (r / nz < nx * ny) by (apply Nat.div_lt_upper_bound; lia).
    split; [apply Nat.div_lt_upper_bound; lia|].
    split; [apply Nat.mod_upper_bound; assumption|].
    split; [apply Nat.mod_upper_bound; assumption|].
    pose proof (Nat.div_mod (r / nz) ny Hy) as D1. pose proof (Nat.div_mod r nz Hz) as D2.
    rewrite (Nat.mul_comm (r / nz / ny) ny), <- D1, Nat.mul_comm. exact D2.
  Qed.

  Lemma search_spec root nx ny nz doms p :
    grid_of le root nx ny nz doms -> inside le lt p root ->
    exists r d, search le p (nx, ny, nz) doms = Done r /\ nth_error doms r = Some d /\
      inside le lt p d /\
      forall r' d', nth_error doms r' = Some d' -> inside le lt p d' -> r' = r.
  Proof.
    intros (HL & X & Y & Z & (X0 & Xn & Xi) & HY & HZ & HD) ((Lx & Ux) & (Ly & Uy) & (Lz & Uz)).
    rewrite <- X0 in Lx. rewrite <- Xn in Ux.
    pose proof (pos_count X nx _ Lx Ux) as Px.
    assert (Py : 0 < ny).
    { destruct (HY 0 Px) as (Y0 & Yn & _). rewrite <- Y0 in Ly. rewrite <- Yn in Uy. apply (pos_count (Y 0) ny _ Ly Uy). }
    assert (Pz : 0 < nz).
    { destruct (HZ 0 0 Px Py) as (Z0 & Zn & _). rewrite <- Z0 in Lz. rewrite <- Zn in Uz. apply (pos_count (Z 0 0) nz _ Lz Uz). }
    unfold search. set (fuel := S (length doms)).
    assert (F : nx <= fuel /\ ny <= fuel /\ nz <= fuel).
    { unfold fuel. rewrite HL. destruct nx as [|a]; [lia|]. destruct ny as [|b]; [lia|]. destruct nz as [|c]; [lia|].
      assert (S a * S b * S c = a * b * c + a * b + a * c + b * c + a + b + c + 1) by ring. lia. }
    destruct F as (F1 & F2 & F3).
    destruct (advance_spec nx fuel (fun d => vx (ohigh d)) (ny * nz) (vx p) doms 0 X F1 Px) as (i & Hi & Ei & Ui & Li); [|exact Ux|].
    { intros t Ht. eexists. split.
      - replace (0 + t * (ny * nz)) with ((t * ny + 0) * nz + 0) by ring. apply HD; assumption.
      - reflexivity. }
    rewrite Ei. cbn [obind Nat.add].
    pose proof (first_low X i _ Lx Li) as Lxi.
    destruct (HY i Hi) as (Y0 & Yn & Yi). rewrite <- Y0 in Ly. rewrite <- Yn in Uy.
    destruct (advance_spec ny fuel (fun d => vy (ohigh d)) nz (vy p) doms (i * (ny * nz)) (Y i) F2 Py) as (j & Hj & Ej & Uj & Lj); [|exact Uy|].
    { intros t Ht. eexists. split.
      - replace (i * (ny * nz) + t * nz) with ((i * ny + t) * nz + 0) by ring. apply HD; assumption.
      - reflexivity. }
    rewrite Ej. cbn [obind].
    pose proof (first_low (Y i) j _ Ly Lj) as Lyj.
    destruct (HZ i j Hi Hj) as (Z0 & Zn & Zi). rewrite <- Z0 in Lz. rewrite <- Zn in Uz.
    destruct (advance_spec nz fuel (fun d => vz (ohigh d)) 1 (vz p) doms (i * (ny * nz) + j * nz) (Z i j) F3 Pz) as (k & Hk & Ek & Uk & Lk); [|exact Uz|].
    { intros t Ht. eexists. split.
      - replace (i * (ny * nz) + j * nz + t * 1) with ((i * ny + j) * nz + t) by ring. apply HD; assumption.
      - reflexivity. }
    pose proof (first_low (Z i j) k _ Lz Lk) as Lzk.
    rewrite Ek. replace (i * (ny * nz) + j * nz + k * 1) with ((i * ny + j) * nz + k) by ring.
    eexists _, _. split; [reflexivity|]. split; [apply HD; assumption|]. split.
    { unfold inside. cbn. tauto. }
    intros r' d' Er' ((Lx' & Ux') & (Ly' & Uy') & (Lz' & Uz')).
    assert (Hr' : r' < nx * ny * nz) by (rewrite <- HL; apply nth_error_Some; congruence).
    destruct (grid_decode nx ny nz r' Hr') as (i' & j' & k' & Hi' & Hj' & Hk' & ->).
    rewrite (HD i' j' k' Hi' Hj' Hk') in Er'.
    assert (Ed : d' = Ort (Vec (X i') (Y i' j') (Z i' j' k')) (Vec (X (S i')) (Y i' (S j')) (Z i' j' (S k')))) by congruence.
    subst d'. cbn in Lx', Ux', Ly', Uy', Lz', Uz'.
    assert (i' = i) by (apply (interval_unique X nx i' i (vx p)); assumption). subst i'.
    assert (j' = j) by (apply (interval_unique (Y i) ny j' j (vy p)); assumption). subst j'.
    assert (k' = k) by (apply (interval_unique (Z i j) nz k' k (vz p)); assumption). subst k'.
    reflexivity.
  Qed.

  Lemma inside_overlapped root p : inside le lt p root -> notOverlapped lt root p = false.
  Proof.
    intros ((Lx & Ux) & (Ly & Uy) & (Lz & Uz)). unfold notOverlapped.
    apply lt_false in Lx, Ly, Lz.
    assert (G : forall a b, lt a b = true -> lt b a = false).
    { intros a b H. apply lt_false. apply lt_true in H. destruct (co_total _ _ O a b); congruence. }
    rewrite Lx, Ly, Lz, (G _ _ Ux), (G _ _ Uy), (G _ _ Uz). reflexivity.
  Qed.
End Search.

(** ** Packing *)

Section Pack.
  Context {C P : Type} (le lt : C -> C -> bool) (O : coord_order le lt) (getPos : P -> vec C).
  Context (di : @dinfo C) (nx ny nz : nat).
  Hypothesis Hgrid : grid_of le (di_root di) nx ny nz (di_dom di).
  Hypothesis Hn : di_n di = (nx, ny, nz).
  Let n := length (di_dom di).

  Definition dest (p : P) : nat :=
    match search le (getPos p) (di_n di) (di_dom di) with Done r => r | _ => 0 end.

  Definition good (p : P) : Prop := inside le lt (getPos p) (di_root di).

  Lemma dest_spec p : good p ->
    search le (getPos p) (di_n di) (di_dom di) = Done (dest p) /\ dest p < n /\
    (exists d, nth_error (di_dom di) (dest p) = Some d /\ inside le lt (getPos p) d) /\
    forall r d, nth_error (di_dom di) r = Some d -> inDomain le lt (getPos p) d = (dest p =? r).
  Proof.
    intros G. destruct (search_spec le lt O _ _ _ _ _ _ Hgrid G) as (r & d & E & En & Hi & U).
    unfold dest. rewrite Hn, E. split; [reflexivity|].
    split; [apply nth_error_Some; congruence|]. split; [eauto|].
    intros r' d' E'. destruct (Nat.eqb_spec r r') as [->|N].
    - assert (d' = d) by congruence. subst. apply inDomain_inside, Hi.
    - destruct (inDomain le lt (getPos p) d') eqn:EI; [|reflexivity].
      exfalso. apply N. symmetry. apply (U r' d' E'), inDomain_inside, EI.
  Qed.

  Definition kept (r : nat) (l : list P) : list P := filter (fun p => dest p =? r) l.
  Definition blk (r r' : nat) (l : list P) : list P :=
    filter (fun p => negb (dest p =? r) && (dest p =? r')) l.

  Lemma count_pass r mine l : nth_error (di_dom di) r = Some mine -> Forall good l ->
    forall c : nat -> nat,
    ofold (countStep le lt getPos di mine) l (Some (map c (seq 0 n)))
    = Done (Some (map (fun r' => c r' + length (blk r r' l)) (seq 0 n))).
  Proof.
    intros Er HG. induction HG as [|p l G HG IH]; intros c; cbn [ofold].
    - f_equal. f_equal. apply map_ext. intros. cbn. lia.
    - destruct (dest_spec p G) as (E1 & L & _ & U).
      unfold countStep at 1. rewrite (inside_overlapped le lt O _ _ G), (U _ _ Er).
      destruct (dest p =? r) eqn:Ed.
      + cbn [obind]. rewrite IH. f_equal. f_equal. apply map_ext. intros r'. unfold blk at 2. cbn [filter].
        rewrite Ed. cbn [negb andb]. reflexivity.
      + rewrite E1. cbn [obind]. rewrite mread_map_seq by assumption. cbn [obind].
        rewrite mwrite_map_seq by assumption. cbn [obind]. rewrite IH. f_equal. f_equal.
        apply map_ext. intros r'. unfold blk at 2. cbn [filter]. rewrite Ed. cbn [negb andb].
        rewrite (Nat.eqb_sym r' (dest p)).
        destruct (Nat.eqb_spec (dest p) r') as [<-|]; cbn [length]; unfold blk; lia.
  Qed.

  (** a particle outside the closed root box aborts the run *)
  Lemma count_abort r mine l : nth_error (di_dom di) r = Some mine ->
    Forall (fun p => good p \/ notOverlapped lt (di_root di) (getPos p) = true) l ->
    Exists (fun p => notOverlapped lt (di_root di) (getPos p) = true) l ->
    forall c : nat -> nat,
    ofold (countStep le lt getPos di mine) l (Some (map c (seq 0 n))) = Done None.
  Proof.
    intros Er HG. 
    assert (Z : forall l, ofold (countStep le lt getPos di mine) l None = Done None).
    { clear. induction l as [|p l IH]; [reflexivity|]. cbn [ofold countStep obind]. exact IH. }
    induction HG as [|p l G HG IH]; intros HE c; [inversion HE|]. cbn [ofold]. unfold countStep at 1.
    destruct (notOverlapped lt (di_root di) (getPos p)) eqn:EN; [apply Z|].
    destruct G as [G|G]; [|congruence].
    assert (HE' : Exists (fun p => notOverlapped lt (di_root di) (getPos p) = true) l).
    { inversion HE; subst; [congruence|assumption]. }
    destruct (dest_spec p G) as (E1 & L & _ & U). rewrite (U _ _ Er).
    destruct (dest p =? r) eqn:Ed; cbn [obind]; [apply IH, HE'|].
    rewrite E1. cbn [obind]. rewrite mread_map_seq by assumption. cbn [obind].
    rewrite mwrite_map_seq by assumption. cbn [obind]. apply IH, HE'.
  Qed.

  Lemma filter_app1 (f : P -> bool) l p : filter f (l ++ [p]) = filter f l ++ (if f p then [p] else []).
  Proof. rewrite filter_app. cbn [filter]. destruct (f p); reflexivity. Qed.

  Lemma kept_length r l : length (kept r l) <= length l.
  Proof. unfold kept. induction l as [|a l IH]; cbn; [lia|]. destruct (dest a =? r); cbn; lia. Qed.

  Lemma fill_pass r mine all junk : nth_error (di_dom di) r = Some mine ->
    forall todo pre X, Forall good todo -> all = pre ++ todo ->
    length X + length (kept r pre) = length pre ->
    exists X',
    length X' + length (kept r all) = length all /\
    ofold (fillStep le lt getPos di mine (psum (map (fun r' => length (blk r r' all)) (seq 0 n))))
      (seq (length pre) (length todo))
      (kept r pre ++ X ++ todo, length (kept r pre),
       concat (map (fun r' => blk r r' pre ++ repeat junk (length (blk r r' all) - length (blk r r' pre))) (seq 0 n)),
       map (fun r' => length (blk r r' pre)) (seq 0 n))
    = Done (kept r all ++ X', length (kept r all),
            concat (map (fun r' => blk r r' all) (seq 0 n)),
            map (fun r' => length (blk r r' all)) (seq 0 n)).
  Proof.
    intros Er. induction todo as [|p todo IH]; intros pre X HG HA HX.
    - rewrite app_nil_r in HA. subst pre. exists X. split; [exact HX|]. cbn [length seq ofold].
      rewrite app_nil_r. f_equal. f_equal. f_equal. f_equal.
      apply map_ext. intros r'. rewrite Nat.sub_diag. cbn. apply app_nil_r.
    - inversion HG as [|? ? G HG']; subst x l.
      destruct (dest_spec p G) as (E1 & L & _ & U).
      assert (HA' : all = (pre ++ [p]) ++ todo) by (rewrite <- app_assoc; exact HA).
      destruct (IH (pre ++ [p])
                   (if dest p =? r then tl (X ++ [p]) else X ++ [p]) HG' HA') as (X' & HX' & E).
      { unfold kept. rewrite filter_app1, !app_length. fold (kept r pre). cbn [length].
        destruct (dest p =? r); cbn [length].
        - destruct X as [|x X]; cbn [app tl length] in *; [lia|]. rewrite app_length. cbn [length]. lia.
        - rewrite app_length. cbn [length]. lia. }
      exists X'. split; [exact HX'|]. rewrite <- E. clear E HX'.
      cbn [length seq ofold]. unfold fillStep at 1.
      assert (R : mread (kept r pre ++ X ++ p :: todo) (length pre) = Done p).
      { rewrite app_assoc. replace (length pre) with (length (kept r pre ++ X) + 0) by (rewrite app_length; lia).
        rewrite mread_app2. reflexivity. }
      rewrite R. cbn [obind]. rewrite (U _ _ Er).
      rewrite (app_length pre [p]). cbn [length]. rewrite (Nat.add_1_r (length pre)).
      destruct (dest p =? r) eqn:Ed.
      + assert (K : kept r (pre ++ [p]) = kept r pre ++ [p]) by (unfold kept; rewrite filter_app1, Ed; reflexivity).
        assert (B : forall r', blk r r' (pre ++ [p]) = blk r r' pre).
        { intros r'. unfold blk. rewrite filter_app1, Ed. cbn [negb andb]. apply app_nil_r. }
        assert (W : mwrite (kept r pre ++ X ++ p :: todo) (length (kept r pre)) p
                    = Done (kept r pre ++ p :: tl (X ++ [p]) ++ todo)).
        { replace (length (kept r pre)) with (length (kept r pre) + 0) by lia. rewrite mwrite_app2.
          change (p :: todo) with ([p] ++ todo). rewrite app_assoc.
          destruct (X ++ [p]) as [|y Y] eqn:EY; [destruct X; discriminate|].
          cbn [app tl]. unfold mwrite. cbn [length]. destruct (Nat.ltb_spec 0 (S (length (Y ++ todo)))); [|lia]. reflexivity. }
        rewrite W. cbn [obind]. rewrite K.
        rewrite (map_ext _ _ (fun r' => f_equal (@length P) (B r'))).
        rewrite (map_ext (fun r' => blk r r' (pre ++ [p]) ++ _) (fun r' => blk r r' pre ++ repeat junk (length (blk r r' all) - length (blk r r' pre))))
          by (intros r'; rewrite B; reflexivity).
        rewrite app_length. cbn [length]. rewrite Nat.add_1_r. rewrite <- !app_assoc. reflexivity.
      + assert (K : kept r (pre ++ [p]) = kept r pre) by (unfold kept; rewrite filter_app1, Ed; apply app_nil_r).
        assert (B : forall r', blk r r' (pre ++ [p]) = blk r r' pre ++ (if r' =? dest p then [p] else [])).
        { intros r'. unfold blk. rewrite filter_app1, Ed. cbn [negb andb]. rewrite (Nat.eqb_sym r'). reflexivity. }
        rewrite E1. cbn [obind]. rewrite mread_map_seq by assumption. cbn [obind].
        rewrite mread_psum by (rewrite map_length, seq_length; lia). cbn [obind].
        set (s := dest p) in *.
        assert (LT : length (blk r s pre) < length (blk r s all)).
        { rewrite HA'. unfold blk at 2. rewrite filter_app. fold (blk r s (pre ++ [p])). rewrite B, Nat.eqb_refl.
          rewrite !app_length. cbn [length]. lia. }
        set (g := fun r' => blk r r' pre ++ repeat junk (length (blk r r' all) - length (blk r r' pre))).
        assert (LG : map (fun r' => length (blk r r' all)) (seq 0 n) = map (fun r' => length (g r')) (seq 0 n)).
        { apply map_ext. intros r'. unfold g. rewrite app_length, repeat_length.
          assert (length (blk r r' pre) <= length (blk r r' all)).
          { rewrite HA. unfold blk at 2. rewrite filter_app, app_length. fold (blk r r' pre). lia. }
          lia. }
        rewrite LG.
        assert (HGs : g s = blk r s pre ++ junk :: repeat junk (length (blk r s all) - length (blk r s pre) - 1)).
        { unfold g. destruct (length (blk r s all) - length (blk r s pre)) as [|m] eqn:Em; [lia|].
          cbn [repeat]. replace (S m - 1) with m by lia. reflexivity. }
        rewrite (mwrite_concat g n s _ _ _ p L HGs). cbn [obind].
        rewrite mwrite_map_seq by assumption. cbn [obind]. rewrite K.
        rewrite <- !app_assoc. cbn [app].
        match goal with |- ofold _ _ (_, _, ?a, ?b) = ofold _ _ (_, _, ?a', ?b') =>
          assert (Ea : a = a'); [|assert (Eb : b = b'); [|rewrite Ea, Eb; reflexivity]] end.
        * f_equal. apply map_ext. intros r'. rewrite B.
          destruct (Nat.eqb_spec r' s) as [->|].
          -- rewrite app_length. cbn [length]. rewrite <- app_assoc. cbn [app]. f_equal. f_equal. f_equal. lia.
          -- rewrite app_nil_r. reflexivity.
        * apply map_ext. intros r'. rewrite B. destruct (Nat.eqb_spec r' s) as [->|].
          -- rewrite app_length. cbn [length]. lia.
          -- rewrite app_nil_r. reflexivity.
  Qed.

  Lemma pack_spec r junk l : r < n -> Forall good l ->
    pack le lt getPos di n r junk l
    = Done (Some {| pk_kept := kept r l; pk_send := concat (map (fun r' => blk r r' l) (seq 0 n));
                    pk_nsend := map (fun r' => length (blk r r' l)) (seq 0 n);
                    pk_disp := psum (map (fun r' => length (blk r r' l)) (seq 0 n)) |}).
  Proof.
    intros Hr HG. unfold pack.
    destruct (nth_error (di_dom di) r) as [mine|] eqn:Er; [|apply nth_error_None in Er; fold n in Er; lia].
    unfold mread at 1. rewrite Er. cbn [obind].
    rewrite (repeat_map_seq 0 n 0). rewrite (count_pass r mine l Er HG (fun _ => 0)). cbn [obind].
    cbn [Nat.add].
    destruct (fill_pass r mine l junk Er l [] [] HG eq_refl eq_refl) as (X & HX & E).
    cbn [kept blk filter app length] in E.
    rewrite psum_last.
    assert (EJ : repeat junk (sum_list (map (fun r' => length (blk r r' l)) (seq 0 n)))
                 = concat (map (fun r' => repeat junk (length (blk r r' l) - 0)) (seq 0 n))).
    { generalize (seq 0 n) as ks. induction ks as [|k ks IH]; [reflexivity|].
      cbn [map concat]. rewrite sum_list_cons, repeat_app, IH, Nat.sub_0_r. reflexivity. }
    rewrite EJ, E. cbn [obind].
    f_equal. f_equal. f_equal.
    rewrite <- (Nat.add_0_r (length (kept r l))). rewrite firstn_app_2. cbn [firstn]. apply app_nil_r.
  Qed.
End Pack.

(** ** The whole exchange *)

Lemma concat_map_filter_split {A} (f : A -> nat) n (l : list A) : Forall (fun a => f a < n) l ->
  Permutation (concat (map (fun k => filter (fun a => f a =? k) l) (seq 0 n))) l.
Proof.
  induction 1 as [|a l Ha H IH].
  - rewrite concat_map_nil; [constructor | reflexivity].
  - rewrite (seq_split n (f a) Ha) in *. rewrite map_app, concat_app in *. cbn [map concat] in *.
    assert (EA : filter (fun x => f x =? f a) (a :: l) = a :: filter (fun x => f x =? f a) l)
      by (cbn [filter]; rewrite Nat.eqb_refl; reflexivity).
    rewrite EA. clear EA.
    etransitivity; [|apply perm_skip, IH].
    etransitivity; [|symmetry; apply Permutation_middle].
    apply Permutation_app; [|cbn [app]].
    + erewrite map_ext_in; [reflexivity|]. intros k Hk. apply in_seq in Hk. cbn [filter].
      destruct (Nat.eqb_spec (f a) k); [lia|reflexivity].
    + cbn [app]. apply perm_skip. apply Permutation_app_head.
      erewrite map_ext_in; [reflexivity|]. intros k Hk. apply in_seq in Hk. cbn [filter].
      destruct (Nat.eqb_spec (f a) k); [lia|reflexivity].
Qed.

Section Recv.
  Context {P : Type} (B : nat -> nat -> list P) (n r : nat) (pre : list P) (junk : P).

  Lemma recv_fold (F : list P -> nat -> outcome (list P)) ids :
    (forall g s, In s ids -> (forall k, length (g k) = length (B k r)) ->
       F (pre ++ concat (map g (seq 0 n))) s
       = Done (pre ++ concat (map (fun k => if k =? s then B s r else g k) (seq 0 n)))) ->
    forall g, (forall k, length (g k) = length (B k r)) ->
    ofold F ids (pre ++ concat (map g (seq 0 n)))
    = Done (pre ++ concat (map (fun k => if existsb (Nat.eqb k) ids then B k r else g k) (seq 0 n))).
  Proof.
    induction ids as [|s ids IH]; intros HF g HL; cbn [ofold existsb]; [reflexivity|].
    rewrite HF; [|now left|exact HL]. cbn [obind]. rewrite IH.
    - f_equal. f_equal. f_equal. apply map_ext. intros k.
      destruct (existsb (Nat.eqb k) ids); [now rewrite orb_true_r|]. rewrite orb_false_r.
      destruct (Nat.eqb_spec k s) as [->|]; reflexivity.
    - intros g' s' Hs'. apply HF. now right.
    - intros k. destruct (Nat.eqb_spec k s) as [->|]; [reflexivity|apply HL].
  Qed.

  Lemma junk_blocks : repeat junk (sum_list (rcnts B n r))
    = concat (map (fun s => repeat junk (length (B s r))) (seq 0 n)).
  Proof.
    unfold rcnts. generalize (seq 0 n) as ks. induction ks as [|k ks IH]; [reflexivity|].
    cbn [map concat]. rewrite sum_list_cons, repeat_app, IH. reflexivity.
  Qed.

  Lemma partner_all s : r < n -> s < n -> s <> r ->
    exists ib, 1 <= ib < n /\ (n + r - ib) mod n = s.
  Proof.
    intros Hr Hs N. destruct (Nat.lt_ge_cases s r) as [L|G].
    - exists (r - s). split; [lia|]. replace (n + r - (r - s)) with (s + 1 * n) by lia.
      rewrite Nat.mod_add by lia. apply Nat.mod_small, Hs.
    - exists (n + r - s). split; [lia|]. replace (n + r - (n + r - s)) with s by lia. apply Nat.mod_small, Hs.
  Qed.
End Recv.

Section Exchange.
  Context {C P : Type} (le lt : C -> C -> bool) (O : coord_order le lt) (getPos : P -> vec C).
  Context (di : @dinfo C) (nx ny nz : nat).
  Hypothesis Hgrid : grid_of le (di_root di) nx ny nz (di_dom di).
  Hypothesis Hn : di_n di = (nx, ny, nz).
  Notation dest := (dest le getPos di).
  Notation good := (good le lt getPos di).
  Notation blk := (blk le getPos di).
  Notation kept := (kept le getPos di).

  Variable ranks : list (@prank P).
  Hypothesis Hranks : length ranks = length (di_dom di).
  Let n := length ranks.
  Let d0 : @prank P := {| pr_ptcl := []; pr_nsend := 0; pr_nrecv := 0 |}.
  Let st s := nth s ranks d0.
  Let L s := pr_ptcl (st s).
  Let B s r := blk s r (L s).

  Lemma blk_self r l : blk r r l = [].
  Proof. unfold blk. apply filter_none. intros p _. destruct (dest p =? r); reflexivity. Qed.

  Lemma mread_rank r : r < n -> mread ranks r = Done (st r).
  Proof. intros H. unfold mread, st. rewrite (nth_error_nth' ranks d0 H). reflexivity. Qed.

  Let pk r : @packed P := {| pk_kept := kept r (L r); pk_send := sendrow B n r; pk_nsend := cnts B n r;
                pk_disp := psum (cnts B n r) |}.

  Lemma exchange_done junk : (forall s, s < n -> Forall good (L s)) ->
    exchangeParticle le lt getPos di junk ranks
    = Done (Some (map (fun r =>
        {| pr_ptcl := kept r (L r) ++ recvcol B n r;
           pr_nsend := pr_nsend (st r) + sum_list (cnts B n r);
           pr_nrecv := pr_nrecv (st r) + sum_list (rcnts B n r) |}) (seq 0 n))).
  Proof.
    intros HG. unfold exchangeParticle. fold n.
    rewrite (omap_pure _ (fun r => Some (pk r))).
    2:{ intros r Hr. apply in_seq in Hr. rewrite mread_rank by lia. cbn [obind].
        unfold n. rewrite Hranks. fold (L r).
        rewrite (pack_spec le lt O getPos di nx ny nz Hgrid Hn) by (rewrite <- ?Hranks; fold n; auto; lia || (apply HG; lia)).
        unfold pk, sendrow, cnts, B, n. rewrite Hranks. reflexivity. }
    cbn [obind].
    assert (E1 : existsb (fun o : option (@packed P) => match o with None => true | _ => false end)
                   (map (fun r => Some (pk r)) (seq 0 n)) = false).
    { generalize (seq 0 n) as ks. induction ks as [|k ks IH]; [reflexivity|exact IH]. }
    rewrite E1.
    assert (E2 : flat_map (fun o : option (@packed P) => match o with Some p => [p] | None => [] end)
                   (map (fun r => Some (pk r)) (seq 0 n)) = map pk (seq 0 n)).
    { generalize (seq 0 n) as ks. induction ks as [|k ks IH]; [reflexivity|]. cbn. f_equal. exact IH. }
    rewrite E2. rewrite map_map.
    assert (E3 : MPI_Alltoall (map (fun x => pk_nsend (pk x)) (seq 0 n)) = Done (map (rcnts B n) (seq 0 n)))
      by (apply (alltoall_counts B n)).
    rewrite E3. cbn [obind].
    set (p2p := forallb _ _). clearbody p2p.
    rewrite (omap_pure _ (fun r => {| pr_ptcl := kept r (L r) ++ recvcol B n r;
           pr_nsend := pr_nsend (st r) + sum_list (cnts B n r);
           pr_nrecv := pr_nrecv (st r) + sum_list (rcnts B n r) |})); [reflexivity|].
    intros r Hr. apply in_seq in Hr. rewrite mread_rank by lia. cbn [obind].
    rewrite mread_map_seq by lia. cbn [obind]. rewrite mread_map_seq by lia. cbn [obind].
    rewrite !psum_last. cbn [pk_kept pk_disp pk]. rewrite psum_last.
    rewrite (junk_blocks B n r junk).
    set (pre := kept r (L r)). set (g0 := fun s => repeat junk (length (B s r))).
    assert (Hg0 : forall k, length (g0 k) = length (B k r)) by (intros k; apply repeat_length).
    assert (VB : forall s, s < n -> vblock (Build_vbuf (pk_send (pk s)) (pk_nsend (pk s)) (pk_disp (pk s))) r = Done (B s r)).
    { intros s Hs. apply (vblock_row B n); [lia|reflexivity]. }
    assert (OFF : forall s, s < n -> mread (psum (rcnts B n r)) s
               = Done (sum_list (firstn s (map (fun k => length (B k r)) (seq 0 n))))).
    { intros s Hs. apply mread_psum. unfold rcnts. rewrite map_length, seq_length. lia. }
    assert (STEP : forall g s, s < n -> (forall k, length (g k) = length (B k r)) ->
      splice (pre ++ concat (map g (seq 0 n)))
        (sum_list (firstn s (map (fun k => length (B k r)) (seq 0 n))) + length pre) (B s r)
      = Done (pre ++ concat (map (fun k => if k =? s then B s r else g k) (seq 0 n)))).
    { intros g s Hs HL. rewrite <- (splice_concat pre g n s (B s r) Hs) by (symmetry; apply HL).
      f_equal. f_equal. f_equal. f_equal. apply map_ext. intros k. symmetry. apply HL. }
    match goal with |- (do buf' <- ?m; _) = _ => assert (EB : m = Done (pre ++ recvcol B n r)) end.
    2:{ rewrite EB. reflexivity. }
    destruct p2p.
    - unfold recvP2P.
      assert (Q : forall F ids, (forall b i, In i (seq 1 (n - 1)) -> F b ((n + r - i) mod n) = ids b i) ->
         ofold ids (seq 1 (n - 1)) (pre ++ concat (map g0 (seq 0 n)))
         = ofold F (map (fun i => (n + r - i) mod n) (seq 1 (n - 1))) (pre ++ concat (map g0 (seq 0 n)))).
      { intros F ids H. rewrite ofold_map. apply ofold_ext_in. intros i b Hi. symmetry. apply H, Hi. }
      rewrite (Q (fun buf s =>
          do c <- mread (rcnts B n r) s;
          if 0 <? c then
            do d <- mread (psum (rcnts B n r)) s;
            do pk0 <- mread (map pk (seq 0 n)) s;
            do b <- vblock (Build_vbuf (pk_send pk0) (pk_nsend pk0) (pk_disp pk0)) r;
            if length b =? c then splice buf (d + length pre) b else UB
          else Done buf)) by reflexivity.
      clear Q.
      rewrite (recv_fold B n r pre).
      + f_equal. f_equal. unfold recvcol. f_equal. apply map_ext_in. intros k Hk. apply in_seq in Hk.
        destruct (existsb (Nat.eqb k) _) eqn:EX; [reflexivity|].
        destruct (Nat.eq_dec k r) as [->|N].
        * unfold g0, B. rewrite blk_self. reflexivity.
        * exfalso. destruct (partner_all n r k) as (ib & Hib & E); [lia|lia|exact N|].
          assert (X : existsb (Nat.eqb k) (map (fun i => (n + r - i) mod n) (seq 1 (n - 1))) = true); [|congruence].
          apply existsb_exists. exists k. split; [|apply Nat.eqb_refl].
          apply in_map_iff. exists ib. split; [exact E | apply in_seq; lia].
      + intros g s Hs HL.
        assert (Hsn : s < n).
        { apply in_map_iff in Hs. destruct Hs as (i & <- & _). apply Nat.mod_upper_bound. lia. }
        unfold rcnts at 1. rewrite mread_map_seq by assumption. cbn [obind].
        destruct (Nat.ltb_spec 0 (length (B s r))) as [Hp|Hz].
        * rewrite OFF by assumption. cbn [obind]. rewrite mread_map_seq by assumption. cbn [obind].
          rewrite VB by assumption. cbn [obind]. rewrite Nat.eqb_refl. apply STEP; assumption.
        * f_equal. f_equal. f_equal. apply map_ext. intros k.
          destruct (Nat.eqb_spec k s) as [->|]; [|reflexivity].
          assert (length (g s) = 0) by (rewrite HL; lia). assert (length (B s r) = 0) by lia.
          destruct (g s), (B s r); cbn in *; congruence.
      + exact Hg0.
    - rewrite (recv_fold B n r pre).
      + f_equal. f_equal. unfold recvcol. f_equal. apply map_ext_in. intros k Hk. 
        assert (X : existsb (Nat.eqb k) (seq 0 n) = true); [|rewrite X; reflexivity].
        apply existsb_exists. exists k. split; [exact Hk|apply Nat.eqb_refl].
      + intros g s Hs HL. apply in_seq in Hs.
        rewrite mread_map_seq by lia. cbn [obind]. rewrite VB by lia. cbn [obind].
        unfold rcnts at 1. rewrite mread_map_seq by lia. cbn [obind].
        rewrite OFF by lia. cbn [obind]. rewrite Nat.eqb_refl.
        rewrite (Nat.add_comm (length pre)). apply STEP; [lia|assumption].
      + exact Hg0.
  Qed.

  Lemma insideb_inDomain p d : insideb le lt p d = inDomain le lt p d.
  Proof. unfold insideb, inDomain. cbn [forallb]. rewrite andb_true_r, andb_assoc. reflexivity. Qed.

  Lemma beyond_notOverlapped p : beyond lt p (di_root di) <-> notOverlapped lt (di_root di) p = true.
  Proof.
    unfold beyond, notOverlapped. rewrite !orb_true_iff. split.
    - intros (c & [<-|[<-|[<-|[]]]] & [H|H]); tauto.
    - intros [[[[[H|H]|H]|H]|H]|H]; [exists vx|exists vx|exists vy|exists vy|exists vz|exists vz]; cbn; tauto.
  Qed.

  Lemma kept_inside r d l : nth_error (di_dom di) r = Some d -> Forall good l ->
    kept r l = filter (fun p => insideb le lt (getPos p) d) l.
  Proof.
    intros E. induction 1 as [|p l G HG IH]; [reflexivity|]. unfold kept. cbn [filter].
    rewrite insideb_inDomain.
    destruct (dest_spec le lt O getPos di nx ny nz Hgrid Hn p G) as (_ & _ & _ & U).
    rewrite (U _ _ E). fold (kept r l). rewrite IH. reflexivity.
  Qed.

  Lemma kept_blk_all r l : Forall good l -> r < n ->
    Permutation (kept r l ++ concat (map (fun r' => blk r r' l) (seq 0 n))) l.
  Proof.
    intros HG Hr.
    assert (HD : Forall (fun p => dest p < n) l).
    { eapply Forall_impl; [|exact HG]. intros p G.
      destruct (dest_spec le lt O getPos di nx ny nz Hgrid Hn p G) as (_ & H & _). rewrite <- Hranks in H. exact H. }
    etransitivity; [|apply (concat_map_filter_split dest n l HD)].
    rewrite (concat_at (fun r' => blk r r' l) n r Hr), blk_self. cbn [app].
    rewrite (concat_at (fun k => filter (fun a => dest a =? k) l) n r Hr). fold (kept r l).
    assert (E : forall ks, ~ In r ks -> map (fun r' => blk r r' l) ks = map (fun k => filter (fun a => dest a =? k) l) ks).
    { intros ks N. apply map_ext_in. intros k Hk. unfold blk. apply filter_ext. intros a.
      destruct (Nat.eqb_spec (dest a) k) as [->|]; [|apply andb_false_r].
      destruct (Nat.eqb_spec k r) as [->|]; [contradiction|reflexivity]. }
    rewrite !E by (rewrite in_seq; lia). apply Permutation_app_swap_app.
  Qed.

  Lemma sum_rows_cols : sum_list (map (fun r => sum_list (cnts B n r)) (seq 0 n))
    = sum_list (map (fun r => sum_list (rcnts B n r)) (seq 0 n)).
  Proof.
    pose proof (Permutation_length (Permutation_concat_swap (fun s r => B s r) n n)) as H.
    rewrite !concat_length, !map_map in H.
    unfold cnts, rcnts. symmetry.
    etransitivity; [|etransitivity; [exact H|]]; f_equal; apply map_ext; intros k;
      rewrite concat_length, map_map; reflexivity.
  Qed.

  Lemma sum_map_add {A} (f g : A -> nat) l : sum_list (map (fun x => f x + g x) l) = sum_list (map f l) + sum_list (map g l).
  Proof. induction l as [|a l IH]; [reflexivity|]. cbn [map]. rewrite !sum_list_cons, IH. lia. Qed.

  Lemma filter_neg_length {A} (f : A -> bool) l : length (filter f l) + length (filter (fun a => negb (f a)) l) = length l.
  Proof. induction l as [|a l IH]; [reflexivity|]. cbn. destruct (f a); cbn; lia. Qed.

  Lemma exchange_correct junk :
    Forall (fun s => Forall (fun p => inside le lt (getPos p) (di_root di)) (pr_ptcl s)) ranks ->
    exists out, exchangeParticle le lt getPos di junk ranks = Done (Some out) /\
      length out = length ranks /\
      Permutation (concat (map pr_ptcl out)) (concat (map pr_ptcl ranks)) /\
      sum_list (map pr_nsend out) + sum_list (map pr_nrecv ranks)
      = sum_list (map pr_nrecv out) + sum_list (map pr_nsend ranks) /\
      forall r s s' d, nth_error ranks r = Some s -> nth_error out r = Some s' -> nth_error (di_dom di) r = Some d ->
        Forall (fun p => inside le lt (getPos p) d) (pr_ptcl s') /\
        exists arrived,
          pr_ptcl s' = filter (fun p => insideb le lt (getPos p) d) (pr_ptcl s) ++ arrived /\
          pr_nsend s' = pr_nsend s + length (filter (fun p => negb (insideb le lt (getPos p) d)) (pr_ptcl s)) /\
          pr_nrecv s' = pr_nrecv s + length arrived.
  Proof.
    intros HF.
    assert (HG : forall s, s < n -> Forall good (L s)).
    { intros s Hs. rewrite Forall_forall in HF. apply HF. apply nth_In, Hs. }
    assert (EL : ranks = map st (seq 0 n)) by apply map_seq_nth.
    rewrite (exchange_done junk HG). eexists. split; [reflexivity|].
    split; [rewrite map_length, seq_length; reflexivity|]. split; [|split].
    - rewrite map_map. cbn [pr_ptcl].
      replace (map pr_ptcl ranks) with (map L (seq 0 n)) by (rewrite EL, map_map; reflexivity).
      assert (P1 : forall ks, Permutation
          (concat (map (fun r => kept r (L r) ++ recvcol B n r) ks))
          (concat (map (fun r => kept r (L r)) ks) ++ concat (map (recvcol B n) ks))).
      { induction ks as [|k ks IH]; [constructor|]. cbn [map concat]. rewrite <- !app_assoc.
        apply Permutation_app_head. etransitivity; [apply Permutation_app_head, IH|]. apply Permutation_app_swap_app. }
      etransitivity; [apply P1|].
      etransitivity; [apply Permutation_app_head; apply (Permutation_concat_swap (fun s r => B s r) n n)|].
      fold (sendrow B n).
      assert (P2 : forall ks, (forall k, In k ks -> k < n) ->
         Permutation (concat (map (fun r => kept r (L r)) ks) ++ concat (map (sendrow B n) ks)) (concat (map L ks))).
      { induction ks as [|k ks IH]; intros Hk; [constructor|]. cbn [map concat]. rewrite <- app_assoc.
        etransitivity; [apply Permutation_app_head, Permutation_app_swap_app|]. rewrite app_assoc.
        apply Permutation_app; [|apply IH; intros; apply Hk; now right].
        apply kept_blk_all; [apply HG|]; apply Hk; now left. }
      apply P2. intros k Hk. apply in_seq in Hk. lia.
    - rewrite !map_map. cbn [pr_nsend pr_nrecv].
      rewrite !sum_map_add, sum_rows_cols.
      replace (map pr_nsend ranks) with (map (fun r => pr_nsend (st r)) (seq 0 n)) by (rewrite <- (map_map st pr_nsend), <- EL; reflexivity).
      replace (map pr_nrecv ranks) with (map (fun r => pr_nrecv (st r)) (seq 0 n)) by (rewrite <- (map_map st pr_nrecv), <- EL; reflexivity).
      lia.
    - intros r s s' d Es Es' Ed.
      assert (Hr : r < n) by (apply nth_error_Some; congruence).
      rewrite nth_error_map_seq in Es' by assumption.
      assert (E' : s' = {| pr_ptcl := kept r (L r) ++ recvcol B n r;
           pr_nsend := pr_nsend (st r) + sum_list (cnts B n r);
           pr_nrecv := pr_nrecv (st r) + sum_list (rcnts B n r) |}) by congruence.
      assert (Est : st r = s) by (unfold st; apply nth_error_nth, Es).
      subst s'. cbn [pr_ptcl pr_nsend pr_nrecv].
      assert (AR : forall p, In p (recvcol B n r) -> good p /\ dest p = r).
      { intros p Hp. unfold recvcol in Hp. apply in_concat in Hp. destruct Hp as (b & Hb & Hp).
        apply in_map_iff in Hb. destruct Hb as (k & <- & Hk). apply in_seq in Hk.
        unfold B, blk in Hp. apply filter_In in Hp. destruct Hp as (Hp & Ht). apply andb_true_iff in Ht.
        split; [|apply Nat.eqb_eq, Ht]. assert (HGk := HG k ltac:(lia)). rewrite Forall_forall in HGk. apply HGk, Hp. }
      split.
      + apply Forall_forall. intros p Hp.
        assert (GD : good p /\ dest p = r).
        { apply in_app_iff in Hp. destruct Hp as [Hp|Hp]; [|apply AR, Hp].
          unfold kept in Hp. apply filter_In in Hp. destruct Hp as (Hp & Ht). apply Nat.eqb_eq in Ht.
          split; [|exact Ht]. assert (HGr := HG r Hr). rewrite Forall_forall in HGr. apply HGr, Hp. }
        destruct GD as (G & D).
        destruct (dest_spec le lt O getPos di nx ny nz Hgrid Hn p G) as (_ & _ & (d' & E' & I) & _).
        rewrite D in E'. assert (d' = d) by congruence. subst d'. exact I.
      + exists (recvcol B n r). rewrite <- Est. split.
        * f_equal. apply (kept_inside r d); [exact Ed|apply HG, Hr].
        * split; [|f_equal; apply rcnts_sum].
          f_equal.
          assert (KB := Permutation_length (kept_blk_all r (L r) (HG r Hr) Hr)).
          rewrite app_length, concat_length, map_map in KB. fold (cnts B n r) in KB.
          rewrite (kept_inside r d _ Ed (HG r Hr)) in KB.
          pose proof (filter_neg_length (fun p => insideb le lt (getPos p) d) (L r)) as FN.
          fold (L r). change (cnts B n r) with (map (fun x => length (blk r x (L r))) (seq 0 n)). lia.
  Qed.

  Lemma exchange_abort junk :
    Forall (fun s => Forall (fun p => inside le lt (getPos p) (di_root di) \/ beyond lt (getPos p) (di_root di)) (pr_ptcl s)) ranks ->
    Exists (fun s => Exists (fun p => beyond lt (getPos p) (di_root di)) (pr_ptcl s)) ranks ->
    exchangeParticle le lt getPos di junk ranks = Done None.
  Proof.
    intros HF HE. unfold exchangeParticle. fold n.
    assert (PK : forall r, r < n -> exists o, pack le lt getPos di n r junk (L r) = Done o /\
       (o = None <-> Exists (fun p => beyond lt (getPos p) (di_root di)) (L r))).
    { intros r Hr.
      assert (Hm : exists mine, nth_error (di_dom di) r = Some mine).
      { destruct (nth_error (di_dom di) r) eqn:E; [eauto|]. apply nth_error_None in E. rewrite <- Hranks in E. fold n in E. lia. }
      destruct Hm as (mine & Em).
      assert (HFr : Forall (fun p => good p \/ beyond lt (getPos p) (di_root di)) (L r)).
      { rewrite Forall_forall in HF. apply HF. apply nth_In, Hr. }
      assert (DE : {Exists (fun p => beyond lt (getPos p) (di_root di)) (L r)} + {~ Exists (fun p => beyond lt (getPos p) (di_root di)) (L r)}).
      { apply Exists_dec. intros p. destruct (notOverlapped lt (di_root di) (getPos p)) eqn:E; [left|right]; rewrite beyond_notOverlapped; congruence. }
      destruct DE as [YE|NE].
      - exists None. split; [|tauto]. unfold pack. unfold mread at 1. rewrite Em. cbn [obind].
        rewrite (repeat_map_seq 0 n 0). unfold n. rewrite Hranks.
        rewrite (count_abort le lt O getPos di nx ny nz Hgrid Hn r mine (L r) Em); [reflexivity| |].
        + eapply Forall_impl; [|exact HFr]. intros p [H|H]; [now left|right; apply beyond_notOverlapped, H].
        + eapply Exists_impl; [|exact YE]. intros p. apply beyond_notOverlapped.
      - assert (HGr : Forall good (L r)).
        { apply Forall_Exists_neg in NE. rewrite Forall_forall in *. intros p Hp.
          destruct (HFr p Hp) as [G|Bd]; [exact G|]. exfalso. apply (NE p Hp), Bd. }
        eexists. split.
        + unfold n. rewrite Hranks. apply (pack_spec le lt O getPos di nx ny nz Hgrid Hn r junk (L r)); [rewrite <- Hranks; exact Hr|exact HGr].
        + split; [discriminate|contradiction]. }
    assert (OM : forall ks, (forall k, In k ks -> k < n) -> exists os,
       omap (fun r => do s <- mread ranks r; pack le lt getPos di n r junk (pr_ptcl s)) ks = Done os /\
       (Exists (fun r => Exists (fun p => beyond lt (getPos p) (di_root di)) (L r)) ks ->
        existsb (fun o : option (@packed P) => match o with None => true | _ => false end) os = true)).
    { induction ks as [|k ks IH]; intros Hk; [exists []; split; [reflexivity|intros H; inversion H]|].
      destruct IH as (os & E & HX); [intros; apply Hk; now right|].
      destruct (PK k (Hk k (or_introl eq_refl))) as (o & Eo & Ho).
      exists (o :: os). cbn [omap]. rewrite mread_rank by (apply Hk; now left). cbn [obind]. fold (L k). rewrite Eo, E. cbn [obind].
      split; [reflexivity|]. intros H. cbn [existsb]. inversion H as [? ? HH|? ? HH].
      - destruct o; [|reflexivity]. exfalso. assert (Some p = None) by (apply Ho; assumption). discriminate.
      - rewrite (HX HH). destruct o; reflexivity. }
    destruct (OM (seq 0 n)) as (os & E & HX); [intros k Hk; apply in_seq in Hk; lia|].
    rewrite E. cbn [obind]. rewrite HX; [reflexivity|].
    rewrite Exists_exists in HE. destruct HE as (s & Hs & Hp). apply (In_nth _ _ d0) in Hs. destruct Hs as (k & Hk & Ek).
    apply Exists_exists. exists k. split; [apply in_seq; fold n in Hk; lia|]. unfold L, st. rewrite Ek. exact Hp.
  Qed.
End Exchange.

(** ** Finite doubles are totally ordered *)
Lemma finite_doubles_order : coord_order
  (fun a b : {x : f64 | f_finite x = true} => fle (proj1_sig a) (proj1_sig b))
  (fun a b => flt (proj1_sig a) (proj1_sig b)).
Proof.
  split.
  - intros [a Ha] [b Hb]. cbn. rewrite (fle_R a b Ha Hb), (fle_R b a Hb Ha).
    destruct (Rle_or_lt (B2R a) (B2R b)); [now left|right; now apply Rlt_le].
  - intros [a Ha] [b Hb] [c Hc]. cbn. rewrite (fle_R a b Ha Hb), (fle_R b c Hb Hc), (fle_R a c Ha Hc).
    apply Rle_trans.
  - intros [a Ha] [b Hb]. cbn. unfold flt, fle.
    rewrite (Bltb_correct prec64 emax64 a b Ha Hb), (Bleb_correct prec64 emax64 b a Hb Ha).
    symmetry. apply negb_Rlt_bool.
Qed.
