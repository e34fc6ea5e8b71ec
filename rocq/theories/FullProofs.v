(** The blocks of a step. *)
From Coq Require Import List Arith ZArith Lia Bool Permutation Reals Lra FunctionalExtensionality.
From Flocq Require Import Core.
From Verif Require CallSort.
From Verif Require Import Outcome ListUtil Arith ParticleModel VecModel VecSpec VecProofs PointsModel SylModel SylSpec IndexModel IndexSpec ConModel ConSpec BoundaryModel BoundarySpec BoundaryProofs LinkModel LinkSpec LinkProofs QueueProofs NearModel NearSpec NearProofs StepModel StepSpec TreeModel TreeSpec LetModel LetSpec CallModel CallSpec PipeModel PipeSpec PipeProofs PipeCollect CallContact QPModel QPSpec WholeModel WholeSpec WholeSolve WholeStep WholeMain FullSpec.
Import ListNotations.
Local Open Scope R_scope.

Lemma pushQueue_len {A} (p : list (list A)) t xs p' : pushQueue p t xs = Done p' -> length p' = length p.
Proof.
  intros E. destruct (Nat.lt_ge_cases t (length p)) as [H|H].
  - destruct (pushQueue_perm p t xs H) as (p1 & E1 & L & _). rewrite E in E1. injection E1 as <-. exact L.
  - exfalso. unfold pushQueue, mread in E. apply nth_error_None in H. rewrite H in E. discriminate E.
Qed.

(** ** Nothing depends on the forces and velocities *)

Definition twin (s s' : syl) : Prop := exists m, s' = withMot (N := R_arith) s m.

Lemma twin_map {B} (f : syl -> B) : (forall s m, f (withMot (N := R_arith) s m) = f s) -> forall ss ss', Forall2 twin ss ss' -> map f ss' = map f ss.
Proof. intros H. induction 1 as [|s s' l l' (m & ->)]; [reflexivity|]. cbn [map]. rewrite H, IHForall2. reflexivity. Qed.
Lemma same_map {B} (f : syl -> B) : (forall s m, f (withMot (N := R_arith) s m) = f s) -> forall ranks ranks', same_bodies ranks ranks' -> map (fun p => map f (pr_ptcl p)) ranks' = map (fun p => map f (pr_ptcl p)) ranks.
Proof.
  intros H. induction 1 as [|p p' l l' (ss & -> & F)]; [reflexivity|]. cbn [map]. rewrite IHForall2. f_equal. cbn [withPtcl pr_ptcl]. exact (twin_map f H _ _ F).
Qed.
Lemma mread_nth {A} (l : list A) i : mread l i = match nth_error l i with Some a => Done a | None => UB end.
Proof. reflexivity. Qed.
Lemma mread_twin {B} (f : syl -> outcome B) : (forall s m, f (withMot (N := R_arith) s m) = f s) -> forall ss ss', Forall2 twin ss ss' -> forall i, obind (mread ss' i) f = obind (mread ss i) f.
Proof.
  intros H. intros ss ss' F i. rewrite !mread_nth. revert i. induction F as [|s s' l l' (m & ->) F IH]; intros i; [reflexivity|]. destruct i as [|i]; cbn [nth_error]; [apply H|apply IH].
Qed.
Lemma mread_same {B} (f : ranked -> outcome B) : (forall p ss, Forall2 twin (pr_ptcl p) ss -> f (withPtcl p ss) = f p) -> forall ranks ranks', same_bodies ranks ranks' -> forall i, obind (mread ranks' i) f = obind (mread ranks i) f.
Proof.
  intros H. intros ss ss' F i. rewrite !mread_nth. revert i. induction F as [|s s' l l' (m & -> & G) F IH]; intros i; [reflexivity|]. destruct i as [|i]; cbn [nth_error]; [apply H; exact G|apply IH].
Qed.

Lemma boundary_twin (buf : R) plan bs ss ss' p : Forall2 twin ss ss' -> collectBoundaryCollision (N := R_arith) buf plan bs ss' p = collectBoundaryCollision (N := R_arith) buf plan bs ss p.
Proof.
  intros F. unfold collectBoundaryCollision. f_equal. extensionality q. extensionality bp. f_equal. apply omap_ext_in. intros i _. apply (mread_twin (fun s => Done (snd (snd bp) i, checkObject (N := R_arith) buf (fst bp) s))); [reflexivity|exact F].
Qed.
Lemma link_twin fuel (lk : lconfig) fresh junk dir data0 lm ss ss' order who p : Forall2 twin ss ss' ->
  collectLinkBilateral (N := R_arith) fuel PI lk fresh junk dir data0 lm ss' order who p = collectLinkBilateral (N := R_arith) fuel PI lk fresh junk dir data0 lm ss order who p.
Proof.
  intros F. unfold collectLinkBilateral.
  rewrite (twin_map (fun s => length (nexts lm (s_gid s))) (fun _ _ => eq_refl) _ _ F).
  rewrite !flat_map_concat_map. rewrite (twin_map (fun s => nexts lm (s_gid s)) (fun _ _ => eq_refl) _ _ F).
  f_equal. apply omap_ext_in. intros i _. f_equal. unfold linkIteration.
  apply (mread_twin (fun syI => obind (mread (psum (map (fun s => length (nexts lm (s_gid s))) ss)) i) _)); [|exact F]. intros s m. reflexivity.
Qed.

Section Collect.
  Context {Fo : Type} (func : list (item R_arith ep) -> list (item R_arith ep) -> list Fo -> list Fo) (clear : Fo -> Fo) (q : nat -> cast R_arith ep Fo) (threads : nat) (pa : vec bool) (lim grpLimit : Z) (b : domains R_arith)
    (buf : R) (bs : list (boundary R_arith)) (lk : lconfig) (fresh : nearEP R_arith) (junk : Z -> nearEP R_arith) (dir0 : list (Z * nearEP R_arith)) (data0 : nat -> list (nearEP R_arith)) (g : nat -> dealing).
  Notation collect fuel fuel' := (collectConstraints (N := R_arith) (collectPairCollision (N := R_arith) func clear q Ztrunc PI threads fuel pa lim grpLimit b) fuel' PI buf bs lk fresh junk dir0 data0 g).

  Lemma same_collect fuel fuel' ranks ranks' : same_bodies ranks ranks' -> collect fuel fuel' ranks' = collect fuel fuel' ranks.
  Proof using.
    intros S. unfold collectConstraints, collectPairCollision. rewrite (same_map (treeItem (N := R_arith)) (fun _ _ => eq_refl) _ _ S).
    unfold publishNear. rewrite (same_map (fun s => (s_gid s, copyFromFP (N := R_arith) s)) (fun _ _ => eq_refl) _ _ S).
    assert (L : length ranks' = length ranks) by (symmetry; exact (CallSort.Forall2_len _ _ _ S)). rewrite L.
    f_equal. extensionality pools. f_equal.
    - apply omap_ext_in. intros r _. apply (mread_same (fun p => obind (mread pools r) _)); [|exact S]. intros p ss F. f_equal. extensionality w. apply boundary_twin. exact F.
    - extensionality pools'. f_equal. apply omap_ext_in. intros r _. apply (mread_same (fun p => obind (mread pools' r) _)); [|exact S]. intros p ss F. f_equal. extensionality w. apply link_twin. exact F.
  Qed.

  Context (m : nat) (ranks : list ranked) (ls : list (Z * Z)).
  Hypotheses (Hp : prepared pa m b ranks) (Hl : linkable (b_root b) lk ls ranks)
    (Hq : forall r, any_cast (length ranks) threads lim (nth r (PipeSpec.sizes ranks) 0%nat) (q r)) (Hlim : (1 <= lim <= grpLimit)%Z)
    (Hf : forall epi epj fs, length fs = length epi -> length (func epi epj fs) = length fs)
    (Hg : forall r p, nth_error ranks r = Some p -> any_dealing threads (length (pr_ptcl p)) bs ls (g r)).

  Lemma queues fuel pools r pool : collectPairCollision (N := R_arith) func clear q Ztrunc PI threads fuel pa lim grpLimit b ranks = Done pools -> nth_error pools r = Some pool -> length pool = threads.
  Proof using.
    unfold collectPairCollision. destruct (b_doms b); [|discriminate]. destruct (calcForceAll _ _ _ _ _ _ _ _ _ _ _) as [res| |]; try discriminate. cbn [obind]. intros E Hr.
    apply omap_Done in E. destruct (CallSort.Forall2_nth _ _ _ E r pool Hr) as (x & Hx & Ex). clear E. rewrite <- (repeat_length (@nil (block R_arith)) threads). revert Ex. generalize (repeat (@nil (block R_arith)) threads). unfold nearCalls.
    match goal with |- context [ofold _ ?C _] => generalize C end.
    intros calls. clear. induction calls as [|c calls IH]; intros p0 E; [injection E as <-; reflexivity|]. cbn [ofold] in E.
    destruct (nearCall _ _ _ _ _) as [p1| |] eqn:E1; try discriminate E. cbn [obind] in E. rewrite (IH _ E). clear E IH. unfold nearCall in E1. revert p0 E1.
    induction (list_prod (fst (snd c)) (snd (snd c))) as [|ij l IH]; intros p0 E; [injection E as <-; reflexivity|]. cbn [ofold] in E. destruct (nearPair _ _ _) as [l1| |]; try discriminate E. cbn [obind] in E. destruct (pushQueue _ _ _) as [p2| |] eqn:E2; try discriminate E. cbn [obind] in E.
    rewrite (IH _ E). clear - E2. exact (pushQueue_len _ _ _ _ E2).
  Qed.

  Lemma boxed_in s : In s (objects ranks) -> LetSpec.inside (b_root b) (spos s).
  Proof using Hp.
    intros Hs. destruct (pd_settled _ _ _ _ Hp) as (nx & ny & nz & doms & _ & _ & _ & L & S). apply in_concat in Hs. destruct Hs as (l & Hl' & Hs). apply in_map_iff in Hl'. destruct Hl' as (p & <- & Hl'). apply In_nth_error in Hl'. destruct Hl' as (r & Hr).
    destruct (nth_error doms r) as [d|] eqn:Ed; [|exfalso; apply nth_error_None in Ed; apply nth_error_lt in Hr; lia]. exact (proj1 (proj2 (S r p d s Hr Ed Hs))).
  Qed.
  Lemma axis_pick d : (d < 3)%nat -> exists c : vec R -> R, In c coords /\ forall v, vget v d = c v.
  Proof using. intros Hd. destruct d as [|[|[|d]]]; [exists vx|exists vy|exists vz|lia]; split; cbn; auto. Qed.
  Lemma lk_box : LinkSpec.box_ok lk.
  Proof using Hp Hl.
    intros d Hd E. destruct (lb_box _ _ _ _ Hl d Hd E) as (E1 & E2). rewrite E1, E2. destruct (axis_pick d Hd) as (c & Hc & Ec). rewrite !Ec. destruct (three_axes pa c Hc) as (bb & Hb). exact (proj1 (pd_box _ _ _ _ Hp bb c Hb)).
  Qed.
  Lemma lk_in : Forall (fun s => LinkSpec.in_box lk (spos s)) (objects ranks).
  Proof using Hp Hl.
    apply Forall_forall. intros s Hs d Hd E. destruct (lb_box _ _ _ _ Hl d Hd E) as (E1 & E2). rewrite E1, E2. destruct (axis_pick d Hd) as (c & Hc & Ec). rewrite !Ec. exact (boxed_in s Hs c Hc).
  Qed.

  Lemma collect_all : exists n, forall fuel fuel', (n <= fuel)%nat -> (n <= fuel')%nat -> exists pools, collect fuel fuel' ranks = Done (Some pools) /\ length pools = length ranks /\
    forall r p pool, nth_error ranks r = Some p -> nth_error pools r = Some pool -> length pool = threads /\ gathered pa (b_root b) buf bs lk ls ranks (pr_ptcl p) (concat pool).
  Proof using Hp Hl Hq Hlim Hf Hg.
    destruct (collect_ok pa m b ranks (pd_box _ _ _ _ Hp) (pd_settled _ _ _ _ Hp) (pd_fit _ _ _ _ Hp) (pd_far _ _ _ _ Hp) (pd_room _ _ _ _ Hp) func clear q threads lim grpLimit Hq Hlim Hf) as (n1 & H1).
    destruct (links_ok lk fresh junk dir0 (map pr_ptcl ranks) ls lk_box (lb_ids _ _ _ _ Hl) lk_in (lb_known _ _ _ _ Hl)) as (n2 & H2).
    exists (n1 + n2)%nat. intros fuel fuel' F1 F2. destruct (H1 fuel ltac:(lia)) as (pools & E1 & L1 & C1). unfold collectConstraints. rewrite E1. cbn [obind].
    (* walls *)
    destruct (omap_seq (fun r p => do q0 <- mread pools r; collectBoundaryCollision (N := R_arith) buf (g_plan (g r)) bs (pr_ptcl p) q0)
      (fun r p y => length y = threads /\ exists pool, nth_error pools r = Some pool /\ Permutation (concat y) (concat pool ++ flat_map (fun b => flat_map (checkObject (N := R_arith) buf b) (pr_ptcl p)) bs)) ranks) as (pools2 & E2 & L2 & C2).
    { intros r p Hr. destruct (nth_error pools r) as [pool|] eqn:Ep; [|exfalso; apply nth_error_None in Ep; apply nth_error_lt in Hr; lia]. unfold mread. rewrite Ep. cbn [obind]. pose proof (queues _ _ _ _ E1 Ep) as LT. destruct (Hg r p Hr) as (G1 & G2 & _).
      destruct (collect_perm (N := R_arith) buf (g_plan (g r)) bs (pr_ptcl p) pool G1) as (y & Ey & Ly & Py); [rewrite LT; exact G2|]. exists y. split; [exact Ey|]. split; [lia|]. exists pool. auto. }
    match goal with |- context [obind ?X _] => replace X with (Done pools2) by (symmetry; exact E2) end. cbn [obind].
    destruct (omap_seq (fun r p => do q0 <- mread pools2 r; collectLinkBilateral (N := R_arith) fuel' PI lk fresh junk (buildIndex dir0 (map (fun p => publishNear (N := R_arith) (pr_ptcl p)) ranks)) (data0 r) (g_links (g r)) (pr_ptcl p) (g_order (g r)) (g_who (g r)) q0)
      (fun r p y => exists y', y = Some y' /\ length y' = threads /\ exists pool2 js ks, nth_error pools2 r = Some pool2 /\ Permutation (concat y') (concat pool2 ++ ks) /\ Permutation js (links_of (pr_ptcl p) ls) /\ Forall2 (link_made lk (objects ranks)) js ks) ranks) as (pools3 & E3 & L3 & C3).
    { intros r p Hr. destruct (nth_error pools2 r) as [pool|] eqn:Ep; [|exfalso; apply nth_error_None in Ep; apply nth_error_lt in Hr; lia]. unfold mread. rewrite Ep. cbn [obind]. destruct (C2 r p pool Hr Ep) as (_ & LT & _). destruct (Hg r p Hr) as (_ & _ & G3 & G4 & G5).
      destruct (H2 fuel' ltac:(lia) (pr_ptcl p) (g_links (g r)) (data0 r) (g_order (g r)) (g_who (g r)) pool) as (y & js & ks & Ey & Ly & Py & Pj & Fj); [apply in_map; eapply nth_error_In; exact Hr|exact G5|exact G3|rewrite LT; exact G4|].
      exists (Some y). split; [rewrite map_map in Ey; exact Ey|]. exists y. split; [reflexivity|]. split; [lia|]. exists pool, js, ks. auto. }
    match goal with |- context [obind ?X _] => replace X with (Done pools3) by (symmetry; exact E3) end. cbn [obind].
    assert (exists out, pools3 = map Some out) as (out & ->).
    { clear E3. assert (A : forall y, In y pools3 -> exists z, y = Some z). { intros y Hy. apply In_nth_error in Hy. destruct Hy as (r & Hy). destruct (nth_error ranks r) as [p|] eqn:Ep; [|exfalso; apply nth_error_None in Ep; apply nth_error_lt in Hy; lia]. destruct (C3 r p y Ep Hy) as (_ & z & Hz & _). eauto. }
      clear - A. induction pools3 as [|y l IH]; [exists []; reflexivity|]. destruct (A y (or_introl eq_refl)) as (z & ->). destruct IH as (o & ->); [intros; apply A; right; assumption|]. exists (z :: o). reflexivity. }
    rewrite allSome_map. exists out. split; [reflexivity|]. split; [rewrite map_length in L3; exact L3|]. intros r p pool Hr Ho.
    destruct (C3 r p (Some pool) Hr (map_nth_error _ _ _ Ho)) as (_ & y' & Hy & LT & pool2 & js & ks & N2 & P2 & Pj & Fj). injection Hy as <-. split; [exact LT|].
    destruct (C2 r p pool2 Hr N2) as (_ & _ & pool1 & N1 & P1). destruct (C1 r _ pool1 (map_nth_error _ _ _ Hr) N1) as (blocks & PB & CB).
    exists blocks, (flat_map (fun b => flat_map (checkObject (N := R_arith) buf b) (pr_ptcl p)) bs), ks, js. split; [|auto]. rewrite P2, P1, PB, app_assoc. reflexivity.
  Qed.

  Notation n := (length (objects ranks)).
  Lemma index_at i s : nth_error (objects ranks) i = Some s -> s_index s = Z.of_nat i.
  Proof using Hp.
    intros H. pose proof (map_nth_error (fun s : syl => s_index s) _ _ H) as E. rewrite (pd_index _ _ _ _ Hp) in E. unfold IndexSpec.range in E. apply nth_error_map_some in E. destruct E as (j & Ej & E).
    pose proof (nth_error_lt _ _ _ H) as L. rewrite nth_error_seq in Ej by exact L. injection Ej as <-. lia.
  Qed.
  Lemma index_in s : In s (objects ranks) -> (0 <= s_index s < Z.of_nat n)%Z.
  Proof using Hp. intros H. apply In_nth_error in H. destruct H as (i & H). rewrite (index_at i s H). apply nth_error_lt in H. lia. Qed.

  Lemma skin_small s : In s (objects ranks) -> 0 <= skin (rod s) <= 2 ^ 100 /\ 0 <= radius s <= 2 ^ 100.
  Proof using Hp.
    intros H. destruct (pd_fit _ _ _ _ Hp s H) as (_ & F1 & F2 & F3 & F4 & F5 & _ & F6 & _ & _ & F7). unfold reach in F6.
    assert (A : slength s + 2 * radius s <= 2 ^ 100) by (pose proof (Rmax_l (slength s + 2 * radius s) (3 * lengthCol s)); nra).
    assert (B : 3 * lengthCol s <= 2 ^ 100) by (pose proof (Rmax_r (slength s + 2 * radius s) (3 * lengthCol s)); nra).
    unfold skin, rod. cbn [copyFromFP e_lengthCol e_radiusCol]. change (num R_arith) with R in *. split; [|lra]. destruct (Rlt_dec _ _); destruct F7; lra.
  Qed.
  Lemma most_big : 2 ^ 100 + 2 ^ 100 + 2 ^ 100 <= most.
  Proof using.
    unfold most. pose proof (bpow_le radix2 100 971 ltac:(lia)) as H. rewrite bpow_powerRZ in H. change (powerRZ (IZR radix2) 100) with (2 ^ 100) in H. lra.
  Qed.

  Lemma pair_posed pairs ss k : (forall s, In s ss -> In s (objects ranks)) -> contacts pa (b_root b) (tree_items ranks) (map (treeItem (N := R_arith)) ss) pairs -> In k pairs -> posed n k /\ opposed k.
  Proof using Hp.
    intros Hss (ts & _ & F & _) Hk. apply In_nth_error in Hk. destruct Hk as (j & Hj). destruct (CallSort.Forall2_nth _ _ _ F _ _ Hj) as ((i & ((r & i') & z)) & _ & _ & e & l & f & P & Q & A1 & A2 & A3 & _ & _ & _ & C).
    destruct A1 as (_ & A1). apply nth_error_map_some in A1. destruct A1 as (s & Hs & ->). apply nth_error_In, Hss in Hs. destruct A3 as (_ & A3). apply nth_error_In in A3. apply nth_error_In in A2.
    destruct (tree_item ranks l f A2 A3) as (_ & _ & u & _ & _ & -> & Hu). unfold contact_block in C. cbv zeta in C. destruct C as (_ & C1 & _ & _ & C2 & C3 & _ & _ & C4 & C5 & _ & _ & _ & _ & C6 & _).
    split; [split; [|split]|].
    - rewrite C4. exact (index_in s Hs).
    - intros _. rewrite C5. exact (index_in u Hu).
    - unfold least. rewrite C3, C1. pose proof most_big. pose proof (pow_le 2 100 ltac:(lra)). destruct (skin_small s Hs) as (S1 & _). destruct (skin_small u Hu) as (S2 & _). pose proof (dist3_nonneg P Q).
      split; [apply Rmax_l|apply Rmax_lub; [lra|]]. change (skin (rod s) + skin (rod u) - dist3 P Q <= most). lra.
    - intros _. rewrite C6. veq; ring.
  Qed.

  Lemma wall_kind bb s k : In k (checkObject (N := R_arith) buf bb s) -> bilateral k = false.
  Proof using.
    intros Hk. assert (A : exists qq rad, In k (checkEnd (N := R_arith) buf bb s qq rad)).
    { unfold checkObject in Hk. destruct (isSphere true s); [eauto|]. apply in_app_or in Hk. destruct Hk; eauto. }
    destruct A as (qq & rad & A). unfold checkEnd in A. destruct (project bb qq) as (P, delta). cbv zeta in A.
    match type of A with context [if ?c then _ else _] => destruct c end; [destruct A as [<-|[]]; reflexivity|]. match type of A with context [if ?c then _ else _] => destruct c end; [destruct A as [<-|[]]; reflexivity|destruct A].
  Qed.
  Lemma wall_posed bb s k : In s (objects ranks) -> In k (checkObject (N := R_arith) buf bb s) -> posed n k /\ opposed k.
  Proof using Hp.
    intros Hs Hk. assert (A : exists qq rad, In k (checkEnd (N := R_arith) buf bb s qq rad)).
    { unfold checkObject in Hk. destruct (isSphere true s); [eauto|]. apply in_app_or in Hk. destruct Hk; eauto. }
    destruct A as (qq & rad & A). unfold checkEnd in A. destruct (project bb qq) as (P, delta). cbv zeta in A.
    assert (B : globalIndexI k = s_index s /\ oneSide k = true /\ bilateral k = false /\ gamma k = 0).
    { match type of A with context [if ?c then _ else _] => destruct c end; [destruct A as [<-|[]]; repeat split|]. match type of A with context [if ?c then _ else _] => destruct c end; [destruct A as [<-|[]]; repeat split|destruct A]. }
    destruct B as (B1 & B2 & B3 & B4). split; [split; [|split]|].
    - rewrite B1. apply index_in. exact Hs.
    - rewrite B2. discriminate.
    - unfold least. rewrite B3, B4. pose proof most_big. pose proof (pow_le 2 100 ltac:(lra)). lra.
    - unfold opposed. rewrite B2. discriminate.
  Qed.

  Lemma link_posed j k : link_made lk (objects ranks) j k -> posed n k /\ opposed k.
  Proof using Hp Hl.
    intros (a & u & Ha & Hu & _ & _ & cb & _ & C). cbv zeta in C. destruct C as (_ & C1 & _ & _ & C2 & C3 & _ & _ & C4 & C5 & _ & _ & _ & _ & C6 & _).
    split; [split; [|split]|].
    - rewrite C4. apply index_in. exact Ha.
    - intros _. rewrite C5. apply index_in. exact Hu.
    - unfold least. rewrite C3, C1. pose proof most_big. pose proof (pow_le 2 100 ltac:(lra)). destruct (skin_small a Ha) as (_ & S1). destruct (skin_small u Hu) as (_ & S2). pose proof (lb_gap _ _ _ _ Hl).
      match goal with |- context [dist3 ?A ?B] => pose proof (dist3_nonneg A B) end. change (num R_arith) with R in *. split; [apply Rle_trans with 0; [lra|apply Rmax_l]|apply Rmax_lub; lra].
    - intros _. rewrite C6. veq; ring.
  Qed.

  Lemma rank_in r p s : nth_error ranks r = Some p -> In s (pr_ptcl p) -> In s (objects ranks).
  Proof using. intros Hr Hs. apply in_concat. exists (pr_ptcl p). split; [apply in_map; eapply nth_error_In; exact Hr|exact Hs]. Qed.

  Lemma gathered_posed r p blocks k : nth_error ranks r = Some p -> gathered pa (b_root b) buf bs lk ls ranks (pr_ptcl p) blocks -> In k blocks -> posed n k /\ opposed k.
  Proof using Hp Hl.
    intros Hr (pairs & walls & links & js & P & C & -> & _ & F) Hk. apply (Permutation_in _ P) in Hk. apply in_app_or in Hk. destruct Hk as [Hk|Hk]; [|apply in_app_or in Hk; destruct Hk as [Hk|Hk]].
    - apply (pair_posed pairs (pr_ptcl p)); [intros s Hs; exact (rank_in r p s Hr Hs)|exact C|exact Hk].
    - apply in_flat_map in Hk. destruct Hk as (bb & _ & Hk). apply in_flat_map in Hk. destruct Hk as (s & Hs & Hk). apply (wall_posed bb s); [exact (rank_in r p s Hr Hs)|exact Hk].
    - apply In_nth_error in Hk. destruct Hk as (i & Hi). destruct (CallSort.Forall2_nth _ _ _ F _ _ Hi) as (j & _ & H). exact (link_posed j k H).
  Qed.

  Lemma all_posed (pools : list (pool R_arith)) : length pools = length ranks -> (forall r p pool, nth_error ranks r = Some p -> nth_error pools r = Some pool -> length pool = threads /\ gathered pa (b_root b) buf bs lk ls ranks (pr_ptcl p) (concat pool)) ->
    Forall (posed n) (concat (concat pools)) /\ Forall opposed (concat (concat pools)).
  Proof using Hp Hl.
    intros L H. assert (A : forall k, In k (concat (concat pools)) -> posed n k /\ opposed k).
    { intros k Hk. apply in_concat in Hk. destruct Hk as (qu & Hqu & Hk). apply in_concat in Hqu. destruct Hqu as (pool & Hpool & Hqu). apply In_nth_error in Hpool. destruct Hpool as (r & Hr).
      destruct (nth_error ranks r) as [p|] eqn:Ep; [|exfalso; apply nth_error_None in Ep; apply (Nat.lt_irrefl r); eapply Nat.lt_le_trans; [exact (nth_error_lt _ _ _ Hr)|refine (Nat.le_trans _ _ _ _ Ep); apply Nat.eq_le_incl; exact L]]. destruct (H r p pool Ep Hr) as (_ & G). apply (gathered_posed r p (concat pool)); [exact Ep|exact G|apply in_concat; eauto]. }
    split; apply Forall_forall; intros k Hk; apply (A k Hk).
  Qed.
End Collect.
