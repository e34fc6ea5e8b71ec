(** Queues filled by the threads of a parallel loop. *)
From Coq Require Import List Arith Lia Permutation.
From Verif Require Import Outcome ListUtil MPIProofs BoundaryModel.
Import ListNotations.

Lemma map_nth_some : forall {S B : Type} (ss : list S) (f : S -> list B),
  map (fun i => match nth_error ss i with Some s => f s | None => [] end) (seq 0 (length ss)) = map f ss.
Proof.
  intros S B ss f. induction ss as [|a ss IH]; [reflexivity|]. cbn [length seq map]. rewrite <- seq_shift, map_map.
  cbn [nth_error]. f_equal. exact IH.
Qed.

(** queues *)
Lemma pushQueue_perm : forall {A} (p : list (list A)) t xs, t < length p ->
  exists p', pushQueue p t xs = Done p' /\ length p' = length p /\ Permutation (concat p') (concat p ++ xs).
Proof.
  intros A p t xs Ht. unfold pushQueue, mread. destruct (nth_error p t) as [q|] eqn:E.
  - cbn [obind]. unfold mwrite. apply Nat.ltb_lt in Ht. rewrite Ht. apply Nat.ltb_lt in Ht.
    eexists. split; [reflexivity|]. destruct (nth_error_split _ _ E) as (l1 & l2 & -> & Hl). subst t.
    rewrite firstn_app, Nat.sub_diag, firstn_all, firstn_O, app_nil_r.
    replace (skipn (S (length l1)) (l1 ++ q :: l2)) with l2.
    + split; [rewrite !app_length; reflexivity|]. rewrite !concat_app. cbn [concat]. rewrite <- !app_assoc.
      apply Permutation_app_head, Permutation_app_head, Permutation_app_comm.
    + rewrite skipn_app. rewrite skipn_all2 by lia. replace (S (length l1) - length l1)%nat with 1%nat by lia. reflexivity.
  - apply nth_error_None in E. lia.
Qed.

Lemma pushAll_perm : forall {A} (work : list (nat * list A)) p, Forall (fun w => fst w < length p) work ->
  exists p', pushAll p work = Done p' /\ length p' = length p /\ Permutation (concat p') (concat p ++ flat_map snd work).
Proof.
  intros A. unfold pushAll. induction work as [|[t xs] work IH]; intros p H.
  - exists p. cbn. rewrite app_nil_r. auto.
  - inversion H as [|? ? Ht Hw]; subst. cbn [ofold fst snd] in *.
    destruct (pushQueue_perm p t xs Ht) as (p1 & E1 & L1 & P1). rewrite E1. cbn [obind].
    destruct (IH p1) as (p2 & E2 & L2 & P2). { rewrite L1. exact Hw. }
    exists p2. split; [exact E2|]. split; [lia|]. cbn [flat_map snd].
    rewrite P2, P1, <- app_assoc. apply Permutation_refl.
Qed.

(** work of a loop over objects *)
Lemma loop_work : forall {S B : Type} (ss : list S) (f : S -> list B) (who : nat -> nat) order, Permutation order (seq 0 (length ss)) ->
  exists work, omap (fun i => do s <- mread ss i; Done (who i, f s)) order = Done work /\
    Permutation (flat_map snd work) (flat_map f ss) /\ (forall t, (forall i, i < length ss -> who i < t) -> Forall (fun w => fst w < t) work).
Proof.
  intros S B ss f who order HP.
  assert (Hin : forall i, In i order -> i < length ss).
  { intros i Hi. apply (Permutation_in _ HP) in Hi. apply in_seq in Hi. lia. }
  set (g := fun i => (who i, match nth_error ss i with Some s => f s | None => [] end)).
  exists (map g order). split; [|split].
  - clear HP. induction order as [|i order IH]; [reflexivity|]. cbn [omap map].
    rewrite IH by (intros; apply Hin; right; assumption). specialize (Hin i (or_introl eq_refl)).
    unfold g, mread. destruct (nth_error ss i) eqn:E; [reflexivity|]. apply nth_error_None in E. lia.
  - eapply Permutation_trans; [exact (Permutation_flat_map snd (Permutation_map g HP))|]. clear HP Hin order.
    rewrite (flat_map_concat_map snd), map_map, (flat_map_concat_map f). apply Permutation_refl'. f_equal. exact (map_nth_some ss f).
  - intros t Ht. apply Forall_forall. intros w Hw. apply in_map_iff in Hw. destruct Hw as (i & <- & Hi). cbn. apply Ht, Hin, Hi.
Qed.
