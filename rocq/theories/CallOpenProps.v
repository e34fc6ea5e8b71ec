(** C82: the neighbour search of all ranks as a whole, in doubles, when no axis is periodic. *)
From Coq Require Import List Arith ZArith Lia Bool Permutation Reals Lra.
From Flocq Require Import Core BinarySingleNaN.
From Verif Require Import Outcome ListUtil F64 Arith ParticleModel TreeModel TreeSpec TreeProps MortonModel LetModel LetSpec LetProps CallModel CallSpec CallProps CallOpenSpec CallOpenRoot CallOpenProofs.
Import ListNotations.
Local Open Scope Z_scope.

(** in spite of rounding the root cell holds every particle, and each gets a key of 21 octal digits *)
Theorem C82_root_cell : forall (P : Type) root doms (E : list (list (item F_arith P))) deal fuel, arena_open root doms E ->
  (forall r own, nth_error E r = Some own -> Permutation (concat (deal r)) (seq 0 (length own))) ->
  exists cell, setRootCell deal fuel open root E = Done cell /\ forall e, In e (concat E) -> keyed_at (cellKey f_cast cell) (s_pos (i_site e)).
Proof. intros P root doms E deal fuel HW. exact (root_cell_open root doms E HW deal fuel). Qed.
Print Assumptions C82_root_cell.

(** calcForceAll as a whole: every particle is a target of one call, with all particles it sees among the sources, whatever rank they are on, none twice, and its force is what the functor makes of it *)
Theorem C82_calls : forall (P Fo : Type) (q : nat -> cast F_arith P Fo) threads root doms limit grpLimit (E : list (list (item F_arith P))) func clear, arena_open root doms E ->
  (forall r, any_cast (length doms) threads limit (length (nth r E [])) (q r)) -> 1 <= limit <= grpLimit -> (forall epi epj fs, length fs = length epi -> length (func epi epj fs) = length fs) ->
  forall fuel, exists res, calcForceAll func clear q f_cast fuel open root doms limit grpLimit E = Done res /\ length res = length E /\
    forall r own x, nth_error E r = Some own -> nth_error res r = Some x -> served real loose open (fun _ f => f) E func clear threads own x.
Proof. exact @call_open. Qed.
Print Assumptions C82_calls.

(** the particles of C67_example: without periodic axes 1 and 2 see each other across the ranks, 0 and 3 only themselves *)
Example C82_example : match calcForceAll keepNames (fun _ => []) (exDouble [2; 2]%nat) f_cast 9 open (exBox 0 4) [exBox 0 2; exBox 2 4] 1 1 [exA; exB] with
  | Done res => map snd res | _ => [] end = [[[0]; [1; 2]]; [[1; 2]; [3]]]%nat.
Proof. vm_compute. reflexivity. Qed.
(** and they are as C82_calls wants them *)
Lemma exBound (n : Z) (x : f64) : Z.abs n <= 2 ^ 53 -> is_finite x && fle (f_ofZ (- n)) x && fle x (f_ofZ n) = true -> @finite x /\ (Rabs (real x) <= IZR n)%R.
Proof.
  intros Hn H. apply andb_true_iff in H. destruct H as (H & H3). apply andb_true_iff in H. destruct H as (H1 & H2). split; [exact H1|]. destruct (f_ofZ_exact n Hn) as (E1 & F1). destruct (f_ofZ_exact (- n)) as (E2 & F2); [lia|].
  apply fle_R in H2; [|exact F2|exact H1]. apply fle_R in H3; [|exact H1|exact F1]. rewrite E2, opp_IZR in H2. rewrite E1 in H3. unfold real. apply Rabs_le. lra.
Qed.
Example C82_example_ready : arena_open (exBox 0 4) [exBox 0 2; exBox 2 4] [exA; exB].
Proof.
  assert (P4 : (4 <= 2 ^ 100)%R) by (apply (Rle_trans _ (2 ^ 2)); [lra|apply Rle_pow; [lra|lia]]).
  assert (B : forall e, In e (concat [exA; exB]) -> (forall c, In c coords -> finite (c (s_pos (i_site e))) /\ (Rabs (real (c (s_pos (i_site e)))) <= 4)%R) /\ finite (s_rad (i_site e)) /\ (0 <= real (s_rad (i_site e)) <= 4)%R).
  { intros e [<-|[<-|[<-|[<-|[]]]]]; (split; [intros c [<-|[<-|[<-|[]]]]; apply (exBound 4); [lia|vm_compute; reflexivity|lia|vm_compute; reflexivity|lia|vm_compute; reflexivity]|]); (split; [reflexivity|]);
      (split; [apply (fle_R (f_ofZ 0)); reflexivity|]); match goal with |- (real ?x <= _)%R => destruct (exBound 4 x) as (_ & X); [lia|vm_compute; reflexivity|]; apply Rabs_le_inv in X; lra end. }
  constructor.
  - intros c [<-|[<-|[<-|[]]]]; (split; [reflexivity|]); (split; [reflexivity|]); (split; [vm_compute; reflexivity|apply flt_R; reflexivity]).
  - intros d [<-|[<-|[]]] c [<-|[<-|[<-|[]]]]; split; reflexivity.
  - reflexivity.
  - intros r own d e Hr Hd He. destruct r as [|[|[|r]]]; try discriminate Hr; cbn [nth_error] in Hr, Hd; injection Hr as <-; injection Hd as <-; destruct He as [<-|[<-|[]]]; split; intros c [<-|[<-|[<-|[]]]]; (split; [apply fle_R; reflexivity|apply flt_R; reflexivity]).
  - split; cbn; lia.
  - intros e c He Hc. destruct (B e He) as (H & _). destruct (H c Hc). split; [assumption|lra].
  - intros e He. destruct (B e He) as (_ & H1 & H2). split; [exact H1|lra].
  - intros _. exists (exItem 0 2 4). split; [now left|]. assert (R : real (s_rad (i_site (exItem 0 2 4))) = (/ 2)%R).
    { change (real (s_rad (i_site (exItem 0 2 4)))) with (B2R (f_lit 4 (-3))). assert (X : f_lit 4 (-3) = f_lit 1 (-1)) by (apply B2SF_inj; vm_compute; reflexivity). rewrite X. exact (proj1 half_lit). }
    rewrite R. split; [apply Rinv_le; lra|]. intros e c He Hc. destruct (B e He) as (H & _). destruct (H c Hc) as (_ & X). lra.
Qed.
