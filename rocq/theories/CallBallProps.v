(** C85: spheres that touch are found once in doubles, on any number of ranks, when no axis is periodic. *)
From Coq Require Import List Arith ZArith Lia Bool Permutation Reals Lra.
From Flocq Require Import Core BinarySingleNaN.
From Verif Require Import Outcome ListUtil F64 Arith ParticleModel VecSpec ConModel NearModel TreeModel TreeSpec TreeProps MortonModel MtMain LetModel LetSpec LetProps CallModel CallSpec CallProps CallOpenSpec CallOpenRoot CallOpenProps CallBallSpec CallBallReal CallBallProofs.
Import ListNotations.
Local Open Scope Z_scope.

(** calcForceAll with the collision functor: on each rank the queues get one block for each of its spheres and each sphere of larger id, on whatever rank, that touches it, with the right gap, and no pair twice *)
Theorem C85_contacts : forall (Fo : Type) (func : list (item F_arith fep) -> list (item F_arith fep) -> list Fo -> list Fo) clear q threads root doms limit grpLimit (E : list (list (item F_arith fep))),
  arena_open root doms E -> (forall r, any_cast (length doms) threads limit (length (nth r E [])) (q r)) -> 1 <= limit <= grpLimit -> (forall epi epj fs, length fs = length epi -> length (func epi epj fs) = length fs) ->
  (forall e, In e (concat E) -> i_site e = siteOf (i_pay e)) -> NoDup (map (fun e => e_gid (i_pay e)) (concat E)) ->
  forall fuel, exists res, calcForceAll func clear q f_cast fuel open root doms limit grpLimit E = Done res /\ length res = length E /\
    forall Pi r own x p, nth_error E r = Some own -> nth_error res r = Some x -> length p = threads ->
      exists p' blocks, nearCalls Pi (objects (fst x)) p = Done p' /\ Permutation (concat p') (concat p ++ blocks) /\ found E own blocks.
Proof. exact @call_balls. Qed.
Print Assumptions C85_contacts.

(** so on all ranks together no pair of ids has two blocks, and any two spheres that touch have one *)
Theorem C85_once : forall E blocks, NoDup (map (fun e => e_gid (i_pay e)) (concat E)) -> Forall2 (found E) E blocks ->
  NoDup (map ids (concat blocks)) /\
  forall e f, In e (concat E) -> In f (concat E) -> e_gid (i_pay e) < e_gid (i_pay f) -> ball_like (i_pay e) -> ball_like (i_pay f) -> (gap (i_pay e) (i_pay f) <= 0)%R ->
    exists b, In b (concat blocks) /\ ids b = (e_gid (i_pay e), e_gid (i_pay f)).
Proof. exact all_ranks. Qed.
Print Assumptions C85_once.

(** three spheres of radius 1/4 on two ranks; 5 and 7 overlap across the ranks *)
Definition exBall (g x8 : Z) : fep := NearEP g g 0 (f_lit 1 (-2)) (f_ofZ 0) (f_lit 1 (-2)) (f_ofZ 0) (f_lit 1 (-2)) (Vec (f_lit x8 (-3)) (f_ofZ 1) (f_ofZ 1)) (Vec (f_ofZ 0) (f_ofZ 0) (f_ofZ 1)).
Definition ballItem (e : fep) : item F_arith fep := Item (siteOf e) e.
Definition exBalls : list (list (item F_arith fep)) := [[ballItem (exBall 5 14)]; [ballItem (exBall 7 17); ballItem (exBall 3 31)]].
Definition ballCast (sizes : list nat) (r : nat) : cast F_arith fep unit := exTeam exMom (s_pos (exSite 7)) (ballItem (exBall 0 0)) tt 1 (length sizes) (nth r sizes 0%nat).
Example C85_example : match calcForceAll (fun _ _ fs => fs) (fun f => f) (ballCast [1; 2]%nat) f_cast 9 open (exBox 0 4) [exBox 0 2; exBox 2 4] 1 1 exBalls with
  | Done res => map (fun x => match nearCalls (f_ofZ 3) (objects (fst x)) [[]; []] with Done p => map (fun b => (ids b, f_trunc (fmul (f_ofZ 8) (delta0 b)))) (concat p) | _ => [] end) res | _ => [] end
  = [[(5, 7, -1)]; []].
Proof. vm_compute. reflexivity. Qed.
(** they are as C85_contacts wants them: the sites, the ids, and the two spheres that touch *)
Example C85_example_ready : arena_open (exBox 0 4) [exBox 0 2; exBox 2 4] exBalls /\ (forall r, any_cast 2 2 1 (length (nth r exBalls [])) (ballCast [1; 2]%nat r)) /\ (forall e, In e (concat exBalls) -> i_site e = siteOf (i_pay e)) /\ NoDup (map (fun e => e_gid (i_pay e)) (concat exBalls)) /\
  ball_like (exBall 5 14) /\ ball_like (exBall 7 17) /\ (gap (exBall 5 14) (exBall 7 17) <= 0)%R.
Proof.
  assert (Q : B2R (f_lit 1 (-2)) = (/ 4)%R) by (rewrite (proj1 (f_lit_pow2 (-2) ltac:(lia))); cbn; lra).
  destruct (f_ofZ_exact 0 ltac:(lia)) as (Z0 & _). destruct (f_ofZ_exact 1 ltac:(lia)) as (Z1 & _).
  assert (P : (4 <= 2 ^ 40)%R /\ (1 <= 2 ^ 100)%R) by (split; [apply (Rle_trans _ (2 ^ 2)); [lra|apply Rle_pow; [lra|lia]]|apply pow_R1_Rle; lra]).
  assert (I4 : (/ 2 ^ 100 <= / 4 /\ / 2 ^ 40 <= / 4)%R) by (split; (apply Rinv_le_contravar; [lra|]); [apply (Rle_trans _ (2 ^ 40)); [lra|apply Rle_pow; [lra|lia]]|lra]).
  assert (B : forall g x, ball_like (exBall g x)) by (intros g x; constructor; cbn [exBall e_radius e_length e_radiusCol e_lengthCol e_colBuf]; [repeat split; reflexivity|..]; unfold real; rewrite ?Q, ?Z0; lra).
  split; [|split; [intros [|[|[|r]]]; apply exTeam_any|]].
  { assert (B4 : forall e, In e (concat exBalls) -> (forall c, In c coords -> finite (c (s_pos (i_site e))) /\ (Rabs (real (c (s_pos (i_site e)))) <= 4)%R) /\ finite (s_rad (i_site e)) /\ (/ 4 <= real (s_rad (i_site e)) <= 4)%R).
    { intros e [<-|[<-|[<-|[]]]]; (split; [intros c [<-|[<-|[<-|[]]]]; apply (exBound 4); [lia|vm_compute; reflexivity|lia|vm_compute; reflexivity|lia|vm_compute; reflexivity]|]); (split; [reflexivity|]);
        (split; [rewrite <- Q; apply (fle_R (f_lit 1 (-2))); reflexivity|]); match goal with |- (real ?x <= _)%R => destruct (exBound 4 x) as (_ & X); [lia|vm_compute; reflexivity|]; apply Rabs_le_inv in X; lra end. }
    assert (P4 : (4 <= 2 ^ 100)%R) by (apply (Rle_trans _ (2 ^ 2)); [lra|apply Rle_pow; [lra|lia]]).
    constructor.
    - intros c [<-|[<-|[<-|[]]]]; (split; [reflexivity|]); (split; [reflexivity|]); (split; [vm_compute; reflexivity|apply flt_R; reflexivity]).
    - intros d [<-|[<-|[]]] c [<-|[<-|[<-|[]]]]; split; reflexivity.
    - reflexivity.
    - intros r own d e Hr Hd He. destruct r as [|[|[|r]]]; try discriminate Hr; cbn [nth_error exBalls] in Hr, Hd; injection Hr as <-; injection Hd as <-; [destruct He as [<-|[]]|destruct He as [<-|[<-|[]]]]; split; intros c [<-|[<-|[<-|[]]]]; (split; [apply fle_R; reflexivity|apply flt_R; reflexivity]).
    - split; cbn; lia.
    - intros e c He Hc. destruct (B4 e He) as (H & _). destruct (H c Hc). split; [assumption|lra].
    - intros e He. destruct (B4 e He) as (_ & H1 & H2). split; [exact H1|lra].
    - intros _. exists (ballItem (exBall 5 14)). assert (I : In (ballItem (exBall 5 14)) (concat exBalls)) by (now left). split; [exact I|]. destruct (B4 _ I) as (_ & _ & R). split; [lra|].
      intros e c He Hc. destruct (B4 e He) as (H & _). destruct (H c Hc) as (_ & X). lra. }
  split; [intros e [<-|[<-|[<-|[]]]]; reflexivity|]. split; [cbn; repeat constructor; cbn; lia|]. split; [apply B|]. split; [apply B|].
  destruct (f_lit_exact 14 (-3) ltac:(lia) ltac:(lia)) as (X1 & _). destruct (f_lit_exact 17 (-3) ltac:(lia) ltac:(lia)) as (X2 & _).
  unfold gap, size, spot, dist3, norm3, dot3, sub3. cbn [exBall e_pos e_lengthCol e_radiusCol vx vy vz]. unfold real. rewrite Q, Z0, Z1, X1, X2. change (bpow radix2 (-3)) with (/ 8)%R.
  match goal with |- (sqrt ?a - _ <= 0)%R => replace a with ((3 / 8) * (3 / 8))%R by field end. rewrite sqrt_square by lra. lra.
Qed.
