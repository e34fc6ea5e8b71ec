(** C81: interaction of two kinds of particles on all ranks. *)
From Coq Require Import List Arith ZArith Bool Reals Permutation Lia Lra.
From Flocq Require Import Core BinarySingleNaN.
From Verif Require Import Outcome ListUtil F64 Arith ParticleModel VecSpec TreeModel TreeSpec TreeProps LetModel LetSpec LetProps MortonModel CallModel CallSpec CallProps MixModel MixSpec MixRankModel MixRankSpec MixRankProofs.
Import ListNotations.
Local Open Scope Z_scope.

(** every target gets every image of a source that is near, on whatever rank and across periodic faces, once, and the forces of a rank are in the order of its targets *)
Theorem C81_forces : forall (EPT EPS FPT FPS Force : Type) (PT : particle (vec R) R EPT) (PS : particle (vec R) R EPS) (copyT : FPT -> EPT) (copyS : FPS -> EPS) near (zero : Force) add k q pa root doms limit grpLimit data E,
  lawful PT -> lawful PS -> short PT PS near -> prepared PT PS copyT copyS pa root doms limit grpLimit k q data E ->
  exists F, forall fuel, (F <= fuel)%nat -> exists res,
    mixForces (N := R_arith) PT PS copyT copyS (nearKernel near zero add) (fun _ => zero) k q Ztrunc fuel pa root doms limit grpLimit data = Done res /\ length res = length data /\
    forall r d own forces, nth_error data r = Some d -> nth_error E r = Some own -> nth_error res r = Some forces -> forces_ok PS near zero add pa root E own (length (fst d)) forces.
Proof. exact @mix_ranks. Qed.
Print Assumptions C81_forces.

(** the force of a target does not depend on the number of ranks, on how targets and sources are dealt to them, on the parameters of the tree, on threads *)
Theorem C81_ranks : forall (EPT EPS FPT FPS Force : Type) (PT : particle (vec R) R EPT) (PS : particle (vec R) R EPS) (copyT : FPT -> EPT) (copyS : FPS -> EPS) near (zero : Force) add pa root
  (k k' : nat -> stage R_arith EPT EPS Force) q q' doms doms' limit limit' grpLimit grpLimit' data data' E E',
  lawful PT -> lawful PS -> short PT PS near -> commutes add -> prepared PT PS copyT copyS pa root doms limit grpLimit k q data E -> prepared PT PS copyT copyS pa root doms' limit' grpLimit' k' q' data' E' ->
  Permutation (concat E) (concat E') ->
  exists F, forall fuel, (F <= fuel)%nat -> exists res res',
    mixForces (N := R_arith) PT PS copyT copyS (nearKernel near zero add) (fun _ => zero) k q Ztrunc fuel pa root doms limit grpLimit data = Done res /\
    mixForces (N := R_arith) PT PS copyT copyS (nearKernel near zero add) (fun _ => zero) k' q' Ztrunc fuel pa root doms' limit' grpLimit' data' = Done res' /\
    forall r r' d d' own own' forces forces' i i' e, nth_error data r = Some d -> nth_error data' r' = Some d' -> nth_error E r = Some own -> nth_error E' r' = Some own' ->
      nth_error res r = Some forces -> nth_error res' r' = Some forces' -> (i < length (fst d))%nat -> (i' < length (fst d'))%nat -> nth_error own i = Some e -> nth_error own' i' = Some e ->
      nth_error forces i = nth_error forces' i'.
Proof. exact @mix_same. Qed.
Print Assumptions C81_ranks.

(** ** Examples *)

(** a particle: position, id, radius in eighths *)
Definition dot : Type := vec F_arith * (nat * Z).
Definition exDot : particle (vec F_arith) F_arith dot := Particle fst (fun p x => (x, snd p)) (fun p => f_lit (snd (snd p)) (-3)).
Definition dotAt (id : nat) (x r : Z) : dot := (Vec (f_lit x (-3)) (f_ofZ 1) (f_ofZ 1), (id, r)).
Definition exMixNear (t : dot) (rt : F_arith) (s : dot) (rs : F_arith) : bool :=
  let d := (vx (fst t) - vx (fst s))%A in ((d * d <? rt * rt) || (d * d <? rs * rs))%A%bool.
Definition exStage (data : list (list dot * list dot)) (r : nat) : stage F_arith dot dot (list (nat * Z)) :=
  let '(nt, ns) := match nth_error data r with Some d => (length (fst d), length (snd d)) | None => (0, 0)%nat end in
  Stage (rev (seq 0 nt)) (seq 0 ns) (repeat (MixFP false (dotAt 90 0 0) (dotAt 91 0 0)) (nt + ns)) (repeat (MixEPI false (f_ofZ 5) (fst (dotAt 0 7 7)) (dotAt 92 0 0)) (nt + ns))
    (repeat (MixEPJ true (f_ofZ 5) (fst (dotAt 0 7 7)) (dotAt 93 0 0)) (nt + ns)) (rev (seq 0 nt)) (repeat [(94%nat, 0)] nt).
Definition exCast (data : list (list dot * list dot)) (r : nat) : cast F_arith (mixEPI (vec F_arith) F_arith dot * mixEPJ (vec F_arith) F_arith dot) (list (nat * Z)) :=
  exTeam exMom (s_pos (exSite 7)) (Item (exSite 7) (MixEPI true (f_ofZ 5) (fst (dotAt 0 7 7)) (dotAt 95 0 0), MixEPJ true (f_ofZ 5) (fst (dotAt 0 7 7)) (dotAt 96 0 0))) [(97%nat, 0)] 1 (length data)
    match nth_error data r with Some d => (length (fst d) + length (snd d))%nat | None => 0%nat end.
(** the functor keeps the id and the place, in eighths, of each source *)
Definition exKeep (_ s : dot) (f : list (nat * Z)) : list (nat * Z) := f ++ [(fst (snd s), f_trunc (fmul (f_ofZ 8) (vx (fst s))))].
Definition exMix (doms : list (ort F_arith)) (data : list (list dot * list dot)) : outcome (list (list (list (nat * Z)))) :=
  mixForces exDot exDot (fun t => t) (fun s => s) (nearKernel exMixNear [] exKeep) (fun _ => []) (exStage data) (exCast data) f_cast 99 (Vec true false false) (exBox 0 4) doms 1 1 data.
(** a box of 4 (32 eighths), x periodic; targets 1 at 33/8, that is 1/8, and 2 at 15/8 on rank 0, 3 at 30/8 on rank 1; sources 11 at 1/8 and 12 at 10/8 on rank 0, 13 at 17/8 and 14 at 31/8 on rank 1. Source 12 has a large radius *)
Definition exData : list (list dot * list dot) := [([dotAt 1 33 3; dotAt 2 15 3], [dotAt 11 1 2; dotAt 12 10 6]); ([dotAt 3 30 3], [dotAt 13 17 1; dotAt 14 31 1])].
Example C81_example : exMix [exBox 0 2; exBox 2 4] exData = Done [[[(14%nat, -1); (11%nat, 1)]; [(12%nat, 10); (13%nat, 17)]]; [[(14%nat, 31)]]].
Proof. vm_compute. reflexivity. Qed.
(** on one rank *)
Example C81_example_one : exMix [exBox 0 4] [([dotAt 1 33 3; dotAt 2 15 3; dotAt 3 30 3], [dotAt 11 1 2; dotAt 12 10 6; dotAt 13 17 1; dotAt 14 31 1])] = Done [[[(14%nat, -1); (11%nat, 1)]; [(12%nat, 10); (13%nat, 17)]; [(14%nat, 31)]]].
Proof. vm_compute. reflexivity. Qed.

(** the hypotheses hold: with exact numbers, a target at 17/4, that is at 1/4, on rank 0, and a source at 15/4 on rank 1, radii 1 *)
Definition exPlain : particle (vec R) R (vec R) := Particle (fun p => p) (fun _ x => x) (fun _ => 1%R).
Definition exPoint (x : R) : vec R := Vec x 1%R 1%R.
Definition exRealData : list (list (vec R) * list (vec R)) := [([exPoint (17 / 4)], []); ([], [exPoint (15 / 4)])].
Definition exRealItems : list (list (item R_arith (vec R + vec R))) := [[Item (@Site R_arith (exPoint (/ 4)) 1%R) (inl (exPoint (/ 4)))]; [Item (@Site R_arith (exPoint (15 / 4)) 1%R) (inr (exPoint (15 / 4)))]].
Definition exRealStage (r : nat) : stage R_arith (vec R) (vec R) nat :=
  Stage [0%nat] [] [MixFP false (exPoint 9) (exPoint 9)] [MixEPI false 5%R (exPoint 9) (exPoint 9)] [MixEPJ true 5%R (exPoint 9) (exPoint 9)] [0%nat] [7%nat].
Definition exRealStage' : stage R_arith (vec R) (vec R) nat :=
  Stage [] [0%nat] [MixFP true (exPoint 9) (exPoint 9)] [MixEPI true 5%R (exPoint 9) (exPoint 9)] [MixEPJ true 5%R (exPoint 9) (exPoint 9)] [] [].
Definition exRealCast (r : nat) : cast R_arith (mixEPI (vec R) R (vec R) * mixEPJ (vec R) R (vec R)) nat :=
  exTeam (fun _ => @initMoment R_arith) (exPoint 7) (Item (@Site R_arith (exPoint 7) 1%R) (MixEPI true 5%R (exPoint 9) (exPoint 9), MixEPJ true 5%R (exPoint 9) (exPoint 9))) 4%nat 1 2 (length (nth r exRealItems [])).
Definition exRealNear (t : vec R) (rt : R) (s : vec R) (rs : R) : bool := a_lt (a := R_arith) (gap2 t s) (rt ^ 2)%R.
Example C81_example_prepared : lawful exPlain /\ short exPlain exPlain exRealNear /\ commutes (fun _ _ n => S n : nat) (EPT := vec R) (EPS := vec R) /\
  prepared exPlain exPlain (fun t => t) (fun s => s) (Vec true false false) (exRoot 0 4) [exRoot 0 2; exRoot 2 4] 1 1 (fun r => if (r =? 0)%nat then exRealStage r else exRealStage') exRealCast exRealData exRealItems.
Proof.
  assert (P100 : (8 <= 2 ^ 100)%R) by (apply (Rle_trans _ (2 ^ 3)); [lra|apply Rle_pow; [lra|lia]]).
  split; [repeat split|]. split; [intros t rt s rs H; left; unfold exRealNear in H; revert H; cbn [getPos exPlain]; rarith; rcase; [lra|discriminate]|]. split; [intros t x y f; reflexivity|].
  assert (A : arena (Vec true false false) (exRoot 0 4) [exRoot 0 2; exRoot 2 4] exRealItems).
  { constructor.
    - split; [intros _; cbn; rewrite ?Rabs_R0, ?Rabs_pos_eq by lra; lra|split; discriminate].
    - intros own e c Ho He Hc. destruct Ho as [<-|[<-|[]]]; destruct He as [<-|[]]; destruct Hc as [<-|[<-|[<-|[]]]]; cbn; rewrite Rabs_pos_eq by lra; lra.
    - split; [intros _; unfold edge; cbn; lra|split; discriminate].
    - intros d [<-|[<-|[]]]; (split; [intros _; cbn; lra|split; discriminate]).
    - reflexivity.
    - intros r own d e Hr Hd He. destruct r as [|[|[|r]]]; try discriminate Hr; cbn [nth_error exRealItems] in Hr, Hd; injection Hr as <-; injection Hd as <-; destruct He as [<-|[]]; split; intros c [<-|[<-|[<-|[]]]]; cbn; lra.
    - intros own [<-|[<-|[]]]; split; cbn; lia.
    - intros own e Ho He. assert (X : s_rad (i_site e) = 1%R) by (destruct Ho as [<-|[<-|[]]]; destruct He as [<-|[]]; reflexivity). rewrite X. split; [lra|]. split; [|left; reflexivity]. split; [intros _; unfold edge; cbn; lra|split; discriminate]. }
  constructor.
  - assert (Y : forall x : R, (x = x + 0 * 4 /\ 1 = 1 + 0 * (2 - 0))%R) by (intros; lra).
    constructor; [|constructor; [|constructor]]; (constructor; [|constructor]); (split; [|split; reflexivity]); intros c [<-|[<-|[<-|[]]]]; (split; [cbn; lra|]); unfold edge; cbn;
      solve [exists 0; lra|exists (-1); lra].
  - exact A.
  - apply (C70_room _ _ _ _ _ 1 A); [|intros own [<-|[<-|[]]]; split; cbn; lia]. intros own e Ho He. assert (X : s_rad (i_site e) = 1%R) by (destruct Ho as [<-|[<-|[]]]; destruct He as [<-|[]]; reflexivity). split; [|split; discriminate]. intros _. rewrite X. unfold edge; cbn; lra.
  - lia.
  - intros [|[|r]] d Hd; cbn in Hd; [| |destruct r; discriminate]; injection Hd as <-; repeat split; constructor; constructor.
  - exists 2%nat. intros r. apply exTeam_any.
Qed.

(** the particles have to be on the ranks of their domains, the class does not bring them there: a target at 31/8 on the rank with x in [0, 2) misses the source at 1/8, whose image is at 33/8, on the rank with x in [2, 4) *)
Theorem C81_homes_refuted : exists t s : dot, let image : dot := (Vec (vx (fst s) + f_ofZ 4)%A (vy (fst s)) (vz (fst s)), snd s) in
  inside_real (exBox 0 4) (fst t) /\ inside_real (exBox 0 4) (fst s) /\ exMixNear t (getRSearch exDot t) image (getRSearch exDot s) = true /\
  exMix [exBox 0 2; exBox 2 4] [([], [s]); ([t], [])] = Done [[]; [exKeep t image []]] /\ exMix [exBox 0 2; exBox 2 4] [([t], []); ([], [s])] = Done [[[]]; []].
Proof.
  exists (dotAt 1 31 3), (dotAt 14 1 3). cbv zeta. split; [|split; [|split; [vm_compute; reflexivity|split; vm_compute; reflexivity]]];
    intros c [<-|[<-|[<-|[]]]]; (split; [apply fle_R; reflexivity|apply flt_R; reflexivity]).
Qed.
Print Assumptions C81_homes_refuted.
