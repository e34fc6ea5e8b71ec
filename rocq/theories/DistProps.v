(** C55: point layouts and the error check. *)
From Coq Require Import List Arith ZArith Bool Reals Lra.
From Flocq Require Import Core BinarySingleNaN.
From Verif Require Import Outcome F64 Arith ParticleModel ConModel PointsModel StatModel DistModel DistSpec DistProofs.
Import ListNotations.

(** layouts with 1, 2 and 4 points append that many points; any other count empties the list *)
Theorem C55_count : forall (N : arith) (box shift : N) c,
  (exists l1 l2 l4, fixedPoints 1 box shift c = c ++ l1 /\ fixedPoints 2 box shift c = c ++ l2 /\ fixedPoints 4 box shift c = c ++ l4 /\
    length l1 = 3 * 1 /\ length l2 = 3 * 2 /\ length l4 = 3 * 4) /\
  (forall n, (n <> 1 -> n <> 2 -> n <> 4 -> fixedPoints n box shift c = [])%Z).
Proof. split; [apply fixed_count|intros; apply fixed_other; assumption]. Qed.
Print Assumptions C55_count.

(** which points the layouts append *)
Theorem C55_points : forall n box shift c, In n [1; 2; 4] -> fixedPoints (N := R_arith) (Z.of_nat n) box shift c = c ++ flat_map (inBox box shift) (tenths n).
Proof. exact fixed_points. Qed.
Print Assumptions C55_points.
(** all points lie in the box *)
Theorem C55_range : forall n box shift x, (0 <= box)%R -> In x (fixedPoints (N := R_arith) n box shift []) -> (shift <= x <= shift + box)%R.
Proof. exact fixed_range. Qed.
Print Assumptions C55_range.

(** the random layout: (n+1)^3 points, all in the box *)
Theorem C55_random : forall fmod1 n box shift fills, (forall v, 0 <= fmod1 v < 1)%R -> (0 < box)%R ->
  length (randomPoints (N := R_arith) fmod1 n box shift fills) = 3 * (n + 1) ^ 3 /\
  forall x, In x (randomPoints (N := R_arith) fmod1 n box shift fills) -> (shift <= x < shift + box)%R.
Proof. intros. split; [apply random_count|intros x Hx; eapply random_range; eassumption]. Qed.
Print Assumptions C55_random.

(** shifting and scaling: coordinate i of every complete point becomes x * scale + shift[i mod 3], the rest is unchanged *)
Theorem C55_affine : forall (N : arith) (shift : vec N) (scale : N) pts, exists pts', shiftAndScalePoints pts shift scale = Done pts' /\ length pts' = length pts /\
  (forall i x, i < 3 * (length pts / 3) -> nth_error pts i = Some x -> nth_error pts' i = Some (x * scale + vget shift (i mod 3))%A) /\
  (forall i, 3 * (length pts / 3) <= i -> nth_error pts' i = nth_error pts i).
Proof. exact @shift_ok. Qed.
Print Assumptions C55_affine.

(** the distributed check is the check of the concatenated vectors *)
Theorem C55_ranks : forall (N : arith) values trues (bar : N), values <> [] -> trues <> [] ->
  (Z.of_nat (length (concat values)) <= INT_MAX)%Z -> (Z.of_nat (length (concat trues)) <= INT_MAX)%Z ->
  checkError values trues bar = Done (checkErrorRoot (concat values) (concat trues) bar).
Proof. exact check_all. Qed.
Print Assumptions C55_ranks.

(** vectors of different size end the program *)
Theorem C55_size : forall (N : arith) value true_ (bar : N), checkErrorRoot value true_ bar = None <-> length value <> length true_.
Proof. intros. unfold checkErrorRoot. destruct (Nat.eqb_spec (length value) (length true_)); cbn; split; congruence. Qed.
Print Assumptions C55_size.

Local Open Scope R_scope.
(** the numbers reported, and the verdict: it compares the sum of the deviations, not their mean, with the bar *)
Theorem C55_report : forall value true_ bar, length value = length true_ -> value <> [] -> (forall t, In t true_ -> t <> 0) ->
  let l := combine value true_ in let n := INR (length value) in
  exists r, checkErrorRoot (N := R_arith) value true_ bar = Some r /\
    greatest (map deviation l) (maxAbs r) /\ greatest (map relative l) (maxRel r) /\ aveAbs r = total deviation l / n /\
    rms r = sqrt (total (fun x => deviation x * deviation x) l / n) /\ relL2 r = sqrt (total (fun x => deviation x * deviation x) l / total (fun x => snd x * snd x) l) /\
    (bar <= 0 -> verdict r = None) /\
    (0 < bar -> exists b, verdict r = Some b /\ (b = true <-> maxAbs r < bar /\ maxRel r < bar /\ total deviation l < bar /\ rms r < bar /\ relL2 r < bar)).
Proof. intros value true_ bar HL _ _. apply check_ok. exact HL. Qed.
Print Assumptions C55_report.

(** the greatest deviation is zero exactly for equal vectors, and then so is every other number, and the test passes *)
Theorem C55_zero : forall value true_ bar r, value <> [] -> (forall t, In t true_ -> t <> 0) -> checkErrorRoot (N := R_arith) value true_ bar = Some r ->
  (maxAbs r = 0 <-> value = true_) /\ (value = true_ -> maxAbs r = 0 /\ maxRel r = 0 /\ aveAbs r = 0 /\ rms r = 0 /\ relL2 r = 0 /\ (0 < bar -> verdict r = Some true)).
Proof. intros value true_ bar r _ _. apply check_zero. Qed.
Print Assumptions C55_zero.

Local Close Scope R_scope.
Definition z (n : Z) : f64 := f_ofZ n.
(** in doubles a zero among the true values spoils the check: equal vectors fail it *)
Theorem C55_zero_entry_refuted : exists (v : list f64) (bar : f64), flt (z 0) bar = true /\
  match checkErrorRoot (N := F_arith) v v bar with Some r => match verdict r with Some b => negb b | None => false end | None => false end = true.
Proof. exists [z 1; z 0], (z 1). vm_compute. split; reflexivity. Qed.
Print Assumptions C55_zero_entry_refuted.
(** and one in the middle makes the greatest relative error forget what came before *)
Theorem C55_forget_refuted : exists (v t : list f64), 
  match checkErrorRoot (N := F_arith) v t (z 0) with Some r => feq (maxRel r) (z 0) && feq (maxAbs r) (z 1) | None => false end = true.
Proof. exists [z 2; z 0; z 1], [z 1; z 0; z 1]. vm_compute. reflexivity. Qed.
Print Assumptions C55_forget_refuted.

Example C55_example :
  match checkErrorRoot (N := F_arith) [z 3; z 5] [z 2; z 4] (z 3) with
  | Some r => feq (maxAbs r) (z 1) && feq (maxRel r) (f_lit 1 (-1)) && feq (aveAbs r) (z 1) && feq (rms r) (z 1) && match verdict r with Some b => b | None => false end
  | None => false end = true /\
  match shiftAndScalePoints (N := F_arith) (fixedPoints (N := F_arith) 2 (z 10) (z 0) []) (Vec (z 1) (z 2) (z 3)) (z 2) with
  | Done l => forallb (fun p => feq (fst p) (snd p)) (combine l (map z [15; 14; 13; 5; 18; 17]%Z)) | _ => false end = true.
Proof. vm_compute. split; reflexivity. Qed.
