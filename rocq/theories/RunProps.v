(** C39, C40, C41: snapshots, restart, result names. *)
From Coq Require Import List ZArith Bool Ascii String Reals.
From Flocq Require Import Core BinarySingleNaN.
From Verif Require Import Outcome F64 RunModel RunSpec RunProofs.
Import ListNotations.
Local Notation length := List.length.
Local Open Scope Z_scope.

(** ** C39 *)

(** a run from step s0 with next snapshot number n0: one entry per step up to the first step e whose time is not below the total; writing exactly
    at the multiples of the interval k, numbered consecutively (number of multiples between s0 and s) *)
Theorem C39_schedule : forall timeSnap dt T k s0 n0 e fuel, snapInterval timeSnap dt = Done k -> 0 < k ->
  0 <= s0 <= e -> e <= INT_MAX -> (forall n, s0 <= n < e -> goesOn dt T n = true) -> goesOn dt T e = false ->
  n0 + (below k e - below k s0) <= INT_MAX -> (Z.to_nat (e - s0) <= fuel)%nat ->
  exists steps, mainLoop fuel timeSnap dt T s0 n0 = Done (steps, (e, n0 + (below k e - below k s0))) /\
    Z.of_nat (length steps) = e - s0 /\
    forall i, 0 <= Z.of_nat i < e - s0 -> nth_error steps i = Some (entry k s0 n0 (s0 + Z.of_nat i)).
Proof. exact schedule_ok. Qed.
Print Assumptions C39_schedule.

(** a fresh run writes snapshot s/k at step s, and a run continued after the snapshot of step s does at every later step what the fresh one does *)
Theorem C39_resume : forall k s s', 0 < k -> 0 <= s -> s mod k = 0 ->
  entry k 0 0 s = (s, Some (s / k)) /\ entry k (s + 1) (s / k + 1) s' = entry k 0 0 s'.
Proof. exact resume_entry. Qed.
Print Assumptions C39_resume.

(** for positive time steps there is one step number e before which the loop goes on and from which on it stops, not after total/dt rounded up *)
Theorem C39_end : forall dt T n, is_finite dt = true -> is_finite T = true -> (0 < B2R dt)%R -> 0 <= n <= INT_MAX -> (B2R T <= IZR n * B2R dt)%R ->
  exists e, 0 <= e <= n /\ forall m, 0 <= m <= INT_MAX -> goesOn dt T m = (m <? e).
Proof. exact end_exists. Qed.
Print Assumptions C39_end.

(** if the snapshot time is exactly m time steps (as doubles), the interval is m *)
Theorem C39_interval : forall timeSnap dt m, is_finite timeSnap = true -> is_finite dt = true -> B2R dt <> 0%R -> 1 <= m <= INT_MAX ->
  B2R timeSnap = (IZR m * B2R dt)%R -> snapInterval timeSnap dt = Done m.
Proof. exact interval_exact. Qed.
Print Assumptions C39_interval.
Theorem C39_interval_general : forall timeSnap dt, is_finite timeSnap = true -> (0 <= B2R timeSnap)%R -> (0 < B2R dt)%R ->
  (rnd64 (B2R timeSnap / B2R dt) < 2147483648)%R ->
  exists k, snapInterval timeSnap dt = Done k /\ 0 <= k /\ (IZR k <= rnd64 (B2R timeSnap / B2R dt) < IZR k + 1)%R.
Proof. exact interval_near. Qed.
Print Assumptions C39_interval_general.

(** the interval is the quotient of the doubles rounded towards zero, undefined outside of int *)
Theorem C39_range : forall timeSnap dt k, snapInterval timeSnap dt = Done k <->
  is_finite (fdiv timeSnap dt) = true /\ k = Ztrunc (B2R (fdiv timeSnap dt)) /\ -2147483648 <= k <= 2147483647.
Proof. exact interval_range. Qed.
Print Assumptions C39_range.

(** a run that does not end within the range of int overflows its step counter *)
Theorem C39_overflow : forall timeSnap dt T k, snapInterval timeSnap dt = Done k -> 0 < k ->
  (forall n, 0 <= n <= INT_MAX -> goesOn dt T n = true) ->
  forall d s0 n0 fuel, 0 <= s0 -> s0 + Z.of_nat d = INT_MAX -> (d < fuel)%nat -> mainLoop fuel timeSnap dt T s0 n0 = UB.
Proof. exact overflow_ok. Qed.
Print Assumptions C39_overflow.

(** timeSnap = 0.3 and dt = 0.1 in the configuration give an interval of 2 steps, not 3 *)
Theorem C39_decimal_refuted : exists timeSnap dt : f64, timeSnap = f_lit 0x13333333333333 (-54) /\ dt = f_lit 0x1999999999999a (-56) /\ snapInterval timeSnap dt = Done 2.
Proof. do 2 eexists. split; [reflexivity|]. split; [reflexivity|]. vm_compute. reflexivity. Qed.
Print Assumptions C39_decimal_refuted.

(** a snapshot time below the time step divides by zero *)
Theorem C39_short_refuted : exists timeSnap dt : f64, flt f_zero timeSnap && flt timeSnap dt = true /\ mainLoop 10 timeSnap dt (f_ofZ 1) 0 0 = UB.
Proof. exists (f_lit 1 (-3)), (f_lit 1 (-2)). split; vm_compute; reflexivity. Qed.
Print Assumptions C39_short_refuted.

(** dt = 1/4, snapshots every 1/2, total 5/4; and continued from the snapshot at step 2 *)
Example C39_example :
  mainLoop 10 (f_lit 1 (-1)) (f_lit 1 (-2)) (f_lit 5 (-2)) 0 0 = Done ([(0, Some 0); (1, None); (2, Some 1); (3, None); (4, Some 2)], (5, 3)) /\
  mainLoop 10 (f_lit 1 (-1)) (f_lit 1 (-2)) (f_lit 5 (-2)) 3 2 = Done ([(3, None); (4, Some 2)], (5, 3)).
Proof. split; vm_compute; reflexivity. Qed.

(** ** C40 *)

(** A run of n ranks, interrupted anywhere: files of snapshots numbered before the run are unchanged, and the restart file is either unchanged or the
    beginning of the one for a snapshot of this run of which all files of rank 0 are complete, all earlier snapshots of the run are complete on all
    ranks, and, if every rank is through with it, so is this one. *)
Theorem C40_crash : forall n seed data steps sched s0 n0 s rest, (0 < n)%nat -> numbered n0 steps -> crashedRun n seed data steps sched s0 = (s, rest) ->
  (forall f k, snapOf f = Some k -> k < n0 -> s f = s0 f) /\
  (s FInfo = s0 FInfo \/
   exists pre st snap post t, steps = pre ++ (st, Some snap) :: post /\ s FInfo = Some t /\ prefix t (infoText seed st snap) /\
     rootPart s snap (data snap) /\ (forall st' snap', In (st', Some snap') pre -> whole n s snap' (data snap')) /\
     (settled rest -> whole n s snap (data snap))).
Proof. exact crash_ok. Qed.
Print Assumptions C40_crash.

(** with one rank the ranks are always settled *)
Theorem C40_one_rank : forall seed data steps sched s0 s rest, crashedRun 1 seed data steps sched s0 = (s, rest) -> settled rest.
Proof. exact single_settled. Qed.
Print Assumptions C40_one_rank.

(** whatever the history of runs, interruptions in settled states and restarts: all snapshots up to the one in the restart file are complete *)
Theorem C40_history : forall n rngSeed timeSnap dt T s, (0 < n)%nat -> 0 <= rngSeed <= 4294967295 -> history n rngSeed timeSnap dt T s -> exists k, 0 <= k /\ intact n s k.
Proof. exact history_ok. Qed.
Print Assumptions C40_history.

(** a restart continues with the next step, snapshot and seed from the files of the named snapshot *)
Theorem C40_restart : forall size seed step snap, 1 <= size -> 0 <= seed <= 4294967295 -> 0 <= step < INT_MAX -> 0 <= snap -> snap + 400 <= INT_MAX ->
  exists folder, resultFolder size snap = Done folder /\
    reinit size (infoText seed step snap) =
      Done (Some ((seed + 1) mod 4294967296, step + 1, snap + 1, folder ++ fileName (FHead snap), folder ++ fileName (FAscii snap))).
Proof. exact reinit_ok. Qed.
Print Assumptions C40_restart.

(** a restart file cut off anywhere before its last character names no snapshot *)
Theorem C40_torn : forall seed step snap t v, 0 <= seed <= 4294967295 -> 0 <= step <= INT_MAX -> 0 <= snap <= INT_MAX ->
  infoText seed step snap = t ++ v -> (2 <= length v)%nat ->
  readInfo t = None \/ exists x y z name, readInfo t = Some (x, y, z, name) /\ forall s, 0 <= s -> name <> fileName (FHead s).
Proof. exact torn_ok. Qed.
Print Assumptions C40_torn.

(** numbers are read after white space (codes 9 to 13 and 32) up to the first character that is not one of the codes 48 to 57; anything else fails *)
Theorem C40_number : forall lim ws z b, 0 <= z <= lim -> Forall (fun c => let n := nat_of_ascii c in (9 <= n <= 13)%nat \/ n = 32%nat) ws ->
  match b with c :: _ => let n := nat_of_ascii c in (n < 48)%nat \/ (57 < n)%nat | [] => True end -> readNum lim (ws ++ dec z ++ b)%list = Some (z, b).
Proof. exact number_ok. Qed.
Print Assumptions C40_number.
Theorem C40_no_number : forall lim ws b, Forall (fun c => let n := nat_of_ascii c in (9 <= n <= 13)%nat \/ n = 32%nat) ws ->
  match b with c :: _ => let n := nat_of_ascii c in (n < 9 \/ 13 < n < 32 \/ 32 < n < 48 \/ 57 < n)%nat | [] => True end -> readNum lim (ws ++ b)%list = None.
Proof. exact no_number_ok. Qed.
Print Assumptions C40_no_number.

(** data of the examples *)
Definition exData (k : Z) : snapData := SnapData (txt "a") (txt "L") (fun r => dec (Z.of_nat r)) (fun _ => txt "c") (txt "h") (txt "i").

(** the restart file is emptied before it is written: an interruption there leaves a complete snapshot and no way to restart *)
Theorem C40_emptied_refuted : exists sched s rest, crashedRun 1 7 exData [(0, Some 0); (1, Some 1)] sched (fun _ => None) = (s, rest) /\
  whole 1 s 0 (exData 0) /\ s FInfo = Some [] /\ reinit 1 [] = Done None.
Proof.
  exists ([None] ++ repeat (Some 0%nat) 3 ++ [None] ++ repeat (Some 0%nat) 31 ++ [None] ++ repeat (Some 0%nat) 3 ++ [None] ++ repeat (Some 0%nat) 9).
  do 2 eexists. split; [apply surjective_pairing|]. split; [|split; vm_compute; reflexivity].
  split; [vm_compute; reflexivity|]. split; [vm_compute; reflexivity|]. split; [vm_compute; reflexivity|]. intros r Hr. destruct r; [split; vm_compute; reflexivity|]. inversion Hr as [|m Hm]. inversion Hm.
Qed.
Print Assumptions C40_emptied_refuted.

(** with two ranks the restart file can name a snapshot of which rank 1 has written nothing *)
Theorem C40_two_ranks_refuted : exists sched s rest, crashedRun 2 7 exData [(0, Some 0)] sched (fun _ => None) = (s, rest) /\
  s FInfo = Some (infoText 7 0 0) /\ s (FPiece 1 0) = None.
Proof. exists ([None] ++ repeat (Some 0%nat) 3 ++ [None] ++ repeat (Some 0%nat) 40). do 2 eexists. split; [apply surjective_pairing|]. split; vm_compute; reflexivity. Qed.
Print Assumptions C40_two_ranks_refuted.

(** a restart on another number of ranks looks in another folder *)
Theorem C40_other_ranks_refuted : exists snap, resultFolder 1 snap <> resultFolder 4 snap.
Proof. exists 150. vm_compute. discriminate. Qed.
Print Assumptions C40_other_ranks_refuted.

(** two ranks, both through: everything complete; the restart *)
Example C40_example :
  let st := crashedRun 2 7 exData [(0, Some 0)] ([None] ++ repeat (Some 0%nat) 3 ++ [None] ++ repeat (Some 0%nat) 40 ++ repeat (Some 1%nat) 4) (fun _ => None) in
  whole 2 (fst st) 0 (exData 0) /\ fst st FInfo = Some (infoText 7 0 0) /\ snd st = [[]; []].
Proof.
  split; [|split; vm_compute; reflexivity]. repeat (split; [vm_compute; reflexivity|]).
  intros r Hr. destruct r as [|[|r]]; [split; vm_compute; reflexivity|split; vm_compute; reflexivity|]. exfalso. repeat (apply le_S_n in Hr). inversion Hr.
Qed.
Example C40_restart_example :
  reinit 4 (infoText 41 1200 123) = Done (Some (42, 1201, 124, txt "./result/result100-199/Sylinder_123.pvtp", txt "./result/result100-199/SylinderAscii_123.dat")).
Proof. vm_compute. reflexivity. Qed.

(** ** C41 *)
Theorem C41_names : forall f g, valid f -> valid g -> fileName f = fileName g -> f = g.
Proof. exact name_inj. Qed.
Print Assumptions C41_names.

(** folders hold num = max(400/ranks, 1) consecutive snapshots *)
Theorem C41_folder : forall size a, 1 <= size -> 0 <= a -> a + 400 <= INT_MAX ->
  let num := Z.max (400 / size) 1 in
  resultFolder size a = Done (txt "./result/result" ++ dec (a / num * num) ++ txt "-" ++ dec (a / num * num + num - 1) ++ txt "/").
Proof. exact folder_ok. Qed.
Print Assumptions C41_folder.
Theorem C41_same_folder : forall size a b, 1 <= size -> 0 <= a -> a + 400 <= INT_MAX -> 0 <= b -> b + 400 <= INT_MAX ->
  (resultFolder size a = resultFolder size b <-> a / Z.max (400 / size) 1 = b / Z.max (400 / size) 1).
Proof. exact folder_same. Qed.
Print Assumptions C41_same_folder.

(** near the end of the int range the upper bound in the folder name overflows *)
Theorem C41_overflow_refuted : exists snap, 0 <= snap <= INT_MAX /\ resultFolder 1 snap = UB.
Proof. exists INT_MAX. split; [vm_compute; split; discriminate|reflexivity]. Qed.
Print Assumptions C41_overflow_refuted.

Example C41_example : resultFolder 3 265 = Done (txt "./result/result133-265/") /\ resultFolder 3 266 = Done (txt "./result/result266-398/") /\
  fileName (FPiece 12 305) = txt "Sylinder_r12_305.vtp" /\ fileName (FPiece 1 2305) = txt "Sylinder_r1_2305.vtp".
Proof. vm_compute. repeat split. Qed.
