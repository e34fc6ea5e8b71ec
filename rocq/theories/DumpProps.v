(** C93: the file of points that all ranks dump together holds all points of all ranks. *)
From Coq Require Import String List ZArith Reals Bool.
From Flocq Require Import Core BinarySingleNaN.
From Verif Require Import Outcome F64 AscModel AscSpec PointsModel DumpModel DumpSpec DumpProofs.
Import ListNotations.
Local Notation length := List.length.
Local Open Scope Z_scope.

(** All ranks open the same file and one writes: in whatever order they take their steps, when all are done the file holds exactly the points and values of all ranks,
    in the order of the ranks, to six digits after the point. *)
Theorem C93_file : forall d n coords values, coords <> [] -> length values = length coords -> length (concat coords) = (3 * n)%nat -> length (concat values) = (d * n)%nat ->
  Z.of_nat (3 * n) <= INT_MAX -> Z.of_nat (d * n) <= INT_MAX -> Forall moderate (concat coords) -> Forall moderate (concat values) ->
  exists texts t xs vs, allTexts (Z.of_nat d) coords values = Done (map Some texts) /\ length texts = length coords /\
    readPoints d n t = Some (xs, vs) /\ Forall2 near (concat coords) xs /\ Forall2 near (concat values) vs /\
    forall sched old, Forall (fun p => p = Finished) (fst (run texts sched old)) -> snd (run texts sched old) = t.
Proof. exact dump_ok. Qed.
Print Assumptions C93_file.

(** As long as some rank is not done, some rank can go on. *)
Theorem C93_progress : forall texts ps file, (exists p, In p ps /\ p <> Finished) -> exists r, fst (step texts (ps, file) r) <> ps.
Proof. exact no_deadlock. Qed.
Print Assumptions C93_progress.

(** The program is left exactly when the number of values does not fit the number of points. *)
Theorem C93_mismatch : forall d coord value n, length coord = (3 * n)%nat -> Z.of_nat n <= INT_MAX -> - 2 ^ 31 <= d * Z.of_nat n <= INT_MAX ->
  (rankText d coord value = Done None <-> Z.of_nat (length value) <> d * Z.of_nat n).
Proof. exact mismatch. Qed.
Print Assumptions C93_mismatch.

(** Small numbers are lost, although relative precision may matter. *)
Theorem C93_small_refuted : exists v, is_finite v = true /\ Bcompare v f_zero = Some Gt /\ fmtW6 v = fmtW6 f_zero.
Proof. exact small_lost. Qed.
Print Assumptions C93_small_refuted.

(** A coordinate too many is dropped without a message. *)
Theorem C93_leftover_refuted : exists coord t, length coord = 4%nat /\ rankText 0 coord [] = Done (Some t) /\ rankText 0 (firstn 3 coord) [] = Done (Some t).
Proof. exact leftover. Qed.
Print Assumptions C93_leftover_refuted.

(** two ranks, one point with two values each *)
Definition exCoords : list (list f64) := [[f_lit 1 0; f_lit (-3) (-1); f_lit 5 (-2)]; [f_zero; f_lit 1 (-30); f_lit 1000 0]].
Definition exValues : list (list f64) := [[f_lit 7 0; f_lit 1 (-3)]; [f_lit (-1) 0; f_zero]].
Definition exText : list Z := codes "1.000000 -1.500000 1.250000; 7.000000 0.125000 " ++ 10 :: codes "0.000000 0.000000 1000.000000; -1.000000 0.000000 " ++ [10].
Example C93_example_text : allTexts 2 exCoords exValues = Done [Some exText; Some []].
Proof. vm_compute. reflexivity. Qed.
(** the second rank is late: the first waits for it *)
Example C93_example_run : run [exText; []] [0; 0; 0; 1; 1; 0; 1; 0]%nat (codes "old") = ([Finished; Finished], exText).
Proof. vm_compute. reflexivity. Qed.
Example C93_example_wait : fst (run [exText; []] [0; 0; 0; 0]%nat (codes "old")) = [Opened; Start].
Proof. vm_compute. reflexivity. Qed.
Example C93_example_exit : rankText 2 [f_zero; f_zero; f_zero] [f_zero] = Done None.
Proof. vm_compute. reflexivity. Qed.
Example C93_example_width : map fmtW6 [B754_infinity false; B754_nan] = [[32; 32; 32; 105; 110; 102]; [32; 32; 32; 110; 97; 110]].
Proof. vm_compute. reflexivity. Qed.
