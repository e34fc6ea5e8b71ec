(** C88: what the solution quality report of the LCP test says. *)
From Coq Require Import List Arith ZArith Reals Bool Lra Lia.
From Flocq Require Import IEEE754.BinarySingleNaN.
From Verif Require Import Outcome ListUtil F64 Arith LcpRepModel LcpRepSpec LcpRepProofs.
Import ListNotations.

(** The report counts the negative entries of the solution and of A x + b over all ranks and gives the largest shortfall of each. *)
Theorem C88_report : forall (run : solver -> F_arith -> list (list F_arith) -> list (list F_arith))
    (apply : list (list F_arith) -> list (list F_arith)) (b : list (list F_arith)) (tol : F_arith) choice,
  let x := fold_left (fun x st => run (fst st) (snd st) x) (stages (N:=F_arith) choice tol) (map (map (fun _ => f_ofZ 0)) b) in
  let y := addVec (N:=F_arith) (apply x) b in
  allFinite x -> allFinite y -> (Z.of_nat (length (concat x)) <= 2147483647)%Z -> (Z.of_nat (length (concat y)) <= 2147483647)%Z ->
  exists nx mx ny my, test_LCP (N:=F_arith) run apply b tol choice = Done ((nx, mx), (ny, my))
    /\ nx = Z.of_nat (negatives (entries x)) /\ worst (entries x) (B2R mx)
    /\ ny = Z.of_nat (negatives (entries y)) /\ worst (entries y) (B2R my).
Proof. exact test_report. Qed.
Print Assumptions C88_report.

(** A reported count is zero, and so is a reported error, exactly when no entry is negative. *)
Theorem C88_zero : forall (v : list (list F_arith)) n m, allFinite v -> (Z.of_nat (length (concat v)) <= 2147483647)%Z ->
  quality (N:=F_arith) v = Done (n, m) ->
  (n = 0%Z <-> Forall (fun x => 0 <= x)%R (entries v)) /\ (B2R m = 0%R <-> Forall (fun x => 0 <= x)%R (entries v)).
Proof. exact quality_zero. Qed.
Print Assumptions C88_zero.

(** The report does not depend on how the entries are spread over the ranks. *)
Theorem C88_ranks : forall (v w : list (list F_arith)) n m n' m', concat v = concat w -> allFinite v -> (Z.of_nat (length (concat v)) <= 2147483647)%Z ->
  quality (N:=F_arith) v = Done (n, m) -> quality (N:=F_arith) w = Done (n', m') -> n = n' /\ B2R m = B2R m'.
Proof. exact quality_ranks. Qed.
Print Assumptions C88_ranks.

(** A choice outside 0 to 4 runs no solver: the report is then about x = 0, without any sign that nothing was solved. *)
Theorem C88_unlisted : forall (run : solver -> F_arith -> list (list F_arith) -> list (list F_arith))
    (apply : list (list F_arith) -> list (list F_arith)) (b : list (list F_arith)) (tol : F_arith) choice,
  (choice < 0 \/ 4 < choice)%Z -> apply (map (map (fun _ => f_ofZ 0)) b) = map (map (fun _ => f_ofZ 0)) b ->
  allFinite b -> (Z.of_nat (length (concat b)) <= 2147483647)%Z ->
  exists mx ny my, test_LCP (N:=F_arith) run apply b tol choice = Done ((0%Z, mx), (ny, my))
    /\ B2R mx = 0%R /\ ny = Z.of_nat (negatives (entries b)) /\ worst (entries b) (B2R my).
Proof. exact test_other. Qed.
Print Assumptions C88_unlisted.

(** Choices 0, 1, 2 run one solver with the tolerance given; 3 and 4 run a gradient solver with 100 times the tolerance and then Newton. *)
Theorem C88_stages : forall tol : F_arith,
  stages (N:=F_arith) 0 tol = [(MmNewton, tol)] /\ stages (N:=F_arith) 1 tol = [(APGD, tol)] /\ stages (N:=F_arith) 2 tol = [(BBPGD, tol)]
  /\ stages (N:=F_arith) 3 tol = [(APGD, fmul (f_ofZ 100) tol); (MmNewton, tol)]
  /\ stages (N:=F_arith) 4 tol = [(BBPGD, fmul (f_ofZ 100) tol); (MmNewton, tol)].
Proof. exact (fun tol => conj eq_refl (conj eq_refl (conj eq_refl (conj eq_refl eq_refl)))). Qed.
Print Assumptions C88_stages.

(** The report does not check that x and y are complementary: x = y = 1 gets a clean report ... *)
Theorem C88_complementary_refuted : exists (x y : list (list F_arith)),
  quality (N:=F_arith) x = Done (0%Z, f_ofZ 0) /\ quality (N:=F_arith) y = Done (0%Z, f_ofZ 0)
  /\ ~ Forall2 (fun a b => (a * b = 0)%R) (entries x) (entries y).
Proof. exact (ex_intro _ [[f_ofZ 1]] (ex_intro _ [[f_ofZ 1]] one_one)). Qed.
Print Assumptions C88_complementary_refuted.

(** ... and so does a vector of NaN. *)
Theorem C88_nan_refuted : quality (N:=F_arith) [[B754_nan]] = Done (0%Z, f_ofZ 0).
Proof. exact nan_clean. Qed.
Print Assumptions C88_nan_refuted.

(** two ranks, the solver returns (1, -2 | -3, 0), b = (0, 1 | 2, -1), A = 1: y = (1, -1 | -1, -1) *)
Example C88_example : exists mx my,
  test_LCP (N:=F_arith) (fun _ _ _ => [[f_ofZ 1; f_ofZ (-2)]; [f_ofZ (-3); f_ofZ 0]]) (fun x => x)
    [[f_ofZ 0; f_ofZ 1]; [f_ofZ 2; f_ofZ (-1)]] (f_lit 1 (-20)) 2 = Done ((2%Z, mx), (3%Z, my))
  /\ feq mx (f_ofZ 3) = true /\ feq my (f_ofZ 1) = true.
Proof.
  match goal with |- exists mx my, ?o = _ /\ _ =>
    assert (E : match o with Done ((2%Z, mx), (3%Z, my)) => feq mx (f_ofZ 3) && feq my (f_ofZ 1) | _ => false end = true) by (vm_compute; reflexivity);
    destruct o as [[[nx mx] [ny my]]| |]; [|discriminate..] end.
  exists mx, my.
  destruct nx as [|[[]|[]|]|]; try discriminate; destruct ny as [|[[]|[]|]|]; try discriminate.
  apply andb_prop in E. split; [reflexivity | exact E].
Qed.
(** no solver is run for choice 7; the report of b = (5 | -4) *)
Example C88_example_unlisted : exists mx my,
  test_LCP (N:=F_arith) (fun _ _ _ => [[f_ofZ (-1)]]) (fun x => x) [[f_ofZ 5]; [f_ofZ (-4)]] (f_lit 1 (-20)) 7 = Done ((0%Z, mx), (1%Z, my))
  /\ feq my (f_ofZ 4) = true.
Proof.
  match goal with |- exists mx my, ?o = _ /\ _ =>
    assert (E : match o with Done ((0%Z, mx), (1%Z, my)) => feq my (f_ofZ 4) | _ => false end = true) by (vm_compute; reflexivity);
    destruct o as [[[nx mx] [ny my]]| |]; [|discriminate..] end.
  exists mx, my.
  destruct nx as [|p|p]; try discriminate; destruct ny as [|[p|p|]|p]; try discriminate.
  split; [reflexivity | exact E].
Qed.
