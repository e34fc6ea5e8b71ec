(** C86: the random test problems of the solvers. *)
From Coq Require Import List Arith ZArith Reals Bool Lra Lia.
From Flocq Require Import IEEE754.BinarySingleNaN.
From Verif Require Import Outcome ListUtil F64 Arith ProbModel ProbSpec ProbProofs.
Import ListNotations.
Local Open Scope R_scope.

(** for any numbers drawn on any ranks, as long as no column is dropped altogether, the matrix of the test problem can be applied to any
    vector, and is the block diagonal matrix of B^T D B + diagonal with the entries up to 1e-7 left out *)
Theorem C86_operator : forall n diagonal ranks x, length x = (length ranks * n)%nat -> fits n (length ranks) -> (forall D B, In (D, B) ranks -> columns n diagonal D B) ->
  exists y, applyTest (N := R_arith) n diagonal ranks x = Done y /\ blockwise n diagonal ranks x y.
Proof. exact test_apply. Qed.
Print Assumptions C86_operator.

(** this matrix is symmetric *)
Theorem C86_symmetric : forall n diagonal ranks x x' y y', length x = (length ranks * n)%nat -> length x' = (length ranks * n)%nat -> fits n (length ranks) -> (forall D B, In (D, B) ranks -> columns n diagonal D B) ->
  applyTest (N := R_arith) n diagonal ranks x = Done y -> applyTest (N := R_arith) n diagonal ranks x' = Done y' -> inner (length ranks * n) x' y = inner (length ranks * n) x y'.
Proof. exact apply_symmetric. Qed.
Print Assumptions C86_symmetric.

(** with D not negative and more than n 1e-7 added to the diagonal it can always be applied and is positive definite *)
Theorem C86_definite : forall n diagonal ranks, fits n (length ranks) -> (forall D B, In (D, B) ranks -> forall k, (k < n)%nat -> 0 <= at0 D k) -> INR n * tol < diagonal ->
  forall x, length x = (length ranks * n)%nat ->
  exists y, applyTest (N := R_arith) n diagonal ranks x = Done y /\ blockwise n diagonal ranks x y /\
    ((exists i, (i < length ranks * n)%nat /\ at0 x i <> 0) -> 0 < inner (length ranks * n) x y).
Proof. exact test_problem. Qed.
Print Assumptions C86_definite.

(** in doubles, the random bounds are the two numbers drawn, in order *)
Theorem C86_bounds : forall (v1 v2 : list f64) i a b, nth_error v1 i = Some a -> nth_error v2 i = Some b -> is_finite a = true -> is_finite b = true ->
  exists l u, nth_error (fst (generateRandomBounds (N := F_arith) v1 v2)) i = Some l /\ nth_error (snd (generateRandomBounds (N := F_arith) v1 v2)) i = Some u /\
    (l = a /\ u = b \/ l = b /\ u = a \/ l = u) /\ B2R l = Rmin (B2R a) (B2R b) /\ B2R u = Rmax (B2R a) (B2R b).
Proof. exact bounds_ok. Qed.
Print Assumptions C86_bounds.

(** with nothing added to the diagonal, dropping small entries can leave a matrix that is not even positive semidefinite *)
Theorem C86_flat_refuted : exists n (D : list R) (B : list (list R)) (x y : list R), length D = n /\ Forall (fun d => / 10 <= d <= 10) D /\ Forall (Forall (fun b => -1 <= b <= 1)) B /\
  applyTest (N := R_arith) n 0 [(D, B)] x = Done y /\ inner n x y < 0.
Proof. exact flat_case. Qed.
Print Assumptions C86_flat_refuted.

(** ... and can leave a column empty: then the local column numbers no longer fit the column map, which is read out of range *)
Theorem C86_column_refuted : exists n (D : list f64) (B : list (list f64)) (x : list f64), length D = n /\ length x = n /\
  Forall (fun d => flt (f_lit 1 (-3)) d && flt d (f_ofZ 10) = true) D /\ Forall (Forall (fun b => flt (f_ofZ 0) b && flt b (f_ofZ 1) = true)) B /\
  applyTest (N := F_arith) n (f_ofZ 0) [(D, B)] x = UB.
Proof.
  exists 2%nat, [f_ofZ 1; f_ofZ 2], [[f_lit 1 (-25); f_lit 3 (-2)]; [f_lit 1 (-25); f_lit 1 (-1)]], [f_ofZ 1; f_ofZ 1].
  split; [reflexivity|]. split; [reflexivity|]. split; [repeat (apply Forall_cons; [vm_compute; reflexivity|]); apply Forall_nil|].
  split; [repeat (apply Forall_cons; [repeat (apply Forall_cons; [vm_compute; reflexivity|]); apply Forall_nil|]); apply Forall_nil|].
  match goal with |- ?o = _ => assert (E : match o with UB => true | _ => false end = true) by (vm_compute; reflexivity); destruct o; [discriminate|reflexivity|discriminate] end.
Qed.
Print Assumptions C86_column_refuted.

(** two ranks, n = 2; rank 0: D = (1, 2), B = (1 -1; 1/2 1), diagonal 1: B^T D B + 1 = (5/2 0; 0 4), the zeros are not stored;
    rank 1: B = (1 1; 0 1): (2 1; 1 4) *)
Example C86_example :
  let D := [f_ofZ 1; f_ofZ 2] in
  match applyTest (N := F_arith) 2 (f_ofZ 1) [(D, [[f_ofZ 1; f_ofZ (-1)]; [f_lit 1 (-1); f_ofZ 1]]); (D, [[f_ofZ 1; f_ofZ 1]; [f_ofZ 0; f_ofZ 1]])] [f_ofZ 2; f_ofZ 1; f_ofZ 1; f_ofZ (-1)] with
  | Done y => forallb (fun p => feq (fst p) (snd p)) (combine y [f_ofZ 5; f_ofZ 4; f_ofZ 1; f_ofZ (-3)]) = true /\ length y = 4%nat
  | _ => False
  end.
Proof. vm_compute. auto. Qed.
Example C86_example_bounds : let '(lb, ub) := generateRandomBounds (N := F_arith) [f_ofZ 1; f_ofZ (-1)] [f_ofZ 0; f_ofZ 2] in
  forallb (fun p => feq (fst p) (snd p)) (combine (lb ++ ub) [f_ofZ 0; f_ofZ (-1); f_ofZ 1; f_ofZ 2]) = true.
Proof. vm_compute. reflexivity. Qed.
(** the hypotheses of C86_definite can be met *)
Example C86_example_hypotheses : fits 2 2 /\ INR 2 * tol < 1 /\ (forall D B, In (D, B) [([1; 2], [[1; 1]; [0; 1]]); ([1; 3], [[1; -1]; [0; 1]])] -> forall k, (k < 2)%nat -> 0 <= at0 D k).
Proof.
  split; [unfold fits; cbn; lia|]. split; [unfold tol; cbn; lra|]. intros D B [E|[E|[]]]; injection E as <- <-; intros [|[|k]] Hk; unfold at0; cbn; try lra; lia.
Qed.
