(** Model of the random test problems: the second constructor of BCQPSolver (Constraint/BCQPSolver.cpp:23-132), which is that of CPSolver
    (Collision/CPSolver.cpp:183-291) with other distributions, and the bounds (Constraint/BCQPSolver.cpp:510-534). *)
From Coq Require Import List Arith ZArith Bool.
From Verif Require Import Outcome ListUtil Arith SortModel ParticleModel QPModel.
Import ListNotations.

Section Prob.
  Context {N : arith}.
  Local Open Scope arith_scope.

  (** Teuchos::SerialDenseMatrix, by rows (Constraint/BCQPSolver.cpp:50) *)
  Definition dense := list (list N).
  (** M(i,j) (Constraint/BCQPSolver.cpp:53) *)
  Definition entry (M : dense) (i j : nat) : N := nth j (nth i M []) (a_Z 0).
  (** all entries of a matrix of size n set (Constraint/BCQPSolver.cpp:51-55) *)
  Definition fill (n : nat) (f : nat -> nat -> N) : dense := map (fun i => map (f i) (seq 0 n)) (seq 0 n).
  (** DLocal: zero off the diagonal (Constraint/BCQPSolver.cpp:59-62) *)
  Definition diagonalOf (n : nat) (D : list N) : dense := fill n (fun i j => if Nat.eqb i j then nth i D (a_Z 0) else a_Z 0).
  (** SerialDenseMatrix::multiply with alpha 1 and beta 0 (Constraint/BCQPSolver.cpp:65-66); summed from the first term *)
  Definition multiply (n : nat) (f g : nat -> nat -> N) : dense :=
    fill n (fun i j => fold_left (fun s k => s + f i k * g k j) (seq 0 n) (a_Z 0)).
  (** ALocal (Constraint/BCQPSolver.cpp:65-71) *)
  Definition aLocal (n : nat) (diagonal : N) (D : list N) (B : dense) : dense :=
    let temp := multiply n (entry (diagonalOf n D)) (entry B) in
    let A := multiply n (fun i k => entry B k i) (entry temp) in
    fill n (fun i j => if Nat.eqb i j then entry A i j + diagonal else entry A i j).

  (** 1e-7 (Constraint/BCQPSolver.cpp:75) *)
  Definition droptol : N := a_Z 1 / a_Z 10000000.
  (** the columns of row i that are kept (Constraint/BCQPSolver.cpp:78-84, 93-101) *)
  Definition keptCols (n : nat) (A : dense) (i : nat) : list nat := filter (fun j => droptol <? a_abs (entry A i j)) (seq 0 n).

  (** the local matrix: rowPointers, columnIndices, values and the column map (Constraint/BCQPSolver.cpp:76-117) *)
  Record csr := Csr { c_ptr : list nat; c_idx : list nat; c_val : list N; c_map : list Z }.
  (** Constraint/BCQPSolver.cpp:73-117 on rank myRank; global indices that do not fit an int are [UB] *)
  Definition rankMatrix (n : nat) (myRank : Z) (A : dense) : outcome csr :=
    if (2 ^ 31 <? (myRank + 1) * Z.of_nat n)%Z then UB else
    let rows := map (keptCols n A) (seq 0 n) in
    let colMapIndex := map (fun j => (Z.of_nat j + myRank * Z.of_nat n)%Z) (concat rows) in
    Done (Csr (psum (map (@length nat) rows)) (concat rows) (concat (map (fun i => map (entry A i) (keptCols n A i)) (seq 0 n)))
              (unique (stable_sort Z.ltb colMapIndex))).

  (** row i of A x: a column index is local, it counts in the column map, which gives the entry of x (Constraint/BCQPSolver.cpp:116-122,
      Tpetra::CrsMatrix::apply) *)
  Definition applyRow (m : csr) (x : list N) (i : nat) : outcome N :=
    do lo <- mread (c_ptr m) i;
    do hi <- mread (c_ptr m) (S i);
    ofold (fun s p => do j <- mread (c_idx m) p; do a <- mread (c_val m) p; do g <- mread (c_map m) j; do v <- mread x (Z.to_nat g);
                      Done (s + a * v)) (seq lo (hi - lo)) (a_Z 0).
  (** A x on all ranks, rank after rank; each has drawn its D and B (Constraint/BCQPSolver.cpp:23-132) *)
  Definition applyTest (n : nat) (diagonal : N) (ranks : list (list N * dense)) (x : list N) : outcome (list N) :=
    do ys <- omap (fun r => do m <- rankMatrix n (Z.of_nat (fst r)) (aLocal n diagonal (fst (snd r)) (snd (snd r)));
                            omap (applyRow m x) (seq 0 n)) (combine (seq 0 (length ranks)) ranks);
    Done (concat ys).

  (** lower and upper bounds from two random vectors (Constraint/BCQPSolver.cpp:510-534) *)
  Definition generateRandomBounds (vec1 vec2 : list N) : list N * list N :=
    (map (fun ab => stdmin (fst ab) (snd ab)) (combine vec1 vec2), map (fun ab => stdmax (fst ab) (snd ab)) (combine vec1 vec2)).
End Prob.
