(** What the main loop, the result names and the restart have to achieve; independent of RunModel except for its data types. *)
From Coq Require Import List ZArith Bool Ascii.
From Verif Require Import RunModel.
Import ListNotations.
Local Open Scope Z_scope.

(** number of multiples of k in [0, x) *)
Definition below (k x : Z) : Z := (x + k - 1) / k.
(** what a run started at step s0 with snapshot number n0 does at step s: write at the multiples of k, numbering consecutively *)
Definition entry (k s0 n0 s : Z) : Z * option Z := (s, if s mod k =? 0 then Some (n0 + (below k s - below k s0)) else None).

(** the snapshot a file belongs to *)
Definition snapOf (f : file) : option Z :=
  match f with FAscii s | FPiece _ s | FConPiece _ s | FHead s | FConHead s => Some s | FInfo => None end.
(** all files of one snapshot of n ranks are there with the full content of that snapshot *)
Definition whole (n : nat) (s : file -> option (list ascii)) (snap : Z) (d : snapData) : Prop :=
  s (FAscii snap) = Some (d_ascii d ++ d_links d) /\ s (FHead snap) = Some (d_head d) /\ s (FConHead snap) = Some (d_conhead d) /\
  forall r, (r < n)%nat -> s (FPiece r snap) = Some (d_piece d r) /\ s (FConPiece r snap) = Some (d_con d r).
(** the files rank 0 writes for a snapshot *)
Definition rootPart (s : file -> option (list ascii)) (snap : Z) (d : snapData) : Prop := whole 1 s snap d.
(** t is a proper beginning of u *)
Definition prefix {A} (t u : list A) : Prop := exists v, u = t ++ v.

(** snapshot an operation works on *)
Definition opSnap (o : op) : option Z := match o with Create f => snapOf f | Put f _ => snapOf f | Sync => None end.
(** when rank 0 is through with the files of a snapshot, all ranks are *)
Definition settled (rest : list (list op)) : Prop :=
  forall snap, (forall o, In o (nth 0 rest []) -> opSnap o <> Some snap) -> forall p o, In p rest -> In o p -> opSnap o <> Some snap.
(** snapshot numbers are given consecutively from n *)
Fixpoint numbered (n : Z) (steps : list (Z * option Z)) : Prop :=
  match steps with
  | [] => True
  | (_, Some k) :: r => k = n /\ numbered (n + 1) r
  | (_, None) :: r => numbered n r
  end.
(** the snapshots below k are all complete, and the restart file is (the beginning of) the one for snapshot k-1, if there is one *)
Definition intact (n : nat) (s : file -> option (list ascii)) (k : Z) : Prop :=
  (forall j, 0 <= j < k -> exists d, whole n s j d) /\
  (s FInfo = None /\ k = 0 \/ exists t seed step, s FInfo = Some t /\ 0 < k /\ prefix t (infoText seed step (k - 1)) /\
     0 <= seed <= 4294967295 /\ 0 <= step < INT_MAX /\ k <= INT_MAX).

(** What can be on disk after any number of runs on n ranks, each interrupted anywhere once the ranks are settled and restarted from what is
    there.  A restart whose header file name is not that of a header file ends without writing (the VTK reader finds nothing). *)
Inductive history (n : nat) (rngSeed : Z) (timeSnap dt timeTotal : F64.f64) : (file -> option (list ascii)) -> Prop :=
| h_start : history n rngSeed timeSnap dt timeTotal (fun _ => None)
| h_run : forall s seed step snap fuel steps fin data sched s' rest,
    history n rngSeed timeSnap dt timeTotal s ->
    (s FInfo = None /\ (seed, step, snap) = (rngSeed, 0, 0) \/
     exists t f1 f2 h, s FInfo = Some t /\ reinit (Z.of_nat n) t = Outcome.Done (Some (seed, step, snap, f1 ++ fileName (FHead h), f2)) /\ 0 <= h /\
       resultFolder (Z.of_nat n) (snap - 1) = Outcome.Done f1) ->
    mainLoop fuel timeSnap dt timeTotal step snap = Outcome.Done (steps, fin) ->
    crashedRun n seed data steps sched s = (s', rest) -> settled rest ->
    history n rngSeed timeSnap dt timeTotal s'.
