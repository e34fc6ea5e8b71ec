(** The main loop, result files and restart: Sylinder/SylinderSystem_main.cpp and the result functions of Sylinder/SylinderSystem.cpp.
    Text is a list of characters. *)
From Coq Require Import List ZArith Bool Ascii String.
From Verif Require Import Outcome F64.
Import ListNotations.
Local Open Scope Z_scope.

(** * The main loop *)

Definition INT_MAX : Z := 2147483647. (* largest int, implicit in Sylinder/SylinderSystem.hpp:33-34 *)

(** static_cast<int>(runConfig.timeSnap / runConfig.dt) of Sylinder/SylinderSystem.cpp:883; converting a value outside int is undefined *)
Definition snapInterval (timeSnap dt : f64) : outcome Z :=
  let q := fdiv timeSnap dt in let k := f_trunc q in
  if f_finite q && (- INT_MAX - 1 <=? k) && (k <=? INT_MAX) then Done k else UB.

(** getIfWriteResultCurrentStep, Sylinder/SylinderSystem.cpp:882-884; % by zero is undefined *)
Definition ifWriteResult (timeSnap dt : f64) (stepCount : Z) : outcome bool :=
  do k <- snapInterval timeSnap dt;
  if k =? 0 then UB else Done (Z.rem stepCount k =? 0).

(** x++ on an int, Sylinder/SylinderSystem.cpp:158-159, 559, 967 *)
Definition incr (x : Z) : outcome Z := if x =? INT_MAX then UB else Done (x + 1).

(** The condition of the main loop, Sylinder/SylinderSystem_main.cpp:36 *)
Definition goesOn (dt timeTotal : f64) (stepCount : Z) : bool := flt (fmul (f_ofZ stepCount) dt) timeTotal.

(** The main loop, Sylinder/SylinderSystem_main.cpp:36-42, as far as the counters go (runStep, Sylinder/SylinderSystem.cpp:948-968; writeResult 553-560):
    the executed steps, each with the number of the snapshot it wrote if any, and the final step and snapshot counters.
    What the steps do to the objects is in StepModel. *)
Fixpoint mainLoop (fuel : nat) (timeSnap dt timeTotal : f64) (stepCount snapID : Z) : outcome (list (Z * option Z) * (Z * Z)) :=
  if goesOn dt timeTotal stepCount then
    match fuel with
    | O => NoFuel
    | S fuel =>
        do w <- ifWriteResult timeSnap dt stepCount;
        do snap' <- (if w then incr snapID else Done snapID);
        do step' <- incr stepCount;
        do r <- mainLoop fuel timeSnap dt timeTotal step' snap';
        Done ((stepCount, if w then Some snapID else None) :: fst r, snd r)
    end
  else Done ([], (stepCount, snapID)).

(** * Names *)

Definition text := list ascii. (* std::string, throughout Sylinder/SylinderSystem.cpp:478-560 *)
Definition txt (s : string) : text := list_ascii_of_string s. (* string literals of Sylinder/SylinderSystem.cpp:478-560 *)
Definition nl : ascii := ascii_of_nat 10. (* the newline of Sylinder/SylinderSystem.cpp:515-518 *)

(** decimal digits, most significant first; std::to_string and %u of Sylinder/SylinderSystem.cpp:485, 493, 512-518 on non-negative numbers *)
Fixpoint digits (fuel : nat) (z : Z) : list Z :=
  match fuel with
  | O => [z]
  | S f => if z <? 10 then [z] else digits f (z / 10) ++ [z mod 10]
  end.
Definition digit (d : Z) : ascii := ascii_of_nat (48 + Z.to_nat d). (* one digit of std::to_string, Sylinder/SylinderSystem.cpp:485 *)
Definition dec (z : Z) : text := map digit (digits (Z.to_nat (Z.log2 z)) z). (* std::to_string, Sylinder/SylinderSystem.cpp:485 *)

(** getResultFolderWithID, Sylinder/SylinderSystem.cpp:480-487; overflow of int is undefined *)
Definition resultFolder (size snapID : Z) : outcome text :=
  let num := Z.max (Z.quot 400 size) 1 in
  let k := Z.quot snapID num in
  let low := k * num in let high := k * num + num - 1 in
  if high <=? INT_MAX then Done (txt "./result/result" ++ dec low ++ txt "-" ++ dec high ++ txt "/") else UB.

(** the result files of one run: Sylinder/SylinderSystem.cpp:493 (ascii), Sylinder/Sylinder.hpp:395-397 (piece), Constraint/ConstraintCollector.cpp:186-188 (constraint piece),
    Sylinder/Sylinder.hpp:262 (header), Constraint/ConstraintCollector.cpp:99-100 (constraint header), Sylinder/SylinderSystem.cpp:511 (restart information) *)
Inductive file := FAscii (snap : Z) | FPiece (rank : nat) (snap : Z) | FConPiece (rank : nat) (snap : Z) | FHead (snap : Z) | FConHead (snap : Z) | FInfo.

(** their names inside the result folder (FInfo is one level above ./result), same lines (Sylinder/SylinderSystem.cpp:493, 511) *)
Definition fileName (f : file) : text :=
  match f with
  | FAscii s => txt "SylinderAscii_" ++ dec s ++ txt ".dat"
  | FPiece r s => txt "Sylinder_r" ++ dec (Z.of_nat r) ++ txt "_" ++ dec s ++ txt ".vtp"
  | FConPiece r s => txt "ConBlock_r" ++ dec (Z.of_nat r) ++ txt "_" ++ dec s ++ txt ".vtp"
  | FHead s => txt "Sylinder_" ++ dec s ++ txt ".pvtp"
  | FConHead s => txt "ConBlock_" ++ dec s ++ txt ".pvtp"
  | FInfo => txt "TimeStepInfo.txt"
  end.

(** * The restart file *)

(** writeTimeStepInfo, Sylinder/SylinderSystem.cpp:508-521 *)
Definition infoText (seed stepCount snapID : Z) : text :=
  dec seed ++ [nl] ++ dec stepCount ++ [nl] ++ dec snapID ++ [nl] ++ fileName (FHead snapID) ++ [nl].

(** white space skipped by operator>>, Sylinder/SylinderSystem.cpp:114-117 *)
Definition isSpace (c : ascii) : bool := let n := nat_of_ascii c in (n =? 32)%nat || ((9 <=? n) && (n <=? 13))%nat.
Definition isDigit (c : ascii) : bool := let n := nat_of_ascii c in ((48 <=? n) && (n <=? 57))%nat. (* digits read by operator>>, Sylinder/SylinderSystem.cpp:114-116 *)
Definition digitVal (c : ascii) : Z := Z.of_nat (nat_of_ascii c) - 48. (* value of a digit read at Sylinder/SylinderSystem.cpp:114-116 *)

(** the longest prefix of characters satisfying p, and the rest (operator>>, Sylinder/SylinderSystem.cpp:114-117) *)
Fixpoint span (p : ascii -> bool) (t : text) : text * text :=
  match t with
  | [] => ([], [])
  | c :: t' => if p c then let '(a, b) := span p t' in (c :: a, b) else ([], t)
  end.

(** operator>> into an integer of maximum lim, Sylinder/SylinderSystem.cpp:114-116; None is a failed stream.  Signs are not modelled (the file has none). *)
Definition readNum (lim : Z) (t : text) : option (Z * text) :=
  let '(ds, rest) := span isDigit (snd (span isSpace t)) in
  let v := fold_left (fun a c => 10 * a + digitVal c) ds 0 in
  match ds with [] => None | _ => if v <=? lim then Some (v, rest) else None end.
(** operator>> into a string, Sylinder/SylinderSystem.cpp:117 *)
Definition readWord (t : text) : option text :=
  match fst (span (fun c => negb (isSpace c)) (snd (span isSpace t))) with [] => None | w => Some w end.

(** the four reads of reinitialize, Sylinder/SylinderSystem.cpp:110-117.  After a failed read the name stays empty, and std::string::replace at
    npos (lines 139-142) throws: None. *)
Definition readInfo (t : text) : option (Z * Z * Z * text) :=
  match readNum 4294967295 t with None => None | Some (seed, t) =>
  match readNum INT_MAX t with None => None | Some (step, t) =>
  match readNum INT_MAX t with None => None | Some (snap, t) =>
  match readWord t with None => None | Some name => Some (seed, step, snap, name) end end end end.

(** s.replace(s.find_last_of(c), n, by), Sylinder/SylinderSystem.cpp:139-142; None: no c, replace throws *)
Fixpoint replaceLast (c : ascii) (n : nat) (by_ : text) (s : text) : option text :=
  match s with
  | [] => None
  | x :: s' =>
      match replaceLast c n by_ s' with
      | Some r => Some (x :: r)
      | None => if Ascii.eqb x c then Some (by_ ++ skipn n s) else None
      end
  end.

(** the counters, seed and the two file names a restart continues with, Sylinder/SylinderSystem.cpp:106-159: header file, ascii file.
    restartRngSeed is unsigned and wraps. *)
Definition reinit (size : Z) (t : text) : outcome (option (Z * Z * Z * text * text)) :=
  match readInfo t with
  | None => Done None
  | Some (seed, step, snap, name) =>
      match replaceLast "."%char 5 (txt ".dat") name with
      | None => Done None
      | Some a1 =>
          match replaceLast "_"%char 1 (txt "Ascii_") a1 with
          | None => Done None
          | Some a2 =>
              do folder <- resultFolder size snap;
              do step' <- incr step;
              do snap' <- incr snap;
              Done (Some ((seed + 1) mod 4294967296, step', snap', folder ++ name, folder ++ a2))
          end
      end
  end.

(** * File operations of the ranks *)

(** creating (truncating) a file, appending one character, and a synchronisation of all ranks (MPI collective).
    fopen "w"/ofstream: FDPS/particle_system.hpp:370, Sylinder/SylinderSystem.cpp:514, Sylinder/Sylinder.hpp:395, Util/IOHelper.hpp:230, Constraint/ConstraintCollector.cpp:186;
    buffered output reaches the file at any time between opening and closing, in order. *)
Inductive op := Create (f : file) | Put (f : file) (c : ascii) | Sync.

Definition fileEqb (a b : file) : bool := (* equality of the files of Sylinder/SylinderSystem.cpp:489-551 *)
  match a, b with
  | FAscii x, FAscii y => x =? y
  | FPiece r x, FPiece q y => (r =? q)%nat && (x =? y)
  | FConPiece r x, FConPiece q y => (r =? q)%nat && (x =? y)
  | FHead x, FHead y => x =? y
  | FConHead x, FConHead y => x =? y
  | FInfo, FInfo => true
  | _, _ => false
  end.

Definition fs := file -> option text. (* the files below the run directory, Sylinder/SylinderSystem.cpp:489-551 *)

(** effect of one operation, same lines (Sylinder/SylinderSystem.cpp:489-551) *)
Definition doOp (o : op) (s : fs) : fs :=
  match o with
  | Create f => fun g => if fileEqb g f then Some [] else s g
  | Put f c => fun g => if fileEqb g f then match s g with Some t => Some (t ++ [c]) | None => Some [c] end else s g
  | Sync => s
  end.

Definition putAll (f : file) (t : text) : list op := map (Put f) t. (* fprintf / operator<<, Sylinder/SylinderSystem.cpp:501, 515-518 *)
Definition writeFile (f : file) (t : text) : list op := Create f :: putAll f t. (* open, write, close: Sylinder/SylinderSystem.cpp:514-519 *)

(** what one snapshot consists of: ascii particles and links (Sylinder/SylinderSystem.cpp:489-506), pieces and headers (523-533) *)
Record snapData := SnapData { d_ascii : text; d_links : text; d_piece : nat -> text; d_con : nat -> text; d_head : text; d_conhead : text }.

(** writeResult on one rank, Sylinder/SylinderSystem.cpp:553-560: writeAscii 489-506 (file by rank 0, links appended, barrier), writeVTK 523-533,
    writeTimeStepInfo 508-521.  mkdir is not modelled; the collectives inside writeAscii before the file is opened are left out
    (fewer synchronisations: more interleavings). *)
Definition writeResult (rank : nat) (seed step snap : Z) (d : snapData) : list op :=
  (if (rank =? 0)%nat then writeFile (FAscii snap) (d_ascii d) ++ putAll (FAscii snap) (d_links d) else []) ++
  [Sync] ++
  writeFile (FPiece rank snap) (d_piece d rank) ++ writeFile (FConPiece rank snap) (d_con d rank) ++
  (if (rank =? 0)%nat then writeFile (FHead snap) (d_head d) ++ writeFile (FConHead snap) (d_conhead d) else []) ++
  (if (rank =? 0)%nat then writeFile FInfo (infoText seed step snap) else []).

(** one step of the main loop on one rank: its particle exchange (prepareStep, Sylinder/SylinderSystem.cpp:894, an MPI_Alltoall) synchronises the ranks *)
Definition stepOps (rank : nat) (seed : Z) (data : Z -> snapData) (e : Z * option Z) : list op :=
  Sync :: match snd e with Some snap => writeResult rank seed (fst e) snap (data snap) | None => [] end.

(** the program of one rank: all steps of the main loop, Sylinder/SylinderSystem_main.cpp:36-42 *)
Definition rankProgram (seed : Z) (data : Z -> snapData) (steps : list (Z * option Z)) (rank : nat) : list op :=
  flat_map (stepOps rank seed data) steps.

(** Interleaving: [Some r] lets rank r do its next operation (unless it waits in a synchronisation), [None] lets all ranks pass a
    synchronisation they all have reached.  A crash can happen after any schedule.  (MPI semantics; Sylinder/SylinderSystem.cpp:553-560.) *)
Definition isSync (o : op) : bool := match o with Sync => true | _ => false end.
Definition atSync (p : list op) : bool := match p with o :: _ => isSync o | [] => false end. (* waiting in a collective, Sylinder/SylinderSystem.cpp:505 *)
Definition setNth {A} (r : nat) (x : A) (l : list A) : list A := firstn r l ++ x :: skipn (S r) l. (* rank r advances, Sylinder/SylinderSystem.cpp:553-560 *)
Definition turn (c : option nat) (st : fs * list (list op)) : fs * list (list op) := (* one turn, Sylinder/SylinderSystem.cpp:553-560 *)
  let '(s, ps) := st in
  match c with
  | None => if forallb atSync ps then (s, map (@tl op) ps) else st
  | Some r => match nth_error ps r with
              | Some (o :: rest) => if isSync o then st else (doOp o s, setNth r rest ps)
              | _ => st
              end
  end.
Definition runSchedule (sched : list (option nat)) (st : fs * list (list op)) : fs * list (list op) := (* Sylinder/SylinderSystem.cpp:553-560 *)
  fold_left (fun st c => turn c st) sched st.

(** a run of n ranks from counters (stepCount, snapID), interrupted after the schedule: Sylinder/SylinderSystem_main.cpp:30-42 *)
Definition crashedRun (n : nat) (seed : Z) (data : Z -> snapData) (steps : list (Z * option Z)) (sched : list (option nat)) (s : fs) : fs * list (list op) :=
  runSchedule sched (s, map (rankProgram seed data steps) (seq 0 n)).
