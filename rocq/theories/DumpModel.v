(** Model of dumpPoints (Util/PointDistribution.cpp:84-107), called by all ranks with the same file name.
    Sizes are compared as integers; the conversion of int to size_t makes no difference below 2^63. *)
From Coq Require Import List ZArith Bool.
From Verif Require Import Outcome ListUtil F64 AscModel PointsModel.
Import ListNotations.
Local Open Scope Z_scope.

(** "%6f" (Util/PointDistribution.cpp:99, 101): six digits after the point, blanks in front up to width 6 *)
Definition fmtW6 (v : f64) : list Z := let t := fmtF6 v in repeat 32 (6 - length t) ++ t.
(** Util/PointDistribution.cpp:99-103, one turn of the loop *)
Definition pointLine (valueDimension : nat) (coord value : list f64) (i : nat) : outcome (list Z) :=
  do x <- mread coord (3 * i) ;
  do y <- mread coord (3 * i + 1) ;
  do z <- mread coord (3 * i + 2) ;
  do vs <- omap (fun j => mread value (valueDimension * i + j)) (seq 0 valueDimension) ;
  Done (fmtW6 x ++ 32 :: fmtW6 y ++ 32 :: fmtW6 z ++ 59 :: flat_map (fun v => 32 :: fmtW6 v) vs ++ [32; 10]).
(** Util/PointDistribution.cpp:93-104 on one rank after collecting: what it writes to its file, None when it leaves the program *)
Definition rankText (valueDimension : Z) (coord value : list f64) : outcome (option (list Z)) :=
  do npts <- as_int (Z.of_nat (length coord) / 3) ;
  do expected <- as_int (valueDimension * npts) ;
  if negb (Z.of_nat (length value) =? expected) then Done None
  else do ls <- omap (pointLine (Z.to_nat valueDimension) coord value) (seq 0 (Z.to_nat npts)) ; Done (Some (concat ls)).
(** Util/PointDistribution.cpp:88-104 on all ranks *)
Definition allTexts (valueDimension : Z) (coords values : list (list f64)) : outcome (list (option (list Z))) :=
  do cs <- collectPts f_zero coords ;
  do vs <- collectPts f_zero values ;
  omap (fun cv => rankText valueDimension (fst cv) (snd cv)) (combine cs vs).

(** where a rank is: before fopen, before the barriers of collectPts, before writing, done (Util/PointDistribution.cpp:86, 90-91, 99-103, 106) *)
Inductive place := Start | Opened | Collected | Finished.
(** fopen has been done (Util/PointDistribution.cpp:86) *)
Definition opened (p : place) : bool := match p with Start => false | _ => true end.
(** the text is written from the start of the file over what is there (Util/PointDistribution.cpp:99-106) *)
Definition overwrite (t file : list Z) : list Z := t ++ skipn (length t) file.
(** rank r is at p (Util/PointDistribution.cpp:84-107) *)
Definition setPlace (r : nat) (p : place) (ps : list place) : list place := firstn r ps ++ p :: skipn (S r) ps.
(** rank r goes one step on, if it can: fopen with "w" empties the file, a barrier (Util/PointDistribution.cpp:223) waits until all ranks are there,
    then the rank writes its text (Util/PointDistribution.cpp:86-107) *)
Definition step (texts : list (list Z)) (st : list place * list Z) (r : nat) : list place * list Z :=
  let '(ps, file) := st in
  match nth_error ps r with
  | Some Start => (setPlace r Opened ps, [])
  | Some Opened => if forallb opened ps then (setPlace r Collected ps, file) else st
  | Some Collected => (setPlace r Finished ps, overwrite (nth r texts []) file)
  | _ => st
  end.
(** the ranks take their steps in the order [sched], on a file with old content (Util/PointDistribution.cpp:84-107) *)
Definition run (texts : list (list Z)) (sched : list nat) (old : list Z) : list place * list Z :=
  fold_left (step texts) sched (repeat Start (length texts), old).
