(** Model of the size of the neighbour search tree: SylinderSystem::setTreeSylinder and its callers (Sylinder/SylinderSystem.cpp). *)
From Coq Require Import List ZArith Bool.
From Verif Require Import Outcome F64.
Import ListNotations.
Local Open Scope Z_scope.

(** treeSylinderNearPtr as the number it was initialised with, none for a null pointer, and treeSylinderNumber (Sylinder/SylinderSystem.hpp:42-43);
    [builds] counts the trees built so far, it is not in the code *)
Record treeState := TreeState { capacity : option Z; treeSylinderNumber : Z; builds : nat }.
(** largest int, the type of nGlobal and of 2 * nGlobal (Sylinder/SylinderSystem.cpp:180, 185) *)
Definition INT_MAX : Z := 2147483647.
(** the literal 1.5 (Sylinder/SylinderSystem.cpp:181) *)
Definition oneAndHalf : f64 := f_lit 3 (-1).
(** Sylinder/SylinderSystem.cpp:177-188; the product and the comparison are in double *)
Definition setTreeSylinder (nGlobal : Z) (s : treeState) : outcome treeState :=
  if flt (fmul oneAndHalf (f_ofZ (treeSylinderNumber s))) (f_ofZ nGlobal) || match capacity s with None => true | Some _ => false end
  then if INT_MAX <? 2 * nGlobal then UB else Done (TreeState (Some (2 * nGlobal)) nGlobal (S (builds s)))
  else Done s.
(** what happens to the tree in a run: initialize and reinitialize (Sylinder/SylinderSystem.cpp:78-79, 170-171) and every
    collectPairCollision (Sylinder/SylinderSystem.cpp:1157), each with the number of objects on all ranks at that time *)
Inductive event := Initialize (nGlobal : Z) | Collect (nGlobal : Z).
(** the number of objects on all ranks (Sylinder/SylinderSystem.cpp:180) *)
Definition objects (e : event) : Z := match e with Initialize n | Collect n => n end.
(** Sylinder/SylinderSystem.cpp:78-79, 170-171, 1155-1157; collecting asserts that there is a tree, a failed assertion is UB here *)
Definition step (s : treeState) (e : event) : outcome treeState :=
  match e with
  | Initialize n => setTreeSylinder n (TreeState (capacity s) 0 (builds s))
  | Collect n => match capacity s with None => UB | Some _ => setTreeSylinder n s end
  end.
(** a new SylinderSystem: a null pointer and a number that is not initialised (Sylinder/SylinderSystem.hpp:42-43) *)
Definition fresh (junk : Z) : treeState := TreeState None junk 0.
(** a run: the events in turn (Sylinder/SylinderSystem.cpp:35-104, 106-175, 1151-1159) *)
Fixpoint run (s : treeState) (es : list event) : outcome treeState :=
  match es with [] => Done s | e :: es => do s <- step s e ; run s es end.
