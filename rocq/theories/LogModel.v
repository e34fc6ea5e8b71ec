(** Model of SylinderSystem::calcConStress on all ranks: the constraint stress written to the log. *)
From Coq Require Import List Arith ZArith Bool.
From Verif Require Import Outcome ListUtil Arith ParticleModel ConModel StatModel.
Import ListNotations.

Section Log.
  Context {N : arith}.
  Local Open Scope arith_scope.

  (** the 9 numbers of an Emat3 scaled, by rows (Sylinder/SylinderSystem.cpp:1235-1249) *)
  Definition scaledRows (scaleFactor : N) (m : mat3 N) : list N :=
    map (fun k => mget m (k / 3)%nat (k mod 3)%nat * scaleFactor) (seq 0 9).
  (** Teuchos::reduceAll with SumValueReductionOp on 9 numbers (Sylinder/SylinderSystem.cpp:1252-1253) *)
  Definition reduceRows (ranks : list (list N)) : list N :=
    map (fun k => reduceAll a_add (a_Z 0) (map (fun l => nth k l (a_Z 0)) ranks)) (seq 0 9).
  (** Sylinder/SylinderSystem.cpp:1225-1262; [ranks] gives for every rank the order in which its queues are reduced and its
      constraints, [nGlobal] is getGlobalNumElements() of the map of the objects.  The result is what the two records ColXF
      and BiXF hold, nothing if the log level is above info (2). *)
  Definition calcConStress (logLevel : Z) (KBT : N) (nGlobal : Z) (ranks : list (list nat * pool N)) : outcome (option (list N * list N)) :=
    if (2 <? logLevel)%Z then Done None else
    let scaleFactor := a_Z 1 / (a_Z nGlobal * KBT) in
    do local <- omap (fun r => do s <- sumLocalConstraintStress (fst r) (snd r) false;
                              Done (scaledRows scaleFactor (fst s), scaledRows scaleFactor (snd s))) ranks;
    Done (Some (reduceRows (map fst local), reduceRows (map snd local))).
End Log.
