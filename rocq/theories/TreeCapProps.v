(** C89: the neighbour search tree has room for all objects at every collection of pairs. *)
From Coq Require Import List ZArith Bool Lia.
From Verif Require Import Outcome F64 TreeCapModel TreeCapSpec TreeCapProofs.
Import ListNotations.
Local Open Scope Z_scope.

(** After any sequence of initialisations, restarts and collections the tree is there and has room for the objects, with a third to spare. *)
Theorem C89_room : forall junk es e, startsWell (es ++ [e]) -> Forall (fun e => 0 <= objects e < 2 ^ 30) (es ++ [e]) ->
  exists s, run (fresh junk) (es ++ [e]) = Done s /\ room (capacity s) (objects e).
Proof. exact run_room. Qed.
Print Assumptions C89_room.

(** Trees are seldom built again: after [k] trees the number of objects has grown by (3/2)^(k-1). *)
Theorem C89_seldom : forall junk n0 ns s, Forall (fun n => 0 <= n < 2 ^ 30) (n0 :: ns) ->
  run (fresh junk) (Initialize n0 :: map Collect ns) = Done s ->
  exists m, In m (n0 :: ns) /\ 3 ^ (Z.of_nat (builds s) - 1) * n0 <= 2 ^ (Z.of_nat (builds s) - 1) * m.
Proof. exact few_builds. Qed.
Print Assumptions C89_seldom.

(** The bound on the number of objects is needed: from 2^30 on, 2 * nGlobal is not an int, although the number itself is. *)
Theorem C89_limit_refuted : exists n, 0 <= n <= 2147483647 /\ forall junk, run (fresh junk) [Initialize n] = UB.
Proof. exact limit. Qed.
Print Assumptions C89_limit_refuted.

(** Collecting pairs before any initialisation stops at the assertion. *)
Theorem C89_uninitialised : forall junk n, run (fresh junk) [Collect n] = UB.
Proof. exact (fun junk n => eq_refl). Qed.
Print Assumptions C89_uninitialised.

(** 10 objects, then 15 (no new tree), 16 (a new one), 3 (kept) and a restart with 4 *)
Example C89_example : run (fresh (-7)) [Initialize 10; Collect 15] = Done (TreeState (Some 20) 10 1)
  /\ run (fresh (-7)) [Initialize 10; Collect 15; Collect 16; Collect 3] = Done (TreeState (Some 32) 16 2)
  /\ run (fresh (-7)) [Initialize 10; Collect 15; Collect 16; Collect 3; Initialize 4] = Done (TreeState (Some 8) 4 3).
Proof. split; [|split]; vm_compute; reflexivity. Qed.
(** a restart with no objects keeps the old tree *)
Example C89_example_empty : run (fresh 0) [Initialize 10; Initialize 0; Collect 0] = Done (TreeState (Some 20) 0 1).
Proof. vm_compute. reflexivity. Qed.
