(** C91: the folder of a snapshot is there on all ranks before anything is written to it. *)
From Coq Require Import List ZArith Bool Ascii String.
From Verif Require Import Outcome RunModel DirModel DirSpec DirProofs.
Import ListNotations.

(** All ranks make the same folder: in whatever order their calls come and whatever errno was before, all return, the folder is there and nothing else changed. *)
Theorem C91_ready : forall t p es f, isPath t p -> es <> [] -> f (parent t) = Some Dir -> f p <> Some Plain ->
  exists f', makeAll false t es f = (f', repeat Returned (List.length es)) /\ f' p = Some Dir /\ forall q, q <> p -> f' q = f q.
Proof. exact all_ready. Qed.
Print Assumptions C91_ready.

(** If the folder cannot be made, all ranks leave the program and no one goes on alone. *)
Theorem C91_fails : forall denied t p es f, isPath t p -> f p = None -> (f (parent t) <> Some Dir \/ denied = true) ->
  makeAll denied t es f = (f, repeat Exited (List.length es)).
Proof. exact all_fail. Qed.
Print Assumptions C91_fails.

(** A rank that returns finds the name taken; an old value of errno has no effect. *)
Theorem C91_returned : forall denied t p es f f' rs, isPath t p -> makeAll denied t es f = (f', rs) -> In Returned rs -> f' p <> None.
Proof. exact returned_there. Qed.
Print Assumptions C91_returned.
Theorem C91_errno : forall denied t es es' f, List.length es = List.length es' -> makeAll denied t es f = makeAll denied t es' f.
Proof. exact errno_unused. Qed.
Print Assumptions C91_errno.

(** Over a whole run the folder of every snapshot is there when its files are opened, if ./result is. *)
Theorem C91_snapshots : forall size l f, (0 < size)%Z -> f resultDir = Some Dir -> noFileInPlace size f ->
  Forall (fun s => (0 <= fst s)%Z /\ snd s <> [] /\ exists t, resultFolder size (fst s) = Done t) l ->
  exists rs, snapshots size l f = Done rs /\
    Forall2 (fun s r => exists t g p, r = Some (t, g) /\ resultFolder size (fst s) = Done t /\ isPath t p /\ g p = Some Dir) l rs.
Proof. exact snapshots_ready. Qed.
Print Assumptions C91_snapshots.

(** A restart does not make ./result: without it the first snapshot ends the program on every rank. *)
Theorem C91_restart : forall size k es l f t p, (0 < size)%Z -> (0 <= k)%Z -> es <> [] -> resultFolder size k = Done t -> isPath t p ->
  f resultDir = None -> f p = None -> snapshots size ((k, es) :: l) f = Done [None].
Proof. exact restart_exits. Qed.
Print Assumptions C91_restart.

(** A plain file in the place of the folder is taken for the folder. *)
Theorem C91_file_refuted : exists f t p, isPath t p /\ f p = Some Plain /\ forall e, makeSubFolder false t e f = (f, Returned).
Proof. exact plain_taken. Qed.
Print Assumptions C91_file_refuted.

(** a file system with the current folder and nothing else *)
Definition exFs : fs := fun p => if list_eq_dec ascii_dec p (txt ".") then Some Dir else None.
(** rank 0 makes ./result with a stale errno; three ranks then make the folder of snapshot 500 *)
Example C91_example :
  let f := fst (makeSubFolder false (txt "./result") ENOENT exFs) in
  f (txt "./result") = Some Dir /\ resultFolder 3 500 = Done (txt "./result/result399-531/") /\
  let r := makeAll false (txt "./result/result399-531/") [EOther; EEXIST; ENOENT] f in
  snd r = [Returned; Returned; Returned] /\ fst r (txt "./result/result399-531") = Some Dir /\ fst r (txt "./result/result0-132") = None.
Proof. vm_compute. repeat split. Qed.
Example C91_example_exit : snd (makeAll false (txt "./result/result0-132/") [EOther; EEXIST; ENOENT] exFs) = [Exited; Exited; Exited].
Proof. vm_compute. reflexivity. Qed.
Example C91_example_run : exists rs, snapshots 200 [(0, [ENOENT]); (3, [EEXIST; EEXIST])]%Z (fst (makeSubFolder false (txt "./result") ENOENT exFs)) = Done rs /\
  map (option_map fst) rs = [Some (txt "./result/result0-1/"); Some (txt "./result/result2-3/")].
Proof. eexists. split; [cbv -[list_eq_dec]; reflexivity|]. reflexivity. Qed.
