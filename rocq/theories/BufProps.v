(** C44: the serialization buffer. *)
From Coq Require Import List Arith ZArith Bool.
From Verif Require Import Outcome BufModel BufSpec BufProofs.
Import ListNotations.
Local Open Scope Z_scope.

(** any sequence of pack, unpack and rewind on a buffer over any codec that reads back its own messages gives the results of a tape of objects;
    the total size must fit the int it is computed in *)
Theorem C44_replay : forall {O} (good : O -> Prop) enc dec, reads_back good enc dec -> forall l, proper good enc l -> packed enc l <= INT_MAX ->
  exists b, run enc dec (newBuffer []) [] l = Done (b, snd (acts ([], 0%nat) l)) /\
    contentPtr b = Some (concat (map enc (fst (fst (acts ([], 0%nat) l))))).
Proof. intros O good enc dec RB. exact (replay_ok good enc dec RB). Qed.
Print Assumptions C44_replay.

(** the MessagePack encoding of nil, booleans, 64-bit integers, doubles, strings and nested arrays is such a codec *)
Theorem C44_msgpack : reads_back fits encode decode.
Proof. exact msgpack_reads_back. Qed.
Print Assumptions C44_msgpack.

(** an unpack that throws, because of missing bytes or because the object has another type, changes nothing *)
Theorem C44_fail : forall {O T} (dec : bytes -> option (O * nat)) (convert : O -> option T) b c b', unpack dec convert b c = (b', None) -> b' = b.
Proof. exact @unpack_fail. Qed.
Print Assumptions C44_fail.

Definition whole (o : obj) : action obj := Pack o [encode o].
Definition story : list (action obj) :=
  [whole (OInt 70000); whole (OArr [OStr [104; 105]; OBool true; OArr [OInt (-5); ONil]]); Unpack; whole (OInt (-40000)); Unpack; Unpack; Unpack; Rewind 1; Unpack].
Example C44_example :
  match run encode decode (newBuffer []) [] story with
  | Done (_, rs) => rs = [Some (OInt 70000); Some (OArr [OStr [104; 105]; OBool true; OArr [OInt (-5); ONil]]); Some (OInt (-40000)); None;
                          Some (OArr [OStr [104; 105]; OBool true; OArr [OInt (-5); ONil]])]
  | _ => False
  end.
Proof. vm_compute. reflexivity. Qed.
Example C44_example_bytes : encode (OArr [OInt 70000; OStr [104; 105]; OInt (-40000)]) = [147; 206; 0; 1; 17; 112; 162; 104; 105; 210; 255; 255; 99; 192].
Proof. vm_compute. reflexivity. Qed.
Example C44_example_truncated : unpack decode (fun o => Some o) (newBuffer [206; 0; 1]) [206; 0; 1] = (newBuffer [206; 0; 1], None).
Proof. vm_compute. reflexivity. Qed.

(** the constructor is documented to leave the buffer empty; old contents are still there and are read first *)
Theorem C44_not_empty_refuted : exists old o r, fits o /\ run encode decode (newBuffer old) [] [whole o; Unpack] = Done r /\ snd r <> [Some o].
Proof. exists [7], (OInt 9). eexists. split; [constructor; split; discriminate || reflexivity|]. split; [vm_compute; reflexivity|discriminate]. Qed.
Print Assumptions C44_not_empty_refuted.
(** a default-constructed buffer cannot be written *)
Theorem C44_default_refuted : exists o, fits o /\ run encode decode newEmpty [] [whole o] = UB.
Proof. exists ONil. split; [constructor|reflexivity]. Qed.
Print Assumptions C44_default_refuted.
