(** C53: the configured box and the domain decomposition. *)
From Coq Require Import List Arith ZArith Bool Lia.
From Verif Require Import F64 Arith ParticleModel ConModel BoxModel BoxSpec BoxProofs.
Import ListNotations.

(** periodic flags agree on every axis; a periodic axis has the configured edges, any other is unbounded, and so is a periodic axis of width zero *)
Theorem C53_agree : forall (N : arith) (pbc : vec bool) (low high : vec N), orderly low high ->
  exists d, setDomainInfo pbc low high newDomainInfo = Some d /\ forall k, k < 3 ->
    vget (d_axis d) k = vget pbc k /\ isPeriodic (d_bc d) k = vget pbc k /\
    (vget pbc k = true -> a_lt (vget low k) (vget high k) = true -> vget (d_low d) k = vget low k /\ vget (d_high d) k = vget high k) /\
    (vget pbc k = false \/ a_lt (vget low k) (vget high k) = false -> vget (d_low d) k = a_neg LARGE_FLOAT /\ vget (d_high d) k = LARGE_FLOAT).
Proof. intros N. exact setDomainInfo_ok. Qed.
Print Assumptions C53_agree.
(** a box upside down on any axis, periodic or not, stops the program *)
Theorem C53_abort : forall (N : arith) (pbc : vec bool) (low high : vec N) d k, k < 3 -> a_lt (vget high k) (vget low k) = true -> setDomainInfo pbc low high d = None.
Proof. intros N. exact setDomainInfo_abort. Qed.
Print Assumptions C53_abort.
(** flags are only ever set: a second configuration with fewer periodic axes keeps the old ones *)
Theorem C53_again_refuted : exists (pbc : vec bool) low high d d', setDomainInfo (N := F_arith) (Vec true true true) low high newDomainInfo = Some d /\
  setDomainInfo pbc low high d = Some d' /\ vget pbc 0 = false /\ vget (d_axis d') 0 = true /\ isPeriodic (d_bc d') 0 = false.
Proof.
  exists (Vec false true true), (Vec (f_ofZ 0) (f_ofZ 0) (f_ofZ 0)), (Vec (f_ofZ 1) (f_ofZ 1) (f_ofZ 1)).
  destruct (setDomainInfo_ok (N := F_arith) (Vec true true true) (Vec (f_ofZ 0) (f_ofZ 0) (f_ofZ 0)) (Vec (f_ofZ 1) (f_ofZ 1) (f_ofZ 1))) as (d & E & _).
  { intros [|[|[|k]]] Hk; [vm_compute; reflexivity..|lia]. }
  eexists. eexists. repeat split; reflexivity.
Qed.
Print Assumptions C53_again_refuted.
(** periodic in y only *)
Example C53_example : match setDomainInfo (N := F_arith) (Vec false true false) (Vec (f_ofZ 0) (f_ofZ (-3)) (f_ofZ 0)) (Vec (f_ofZ 9) (f_ofZ 8) (f_ofZ 7)) newDomainInfo with
  | Some d => (negb (vx (d_axis d)) && vy (d_axis d) && negb (vz (d_axis d)) && feq (vy (d_low d)) (f_ofZ (-3)) && feq (vy (d_high d)) (f_ofZ 8) && flt (f_ofZ (10 ^ 37)) (vx (d_high d)) && flt (vz (d_low d)) (f_ofZ (- 10 ^ 37)))%bool
  | None => false end = true.
Proof. vm_compute. reflexivity. Qed.
