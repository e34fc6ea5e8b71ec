(** Properties C08 (sampling does not disturb the particles) and C09 (removal). *)
From Coq Require Import List Arith ZArith Lia Permutation.
From Verif Require Import Outcome PointsModel ParticleModel ParticleSpec ParticleProofs.
Import ListNotations.

(** Whatever the 53-bit random draws, sampling returns the positions of pairwise
    distinct particles, as many as wanted (at most all), and hands back the very
    same array. *)
Theorem C08_sampling : forall (P Pos : Type) (getPos : P -> Pos) (ptcl : list P) (wanted : Z) (draws : list Z),
  (0 <= wanted)%Z -> (Z.of_nat (length ptcl) <= INT_MAX)%Z ->
  Forall (fun k => (0 <= k < 2 ^ 53)%Z) draws ->
  Nat.min (Z.to_nat wanted) (length ptcl) <= length draws ->
  exists idx samples, getSampleParticle getPos ptcl wanted draws = Done (samples, ptcl) /\
    length samples = Nat.min (Z.to_nat wanted) (length ptcl) /\ NoDup idx /\
    Forall2 (fun i s => exists p, nth_error ptcl i = Some p /\ s = getPos p) idx samples.
Proof. exact @getSample_list. Qed.
Print Assumptions C08_sampling.

(** five particles, three wanted, extreme and middling draws *)
Example C08_example :
  getSampleParticle (fun p => 10 * p) [1; 2; 3; 4; 5] 3
    [(2 ^ 53 - 1)%Z; 0%Z; 6004799503160661%Z] = Done ([50; 20; 10], [1; 2; 3; 4; 5]).
Proof. vm_compute. reflexivity. Qed.

(** For every list of valid indices, in any order and with repetitions, exactly
    the unlisted particles remain, and the count drops by the number of distinct
    indices. *)
Theorem C09_remove : forall (P : Type) (ptcl : list P) (idx : list Z),
  Forall (fun z => (0 <= z < Z.of_nat (length ptcl))%Z) idx ->
  exists out, removeParticle ptcl idx = Done out /\
    Permutation out (survivors ptcl idx) /\
    length out + length (nodup Z.eq_dec idx) = length ptcl.
Proof. exact @removeParticle_spec. Qed.
Print Assumptions C09_remove.

Example C09_example :
  Forall (fun z => (0 <= z < Z.of_nat (length [10; 11; 12; 13; 14; 15]))%Z) [4; 1; 4; 0]%Z /\
  removeParticle [10; 11; 12; 13; 14; 15] [4; 1; 4; 0]%Z = Done [13; 15; 12] /\
  survivors [10; 11; 12; 13; 14; 15] [4; 1; 4; 0]%Z = [12; 13; 15].
Proof. split; [repeat constructor; cbn; lia|]. split; vm_compute; reflexivity. Qed.
