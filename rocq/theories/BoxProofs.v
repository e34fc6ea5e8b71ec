(** Proofs about setDomainInfo. *)
From Coq Require Import List Arith ZArith Bool Lia.
From Verif Require Import Arith ParticleModel ConModel BoxModel BoxSpec.
Import ListNotations.

Section Box.
  Context {N : arith}.
  Implicit Types (low high : vec N).
  Lemma existsb3 (f : nat -> bool) : (forall k, k < 3 -> f k = false) -> existsb f (seq 0 3) = false.
  Proof. intros H. cbn. rewrite !H by lia. reflexivity. Qed.
  Lemma setDomainInfo_ok pbc low high : orderly low high ->
    exists d, setDomainInfo pbc low high newDomainInfo = Some d /\ forall k, k < 3 ->
      vget (d_axis d) k = vget pbc k /\ isPeriodic (d_bc d) k = vget pbc k /\
      (vget pbc k = true -> a_lt (vget low k) (vget high k) = true -> vget (d_low d) k = vget low k /\ vget (d_high d) k = vget high k) /\
      (vget pbc k = false \/ a_lt (vget low k) (vget high k) = false -> vget (d_low d) k = a_neg LARGE_FLOAT /\ vget (d_high d) k = LARGE_FLOAT).
  Proof.
    intros H. unfold setDomainInfo, setPosRootDomain. rewrite existsb3 by exact H. eexists. split; [reflexivity|].
    unfold newDomainInfo. generalize (@LARGE_FLOAT N) (a_neg (@LARGE_FLOAT N)). intros L L'.
    destruct pbc as [px py pz], low as [lx ly lz], high as [hx hy hz]. cbn [vget vx vy vz] in *.
    intros k Hk. destruct px, py, pz; cbn [Z.add Z.mul Z.pow Pos.add Pos.mul setBoundaryCondition seq fold_left vget vx vy vz d_axis d_bc d_low d_high negb];
      cbn [vget vx vy vz d_axis d_bc d_low d_high vset negb];
      destruct (a_lt lx hx) eqn:Ex; cbn [vget vx vy vz d_axis d_bc d_low d_high vset negb];
      destruct (a_lt ly hy) eqn:Ey; cbn [vget vx vy vz d_axis d_bc d_low d_high vset negb];
      destruct (a_lt lz hz) eqn:Ez; cbn [vget vx vy vz d_axis d_bc d_low d_high vset negb];
      destruct k as [|[|[|k]]]; try lia; cbn [vget vx vy vz isPeriodic]; rewrite ?Ex, ?Ey, ?Ez;
      (split; [reflexivity|split; [reflexivity|split; [intros; first [discriminate|split; reflexivity]|intros [?|?]; first [discriminate|split; reflexivity]]]]).
  Qed.
  Lemma setDomainInfo_abort pbc low high d k : k < 3 -> a_lt (vget high k) (vget low k) = true -> setDomainInfo pbc low high d = None.
  Proof.
    intros Hk H. unfold setDomainInfo, setPosRootDomain. replace (existsb _ _) with true; [reflexivity|]. symmetry. apply existsb_exists. exists k. split; [apply in_seq; lia|exact H].
  Qed.
End Box.
