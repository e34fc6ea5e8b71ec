(** What "inside a box" and "a grid of domains" mean. *)
From Coq Require Import List Arith ZArith Bool.
From Verif Require Import ParticleModel.
Import ListNotations.

(** Coordinates are totally (pre)ordered; [lt] is the strict part. *)
Record coord_order {C : Type} (le lt : C -> C -> bool) : Prop := {
  co_total : forall a b, le a b = true \/ le b a = true;
  co_trans : forall a b c, le a b = true -> le b c = true -> le a c = true;
  co_lt : forall a b, lt a b = negb (le b a) }.

Section Spec.
  Context {C : Type} (le lt : C -> C -> bool).

  (** half-open box membership *)
  Definition inside (p : vec C) (b : ort C) : Prop :=
    (le (vx (olow b)) (vx p) = true /\ lt (vx p) (vx (ohigh b)) = true) /\
    (le (vy (olow b)) (vy p) = true /\ lt (vy p) (vy (ohigh b)) = true) /\
    (le (vz (olow b)) (vz p) = true /\ lt (vz p) (vz (ohigh b)) = true).

  (** the same as a test *)
  Definition insideb (p : vec C) (b : ort C) : bool :=
    forallb (fun c => le (c (olow b)) (c p) && lt (c p) (c (ohigh b))) [vx; vy; vz].

  (** strictly outside the closed box in some coordinate *)
  Definition beyond (p : vec C) (b : ort C) : Prop :=
    exists c, In c [vx; vy; vz] /\ (lt (c p) (c (olow b)) = true \/ lt (c (ohigh b)) (c p) = true).

  Definition increasing (f : nat -> C) (n : nat) : Prop :=
    forall i, i < n -> le (f i) (f (S i)) = true.

  (** [doms] is a nx*ny*nz grid of boxes covering [root]: x is cut in nx slabs,
      each slab in ny columns, each column in nz boxes, rank order z fastest. *)
  Definition grid_of (root : ort C) (nx ny nz : nat) (doms : list (ort C)) : Prop :=
    length doms = nx * ny * nz /\
    exists (X : nat -> C) (Y : nat -> nat -> C) (Z : nat -> nat -> nat -> C),
      (X 0 = vx (olow root) /\ X nx = vx (ohigh root) /\ increasing X nx) /\
      (forall i, i < nx ->
         Y i 0 = vy (olow root) /\ Y i ny = vy (ohigh root) /\ increasing (Y i) ny) /\
      (forall i j, i < nx -> j < ny ->
         Z i j 0 = vz (olow root) /\ Z i j nz = vz (ohigh root) /\ increasing (Z i j) nz) /\
      (forall i j k, i < nx -> j < ny -> k < nz ->
         nth_error doms ((i * ny + j) * nz + k)
         = Some (Ort (Vec (X i) (Y i j) (Z i j k)) (Vec (X (S i)) (Y i (S j)) (Z i j (S k))))).
End Spec.

(** The entries of [ptcl] whose position is not listed in [idx], in order. *)
Definition survivors {P} (ptcl : list P) (idx : list Z) : list P :=
  map snd (filter (fun p => negb (existsb (Z.eqb (Z.of_nat (fst p))) idx))
                  (combine (seq 0 (length ptcl)) ptcl)).
