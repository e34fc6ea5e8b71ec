(** What a set of constraint blocks does to the bodies, over the reals. *)
From Coq Require Import List Arith ZArith Reals Bool.
From Verif Require Import ParticleModel Arith ConModel.
Import ListNotations.
Local Open Scope R_scope.

Definition Rsum (l : list R) : R := fold_right Rplus 0 l.

Definition cross (a b : vec R) : vec R :=
  Vec (vy a * vz b - vz a * vy b) (vz a * vx b - vx a * vz b) (vx a * vy b - vy a * vx b).

(** component d (0-2 force, 3-5 torque) of a force of magnitude g along n applied at arm p *)
Definition load (n p : vec R) (g : R) (d : nat) : R :=
  if d <? 3 then g * vget n d else g * vget (cross p n) (d - 3).

(** what block b with magnitude g does to a body *)
Definition block_load (b : block R_arith) (g : R) (body : Z) (d : nat) : R :=
  (if (globalIndexI b =? body)%Z then load (normI b) (posI b) g d else 0) +
  (if negb (oneSide b) && (globalIndexJ b =? body)%Z then load (normJ b) (posJ b) g d else 0).

(** the total over all blocks *)
Definition total_load (blocks : list (block R_arith)) (gs : list R) (body : Z) (d : nat) : R :=
  Rsum (map (fun bg => block_load (fst bg) (snd bg) body d) (combine blocks gs)).

(** entry (i,j) of the stress of one block *)
Definition comp (i j : nat) (b : block R_arith) : R := nth (i * 3 + j) (stress b) 0.
(** one-sided blocks count only when asked for *)
Definition counted (withOneSide : bool) (b : block R_arith) : bool := negb (oneSide b) || withOneSide.
(** total over the bilateral (or the unilateral) blocks *)
Definition stress_sum (withOneSide bi : bool) (bs : list (block R_arith)) (i j : nat) : R :=
  Rsum (map (comp i j) (filter (fun b => counted withOneSide b && Bool.eqb (bilateral b) bi) bs)).

(** the same block with magnitude x and its stress scaled by x *)
Definition scaled {N : arith} (b : block N) (x : N) (b' : block N) : Prop :=
  gamma b' = x /\ stress b' = map (fun s => a_mul s x) (stress b) /\
  delta0 b' = delta0 b /\ gammaLB b' = gammaLB b /\ gidI b' = gidI b /\ gidJ b' = gidJ b /\
  globalIndexI b' = globalIndexI b /\ globalIndexJ b' = globalIndexJ b /\ oneSide b' = oneSide b /\
  bilateral b' = bilateral b /\ kappa b' = kappa b /\ normI b' = normI b /\ normJ b' = normJ b /\
  posI b' = posI b /\ posJ b' = posJ b /\ labI b' = labI b /\ labJ b' = labJ b.

(** the six columns of a body are ints *)
Definition index_fits (g : Z) : Prop := (0 <= g /\ 6 * g + 5 <= 2147483647)%Z.
Definition block_fits {N : arith} (b : block N) : Prop :=
  index_fits (globalIndexI b) /\ (oneSide b = false -> index_fits (globalIndexJ b)).
