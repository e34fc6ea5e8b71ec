(** Properties C19 (assembled matrix), C20 (write back), C26 (stress totals),
    C51 (reversing a block). *)
From Coq Require Import List Arith ZArith Reals Bool Permutation.
From Verif Require Import Outcome ListUtil F64 ParticleModel IndexModel Arith ConModel ConSpec ConProofs.
Import ListNotations.

(** ** C19 *)

(** On each rank, for every distribution of the blocks over queues and every schedule of the
    parallel loops: the code runs without undefined behaviour, row i belongs to block i (queue
    by queue), acts on the bodies as the block does, and the vectors hold the block's values.
    [lo],[hi]: the rank's mobility rows; the column map is duplicate free and contains them. *)
Theorem C19_rows : forall order1 order2 junk lo hi (p : pool R_arith),
  Permutation order1 (seq 0 (length p)) -> Permutation order2 (seq 0 (length p)) ->
  Forall (Forall block_fits) p -> (lo <= hi + 1)%Z -> (hi - lo + 1 <= 2147483647)%Z ->
  exists m v, buildConstraintMatrixVector order1 order2 junk lo hi p = Done (m, v) /\
    length (rowPtr m) = S (length (concat p)) /\ length v = length (concat p) /\
    NoDup (colMap m) /\ (forall c, (lo <= c <= hi)%Z -> In c (colMap m)) /\
    Forall (fun e => fst e < length (colMap m)) (entries m) /\
    forall i b, nth_error (concat p) i = Some b ->
      (forall x body d, d < 6 ->
        Rsum (map (fun e : Z * R => if (fst e =? 6 * body + Z.of_nat d)%Z then (snd e * x)%R else 0%R) (crsRow m i))
        = block_load b x body d) /\
      exists row, nth_error v i = Some row /\ r_delta0 row = delta0 b /\ r_gammaGuess row = gamma b /\
        r_invKappa row = (if bilateral b then if Rlt_dec 0 (kappa b) then / kappa b else 0 else 0)%R /\
        r_biFlag row = (if bilateral b then 1 else 0)%R.
Proof. exact rows_ok. Qed.
Print Assumptions C19_rows.

(** All ranks together: rows are numbered by rank, queue and position; the product with a
    vector of magnitudes puts on every body exactly the loads of the blocks it takes part in. *)
Theorem C19_force : forall (pools : list (pool R_arith)) order1 order2 junk lo hi,
  (forall r p, nth_error pools r = Some p ->
     Permutation (order1 r) (seq 0 (length p)) /\ Permutation (order2 r) (seq 0 (length p)) /\
     Forall (Forall block_fits) p /\ (lo r <= hi r + 1)%Z /\ (hi r - lo r + 1 <= 2147483647)%Z) ->
  (Z.of_nat (length (concat (map (@concat _) pools))) <= 2147483647)%Z ->
  exists mats rows, length mats = length pools /\
    (forall r p, nth_error pools r = Some p -> exists m v, nth_error mats r = Some m /\
       buildConstraintMatrixVector (order1 r) (order2 r) junk (lo r) (hi r) p = Done (m, v)) /\
    getTMAPFromLocalSize (map (fun p => length (concat p)) pools) = Done rows /\
    forall gs body d, length gs = length (concat (map (@concat _) pools)) -> d < 6 ->
      Rsum (map (fun mr : crs R_arith * list Z => crsTransApply (fst mr) (map (fun i => nth (Z.to_nat i) gs 0%R) (snd mr)) (6 * body + Z.of_nat d)%Z)
                (combine mats rows))
      = total_load (concat (map (@concat _) pools)) gs body d.
Proof. exact all_ranks_force. Qed.
Print Assumptions C19_force.

(** clearing leaves one empty queue per thread, however many there were *)
Theorem C19_clear : forall (N : arith) (p : pool N) threads, clear p threads = repeat [] threads.
Proof. exact @clear_ok. Qed.
Print Assumptions C19_clear.

(** two queues: a two-sided block joining bodies 0 and 2 and a one-sided block on body 1 *)
Definition exV (x y z : Z) : vec f64 := Vec (f_ofZ x) (f_ofZ y) (f_ofZ z).
Definition exB1 : block F_arith :=
  mkBlock (N := F_arith) (f_lit (-1) (-2)) (f_lit 1 (-2)) 7 9 0 2 (exV 1 0 0) (exV (-1) 0 0) (exV 1 2 0) (exV 0 0 3)
          (exV 0 0 0) (exV 0 0 0) false true (f_ofZ 4) (f_ofZ 0).
Definition exB2 : block F_arith :=
  mkBlock (N := F_arith) (f_ofZ 2) (f_ofZ 0) 8 8 1 (-1) (exV 0 1 0) (exV 0 0 0) (exV 1 0 0) (exV 0 0 0)
          (exV 0 0 0) (exV 0 0 0) true false (f_ofZ 0) (f_ofZ 0).
Example C19_example :
  match buildConstraintMatrixVector (N := F_arith) [1; 0] [0; 1] (0%Z, f_ofZ 0) 6 11 [[exB1]; [exB2]] with
  | Done (m, v) =>
      rowPtr m = [0; 12; 18] /\ colMap m = map Z.of_nat (seq 0 18) /\
      map fst (crsRow m 1) = [6; 7; 8; 9; 10; 11]%Z /\
      map (fun e : Z * F_arith => feq (snd e) (f_ofZ (nth (Z.to_nat (fst e)) [1; 0; 0; 0; 0; -2; 0; 0; 0; 0; 0; 0; -1; 0; 0; 0; -3; 0]%Z 0%Z))) (crsRow m 0)
        = repeat true 12 /\
      map (fun r : conRow F_arith => feq (r_invKappa r) (f_lit 1 (-2))) v = [true; false] /\ map (fun r : conRow F_arith => feq (r_biFlag r) (f_ofZ 1)) v = [true; false]
  | _ => False
  end.
Proof. vm_compute. repeat split. Qed.

(** ** C20 *)

(** Writing back gives block i the magnitude of row i and scales its stress by it once;
    queue sizes, order and all other fields are unchanged (in any arithmetic, for every
    schedule). *)
Theorem C20_write_back : forall (N : arith) order (g : list N) (p : pool N),
  Permutation order (seq 0 (length p)) -> length g = length (concat p) ->
  exists p', writeBackGamma order g p = Done p' /\ map (@length _) p' = map (@length _) p /\
    forall i b x, nth_error (concat p) i = Some b -> nth_error g i = Some x ->
      exists b', nth_error (concat p') i = Some b' /\ scaled b x b'.
Proof. exact @writeBack_spec. Qed.
Print Assumptions C20_write_back.

Example C20_example :
  match writeBackGamma (N := F_arith) [1; 0] [f_ofZ 5; f_ofZ 6; f_ofZ 7] [[exB1; exB1]; [exB2]] with
  | Done [[a; b]; [c]] => feq (gamma a) (f_ofZ 5) && feq (gamma b) (f_ofZ 6) && feq (gamma c) (f_ofZ 7) && (gidI c =? 8)%Z = true
  | _ => False
  end.
Proof. vm_compute. reflexivity. Qed.

(** ** C26 *)

(** For every distribution over queues and every order in which the queues are reduced. *)
Theorem C26_stress : forall order (p : pool R_arith) withOneSide,
  Permutation order (seq 0 (length p)) -> Forall (Forall (fun b => length (stress b) = 9)) p ->
  exists uni bi, sumLocalConstraintStress order p withOneSide = Done (uni, bi) /\
    forall i j, i < 3 -> j < 3 ->
      mget uni i j = stress_sum withOneSide false (concat p) i j /\
      mget bi i j = stress_sum withOneSide true (concat p) i j.
Proof. exact stress_spec. Qed.
Print Assumptions C26_stress.

(** Hence two collectors holding the same blocks, split and scheduled differently, agree. *)
Theorem C26_split_independent : forall o1 o2 (p1 p2 : pool R_arith) w,
  Permutation o1 (seq 0 (length p1)) -> Permutation o2 (seq 0 (length p2)) ->
  Forall (Forall (fun b => length (stress b) = 9)) p1 -> Forall (Forall (fun b => length (stress b) = 9)) p2 ->
  Permutation (concat p1) (concat p2) ->
  sumLocalConstraintStress o1 p1 w = sumLocalConstraintStress o2 p2 w.
Proof. exact stress_split. Qed.
Print Assumptions C26_split_independent.

(** In doubles the totals do depend on the schedule: 2^60, 1, -2^60 in three queues. *)
Definition exS (x : f64) : block F_arith :=
  withGammaStress (N := F_arith) exB1 (f_ofZ 1) (x :: repeat (f_ofZ 0) 8).
Definition exPool : pool F_arith := [[exS (f_lit 1 60)]; [exS (f_ofZ 1)]; [exS (f_lit (-1) 60)]].
Theorem C26_doubles_schedule_refuted : exists (o1 o2 : list nat) (p : pool F_arith),
  Permutation o1 (seq 0 (length p)) /\ Permutation o2 (seq 0 (length p)) /\
  match sumLocalConstraintStress o1 p false, sumLocalConstraintStress o2 p false with
  | Done (_, b1), Done (_, b2) => feq (mget b1 0 0) (f_ofZ 0) = true /\ feq (mget b2 0 0) (f_ofZ 1) = true
  | _, _ => False
  end.
Proof.
  exists [0; 1; 2], [0; 2; 1], exPool. split; [apply Permutation_refl|]. split; [apply perm_skip, perm_swap|].
  vm_compute. split; reflexivity.
Qed.
Print Assumptions C26_doubles_schedule_refuted.

Example C26_example :
  match sumLocalConstraintStress (N := F_arith) [1; 0] [[exS (f_ofZ 3)]; [exS (f_ofZ 4); exB2]] false with
  | Done (u, b) => feq (mget b 0 0) (f_ofZ 7) && feq (mget u 0 0) (f_ofZ 0) = true
  | _ => False
  end.
Proof. vm_compute. reflexivity. Qed.

(** ** C51 *)

Theorem C51_reverse : forall (N : arith) (b : block N),
  reverseIJ (reverseIJ b) = b /\
  let r := reverseIJ b in
  (gidI r, gidJ r, globalIndexI r, globalIndexJ r) = (gidJ b, gidI b, globalIndexJ b, globalIndexI b) /\
  (normI r, normJ r, posI r, posJ r, labI r, labJ r) = (normJ b, normI b, posJ b, posI b, labJ b, labI b) /\
  (delta0 r, gamma r, gammaLB r, kappa r, oneSide r, bilateral r, stress r) =
  (delta0 b, gamma b, gammaLB b, kappa b, oneSide b, bilateral b, stress b).
Proof. exact @reverse_ok. Qed.
Print Assumptions C51_reverse.

Theorem C51_stress : forall (N : arith) (b : block N) (m : mat3 N) s, length (stress b) = 9 -> length s = 9 ->
  (exists b', setStressMat b m = Done b' /\ getStressMat b' = Done m /\ stress b' = 
     [mget m 0 0; mget m 0 1; mget m 0 2; mget m 1 0; mget m 1 1; mget m 1 2; mget m 2 0; mget m 2 1; mget m 2 2]) /\
  (exists b', setStressPtr b s = Done b' /\ stress b' = s).
Proof. exact @stress_roundtrip. Qed.
Print Assumptions C51_stress.

(** A two-sided block acts the same on the bodies after reversal. *)
Theorem C51_reverse_load : forall (b : block R_arith) x body d, oneSide b = false ->
  block_load (reverseIJ b) x body d = block_load b x body d.
Proof. exact reverse_load. Qed.
Print Assumptions C51_reverse_load.

Example C51_example : globalIndexI (reverseIJ exB1) = 2%Z /\ gidJ (reverseIJ exB1) = 7%Z /\ posI (reverseIJ exB1) = exV 0 0 3.
Proof. repeat split. Qed.
