(** C79: the random number generator of FDPS. *)
From Coq Require Import List Arith ZArith Reals Lia Bool.
From Flocq Require Import Core BinarySingleNaN.
From Verif Require Import Outcome ListUtil F64 PointsModel ParticleModel MtModel MtSpec MtProofs MtMain.
Import ListNotations.
Local Open Scope Z_scope.

(** After seeding, any number of calls returns the numbers of MT19937, whatever was in memory before. *)
Theorem C79_stream : forall s g n, length (g_mt g) = 624%nat ->
  exists g0 g' ws, init_genrand s g = Done g0 /\ calls genrand_int32 n g0 = Done (ws, g') /\ length ws = n /\ outputs s ws.
Proof. exact stream_holds. Qed.
Print Assumptions C79_stream.

(** Without seeding, it is as if seeded with 5489. *)
Theorem C79_unseeded : forall junk n, length junk = 624%nat -> exists g' ws, calls genrand_int32 n (unseeded junk) = Done (ws, g') /\ length ws = n /\ outputs 5489 ws.
Proof. exact unseeded_holds. Qed.
Print Assumptions C79_unseeded.

(** initialize forgets the seed: the next numbers are again those of 5489. *)
Theorem C79_initialize : forall g n, length (g_mt g) = 624%nat -> exists g' ws, calls genrand_int32 n (initialize g) = Done (ws, g') /\ length ws = n /\ outputs 5489 ws.
Proof. exact initialize_holds. Qed.
Print Assumptions C79_initialize.

(** The numbers of a seed are determined by the recurrence. *)
Theorem C79_unique : forall s ws vs, outputs s ws -> outputs s vs -> length ws = length vs -> ws = vs.
Proof. exact unique_holds. Qed.
Print Assumptions C79_unique.

(** Seeds that differ in their low 32 bits, such as ranks, give numbers that differ within the first 624. *)
Theorem C79_seeds : forall s s' ws, length ws = 624%nat -> outputs s ws -> outputs s' ws -> s mod 2 ^ 32 = s' mod 2 ^ 32.
Proof. exact seeds_hold. Qed.
Print Assumptions C79_seeds.

(** The generator never gets stuck at zero. *)
Theorem C79_alive : forall s n ws, outputs s ws -> (n + 624 <= length ws)%nat -> exists k w, (n <= k < n + 624)%nat /\ nth_error ws k = Some w /\ w <> 0.
Proof. exact alive_holds. Qed.
Print Assumptions C79_alive.

(** genrand_res53 gives k * 2^-53 exactly, with the 53 bits k of two numbers. *)
Theorem C79_res53 : forall s g n, length (g_mt g) = 624%nat -> exists g0 g' ws, init_genrand s g = Done g0 /\ length ws = (2 * n)%nat /\ outputs s ws /\
  calls genrand_res53 n g0 = Done (map (fun k => f_lit k (-53)) (pairs53 ws), g') /\ length (pairs53 ws) = n /\ Forall (fun k => 0 <= k < 2 ^ 53) (pairs53 ws).
Proof. exact res53_holds. Qed.
Print Assumptions C79_res53.

(** The other functions stay in their intervals; the last two are exact. *)
Theorem C79_reals : forall g w g', genrand_int32 g = Done (w, g') -> 0 <= w < 2 ^ 32 ->
  genrand_int31 g = Done (w / 2, g') /\ 0 <= w / 2 < 2 ^ 31 /\
  (exists r, genrand_real1 g = Done (r, g') /\ is_finite r = true /\ (0 <= B2R r <= 1)%R) /\
  (exists r, genrand_real2 g = Done (r, g') /\ is_finite r = true /\ B2R r = (IZR w / IZR (2 ^ 32))%R /\ (0 <= B2R r < 1)%R) /\
  (exists r, genrand_real3 g = Done (r, g') /\ is_finite r = true /\ B2R r = ((IZR w + 1 / 2) / IZR (2 ^ 32))%R /\ (0 < B2R r < 1)%R).
Proof. exact reals_hold. Qed.
Print Assumptions C79_reals.

(** Sampling on a rank with the numbers of this generator: distinct particles, and the array is left as it was. *)
Theorem C79_sample : forall (P Pos : Type) (getPos : P -> Pos) (ptcl : list P) wanted rank g, length (g_mt g) = 624%nat -> 0 <= wanted -> Z.of_nat (length ptcl) <= INT_MAX ->
  exists g0 g' ks idx samples, ofRank rank g = Done g0 /\ calls genrand_res53 (Nat.min (Z.to_nat wanted) (length ptcl)) g0 = Done (map (fun k => f_lit k (-53)) ks, g') /\
    getSampleParticle getPos ptcl wanted ks = Done (samples, ptcl) /\ length samples = Nat.min (Z.to_nat wanted) (length ptcl) /\ NoDup idx /\
    Forall2 (fun i s => exists p, nth_error ptcl i = Some p /\ s = getPos p) idx samples.
Proof. exact @sample_holds. Qed.
Print Assumptions C79_sample.

(** ** Concrete cases *)

Definition look {V} (x : outcome (list V * gen)) : list V := match x with Done (l, _) => l | _ => [] end.
Definition from (s : Z) : gen := match init_genrand s (unseeded (repeat 7 624)) with Done g => g | _ => unseeded [] end.
(** the 10000th number of the default seed, as in the C++ standard *)
Example C79_example : nth 0 (look (calls genrand_int32 1 (unseeded (repeat 7 624)))) 0 = 3499211612 /\ nth (100 * 100 - 1) (look (calls genrand_int32 (100 * 100) (unseeded (repeat 7 624)))) 0 = 4123659995.
Proof. split; vm_compute; reflexivity. Qed.
Example C79_example_ranks : look (calls genrand_int32 2 (from 0)) = [2357136044; 2546248239] /\ look (calls genrand_int32 2 (from 1)) = [1791095845; 4282876139].
Proof. split; vm_compute; reflexivity. Qed.
Example C79_example_res53 : pairs53 [2357136044; 2546248239] = [4943272583565992] /\ map (fun r => flt r (f_ofZ 1)) (look (calls genrand_res53 3 (from 0))) = [true; true; true].
Proof. split; vm_compute; reflexivity. Qed.
