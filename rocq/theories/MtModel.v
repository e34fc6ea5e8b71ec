(** The random number generator of FDPS (FDPS/MT.hpp), class MT; MTTS (FDPS/MT.hpp:223-381) is the same without the single instance. *)
From Coq Require Import List Arith ZArith.
From Verif Require Import Outcome ListUtil F64.
Import ListNotations.
Local Open Scope Z_scope.

(** MT_N, MT_M (FDPS/MT.hpp:58-61) *)
Definition MT_N : nat := 624.
(** see MT_N (FDPS/MT.hpp:58-61) *)
Definition MT_M : nat := 397.
(** MATRIX_A, UPPER_MASK, LOWER_MASK (FDPS/MT.hpp:62-66) *)
Definition MATRIX_A : Z := 0x9908b0df.
(** see MATRIX_A (FDPS/MT.hpp:62-66) *)
Definition UPPER_MASK : Z := 0x80000000.
(** see MATRIX_A (FDPS/MT.hpp:62-66) *)
Definition LOWER_MASK : Z := 0x7fffffff.
(** arithmetic of unsigned long, of 64 bits (FDPS/MT.hpp:69) *)
Definition u64 (z : Z) : Z := z mod 2 ^ 64.

(** mt and mti (FDPS/MT.hpp:68-69) *)
Record gen := Gen { g_mt : list Z; g_mti : nat }.
(** the constructor (FDPS/MT.hpp:70); the content of mt is left open *)
Definition unseeded (junk : list Z) : gen := Gen junk (MT_N + 1).
(** initialize (FDPS/MT.hpp:215-217) *)
Definition initialize (g : gen) : gen := Gen (g_mt g) (MT_N + 1).

(** the loop of init_genrand (FDPS/MT.hpp:173-177) *)
Definition seedStep (mt : list Z) (i : nat) : outcome (list Z) :=
  do p <- mread mt (i - 1);
  do mt <- mwrite mt i (u64 (u64 (1812433253 * Z.lxor p (Z.shiftr p 30)) + Z.of_nat i));
  do x <- mread mt i;
  mwrite mt i (Z.land x 0xffffffff).
(** init_genrand (FDPS/MT.hpp:167-178) *)
Definition init_genrand (s : Z) (g : gen) : outcome gen :=
  do mt <- mwrite (g_mt g) 0 (Z.land s 0xffffffff);
  do mt <- ofold seedStep (seq 1 (MT_N - 1)) mt;
  Done (Gen mt MT_N).

(** mag01[y & 1] (FDPS/MT.hpp:131-132) *)
Definition mag01 (i : Z) : Z := if i =? 0 then 0 else MATRIX_A.
(** one word replaced: mt[kk] from mt[kk], mt[next] and mt[from] (FDPS/MT.hpp:140-149) *)
Definition twistWord (mt : list Z) (kk next from : nat) : outcome (list Z) :=
  do a <- mread mt kk;
  do b <- mread mt next;
  let y := Z.lor (Z.land a UPPER_MASK) (Z.land b LOWER_MASK) in
  do c <- mread mt from;
  mwrite mt kk (Z.lxor (Z.lxor c (Z.shiftr y 1)) (mag01 (Z.land y 1))).
(** all words replaced (FDPS/MT.hpp:140-149); kk + (MT_M - MT_N) with kk >= MT_N - MT_M *)
Definition twist (mt : list Z) : outcome (list Z) :=
  do mt <- ofold (fun mt kk => twistWord mt kk (kk + 1) (kk + MT_M)) (seq 0 (MT_N - MT_M)) mt;
  do mt <- ofold (fun mt kk => twistWord mt kk (kk + 1) (kk - (MT_N - MT_M))) (seq (MT_N - MT_M) (MT_M - 1)) mt;
  twistWord mt (MT_N - 1) 0 (MT_M - 1).
(** the tempering (FDPS/MT.hpp:157-160) *)
Definition tempering (y : Z) : Z :=
  let y := Z.lxor y (Z.shiftr y 11) in
  let y := Z.lxor y (Z.land (u64 (Z.shiftl y 7)) 0x9d2c5680) in
  let y := Z.lxor y (Z.land (u64 (Z.shiftl y 15)) 0xefc60000) in
  Z.lxor y (Z.shiftr y 18).
(** genrand_int32 (FDPS/MT.hpp:128-163) *)
Definition genrand_int32 (g : gen) : outcome (Z * gen) :=
  do g <- if (MT_N <=? g_mti g)%nat then
            do g <- if (g_mti g =? MT_N + 1)%nat then init_genrand 5489 g else Done g;
            do mt <- twist (g_mt g);
            Done (Gen mt 0)
          else Done g;
  do y <- mread (g_mt g) (g_mti g);
  Done (tempering y, Gen (g_mt g) (g_mti g + 1)).

(** genrand_int31 (FDPS/MT.hpp:181-184) *)
Definition genrand_int31 (g : gen) : outcome (Z * gen) := do (y, g) <- genrand_int32 g; Done (Z.shiftr y 1, g).
(** genrand_real1 (FDPS/MT.hpp:187-191) *)
Definition genrand_real1 (g : gen) : outcome (f64 * gen) :=
  do (y, g) <- genrand_int32 g; Done (fmul (f_ofZ y) (fdiv (f_ofZ 1) (f_ofZ 4294967295)), g).
(** genrand_real2 (FDPS/MT.hpp:194-198) *)
Definition genrand_real2 (g : gen) : outcome (f64 * gen) :=
  do (y, g) <- genrand_int32 g; Done (fmul (f_ofZ y) (fdiv (f_ofZ 1) (f_ofZ 4294967296)), g).
(** genrand_real3 (FDPS/MT.hpp:201-205) *)
Definition genrand_real3 (g : gen) : outcome (f64 * gen) :=
  do (y, g) <- genrand_int32 g; Done (fmul (fadd (f_ofZ y) (f_lit 1 (-1))) (fdiv (f_ofZ 1) (f_ofZ 4294967296)), g).
(** genrand_res53 (FDPS/MT.hpp:208-212) *)
Definition genrand_res53 (g : gen) : outcome (f64 * gen) :=
  do (y, g) <- genrand_int32 g;
  do (z, g) <- genrand_int32 g;
  let a := Z.shiftr y 5 in
  let b := Z.shiftr z 6 in
  Done (fmul (fadd (fmul (f_ofZ a) (f_ofZ 67108864)) (f_ofZ b)) (fdiv (f_ofZ 1) (f_ofZ 9007199254740992)), g).

(** n calls of a generator function one after the other, as in the loop that draws samples (FDPS/particle_system.hpp:596-602) *)
Fixpoint calls {V} (f : gen -> outcome (V * gen)) (n : nat) (g : gen) : outcome (list V * gen) :=
  match n with
  | O => Done ([], g)
  | S n => do (v, g) <- f g; do (vs, g) <- calls f n g; Done (v :: vs, g)
  end.
(** the generator of a rank: ParticleSystem::initialize seeds it with the rank (FDPS/particle_system.hpp:85) *)
Definition ofRank (rank : Z) (g : gen) : outcome gen := init_genrand rank g.
