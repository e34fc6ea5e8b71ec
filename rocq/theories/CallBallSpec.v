(** Contacts of spheres found by calcForceAll in doubles, when no axis is periodic. *)
From Coq Require Import List ZArith Reals Permutation.
From Verif Require Import F64 Arith ParticleModel VecSpec NearModel ConModel TreeModel TreeSpec LetModel LetSpec CallSpec.
Import ListNotations.
Local Open Scope R_scope.

Definition fep := nearEP F_arith.
(** the numbers of an object *)
Definition spot (e : fep) : vec R := Vec (real (vx (e_pos e))) (real (vy (e_pos e))) (real (vz (e_pos e))).
(** the radius of the sphere that stands for a short object *)
Definition size (e : fep) : R := real (e_lengthCol e) / 2 + real (e_radiusCol e).
(** the gap between two spheres *)
Definition gap (e f : fep) : R := dist3 (spot e) (spot f) - (size e + size f).
(** an object that is treated as a sphere: sizes in range, a collision buffer between 2^-40 and 1, the collision size not larger than the size *)
Record ball_like (e : fep) : Prop := {
  b_fin : finite (e_radius e) /\ finite (e_length e) /\ finite (e_radiusCol e) /\ finite (e_lengthCol e) /\ finite (e_colBuf e);
  b_size : 0 <= real (e_radius e) <= 2 ^ 100 /\ 0 <= real (e_length e) <= 2 ^ 100;
  b_col : / 2 ^ 100 <= real (e_radiusCol e) <= 2 ^ 100 /\ 0 <= real (e_lengthCol e) < 2 * real (e_radiusCol e);
  b_buf : / 2 ^ 40 <= real (e_colBuf e) <= 1;
  b_cover : real (e_lengthCol e) + 2 * real (e_radiusCol e) <= real (e_length e) + 2 * real (e_radius e) \/ real (e_radiusCol e) <= real (e_lengthCol e) }.

(** the calls with the objects of the particles *)
Definition objects (calls : list (nat * (list (item F_arith fep) * list (item F_arith fep)))) : list (nat * (list fep * list fep)) :=
  map (fun c => (fst c, (map i_pay (fst (snd c)), map i_pay (snd (snd c))))) calls.
(** the two ids of a block *)
Definition ids (b : block F_arith) : Z * Z := (gidI b, gidJ b).
(** blocks of the particles own of a rank: each between one of them and a particle of larger id of any rank, no pair twice, and one for each pair of
    spheres that touch or overlap, whose gap is right up to 2^-49 of the sizes *)
Definition found (E : list (list (item F_arith fep))) (own : list (item F_arith fep)) (blocks : list (block F_arith)) : Prop :=
  NoDup (map ids blocks) /\
  (forall b, In b blocks -> exists e f, In e own /\ In f (concat E) /\ ids b = (e_gid (i_pay e), e_gid (i_pay f)) /\ (gidI b < gidJ b)%Z) /\
  forall e f, In e own -> In f (concat E) -> (e_gid (i_pay e) < e_gid (i_pay f))%Z -> ball_like (i_pay e) -> ball_like (i_pay f) -> gap (i_pay e) (i_pay f) <= 0 ->
    exists b, In b blocks /\ ids b = (e_gid (i_pay e), e_gid (i_pay f)) /\ finite (delta0 b) /\
      Rabs (real (delta0 b) - gap (i_pay e) (i_pay f)) <= / 2 ^ 49 * (size (i_pay e) + size (i_pay f)).
