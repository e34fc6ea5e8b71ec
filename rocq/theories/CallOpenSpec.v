(** What calcForceAll is to do in doubles, when no axis is periodic. *)
From Coq Require Import List ZArith Reals.
From Verif Require Import Arith ParticleModel TreeModel TreeSpec LetModel LetSpec CallSpec.
Import ListNotations.
Local Open Scope R_scope.

(** the box, the domains and the particles of the ranks: each particle in the domain of its rank, coordinates and search radii of sensible size, and the
    coordinates not more than 2^26 times the radius of some particle. With smaller radii the root cell may have no size (C69_lone_doubles_refuted). *)
Record arena_open {P} (root : ort F_arith) (doms : list (ort F_arith)) (E : list (list (item F_arith P))) : Prop := {
  w_box : open_box root;
  w_doms : forall d, In d doms -> finite_box d;
  w_E : length E = length doms;
  w_homes : homes_real root doms E;
  w_few : treeable (length (concat E));
  w_pos : forall e c, In e (concat E) -> In c coords -> finite (c (s_pos (i_site e))) /\ Rabs (real (c (s_pos (i_site e)))) <= 2 ^ 100;
  w_rad : forall e, In e (concat E) -> finite (s_rad (i_site e)) /\ 0 <= real (s_rad (i_site e)) <= 2 ^ 100;
  w_wide : concat E <> [] -> exists big, In big (concat E) /\ / 2 ^ 100 <= real (s_rad (i_site big)) /\
    forall e c, In e (concat E) -> In c coords -> Rabs (real (c (s_pos (i_site e)))) <= 2 ^ 26 * real (s_rad (i_site big)) }.
