(** A step with the blocks collected by the code. *)
From Coq Require Import List ZArith Bool Reals Permutation.
From Flocq Require Import Core.
From Verif Require Import Outcome ListUtil Arith ParticleModel VecModel VecSpec PointsModel SylModel SylSpec IndexSpec ConModel BoundaryModel LinkModel LinkSpec NearModel NearSpec StepModel TreeModel TreeSpec LetModel LetSpec CallModel CallSpec CallContact QPModel QPSpec PipeModel PipeSpec WholeModel WholeSpec.
Import ListNotations.
Local Open Scope R_scope.

(** what prepareStep leaves: objects of sensible sizes in the box, each on its rank, numbered rank by rank *)
Record prepared (pa : vec bool) (m : nat) (b : domains R_arith) (ranks : list ranked) : Prop := {
  pd_box : fit_box pa (b_root b);
  pd_settled : settled b ranks;
  pd_fit : forall s, In s (objects ranks) -> fit_ready pa (b_root b) m s;
  pd_far : (Z.of_nat m <= 9000)%Z;
  pd_room : treeable (length (objects ranks) * S (copies pa m));
  pd_index : map (fun s => s_index s) (objects ranks) = IndexSpec.range 0 (length (objects ranks)) }.

(** links between objects with different ids: no link leads to an unknown object *)
Record linkable (root : ort R) (lk : lconfig) (ls : list (Z * Z)) (ranks : list ranked) : Prop := {
  lb_ids : NoDup (map s_gid (objects ranks));
  lb_known : forall l, In l ls -> In (fst l) (map s_gid (objects ranks)) -> In (snd l) (map s_gid (objects ranks));
  lb_box : forall d, (d < 3)%nat -> vget (lk_pbc lk) d = true -> vget (lk_low lk) d = vget (olow root) d /\ vget (lk_high lk) d = vget (ohigh root) d;
  lb_gap : lk_gap lk <= 2 ^ 100 }.

(** any schedule of the loops over n objects on a rank, any order of the links *)
Definition any_dealing (threads n : nat) (bs : list (boundary R_arith)) (ls : list (Z * Z)) (g : dealing) : Prop :=
  length (g_plan g) = length bs /\ Forall (fun op => Permutation (fst op) (seq 0 n) /\ forall i, (i < n)%nat -> (snd op i < threads)%nat) (g_plan g) /\
  Permutation (g_order g) (seq 0 n) /\ (forall i, (i < n)%nat -> (g_who g i < threads)%nat) /\ Permutation (g_links g) ls.

(** the blocks of a rank: contacts, then walls, then links *)
Definition gathered (pa : vec bool) (root : ort R) (buf : R) (bs : list (boundary R_arith)) (lk : lconfig) (ls : list (Z * Z)) (ranks : list ranked) (ss : list syl) (blocks : list (block R_arith)) : Prop :=
  exists pairs walls links js, Permutation blocks (pairs ++ walls ++ links) /\
    contacts pa root (tree_items ranks) (map (treeItem (N := R_arith)) ss) pairs /\
    walls = flat_map (fun b => flat_map (checkObject (N := R_arith) buf b) ss) bs /\
    Permutation js (links_of ss ls) /\ Forall2 (link_made lk (objects ranks)) js links.

(** an object as the contact search sees it *)
Definition rod (s : syl) : ep := copyFromFP (N := R_arith) s.

(** ** The collection of blocks in a step *)

(** what it works with: functor, neighbour search, threads, domains, buffer and boundaries, links, and what is left open *)
Record gear (Fo : Type) := Gear {
  x_func : list (item R_arith ep) -> list (item R_arith ep) -> list Fo -> list Fo; x_clear : Fo -> Fo; x_cast : nat -> cast R_arith ep Fo; x_threads : nat;
  x_pa : vec bool; x_limit : Z; x_group : Z; x_doms : domains R_arith; x_buf : R; x_bounds : list (boundary R_arith); x_link : lconfig;
  x_fresh : nearEP R_arith; x_junk : Z -> nearEP R_arith; x_dir : list (Z * nearEP R_arith); x_data : nat -> list (nearEP R_arith); x_deal : nat -> dealing }.
Arguments x_func {Fo}. Arguments x_clear {Fo}. Arguments x_cast {Fo}. Arguments x_threads {Fo}. Arguments x_pa {Fo}. Arguments x_limit {Fo}. Arguments x_group {Fo}. Arguments x_doms {Fo}.
Arguments x_buf {Fo}. Arguments x_bounds {Fo}. Arguments x_link {Fo}. Arguments x_fresh {Fo}. Arguments x_junk {Fo}. Arguments x_dir {Fo}. Arguments x_data {Fo}. Arguments x_deal {Fo}.

Definition gather {Fo} (x : gear Fo) (fuel fuel' : nat) : list ranked -> outcome (option (list (pool R_arith))) :=
  collectConstraints (N := R_arith) (collectPairCollision (N := R_arith) (x_func x) (x_clear x) (x_cast x) Ztrunc PI (x_threads x) fuel (x_pa x) (x_limit x) (x_group x) (x_doms x)) fuel'
    PI (x_buf x) (x_bounds x) (x_link x) (x_fresh x) (x_junk x) (x_dir x) (x_data x) (x_deal x).

(** everything ready for it, with links ls *)
Record set_up {Fo} (x : gear Fo) (m : nat) (ls : list (Z * Z)) (ranks : list ranked) : Prop := {
  su_prepared : prepared (x_pa x) m (x_doms x) ranks;
  su_links : linkable (b_root (x_doms x)) (x_link x) ls ranks;
  su_cast : forall r, any_cast (length ranks) (x_threads x) (x_limit x) (nth r (PipeSpec.sizes ranks) 0%nat) (x_cast x r);
  su_limit : (1 <= x_limit x <= x_group x)%Z;
  su_func : forall epi epj fs, length fs = length epi -> length (x_func x epi epj fs) = length fs;
  su_deal : forall r p, nth_error ranks r = Some p -> any_dealing (x_threads x) (length (pr_ptcl p)) (x_bounds x) ls (x_deal x r) }.

(** the blocks are few enough to be counted *)
Definition countable (collect : list ranked -> outcome (option (list (pool R_arith)))) (ranks : list ranked) : Prop :=
  forall pools, collect ranks = Done (Some pools) -> (Z.of_nat (length (concat (concat pools))) <= INT_MAX)%Z.

(** a step that has converged, with no magnitude at its upper bound *)
Definition converged_step {Fo} (x : gear Fo) (fuel fuel' : nat) (tenth : R) (c : stepConfig R_arith) (v : solveConfig R_arith) (fuel2 : nat) (y : nat -> fate R_arith) (fNB vNB : nat -> option (list R)) (ranks r1 r2 : list ranked) : Prop :=
  steady (fun _ => x_threads x) c v y fNB vNB ranks /\ plain c ranks /\ c_fixed c = false /\ countable (gather x fuel fuel') ranks /\
  exists ms pools hist, calcMobOperator (N := R_arith) ln PI (c_viscosity c) y ranks = Done ms /\
    runStepAll (N := R_arith) ln sin cos PI tenth c v fuel2 y ms fNB vNB (gather x fuel fuel') ranks = Done (Some (r1, r2, pools, hist)) /\ below v hist /\ Forall (fun k => gamma k <= most - margin) (concat (concat pools)).
