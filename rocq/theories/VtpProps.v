(** C42, C59: the snapshot files of objects and of constraints. *)
From Coq Require Import List Arith ZArith Bool Ascii String Reals Permutation.
From Verif Require Import Outcome F64 Arith ParticleModel ConModel VecModel VecSpec SylModel SylFloat RunModel VtpModel VtpSpec VtpProofs.
Import ListNotations.
Local Notation length := List.length.
Local Notation concat := List.concat.
Local Open Scope nat_scope.

(** ** C42 *)

(** one piece: two points and one line per object, every array of the right size, the header lists exactly its arrays, and item i shows
    object i in every field; [f32] (double to float) and the schedule of the loop are arbitrary *)
Theorem C42_piece : forall {N : arith} (f32 : N -> N) order (ss : list (sylinder N)) snapID nProcs, Permutation order (seq 0 (length ss)) ->
  exists p, writeVTP f32 order ss = Done p /\ n_lines p = length ss /\ wellSized p /\ describes (writePVTP (dec snapID) nProcs) p /\
    forall i s, nth_error ss i = Some s -> shows f32 p i s.
Proof. exact @snapshot_ok. Qed.
Print Assumptions C42_piece.

(** the headers name exactly the files written by the ranks, in rank order *)
Theorem C42_pieces : forall snapID nProcs,
  h_pieces (writePVTP (dec snapID) nProcs) = map (fun r => fileName (FPiece r snapID)) (seq 0 nProcs) /\
  h_pieces (writeConPVTP [] (dec snapID) nProcs) = map (fun r => fileName (FConPiece r snapID)) (seq 0 nProcs).
Proof. exact pieces_ok. Qed.
Print Assumptions C42_pieces.

(** restart: rank 0 gets all objects of all pieces in order, with the stored ids, the exact positions, the rounded sizes and velocities, and an
    orientation whose axis is the stored one; the other ranks get none. [perp a b]: a unit vector perpendicular to a. The orientation is
    not claimed for an axis within eps of, but not equal to, straight down. *)
Theorem C42_restart : forall (f32 : R -> R) (eps : R) perp fresh cont order orders (sss : list (list (sylinder R_arith))),
  (forall a b, norm3 (perp a b) = 1%R /\ dot3 (perp a b) a = 0%R) -> (0 < eps <= 1)%R -> sss <> [] ->
  Forall2 (fun o ss => Permutation o (seq 0 (length ss))) orders sss -> Permutation order (seq 0 (length (concat sss))) ->
  exists ps objs,
    Forall2 (fun oss p => writeVTP (N := R_arith) f32 (fst oss) (snd oss) = Done p) (combine orders sss) ps /\
    setInitialFromVTKFile (N := R_arith) eps perp fresh order 0 ps cont = Done objs /\
    length objs = length (concat sss) /\
    (forall i s, nth_error (concat sss) i = Some s -> exists t, nth_error objs i = Some t /\ restored f32 eps s t) /\
    (forall rank, rank > 0 -> setInitialFromVTKFile (N := R_arith) eps perp fresh order rank ps cont = Done []).
Proof. exact restart_ok. Qed.
Print Assumptions C42_restart.

(** such a [perp] exists *)
Theorem C42_perp : exists perp : vec R -> vec R -> vec R, forall a b, norm3 (perp a b) = 1%R /\ dot3 (perp a b) a = 0%R.
Proof. exact perp_exists. Qed.
Print Assumptions C42_perp.

Definition ex1 : sylinder F_arith := object 7 (f_lit 1 (-1)) (f_ofZ 4) (v3 1 2 3) upright.
Definition ex2 : sylinder F_arith := (* half a turn about x: the axis points down *)
  object 9 (f_ofZ 1) (f_ofZ 2) (v3 0 0 0) (Quat (N := F_arith) (f_ofZ 1) (f_ofZ 0) (f_ofZ 0) (f_ofZ 0)).
Definition val_eqb (a b : value F_arith) : bool :=
  match a, b with VI x, VI y => Z.eqb x y | VR x, VR y => feq x y | _, _ => false end.
Fixpoint vals_eqb (a b : list (value F_arith)) : bool :=
  match a, b with [], [] => true | x :: a, y :: b => val_eqb x y && vals_eqb a b | _, _ => false end.
Definition rz (z : Z) : value F_arith := VR (N := F_arith) (f_ofZ z).

Example C42_example :
  match writeVTP (N := F_arith) (fun x => x) [1; 0] [ex1; ex2] with
  | Done p => vals_eqb (a_data (p_points p)) (map rz [1; 2; 1; 1; 2; 5; 0; 0; 1; 0; 0; -1]%Z) &&
      match atCell p "gid" 1, atCell p "length" 0, atCell p "znorm" 1, atPoint p "endLabel" 3 with
      | Some g, Some l, Some z, Some e => vals_eqb g [VI 9%Z] && vals_eqb l [rz 4] && vals_eqb z (map rz [0; 0; -1]%Z) && vals_eqb e [VI 1%Z]
      | _, _, _, _ => false end
  | _ => false end = true.
Proof. vm_compute. reflexivity. Qed.
(** two ranks; the singular vector for the object pointing down is ey *)
Example C42_example_restart :
  match writeVTP (N := F_arith) (fun x => x) [0] [ex1], writeVTP (N := F_arith) (fun x => x) [0] [ex2] with
  | Done p, Done q =>
      match setInitialFromVTKFile (N := F_arith) (f_lit 1 (-40)) (fun _ _ => v3 0 1 0) ex1 [1; 0] 0 [p; q] [] with
      | Done [a; b] => Z.eqb (s_gid a) 7 && Z.eqb (s_gid b) 9 && veqb (spos a) (v3 1 2 3) && veqb (spos b) (v3 0 0 0) && feq (slength b) (f_ofZ 2) &&
          veqb (axis (N := F_arith) a) (v3 0 0 1) && veqb (axis (N := F_arith) b) (v3 0 0 (-1))
      | _ => false end
  | _, _ => false end = true.
Proof. vm_compute. reflexivity. Qed.

(** only the axis survives a restart: an object turned by half a turn about its own axis comes back without the turn *)
Theorem C42_roll_refuted : exists s : sylinder F_arith,
  match writeVTP (N := F_arith) (fun x => x) [0] [s] with
  | Done p => match setInitialFromVTKFile (N := F_arith) (f_lit 1 (-40)) (fun _ _ => v3 0 1 0) s [0] 0 [p] [] with
      | Done [t] => veqb (qrot (N := F_arith) (orient s) (v3 1 0 0)) (v3 (-1) 0 0) && veqb (qrot (N := F_arith) (orient t) (v3 1 0 0)) (v3 1 0 0)
      | _ => false end
  | _ => false end = true.
Proof. exists (object 7 (f_ofZ 1) (f_ofZ 4) (v3 1 2 3) (Quat (N := F_arith) (f_ofZ 0) (f_ofZ 0) (f_ofZ 1) (f_ofZ 0))). vm_compute. reflexivity. Qed.
Print Assumptions C42_roll_refuted.

(** ** C59 *)

(** the constraint piece lists the blocks of all queues in queue order, whatever the schedules of the two loops *)
Theorem C59_piece : forall {N : arith} (f32 : N -> N) o1 o2 (p : pool N) prefix snapID nProcs,
  Permutation o1 (seq 0 (length (concat p))) -> Permutation o2 (seq 0 (length p)) ->
  exists q, writeConVTP f32 o1 o2 p = Done q /\ n_lines q = length (concat p) /\ wellSized q /\ describes (writeConPVTP prefix (dec snapID) nProcs) q /\
    forall i b, nth_error (concat p) i = Some b -> showsBlock f32 q i b.
Proof. exact @con_snapshot_ok. Qed.
Print Assumptions C59_piece.

Definition blk (i j : Z) (x : Z) : block F_arith :=
  mkBlock (N := F_arith) (f_ofZ x) (f_ofZ 0) i j i j (v3 1 0 0) (v3 (-1) 0 0) (v3 0 0 0) (v3 0 0 0) (v3 x 0 0) (v3 0 x 0) false true (f_ofZ 100) (f_ofZ 0).
Example C59_example :
  match writeConVTP (N := F_arith) (fun x => x) [1; 2; 0] [2; 0; 1] [[blk 4 5 1]; []; [blk 6 7 2; blk 8 9 3]] with
  | Done p => match atPoint p "gid" 3, atCell p "delta0" 2, point p 4 with
      | Some g, Some d, Some x => vals_eqb g [VI 7%Z] && vals_eqb d [rz 3] && vals_eqb x (map rz [3; 0; 0]%Z)
      | _, _, _ => false end
  | _ => false end = true.
Proof. vm_compute. reflexivity. Qed.
