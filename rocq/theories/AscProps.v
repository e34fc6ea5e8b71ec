(** C78: a snapshot file in text form reads back as the objects and links that were written. *)
From Coq Require Import String List ZArith Reals Bool Lia Lra Permutation.
From Flocq Require Import Core BinarySingleNaN.
From Verif Require Import Outcome F64 Arith ParticleModel ConModel IndexModel VecModel VecSpec SylModel InitModel AscModel AscSpec AscText AscProofs AscMore.
From Verif Require VtpSpec.
Import ListNotations.
Local Open Scope Z_scope.

(** A finite double printed with "%.8g" and read with >> comes back to seven digits, and the next field is not touched. *)
Theorem C78_number : forall v rest, is_finite v = true -> (rest = [] \/ exists r, rest = 32 :: r) ->
  exists v', readDouble (32 :: fmtG8 v ++ rest) = (Some v', true, rest) /\ reread v v'.
Proof. exact number_ok. Qed.
Print Assumptions C78_number.

(** Printing the number that was read gives the same text again, so that files do not drift. *)
Theorem C78_fixpoint : forall v v' b l, is_finite v = true -> (bpow radix2 (-1021) <= Rabs (B2R v))%R ->
  readDouble (32 :: fmtG8 v) = (Some v', b, l) -> fmtG8 v' = fmtG8 v.
Proof. exact fixpoint_ok. Qed.
Print Assumptions C78_fixpoint.

(** Writing all ranks' objects and the links, then reading: rank 0 has every object once, in the order of the ranks, and the links are those written. *)
Theorem C78_file : forall eps perp us fresh order mem junk step dt sss links st,
  Forall (Forall writable) sss -> Forall (fun l => isInt (fst l) /\ isInt (snd l)) links -> Permutation order (seq 0 (length (concat sss))) ->
  exists text objs, writeAsciiFile junk step dt sss links = Done text /\
    setInitialFromFile eps perp us fresh order 0 text mem = Done objs /\ length objs = length (concat sss) /\
    (forall i s, nth_error (concat sss) i = Some s -> exists t m p, nth_error objs i = Some t /\ readBack s t m p /\ atRest t /\
       orient t = orient (objectOf (N := F_arith) eps perp (us i) 0 0 (radius t) m p 0)) /\
    (forall rank, (0 < rank)%nat -> setInitialFromFile eps perp us fresh order rank text mem = Done []) /\
    fwd (setLinkMapFromFile st (getlines text)) = links.
Proof. exact whole_file. Qed.
Print Assumptions C78_file.

(** In exact arithmetic the object made from two ends has these ends, its length is their distance, and its orientation is a unit quaternion. *)
Theorem C78_ends : forall (eps : R) (perp : vec R -> vec R -> vec R) u ty gid (r : R) (m p : vec R) g,
  (forall a b, VtpSpec.norm3 (perp a b) = 1 /\ dot3 (perp a b) a = 0)%R -> (0 < eps <= 1)%R ->
  let t := objectOf (N := R_arith) eps perp u ty gid r m p g in
  (slength t = distance m p /\ spos t = Vec ((vx m + vx p) / 2) ((vy m + vy p) / 2) ((vz m + vz p) / 2) /\
  (distance m p <= / 10000000 -> unitq (orient t) /\ axis (N := R_arith) t = Vec 0 0 1) /\
  (/ 10000000 < distance m p -> (-1 + eps <= (vz p - vz m) / distance m p \/ (vx p = vx m /\ vy p = vy m)) ->
     unitq (orient t) /\ minusEnd (N := R_arith) t = m /\ plusEnd (N := R_arith) t = p))%R.
Proof. exact objectOf_R. Qed.
Print Assumptions C78_ends.

(** When the numbers of the file are within d of the ends of an object, the centre is within d and the length within 4 d. *)
Theorem C78_error : forall (eps d : R) perp u ty gid (r : R) g (s : sylinder R_arith) (m p : vec R),
  unitq (orient s) -> (0 <= slength s)%R ->
  (forall k, (k < 3)%nat -> (Rabs (vget m k - vget (minusEnd (N := R_arith) s) k) <= d)%R) ->
  (forall k, (k < 3)%nat -> (Rabs (vget p k - vget (plusEnd (N := R_arith) s) k) <= d)%R) ->
  let t := objectOf (N := R_arith) eps perp u ty gid r m p g in
  (Rabs (slength t - slength s) <= 4 * d)%R /\ (forall k, (k < 3)%nat -> (Rabs (vget (spos t) k - vget (spos s) k) <= d)%R).
Proof. exact error_ok. Qed.
Print Assumptions C78_error.

(** A line without a group gives the group -1. *)
Theorem C78_default_group : forall s, writable s -> exists r m p,
  parseFields (lineWithoutGroup s) = Done (Fields (if immovable s then 83 else 67) (s_gid s) r m p (-1)) /\
  reread (radius s) r /\ reread3 (minusEnd s) m /\ reread3 (plusEnd s) p.
Proof. exact default_group. Qed.
Print Assumptions C78_default_group.

(** The time in the header is the time to six digits after the point. *)
Theorem C78_time : forall v, is_finite v = true -> (Rabs (B2R v) <= bpow radix2 1000)%R ->
  exists v', readDouble (32 :: fmtF6 v) = (Some v', true, []) /\ is_finite v' = true /\ (Rabs (B2R v' - B2R v) <= / 1000000 + Rabs (B2R v) * bpow radix2 (-52))%R.
Proof. intros v F B. rewrite <- (app_nil_r (fmtF6 v)). exact (time_ok v [] F B I). Qed.
Print Assumptions C78_time.

(** In a file written by hand, numbers may have a plus sign. *)
Theorem C78_plus : forall c r, 48 <= c <= 57 -> readDouble (32 :: 43 :: c :: r) = readDouble (32 :: c :: r).
Proof. exact plus_ok. Qed.
Print Assumptions C78_plus.

(** Lines after the header that start with something else than C or S are not read. *)
Theorem C78_other_lines : forall eps perp us fresh order rank h1 h2 a line b mem, Forall (fun l => ~ In 10 l) (h1 :: h2 :: a ++ line :: b) -> hd 0 line <> 67 -> hd 0 line <> 83 ->
  setInitialFromFile eps perp us fresh order rank (flat_map (fun l => l ++ [10]) (h1 :: h2 :: a ++ line :: b)) mem =
  setInitialFromFile eps perp us fresh order rank (flat_map (fun l => l ++ [10]) (h1 :: h2 :: a ++ b)) mem.
Proof. exact other_ok. Qed.
Print Assumptions C78_other_lines.

(** Not so when a remark follows the numbers: the group is 0 then. *)
Theorem C78_remark_refuted : exists line, match parseFields line with Done f => f_group f | _ => -1 end = 0 /\ line = codes "C 7 0.5 0 0 0 0 0 1 # fixed"%string.
Proof. exact remark_refuted. Qed.
Print Assumptions C78_remark_refuted.

(** An object with an infinite coordinate is written, but reading the file uses variables that were never set. *)
Theorem C78_infinite_refuted : exists s text, is_finite (radius s : f64) = true /\ (forall eps perp us fresh order mem,
  isUB (setInitialFromFile eps perp us fresh order 0 text mem) = true) /\ writeAsciiFile s 0 f_zero [[s]] [] = Done text.
Proof. exact infinite_refuted. Qed.
Print Assumptions C78_infinite_refuted.

(** ** Concrete cases *)

Definition v3 (a b c : Z) : vec f64 := Vec (f_ofZ a) (f_ofZ b) (f_ofZ c).
(** an object of length 2 along z at (1, 2, 3), one of length 0 at (-1.5, 0.1, 1000000) *)
Definition rod : sylinder F_arith :=
  Syl (N := F_arith) 7 4 1 3 true (f_lit 1 (-2)) (f_lit 1 (-2)) (f_ofZ 2) (f_ofZ 2) f_zero f_zero f_zero (v3 1 2 3) (Quat (N := F_arith) f_zero f_zero f_zero (f_ofZ 1))
    (Motion (v3 1 1 1) (v3 0 0 0) (v3 0 0 0) (v3 0 0 0) (v3 0 0 0) (v3 0 0 0) (v3 0 0 0) (v3 0 0 0) (v3 0 0 0) (v3 0 0 0) (v3 0 0 0) (v3 0 0 0) (v3 0 0 0) (v3 0 0 0) (v3 0 0 0) (v3 0 0 0) (v3 0 0 0) (v3 0 0 0)).
Definition ball : sylinder F_arith :=
  Syl (N := F_arith) 12 4 1 (-1) false (f_ofZ 1) (f_ofZ 1) f_zero f_zero f_zero f_zero f_zero (Vec (f_lit (-3) (-1)) (strtod false 1 (-1)) (f_ofZ 1000000)) (Quat (N := F_arith) f_zero f_zero f_zero (f_ofZ 1)) (mot rod).

Example C78_example_numbers :
  map fmtG8 [strtod false 1 (-1); strtod true 123456789 0; strtod false 99999999 (-12); strtod false 1 (-4); strtod false 1 5; dblMax; strtod false 314159265358979 (-14); B754_zero true] =
  map codes ["0.1"; "-1.2345679e+08"; "9.9999999e-05"; "0.0001"; "100000"; "1.7976931e+308"; "3.1415927"; "-0"]%string.
Proof. vm_compute. reflexivity. Qed.

Example C78_example_written :
  asText (writeAsciiFile ball 40 (strtod false 1 (-2)) [[rod]; []; [ball]] [(7, 12)]) =
  codes "2 " ++ [10] ++ codes " 0.400000" ++ [10] ++ codes "S 7 0.25 1 2 2 1 2 4 3" ++ [10] ++
  codes "C 12 1 -1.5 0.1 1000000 -1.5 0.1 1000000 -1" ++ [10] ++ codes "L 7 12" ++ [10].
Proof. vm_compute. reflexivity. Qed.

(** what the reader makes of this file: ids, groups, kinds, lengths and positions *)
Example C78_example_read :
  match setInitialFromFile (f_lit 1 (-40)) (fun a _ => a) (fun _ => Unset (N := F_arith) f_zero f_zero) ball [1; 0]%nat 0 (asText (writeAsciiFile ball 40 f_zero [[rod]; []; [ball]] [(7, 12)])) [] with
  | Done os => map (fun o : sylinder F_arith => (s_gid o, s_group o, immovable o, map fmtG8 [radius o : f64; slength o : f64; vx (spos o); vy (spos o); vz (spos o); vx (minusEnd o); vz (minusEnd o)])) os
  | _ => []
  end = [(7, 3, true, map codes ["0.25"; "2"; "1"; "2"; "3"; "1"; "2"]%string); (12, -1, false, map codes ["1"; "0"; "-1.5"; "0.1"; "1000000"; "-1.5"; "1000000"]%string)].
Proof. vm_compute. reflexivity. Qed.

Example C78_example_writable : Forall (Forall writable) [[rod]; []; [ball]].
Proof.
  repeat constructor; try (unfold isInt; cbn; lia); vm_compute; reflexivity.
Qed.
Example C78_example_times : map fmtF6 [strtod false 125 (-2); f_zero; strtod true 19999996 (-7); B754_infinity true] = map codes ["1.250000"; "0.000000"; "-2.000000"; "-inf"]%string /\
  map fmtG8 [B754_infinity false; B754_nan] = map codes ["inf"; "nan"]%string.
Proof. split; vm_compute; reflexivity. Qed.
Example C78_example_plus : option_map fmtG8 (fst (fst (readDouble (codes " +2.5e+1 "%string)))) = Some (codes "25"%string).
Proof. vm_compute. reflexivity. Qed.
