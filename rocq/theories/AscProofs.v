(** Reading a snapshot file gives the objects and links that were written. *)
From Coq Require Import String List ZArith Reals Bool Lia Lra Permutation.
From Flocq Require Import Core BinarySingleNaN.
From Verif Require Import Outcome ListUtil F64 Arith MPIModel PointsModel ParticleModel IndexModel IndexProofs VecModel SylModel SylSpec StepModel StepProofs VtpModel VtpProofs InitModel CallSort SylProofs.
From Verif Require Import VecSpec VecProofs ConModel.
From Verif Require VtpSpec.
From Verif Require Import AscModel AscSpec AscNum AscText.
Import ListNotations.
Local Open Scope Z_scope.

(** ** lines *)
Definition clean (l : list Z) : Prop := Forall (fun c => c <> 10) l.
Lemma clean_app a b : clean a -> clean b -> clean (a ++ b). Proof. intros A B. apply Forall_app. split; assumption. Qed.
Lemma clean_dig l : Forall dig l -> clean l.
Proof. intros F. eapply Forall_impl; [|exact F]. unfold dig. cbn beta. intros. lia. Qed.
Lemma clean_sub a b : clean (a ++ b) -> clean a. Proof. intros H. apply Forall_app in H. apply H. Qed.
Lemma clean_firstn k l : clean l -> clean (firstn k l).
Proof. intros H. rewrite <- (firstn_skipn k l) in H. apply Forall_app in H. apply H. Qed.
Lemma clean_skipn k l : clean l -> clean (skipn k l).
Proof. intros H. rewrite <- (firstn_skipn k l) in H. apply Forall_app in H. apply H. Qed.
Lemma clean_strip l : clean l -> clean (stripZeros l).
Proof. intros H. destruct (stripZeros_spec l) as (k & E). rewrite E in H. apply clean_sub in H. exact H. Qed.
Lemma clean_cons c l : c <> 10 -> clean l -> clean (c :: l). Proof. intros A B. constructor; assumption. Qed.
Lemma clean_nil : clean []. Proof. constructor. Qed.
Lemma clean_pointed a b : clean a -> clean b -> clean (pointed a b).
Proof.
  intros A B. unfold pointed. apply clean_app; [exact A|]. pose proof (clean_strip b B) as C. destruct (stripZeros b); [constructor|].
  apply clean_cons; [lia|exact C].
Qed.
Lemma clean_sign s : clean (fmtSign s). Proof. destruct s; repeat constructor; lia. Qed.
Lemma clean_digitsN n z : clean (digitsN n z). Proof. apply clean_dig, digitsN_dig. Qed.
Lemma clean_repeat n : clean (repeat 48 n).
Proof. apply Forall_forall. intros c H. apply repeat_spec in H. lia. Qed.
Lemma clean_fmtDec M X : clean (fmtDec M X).
Proof.
  unfold fmtDec. cbv zeta. pose proof (clean_digitsN 8 M) as D. destruct (_ && _); [destruct (X <? 0)|].
  - apply clean_pointed; [repeat constructor; lia|]. apply clean_app; [apply clean_repeat|exact D].
  - apply clean_pointed; [apply clean_firstn, D|apply clean_skipn, D].
  - apply clean_app; [apply clean_pointed; [apply clean_firstn, D|apply clean_skipn, D]|].
    apply clean_cons; [lia|]. apply clean_cons; [destruct (X <? 0); lia|]. apply clean_digitsN.
Qed.
Lemma clean_fmtG8 v : clean (fmtG8 v).
Proof.
  destruct v as [s|s| |s m e H]; cbn [fmtG8].
  - apply clean_app; [apply clean_sign|repeat constructor; lia].
  - apply clean_app; [apply clean_sign|repeat constructor; lia].
  - repeat constructor; lia.
  - destruct (ratio m e) as [n d]. destruct (dec8 n d) as [M X]. apply clean_app; [apply clean_sign|apply clean_fmtDec].
Qed.
Lemma clean_fmtDigits f : forall n, 0 <= n -> clean (fmtDigits f n).
Proof.
  induction f as [|f IH]; intros n Hn; cbn [fmtDigits]; [constructor|]. destruct (Z.ltb_spec n 10).
  - repeat constructor. lia.
  - apply clean_app; [apply IH, Z.div_pos; lia|]. repeat constructor. pose proof (Z.mod_pos_bound n 10). lia.
Qed.
Lemma clean_fmtInt n : clean (fmtInt n).
Proof. unfold fmtInt. destruct (Z.ltb_spec n 0); [apply clean_cons; [lia|]|]; apply clean_fmtDigits; lia. Qed.
Lemma nearestInt_pos n d : 0 < n -> 0 < d -> 0 <= nearestInt n d.
Proof. intros Hn Hd. pose proof (Z.div_pos n d ltac:(lia) Hd). unfold nearestInt. cbv zeta. destruct (_ <? _); [lia|]. destruct (_ <? _); [lia|]. destruct (Z.even _); lia. Qed.
Lemma clean_fmtF6 v : clean (fmtF6 v).
Proof.
  destruct v as [s|s| |s m e H]; cbn [fmtF6].
  - apply clean_app; [apply clean_sign|]. apply clean_app; [repeat constructor; lia|apply clean_repeat].
  - apply clean_app; [apply clean_sign|repeat constructor; lia].
  - repeat constructor; lia.
  - pose proof (ratio_ok m e) as R. destruct (ratio m e) as [n d]. destruct R as (Hn & Hd & _). apply clean_app; [apply clean_sign|].
    apply clean_app; [|apply clean_cons; [lia|apply clean_digitsN]]. apply clean_fmtDigits. apply Z.div_pos; [|lia].
    unfold scaledInt. change (0 <=? 6) with true. cbv iota. apply nearestInt_pos; [change (10 ^ 6) with 1000000; lia|exact Hd].
Qed.

Lemma getlines_line a r : clean a -> getlines (a ++ 10 :: r) = a :: getlines r.
Proof.
  induction 1 as [|c a Hc F IH]; cbn [app getlines]; [reflexivity|]. destruct (Z.eqb_spec c 10); [contradiction|]. rewrite IH. reflexivity.
Qed.
Lemma getlines_lines {A} (f : A -> list Z) l r : (forall a, clean (f a)) -> getlines (flat_map (fun a => f a ++ [10]) l ++ r) = map f l ++ getlines r.
Proof.
  intros H. induction l as [|a l IH]; [reflexivity|]. cbn [flat_map map app]. rewrite <- !app_assoc. cbn [app]. rewrite getlines_line by apply H. rewrite IH. reflexivity.
Qed.

(** ** one object *)
Definition objectLine (s : sylinder F_arith) : list Z :=
  (if immovable s then 83 else 67) :: 32 :: fmtInt (s_gid s) ++
  flat_map (fun v => 32 :: fmtG8 v) [radius s; vx (minusEnd s); vy (minusEnd s); vz (minusEnd s); vx (plusEnd s); vy (plusEnd s); vz (plusEnd s)] ++
  32 :: fmtInt (s_group s).
Lemma fmtObject_line s : fmtObject s = objectLine s ++ [10].
Proof. unfold fmtObject, objectLine. cbn [app]. do 2 f_equal. rewrite <- !app_assoc. reflexivity. Qed.
Lemma clean_object s : clean (objectLine s).
Proof.
  unfold objectLine. apply clean_cons; [destruct (immovable s); lia|]. apply clean_cons; [lia|]. apply clean_app; [apply clean_fmtInt|].
  apply clean_app; [|apply clean_cons; [lia|apply clean_fmtInt]]. cbn [flat_map].
  repeat (apply clean_cons; [lia|]; apply clean_app; [apply clean_fmtG8|]). constructor.
Qed.

Lemma isInt_range z : isInt z -> INT_MIN <= z <= INT_MAX.
Proof. unfold isInt, INT_MIN, INT_MAX. change (2 ^ 31) with 2147483648. lia. Qed.
Lemma skip_fmtInt n rest : isInt n -> exists c r, skipWs (32 :: fmtInt n ++ rest) = c :: r /\ c :: r = fmtInt n ++ rest.
Proof.
  intros H. unfold isInt in H. change (2 ^ 31) with 2147483648 in H. change (skipWs (32 :: fmtInt n ++ rest)) with (skipWs (fmtInt n ++ rest)).
  unfold fmtInt. destruct (Z.ltb_spec n 0).
  - exists 45, (fmtDigits 10 (- n) ++ rest). split; reflexivity.
  - destruct (fmtDigits_spec 10 n) as (A & F & _); [change (10 ^ Z.of_nat 10) with 10000000000; lia|lia|].
    destruct (fmtDigits 10 n) as [|c ds]; [contradiction|]. pose proof (Forall_inv F) as Hc. exists c, (ds ++ rest). split; [apply dig_space, Hc|reflexivity].
Qed.
Lemma readInt'_fmt n rest : isInt n -> stops rest -> readInt' (32 :: fmtInt n ++ rest) = (Some n, true, rest).
Proof.
  intros H HR. unfold readInt'. destruct (skip_fmtInt n rest H) as (c & r & E1 & E2). rewrite E1.
  assert (RI : readInt (c :: r) = (n, true, rest)).
  { rewrite E2. assert (E3 : readInt (32 :: fmtInt n ++ rest) = readInt (fmtInt n ++ rest)) by reflexivity. rewrite <- E3.
    apply readInt_fmt; [apply isInt_range, H|]. destruct rest; [exact I|apply HR]. }
  rewrite RI. reflexivity.
Qed.
Lemma extract_int n rest : isInt n -> stops rest -> extract readInt' (true, 32 :: fmtInt n ++ rest) = (Some n, (true, rest)).
Proof. intros H HR. unfold extract. cbn [fst snd]. rewrite readInt'_fmt by assumption. reflexivity. Qed.
Lemma extract_num v rest : is_finite v = true -> stops rest -> exists v', extract readDouble (true, 32 :: fmtG8 v ++ rest) = (Some v', (true, rest)) /\ reread v v'.
Proof. intros H HR. destruct (reread_ok v rest H HR) as (v' & E & R). exists v'. unfold extract. cbn [fst snd]. rewrite E. split; [reflexivity|exact R]. Qed.
Lemma stops_space r : stops (32 :: r). Proof. cbn. repeat split; try lia; reflexivity. Qed.

Lemma parse_object s : writable s -> exists r m p,
  parseFields (objectLine s) = Done (Fields (if immovable s then 83 else 67) (s_gid s) r m p (s_group s)) /\ reread (radius s) r /\ reread3 (minusEnd s) m /\ reread3 (plusEnd s) p.
Proof.
  intros (H1 & H2 & H3 & (H4 & H5 & H6) & (H7 & H8 & H9)). unfold objectLine, parseFields.
  set (ty := if immovable s then 83 else 67). assert (HT : forall l, skipWs (ty :: l) = ty :: l) by (intros l; unfold ty; destruct (immovable s); reflexivity).
  rewrite HT. cbn [flat_map]. rewrite app_nil_r.
  repeat (rewrite <- app_assoc || rewrite <- app_comm_cons).
  rewrite extract_int by (try assumption; apply stops_space).
  assert (SR : forall v rest, stops (32 :: fmtG8 v ++ rest)) by (intros; apply stops_space).
  match goal with |- context [extract readDouble (true, 32 :: fmtG8 ?v ++ ?rest)] => destruct (extract_num v rest H3 ltac:(apply stops_space)) as (r & E & Rr); rewrite E; clear E end.
  match goal with |- context [extract readDouble (true, 32 :: fmtG8 ?v ++ ?rest)] => destruct (extract_num v rest H4 ltac:(apply stops_space)) as (m1 & E & R1); rewrite E; clear E end.
  match goal with |- context [extract readDouble (true, 32 :: fmtG8 ?v ++ ?rest)] => destruct (extract_num v rest H5 ltac:(apply stops_space)) as (m2 & E & R2); rewrite E; clear E end.
  match goal with |- context [extract readDouble (true, 32 :: fmtG8 ?v ++ ?rest)] => destruct (extract_num v rest H6 ltac:(apply stops_space)) as (m3 & E & R3); rewrite E; clear E end.
  match goal with |- context [extract readDouble (true, 32 :: fmtG8 ?v ++ ?rest)] => destruct (extract_num v rest H7 ltac:(apply stops_space)) as (q1 & E & R4); rewrite E; clear E end.
  match goal with |- context [extract readDouble (true, 32 :: fmtG8 ?v ++ ?rest)] => destruct (extract_num v rest H8 ltac:(apply stops_space)) as (q2 & E & R5); rewrite E; clear E end.
  match goal with |- context [extract readDouble (true, 32 :: fmtG8 ?v ++ ?rest)] => destruct (extract_num v rest H9 ltac:(apply stops_space)) as (q3 & E & R6); rewrite E; clear E end.
  pose proof (extract_int (s_group s) [] H2 I) as EG. rewrite app_nil_r in EG. rewrite EG. cbn [assigned obind].
  exists r, (Vec m1 m2 m3), (Vec q1 q2 q3). split; [reflexivity|]. split; [exact Rr|]. split; repeat split; try apply R1; try apply R2; try apply R3; try apply R4; try apply R5; apply R6.
Qed.

(** ** the file *)
Definition fileText (n : Z) (time : f64) (ss : list (sylinder F_arith)) (links : list (Z * Z)) : list Z :=
  fmtHeader n time ++ flat_map fmtObject ss ++ flat_map (fun l => fmtLink l ++ [10]) links.
Lemma clean_link l : clean (fmtLink l).
Proof. unfold fmtLink. apply clean_cons; [lia|]. apply clean_cons; [lia|]. apply clean_app; [apply clean_fmtInt|]. apply clean_cons; [lia|apply clean_fmtInt]. Qed.
Lemma getlines_file n time ss links : exists h1 h2, getlines (fileText n time ss links) = h1 :: h2 :: map objectLine ss ++ map fmtLink links.
Proof.
  exists (fmtInt n ++ [32]), (32 :: fmtF6 time). unfold fileText, fmtHeader.
  replace ((fmtInt n ++ [32; 10; 32] ++ fmtF6 time ++ [10]) ++ flat_map fmtObject ss ++ flat_map (fun l => fmtLink l ++ [10]) links)
    with ((fmtInt n ++ [32]) ++ 10 :: (32 :: fmtF6 time) ++ 10 :: flat_map fmtObject ss ++ flat_map (fun l => fmtLink l ++ [10]) links ++ []).
  2:{ rewrite app_nil_r. repeat (rewrite <- app_assoc || rewrite <- app_comm_cons). reflexivity. }
  rewrite getlines_line by (apply clean_app; [apply clean_fmtInt|repeat constructor; lia]).
  rewrite getlines_line by (apply clean_cons; [lia|apply clean_fmtF6]).
  rewrite (flat_map_ext fmtObject (fun s => objectLine s ++ [10])) by apply fmtObject_line.
  rewrite getlines_lines by apply clean_object. rewrite getlines_lines by apply clean_link. cbn [getlines]. rewrite app_nil_r. reflexivity.
Qed.
Lemma filter_objects ss links : filter isObject (map objectLine ss ++ map fmtLink links) = map objectLine ss.
Proof.
  rewrite filter_app. assert (A : filter isObject (map objectLine ss) = map objectLine ss).
  { induction ss as [|s ss IH]; [reflexivity|]. cbn [map filter]. assert (Hs : isObject (objectLine s) = true) by (unfold isObject, objectLine; cbn [hd]; destruct (immovable s); reflexivity).
    rewrite Hs, IH. reflexivity. }
  assert (B : filter isObject (map fmtLink links) = []) by (induction links as [|l links IH]; [reflexivity|]; cbn [map filter]; exact IH).
  rewrite A, B, app_nil_r. reflexivity.
Qed.
Lemma filter_links ss links : filter (fun l => hd 0 l =? 76) (map objectLine ss ++ map fmtLink links) = map fmtLink links.
Proof.
  rewrite filter_app. assert (A : filter (fun l => hd 0 l =? 76) (map objectLine ss) = []).
  { induction ss as [|s ss IH]; [reflexivity|]. cbn [map filter]. assert (Hs : (hd 0 (objectLine s) =? 76) = false) by (unfold objectLine; cbn [hd]; destruct (immovable s); reflexivity).
    rewrite Hs. exact IH. }
  assert (B : filter (fun l => hd 0 l =? 76) (map fmtLink links) = map fmtLink links) by (induction links as [|l links IH]; [reflexivity|]; cbn [map filter]; rewrite IH; reflexivity).
  rewrite A, B. reflexivity.
Qed.

Lemma writeAsciiFile_eq junk step dt sss links : exists n, writeAsciiFile junk step dt sss links = Done (fileText n (fmul (f_ofZ step) dt) (concat sss) links).
Proof. eexists. unfold writeAsciiFile. cbv zeta. rewrite gatherv_concat. cbn [obind]. reflexivity. Qed.

Lemma parse_readBack eps perp u s : writable s -> exists t m p, parseSylinder eps perp u (objectLine s) = Done t /\
  readBack s (clearObject (N := F_arith) dblMax t) m p /\ atRest (clearObject (N := F_arith) dblMax t) /\
  t = objectOf (N := F_arith) eps perp u (if immovable s then 83 else 67) (s_gid s) (radius t) m p (s_group s).
Proof.
  intros H. destruct (parse_object s H) as (r & m & p & E & R1 & R2 & R3). unfold parseSylinder. rewrite E. cbn [obind f_type f_gid f_radius f_minus f_plus f_group].
  do 3 eexists. split; [reflexivity|]. split; [|split; reflexivity].
  unfold readBack. cbn [clearObject objectOf s_gid s_group immovable radius radiusCol spos vx vy vz slength lengthCol].
  repeat split; try reflexivity; try exact R1; try exact R2; try exact R3; try apply R1; try apply R2; try apply R3. destruct (immovable s); reflexivity.
Qed.

Lemma file_ok eps perp us fresh order mem n time ss links : Forall writable ss -> Permutation order (seq 0 (length ss)) ->
  exists objs, setInitialFromFile eps perp us fresh order 0 (fileText n time ss links) mem = Done objs /\ length objs = length ss /\
    forall i s, nth_error ss i = Some s -> exists t m p, nth_error objs i = Some t /\ readBack s t m p /\ atRest t /\
      orient t = orient (objectOf (N := F_arith) eps perp (us i) 0 0 (radius t) m p 0).
Proof.
  intros HW HP. unfold setInitialFromFile. cbn [Nat.eqb negb]. destruct (getlines_file n time ss links) as (h1 & h2 & EG). rewrite EG. cbn [skipn]. rewrite filter_objects.
  rewrite map_length.
  destruct (omap_each (fun il => parseSylinder eps perp (us (fst il)) (snd il))
    (fun il t => parseSylinder eps perp (us (fst il)) (snd il) = Done t) (combine (seq 0 (length ss)) (map objectLine ss))) as (ts & ET & FT).
  { intros [i l] Hin. apply in_combine_r in Hin. apply in_map_iff in Hin. destruct Hin as (s & <- & Hs). cbn [fst snd].
    destruct (parse_readBack eps perp (us i) s) as (t & _ & _ & E & _); [rewrite Forall_forall in HW; apply HW, Hs|]. exists t. split; exact E. }
  rewrite ET. cbn [obind].
  assert (LT : length ts = length ss). { rewrite <- (CallSort.Forall2_len _ _ _ FT), combine_length, seq_length, map_length. lia. }
  assert (LM : length (resize (length ts) fresh mem) = length ss) by (unfold resize; rewrite app_length, firstn_length, repeat_length; lia).
  destruct (forEach_ok order (fun i _ => do sy <- mread ts i; Done (clearObject (N := F_arith) dblMax sy))
    (fun i _ => clearObject (N := F_arith) dblMax (nth i ts fresh)) (resize (length ts) fresh mem)) as (objs & EO & LO & NO).
  { rewrite LM. exact HP. }
  { intros i x Hx. assert (Hi : (i < length ts)%nat) by (rewrite LT, <- LM; apply nth_error_Some; rewrite Hx; discriminate).
    unfold mread. rewrite (nth_error_nth' ts fresh Hi). reflexivity. }
  exists objs. split; [exact EO|]. split; [rewrite LO; exact LM|].
  intros i s Hs. assert (Hi : (i < length ss)%nat) by (apply nth_error_Some; rewrite Hs; discriminate).
  assert (HC : nth_error (combine (seq 0 (length ss)) (map objectLine ss)) i = Some (i, objectLine s)).
  { pose proof (nth_combine_seq (map objectLine ss) 0 i) as NC. rewrite map_length in NC. rewrite NC, (map_nth_error objectLine _ _ Hs). reflexivity. }
  destruct (Forall2_nth' _ _ _ FT i (i, objectLine s) HC) as (t & Ht & EP). cbn [fst snd] in EP.
  destruct (parse_readBack eps perp (us i) s) as (t' & m & p & E' & RB & AR & OB); [rewrite Forall_forall in HW; apply HW; eapply nth_error_In, Hs|].
  rewrite E' in EP. injection EP as ->.
  exists (clearObject (N := F_arith) dblMax t), m, p.
  assert (HR : exists x, nth_error (resize (length ts) fresh mem) i = Some x).
  { destruct (nth_error (resize (length ts) fresh mem) i) as [x|] eqn:Ex; [exists x; reflexivity|]. apply nth_error_None in Ex. lia. }
  destruct HR as (x & Hx). split; [rewrite NO, Hx; cbn [option_map]; rewrite (nth_error_nth ts i fresh Ht); reflexivity|].
  split; [exact RB|]. split; [exact AR|]. cbn [clearObject orient radius]. rewrite OB at 1. reflexivity.
Qed.

Lemma links_ok n time ss links st : Forall (fun l => isInt (fst l) /\ isInt (snd l)) links ->
  setLinkMapFromFile st (getlines (fileText n time ss links)) = emplaceLinks {| fwd := []; IndexModel.rev := IndexModel.rev st |} links.
Proof.
  intros H. destruct (getlines_file n time ss links) as (h1 & h2 & EG). unfold setLinkMapFromFile. rewrite EG. cbn [skipn]. rewrite filter_links, map_map.
  f_equal. rewrite <- (map_id links) at 2. apply map_ext_in. intros l Hl. rewrite Forall_forall in H. destruct (H l Hl). apply parse_fmtLink; apply isInt_range; assumption.
Qed.

(** ** exact arithmetic: the object has the ends of the file *)
Local Open Scope R_scope.
Lemma half_R : a_lit (a := R_arith) 1 (-1) = / 2. Proof. cbn. field. Qed.
Lemma objectOf_R (eps : R) (perp : vec R -> vec R -> vec R) u ty gid (r : R) (m p : vec R) g :
  (forall a b, VtpSpec.norm3 (perp a b) = 1 /\ dot3 (perp a b) a = 0) -> 0 < eps <= 1 ->
  let t := objectOf (N := R_arith) eps perp u ty gid r m p g in
  slength t = distance m p /\ spos t = Vec ((vx m + vx p) / 2) ((vy m + vy p) / 2) ((vz m + vz p) / 2) /\
  (distance m p <= / 10000000 -> unitq (orient t) /\ axis (N := R_arith) t = Vec 0 0 1) /\
  (/ 10000000 < distance m p -> (-1 + eps <= (vz p - vz m) / distance m p \/ (vx p = vx m /\ vy p = vy m)) ->
     unitq (orient t) /\ minusEnd (N := R_arith) t = m /\ plusEnd (N := R_arith) t = p).
Proof.
  intros Hp He t. destruct m as [m1 m2 m3], p as [p1 p2 p3]. cbn [vx vy vz].
  assert (SL : slength t = distance (Vec m1 m2 m3) (Vec p1 p2 p3)) by reflexivity.
  assert (SP : spos t = Vec ((m1 + p1) / 2) ((m2 + p2) / 2) ((m3 + p3) / 2)).
  { unfold t, objectOf. cbn [spos vx vy vz]. rewrite half_R. rarith. reflexivity. }
  set (L := distance (Vec m1 m2 m3) (Vec p1 p2 p3)) in *.
  assert (OR : orient t = if Rlt_bool (1 / 10000000) L then fromTwoVectorsAny (N := R_arith) eps perp (Vec 0 0 1) (Vec (p1 - m1) (p2 - m2) (p3 - m3))
                          else fromTwoVectorsAny (N := R_arith) eps perp (Vec 0 0 1) (Vec 0 0 1)) by reflexivity.
  assert (T7 : 1 / 10000000 = / 10000000) by field. rewrite T7 in OR.
  split; [exact SL|]. split; [exact SP|]. split.
  - intros H. rewrite Rlt_bool_false in OR by exact H. rewrite OR.
    assert (N1 : VtpSpec.norm3 (Vec 0 0 1) = 1) by (unfold VtpSpec.norm3; cbn [vx vy vz]; replace (0 * 0 + 0 * 0 + 1 * 1) with 1 by ring; apply sqrt_1).
    destruct (from_ez eps perp (Vec 0 0 1) Hp He) as [Q1 Q2]; [rewrite N1; lra|right; split; reflexivity|]. rewrite N1 in Q2. split; [exact Q1|].
    unfold axis. rewrite OR. refine (eq_trans Q2 _). apply vec_eq; cbn [vx vy vz]; field.
  - intros H HC. rewrite Rlt_bool_true in OR by exact H. 
    assert (NL : VtpSpec.norm3 (Vec (p1 - m1) (p2 - m2) (p3 - m3)) = L) by reflexivity.
    destruct (from_ez eps perp (Vec (p1 - m1) (p2 - m2) (p3 - m3)) Hp He) as [Q1 Q2]; [rewrite NL; lra| |].
    { cbn [vx vy vz]. rewrite NL. destruct HC as [HC|[H1 H2]]; [left; exact HC|right; lra]. }
    rewrite NL in Q2. cbn [vx vy vz] in Q2. rewrite OR. split; [exact Q1|].
    assert (AX : axis (N := R_arith) t = Vec ((p1 - m1) / L) ((p2 - m2) / L) ((p3 - m3) / L)) by (unfold axis; rewrite OR; exact Q2).
    unfold minusEnd, plusEnd. rewrite AX, SP, SL, half_R. split; apply vec_eq; unfold vsub, vadd, vscale; cbn [vx vy vz]; rarith; field; lra.
Qed.

(** the ends of an object are half its length away from its centre *)
Lemma ends_R (s : sylinder R_arith) : spos s = Vec ((vx (minusEnd s) + vx (plusEnd s)) / 2) ((vy (minusEnd s) + vy (plusEnd s)) / 2) ((vz (minusEnd s) + vz (plusEnd s)) / 2).
Proof.
  apply vec_eq; unfold minusEnd, plusEnd, vsub, vadd, vscale; cbn [vx vy vz]; rarith; field.
Qed.
Lemma norm_bound (a b c d : R) : Rabs a <= d -> Rabs b <= d -> Rabs c <= d -> sqrt (a * a + b * b + c * c) <= 2 * d.
Proof.
  intros A B C. assert (0 <= d) by (pose proof (Rabs_pos a); lra).
  assert (S : forall x, Rabs x <= d -> x * x <= d * d). { intros x Hx. apply Rabs_le_inv in Hx. nra. }
  pose proof (S a A). pose proof (S b B). pose proof (S c C).
  rewrite <- (sqrt_square (2 * d)) by lra. apply sqrt_le_1_alt. nra.
Qed.
Lemma close_R (a b a' b' : vec R) (d : R) :
  (forall k, (k < 3)%nat -> Rabs (vget a' k - vget a k) <= d) -> (forall k, (k < 3)%nat -> Rabs (vget b' k - vget b k) <= d) ->
  Rabs (distance a' b' - distance a b) <= 4 * d /\
  (forall k, (k < 3)%nat -> Rabs ((vget a' k + vget b' k) / 2 - (vget a k + vget b k) / 2) <= d).
Proof.
  intros HA HB. split.
  - destruct a as [a1 a2 a3], b as [b1 b2 b3], a' as [c1 c2 c3], b' as [e1 e2 e3].
    pose proof (VecProofs.triangle3_rev (Vec (e1 - c1) (e2 - c2) (e3 - c3)) (Vec (b1 - a1) (b2 - a2) (b3 - a3))) as T.
    pose proof (HA 0%nat ltac:(lia)) as A1. pose proof (HA 1%nat ltac:(lia)) as A2. pose proof (HA 2%nat ltac:(lia)) as A3.
    pose proof (HB 0%nat ltac:(lia)) as B1. pose proof (HB 1%nat ltac:(lia)) as B2. pose proof (HB 2%nat ltac:(lia)) as B3.
    cbn in A1, A2, A3, B1, B2, B3. eapply Rle_trans; [exact T|].
    assert (K : forall a c b e, Rabs (c - a) <= d -> Rabs (e - b) <= d -> Rabs ((e - c) - (b - a)) <= 2 * d).
    { intros x y z w H1 H2. apply Rabs_le_inv in H1. apply Rabs_le_inv in H2. apply Rabs_le. lra. }
    replace (4 * d) with (2 * (2 * d)) by ring. apply norm_bound; cbn [vx vy vz VecSpec.sub3]; apply K; assumption.
  - intros k Hk. specialize (HA k Hk). specialize (HB k Hk). apply Rabs_le_inv in HA. apply Rabs_le_inv in HB. apply Rabs_le. lra.
Qed.

(** ** the statements *)
Local Open Scope Z_scope.
Lemma number_ok v rest : is_finite v = true -> (rest = [] \/ exists r, rest = 32 :: r) ->
  exists v', readDouble (32 :: fmtG8 v ++ rest) = (Some v', true, rest) /\ reread v v'.
Proof. intros H [->|(r & ->)]; apply reread_ok; try exact H; [exact I|apply stops_space]. Qed.
Lemma fixpoint_ok v v' b l : is_finite v = true -> (bpow radix2 (-1021) <= Rabs (B2R v))%R ->
  readDouble (32 :: fmtG8 v) = (Some v', b, l) -> fmtG8 v' = fmtG8 v.
Proof. intros H HB E. rewrite <- (app_nil_r (fmtG8 v)) in E. exact (reprint v [] v' l b H HB I E). Qed.
Lemma whole_file eps perp us fresh order mem junk step dt sss links st :
  Forall (Forall writable) sss -> Forall (fun l => isInt (fst l) /\ isInt (snd l)) links -> Permutation order (seq 0 (length (concat sss))) ->
  exists text objs, writeAsciiFile junk step dt sss links = Done text /\
    setInitialFromFile eps perp us fresh order 0 text mem = Done objs /\ length objs = length (concat sss) /\
    (forall i s, nth_error (concat sss) i = Some s -> exists t m p, nth_error objs i = Some t /\ readBack s t m p /\ atRest t /\
       orient t = orient (objectOf (N := F_arith) eps perp (us i) 0 0 (radius t) m p 0)) /\
    (forall rank, (0 < rank)%nat -> setInitialFromFile eps perp us fresh order rank text mem = Done []) /\
    fwd (setLinkMapFromFile st (getlines text)) = links.
Proof.
  intros HW HL HP. destruct (writeAsciiFile_eq junk step dt sss links) as (n & E).
  assert (HC : Forall writable (concat sss)). { apply Forall_concat. exact HW. }
  destruct (file_ok eps perp us fresh order mem n (fmul (f_ofZ step) dt) (concat sss) links HC HP) as (objs & E1 & E2 & E3).
  do 2 eexists. split; [exact E|]. split; [exact E1|]. split; [exact E2|]. split; [exact E3|]. split.
  - intros rank Hr. unfold setInitialFromFile. destruct rank; [lia|reflexivity].
  - rewrite links_ok by exact HL. reflexivity.
Qed.
Lemma error_ok (eps d : R) perp u ty gid (r : R) g (s : sylinder R_arith) (m p : vec R) :
  unitq (orient s) -> (0 <= slength s)%R ->
  (forall k, (k < 3)%nat -> (Rabs (vget m k - vget (minusEnd (N := R_arith) s) k) <= d)%R) ->
  (forall k, (k < 3)%nat -> (Rabs (vget p k - vget (plusEnd (N := R_arith) s) k) <= d)%R) ->
  let t := objectOf (N := R_arith) eps perp u ty gid r m p g in
  (Rabs (slength t - slength s) <= 4 * d)%R /\ (forall k, (k < 3)%nat -> (Rabs (vget (spos t) k - vget (spos s) k) <= d)%R).
Proof.
  intros HU HL HM HP t. destruct (close_R (minusEnd (N := R_arith) s) (plusEnd (N := R_arith) s) m p d HM HP) as [C1 C2].
  assert (SL : slength t = distance m p) by reflexivity.
  assert (SP : spos t = Vec ((vx m + vx p) / 2)%R ((vy m + vy p) / 2)%R ((vz m + vz p) / 2)%R).
  { unfold t, objectOf. cbn [spos]. rewrite half_R. rarith. reflexivity. }
  assert (DL : distance (minusEnd (N := R_arith) s) (plusEnd (N := R_arith) s) = slength s).
  { unfold distance. pose proof (axis_unit s HU) as U. unfold unit3, dot3 in U. unfold minusEnd, plusEnd. set (a := axis s) in *.
    unfold vsub, vadd, vscale. cbn [vx vy vz]. rewrite half_R. rarith. set (l := slength s) in *.
    refine (eq_trans _ (sqrt_square l HL)). f_equal. transitivity (l * l * (vx a * vx a + vy a * vy a + vz a * vz a))%R; [field|]. rewrite U. ring. }
  rewrite SL, <- DL. split; [exact C1|]. intros k Hk. specialize (C2 k Hk). rewrite SP, (ends_R s). destruct k as [|[|[|k]]]; try lia; exact C2.
Qed.
Lemma default_group s : writable s -> exists r m p,
  parseFields (lineWithoutGroup s) = Done (Fields (if immovable s then 83 else 67) (s_gid s) r m p (-1)) /\
  reread (radius s) r /\ reread3 (minusEnd s) m /\ reread3 (plusEnd s) p.
Proof.
  intros (H1 & H2 & H3 & (H4 & H5 & H6) & (H7 & H8 & H9)). unfold lineWithoutGroup, parseFields.
  set (ty := if immovable s then 83 else 67). assert (HT : forall l, skipWs (ty :: l) = ty :: l) by (intros l; unfold ty; destruct (immovable s); reflexivity).
  rewrite HT. cbn [flat_map]. 
  repeat (rewrite <- app_assoc || rewrite <- app_comm_cons).
  rewrite extract_int by (try assumption; apply stops_space).
  match goal with |- context [extract readDouble (true, 32 :: fmtG8 ?v ++ ?rest)] => destruct (extract_num v rest H3 ltac:(first [apply stops_space | exact I])) as (r & E & R0); rewrite E; clear E end.
  match goal with |- context [extract readDouble (true, 32 :: fmtG8 ?v ++ ?rest)] => destruct (extract_num v rest H4 ltac:(first [apply stops_space | exact I])) as (m1 & E & R1); rewrite E; clear E end.
  match goal with |- context [extract readDouble (true, 32 :: fmtG8 ?v ++ ?rest)] => destruct (extract_num v rest H5 ltac:(first [apply stops_space | exact I])) as (m2 & E & R2); rewrite E; clear E end.
  match goal with |- context [extract readDouble (true, 32 :: fmtG8 ?v ++ ?rest)] => destruct (extract_num v rest H6 ltac:(first [apply stops_space | exact I])) as (m3 & E & R3); rewrite E; clear E end.
  match goal with |- context [extract readDouble (true, 32 :: fmtG8 ?v ++ ?rest)] => destruct (extract_num v rest H7 ltac:(first [apply stops_space | exact I])) as (q1 & E & R4); rewrite E; clear E end.
  match goal with |- context [extract readDouble (true, 32 :: fmtG8 ?v ++ ?rest)] => destruct (extract_num v rest H8 ltac:(first [apply stops_space | exact I])) as (q2 & E & R5); rewrite E; clear E end.
  match goal with |- context [extract readDouble (true, 32 :: fmtG8 ?v ++ ?rest)] => destruct (extract_num v rest H9 ltac:(first [apply stops_space | exact I])) as (q3 & E & R6); rewrite E; clear E end.
  cbn [extract fst snd readInt' skipWs assigned obind].
  exists r, (Vec m1 m2 m3), (Vec q1 q2 q3). split; [reflexivity|]. split; [exact R0|]. split; repeat split; try apply R1; try apply R2; try apply R3; try apply R4; try apply R5; apply R6.
Qed.
Lemma remark_refuted : exists line, match parseFields line with Done f => f_group f | _ => -1 end = 0 /\ line = codes "C 7 0.5 0 0 0 0 0 1 # fixed"%string.
Proof. eexists. split; [|reflexivity]. vm_compute. reflexivity. Qed.
Definition away : sylinder F_arith :=
  let o := Vec f_zero f_zero f_zero in
  Syl 0 (-1) (-1) (-1) false (f_ofZ 1 : num F_arith) (f_ofZ 1 : num F_arith) (f_zero : num F_arith) (f_zero : num F_arith) (f_zero : num F_arith) (f_zero : num F_arith) (f_zero : num F_arith)
    (Vec (B754_infinity false : f64) f_zero f_zero) (Quat (N := F_arith) f_zero f_zero f_zero (f_ofZ 1)) (Motion o o o o o o o o o o o o o o o o o o).
Lemma infinite_refuted : exists s text, is_finite (radius s : f64) = true /\ (forall eps perp us fresh order mem,
  isUB (setInitialFromFile eps perp us fresh order 0 text mem) = true) /\ writeAsciiFile s 0 f_zero [[s]] [] = Done text.
Proof.
  destruct (writeAsciiFile_eq away 0 f_zero [[away]] []) as (n & E). do 2 eexists. split; [|split; [|exact E]]; [reflexivity|].
  intros. unfold setInitialFromFile. cbn [Nat.eqb negb concat app]. destruct (getlines_file n (fmul (f_ofZ 0) f_zero) [away] []) as (h1 & h2 & EG). rewrite EG. cbn [skipn]. rewrite filter_objects.
  cbn [map length seq combine omap fst snd]. unfold parseSylinder.
  assert (U : isUB (parseFields (objectLine away)) = true) by (vm_compute; reflexivity).
  destruct (parseFields (objectLine away)); try discriminate U. reflexivity.
Qed.
