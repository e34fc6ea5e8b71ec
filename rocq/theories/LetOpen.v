(** The exchange of LetModel in doubles, without periodic axes. *)
From Coq Require Import List Arith ZArith Lia Bool Permutation Reals Lra Sorted.
From Flocq Require Import Core BinarySingleNaN Plus_error.
From Verif Require Import F64 Outcome ListUtil Arith ParticleModel VecModel DomainModel MPIModel MPIProofs TreeModel TreeSpec TreeProofs TreeLink TreeMoment TreeLists TreeSearch TreeFloat LetModel LetArrays LetTable LetSend LetWalk LetSpec LetImages LetFind LetProofs LetReal.
Import ListNotations.
Local Open Scope R_scope.

Lemma zero_F : f_ofZ 0 = B754_zero false. Proof. reflexivity. Qed.
Lemma mul_zero (x : f64) : is_finite x = true -> 0 < B2R x -> fmul (f_ofZ 0) x = f_ofZ 0.
Proof.
  rewrite zero_F. intros Hf Hp. destruct x as [s|s| |s m e H]; try discriminate; [cbn in Hp; lra|]. destruct s; [|reflexivity]. exfalso. cbn [B2R] in Hp. unfold F2R in Hp. cbn [Fnum Fexp cond_Zopp] in Hp.
  assert (X := bpow_gt_0 radix2 e). assert (Y : IZR (Zneg m) < 0) by (apply IZR_lt; reflexivity). change (IZR (- Zpos m)) with (IZR (Zneg m)) in Hp. nra.
Qed.
Lemma sub_zero (x : f64) : is_finite x = true -> fsub x (f_ofZ 0) = x.
Proof. rewrite zero_F. intros Hf. destruct x as [[]|[]| |[] m e H]; try discriminate; reflexivity. Qed.
Lemma add_zero (x : f64) : is_finite x = true -> is_finite (fadd x (f_ofZ 0)) = true /\ B2R (fadd x (f_ofZ 0)) = B2R x.
Proof. rewrite zero_F. intros Hf. destruct x as [[]|[]| |[] m e H]; try discriminate; split; reflexivity. Qed.
Lemma open_lattice k : lattice open k <-> k = origin.
Proof. unfold lattice, open, origin. cbn [vx vy vz]. split; [intros (A & B & C); destruct k as [x y z]; cbn [vx vy vz] in *; rewrite A, B, C by reflexivity; reflexivity|intros ->; cbn; auto]. Qed.

Section Doubles.
  Context {P : Type} (ch : nat -> chance F_arith P) (key : vec F_arith -> outcome Z) (root : ort F_arith) (doms : list (ort F_arith)) (E : list (list (item F_arith P))) (trees : list (list cell * list (moment F_arith))) (limit : Z).
  Let n := length doms.
  Hypothesis HL : open_box root.
  Hypothesis HT : forall d, In d doms -> finite_box d.
  Hypothesis LE : length E = n.
  Hypothesis LT : length trees = n.
  Hypothesis Hlim : (1 <= limit)%Z.
  Hypothesis HH : homes_real root doms E.
  Hypothesis HO : forall r own t, nth_error E r = Some own -> nth_error trees r = Some t -> own_tree finite real limit own t.
  Hypothesis HC : forall r, any_chance n (ch r).
  Hypothesis HR : all_keys key E.

  Let z : F_arith := f_ofZ 0.
  Let D (i : nat) : ort F_arith := nth i doms (Ort (Vec z z z) (Vec z z z)).
  Let own (i : nat) := nth i E [].
  Let T (i : nat) := nth i trees ([], []).

  Lemma dD_at i : (i < n)%nat -> nth_error doms i = Some (D i). Proof using. apply nth_error_nth'. Qed.
  Lemma down_at i : (i < n)%nat -> nth_error E i = Some (own i). Proof using LE. intros H. apply nth_error_nth'. rewrite LE. exact H. Qed.
  Lemma dT_at i : (i < n)%nat -> nth_error trees i = Some (T i). Proof using LT. intros H. apply nth_error_nth'. rewrite LT. exact H. Qed.
  Lemma down_home s e : (s < n)%nat -> In e (own s) -> inside_real (D s) (s_pos (i_site e)) /\ inside_real root (s_pos (i_site e)).
  Proof using LE HH. intros Hs He. apply (HH s (own s) (D s)); [apply down_at; exact Hs|apply dD_at; exact Hs|exact He]. Qed.
  Lemma down_ok s e : (s < n)%nat -> In e (own s) -> proper finite real (point (i_site e)) /\ proper finite real (ball (i_site e)) /\ finite (s_rad (i_site e)) /\ 0 <= real (s_rad (i_site e)).
  Proof using LE LT HO. intros Hs He. destruct (HO s (own s) (T s) (down_at s Hs) (dT_at s Hs)) as (U & _). apply (U (i_site e)). apply in_map. exact He. Qed.
  Lemma D_finite r : (r < n)%nat -> finite_box (D r).
  Proof using HT. intros Hr. apply HT. apply nth_In. exact Hr. Qed.

  Lemma no_shift : at_shift root origin = Vec z z z.
  Proof using HL.
    unfold at_shift, imageShift, origin, fullLength, vsub. cbn [vx vy vz a_Z a_mul a_sub F_arith].
    assert (X : forall c, In c coords -> fmul (f_ofZ 0) (fsub (c (ohigh root)) (c (olow root))) = f_ofZ 0).
    { intros c Hc. destruct (HL c Hc) as (A1 & A2 & A3 & A4). apply mul_zero; [exact A3|]. unfold finite, real in *. rewrite sub_finite by assumption.
      destruct (Rle_lt_or_eq_dec 0 (rnd64 (B2R (c (ohigh root) : f64) - B2R (c (olow root) : f64)))) as [H|H]; [apply rnd64_pos; lra|exact H|]. exfalso.
      assert (Hne : B2R (c (ohigh root) : f64) - B2R (c (olow root) : f64) <> 0) by lra. unfold Rminus in H, Hne.
      refine (round_plus_neq_0 radix2 fexp64 ZnearestE _ _ (f_format _) (generic_format_opp _ _ _ (f_format _)) Hne _). symmetry. exact H. }
    rewrite !X by (cbn; auto). reflexivity.
  Qed.
  Lemma stays s f : (s < n)%nat -> In f (own s) -> moved f (at_shift root origin) = f.
  Proof using HL LE LT HO.
    intros Hs Hf. rewrite no_shift. destruct (down_ok s f Hs Hf) as (X & _). destruct f as [[[a b c] r] y]. unfold moved, vsub. cbn [i_site s_pos s_rad i_pay vx vy vz a_sub F_arith] in *.
    unfold z. rewrite !sub_zero; [reflexivity|apply (X vz); cbn; auto|apply (X vy); cbn; auto|apply (X vx); cbn; auto].
  Qed.
  Lemma shift_D r : (r < n)%nat -> okB finite (shiftBox (D r) (at_shift root origin)) /\ forall c, In c coords -> real (c (olow (shiftBox (D r) (at_shift root origin)))) = real (c (olow (D r))) /\ real (c (ohigh (shiftBox (D r) (at_shift root origin)))) = real (c (ohigh (D r))).
  Proof using HL HT.
    intros Hr. rewrite no_shift. pose proof (D_finite r Hr) as F. unfold finite, real.
    split; intros c [<-|[<-|[<-|[]]]]; cbn [shiftBox olow ohigh vadd vx vy vz a_add F_arith]; unfold finite, real; (split; apply add_zero; apply F; cbn; auto).
  Qed.

  Section Walked.
    Context (G : nat -> Z -> moment F_arith).
    Hypothesis W : forall s, (s < n)%nat -> walked finite real limit (T s) (map i_site (own s)) (G s).

    (** in doubles the box around a search sphere contains what the sphere contains *)
    Lemma ball_reaches (e : site F_arith) (c : vec F_arith -> F_arith) (y : f64) : In c coords -> proper finite real (point e) -> proper finite real (ball e) -> finite (s_rad e) ->
      - real (s_rad e) <= real (c (s_pos e)) - B2R y <= real (s_rad e) -> real (c (olow (ball e))) <= B2R y <= real (c (ohigh (ball e))).
    Proof using.
      clear. intros Hc Pp Pb Fr H. destruct (Pp c Hc) as (P1 & _). destruct (Pb c Hc) as (B1 & B2 & _).
      assert (X : c (olow (ball e)) = fsub (c (s_pos e)) (s_rad e) /\ c (ohigh (ball e)) = fadd (c (s_pos e)) (s_rad e)) by (destruct Hc as [<-|[<-|[<-|[]]]]; split; reflexivity). destruct X as (X1 & X2). rewrite X1 in B1 |- *. rewrite X2 in B2 |- *.
      unfold real, finite in *. cbn [point olow] in P1. rewrite sub_finite, add_finite by assumption. rewrite <- (rnd64_F y). split; apply rnd64_mono; lra.
    Qed.

    Lemma sees_leaf_real s r i j e f : (s < n)%nat -> (r < n)%nat -> at_ (own r) i e -> at_ (own s) j f -> sees real tight (i_site e) (i_site f) ->
      overlapsBox (shiftBox (D r) (at_shift root origin)) (v_out (G s j)) = true \/
      (overlapsBox (shiftBox (D s) (at_shift root (neg origin))) (v_out (G r i)) = true /\ overlapsBox (ball (i_site (moved e (at_shift root (neg origin))))) (v_in (G s j)) = true).
    Proof using W LE LT HO HH HL HT.
      intros Hs Hr He Hf Hse. change (neg origin) with origin.
      assert (Ie : In e (own r)) by (destruct He as (_ & He); apply nth_error_In in He; exact He). assert (If : In f (own s)) by (destruct Hf as (_ & Hf); apply nth_error_In in Hf; exact Hf).
      rewrite (stays r e Hr Ie).
      destruct (down_home r e Hr Ie) as (He1 & _). destruct (down_home s f Hs If) as (Hf1 & _). destruct (down_ok r e Hr Ie) as (E1 & E2 & E3 & E4). destruct (down_ok s f Hs If) as (F1 & F2 & F3 & F4).
      assert (Bi : (0 <= i < Z.of_nat (length (own r)))%Z) by (destruct He as (He0 & He); assert ((Z.to_nat i < length (own r))%nat) by (apply nth_error_Some; congruence); lia).
      assert (Bj : (0 <= j < Z.of_nat (length (own s)))%Z) by (destruct Hf as (Hf0 & Hf); assert ((Z.to_nat j < length (own s))%nat) by (apply nth_error_Some; congruence); lia).
      destruct (walked_sub finite real limit (T r) _ (G r) (W r Hr) i) as (_ & (Kr & _)); [rewrite map_length; exact Bi|].
      destruct (walked_sub finite real limit (T s) _ (G s) (W s Hs) j) as (_ & (Ks1 & Ks2)); [rewrite map_length; exact Bj|].
      destruct (W r Hr) as (_ & Wr & _), (W s Hs) as (_ & Ws & _). rewrite map_length in Wr, Ws.
      destruct (Wr i (i_site e)) as (Er & _); [lia|destruct He as (He0 & He); split; [exact He0|rewrite nth_error_map, He; reflexivity]|].
      destruct (Ws j (i_site f)) as (Fo & Fi); [lia|destruct Hf as (Hf0 & Hf); split; [exact Hf0|rewrite nth_error_map, Hf; reflexivity]|].
      destruct (shift_D r Hr) as (Or & Vr). destruct (shift_D s Hs) as (Os & Vs).
      assert (Oe : okB finite (ball (i_site e))) by (intros c Hc; destruct (E2 c Hc) as (? & ? & _); auto).
      rewrite !(overlapsBox_iff finite real doubles_ordered) by assumption.
      unfold sees, apart, tight in Hse. destruct Hse as [Hse|Hse]; [right|left].
      - destruct (within _ _ _ _ E4 Hse) as (Ax & Ay & Az). assert (A : forall c, In c coords -> - real (s_rad (i_site e)) <= real (c (s_pos (i_site e))) - real (c (s_pos (i_site f))) <= real (s_rad (i_site e))) by (intros c [<-|[<-|[<-|[]]]]; assumption). clear Ax Ay Az.
        split; intros c Hc; specialize (A c Hc); pose proof (ball_reaches (i_site e) c (c (s_pos (i_site f))) Hc E1 E2 E3 A) as B; fold (real (c (s_pos (i_site f)))) in B.
        + destruct (Vs c Hc) as (V1 & V2). rewrite V1, V2. specialize (Er c Hc). specialize (Hf1 c Hc). lra.
        + specialize (Fi c Hc). cbn [point olow ohigh] in Fi. lra.
      - destruct (within _ _ _ _ F4 Hse) as (Ax & Ay & Az). assert (A : forall c, In c coords -> - real (s_rad (i_site f)) <= real (c (s_pos (i_site f))) - real (c (s_pos (i_site e))) <= real (s_rad (i_site f))) by (intros c [<-|[<-|[<-|[]]]]; lra). clear Ax Ay Az.
        intros c Hc; specialize (A c Hc); pose proof (ball_reaches (i_site f) c (c (s_pos (i_site e))) Hc F1 F2 F3 A) as B; fold (real (c (s_pos (i_site e)))) in B.
        destruct (Vr c Hc) as (V1 & V2). rewrite V1, V2. specialize (Fo c Hc). specialize (He1 c Hc). lra.
    Qed.
  End Walked.

  Lemma contains_root s f : (s < n)%nat -> In f (own s) -> containsPos root (s_pos (i_site f)) = true.
  Proof using HL LE LT HO HH.
    intros Hs Hf. destruct (down_home s f Hs Hf) as (_ & H). destruct (down_ok s f Hs Hf) as (X & _).
    assert (Y : forall c, In c coords -> (c (s_pos (i_site f)) <? c (olow root))%A = false /\ (c (ohigh root) <=? c (s_pos (i_site f)))%A = false).
    { intros c Hc. specialize (H c Hc). destruct (X c Hc) as (X1 & _). cbn [point olow] in X1. destruct (HL c Hc) as (L1 & L2 & _).
      split; apply not_true_is_false; intros Z; [apply (o_lt _ _ _ doubles_ordered) in Z|apply (o_le _ _ _ doubles_ordered) in Z]; try assumption; lra. }
    unfold containsPos. destruct (Y vx) as (A1 & A2); [cbn; auto|]. destruct (Y vy) as (B1 & B2); [cbn; auto|]. destruct (Y vz) as (C1 & C2); [cbn; auto|]. rewrite A1, A2, B1, B2, C1, C2. reflexivity.
  Qed.

  Theorem let_delivers_open fuel : exists out,
    exchangeLet ch key fuel open root doms E trees limit = Done out /\ length out = n /\ forall r o, nth_error out r = Some o -> delivers real tight open (fun _ f => f) E (fun _ _ => True) r o.
  Proof using HL HT LE LT Hlim HH HO HC HR.
    destruct (pick (fun _ => @initMoment F_arith) n (fun s g => few (length (own s)) /\ walked finite real limit (T s) (map i_site (own s)) g)) as (G & HG).
    { intros s Hs. destruct (own_walked finite real doubles_ordered limit (own s) (T s) Hlim (HO s _ _ (down_at s Hs) (dT_at s Hs))) as (F & g & W). exists g. auto. }
    assert (W : forall s, (s < n)%nat -> walked finite real limit (T s) (map i_site (own s)) (G s)) by (intros s Hs; apply HG; exact Hs).
    assert (Few : forall s, (s < n)%nat -> few (length (own s))) by (intros s Hs; apply HG; exact Hs). clear HG.
    assert (Hpt : forall s r k a, (s < n)%nat -> In a (chosen root D own G s r k) -> In (it ch own s a) (own s)).
    { intros s r k a Hs Ha. apply chosen_in in Ha. destruct Ha as (_ & Ha & _). destruct (it_read ch own s a Ha) as (_ & X). apply nth_error_In in X. exact X. }
    apply (exchange_delivers finite real doubles_ordered ch key fuel open root doms E trees limit D own T G (fun _ _ => [origin])) with (need := fun _ _ _ => True).
    - exact dD_at.
    - exact down_at.
    - exact LE.
    - exact dT_at.
    - exact W.
    - intros s r acc Hs Hr. unfold imageShifts. cbn [open vx vy vz negb andb map]. rewrite no_shift. reflexivity.
    - intros s r Hs Hr. constructor; [intros []|constructor].
    - intros s Hs. right. exists []. reflexivity.
    - intros s r k Hs Hr [<-|[]]. apply shift_D. exact Hr.
    - intros s r k a Hs Hr [<-|[]] Ha. pose proof (Hpt s r origin a Hs Ha) as Hi. rewrite (stays s _ Hs Hi). unfold imageId. rewrite (contains_root s _ Hs Hi). reflexivity.
    - intros s r k Hs Hr [<-|[]] Hne. split; [discriminate|]. split; [apply shift_D; exact Hs|]. split; [apply Few; exact Hs|].
      intros a Ha. pose proof (Hpt s r origin a Hs Ha) as Hi. rewrite (stays s _ Hs Hi). split; [apply (HR (own s)); [apply nth_In; rewrite LE; exact Hs|exact Hi]|]. intros x [<-|[]]. apply (down_ok s _ Hs Hi).
    - intros r. apply HC.
    - intros r. apply HC.
    - intros r. apply HC.
    - intros r. apply HC.
    - intros r. apply HC.
    - intros r. apply HC.
    - intros r. apply (chance_trees finite real doubles_ordered n). apply HC.
    - intros s r k Hs Hr [<-|[]]. apply open_lattice. reflexivity.
    - intros s k f Hs Hk Hf. apply open_lattice in Hk. subst k. apply (stays s); assumption.
    - intros s r j k Hs Hr Hk Hj Ho. left. symmetry. apply open_lattice. exact Hk.
    - intros s r i j e f k Hs Hr Hk He Hf Hse. apply open_lattice in Hk. subst k. apply (sees_leaf_real G W s r i j e f); assumption.
    - intros. split; exact I.
  Qed.
End Doubles.
