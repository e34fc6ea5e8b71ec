(** A step with the blocks collected by the code. *)
From Coq Require Import List Arith ZArith Lia Bool Permutation Reals Lra.
From Flocq Require Import Core.
From Verif Require CallSort.
From Verif Require Import Outcome ListUtil Arith ParticleModel VecModel VecSpec VecProofs PointsModel SylModel SylSpec IndexModel IndexSpec ConModel ConSpec BoundaryModel BoundarySpec BoundaryProofs LinkModel LinkSpec NearModel NearSpec NearProofs StepModel StepSpec TreeModel TreeSpec LetModel LetSpec CallModel CallSpec PipeModel PipeSpec PipeProofs PipeCollect CallContact QPModel QPSpec WholeModel WholeSpec WholeSolve WholeStep WholeMain FullSpec FullProofs.
Import ListNotations.
Local Open Scope R_scope.

(** ** Two spheres *)

(** if the gap opens along the line of centres, the spheres stay apart *)
Lemma apart_ok (P Q v w n : vec R) (dt tol rad : R) : 0 < dt -> (exists c, n = scale3 c (sub3 P Q)) -> (P <> Q -> n = scale3 (/ dist3 P Q) (sub3 P Q) /\ unit3 n) ->
  - (dt * tol) < dist3 P Q - rad + dt * (dot3 n v + dot3 (opp3 n) w) -> rad - dt * tol < dist3 (add3 P (scale3 dt v)) (add3 Q (scale3 dt w)).
Proof.
  intros Hdt (c & Hc) Hn H. set (P' := add3 P (scale3 dt v)). set (Q' := add3 Q (scale3 dt w)).
  destruct (Rle_lt_dec (dist3 P Q) 0) as [Z|Z].
  - assert (Z' : dist3 P Q = 0) by (pose proof (dist3_nonneg P Q); lra). assert (PQ : sub3 P Q = zero3) by (apply norm3_eq0; exact Z').
    rewrite Z' in H. rewrite Hc, PQ in H. pose proof (dist3_nonneg P' Q').
    assert (E : dot3 (scale3 c zero3) v + dot3 (opp3 (scale3 c zero3)) w = 0) by (unfold dot3, scale3, opp3, zero3; cbn; ring). rewrite E in H. lra.
  - assert (PQ : P <> Q). { intros ->. unfold dist3 in Z. assert (X : sub3 Q Q = zero3) by (veq; ring). rewrite X, norm3_zero in Z. lra. }
    destruct (Hn PQ) as (N1 & N2). clear Hn Hc c.
    assert (A : dot3 n (sub3 P' Q') <= dist3 P' Q'). { unfold dist3. pose proof (cauchy3 n (sub3 P' Q')) as C. rewrite (proj1 (norm3_unit n) N2), Rmult_1_l in C. exact C. }
    assert (B : dot3 n (sub3 P Q) = dist3 P Q).
    { rewrite N1. assert (X : dot3 (scale3 (/ dist3 P Q) (sub3 P Q)) (sub3 P Q) = / dist3 P Q * dot3 (sub3 P Q) (sub3 P Q)) by (unfold dot3, scale3; cbn; ring). rewrite X. clear X. unfold dist3 in *. pose proof (norm3_sq (sub3 P Q)) as X. rewrite <- X. field. lra. }
    assert (C : dot3 n (sub3 P' Q') = dot3 n (sub3 P Q) + dt * (dot3 n v + dot3 (opp3 n) w)) by (unfold P', Q', dot3, sub3, add3, scale3, opp3; cbn; ring). lra.
Qed.

(** a sphere stays on its side of a wall *)
Lemma wall_ok (q c n v : vec R) (dt tol rad : R) : - (dt * tol) < dot3 (sub3 q c) n - rad + dt * dot3 n v -> rad - dt * tol < dot3 (sub3 (add3 q (scale3 dt v)) c) n.
Proof. intros H. assert (E : dot3 (sub3 (add3 q (scale3 dt v)) c) n = dot3 (sub3 q c) n + dt * dot3 n v) by (unfold dot3, sub3, add3, scale3; cbn; ring). lra. Qed.

(** the signed distance of a plane *)
Lemma plane_distance (c n q P : vec R) x : unit3 n -> signed (Wall (N := R_arith) c n) q P x -> x = dot3 (sub3 q c) n.
Proof.
  intros Hn ((HP & HN) & H1 & H2). cbn [surface allowed] in *. set (h := dot3 (sub3 q c) n) in *.
  assert (U : norm3 n = 1) by (apply norm3_unit; exact Hn). assert (UU : dot3 n n = 1) by (rewrite <- norm3_sq, U; ring).
  assert (A : dist3 q P <= Rabs h).
  { apply Rle_trans with (dist3 q (sub3 q (scale3 h n))).
    - apply HN. assert (X : dot3 (sub3 (sub3 q (scale3 h n)) c) n = dot3 (sub3 q c) n - h * dot3 n n) by (unfold dot3, sub3, scale3; cbn; ring). rewrite X, UU. unfold h. ring.
    - unfold dist3. assert (X : sub3 q (sub3 q (scale3 h n)) = scale3 h n) by (veq; ring). rewrite X, norm3_scale, U. lra. }
  assert (B : Rabs h <= dist3 q P).
  { pose proof (cauchy3_abs (sub3 q P) n) as C. rewrite U, Rmult_1_r in C. assert (X : dot3 (sub3 q P) n = h) by (unfold h; revert HP; unfold dot3, sub3; cbn; lra). rewrite X in C. exact C. }
  destruct (Rle_dec 0 h) as [Y|Y].
  - rewrite (H1 Y). rewrite Rabs_pos_eq in A, B by exact Y. lra.
  - rewrite (H2 Y). apply Rnot_le_lt in Y. rewrite Rabs_left in A, B by exact Y. lra.
Qed.

Lemma no_arm (m : motion R_arith) : point_vel m zero3 = vel m.
Proof. unfold point_vel. veq; ring. Qed.

Section Step.
  Context {Fo : Type} (func : list (item R_arith ep) -> list (item R_arith ep) -> list Fo -> list Fo) (clear : Fo -> Fo) (q : nat -> cast R_arith ep Fo) (threads : nat) (pa : vec bool) (lim grpLimit : Z) (b : domains R_arith)
    (buf : R) (bs : list (boundary R_arith)) (lk : lconfig) (fresh : nearEP R_arith) (junk : Z -> nearEP R_arith) (dir0 : list (Z * nearEP R_arith)) (data0 : nat -> list (nearEP R_arith)) (g : nat -> dealing)
    (m : nat) (ranks : list ranked) (ls : list (Z * Z)).
  Hypotheses (Hp : prepared pa m b ranks) (Hl : linkable (b_root b) lk ls ranks)
    (Hq : forall r, any_cast (length ranks) threads lim (nth r (PipeSpec.sizes ranks) 0%nat) (q r)) (Hlim : (1 <= lim <= grpLimit)%Z)
    (Hf : forall epi epj fs, length fs = length epi -> length (func epi epj fs) = length fs)
    (Hg : forall r p, nth_error ranks r = Some p -> any_dealing threads (length (pr_ptcl p)) bs ls (g r)).
  Notation collect fuel fuel' := (collectConstraints (N := R_arith) (collectPairCollision (N := R_arith) func clear q Ztrunc PI threads fuel pa lim grpLimit b) fuel' PI buf bs lk fresh junk dir0 data0 g).
  Notation n := (length (objects ranks)).
  Notation gathering pools := (forall r p pool, nth_error ranks r = Some p -> nth_error pools r = Some pool -> length pool = threads /\ gathered pa (b_root b) buf bs lk ls ranks (pr_ptcl p) (concat pool)).

  Lemma full_collect : exists nf, forall fuel fuel', (nf <= fuel)%nat -> (nf <= fuel')%nat -> exists pools, (forall ranks', same_bodies ranks ranks' -> collect fuel fuel' ranks' = Done (Some pools)) /\ length pools = length ranks /\
    gathering pools /\ Forall (posed n) (concat (concat pools)) /\ Forall opposed (concat (concat pools)).
  Proof using Hp Hl Hq Hlim Hf Hg.
    destruct (collect_all func clear q threads pa lim grpLimit b buf bs lk fresh junk dir0 data0 g m ranks ls Hp Hl Hq Hlim Hf Hg) as (nf & H). exists nf. intros fuel fuel' F1 F2. destruct (H fuel fuel' F1 F2) as (pools & E & L & G). exists pools.
    split; [intros ranks' S; rewrite (same_collect func clear q threads pa lim grpLimit b buf bs lk fresh junk dir0 data0 g fuel fuel' ranks ranks' S); exact E|]. split; [exact L|]. split; [exact G|].
    exact (all_posed threads pa b buf bs lk m ranks ls Hp Hl pools L G).
  Qed.

  Section Done.
    Context (fuel fuel' : nat) (pools0 : list (pool R_arith)) (E0 : forall ranks', same_bodies ranks ranks' -> collect fuel fuel' ranks' = Done (Some pools0)) (L0 : length pools0 = length ranks) (G0 : gathering pools0)
      (Hpos : Forall (posed n) (concat (concat pools0))) (Hopp : Forall opposed (concat (concat pools0))) (Hfew : (Z.of_nat (length (concat (concat pools0))) <= INT_MAX)%Z).
    Context (tenth : R) (c : stepConfig R_arith) (v : solveConfig R_arith) (fuel2 : nat) (y : nat -> fate R_arith) (fNB vNB : nat -> option (list R)).
    Hypotheses (Hs : steady (fun _ => threads) c v y fNB vNB ranks).

    Lemma full_order : in_order (fun _ => threads) c v y fNB vNB (collect fuel fuel') ranks.
    Proof using E0 L0 G0 Hpos Hfew Hs.
      split; [exact Hs|]. intros ranks' pools S E. rewrite (E0 ranks' S) in E. injection E as <-. split; [exact L0|]. split; [|split; assumption].
      intros r pool Hr. destruct (nth_error ranks r) as [p|] eqn:Ep; [exact (proj1 (G0 r p pool Ep Hr))|]. exfalso. apply nth_error_None in Ep. apply (Nat.lt_irrefl r). eapply Nat.lt_le_trans; [exact (nth_error_lt _ _ _ Hr)|]. rewrite L0. exact Ep.
    Qed.

    Hypotheses (Hpl : plain c ranks) (Hfix : c_fixed c = false).
    Context (ms : list (list nat * list (nat * R))) (r1 r2 : list ranked) (pools : list (pool R_arith)) (hist : list (hrec R_arith)).
    Hypotheses (Em : calcMobOperator (N := R_arith) ln PI (c_viscosity c) y ranks = Done ms)
      (E : runStepAll (N := R_arith) ln sin cos PI tenth c v fuel2 y ms fNB vNB (collect fuel fuel') ranks = Done (Some (r1, r2, pools, hist))) (Hb : below v hist).
    Notation ks := (concat (concat pools)).

    Lemma full_blocks : Forall2 (fun k k' => scaled (N := R_arith) k (gamma k') k') (concat (concat pools0)) ks /\
      (forall k, In k ks -> exists sI sJ, bodies (objects r1) k sI sJ /\ resolved (c_dt c) (v_tol v) k (mot sI) (mot sJ)) /\
      (forall i s, nth_error (objects ranks) i = Some s -> exists t, nth_error (objects r1) i = Some t /\ carried (c_viscosity c) ks i s t /\ nth_error (objects r2) i = Some (stepEuler (N := R_arith) sin cos (c_dt c) t)).
    Proof using All.
      destruct full_order as ([H1 H2 H3 H4 H5 H6] & H7). destruct Hpl as (H8 & H9).
      destruct (main_ok tenth c v fuel2 y (fun _ => threads) fNB vNB (collect fuel fuel') ranks H1 H2 H3 H4 H5 H6 H7 H8 H9 ms r1 r2 pools hist Em E Hb) as (_ & _ & A & B & ranks0 & p0 & S & Ec & F).
      rewrite (E0 ranks0 S) in Ec. injection Ec as <-. rewrite Hfix in A. auto.
    Qed.

    Lemma full_apart i j s u z : Forall (fun k => gamma k <= most - margin) ks -> nth_error (objects ranks) i = Some s -> nth_error (objects ranks) j = Some u -> (s_gid s < s_gid u)%Z -> lattice pa z -> round (rod s) -> round (rod u) ->
      dist3 (spos s) (away (b_root b) z (spos u)) < NearSpec.limit (rod s) (rod u) ->
      exists s' u', nth_error (objects r2) i = Some s' /\ nth_error (objects r2) j = Some u' /\ skin (rod s) + skin (rod u) - c_dt c * v_tol v < dist3 (spos s') (away (b_root b) z (spos u')).
    Proof using All.
      intros Hcap Hi Hj Hgid Hz Rs Ru Hn. destruct full_blocks as (F & B & A). destruct (A i s Hi) as (s1 & S1 & (S2 & _) & S3). destruct (A j u Hj) as (u1 & U1 & (U2 & _) & U3).
      exists (stepEuler (N := R_arith) sin cos (c_dt c) s1), (stepEuler (N := R_arith) sin cos (c_dt c) u1). split; [exact S3|]. split; [exact U3|].
      (* the block *)
      assert (O : forall x, In x (objects ranks) -> exists r p a, nth_error ranks r = Some p /\ nth_error (pr_ptcl p) a = Some x).
      { intros x Hx. apply in_concat in Hx. destruct Hx as (l & Hl' & Hx). apply in_map_iff in Hl'. destruct Hl' as (p & <- & Hp'). apply In_nth_error in Hp', Hx. destruct Hp' as (r & Hr), Hx as (a & Ha). exists r, p, a. auto. }
      destruct (O s (nth_error_In _ _ Hi)) as (r & p & a & Hr & Ha). destruct (O u (nth_error_In _ _ Hj)) as (r' & p' & a' & Hr' & Ha').
      assert (exists pool, nth_error pools0 r = Some pool) as (pool & Hpool).
      { destruct (nth_error pools0 r) as [pl|] eqn:X; [eauto|]. exfalso. apply nth_error_None in X. apply (Nat.lt_irrefl r). eapply Nat.lt_le_trans; [exact (nth_error_lt _ _ _ Hr)|]. rewrite <- L0. exact X. }
      destruct (G0 r p pool Hr Hpool) as (_ & pairs & walls & links & js & PP & (ts & _ & T2 & T3) & _).
      destruct (In_nth_error ts (Z.of_nat a, (r', Z.of_nat a', z))) as (w & Hw).
      { apply (T3 (Z.of_nat a) (treeItem (N := R_arith) s) r' (map (treeItem (N := R_arith)) (pr_ptcl p')) (Z.of_nat a') (treeItem (N := R_arith) u) z).
        - split; [lia|]. rewrite Nat2Z.id. apply map_nth_error. exact Ha.
        - apply (map_nth_error (fun p : ranked => map (treeItem (N := R_arith)) (pr_ptcl p))). exact Hr'.
        - split; [lia|]. rewrite Nat2Z.id. apply map_nth_error. exact Ha'.
        - exact Hz.
        - exact Hgid.
        - exists (spos s), (away (b_root b) z (spos u)). split; [left; split; [exact Rs|reflexivity]|]. split; [left; split; [exact Ru|reflexivity]|]. left. split; [left; exact Rs|exact Hn]. }
      destruct (CallSort.Forall2_nth' _ _ _ T2 _ _ Hw) as (k0 & Hk0 & _ & e & l & f & P & Q & D1 & D2 & D3 & _ & DC & _ & DB).
      destruct D1 as (_ & D1). rewrite Nat2Z.id in D1. pose proof (eq_trans (eq_sym (map_nth_error (treeItem (N := R_arith)) _ _ Ha)) D1) as Y1. injection Y1 as <-.
      pose proof (eq_trans (eq_sym (map_nth_error (fun p : ranked => map (treeItem (N := R_arith)) (pr_ptcl p)) _ _ Hr')) D2) as Y2. injection Y2 as <-.
      destruct D3 as (_ & D3). rewrite Nat2Z.id in D3. pose proof (eq_trans (eq_sym (map_nth_error (treeItem (N := R_arith)) _ _ Ha')) D3) as Y3. injection Y3 as <-.
      destruct DC as (DP & DQ & _). assert (P = spos s) as -> by (destruct DP as [(_ & X)|(X & _)]; [exact X|contradiction]). assert (Q = away (b_root b) z (spos u)) as -> by (destruct DQ as [(_ & X)|(X & _)]; [exact X|contradiction]). clear DP DQ.
      unfold contact_block in DB. cbv zeta in DB. destruct DB as (K1 & _ & _ & _ & K2 & K3 & _ & _ & K4 & K5 & K6 & K7 & _ & _ & K8 & K9 & K10).
      (* its magnitude *)
      assert (In0 : In k0 (concat (concat pools0))).
      { assert (X : In k0 (concat pool)) by (apply (Permutation_in _ (Permutation_sym PP)), in_or_app; left; eapply nth_error_In; exact Hk0). apply in_concat in X. destruct X as (qu & Q1 & Q2). apply in_concat. exists qu. split; [|exact Q2]. apply in_concat. exists pool. split; [eapply nth_error_In; exact Hpool|exact Q1]. }
      apply In_nth_error in In0. destruct In0 as (x & Hx). destruct (CallSort.Forall2_nth' _ _ _ F _ _ Hx) as (k & Hk & _ & _ & M1 & _ & _ & _ & M2 & M3 & M4 & M5 & _ & M6 & M7 & M8 & M9 & _). apply nth_error_In in Hk.
      destruct (B k Hk) as (sI & sJ & (B1 & B2) & _ & R1 & _). specialize (R1 (proj1 (Forall_forall _ _) Hcap k Hk)). rewrite M4, K2 in B2. specialize (B2 eq_refl).
      assert (sI = s1). { destruct B1 as (_ & B1). rewrite M2, K4 in B1. change (e_index (placed (treeItem (N := R_arith) s))) with (s_index s) in B1. rewrite (index_at pa b m ranks Hp i s Hi), Nat2Z.id, S1 in B1. injection B1 as <-. reflexivity. }
      assert (sJ = u1). { destruct B2 as (_ & B2). rewrite M3, K5 in B2. change (e_index (placed (LetSpec.image (b_root b) z (treeItem (N := R_arith) u)))) with (s_index u) in B2. rewrite (index_at pa b m ranks Hp j u Hj), Nat2Z.id, U1 in B2. injection B2 as <-. reflexivity. }
      subst sI sJ. unfold next_gap, opening, compliance in R1. rewrite M1, M4, M5, M6, M7, M8, M9, K1, K2, K3, K6, K7, K8 in R1.
      match type of R1 with context [point_vel (mot s1) ?A] => replace A with zero3 in R1 by (symmetry; apply vec_eq; cbn; ring) end. rewrite no_arm in R1.
      match type of R1 with context [point_vel (mot u1) ?A] => replace A with zero3 in R1 by (symmetry; apply vec_eq; cbn; ring) end. rewrite no_arm in R1.
      assert (X := apart_ok (spos s) (away (b_root b) z (spos u)) (vel (mot s1)) (vel (mot u1)) (normI k0) (c_dt c) (v_tol v) (skin (rod s) + skin (rod u)) (st_dt _ _ _ _ _ _ _ Hs) K9 (fun H => conj (proj1 (K10 H)) (proj1 (proj2 (K10 H))))).
      eapply Rlt_le_trans; [apply X|].
      { change (skin (placed (treeItem (N := R_arith) s))) with (skin (rod s)) in R1. change (skin (placed (LetSpec.image (b_root b) z (treeItem (N := R_arith) u)))) with (skin (rod u)) in R1. change (num R_arith) with R in *. lra. }
      apply Req_le. f_equal.
      - rewrite S2. reflexivity.
      - rewrite U2. unfold away. cbn [stepEuler withPose spos]. veq; cbn; rarith; ring.
    Qed.

    Lemma object_rank x : In x (objects ranks) -> exists r p, nth_error ranks r = Some p /\ In x (pr_ptcl p).
    Proof using. intros Hx. apply in_concat in Hx. destruct Hx as (l & Hl' & Hx). apply in_map_iff in Hl'. destruct Hl' as (p & <- & Hp'). apply In_nth_error in Hp'. destruct Hp' as (r & Hr). exists r, p. auto. Qed.
    Lemma pool_at r p : nth_error ranks r = Some p -> exists pool, nth_error pools0 r = Some pool.
    Proof using L0. intros Hr. destruct (nth_error pools0 r) as [pl|] eqn:X; [eauto|]. exfalso. apply nth_error_None in X. apply (Nat.lt_irrefl r). eapply Nat.lt_le_trans; [exact (nth_error_lt _ _ _ Hr)|]. rewrite <- L0. exact X. Qed.
    Lemma pool_in r pool (k : block R_arith) : nth_error pools0 r = Some pool -> In k (concat pool) -> In k (concat (concat pools0)).
    Proof using. intros Hr X. apply in_concat in X. destruct X as (qu & Q1 & Q2). apply in_concat. exists qu. split; [|exact Q2]. apply in_concat. exists pool. split; [eapply nth_error_In; exact Hr|exact Q1]. Qed.

    Lemma full_wall i s wc wn : Forall (fun k => gamma k <= most - margin) ks -> nth_error (objects ranks) i = Some s -> In (Wall (N := R_arith) wc wn) bs -> unit3 wn -> round (rod s) -> 0 <= buf -> 0 < radiusCol s ->
      dot3 (sub3 (spos s) wc) wn <> 0 -> dot3 (sub3 (spos s) wc) wn < (1 + 2 * buf) * radiusCol s ->
      exists s', nth_error (objects r2) i = Some s' /\ skin (rod s) - c_dt c * v_tol v < dot3 (sub3 (spos s') wc) wn.
    Proof using All.
      intros Hcap Hi Hw Un Rs Hbuf Hrad Hx0 Hx. destruct full_blocks as (F & B & A). destruct (A i s Hi) as (s1 & S1 & (S2 & _) & S3).
      exists (stepEuler (N := R_arith) sin cos (c_dt c) s1). split; [exact S3|].
      destruct (object_rank s (nth_error_In _ _ Hi)) as (r & p & Hr & Ha). destruct (pool_at r p Hr) as (pool & Hpool).
      destruct (G0 r p pool Hr Hpool) as (_ & pairs & walls & links & js & PP & _ & -> & _).
      destruct (checkObject_R buf (Wall (N := R_arith) wc wn) s Un ltac:(intros; exact I) Hbuf Hrad) as (lss & C1 & C2).
      assert (Sp : isSphere (N := R_arith) true s = true). { unfold isSphere. unfold round, rod in Rs. cbn [copyFromFP e_lengthCol e_radiusCol] in Rs. rarith. rcase; [reflexivity|exfalso; lra]. }
      unfold ends in C2. rewrite Sp in C2. inversion C2 as [|? l0 ? lr (P & x & X1 & X2 & _) C3]; subst. inversion C3; subst. cbn [fst snd] in X1, X2.
      pose proof (plane_distance wc wn (spos s) P x Un X1) as Ex. rewrite <- Ex in Hx, Hx0. destruct (X2 Hx) as (k0 & -> & (W1 & _ & W2 & W3 & _ & _ & W4 & W5 & _ & _ & W6)). specialize (W6 Hx0). cbn [inward] in W6.
      assert (In0 : In k0 (concat (concat pools0))).
      { apply (pool_in r pool _ Hpool). apply (Permutation_in _ (Permutation_sym PP)). apply in_or_app; right. apply in_or_app; left. apply in_flat_map. exists (Wall (N := R_arith) wc wn). split; [exact Hw|]. apply in_flat_map. exists s. split; [exact Ha|]. rewrite C1. left; reflexivity. }
      apply In_nth_error in In0. destruct In0 as (xx & Hxx). destruct (CallSort.Forall2_nth' _ _ _ F _ _ Hxx) as (k & Hk & _ & _ & M1 & _ & _ & _ & M2 & M3 & M4 & M5 & _ & M6 & M7 & M8 & M9 & _). apply nth_error_In in Hk.
      destruct (B k Hk) as (sI & sJ & (B1 & _) & _ & R1 & _). specialize (R1 (proj1 (Forall_forall _ _) Hcap k Hk)).
      assert (sI = s1). { destruct B1 as (_ & B1). rewrite M2, W4 in B1. rewrite (index_at pa b m ranks Hp i s Hi), Nat2Z.id, S1 in B1. injection B1 as <-. reflexivity. }
      subst sI. unfold next_gap, opening, compliance in R1. rewrite M1, M4, M5, M6, M8, W1, W2, W3, W5, W6 in R1.
      match type of R1 with context [point_vel (mot s1) ?A] => replace A with zero3 in R1 by (symmetry; apply vec_eq; cbn; ring) end. rewrite no_arm in R1.
      assert (X := wall_ok (spos s) wc wn (vel (mot s1)) (c_dt c) (v_tol v) (skin (rod s))). 
      assert (SK : skin (rod s) = lengthCol s / 2 + radiusCol s). { unfold skin. destruct (Rlt_dec _ _) as [_|Z]; [reflexivity|contradiction]. }
      eapply Rlt_le_trans; [apply X|]; [rewrite SK, <- Ex; change (num R_arith) with R in *; lra|]. apply Req_le. rewrite S2. reflexivity.
    Qed.

    (** links push and pull without net force; contacts too, when there are no walls *)
    Lemma full_momentum d : (d < 3)%nat -> Rsum (map (fun t => vget (forceBi (mot t)) d) (objects r1)) = 0 /\ (bs = [] -> Rsum (map (fun t => vget (forceCol (mot t)) d) (objects r1)) = 0).
    Proof using All.
      intros Hd. destruct full_blocks as (F & _ & _).
      assert (HO : Forall opposed ks).
      { apply Forall_forall. intros k Hk. apply In_nth_error in Hk. destruct Hk as (x & Hx). destruct (CallSort.Forall2_nth _ _ _ F _ _ Hx) as (k0 & Hk0 & _ & _ & _ & _ & _ & _ & _ & _ & M4 & _ & _ & M6 & M7 & _). apply nth_error_In in Hk0. unfold opposed. rewrite M4, M6, M7. exact (proj1 (Forall_forall _ _) Hopp k0 Hk0). }
      destruct (whole_momentum (fun _ => threads) tenth c v fuel2 y fNB vNB _ ranks ms r1 r2 pools hist full_order Hpl Em E Hb HO d Hd) as (W1 & W2).
      assert (K : forall k, In k ks -> oneSide k = true -> bilateral k = false /\ bs <> []).
      { intros k Hk Ho. apply In_nth_error in Hk. destruct Hk as (x & Hx). destruct (CallSort.Forall2_nth _ _ _ F _ _ Hx) as (k0 & Hk0 & _ & _ & _ & _ & _ & _ & _ & _ & M4 & M5 & _). rewrite M5. rewrite M4 in Ho. clear Hx. apply nth_error_In in Hk0. apply in_concat in Hk0. destruct Hk0 as (qu & Q1 & Q2). apply in_concat in Q1. destruct Q1 as (pool & Q1 & Q3). apply In_nth_error in Q1. destruct Q1 as (r & Hr).
        destruct (nth_error ranks r) as [p|] eqn:Ep; [|exfalso; apply nth_error_None in Ep; apply (Nat.lt_irrefl r); eapply Nat.lt_le_trans; [exact (nth_error_lt _ _ _ Hr)|]; apply (Nat.le_trans _ _ _ (Nat.eq_le_incl _ _ L0)); exact Ep].
        destruct (G0 r p pool Ep Hr) as (_ & pairs & walls & links & js & PP & (ts & _ & T2 & _) & -> & _ & FL). assert (X : In k0 (concat pool)) by (apply in_concat; eauto). apply (Permutation_in _ PP) in X. apply in_app_or in X. destruct X as [X|X]; [|apply in_app_or in X; destruct X as [X|X]].
        - exfalso. apply In_nth_error in X. destruct X as (j & Hj). destruct (CallSort.Forall2_nth _ _ _ T2 _ _ Hj) as ((i & ((r' & i') & z)) & _ & _ & e & l & f & P & Q & _ & _ & _ & _ & _ & _ & DB). unfold contact_block in DB. cbv zeta in DB. destruct DB as (_ & _ & _ & _ & K2 & _). congruence.
        - apply in_flat_map in X. destruct X as (bb & X1 & X2). split; [|intros ->; destruct X1]. apply in_flat_map in X2. destruct X2 as (s & _ & X2). exact (wall_kind buf bb s k0 X2).
        - exfalso. apply In_nth_error in X. destruct X as (j & Hj). destruct (CallSort.Forall2_nth _ _ _ FL _ _ Hj) as (l & _ & a & u & _ & _ & _ & _ & cb & _ & DB). cbv zeta in DB. destruct DB as (_ & _ & _ & _ & K2 & _). congruence. }
      assert (Z : forall (f : block R_arith -> bool) (h : block R_arith -> R) l, (forall k, In k l -> f k = false) -> Rsum (map h (filter f l)) = 0).
      { intros f h l. induction l as [|a l IH]; intros H; [reflexivity|]. cbn [filter]. rewrite (H a (or_introl eq_refl)). apply IH. intros. apply H. right. assumption. }
      split.
      - refine (eq_trans W2 (Z _ _ _ _)). intros k Hk. destruct (oneSide k) eqn:Ho; [destruct (K k Hk Ho) as (-> & _); reflexivity|apply andb_false_r].
      - intros Hbs. refine (eq_trans W1 (Z _ _ _ _)). intros k Hk. destruct (oneSide k) eqn:Ho; [destruct (K k Hk Ho) as (_ & X); contradiction|apply andb_false_r].
    Qed.
  End Done.
End Step.

(** ** Preparing *)

Lemma prepared_ok (k : luck R_arith) c pa m b nx ny nz dmax stepCount (ranks : list ranked) : any_luck k -> c_monolayer c = false -> fit_box pa (b_root b) -> tidy b nx ny nz ranks ->
  (Z.rem stepCount 50 = 0%Z -> sampled k ranks) -> (b_doms b = None -> Z.rem stepCount 50 = 0%Z) -> (6 * Z.of_nat (length (objects ranks)) <= INT_MAX)%Z ->
  (forall s, In s (objects ranks) -> fit_object pa (b_root b) m c s) -> (Z.of_nat m <= 9000)%Z -> treeable (length (objects ranks) * S (copies pa m)) ->
  exists n, forall fuel, (n <= fuel)%nat -> exists b' out, prepareStep k fuel dmax c stepCount b ranks = Done (Some (b', out)) /\ b_root b' = b_root b /\ length out = length ranks /\ prepared pa m b' out /\
    exists before, Permutation before (objects ranks) /\ Forall2 (ready_object (b_root b) c) before (objects out).
Proof.
  intros HK Hmono HB HT HS HD HM Hf Hm Hr. destruct (prepare_ok k HK c b nx ny nz) with (dmax := dmax) (stepCount := stepCount) (ranks := ranks) as (n & Hn); try assumption.
  { intros x Hx. destruct (three_axes pa x Hx) as (bb & Hb). exact (proj1 (HB bb x Hb)). }
  { rewrite Hmono. discriminate. }
  exists n. intros fuel Hfu. destruct (Hn fuel Hfu) as (b' & out & E & B1 & B2 & B3 & B4 & Se & Lo & (before & P & F) & Ix). exists b', out. split; [exact E|]. split; [exact B1|]. split; [exact Lo|].
  assert (LL : length (objects out) = length (objects ranks)) by (rewrite <- (CallSort.Forall2_len _ _ _ F); exact (Permutation_length P)).
  split; [|exists before; auto]. constructor; rewrite ?B1, ?LL; try assumption.
  intros t Ht. apply In_nth_error in Ht. destruct Ht as (i & Hi). destruct (CallSort.Forall2_nth _ _ _ F _ _ Hi) as (s & Hs & R). apply (ready_fit pa (b_root b) m c s t Hmono HB); [|exact R]. apply Hf. apply (Permutation_in _ P). eapply nth_error_In. exact Hs.
Qed.

(** ** With everything together *)
Lemma same_refl ranks : same_bodies ranks ranks.
Proof.
  unfold same_bodies. induction ranks as [|p l IH]; constructor; [|exact IH]. exists (pr_ptcl p). split; [destruct p; reflexivity|]. induction (pr_ptcl p) as [|s ss IH']; constructor; [|exact IH']. exists (mot s). destruct s; reflexivity.
Qed.

Section Gear.
  Context {Fo : Type} (x : gear Fo) (m : nat) (ls : list (Z * Z)) (ranks : list ranked) (Hx : set_up x m ls ranks).
  Lemma gear_collect : exists nf, forall fuel fuel', (nf <= fuel)%nat -> (nf <= fuel')%nat -> exists pools, (forall ranks', same_bodies ranks ranks' -> gather x fuel fuel' ranks' = Done (Some pools)) /\ length pools = length ranks /\
    (forall r p pool, nth_error ranks r = Some p -> nth_error pools r = Some pool -> length pool = x_threads x /\ gathered (x_pa x) (b_root (x_doms x)) (x_buf x) (x_bounds x) (x_link x) ls ranks (pr_ptcl p) (concat pool)) /\
    Forall (posed (length (objects ranks))) (concat (concat pools)) /\ Forall opposed (concat (concat pools)).
  Proof using Hx. destruct Hx as [A B C D F G]. exact (full_collect (x_func x) (x_clear x) (x_cast x) (x_threads x) (x_pa x) (x_limit x) (x_group x) (x_doms x) (x_buf x) (x_bounds x) (x_link x) (x_fresh x) (x_junk x) (x_dir x) (x_data x) (x_deal x) m ranks ls A B C D F G). Qed.

  Lemma gear_runs : exists nf, forall fuel fuel', (nf <= fuel)%nat -> (nf <= fuel')%nat -> forall tenth c v fuel2 y fNB vNB, steady (fun _ => x_threads x) c v y fNB vNB ranks -> countable (gather x fuel fuel') ranks -> v_choice v <> 1%Z ->
    exists ms r1 r2 pools hist, calcMobOperator (N := R_arith) ln PI (c_viscosity c) y ranks = Done ms /\ runStepAll (N := R_arith) ln sin cos PI tenth c v fuel2 y ms fNB vNB (gather x fuel fuel') ranks = Done (Some (r1, r2, pools, hist)).
  Proof using Hx.
    destruct gear_collect as (nf & H). exists nf. intros fuel fuel' F1 F2. destruct (H fuel fuel' F1 F2) as (pools0 & E0 & L0 & G0 & P0 & O0). intros tenth c v fuel2 y fNB vNB Hs Hc Hv.
    pose proof (Hc _ (E0 ranks (same_refl ranks))) as Hfew.
    destruct (full_order (x_func x) (x_clear x) (x_cast x) (x_threads x) (x_pa x) (x_limit x) (x_group x) (x_doms x) (x_buf x) (x_bounds x) (x_link x) (x_fresh x) (x_junk x) (x_dir x) (x_data x) (x_deal x) ranks ls fuel fuel' pools0 E0 L0 G0 P0 Hfew c v y fNB vNB Hs) as ([H1 H2 H3 H4 H5 H6] & H7).
    pose proof (mobs_ok c y (fun _ => x_threads x) fNB vNB ranks H5) as Em. eexists.
    destruct (main_total tenth c v fuel2 y (fun _ => x_threads x) fNB vNB (gather x fuel fuel') ranks H1 H2 H3 H4 H5 H6 H7 _ (proj2 (Z.eqb_neq _ _) Hv) (fun r S => ex_intro _ pools0 (E0 r S)) Em) as (r1 & r2 & pools & hist & E). exists r1, r2, pools, hist. split; [exact Em|exact E].
  Qed.

  Lemma gear_step : exists nf, forall fuel fuel', (nf <= fuel)%nat -> (nf <= fuel')%nat -> forall tenth c v fuel2 y fNB vNB r1 r2, converged_step x fuel fuel' tenth c v fuel2 y fNB vNB ranks r1 r2 ->
    (forall i j s u z, nth_error (objects ranks) i = Some s -> nth_error (objects ranks) j = Some u -> (s_gid s < s_gid u)%Z -> lattice (x_pa x) z -> round (rod s) -> round (rod u) ->
      dist3 (spos s) (away (b_root (x_doms x)) z (spos u)) < NearSpec.limit (rod s) (rod u) ->
      exists s' u', nth_error (objects r2) i = Some s' /\ nth_error (objects r2) j = Some u' /\ skin (rod s) + skin (rod u) - c_dt c * v_tol v < dist3 (spos s') (away (b_root (x_doms x)) z (spos u'))) /\
    (forall i s wc wn, nth_error (objects ranks) i = Some s -> In (Wall (N := R_arith) wc wn) (x_bounds x) -> unit3 wn -> round (rod s) -> 0 <= x_buf x -> 0 < radiusCol s ->
      dot3 (sub3 (spos s) wc) wn <> 0 -> dot3 (sub3 (spos s) wc) wn < (1 + 2 * x_buf x) * radiusCol s ->
      exists s', nth_error (objects r2) i = Some s' /\ skin (rod s) - c_dt c * v_tol v < dot3 (sub3 (spos s') wc) wn) /\
    forall d, (d < 3)%nat -> Rsum (map (fun t => vget (forceBi (mot t)) d) (objects r1)) = 0 /\ (x_bounds x = [] -> Rsum (map (fun t => vget (forceCol (mot t)) d) (objects r1)) = 0).
  Proof using Hx.
    destruct gear_collect as (nf & H). exists nf. intros fuel fuel' F1 F2. destruct (H fuel fuel' F1 F2) as (pools0 & E0 & L0 & G0 & P0 & O0). intros tenth c v fuel2 y fNB vNB r1 r2 (Hs & Hpl & Hfix & Hc & ms & pools & hist & Em & E & Hb & Hcap).
    pose proof (Hc _ (E0 ranks (same_refl ranks))) as Hfew. destruct Hx as [A B C D F G].
    pose proof (full_apart (x_func x) (x_clear x) (x_cast x) (x_threads x) (x_pa x) (x_limit x) (x_group x) (x_doms x) (x_buf x) (x_bounds x) (x_link x) (x_fresh x) (x_junk x) (x_dir x) (x_data x) (x_deal x) m ranks ls A B C D F G fuel fuel' pools0 E0 L0 G0 P0 O0 Hfew tenth c v fuel2 y fNB vNB Hs Hpl Hfix ms r1 r2 pools hist Em E Hb) as X1.
    pose proof (full_wall (x_func x) (x_clear x) (x_cast x) (x_threads x) (x_pa x) (x_limit x) (x_group x) (x_doms x) (x_buf x) (x_bounds x) (x_link x) (x_fresh x) (x_junk x) (x_dir x) (x_data x) (x_deal x) m ranks ls A B C D F G fuel fuel' pools0 E0 L0 G0 P0 O0 Hfew tenth c v fuel2 y fNB vNB Hs Hpl Hfix ms r1 r2 pools hist Em E Hb) as X2.
    pose proof (full_momentum (x_func x) (x_clear x) (x_cast x) (x_threads x) (x_pa x) (x_limit x) (x_group x) (x_doms x) (x_buf x) (x_bounds x) (x_link x) (x_fresh x) (x_junk x) (x_dir x) (x_data x) (x_deal x) m ranks ls A B C D F G fuel fuel' pools0 E0 L0 G0 P0 O0 Hfew tenth c v fuel2 y fNB vNB Hs Hpl Hfix ms r1 r2 pools hist Em E Hb) as X3.
    split; [intros i j s u z; apply X1; exact Hcap|]. split; [intros i s wc wn; apply X2; exact Hcap|exact X3].
  Qed.
End Gear.
