(** Contacts found by calcForceAll with the functor of NearModel; memory. *)
From Coq Require Import List Arith ZArith Lia Bool Permutation Reals Lra.
From Flocq Require Import Core.
From Verif Require Import Outcome ListUtil Arith ParticleModel VecSpec VecModel ConModel NearModel NearSpec NearProofs TreeModel TreeSpec TreeMoment TreeProofs LetModel LetSpec LetProofs LetImages LetSearch CallModel CallSpec CallRoot CallSort CallForce CallProofs.
Import ListNotations.

Lemma Forall2_flat {A B C D} (Q : A -> B -> Prop) (f : C -> list A) (g : D -> list B) l l' : Forall2 (fun c d => Forall2 Q (f c) (g d)) l l' -> Forall2 Q (flat_map f l) (flat_map g l').
Proof. induction 1; cbn; [constructor|]. apply Forall2_app; assumption. Qed.
Lemma Forall2_prod {A B C D} (Q : A -> C -> Prop) (Q' : B -> D -> Prop) l m l' m' : Forall2 Q l l' -> Forall2 Q' m m' -> Forall2 (fun x y => Q (fst x) (fst y) /\ Q' (snd x) (snd y)) (list_prod l m) (list_prod l' m').
Proof.
  intros H H'. induction H as [|a c l l' Hac H IH]; cbn; [constructor|]. apply Forall2_app; [|exact IH]. clear - Hac H'. induction H' as [|b d m m' Hbd H' IH]; cbn; [constructor|]. constructor; [split; assumption|exact IH].
Qed.
Lemma Forall2_map_r {A B C} (Q : A -> C -> Prop) (f : B -> C) l l' : Forall2 Q l (map f l') <-> Forall2 (fun a b => Q a (f b)) l l'.
Proof. revert l'. induction l as [|a l IH]; intros [|c l']; split; intros H; inversion H; subst; constructor; try assumption; apply IH; assumption. Qed.
Lemma Forall2_with {A B} (Q : A -> B -> Prop) (W : A -> Prop) l l' : (forall a, In a l -> W a) -> Forall2 Q l l' -> Forall2 (fun a b => W a /\ Q a b) l l'.
Proof. intros HW H. induction H as [|a b l l' H F IH]; constructor; [split; [apply HW; now left|exact H]|]. apply IH. intros x Hx. apply HW. now right. Qed.
Lemma nodup_prod {A B} (l : list A) (m : list B) : NoDup l -> NoDup m -> NoDup (list_prod l m).
Proof.
  intros Hl Hm. induction Hl as [|a l Ha Hl IH]; cbn; [constructor|]. apply nodup_app; [apply nodup_map; [exact Hm|congruence]|exact IH|]. intros (x & y) H1 H2. apply in_map_iff in H1. destruct H1 as (b & Eb & _). injection Eb as <- _. apply in_prod_iff in H2. apply Ha, H2.
Qed.

Lemma near_close a b : near_enough a b -> close a b.
Proof.
  intros (p & q & Hp & Hq & H). exists p, q. split; [exact Hp|]. split; [exact Hq|]. destruct H as [(_ & H)|(_ & _ & k & ((Hk & _) & _) & Hl & H)]; [exact H|].
  assert (S : (0 <= NearSpec.slack k b)%R). { unfold NearSpec.slack, Rdiv. assert (0 < / k)%R by (apply Rinv_0_lt_compat; exact Hk). assert (0 < / 2 ^ 51)%R by (apply Rinv_0_lt_compat, pow_lt; lra). assert (1 <= Rmax 1 (dist3 (tip (-1) b) (tip 1 b) ^ 2))%R by apply Rmax_l. repeat apply Rmult_le_pos; lra. }
  apply Rnot_le_lt. intros Y. assert (NearSpec.limit a b ^ 2 <= dist3 p q ^ 2)%R by (apply pow_incr; lra). lra.
Qed.

Section Contacts.
  Context (pa : vec bool) (root : ort R) (E : list (list (item R_arith ep))) (Hrod : forall l f, In l E -> In f l -> proper_rod f).

  Lemma calls_contacts {Fo} (func : list (item R_arith ep) -> list (item R_arith ep) -> list Fo -> list Fo) clear threads r own x p : nth_error E r = Some own -> served (fun v : R_arith => v) tight pa (image root) E func clear threads own x -> length p = threads ->
    exists p' blocks, nearCalls (N := R_arith) PI (rods (fst x)) p = Done p' /\ Permutation (concat p') (concat p ++ blocks) /\ contacts pa root E own blocks.
  Proof using Hrod.
    intros Hr (_ & Hth & its & F & HP) Lp.
    destruct (NearProofs.calls_ok (N := R_arith) PI (rods (fst x)) p) as (p' & ls & E1 & _ & E2 & E3).
    { apply Forall_forall. intros c Hc. unfold rods in Hc. apply in_map_iff in Hc. destruct Hc as (c0 & <- & Hc). cbn [fst]. rewrite Lp. apply Hth. apply in_map. exact Hc. }
    exists p', (concat ls). split; [exact E1|]. split; [exact E3|].
    (* all pairs of indices in the order of the pairs delivered *)
    set (all := flat_map (fun it : list Z * list (nat * Z * vec Z) => list_prod (fst it) (snd it)) its).
    set (pairOk := fun (t : Z * (nat * Z * vec Z)) (ab : ep * ep) => exists e f', at_ own (fst t) e /\ names pa (image root) E (snd t) f' /\ ab = (placed e, placed f')).
    assert (FA : Forall2 pairOk all (delivered (rods (fst x)))).
    { unfold delivered, rods. rewrite flat_map_concat_map, map_map. rewrite <- (flat_map_concat_map (fun c : nat * (list (item R_arith ep) * list (item R_arith ep)) => list_prod (map placed (fst (snd c))) (map placed (snd (snd c))))).
      apply Forall2_flat. revert F. apply Forall2_imp. intros (is & tags) (t & (epi & epj)) _ _ (A1 & _ & A3 & _). cbn [fst snd].
      assert (G : Forall2 (fun x y => (exists e, at_ own (fst x) e /\ fst y = placed e) /\ (exists f', names pa (image root) E (snd x) f' /\ snd y = placed f')) (list_prod is tags) (list_prod (map placed epi) (map placed epj))).
      { apply (Forall2_prod (fun i a => exists e, at_ own i e /\ a = placed e) (fun t b => exists f', names pa (image root) E t f' /\ b = placed f')); apply Forall2_map_r; [revert A1|revert A3]; apply Forall2_imp; eauto. }
      revert G. apply Forall2_imp. intros (i & tg) (a & b) _ _ ((e & B1 & B2) & (f' & B3 & B4)). cbn [fst snd] in *. exists e, f'. cbn [fst snd]. subst. auto. }
    assert (ND : NoDup all).
    { unfold all. assert (NDi : NoDup (concat (map fst its))) by (apply (Permutation_NoDup (Permutation_sym HP)); apply nodup_map; [apply seq_NoDup|intros; lia]).
      assert (NDt : forall it, In it its -> NoDup (snd it)) by (intros (is & tags) Hit; destruct (Forall2_at' _ _ _ _ F Hit) as ((t & (epi & epj)) & _ & _ & X & _); exact X).
      clear - NDi NDt. induction its as [|it its IH]; cbn in *; [constructor|]. apply nodup_app.
      - apply nodup_prod; [apply (NoDup_app_remove_r _ _ NDi) || (clear - NDi; induction (fst it) as [|a l IH]; cbn in *; [constructor|]; inversion NDi; subst; constructor; [intros H; apply H1; apply in_or_app; now left|auto])|apply NDt; now left].
      - apply IH; [|intros it' Hit; apply NDt; now right]. clear - NDi. induction (fst it) as [|a l IH']; cbn in *; [exact NDi|]. inversion NDi; subst. auto.
      - intros (i & t) H1 H2. apply in_prod_iff in H1. apply in_flat_map in H2. destruct H2 as (it' & Hit' & H2). apply in_prod_iff in H2. clear - NDi H1 H2 Hit'. destruct H1 as (H1 & _), H2 as (H2 & _).
        assert (X : In i (concat (map fst its))) by (apply in_concat; exists (fst it'); split; [apply in_map; exact Hit'|exact H2]). induction (fst it) as [|a l IH]; [destruct H1|]. cbn in NDi. inversion NDi; subst. destruct H1 as [->|H1]; [|auto]. apply H3. apply in_or_app. now right. }
    (* keep the pairs that give a block *)
    set (hit := fun (t : Z * (nat * Z * vec Z)) (b : block R_arith) => let '(i, (s, j, k)) := t in lattice pa k /\ exists e l f P Q, at_ own i e /\ nth_error E s = Some l /\ at_ l j f /\
      let x := placed e in let y := placed (image root k f) in (e_gid x < e_gid y)%Z /\ closest x y P Q /\ (dist3 P Q < NearSpec.limit x y)%R /\ contact_block x y P Q b).
    assert (Keep : forall all ds ls, NoDup all -> Forall2 pairOk all ds -> Forall2 (fun ij l => nearPair (N := R_arith) PI (fst ij) (snd ij) = Done l) ds ls ->
      exists ts, NoDup ts /\ (forall t, In t ts -> In t all) /\ Forall2 hit ts (concat ls) /\
        forall t ab, In t all -> pairOk t ab -> (e_gid (fst ab) < e_gid (snd ab))%Z -> near_enough (fst ab) (snd ab) -> In t ts).
    { clear - Hrod Hr. intros all ds ls ND FA. revert ls ND. induction FA as [|t ab all ds Ht FA IH]; intros ls ND FL; [inversion FL; subst; exists []; split; [constructor|]; split; [intros t []|]; split; [constructor|intros t ab []]|].
      inversion FL as [|? l ? ls' El FL']; subst. inversion ND as [|? ? Hn ND']; subst. destruct (IH ls' ND' FL') as (ts & T1 & T2 & T3 & T4). cbn [concat].
      destruct Ht as (e & f' & He & Hf & ->). cbn [fst snd] in El. destruct t as (i & ((s & j) & k)). cbn [fst snd] in He, Hf. destruct Hf as (Hk & l0 & f & Hs & Hj & ->).
      assert (One : forall ab, pairOk (i, (s, j, k)) ab -> ab = (placed e, placed (image root k f))).
      { intros ab (e2 & f2 & X1 & (_ & l2 & g2 & X2 & X3 & ->) & ->). cbn [fst snd] in *. assert (l2 = l0) as -> by congruence. destruct X1 as (_ & X1), He as (_ & He), X3 as (_ & X3), Hj as (_ & Hj). assert (e2 = e) as -> by congruence. assert (g2 = f) as -> by congruence. reflexivity. }
      destruct (pair_all (placed e) (placed (image root k f))) as (N1 & N2). destruct (Z_lt_le_dec (e_gid (placed e)) (e_gid (placed (image root k f)))) as [Hg|Hg].
      - destruct (N2 Hg) as (l' & P & Q & L1 & L2 & L3 & L4). rewrite L1 in El. injection El as <-. destruct (Rlt_le_dec (dist3 P Q) (NearSpec.limit (placed e) (placed (image root k f)))) as [Hd|Hd].
        + destruct (L3 Hd) as (b & -> & Hb). exists ((i, (s, j, k)) :: ts). split; [constructor; [intros X; apply Hn, T2, X|exact T1]|]. split; [intros t [<-|X]; [now left|right; apply T2; exact X]|]. split; [cbn [app]; constructor; [split; [exact Hk|]; exists e, l0, f, P, Q; cbv zeta; auto 10|exact T3]|].
          intros t ab [<-|X] Hp Hl Hc; [now left|]. right. exact (T4 t ab X Hp Hl Hc).
        + rewrite (L4 Hd). cbn [app]. exists ts. split; [exact T1|]. split; [intros t X; right; apply T2; exact X|]. split; [exact T3|]. intros t ab [<-|X] Hp Hl Hc; [|exact (T4 t ab X Hp Hl Hc)]. exfalso. rewrite (One ab Hp) in Hc. cbn [fst snd] in Hc. destruct (near_one _ _ [] Hc) as (b0 & P0 & Q0 & X0 & _); [|discriminate X0]. exists P, Q. split; [exact L2|]. split; [lra|reflexivity].
      - rewrite (N1 Hg) in El. injection El as <-. cbn [app]. exists ts. split; [exact T1|]. split; [intros t X; right; apply T2; exact X|]. split; [exact T3|]. intros t ab [<-|X] Hp Hl Hc; [|exact (T4 t ab X Hp Hl Hc)]. exfalso. rewrite (One ab Hp) in Hl. cbn [fst snd] in Hl. lia. }
    destruct (Keep all _ ls ND FA E2) as (ts & T1 & T2 & T3 & T4). exists ts. split; [exact T1|]. split; [exact T3|].
    intros i e s l j f k He Hl Hf Hk Hg Hc.
    assert (Hall : In (i, (s, j, k)) all).
    { assert (Hi : In i (concat (map fst its))). { apply (Permutation_in _ (Permutation_sym HP)). apply in_map_iff. exists (Z.to_nat i). destruct He as (H0 & He). split; [lia|]. apply in_seq. split; [lia|]. cbn. apply nth_error_Some. congruence. }
      apply in_concat in Hi. destruct Hi as (is & His & Hi). apply in_map_iff in His. destruct His as ((is' & tags) & Es & Hit). cbn in Es. subst is'. unfold all. apply in_flat_map. exists (is, tags). split; [exact Hit|]. apply in_prod; [exact Hi|].
      destruct (Forall2_at' _ _ _ _ F Hit) as ((t & (epi & epj)) & _ & _ & _ & _ & X & _). apply (X i e s l j f k Hi He Hl Hf Hk). assert (He' := He). destruct He' as (_ & He'). apply nth_error_In in He'. assert (Hf' := Hf). destruct Hf' as (_ & Hf'). apply nth_error_In in Hf'.
      apply (close_sees e (image root k f)); [apply (Hrod own); [apply nth_error_In in Hr; exact Hr|exact He']|apply proper_image; apply (Hrod l); [apply nth_error_In in Hl; exact Hl|exact Hf']|apply near_close; exact Hc]. }
    apply (T4 (i, (s, j, k)) (placed e, placed (image root k f)) Hall); [|exact Hg|exact Hc]. exists e, (image root k f). cbn [fst snd]. split; [exact He|]. split; [|reflexivity]. split; [exact Hk|]. exists l, f. auto.
  Qed.
End Contacts.

(** ** Memory *)
Section Room.
  Local Open Scope R_scope.
  Context {P : Type} (pa : vec bool) (root : ort R) (doms : list (ort R)) (E : list (list (item R_arith P))) (m : nat).
  Hypothesis HA : arena pa root doms E.
  Hypothesis Hm : forall own e, In own E -> In e own -> along pa (fun c : vec R -> R => (s_rad (i_site e) : R) <= INR m * edge root c).

  Lemma hits_room own d k b (c : vec R -> R) i : In own E -> In d doms -> hits root own d k -> In (b, c) [(vx pa, vx); (vy pa, vy); (vz pa, vz)] -> In (c, i) [(vx, vx k); (vy, vy k); (vz, vz k)] -> b = true -> (Z.abs i <= Z.of_nat m + 1)%Z.
  Proof using HA Hm.
    intros Ho Hd (o & Hh & HM) Hbc Hci Hb. pose proof (pair_c pa _ _ _ Hbc) as Hc || pose proof (pair_c _ _ _ Hbc) as Hc. specialize (HM c i Hci). pose proof (proj1 (along_c pa _) (a_doms _ _ _ _ HA d Hd) b c Hbc Hb) as (D1 & D2 & D3). pose proof (proj1 (along_c pa _) (a_box _ _ _ _ HA) b c Hbc Hb) as He. cbv beta in He.
    destruct Hh as (_ & _ & Hh). destruct (Hh c Hc) as ((bl & Il & El) & (bh & Ih & Eh)). apply in_map_iff in Il, Ih. destruct Il as (el & <- & Il), Ih as (eh & <- & Ih).
    change (@eq R (c (olow o)) (c (olow (ball (i_site el))))) in El. change (@eq R (c (ohigh o)) (c (ohigh (ball (i_site eh))))) in Eh.
    assert (B : forall e : item R_arith P, c (olow (ball (i_site e))) = c (s_pos (i_site e)) - s_rad (i_site e) /\ c (ohigh (ball (i_site e))) = c (s_pos (i_site e)) + s_rad (i_site e)) by (intros e; destruct Hc as [<-|[<-|[<-|[]]]]; split; reflexivity).
    rewrite (proj1 (B el)) in El. rewrite (proj2 (B eh)) in Eh. pose proof (home_in pa root doms E HA own el Ho Il c Hc) as L1. pose proof (home_in pa root doms E HA own eh Ho Ih c Hc) as L2.
    pose proof (proj1 (along_c pa _) (Hm own el Ho Il) b c Hbc Hb) as R1. pose proof (proj1 (along_c pa _) (Hm own eh Ho Ih) b c Hbc Hb) as R2. cbv beta in R1, R2. rewrite INR_IZR_INZ in R1, R2.
    assert (B1 : IZR i * edge root c < (IZR (Z.of_nat m) + 2) * edge root c) by (unfold edge in *; lra). assert (B2 : (- (IZR (Z.of_nat m) + 2)) * edge root c < IZR i * edge root c) by (unfold edge in *; lra).
    apply Rmult_lt_reg_r in B1; [|exact He]. apply Rmult_lt_reg_r in B2; [|exact He]. rewrite <- plus_IZR in B1, B2. rewrite <- opp_IZR in B2. apply lt_IZR in B1, B2. lia.
  Qed.

  Definition steps (b : bool) : list Z := if b then map (fun n => (Z.of_nat n - (Z.of_nat m + 1))%Z) (seq 0 (2 * m + 3)) else [0%Z].
  Definition cube : list (vec Z) := map (fun x => Vec (fst (fst x)) (snd (fst x)) (snd x)) (list_prod (list_prod (steps (vx pa)) (steps (vy pa))) (steps (vz pa))).
  Lemma in_steps (b : bool) (i : Z) : (if b return Prop then (Z.abs i <= Z.of_nat m + 1)%Z else i = 0%Z) -> In i (steps b).
  Proof using. unfold steps. destruct b; intros H; [|left; congruence]. apply in_map_iff. exists (Z.to_nat (i + (Z.of_nat m + 1))). split; [lia|]. apply in_seq. lia. Qed.
  Lemma needed_room r s k : lattice pa k -> needed root doms E r s k -> In k cube.
  Proof using HA Hm.
    intros (K1 & K2 & K3) (d & d' & own & own' & N1 & N2 & N3 & N4 & N5). unfold cube. apply in_map_iff. exists ((vx k, vy k), vz k). cbn [fst snd]. split; [destruct k; reflexivity|].
    assert (Lim : forall b (c : vec R -> R) i, In (b, c) [(vx pa, vx); (vy pa, vy); (vz pa, vz)] -> In (c, i) [(vx, vx k); (vy, vy k); (vz, vz k)] -> b = true -> (Z.abs i <= Z.of_nat m + 1)%Z).
    { intros b c i H1 H2 H3. destruct N5 as [N5|N5]; [apply (hits_room own' d k b c i); eauto using nth_error_In|].
      assert (Z.abs (- i) <= Z.of_nat m + 1)%Z; [|lia]. apply (hits_room own d' (opposite k) b c (- i)%Z); eauto using nth_error_In. clear - H2. destruct H2 as [H|[H|[H|[]]]]; injection H as <- <-; cbn; auto. }
    apply in_prod; [apply in_prod|]; apply in_steps; [destruct (vx pa) eqn:Eb; [apply (Lim true vx); cbn; auto|auto]|destruct (vy pa) eqn:Eb; [apply (Lim true vy); cbn; auto|auto]|destruct (vz pa) eqn:Eb; [apply (Lim true vz); cbn; auto|auto]].
  Qed.

  Definition copies : nat := (if vx pa then 2 * m + 3 else 1) * (if vy pa then 2 * m + 3 else 1) * (if vz pa then 2 * m + 3 else 1).
  Lemma cube_length : length cube = copies.
  Proof using. unfold cube, copies. rewrite map_length, !prod_length. unfold steps. destruct (vx pa), (vy pa), (vz pa); rewrite ?map_length, ?seq_length; reflexivity. Qed.

  Lemma treeable_less a b : (a <= b)%nat -> treeable b -> treeable a.
  Proof using. intros H (T1 & T2). split; [lia|]. assert (Z.of_nat a / 2 <= Z.of_nat b / 2)%Z by (apply Z.div_le_mono; lia). lia. Qed.

  Lemma room : (forall own, In own E -> treeable (length own + length (concat E) * copies)) -> roomy pa root doms E.
  Proof using HA Hm.
    intros HT r own tags Hr ND Ht. apply (treeable_less _ (length own + length (concat E) * copies)); [|apply HT; eauto using nth_error_In].
    apply Nat.add_le_mono_l. set (all := flat_map (fun s => map (fun j => (s, Z.of_nat j)) (seq 0 (length (nth s E [])))) (seq 0 (length E))).
    assert (La : length all = length (concat E)).
    { unfold all. rewrite flat_map_concat_map. clear. induction E as [|x l IH] using rev_ind; [reflexivity|]. rewrite app_length. cbn [length]. rewrite Nat.add_1_r, seq_S, map_app, !concat_app, !app_length. cbn [map concat plus]. rewrite !app_nil_r, map_length, seq_length, app_nth2, Nat.sub_diag by lia. cbn [nth]. f_equal. rewrite <- IH. f_equal. f_equal. apply map_ext_in. intros s Hs. apply in_seq in Hs. rewrite app_nth1 by lia. reflexivity. }
    rewrite <- La, <- cube_length, <- prod_length. apply NoDup_incl_length; [exact ND|]. intros ((s & j) & k) H. destruct (Ht s j k H) as (T1 & T2 & l & f & T3 & T4 & T5). apply in_prod; [|apply (needed_room r s k T1 T2)].
    unfold all. apply in_flat_map. exists s. split; [apply in_seq; split; [lia|]; apply nth_error_Some; congruence|]. apply in_map_iff. exists (Z.to_nat j). split; [f_equal; lia|]. apply in_seq. split; [lia|]. rewrite (nth_error_nth _ _ _ T3). apply nth_error_Some. congruence.
  Qed.
End Room.

(** ** All together *)
Lemma call_contacts {Fo} (func : list (item R_arith ep) -> list (item R_arith ep) -> list Fo -> list Fo) clear q threads pa root doms limit grpLimit (E : list (list (item R_arith ep))) :
  arena pa root doms E -> (forall r, any_cast (length doms) threads limit (length (nth r E [])) (q r)) -> (1 <= limit <= grpLimit)%Z -> (forall epi epj fs, length fs = length epi -> length (func epi epj fs) = length fs) ->
  roomy pa root doms E -> (forall l f, In l E -> In f l -> proper_rod f) ->
  exists F, forall fuel, F <= fuel -> exists res, @calcForceAll R_arith ep Fo func clear q Ztrunc fuel pa root doms limit grpLimit E = Done res /\ length res = length E /\
    forall r own x p, nth_error E r = Some own -> nth_error res r = Some x -> length p = threads ->
      exists p' blocks, nearCalls (N := R_arith) PI (rods (fst x)) p = Done p' /\ Permutation (concat p') (concat p ++ blocks) /\ contacts pa root E own blocks.
Proof.
  intros HA Hq Hl Hf HR Hrod. destruct (call_all q threads pa root doms limit grpLimit E func clear HA Hq Hl Hf HR) as (F & HF). exists F. intros fuel Hfu. destruct (HF fuel Hfu) as (res & E1 & E2 & E3). exists res. split; [exact E1|]. split; [exact E2|].
  intros r own x p Hr Hx Lp. exact (calls_contacts pa root E Hrod func clear threads r own x p Hr (E3 r own x Hr Hx) Lp).
Qed.
