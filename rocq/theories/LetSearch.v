(** The exchange and the search together. *)
From Coq Require Import List Arith ZArith Lia Bool Permutation Reals Lra Sorted.
From Verif Require Import Outcome ListUtil Arith ParticleModel VecSpec DomainModel NearModel NearSpec NearProofs TreeModel TreeSpec TreeProofs TreeSearch TreeFloat TreeContact LetModel LetSpec LetProofs LetReal LetOpen.
Import ListNotations.

Lemma perm_at {A} (l l' : list A) x : Permutation l l' -> In x l' -> exists i, at_ l i x.
Proof. intros H Hx. apply (Permutation_in _ (Permutation_sym H)) in Hx. apply In_nth_error in Hx. destruct Hx as (i & Hi). exists (Z.of_nat i). split; [lia|]. rewrite Nat2Z.id. exact Hi. Qed.

Lemma lists_complete {N : arith} {P} ok (val : N -> R) (slack : R -> R) pa img (E : list (list (item N P))) need r own o all keysI grpLimit res :
  (forall d, (0 <= d -> d <= slack d)%R) -> (forall l f, In l E -> In f l -> img origin f = f) -> delivers val tight pa img E need r o -> nth_error E r = Some own -> Permutation all (own ++ o) ->
  searched ok val slack keysI (map i_site own) (map i_site all) grpLimit res -> lists_all pa img E (sees_item val slack) own all res.
Proof.
  intros Hsl Himg (tags & T1 & T2 & T3) Hown Hall (S1 & S2) i e s l j f k He Hl Hf Hk Hs.
  assert (Hin : In (img k f) (own ++ o)).
  { apply in_or_app. assert (Dk : {s = r /\ k = origin} + {~ (s = r /\ k = origin)}) by (destruct (Nat.eq_dec s r) as [A|A]; [|right; tauto]; destruct k as [x y z]; destruct (Z.eq_dec x 0) as [->|B]; [|right; intros (_ & X); injection X; congruence]; destruct (Z.eq_dec y 0) as [->|B]; [|right; intros (_ & X); injection X; congruence]; destruct (Z.eq_dec z 0) as [->|B]; [|right; intros (_ & X); injection X; congruence]; left; auto).
    destruct Dk as [(-> & ->)|Hne].
    - left. rewrite (Himg l f); [|apply nth_error_In in Hl; exact Hl|destruct Hf as (_ & Hf); apply nth_error_In in Hf; exact Hf]. rewrite Hown in Hl. injection Hl as ->. destruct Hf as (_ & Hf). apply nth_error_In in Hf. exact Hf.
    - right. assert (Ht : In (s, j, k) tags).
      { apply (T3 own e s l j f k); try assumption; [destruct He as (_ & He); apply nth_error_In in He; exact He|intros -> ->; tauto|]. unfold sees_item, sees, tight in *. destruct Hs as [Hs|Hs]; [left; exact Hs|right]. eapply Rle_trans; [apply Hsl|exact Hs]. unfold apart. repeat apply Rplus_le_le_0_compat; apply pow2_ge_0. }
      destruct (Forall2_at' _ _ _ _ T2 Ht) as (b & Hb & _ & _ & _ & l' & f' & L1 & L2 & ->). rewrite Hl in L1. injection L1 as <-. destruct Hf as (_ & Hf), L2 as (_ & L2). rewrite Hf in L2. injection L2 as <-. exact Hb. }
  destruct (perm_at _ _ _ Hall Hin) as (x & Hx). destruct (tiled_find _ _ _ _ _ S1 i) as (g & Hg & Hi); [rewrite map_length; apply at_lt in He; exact He|].
  apply in_map_iff in Hg. destruct Hg as ((g', js) & Eg & Hin'). cbn in Eg. subst g'. exists g, js, x. split; [exact Hin'|]. split; [exact Hi|]. split; [|exact Hx]. destruct (S2 g js Hin') as (_ & _ & _ & HR).
  apply (HR i x (i_site e) (i_site (img k f)) Hi); [destruct He as (A1 & A2)|destruct Hx as (A1 & A2)|exact Hs]; (split; [exact A1|apply map_nth_error; exact A2]).
Qed.

Lemma image_origin {P} root (f : item R_arith P) : image root origin f = f.
Proof. destruct f as [[[a b c] r] y]. unfold image, away, origin. cbn [i_site s_pos s_rad i_pay vx vy vz]. rewrite !Rmult_0_l, !Rminus_0_r. reflexivity. Qed.
Lemma loose_above d : (0 <= d -> d <= loose d)%R.
Proof. intros H. unfold loose. assert (A : (0 < / 2 ^ 50)%R) by (apply Rinv_0_lt_compat, pow_lt; lra). assert (B : (0 < / 2 ^ 1072)%R) by (apply Rinv_0_lt_compat, pow_lt; lra). nra. Qed.

Lemma close_sees (a b : item R_arith ep) : proper_rod a -> proper_rod b -> close (placed a) (placed b) -> sees_item (fun x => x) tight a b.
Proof.
  intros (A1 & A2 & A3) (B1 & B2 & B3) (p & q & Hp & Hq & Hd). assert (Hs := search_ok (placed a) (placed b) p q A2 B2 A3 B3 Hp Hq Hd).
  unfold sees_item. rewrite A1, B1. set (u := placed a) in *. set (v := placed b) in *. clearbody u v. unfold sees, tight. rewrite dist_apart. cbn [siteOf s_rad]. assert (Hp' : (0 <= dist3 (e_pos u) (e_pos v))%R) by (unfold dist3, norm3; apply sqrt_pos).
  destruct (Rmax_case_strong (getRSearch (N := R_arith) u) (getRSearch (N := R_arith) v) (fun m => (m = getRSearch (N := R_arith) u \/ m = getRSearch (N := R_arith) v))) as [Em|Em]; [left; reflexivity|right; reflexivity| |]; rewrite Em in Hs; [left|right]; apply pow_incr; split; try assumption; apply Rlt_le; assumption.
Qed.
Lemma proper_image root k f : proper_rod f -> proper_rod (image root k f).
Proof.
  intros (A1 & A2 & A3). split; [|split; [exact A2|exact A3]]. destruct f as [[p r] y]. unfold image, siteOf, placed in *. cbn [i_site i_pay s_pos s_rad e_pos] in *. injection A1 as A1. f_equal. exact A1.
Qed.

Section Reals.
  Context {P : Type} (ch : nat -> chance R_arith P) (key : vec R -> outcome Z) (pa : vec bool) (root : ort R) (doms : list (ort R)) (E : list (list (item R_arith P))) (trees : list (list cell * list (moment R_arith))) (limit : Z).
  Hypothesis Y : ready ch key pa root doms E trees limit.

  Lemma exchange_reals : exists F, forall fuel, (F <= fuel)%nat -> exists out,
    @exchangeLet R_arith P ch key fuel pa root doms E trees limit = Done out /\ length out = length doms /\ forall r o, nth_error out r = Some o -> delivers (fun x : R_arith => x) tight pa (image root) E (needed root doms E r) r o.
  Proof using Y. destruct Y. apply let_delivers; assumption. Qed.

  Lemma own_usable r own : nth_error E r = Some own -> usable all_ok (fun x : R_arith => x) (map i_site own).
  Proof using Y.
    intros H. destruct (nth_error trees r) as [t|] eqn:Et; [apply (y_tree _ _ _ _ _ _ _ _ Y r own t H Et)|]. exfalso. apply nth_error_None in Et. assert (r < length E) by (apply nth_error_Some; congruence). rewrite (y_trees _ _ _ _ _ _ _ _ Y) in Et. rewrite (y_E _ _ _ _ _ _ _ _ Y) in H0. lia.
  Qed.
  Lemma delivered_lists r own o all : nth_error E r = Some own -> delivers (fun x : R_arith => x) tight pa (image root) E (needed root doms E r) r o -> Permutation all (own ++ o) ->
    search_lists all_ok (fun x : R_arith => x) limit own all (lists_all pa (image root) E (sees_item (fun x => x) tight) own all).
  Proof using Y.
    intros Hr Hd Hp jl ml s1 s2 tl pl jg mg s3 s4 tg pg keysI keysJ grpLimit H1 H2 H3 H4 Hpl Hpg Fi Fj Li Lj Hl Ua. pose proof (y_limit _ _ _ _ _ _ _ _ Y).
    destruct (search_reals jl ml s1 s2 tl pl jg mg s3 s4 tg pg keysI (map i_site own) keysJ (map i_site all) limit grpLimit) as (res & ER & S); try assumption; [rewrite map_length; exact Li|rewrite map_length; exact Lj|lia|apply (own_usable r); exact Hr|].
    exists res. split; [exact ER|]. apply (lists_complete all_ok (fun x => x) tight pa (image root) E (needed root doms E r) r own o all keysI grpLimit res); try assumption; [intros d _; apply Rle_refl|intros; apply image_origin].
  Qed.
End Reals.

Lemma exchange_search {P : Type} (ch : nat -> chance R_arith P) key pa root doms E trees limit : ready ch key pa root doms E trees limit ->
  exists F, forall fuel, (F <= fuel)%nat -> exists out, @exchangeLet R_arith P ch key fuel pa root doms E trees limit = Done out /\ length out = length doms /\
    forall r own o all, nth_error E r = Some own -> nth_error out r = Some o -> Permutation all (own ++ o) ->
    search_lists all_ok (fun x : R_arith => x) limit own all (lists_all pa (image root) E (sees_item (fun x => x) tight) own all).
Proof.
  intros Y. destruct (exchange_reals _ _ _ _ _ _ _ _ Y) as (F & H). exists F. intros fuel Hf. destruct (H fuel Hf) as (out & E1 & E2 & E3). exists out. split; [exact E1|]. split; [exact E2|].
  intros r own o all Hr Ho Hp. apply (delivered_lists _ _ _ _ _ _ _ _ Y r own o all); [exact Hr|apply E3; exact Ho|exact Hp].
Qed.

Lemma exchange_contacts (ch : nat -> chance R_arith ep) key pa root doms E trees limit : ready ch key pa root doms E trees limit -> (forall l f, In l E -> In f l -> proper_rod f) ->
  exists F, forall fuel, (F <= fuel)%nat -> exists out, @exchangeLet R_arith ep ch key fuel pa root doms E trees limit = Done out /\ length out = length doms /\
    forall r own o all, nth_error E r = Some own -> nth_error out r = Some o -> Permutation all (own ++ o) ->
    search_lists all_ok (fun x : R_arith => x) limit own all (lists_all pa (image root) E (fun a b => close (placed a) (placed b)) own all).
Proof.
  intros Y Hrod. destruct (exchange_search _ _ _ _ _ _ _ _ Y) as (F & H). exists F. intros fuel Hf. destruct (H fuel Hf) as (out & E1 & E2 & E3). exists out. split; [exact E1|]. split; [exact E2|].
  intros r own o all Hr Ho Hp jl ml s1 s2 tl pl jg mg s3 s4 tg pg keysI keysJ grpLimit H1 H2 H3 H4 Hpl Hpg Fi Fj Li Lj Hl Ua.
  destruct (E3 r own o all Hr Ho Hp jl ml s1 s2 tl pl jg mg s3 s4 tg pg keysI keysJ grpLimit) as (res & ER & L); try assumption. exists res. split; [exact ER|].
  intros i e s l j f k He Hl' Hf' Hk Hc. apply (L i e s l j f k He Hl' Hf' Hk). apply close_sees; [|apply proper_image|exact Hc].
  - destruct He as (_ & He). apply nth_error_In in He. apply nth_error_In in Hr. apply (Hrod own); assumption.
  - destruct Hf' as (_ & Hf'). apply nth_error_In in Hf'. apply nth_error_In in Hl'. apply (Hrod l); assumption.
Qed.

Lemma exchange_search_open {P : Type} (ch : nat -> chance F_arith P) key root doms E trees limit fuel : ready_open ch key root doms E trees limit ->
  exists out, exchangeLet ch key fuel open root doms E trees limit = Done out /\ length out = length doms /\
    (forall r o, nth_error out r = Some o -> delivers real tight open (fun _ f => f) E (fun _ _ => True) r o) /\
    forall r own o all, nth_error E r = Some own -> nth_error out r = Some o -> Permutation all (own ++ o) ->
    search_lists finite real limit own all (lists_all open (fun _ f => f) E (sees_item real loose) own all).
Proof.
  intros Y. assert (Y' := Y). destruct Y' as [Y1 Y2 Y3 Y4 Y5 Y6 Y7 Y8 Y9].
  destruct (let_delivers_open ch key root doms E trees limit Y1 Y2 Y3 Y4 Y5 Y6 Y7 Y8 Y9 fuel) as (out & E1 & E2 & E3). exists out. split; [exact E1|]. split; [exact E2|]. split; [exact E3|].
  intros r own o all Hr Ho Hp jl ml s1 s2 tl pl jg mg s3 s4 tg pg keysI keysJ grpLimit H1 H2 H3 H4 Hpl Hpg Fi Fj Li Lj Hl Ua.
  assert (Uo : usable finite real (map i_site own)). { destruct (nth_error trees r) as [t|] eqn:Et; [apply (Y7 r own t Hr Et)|]. exfalso. apply nth_error_None in Et. assert (r < length E) by (apply nth_error_Some; congruence). lia. }
  destruct (search_doubles jl ml s1 s2 tl pl jg mg s3 s4 tg pg keysI (map i_site own) keysJ (map i_site all) limit grpLimit) as (res & ER & S); try assumption; [rewrite map_length; exact Li|rewrite map_length; exact Lj|lia|].
  exists res. split; [exact ER|]. apply (lists_complete finite real loose open (fun _ f => f) E (fun _ _ => True) r own o all keysI grpLimit res); try assumption; [exact loose_above|reflexivity|apply E3; exact Ho].
Qed.
