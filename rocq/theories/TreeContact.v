From Coq Require Import List Arith ZArith Lia Bool Permutation Reals Lra Psatz Sorted.
From Flocq Require Import Core.
From Verif Require Import Outcome ListUtil F64 Arith ParticleModel VecModel VecSpec SylModel DomainModel NearModel NearSpec NearProofs TreeModel TreeSpec TreeProofs TreeSearch TreeReal TreeFloat.
Import ListNotations.
Local Open Scope Z_scope.

Section Trees.
  Context {N : arith} (ok : N -> Prop) (val : N -> R) (HO : ordered N ok val).
  Lemma buildTree_fits junk jm sched sched' keys eps limit tc part : any_order sched -> any_order sched' -> fits limit keys -> length eps = length keys -> length part = 23%nat -> 1 <= limit -> usable ok val eps ->
    exists t, buildTree junk jm sched sched' keys eps limit tc part = Done t /\ builds ok val limit keys eps t.
  Proof using HO. intros H1 H2 (H3 & H4 & H5) H6 H7 H8 H9. apply (buildTree_ok ok val HO); assumption. Qed.
  Lemma groups_fits limit keys eps t grpLimit : builds ok val limit keys eps t -> fits limit keys -> length eps = length keys -> limit <= grpLimit ->
    exists gs, makeIPGroup 22 (fst t) (snd t) grpLimit [] 0 = Done gs /\ tiled g_n g_adr 0 gs (Z.of_nat (length eps)) /\ forall g, In g gs -> grouped ok val keys eps grpLimit g.
  Proof using. destruct t as (tc, moms). intros HB (H1 & H2 & H3) Hl Hg. rewrite Hl. apply (makeGroups_ok ok val limit); assumption. Qed.
End Trees.

Lemma search_reals jl ml s1 s2 tl pl jg mg s3 s4 tg pg keysI epi keysJ epj limit grpLimit :
  any_order s1 -> any_order s2 -> any_order s3 -> any_order s4 -> length pl = 23%nat -> length pg = 23%nat -> fits limit keysI -> fits limit keysJ ->
  length epi = length keysI -> length epj = length keysJ -> 1 <= limit <= grpLimit -> usable (@all_ok R_arith) (fun x => x) epi -> usable (@all_ok R_arith) (fun x => x) epj ->
  exists res, searchLists (fun k e => buildTree jl ml s1 s2 k e limit tl pl) (fun k e => buildTree jg mg s3 s4 k e limit tg pg) keysI epi keysJ epj limit grpLimit = Done res /\
    searched (@all_ok R_arith) (fun x => x) tight keysI epi epj grpLimit res.
Proof.
  intros H1 H2 H3 H4 Hpl Hpg Fi Fj Li Lj (Hl & Hg) Ui Uj. destruct Fi as (F1 & F2 & F3) eqn:EF. apply (searchLists_ok _ _ reals_ordered tight G_reals S_reals); try assumption.
  - apply (buildTree_fits _ _ reals_ordered); assumption.
  - apply (buildTree_fits _ _ reals_ordered); assumption.
  - apply Fj.
Qed.
Lemma search_doubles jl ml s1 s2 tl pl jg mg s3 s4 tg pg keysI epi keysJ epj limit grpLimit :
  any_order s1 -> any_order s2 -> any_order s3 -> any_order s4 -> length pl = 23%nat -> length pg = 23%nat -> fits limit keysI -> fits limit keysJ ->
  length epi = length keysI -> length epj = length keysJ -> 1 <= limit <= grpLimit -> usable finite real epi -> usable finite real epj ->
  exists res, searchLists (fun k e => buildTree jl ml s1 s2 k e limit tl pl) (fun k e => buildTree jg mg s3 s4 k e limit tg pg) keysI epi keysJ epj limit grpLimit = Done res /\
    searched finite real loose keysI epi epj grpLimit res.
Proof.
  intros H1 H2 H3 H4 Hpl Hpg Fi Fj Li Lj (Hl & Hg) Ui Uj. destruct Fi as (F1 & F2 & F3) eqn:EF. apply (searchLists_ok _ _ doubles_ordered loose G_doubles S_doubles); try assumption.
  - apply (buildTree_fits _ _ doubles_ordered); assumption.
  - apply (buildTree_fits _ _ doubles_ordered); assumption.
  - apply Fj.
Qed.

Lemma exact_fits limit keys eps t (g : group R_arith) fs : builds (@all_ok R_arith) (fun x => x) limit keys eps t -> fits limit keys -> length eps = length keys -> usable (@all_ok R_arith) (fun x => x) eps -> fs <> [] -> hull (@all_ok R_arith) (fun x => x) (map point fs) (g_in g) ->
  exists l, interactionList (fst t) (snd t) eps limit g = Done l /\ StronglySorted Z.lt l /\ forall k, In k l <-> exists e, at_ eps k e /\ reached (g_in g) (g_out g) e.
Proof.
  destruct t as (tc, moms). intros HB (_ & F & _) Hl Hu Hne Hh. destruct fs as [|e0 fs]; [contradiction|]. apply (exact_list limit keys eps tc moms g (e0 :: fs) e0); try assumption. left. reflexivity.
Qed.

Lemma tiled_find {G} (size start : G -> Z) a gs b : tiled size start a gs b -> forall i, a <= i < b -> exists g, In g gs /\ start g <= i < start g + size g.
Proof.
  intros H. induction H as [|g gs last Hp H IH]; intros i Hi; [lia|]. destruct (Z.lt_ge_cases i (start g + size g)) as [Hlt|Hge]; [exists g; split; [left; reflexivity|lia]|]. destruct (IH i ltac:(lia)) as (g' & H1 & H2). exists g'. split; [right; assumption|assumption].
Qed.

Lemma sq3 (a b : vec R) : ((vx a - vx b) ^ 2 + (vy a - vy b) ^ 2 + (vz a - vz b) ^ 2)%R = (dist3 a b ^ 2)%R.
Proof.
  unfold dist3, norm3. rewrite pow2_sqrt; [unfold dot3, sub3; cbn [vx vy vz]; ring|]. unfold dot3. assert (A := Rle_0_sqr). unfold Rsqr in A. repeat apply Rplus_le_le_0_compat; apply A.
Qed.
Lemma dist_apart (a b : ep) : apart (fun x : R_arith => x) (siteOf a) (siteOf b) = (dist3 (e_pos a) (e_pos b) ^ 2)%R.
Proof.
  exact (sq3 (e_pos a) (e_pos b)).
Qed.

Lemma contacts_found jl ml s1 s2 tl pl jg mg s3 s4 tg pg keysI (ai : list ep) keysJ (bj : list ep) limit grpLimit :
  any_order s1 -> any_order s2 -> any_order s3 -> any_order s4 -> length pl = 23%nat -> length pg = 23%nat -> fits limit keysI -> fits limit keysJ ->
  length ai = length keysI -> length bj = length keysJ -> 1 <= limit <= grpLimit -> usable (@all_ok R_arith) (fun x => x) (map siteOf ai) -> usable (@all_ok R_arith) (fun x => x) (map siteOf bj) ->
  exists res, searchLists (fun k e => buildTree jl ml s1 s2 k e limit tl pl) (fun k e => buildTree jg mg s3 s4 k e limit tg pg) keysI (map siteOf ai) keysJ (map siteOf bj) limit grpLimit = Done res /\
    forall i j a b p q, at_ ai i a -> at_ bj j b -> sized a -> sized b -> covered a -> covered b -> core_point a p -> core_point b q -> (dist3 p q < NearSpec.limit a b)%R ->
      exists g l, In (g, l) res /\ g_adr g <= i < g_adr g + g_n g /\ In j l.
Proof.
  intros H1 H2 H3 H4 Hpl Hpg Fi Fj Li Lj Hl Ui Uj. destruct (search_reals jl ml s1 s2 tl pl jg mg s3 s4 tg pg keysI (map siteOf ai) keysJ (map siteOf bj) limit grpLimit) as (res & E & T & R); try assumption; try (rewrite map_length; assumption).
  exists res. split; [exact E|]. intros i j a b p q Ha Hb Sa Sb Ca Cb Pp Pq Hd. assert (Hs := search_ok a b p q Sa Sb Ca Cb Pp Pq Hd).
  destruct (tiled_find _ _ _ _ _ T i) as (g & Hg & Hi); [rewrite map_length; apply at_lt in Ha; assumption|]. apply in_map_iff in Hg. destruct Hg as ((g', l) & Eg & Hin). cbn in Eg. subst g'. exists g, l. split; [assumption|]. split; [assumption|].
  destruct (R g l Hin) as (_ & _ & _ & HR). apply (HR i j (siteOf a) (siteOf b)); [assumption|destruct Ha as (A1 & A2); split; [assumption|apply map_nth_error; assumption]|destruct Hb as (A1 & A2); split; [assumption|apply map_nth_error; assumption]|].
  unfold sees, tight. rewrite dist_apart. cbn [siteOf s_rad]. assert (Hp : (0 <= dist3 (e_pos a) (e_pos b))%R) by (unfold dist3, norm3; apply sqrt_pos).
  destruct (Rmax_case_strong (getRSearch (N := R_arith) a) (getRSearch (N := R_arith) b) (fun m => (m = getRSearch (N := R_arith) a \/ m = getRSearch (N := R_arith) b))) as [Em|Em]; [left; reflexivity|right; reflexivity| |]; rewrite Em in Hs; [left|right]; apply pow_incr; split; try assumption; apply Rlt_le; assumption.
Qed.
