(** Proofs about making the result folders. *)
From Coq Require Import List ZArith Bool Ascii String Lia.
From Verif Require Import Outcome RunModel RunSpec RunProofs DirModel DirSpec.
Import ListNotations.
Local Notation length := List.length.

Lemma dropSlash_ok r : exists n, r = repeat "/"%char n ++ dropSlash r /\ (forall q, dropSlash r <> "/"%char :: q).
Proof.
  induction r as [|c r (n & E & H)]; [exists 0; split; [reflexivity | discriminate]|].
  cbn [dropSlash]. destruct (Ascii.eqb_spec c "/") as [->|N].
  - exists (S n). split; [cbn; rewrite <- E; reflexivity | exact H].
  - exists 0. split; [reflexivity|]. intros q Hq. congruence.
Qed.
Lemma rev_repeat {A} (a : A) n : rev (repeat a n) = repeat a n.
Proof. induction n as [|n IH]; [reflexivity|]. cbn [repeat rev]. rewrite IH. symmetry. apply repeat_cons. Qed.
Lemma canon_isPath t : isPath t (canon t).
Proof.
  unfold canon. destruct (dropSlash_ok (rev t)) as (n & E & H). split.
  - intros p' Hp. apply (H (rev p')). rewrite <- (rev_involutive (dropSlash (rev t))), Hp, rev_app_distr. reflexivity.
  - exists n. rewrite <- (rev_involutive t), E at 1. rewrite rev_app_distr, rev_repeat. reflexivity.
Qed.
Lemma isPath_canon t p : isPath t p -> p = canon t.
Proof.
  intros [H (n & ->)]. unfold canon. rewrite rev_app_distr, rev_repeat.
  assert (G : forall n, dropSlash (repeat "/"%char n ++ rev p) = rev p).
  { clear n. induction n as [|n IH]; [|exact IH]. cbn [repeat app].
    destruct (rev p) as [|c r] eqn:E; [reflexivity|]. cbn [dropSlash]. destruct (Ascii.eqb_spec c "/") as [->|_]; [|reflexivity].
    exfalso. apply (H (rev r)). rewrite <- (rev_involutive p), E. reflexivity. }
  rewrite G, rev_involutive. reflexivity.
Qed.

(** * One call *)
Lemma make_cases denied t e f :
  (f (canon t) <> None /\ makeSubFolder denied t e f = (f, Returned)) \/
  (f (canon t) = None /\ f (parent t) = Some Dir /\ denied = false /\ exists f', makeSubFolder denied t e f = (f', Returned) /\ f' (canon t) = Some Dir /\ forall p, p <> canon t -> f' p = f p) \/
  (f (canon t) = None /\ (f (parent t) <> Some Dir \/ denied = true) /\ makeSubFolder denied t e f = (f, Exited)).
Proof.
  unfold makeSubFolder, mkdir. destruct (f (canon t)) as [k|] eqn:E.
  - left. split; [discriminate | reflexivity].
  - right. destruct (f (parent t)) as [[|]|] eqn:Ep.
    + destruct denied.
      * right. split; [reflexivity|]. split; [right; reflexivity | reflexivity].
      * left. split; [reflexivity|]. split; [reflexivity|]. split; [reflexivity|].
        eexists. split; [destruct e; reflexivity|]. cbv beta. split.
        -- destruct (list_eq_dec ascii_dec (canon t) (canon t)); [reflexivity | congruence].
        -- intros p Hp. destruct (list_eq_dec ascii_dec p (canon t)); [contradiction | reflexivity].
    + right. split; [reflexivity|]. split; [left; discriminate | reflexivity].
    + right. split; [reflexivity|]. split; [left; discriminate | reflexivity].
Qed.

(** * All ranks *)
Lemma all_there denied t es : forall f, f (canon t) <> None -> makeAll denied t es f = (f, repeat Returned (length es)).
Proof.
  induction es as [|e es IH]; intros f H; [reflexivity|]. cbn [makeAll].
  destruct (make_cases denied t e f) as [[_ E]|[[E _]|[E _]]]; [|contradiction..].
  rewrite E, (IH f H). reflexivity.
Qed.
Theorem all_ready t p es f : isPath t p -> es <> [] -> f (parent t) = Some Dir -> f p <> Some Plain ->
  exists f', makeAll false t es f = (f', repeat Returned (length es)) /\ f' p = Some Dir /\ forall q, q <> p -> f' q = f q.
Proof.
  intros Hp Hes Hpar Hpl. apply isPath_canon in Hp. subst p.
  destruct (f (canon t)) as [k|] eqn:E.
  - exists f. rewrite all_there by congruence. split; [reflexivity|]. split; [destruct k; congruence | auto].
  - destruct es as [|e es]; [contradiction|]. cbn [makeAll].
    destruct (make_cases false t e f) as [[N _]|[(_ & _ & _ & f' & Ef & D & O)|(_ & [N|N] & _)]]; [contradiction| |contradiction|discriminate].
    rewrite Ef, all_there by congruence. exists f'. auto.
Qed.
Theorem all_fail denied t p es f : isPath t p -> f p = None -> (f (parent t) <> Some Dir \/ denied = true) ->
  makeAll denied t es f = (f, repeat Exited (length es)).
Proof.
  intros Hp Hn Hc. apply isPath_canon in Hp. subst p.
  induction es as [|e es IH]; [reflexivity|]. cbn [makeAll].
  destruct (make_cases denied t e f) as [[N _]|[(_ & K1 & K2 & _)|(_ & _ & E)]].
  - congruence.
  - destruct Hc as [Hc|Hc]; congruence.
  - rewrite E, IH. reflexivity.
Qed.
Theorem returned_there denied t p es f f' rs : isPath t p -> makeAll denied t es f = (f', rs) -> In Returned rs -> f' p <> None.
Proof.
  intros Hp. apply isPath_canon in Hp. subst p. revert f f' rs.
  induction es as [|e es IH]; intros f f' rs H I; [injection H as <- <-; destruct I|].
  cbn [makeAll] in H.
  destruct (make_cases denied t e f) as [[N E]|[(_ & _ & _ & f1 & E & D & _)|(_ & _ & E)]]; rewrite E in H.
  - rewrite all_there in H by exact N. injection H as <- <-. exact N.
  - rewrite all_there in H by congruence. injection H as <- <-. congruence.
  - destruct (makeAll denied t es f) as [f2 rs2] eqn:E2. injection H as <- <-.
    destruct I as [I|I]; [discriminate | exact (IH _ _ _ E2 I)].
Qed.
Theorem errno_unused denied t es es' f : length es = length es' -> makeAll denied t es f = makeAll denied t es' f.
Proof.
  revert es' f. induction es as [|e es IH]; intros [|e' es'] f H; try discriminate; [reflexivity|]. cbn [makeAll].
  assert (E : makeSubFolder denied t e f = makeSubFolder denied t e' f).
  { unfold makeSubFolder. destruct (mkdir denied t f) as [g [k|]]; [reflexivity|]. destruct e, e'; reflexivity. }
  rewrite E. destruct (makeSubFolder denied t e' f) as [g r]. rewrite (IH es' g); [reflexivity | cbn in H; lia].
Qed.

(** * The folders of the snapshots *)
Lemma dropName_app a b : ~ In "/"%char a -> dropName (a ++ "/"%char :: b) = "/"%char :: b.
Proof.
  induction a as [|c a IH]; intros H; cbn [app dropName]; [reflexivity|].
  destruct (Ascii.eqb_spec c "/") as [->|_]; [exfalso; apply H; left; reflexivity|]. apply IH. intros I. apply H. right. exact I.
Qed.
Lemma dropSlash_id r : (forall q, r <> "/"%char :: q) -> dropSlash r = r.
Proof. destruct r as [|c r]; intros H; [reflexivity|]. cbn. destruct (Ascii.eqb_spec c "/") as [->|_]; [exfalso; apply (H r); reflexivity | reflexivity]. Qed.

Lemma parent_child d n : n <> [] -> ~ In "/"%char n -> (forall q, d <> q ++ txt "/") -> parent (d ++ "/"%char :: n ++ txt "/") = d.
Proof.
  intros Hn Hs Hd. unfold parent. rewrite rev_app_distr. cbn [rev]. rewrite rev_app_distr. cbn [txt list_ascii_of_string rev app].
  assert (Hr : ~ In "/"%char (rev n)) by (rewrite <- in_rev; exact Hs).
  assert (E : dropSlash ("/"%char :: (rev n ++ ["/"%char]) ++ rev d) = rev n ++ "/"%char :: rev d).
  { cbn [dropSlash Ascii.eqb]. rewrite <- app_assoc. cbn [app].
    change (dropSlash (rev n ++ "/"%char :: rev d) = rev n ++ "/"%char :: rev d). apply dropSlash_id.
    intros q Hq. destruct (rev n) as [|c r] eqn:E; [apply Hn; rewrite <- (rev_involutive n), E; reflexivity|].
    cbn in Hq. injection Hq as -> _. apply Hr. left. reflexivity. }
  cbn [app] in E |- *. rewrite E. rewrite dropName_app by exact Hr.
  change (dropSlash ("/"%char :: rev d)) with (dropSlash (rev d)). rewrite dropSlash_id, rev_involutive; [reflexivity|].
  intros q Hq. apply (Hd (rev q)). rewrite <- (rev_involutive d), Hq. reflexivity.
Qed.

Lemma dec_slash z : (0 <= z)%Z -> ~ In "/"%char (dec z).
Proof.
  intros Hz I. pose proof (dec_digits z Hz) as H. rewrite Forall_forall in H. destruct (H _ I) as [D _]. discriminate.
Qed.
Lemma folder_parent size k t : (0 < size)%Z -> (0 <= k)%Z -> resultFolder size k = Done t -> parent t = resultDir.
Proof.
  intros Hs Hk H. unfold resultFolder in H.
  remember (Z.max (Z.quot 400 size) 1) as num. assert (Hn : (1 <= num)%Z) by lia.
  assert (Hq : (0 <= Z.quot k num)%Z) by (apply Z.quot_pos; lia).
  assert (Hl : (0 <= Z.quot k num * num)%Z) by (apply Z.mul_nonneg_nonneg; lia).
  destruct (_ <=? _)%Z; [|discriminate].
  remember (Z.quot k num * num)%Z as low.
  remember (low + num - 1)%Z as high.
  assert (Hh : (0 <= high)%Z) by lia.
  assert (Et : t = resultDir ++ "/"%char :: (txt "result" ++ dec low ++ txt "-" ++ dec high) ++ txt "/").
  { transitivity (txt "./result/result" ++ dec low ++ txt "-" ++ dec high ++ txt "/"); [congruence|].
    change (txt "./result/result") with (resultDir ++ "/"%char :: txt "result"). repeat first [rewrite <- app_assoc | progress cbn [app]]. reflexivity. }
  rewrite Et. apply parent_child.
  - discriminate.
  - intros I. repeat (apply in_app_iff in I; destruct I as [I|I]).
    + cbn in I. repeat (destruct I as [I|I]; [discriminate|]). destruct I.
    + exact (dec_slash _ Hl I).
    + cbn in I. destruct I as [I|[]]. discriminate.
    + exact (dec_slash _ Hh I).
  - intros q Hq'. apply (f_equal (@rev ascii)) in Hq'. rewrite rev_app_distr in Hq'. discriminate.
Qed.

Lemma forallb_returned n : forallb (fun r => match r with Returned => true | Exited => false end) (repeat Returned n) = true.
Proof. induction n; [reflexivity | assumption]. Qed.

Theorem snapshots_ready size l : forall f, (0 < size)%Z -> f resultDir = Some Dir -> noFileInPlace size f ->
  Forall (fun s => (0 <= fst s)%Z /\ snd s <> [] /\ exists t, resultFolder size (fst s) = Done t) l ->
  exists rs, snapshots size l f = Done rs /\
    Forall2 (fun s r => exists t g p, r = Some (t, g) /\ resultFolder size (fst s) = Done t /\ isPath t p /\ g p = Some Dir) l rs.
Proof.
  induction l as [|[k es] l IH]; intros f Hs Hd Hp Hl; [exists []; split; [reflexivity | constructor]|].
  inversion Hl as [|? ? (Hk & He & t & Et) Hr]; subst. cbn [fst snd] in *.
  assert (Hpar : f (parent t) = Some Dir) by (rewrite (folder_parent size k t Hs Hk Et); exact Hd).
  destruct (all_ready t (canon t) es f (canon_isPath t) He Hpar (Hp k t (canon t) Et (canon_isPath t))) as (f' & Em & D & O).
  assert (Hd' : f' resultDir = Some Dir).
  { destruct (list_eq_dec ascii_dec resultDir (canon t)) as [E|N]; [rewrite E; exact D | rewrite (O _ N); exact Hd]. }
  assert (Hp' : noFileInPlace size f').
  { intros k' t' p' Et' Hp'. destruct (list_eq_dec ascii_dec p' (canon t)) as [E|N]; [rewrite E, D; discriminate | rewrite (O _ N); exact (Hp k' t' p' Et' Hp')]. }
  destruct (IH f' Hs Hd' Hp' Hr) as (rs & E & F).
  exists (Some (t, f') :: rs). cbn [snapshots]. rewrite Et. cbn [obind]. rewrite Em, forallb_returned, E. cbn [obind].
  split; [reflexivity|]. constructor; [|exact F]. exists t, f', (canon t).
  split; [reflexivity|]. split; [exact Et|]. split; [apply canon_isPath | exact D].
Qed.

Theorem restart_exits size k es l f t p : (0 < size)%Z -> (0 <= k)%Z -> es <> [] -> resultFolder size k = Done t -> isPath t p ->
  f resultDir = None -> f p = None -> snapshots size ((k, es) :: l) f = Done [None].
Proof.
  intros Hs Hk He Et Hp Hd Hn. cbn [snapshots]. rewrite Et. cbn [obind].
  rewrite (all_fail false t p es f Hp Hn); [|left; rewrite (folder_parent size k t Hs Hk Et), Hd; discriminate].
  destruct es as [|e es]; [contradiction|]. reflexivity.
Qed.

Theorem plain_taken : exists f t p, isPath t p /\ f p = Some Plain /\ forall e, makeSubFolder false t e f = (f, Returned).
Proof.
  exists (fun _ => Some Plain), (txt "./result"), (canon (txt "./result")). split; [apply canon_isPath|]. split; [reflexivity|].
  intros e. reflexivity.
Qed.
