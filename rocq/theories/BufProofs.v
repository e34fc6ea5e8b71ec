(** Proofs about the serialization buffer. *)
From Coq Require Import List Arith ZArith Bool Lia.
From Verif Require Import Outcome BufModel BufSpec.
Import ListNotations.
Local Open Scope Z_scope.

(** ** The buffer over any codec *)
Section Codec.
  Context {O : Type} (good : O -> Prop) (enc : O -> bytes) (dec : bytes -> option (O * nat)) (RB : reads_back good enc dec).

  Lemma pack_ok chunks : forall c k, Z.of_nat (length c) + Z.of_nat (length (concat chunks)) <= INT_MAX ->
    pack (Buffer k (Some c)) chunks = Done (Buffer k (Some (c ++ concat chunks))).
  Proof.
    induction chunks as [|x chunks IH]; intros c k H; cbn [pack concat]; [rewrite app_nil_r; reflexivity|].
    cbn [concat] in H. rewrite app_length in H. unfold write. cbn [contentPtr readPos].
    destruct (Z.leb_spec (Z.of_nat (length c)) INT_MAX); [|lia]. cbn [obind].
    rewrite IH by (rewrite app_length; lia). rewrite app_assoc. reflexivity.
  Qed.

  Lemma start_split os k o : nth_error os k = Some o -> concat (map enc os) = concat (map enc (firstn k os)) ++ enc o ++ concat (map enc (skipn (S k) os)).
  Proof.
    intros E. rewrite <- (firstn_skipn k os) at 1. rewrite map_app, concat_app. f_equal.
    apply nth_error_split in E as (l1 & l2 & -> & <-). 
    replace (skipn (length l1) (l1 ++ o :: l2)) with (o :: l2) by (rewrite skipn_app, skipn_all, Nat.sub_diag; reflexivity).
    replace (S (length l1)) with (length (l1 ++ [o])) by (rewrite app_length; cbn; lia).
    replace (l1 ++ o :: l2) with ((l1 ++ [o]) ++ l2) by (rewrite <- app_assoc; reflexivity).
    rewrite skipn_app, skipn_all, Nat.sub_diag. reflexivity.
  Qed.
  Lemma start_S os k o : nth_error os k = Some o -> (start enc os k + length (enc o))%nat = start enc os (S k).
  Proof.
    intros E. unfold start. apply nth_error_split in E as (l1 & l2 & -> & <-).
    replace (S (length l1)) with (length (l1 ++ [o])) by (rewrite app_length; cbn; lia).
    rewrite !firstn_app, !firstn_all. rewrite Nat.sub_diag, firstn_O, app_nil_r.
    replace (length (l1 ++ [o]) - length l1)%nat with 1%nat by (rewrite app_length; cbn; lia).
    rewrite (firstn_all2 l1) by (rewrite app_length; lia). cbn [firstn]. rewrite map_app, concat_app, app_length. cbn [map concat]. rewrite app_nil_r. reflexivity.
  Qed.
  Lemma start_all os j : (length os <= j)%nat -> start enc os j = length (concat (map enc os)).
  Proof. intros H. unfold start. rewrite firstn_all2 by exact H. reflexivity. Qed.
  Lemma start_min os j : start enc os (Nat.min j (length os)) = start enc os j.
  Proof. destruct (Nat.le_gt_cases j (length os)); [rewrite Nat.min_l by lia; reflexivity|]. rewrite Nat.min_r by lia. rewrite !start_all by lia. reflexivity. Qed.
  Lemma start_app os o k : (k <= length os)%nat -> start enc (os ++ [o]) k = start enc os k.
  Proof. intros H. unfold start. rewrite firstn_app. replace (k - length os)%nat with 0%nat by lia. rewrite firstn_O, app_nil_r. reflexivity. Qed.

  Lemma run_ok l : forall os k, proper good enc l -> Forall good os -> (k <= length os)%nat ->
    Z.of_nat (length (concat (map enc os))) + packed enc l <= INT_MAX ->
    let '((os', k'), rs) := acts (os, k) l in
    run enc dec (Buffer (start enc os k) (Some (concat (map enc os)))) os l = Done (Buffer (start enc os' k') (Some (concat (map enc os'))), rs) /\ (k' <= length os')%nat.
  Proof.
    induction l as [|a l IH]; intros os k HP HG Hk HS; [cbn; auto|].
    inversion HP as [|? ? Ha HP']; subst. cbn [acts act]. cbn [packed map fold_right] in HS. unfold packed in HS, IH. cbn [map fold_right] in HS.
    assert (Hpos : forall l : list (action O), 0 <= fold_right Z.add 0 (map (fun a => match a with Pack o _ => Z.of_nat (length (enc o)) | _ => 0 end) l)).
    { clear. induction l as [|[o c| |j] l IH]; cbn; lia. }
    specialize (Hpos l).
    destruct a as [o chunks| |j].
    - destruct Ha as [Go Ec]. cbn [run].
      rewrite pack_ok by (rewrite Ec; lia). cbn [obind]. rewrite Ec.
      replace (concat (map enc os) ++ enc o) with (concat (map enc (os ++ [o]))) by (rewrite map_app, concat_app; cbn [map concat]; rewrite app_nil_r; reflexivity).
      specialize (IH (os ++ [o]) k HP' ltac:(apply Forall_app; split; [exact HG|constructor; [exact Go|constructor]]) ltac:(rewrite app_length; lia)).
      destruct (acts (os ++ [o], k) l) as ((os', k'), rs). rewrite start_app in IH by exact Hk. apply IH.
      rewrite map_app, concat_app, app_length. cbn [map concat]. rewrite app_nil_r. lia.
    - cbn [run contentPtr]. unfold unpack. cbn [readPos].
      destruct (nth_error os k) as [o|] eqn:E.
      + assert (Esk : skipn (start enc os k) (concat (map enc os)) = enc o ++ concat (map enc (skipn (S k) os))).
        { rewrite (start_split os k o E). unfold start. rewrite skipn_app, skipn_all, Nat.sub_diag. reflexivity. }
        rewrite Esk, (rb_read _ _ _ RB) by (rewrite Forall_forall in HG; apply HG; eapply nth_error_In; exact E).
        unfold setReadPos. cbn [contentPtr readPos]. rewrite (start_S os k o E).
        assert (HSk : (S k <= length os)%nat) by (apply nth_error_Some; congruence).
        specialize (IH os (S k) HP' HG HSk ltac:(lia)). destruct (acts (os, S k) l) as ((os', k'), rs). destruct IH as [-> IH]. cbn [obind fst snd]. split; [reflexivity|exact IH].
      + apply nth_error_None in E. assert (k = length os) by lia. subst k.
        rewrite start_all by lia. rewrite skipn_all. rewrite (rb_end _ _ _ RB).
        specialize (IH os (length os) HP' HG ltac:(lia) ltac:(lia)). destruct (acts (os, length os) l) as ((os', k'), rs).
        rewrite start_all in IH by lia. destruct IH as [-> IH]. cbn [obind fst snd]. split; [reflexivity|exact IH].
    - cbn [run setReadPos contentPtr].
      specialize (IH os (Nat.min j (length os)) HP' HG ltac:(lia) ltac:(lia)). destruct (acts (os, Nat.min j (length os)) l) as ((os', k'), rs).
      rewrite start_min in IH. exact IH.
  Qed.

  Lemma replay_ok l : proper good enc l -> packed enc l <= INT_MAX ->
    exists b, run enc dec (newBuffer []) [] l = Done (b, snd (acts ([], 0%nat) l)) /\
      contentPtr b = Some (concat (map enc (fst (fst (acts ([], 0%nat) l))))).
  Proof.
    intros H1 H2. pose proof (run_ok l [] 0 H1 ltac:(constructor) ltac:(cbn; lia) ltac:(cbn; lia)) as H.
    destruct (acts ([], 0%nat) l) as ((os', k'), rs). destruct H as [H _]. eexists. split; [exact H|reflexivity].
  Qed.
End Codec.

Lemma unpack_fail {O T} (dec : bytes -> option (O * nat)) (convert : O -> option T) b c b' : unpack dec convert b c = (b', None) -> b' = b.
Proof. unfold unpack. destruct (dec _) as [[o n]|]; [|congruence]. destruct (convert o); congruence. Qed.

(** ** The message format *)
Section Ind.
  Context (P : obj -> Prop) (H1 : P ONil) (H2 : forall b, P (OBool b)) (H3 : forall z, P (OInt z)) (H4 : forall r, P (ODouble r)) (H5 : forall s, P (OStr s))
    (H6 : forall l, Forall P l -> P (OArr l)).
  Fixpoint obj_ind2 (o : obj) : P o :=
    match o with
    | ONil => H1 | OBool b => H2 b | OInt z => H3 z | ODouble r => H4 r | OStr s => H5 s
    | OArr l => H6 l ((fix go (l : list obj) : Forall P l := match l with [] => Forall_nil _ | x :: l => Forall_cons x (obj_ind2 x) (go l) end) l)
    end.
End Ind.

Lemma be_length n z : length (be n z) = n.
Proof. revert z. induction n as [|n IH]; intros z; cbn [be]; [reflexivity|]. rewrite app_length, IH. cbn. lia. Qed.
Lemma unbe_app l1 l2 a : unbe (l1 ++ l2) a = unbe l2 (unbe l1 a).
Proof. revert a. induction l1; intros; cbn; auto. Qed.
Lemma unbe_be n : forall z acc, 0 <= z < 256 ^ Z.of_nat n -> unbe (be n z) acc = acc * 256 ^ Z.of_nat n + z.
Proof.
  induction n as [|n IH]; intros z acc H; cbn [be unbe]; [cbn in *; lia|].
  rewrite unbe_app. cbn [unbe]. rewrite Nat2Z.inj_succ, Z.pow_succ_r in * by lia.
  rewrite IH by (split; [apply Z.div_pos; lia|apply Z.div_lt_upper_bound; lia]).
  pose proof (Z.div_mod z 256 ltac:(lia)). nia.
Qed.
Lemma take_app x r : take (length x) (x ++ r) = Some (x, r).
Proof.
  unfold take. rewrite app_length. destruct (Nat.ltb_spec (length x + length r) (length x)); [lia|].
  rewrite firstn_app, firstn_all, Nat.sub_diag, firstn_O, app_nil_r, skipn_app, skipn_all, Nat.sub_diag. reflexivity.
Qed.
Lemma take_be n z r : take n (be n z ++ r) = Some (be n z, r).
Proof. rewrite <- (be_length n z) at 1. apply take_app. Qed.
Lemma number_be n sgn z r : 0 <= z < 256 ^ Z.of_nat n -> number n sgn (be n z ++ r) = Some (OInt (if sgn then signed n z else z), r).
Proof. intros H. unfold number. rewrite take_be. cbv zeta. rewrite unbe_be by exact H. rewrite Z.mul_0_l, Z.add_0_l. reflexivity. Qed.
Lemma signed_mod n z : (0 < n)%nat -> - 2 ^ (8 * Z.of_nat n - 1) <= z < 0 -> signed n (z mod 2 ^ (8 * Z.of_nat n)) = z.
Proof.
  intros Hn H. unfold signed. set (m := 2 ^ (8 * Z.of_nat n - 1)) in *.
  assert (E : 2 ^ (8 * Z.of_nat n) = 2 * m) by (unfold m; rewrite <- Z.pow_succ_r by lia; f_equal; lia). rewrite E.
  assert (Em : z mod (2 * m) = z + 2 * m) by (symmetry; apply (Z.mod_unique z (2 * m) (-1)); [left; lia|lia]). rewrite Em.
  destruct (Z.ltb_spec (z + 2 * m) m); lia.
Qed.

Ltac branch := repeat match goal with
  | |- context [?a <? ?b] => first [replace (a <? b) with true by (symmetry; apply Z.ltb_lt; lia) | replace (a <? b) with false by (symmetry; apply Z.ltb_ge; lia)]
  | |- context [?a =? ?b] => first [replace (a =? b) with true by (symmetry; apply Z.eqb_eq; lia) | replace (a =? b) with false by (symmetry; apply Z.eqb_neq; lia)]
  | |- context [?a <=? ?b] => first [replace (a <=? b) with true by (symmetry; apply Z.leb_le; lia) | replace (a <=? b) with false by (symmetry; apply Z.leb_gt; lia)]
  end.

Lemma parse_int z r fuel : - 2 ^ 63 <= z < 2 ^ 64 -> parse (S fuel) (encInt z ++ r) = Some (OInt z, r).
Proof.
  intros H. unfold encInt.
  change (2 ^ 63) with 9223372036854775808 in *. change (2 ^ 64) with 18446744073709551616 in *. change (- 2 ^ 31) with (-2147483648). change (- 2 ^ 15) with (-32768). change (- 2 ^ 7) with (-128). change (2 ^ 32) with 4294967296.
  change (2 ^ 16) with 65536. change (2 ^ 8) with 256.
  destruct (Z.ltb_spec z (-2147483648)).
  { match goal with |- parse _ ((_ :: be 8 ?a) ++ r) = ?x => change (number 8 true (be 8 a ++ r) = x) end.
    rewrite number_be by (change (256 ^ Z.of_nat 8) with 18446744073709551616; apply Z.mod_pos_bound; lia). do 3 f_equal. apply (signed_mod 8); [lia|]. change (2 ^ (8 * Z.of_nat 8 - 1)) with 9223372036854775808. lia. }
  destruct (Z.ltb_spec z (-32768)).
  { match goal with |- parse _ ((_ :: be 4 ?a) ++ r) = ?x => change (number 4 true (be 4 a ++ r) = x) end.
    rewrite number_be by (change (256 ^ Z.of_nat 4) with 4294967296; apply Z.mod_pos_bound; lia). do 3 f_equal. apply (signed_mod 4); [lia|]. change (2 ^ (8 * Z.of_nat 4 - 1)) with 2147483648. lia. }
  destruct (Z.ltb_spec z (-128)).
  { match goal with |- parse _ ((_ :: be 2 ?a) ++ r) = ?x => change (number 2 true (be 2 a ++ r) = x) end.
    rewrite number_be by (change (256 ^ Z.of_nat 2) with 65536; apply Z.mod_pos_bound; lia). do 3 f_equal. apply (signed_mod 2); [lia|]. change (2 ^ (8 * Z.of_nat 2 - 1)) with 32768. lia. }
  destruct (Z.ltb_spec z (-32)).
  { match goal with |- parse _ ((_ :: be 1 ?a) ++ r) = ?x => change (number 1 true (be 1 a ++ r) = x) end.
    rewrite number_be by (change (256 ^ Z.of_nat 1) with 256; apply Z.mod_pos_bound; lia). do 3 f_equal. apply (signed_mod 1); [lia|]. change (2 ^ (8 * Z.of_nat 1 - 1)) with 128. lia. }
  destruct (Z.ltb_spec z 0).
  { assert (Em : z mod 256 = z + 256) by (symmetry; apply (Z.mod_unique z 256 (-1)); [left; lia|lia]). rewrite Em.
    cbn [app parse]. branch. do 3 f_equal. lia. }
  destruct (Z.ltb_spec z 128). { cbn [app parse]. branch. reflexivity. }
  destruct (Z.ltb_spec z 256). { match goal with |- parse _ ((_ :: be 1 ?a) ++ r) = ?x => change (number 1 false (be 1 a ++ r) = x) end. rewrite number_be by (change (256 ^ Z.of_nat 1) with 256; lia). reflexivity. }
  destruct (Z.ltb_spec z 65536). { match goal with |- parse _ ((_ :: be 2 ?a) ++ r) = ?x => change (number 2 false (be 2 a ++ r) = x) end. rewrite number_be by (change (256 ^ Z.of_nat 2) with 65536; lia). reflexivity. }
  destruct (Z.ltb_spec z 4294967296). { match goal with |- parse _ ((_ :: be 4 ?a) ++ r) = ?x => change (number 4 false (be 4 a ++ r) = x) end. rewrite number_be by (change (256 ^ Z.of_nat 4) with 4294967296; lia). reflexivity. }
  match goal with |- parse _ ((_ :: be 8 ?a) ++ r) = ?x => change (number 8 false (be 8 a ++ r) = x) end. rewrite number_be by (change (256 ^ Z.of_nat 8) with 18446744073709551616; lia). reflexivity.
Qed.

Lemma encode_pos o : (1 <= length (encode o))%nat.
Proof.
  destruct o as [| |z| |s|l]; cbn [encode]; try (cbn [length]; lia).
  - unfold encInt. repeat match goal with |- context [if ?c then _ else _] => destruct c end; cbn [length]; lia.
  - rewrite app_length. unfold strHead. repeat match goal with |- context [if ?c then _ else _] => destruct c end; cbn [length]; lia.
  - rewrite app_length. unfold arrHead. repeat match goal with |- context [if ?c then _ else _] => destruct c end; cbn [length]; lia.
Qed.

(** the inner loop of [parse] *)
Definition elems (p : bytes -> option (obj * bytes)) : nat -> nat -> bytes -> option (list obj * bytes) :=
  fix elems (f n : nat) (l : bytes) {struct f} : option (list obj * bytes) :=
  match n with
  | O => Some ([], l)
  | S n => match f with
           | O => None
           | S f => match p l with
                    | None => None
                    | Some (o, l) => match elems f n l with None => None | Some (os, l) => Some (o :: os, l) end
                    end
           end
  end.
Definition arrBody (fuel n : nat) (l : bytes) : option (obj * bytes) :=
  match elems (parse fuel) (S (length l)) n l with None => None | Some (os, r) => Some (OArr os, r) end.

Lemma elems_ok fuel l : forall f r, Forall (fun o => forall r, parse fuel (encode o ++ r) = Some (o, r)) l -> (length l <= f)%nat ->
  elems (parse fuel) f (length l) (concat (map encode l) ++ r) = Some (l, r).
Proof.
  induction l as [|o l IH]; intros f r H Hf; [destruct f; reflexivity|]. inversion H as [|? ? Ho Hl]; subst.
  destruct f as [|f]; [cbn [length] in Hf; lia|]. cbn [length map concat]. rewrite <- app_assoc. change (match parse fuel (encode o ++ concat (map encode l) ++ r) with None => None | Some (o, t) => match elems (parse fuel) f (length l) t with None => None | Some (os, t) => Some (o :: os, t) end end = Some (o :: l, r)). rewrite Ho.
  rewrite IH by (assumption || (cbn [length] in Hf; lia)). reflexivity.
Qed.
Lemma many_bytes l : (length l <= length (concat (map encode l)))%nat.
Proof. induction l as [|o l IH]; cbn [map concat length]; [lia|]. rewrite app_length. pose proof (encode_pos o). lia. Qed.
Lemma arrBody_ok fuel l r : Forall (fun o => forall r, parse fuel (encode o ++ r) = Some (o, r)) l -> 
  arrBody fuel (length l) (concat (map encode l) ++ r) = Some (OArr l, r).
Proof.
  intros H. unfold arrBody. rewrite elems_ok; [reflexivity|exact H|]. rewrite app_length. pose proof (many_bytes l). lia.
Qed.

Lemma parse_arr l r fuel : Z.of_nat (length l) < 2 ^ 32 -> parse (S fuel) (arrHead (Z.of_nat (length l)) ++ concat (map encode l) ++ r) = arrBody fuel (length l) (concat (map encode l) ++ r).
Proof.
  intros H. change (2 ^ 32) with 4294967296 in H. unfold arrHead. change (2 ^ 16) with 65536. set (t := concat (map encode l) ++ r).
  destruct (Z.ltb_spec (Z.of_nat (length l)) 16).
  { transitivity (arrBody fuel (Z.to_nat (144 + Z.of_nat (length l) - 144)) t); [|f_equal; lia]. cbn [app]. cbn [parse]. branch. reflexivity. }
  destruct (Z.ltb_spec (Z.of_nat (length l)) 65536).
  - match goal with |- parse _ ((_ :: be 2 ?a) ++ t) = ?rhs => change (match take 2 (be 2 a ++ t) with None => None | Some (x, r) => arrBody fuel (Z.to_nat (unbe x 0)) r end = rhs) end.
    rewrite take_be, unbe_be by (change (256 ^ Z.of_nat 2) with 65536; lia). f_equal. lia.
  - match goal with |- parse _ ((_ :: be 4 ?a) ++ t) = ?rhs => change (match take 4 (be 4 a ++ t) with None => None | Some (x, r) => arrBody fuel (Z.to_nat (unbe x 0)) r end = rhs) end.
    rewrite take_be, unbe_be by (change (256 ^ Z.of_nat 4) with 4294967296; lia). f_equal. lia.
Qed.
Lemma parse_str s r fuel : Z.of_nat (length s) < 2 ^ 32 -> parse (S fuel) (strHead (Z.of_nat (length s)) ++ s ++ r) = Some (OStr s, r).
Proof.
  intros H. change (2 ^ 32) with 4294967296 in H. unfold strHead. change (2 ^ 16) with 65536. change (2 ^ 8) with 256.
  assert (E : strBody (length s) (s ++ r) = Some (OStr s, r)) by (unfold strBody; rewrite take_app; reflexivity).
  destruct (Z.ltb_spec (Z.of_nat (length s)) 32).
  { rewrite <- E. transitivity (strBody (Z.to_nat (160 + Z.of_nat (length s) - 160)) (s ++ r)); [|f_equal; lia]. cbn [app]. cbn [parse]. branch. reflexivity. }
  assert (B : forall n, Z.of_nat (length s) < 256 ^ Z.of_nat n ->
    match take n (be n (Z.of_nat (length s)) ++ s ++ r) with None => None | Some (x, r) => strBody (Z.to_nat (unbe x 0)) r end = Some (OStr s, r)).
  { intros n Hn. rewrite take_be, unbe_be by lia. rewrite <- E. f_equal. lia. }
  destruct (Z.ltb_spec (Z.of_nat (length s)) 256); [|destruct (Z.ltb_spec (Z.of_nat (length s)) 65536)].
  - apply (B 1%nat). change (256 ^ Z.of_nat 1) with 256. lia.
  - apply (B 2%nat). change (256 ^ Z.of_nat 2) with 65536. lia.
  - apply (B 4%nat). change (256 ^ Z.of_nat 4) with 4294967296. lia.
Qed.

Lemma parse_ok o : fits o -> forall fuel r, (length (encode o) <= fuel)%nat -> parse fuel (encode o ++ r) = Some (o, r).
Proof.
  induction o as [|b|z|raw|s|l IH] using obj_ind2; intros HF fuel r Hl.
  all: destruct fuel as [|fuel]; [match type of Hl with (length (encode ?o) <= 0)%nat => pose proof (encode_pos o); lia end|].
  - reflexivity.
  - destruct b; reflexivity.
  - inversion HF; subst. apply parse_int. assumption.
  - inversion HF as [| | |? Hr| |]; subst. change (match take 8 (raw ++ r) with None => None | Some (x, r) => Some (ODouble x, r) end = Some (ODouble raw, r)).
    rewrite <- Hr, take_app. reflexivity.
  - inversion HF; subst. cbn [encode]. rewrite <- app_assoc. apply parse_str. assumption.
  - inversion HF as [| | | | |? Hn Hf]; subst. cbn [encode]. rewrite <- app_assoc, parse_arr by exact Hn. apply arrBody_ok.
    cbn [encode] in Hl. rewrite app_length in Hl.
    assert (H1 : (1 <= length (arrHead (Z.of_nat (length l))))%nat) by (unfold arrHead; repeat match goal with |- context [if ?c then _ else _] => destruct c end; cbn [length]; lia).
    assert (Hl' : (length (concat (map encode l)) <= fuel)%nat) by lia. clear Hn Hl HF H1.
    induction l as [|o l IHl]; [constructor|]. inversion IH; inversion Hf; subst. cbn [map concat] in Hl'. rewrite app_length in Hl'. constructor.
    + intros r'. apply H1; [assumption|lia].
    + apply IHl; [assumption|assumption|lia].
Qed.

Lemma msgpack_reads_back : reads_back fits encode decode.
Proof.
  split; [|reflexivity]. intros o rest HF. unfold decode. rewrite parse_ok by (assumption || (rewrite app_length; lia)). do 2 f_equal. rewrite app_length. lia.
Qed.
