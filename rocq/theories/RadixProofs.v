(** Proofs about the radix sort. *)
From Coq Require Import List Arith NArith Permutation Sorted Bool Lia.
From Verif Require Import Outcome ListUtil Overlay MixProofs RadixModel RadixSpec.
Import ListNotations.

(** ** two-dimensional arrays *)
Definition is2 (nt nb : nat) (m : list (list nat)) (f : nat -> nat -> nat) : Prop :=
  length m = nt /\ forall t, t < nt -> exists row, nth_error m t = Some row /\ length row = nb /\ forall r, r < nb -> nth_error row r = Some (f t r).
Lemma nthw {A} (m : list A) i v : i < length m -> exists m', mwrite m i v = Done m' /\ length m' = length m /\ forall j, nth_error m' j = if j =? i then Some v else nth_error m j.
Proof.
  intros H. unfold mwrite. destruct (Nat.ltb_spec i (length m)) as [H'|H']; [|lia]. eexists. split; [reflexivity|].
  assert (LF : length (firstn i m) = i) by (rewrite firstn_length; lia).
  split.
  - rewrite app_length. cbn [length]. rewrite LF, skipn_length. lia.
  - intros j. destruct (Nat.eqb_spec j i) as [->|Hne].
    + rewrite nth_error_app2 by lia. rewrite LF, Nat.sub_diag. reflexivity.
    + destruct (Nat.lt_ge_cases j i).
      * rewrite nth_error_app1 by lia. rewrite <- (firstn_skipn i m) at 2. rewrite nth_error_app1 by lia. reflexivity.
      * rewrite nth_error_app2 by lia. rewrite LF. replace (j - i) with (S (j - S i)) by lia. cbn [nth_error].
        rewrite <- (firstn_skipn (S i) m) at 2. rewrite nth_error_app2; rewrite firstn_length; [|lia]. f_equal. lia.
Qed.
Lemma read2_ok nt nb m f t r : is2 nt nb m f -> t < nt -> r < nb -> read2 m t r = Done (f t r).
Proof. intros (L & H) Ht Hr. destruct (H t Ht) as (row & E & _ & G). unfold read2, mread. rewrite E. cbn [obind]. rewrite G by exact Hr. reflexivity. Qed.
Lemma write2_ok nt nb m f t r v : is2 nt nb m f -> t < nt -> r < nb ->
  exists m', write2 m t r v = Done m' /\ is2 nt nb m' (fun t' r' => if (t' =? t) && (r' =? r) then v else f t' r').
Proof.
  intros (L & H) Ht Hr. destruct (H t Ht) as (row & E & Lr & G). unfold write2, mread. rewrite E. cbn [obind].
  destruct (nthw row r v ltac:(lia)) as (row' & W & Lr' & N). rewrite W. cbn [obind].
  destruct (nthw m t row' ltac:(lia)) as (m' & W' & L' & N'). exists m'. split; [exact W'|]. split; [lia|].
  intros t' Ht'. rewrite N'. destruct (Nat.eqb_spec t' t) as [->|].
  - exists row'. split; [reflexivity|]. split; [lia|]. intros r' Hr'. rewrite N. cbn [andb]. destruct (r' =? r); [reflexivity|]. apply G. exact Hr'.
  - destruct (H t' Ht') as (row2 & E2 & L2 & G2). exists row2. cbn [andb]. auto.
Qed.
Lemma rows_is2 nt nb m : rows nt nb m -> exists f, is2 nt nb m f.
Proof.
  intros (L & F). exists (fun t r => nth r (nth t m []) 0). split; [exact L|]. intros t Ht. rewrite <- L in Ht.
  exists (nth t m []). split; [apply nth_error_nth'; exact Ht|]. assert (G : length (nth t m []) = nb) by (rewrite Forall_forall in F; apply F; apply nth_In; exact Ht).
  split; [exact G|]. intros r Hr. apply nth_error_nth'. lia.
Qed.
Lemma is2_rows nt nb m f : is2 nt nb m f -> rows nt nb m.
Proof.
  intros (L & H). split; [exact L|]. apply Forall_forall. intros row Hin. apply In_nth_error in Hin as (t & E). assert (t < length m) by (apply nth_error_Some; congruence).
  destruct (H t ltac:(lia)) as (row' & E' & L' & _). congruence.
Qed.

(** ** the linear order of buckets and threads *)
Lemma list_prod_linear nt nb : 0 < nt -> list_prod (seq 0 nb) (seq 0 nt) = map (fun k => (k / nt, k mod nt)) (seq 0 (nb * nt)).
Proof.
  intros Hnt. induction nb as [|nb IH]; [reflexivity|].
  rewrite seq_S. cbn [Nat.add].
  assert (G : forall (l : list nat) x, list_prod (l ++ [x]) (seq 0 nt) = list_prod l (seq 0 nt) ++ map (fun j => (x, j)) (seq 0 nt)).
  { induction l as [|a l IHl]; intros x; cbn [list_prod app]; [rewrite app_nil_r; reflexivity|]. rewrite IHl, app_assoc. reflexivity. }
  rewrite G, IH. replace (S nb * nt) with (nb * nt + nt) by lia. rewrite seq_app, map_app. f_equal. cbn [Nat.add].
  rewrite <- (Nat.add_0_r (nb * nt)) at 1. rewrite <- map_add_seq, map_map. apply map_ext_in. intros j Hj. apply in_seq in Hj.
  f_equal; [|]; rewrite Nat.add_comm; [rewrite Nat.div_add by lia; rewrite Nat.div_small by lia; reflexivity|rewrite Nat.mod_add by lia; rewrite Nat.mod_small by lia; reflexivity].
Qed.
Definition total (f : nat -> nat) (k : nat) : nat := sum_list (map f (seq 0 k)).
Lemma total_S f k : total f (S k) = total f k + f k.
Proof. unfold total. rewrite seq_S, map_app, sum_list_app. cbn. lia. Qed.

Lemma N2Nat_lt a b : (a < b)%N -> N.to_nat a < N.to_nat b. Proof. lia. Qed.
Section Radix.
  Context {A : Type} (getKey : A -> N) (nbit : nat).
  Let nb := n_bucket nbit.
  Lemma nb_pos : 0 < nb. Proof. unfold nb, n_bucket. apply Nat.neq_0_lt_0. apply Nat.pow_nonzero. lia. Qed.

  Lemma prefix_ok nt b C p : 0 < nt -> is2 nt nb b C -> rows nt nb p ->
    exists p', prefixSums nbit nt b p = Done p' /\ is2 nt nb p' (fun t r => total (fun k => C (k mod nt) (k / nt)) (r * nt + t)).
  Proof.
    intros Hnt HC Hp. apply rows_is2 in Hp as (f & Hp). pose proof nb_pos as Hnb. unfold prefixSums. fold nb.
    destruct (write2_ok nt nb p f 0 0 0 Hp Hnt Hnb) as (p0 & W0 & H0). rewrite W0. cbn [obind].
    rewrite list_prod_linear by exact Hnt.
    assert (Hn : nb * nt = S (nb * nt - 1)) by nia. rewrite Hn. cbn [seq map tl].
    assert (G : forall k, k <= nb * nt - 1 -> exists p' f', ofold (fun p ij => let (i, j) := (ij : nat * nat) in
      let (i', j') := if j =? 0 then (i - 1, nt - 1) else (i, j - 1) in
      do s <- read2 p j' i'; do c <- read2 b j' i'; write2 p j i (s + c)) (map (fun k => (k / nt, k mod nt)) (seq 1 k)) p0 = Done p' /\
      is2 nt nb p' f' /\ forall t r, t < nt -> r < nb -> r * nt + t < S k -> f' t r = total (fun k => C (k mod nt) (k / nt)) (r * nt + t)).
    { induction k as [|k IH]; intros Hk.
      - exists p0. eexists. split; [reflexivity|]. split; [exact H0|]. intros t r Ht Hr Hl. assert (r * nt + t = 0) by lia. assert (t = 0) by lia. assert (r = 0) by nia. subst. reflexivity.
      - destruct (IH ltac:(lia)) as (p' & f' & E & H' & V). rewrite seq_S, map_app, ofold_app, E. cbn [obind map ofold Nat.add].
        set (m := S k). set (i := m / nt). set (j := m mod nt).
        assert (Dm : m = i * nt + j) by (unfold i, j; rewrite Nat.mul_comm; apply Nat.div_mod; lia).
        assert (Hj : j < nt) by (apply Nat.mod_upper_bound; lia).
        assert (Hi : i < nb) by (apply Nat.div_lt_upper_bound; unfold m; nia).
        assert (P : exists i' j', (if j =? 0 then (i - 1, nt - 1) else (i, j - 1)) = (i', j') /\ i' < nb /\ j' < nt /\ i' * nt + j' = k).
        { destruct (Nat.eqb_spec j 0) as [J|J].
          - exists (i - 1), (nt - 1). assert (1 <= i) by (destruct i; [unfold m in *; lia|lia]). repeat split; try lia.
            assert (E2 : i * nt = (i - 1) * nt + nt) by (rewrite <- (Nat.sub_add 1 i) at 1 by lia; lia). unfold m in *. lia.
          - exists i, (j - 1). repeat split; try (unfold m in *; lia). }
        destruct P as (i' & j' & Ep & Hi' & Hj' & Ek). rewrite Ep.
        rewrite (read2_ok nt nb p' f') by assumption. cbn [obind]. rewrite (read2_ok nt nb b C) by assumption. cbn [obind].
        destruct (write2_ok nt nb p' f' j i (f' j' i' + C j' i') H' Hj Hi) as (p'' & W & H''). rewrite W. cbn [obind]. exists p''. eexists. split; [reflexivity|]. split; [exact H''|].
        intros t r Ht Hr Hl. cbn beta. destruct (Nat.eqb_spec t j) as [->|Tj]; destruct (Nat.eqb_spec r i) as [->|Ri]; cbn [andb].
        + rewrite V by lia. rewrite Ek. rewrite <- Dm. unfold m. rewrite total_S. f_equal. rewrite <- Ek.
          rewrite (Nat.add_comm (i' * nt)), Nat.mod_add, Nat.mod_small, Nat.div_add, Nat.div_small by lia. reflexivity.
        + apply V; try assumption. fold m in Hl. destruct (Nat.eq_dec (r * nt + j) m) as [Q|]; [|unfold m in *; lia]. exfalso. apply Ri. nia.
        + apply V; try assumption. fold m in Hl. destruct (Nat.eq_dec (i * nt + t) m) as [Q|]; [|unfold m in *; lia]. lia.
        + apply V; try assumption. fold m in Hl. destruct (Nat.eq_dec (r * nt + t) m) as [Q|]; [|unfold m in *; lia]. exfalso.
          assert (r = i) by (unfold i; rewrite <- Q; rewrite Nat.add_comm, Nat.div_add, Nat.div_small by lia; reflexivity). contradiction. }
    destruct (G (nb * nt - 1) (le_n _)) as (p' & f' & E & (L & H) & V). exists p'. split; [exact E|]. split; [exact L|].
    intros t Ht. destruct (H t Ht) as (row & E' & Lr & Gr). exists row. split; [exact E'|]. split; [exact Lr|]. intros r Hr. rewrite Gr by exact Hr. f_equal. apply V; try assumption. nia.
  Qed.

  Lemma radix_lt shift x : radix getKey nbit shift x < nb.
  Proof.
    unfold radix, nb, n_bucket. rewrite N.land_ones. pose proof (N.mod_lt (N.shiftr (getKey x) (N.of_nat shift)) (2 ^ N.of_nat nbit) ltac:(apply N.pow_nonzero; lia)) as H.
    apply N2Nat_lt in H. rewrite N2Nat.inj_pow, Nat2N.id in H. exact H.
  Qed.
  Section Pass.
  Variables (shift : nat) (val : list A) (n : nat).
  Hypothesis Hlen : n <= length val.
  Let dg (i : nat) : nat := match nth_error val i with Some x => radix getKey nbit shift x | None => 0 end.
  Lemma dg_lt i : i < n -> dg i < nb.
  Proof. intros H. unfold dg. destruct (nth_error val i) eqn:E; [apply radix_lt|]. apply nth_error_None in E. lia. Qed.
  Variables (nt : nat) (chunks : list (list nat)).
  Hypotheses (Hnt : 0 < nt) (Hch : length chunks = nt) (Hbl : blocks n chunks).
  Lemma chunk_lt t c i : nth_error chunks t = Some c -> In i c -> i < n.
  Proof. intros E Hi. assert (G : In i (concat chunks)) by (apply in_concat; exists c; split; [eapply nth_error_In; exact E|exact Hi]). rewrite Hbl in G. apply in_seq in G. lia. Qed.
  Lemma event_in ev e : follows chunks ev -> In e ev -> exists c, nth_error chunks (fst e) = Some c /\ In (snd e) c.
  Proof.
    intros (F1 & F2) He. pose proof (F1 e He) as Ht. destruct (nth_error chunks (fst e)) as [c|] eqn:E; [|apply nth_error_None in E; lia].
    exists c. split; [reflexivity|]. rewrite <- (F2 _ _ E). apply in_map. apply filter_In. split; [exact He|apply Nat.eqb_refl].
  Qed.
  Lemma event_val ev e : follows chunks ev -> In e ev -> exists x, mread val (snd e) = Done x /\ radix getKey nbit shift x = dg (snd e) /\ nth_error val (snd e) = Some x.
  Proof.
    intros F He. destruct (event_in ev e F He) as (c & E & Hi). pose proof (chunk_lt _ _ _ E Hi). destruct (nth_error val (snd e)) as [x|] eqn:Ex; [|apply nth_error_None in Ex; lia].
    exists x. unfold mread, dg. rewrite Ex. auto.
  Qed.
  Let cnt (ev : list (nat * nat)) (t r : nat) : nat := length (filter (fun e => (fst e =? t) && (dg (snd e) =? r)) ev).
  Lemma cnt_app ev1 ev2 t r : cnt (ev1 ++ ev2) t r = cnt ev1 t r + cnt ev2 t r.
  Proof. unfold cnt. rewrite filter_app_, app_length. reflexivity. Qed.
  Lemma cnt_one t i t0 r0 : cnt [(t, i)] t0 r0 = if (t =? t0) && (dg i =? r0) then 1 else 0.
  Proof. unfold cnt. cbn [filter fst snd]. destruct ((t =? t0) && (dg i =? r0)); reflexivity. Qed.
  Lemma count_ok ev : follows chunks ev -> forall b f, is2 nt nb b f ->
    exists b', ofold (countEvent getKey nbit val shift) ev b = Done b' /\ is2 nt nb b' (fun t r => f t r + cnt ev t r).
  Proof.
    intros F. assert (G : forall done rest, ev = done ++ rest -> forall b f, is2 nt nb b f -> exists b', ofold (countEvent getKey nbit val shift) rest b = Done b' /\ is2 nt nb b' (fun t r => f t r + cnt rest t r)).
    { intros done rest. revert done. induction rest as [|e rest IH]; intros done E b f Hb.
      - exists b. split; [reflexivity|]. destruct Hb as (L & H). split; [exact L|]. intros t Ht. destruct (H t Ht) as (row & A1 & A2 & A3). exists row. split; [exact A1|]. split; [exact A2|]. intros r Hr. rewrite A3 by exact Hr. f_equal. cbn. lia.
      - assert (He : In e ev) by (rewrite E; apply in_elt). destruct (event_val ev e F He) as (x & Rx & Dx & _). destruct (event_in ev e F He) as (c & Ec & Hi).
        assert (Ht : fst e < nt) by (destruct F as (F1 & _); rewrite <- Hch; apply F1; exact He).
        assert (Hr : dg (snd e) < nb) by (apply dg_lt; eapply chunk_lt; eassumption).
        cbn [ofold]. unfold countEvent at 1. rewrite Rx. cbn [obind]. rewrite Dx. rewrite (read2_ok nt nb b f) by assumption. cbn [obind].
        destruct (write2_ok nt nb b f (fst e) (dg (snd e)) (S (f (fst e) (dg (snd e)))) Hb Ht Hr) as (b1 & W & H1). rewrite W. cbn [obind].
        destruct (IH (done ++ [e]) ltac:(rewrite <- app_assoc; exact E) b1 _ H1) as (b' & E' & (L' & H')). exists b'. split; [exact E'|]. split; [exact L'|].
        intros t Ht'. destruct (H' t Ht') as (row & A1 & A2 & A3). exists row. split; [exact A1|]. split; [exact A2|]. intros r Hr'. rewrite A3 by exact Hr'. f_equal.
        change (e :: rest) with ([e] ++ rest). rewrite cnt_app. unfold cnt at 2. cbn [filter].
        rewrite (Nat.eqb_sym t), (Nat.eqb_sym r). destruct (Nat.eqb_spec (fst e) t) as [<-|]; [|cbn; lia]. destruct (Nat.eqb_spec (dg (snd e)) r) as [<-|]; cbn; lia. }
    intros b f Hb. exact (G [] ev eq_refl b f Hb).
  Qed.
  Lemma cnt_chunk ev t c r : follows chunks ev -> nth_error chunks t = Some c -> cnt ev t r = length (filter (fun i => dg i =? r) c).
  Proof.
    intros (_ & F) E. rewrite <- (F t c E). unfold cnt. clear. induction ev as [|e ev IH]; [reflexivity|]. cbn [filter]. destruct (fst e =? t); cbn [andb map filter]; [destruct (dg (snd e) =? r); cbn [length]; [f_equal|]; exact IH|exact IH].
  Qed.
  (** the blocks in the order of the prefix sums *)
  Let block (k : nat) : list nat := filter (fun i => dg i =? k / nt) (nth (k mod nt) chunks []).
  Let Bs : list (list nat) := map block (seq 0 (nb * nt)).
  Let target : list nat := concat Bs.
  Lemma seq_nth_all {B} (l : list B) d : map (fun i => nth i l d) (seq 0 (length l)) = l. Proof. apply nth_seq_id. Qed.
  Lemma target_ok : target = flat_map (fun r => filter (fun i => dg i =? r) (seq 0 n)) (seq 0 nb).
  Proof.
    unfold target, Bs. rewrite <- Hbl. rewrite flat_map_concat_map.
    assert (G : forall k, concat (map block (seq 0 (k * nt))) = concat (map (fun r => filter (fun i => dg i =? r) (concat chunks)) (seq 0 k))).
    { induction k as [|k IH]; [reflexivity|]. replace (S k * nt) with (k * nt + nt) by lia. rewrite seq_app, map_app, concat_app, IH. rewrite seq_S, map_app, concat_app. f_equal. cbn [Nat.add map concat]. rewrite app_nil_r.
      rewrite <- (seq_nth_all chunks []) at 1. rewrite Hch. rewrite <- (Nat.add_0_r (k * nt)) at 1. rewrite <- map_add_seq, map_map.
      assert (Q : forall l, (forall j, In j l -> j < nt) -> concat (map (fun j => block (k * nt + j)) l) = filter (fun i => dg i =? k) (concat (map (fun i => nth i chunks []) l))).
      { induction l as [|j l IHl]; intros Hl; [reflexivity|]. cbn [map concat]. rewrite filter_app_, IHl by (intros; apply Hl; right; assumption). f_equal. unfold block.
        pose proof (Hl j (or_introl eq_refl)). rewrite (Nat.add_comm (k * nt)), Nat.mod_add, Nat.mod_small, Nat.div_add, Nat.div_small by lia. reflexivity. }
      apply Q. intros j Hj. apply in_seq in Hj. lia. }
    apply G.
  Qed.
  Lemma target_perm : Permutation target (seq 0 n).
  Proof.
    rewrite target_ok, flat_map_concat_map. apply (bucket_permutation dg nb (seq 0 n)). intros a Ha. apply in_seq in Ha. apply dg_lt. lia.
  Qed.
  Lemma target_length : length target = n. Proof. rewrite (Permutation_length target_perm), seq_length. reflexivity. Qed.
  Lemma off_total C ev : follows chunks ev -> (forall t r, t < nt -> r < nb -> C t r = cnt ev t r) -> forall k, k <= nb * nt -> total (fun k => C (k mod nt) (k / nt)) k = off Bs k.
  Proof.
    intros F HC. unfold off, Bs. induction k as [|k IH]; intros Hk; [reflexivity|]. rewrite total_S, IH by lia.
    rewrite firstn_map, firstn_map.
    assert (S1 : forall k, k <= nb * nt -> firstn k (seq 0 (nb * nt)) = seq 0 k).
    { intros q Hq. replace (nb * nt) with (q + (nb * nt - q)) by lia. rewrite seq_app, firstn_app, seq_length, Nat.sub_diag. cbn [firstn]. rewrite app_nil_r. apply firstn_all2. rewrite seq_length. lia. }
    rewrite !S1 by lia. rewrite seq_S, !map_app, sum_list_app. f_equal. cbn. rewrite Nat.add_0_r. unfold block.
    assert (Ht : k mod nt < nt) by (apply Nat.mod_upper_bound; lia). assert (Hr : k / nt < nb) by (apply Nat.div_lt_upper_bound; nia).
    rewrite HC by assumption. apply cnt_chunk; [exact F|]. apply nth_error_nth'. lia.
  Qed.
  Lemma fill_ok ev : follows chunks ev -> forall p buf, is2 nt nb p (fun t r => off Bs (r * nt + t)) -> n <= length buf ->
    exists p' buf', ofold (fillEvent getKey nbit val shift) ev (p, buf) = Done (p', buf') /\ rows nt nb p' /\ length buf' = length buf /\
      (forall q i, nth_error target q = Some i -> nth_error buf' q = nth_error val i) /\ (forall q, n <= q -> nth_error buf' q = nth_error buf q).
  Proof.
    intros F p buf Hp Hb.
    assert (ND : NoDup target) by (eapply Permutation_NoDup; [apply Permutation_sym; apply target_perm|apply seq_NoDup]).
    assert (G : forall rest done p1 buf1, ev = done ++ rest -> is2 nt nb p1 (fun t r => off Bs (r * nt + t) + cnt done t r) -> length buf1 = length buf ->
      (forall q i, nth_error target q = Some i -> In i (map snd done) -> nth_error buf1 q = nth_error val i) -> (forall q, n <= q -> nth_error buf1 q = nth_error buf q) ->
      exists p' buf', ofold (fillEvent getKey nbit val shift) rest (p1, buf1) = Done (p', buf') /\ rows nt nb p' /\ length buf' = length buf /\
      (forall q i, nth_error target q = Some i -> In i (map snd ev) -> nth_error buf' q = nth_error val i) /\ (forall q, n <= q -> nth_error buf' q = nth_error buf q)).
    { induction rest as [|e rest IH]; intros done p1 buf1 E Hp1 L1 V1 U1.
      - exists p1, buf1. split; [reflexivity|]. split; [eapply is2_rows; exact Hp1|]. rewrite app_nil_r in E. subst done. auto.
      - assert (He : In e ev) by (rewrite E; apply in_elt). destruct (event_val ev e F He) as (x & Rx & Dx & Ex). destruct (event_in ev e F He) as (c & Ec & Hi).
        destruct e as (t, i). cbn [fst snd] in *.
        assert (Ht : t < nt) by (rewrite <- Hch; apply nth_error_Some; congruence).
        assert (Hr : dg i < nb) by (apply dg_lt; eapply chunk_lt; eassumption).
        set (r := dg i) in *.
        assert (Pos : nth_error target (off Bs (r * nt + t) + cnt done t r) = Some i).
        { assert (Bk : nth_error Bs (r * nt + t) = Some (filter (fun i => dg i =? r) c)).
          { unfold Bs. rewrite nth_error_map, nth_error_seq by nia. cbn. f_equal. unfold block. rewrite (Nat.add_comm (r * nt)), Nat.mod_add, Nat.mod_small, Nat.div_add, Nat.div_small by lia. cbn. f_equal. apply nth_error_nth. exact Ec. }
          assert (Sp : filter (fun i => dg i =? r) c = map snd (filter (fun e => (fst e =? t) && (dg (snd e) =? r)) done) ++ i :: map snd (filter (fun e => (fst e =? t) && (dg (snd e) =? r)) rest)).
          { destruct F as (_ & F). rewrite <- (F t c Ec), E. clear -r. 
            assert (Q : forall l, filter (fun i => dg i =? r) (map snd (filter (fun e : nat * nat => fst e =? t) l)) = map snd (filter (fun e => (fst e =? t) && (dg (snd e) =? r)) l)).
            { induction l as [|e l IH]; [reflexivity|]. cbn [filter]. destruct (fst e =? t); cbn [andb map filter]; [destruct (dg (snd e) =? r); cbn [map]; [f_equal|]; exact IH|exact IH]. }
            rewrite Q, filter_app_, map_app. f_equal. cbn [filter fst snd]. rewrite Nat.eqb_refl. fold r. rewrite Nat.eqb_refl. reflexivity. }
          unfold target. rewrite (nth_error_concat Bs _ _ _ Bk).
          - rewrite Sp. rewrite nth_error_app2; rewrite map_length; fold (cnt done t r); [|lia]. rewrite Nat.sub_diag. reflexivity.
          - rewrite Sp, app_length, map_length. fold (cnt done t r). cbn [length]. lia. }
        assert (Hq : off Bs (r * nt + t) + cnt done t r < n) by (rewrite <- target_length; apply nth_error_Some; congruence).
        cbn [ofold]. unfold fillEvent at 1. cbn [fst snd]. rewrite Rx. cbn [obind]. rewrite Dx. rewrite (read2_ok nt nb p1 _ t r Hp1 Ht Hr). cbn [obind].
        destruct (nthw buf1 (off Bs (r * nt + t) + cnt done t r) x ltac:(lia)) as (buf2 & W2 & L2 & N2). rewrite W2. cbn [obind].
        destruct (write2_ok nt nb p1 _ t r (S (off Bs (r * nt + t) + cnt done t r)) Hp1 Ht Hr) as (p2 & W & H2). rewrite W. cbn [obind].
        assert (Hp2 : is2 nt nb p2 (fun t0 r0 => off Bs (r0 * nt + t0) + cnt (done ++ [(t, i)]) t0 r0)).
        { destruct H2 as (La & Ha). split; [exact La|]. intros t0 Ht0. destruct (Ha t0 Ht0) as (row & A1 & A2 & A3). exists row. split; [exact A1|]. split; [exact A2|]. intros r0 Hr0. rewrite A3 by exact Hr0. f_equal.
          rewrite cnt_app, cnt_one. fold r. rewrite (Nat.eqb_sym t0), (Nat.eqb_sym r0). destruct (Nat.eqb_spec t t0) as [<-|]; cbn [andb]; [|lia]. destruct (Nat.eqb_spec r r0) as [<-|]; lia. }
        apply (IH (done ++ [(t, i)]) p2 buf2); [rewrite <- app_assoc; exact E|exact Hp2|lia| |].
        + intros q i' Hq' Hin. rewrite N2. destruct (Nat.eqb_spec q (off Bs (r * nt + t) + cnt done t r)) as [->|Hne].
          * assert (i' = i) by congruence. subst i'. congruence.
          * apply V1; [exact Hq'|]. rewrite map_app in Hin. apply in_app_or in Hin as [Hin|[<-|[]]]; [exact Hin|]. exfalso. apply Hne. cbn [snd] in Hq'.
            apply (proj1 (NoDup_nth_error target) ND); [apply nth_error_Some; congruence|congruence].
        + intros q Hq'. rewrite N2. destruct (Nat.eqb_spec q (off Bs (r * nt + t) + cnt done t r)); [lia|]. apply U1. exact Hq'. }
    destruct (G ev [] p buf eq_refl) as (p' & buf' & E & R & L & V & U); try tauto.
    { destruct Hp as (La & Ha). split; [exact La|]. intros t Ht. destruct (Ha t Ht) as (row & A1 & A2 & A3). exists row. split; [exact A1|]. split; [exact A2|]. intros r Hr. rewrite A3 by exact Hr. f_equal. cbn. lia. }
    { intros q i _ []. }
    exists p', buf'. split; [exact E|]. split; [exact R|]. split; [exact L|]. split; [|exact U]. intros q i Hq. apply V; [exact Hq|].
    assert (Hi : In i (concat chunks)) by (rewrite Hbl; eapply Permutation_in; [apply target_perm|]; eapply nth_error_In; exact Hq).
    apply in_concat in Hi as (c & Hc & Hi). apply In_nth_error in Hc as (t & Ec). destruct F as (_ & F). rewrite <- (F t c Ec) in Hi. apply in_map_iff in Hi as (e & <- & He). apply in_map. apply filter_In in He. apply He.
  Qed.
  End Pass.

  (** ** one pass *)
  Definition bucketed (shift : nat) (l : list A) : list A := flat_map (fun r => filter (fun x => radix getKey nbit shift x =? r) l) (seq 0 nb).
  Lemma filter_map_seq {B} (l : list B) (d : B) (g : B -> bool) : filter g l = map (fun i => nth i l d) (filter (fun i => g (nth i l d)) (seq 0 (length l))).
  Proof.
    rewrite <- (nth_seq_id l d) at 1. generalize (seq 0 (length l)). induction l0 as [|i l0 IH]; [reflexivity|]. cbn [map filter]. destruct (g (nth i l d)); cbn [map]; [f_equal|]; exact IH.
  Qed.
  Lemma zero_ok nt b : rows nt nb b -> exists b', ofold (fun b t => mwrite b t (repeat 0 nb)) (seq 0 nt) b = Done b' /\ is2 nt nb b' (fun _ _ => 0).
  Proof.
    intros (L & Fr).
    assert (G : forall k, k <= nt -> exists b', ofold (fun b t => mwrite b t (repeat 0 nb)) (seq 0 k) b = Done b' /\ length b' = nt /\ forall t, t < k -> nth_error b' t = Some (repeat 0 nb)).
    { induction k as [|k IH]; intros Hk; [exists b; cbn; split; [reflexivity|]; split; [exact L|lia]|]. destruct (IH ltac:(lia)) as (b' & E & L' & H). rewrite seq_S, ofold_app, E. cbn [obind ofold Nat.add].
      destruct (nthw b' k (repeat 0 nb) ltac:(lia)) as (b2 & W & L2 & N2). rewrite W. cbn [obind]. exists b2. split; [reflexivity|]. split; [lia|]. intros t Ht. rewrite N2. destruct (Nat.eqb_spec t k); [reflexivity|]. apply H. lia. }
    destruct (G nt (le_n nt)) as (b' & E & L' & H). exists b'. split; [exact E|]. split; [exact L'|]. intros t Ht. exists (repeat 0 nb). split; [apply H; exact Ht|]. split; [apply repeat_length|]. intros r Hr. rewrite nth_error_repeat by exact Hr. reflexivity.
  Qed.
  Lemma pass_ok n nt g shift b p val buf : 0 < nt -> staticRegion n nt g -> rows nt nb b -> rows nt nb p -> n <= length val -> n <= length buf ->
    exists b' p', pass getKey nbit g shift b p val buf = Done (b', p', bucketed shift (firstn n val) ++ skipn n buf) /\ rows nt nb b' /\ rows nt nb p'.
  Proof.
    intros Hnt (Ht & chunks & Hch & Hbl & Fc & Ff) Hb Hp Lv Lb. unfold pass. rewrite Ht. fold nb.
    destruct (zero_ok nt b Hb) as (b0 & E0 & H0). rewrite E0. cbn [obind].
    destruct (count_ok shift val n Lv nt chunks Hnt Hch Hbl (counting g) Fc b0 _ H0) as (b1 & E1 & H1). rewrite E1. cbn [obind].
    replace (length b1) with nt by (symmetry; apply H1).
    destruct (prefix_ok nt b1 _ p Hnt H1 Hp) as (p1 & E2 & H2). rewrite E2. cbn [obind].
    assert (H3 : is2 nt nb p1 (fun t r => off (map (fun k => filter (fun i => match nth_error val i with Some x => radix getKey nbit shift x | None => 0 end =? k / nt) (nth (k mod nt) chunks [])) (seq 0 (nb * nt))) (r * nt + t))).
    { destruct H2 as (La & Ha). split; [exact La|]. intros t Ht'. destruct (Ha t Ht') as (row & A1 & A2 & A3). exists row. split; [exact A1|]. split; [exact A2|]. intros r Hr. rewrite A3 by exact Hr. f_equal.
      match type of H1 with is2 _ _ _ ?C => apply (off_total shift val n Lv nt chunks Hnt Hch C (counting g) Fc) end; [reflexivity|]. clear - Ht' Hr Hnt. nia. }
    destruct (fill_ok shift val n Lv nt chunks Hnt Hch Hbl (filling g) Ff p1 buf H3 Lb) as (p2 & buf2 & E4 & R4 & L4 & V4 & U4). rewrite E4. cbn [obind fst snd].
    exists b1, p2. split; [|split; [eapply is2_rows; exact H1|exact R4]]. f_equal. f_equal. 
    pose proof (target_length shift val n Lv nt chunks Hnt Hch Hbl) as TL. pose proof (target_ok shift val n Lv nt chunks Hnt Hch Hbl) as TE.
    match type of TE with _ = ?r => remember r as tgt eqn:Et end.
    assert (TL' : length tgt = n) by (rewrite <- TE; exact TL). clear TL.
    assert (V4' : forall q i, nth_error tgt q = Some i -> nth_error buf2 q = nth_error val i) by (intros q i Hq; rewrite <- TE in Hq; apply V4; exact Hq). clear V4 TE.
    assert (BV : forall q, q < n -> nth_error (bucketed shift (firstn n val)) q = match nth_error tgt q with Some i => nth_error val i | None => None end).
    { intros q Hq. destruct val as [|d vs] eqn:Ev; [cbn in Lv; lia|]. rewrite <- Ev in *.
      assert (EB : bucketed shift (firstn n val) = map (fun i => nth i val d) tgt).
      { unfold bucketed. rewrite Et. rewrite !flat_map_concat_map, concat_map, map_map. f_equal. apply map_ext. intros r. rewrite (filter_map_seq (firstn n val) d). rewrite firstn_length, Nat.min_l by exact Lv.
        assert (Q : forall i, i < n -> nth i (firstn n val) d = nth i val d).
        { intros i Hi. rewrite <- (firstn_skipn n val) at 2. rewrite app_nth1; [reflexivity|]. rewrite firstn_length. lia. }
        assert (Q2 : filter (fun i => radix getKey nbit shift (nth i (firstn n val) d) =? r) (seq 0 n) = filter (fun i => match nth_error val i with Some x => radix getKey nbit shift x | None => 0 end =? r) (seq 0 n)).
        { apply filter_ext_in. intros i Hi. apply in_seq in Hi. rewrite Q by lia. rewrite (nth_error_nth' val d) by lia. reflexivity. }
        rewrite Q2. apply map_ext_in. intros i Hi. apply filter_In in Hi as (Hi & _). apply in_seq in Hi. apply Q. lia. }
      rewrite EB, nth_error_map. destruct (nth_error tgt q) as [i|] eqn:Ei; [|reflexivity]. cbn. symmetry. apply nth_error_nth'.
      assert (In i tgt) by (eapply nth_error_In; exact Ei). rewrite Et in H. apply in_flat_map in H as (r & _ & H). apply filter_In in H as (H & _). apply in_seq in H. lia. }
    assert (LB : length (bucketed shift (firstn n val)) = n).
    { unfold bucketed. rewrite flat_map_concat_map. rewrite (Permutation_length (bucket_permutation (radix getKey nbit shift) nb (firstn n val) (fun a _ => radix_lt shift a))). rewrite firstn_length. lia. }
    apply nth_error_ext. intros q. destruct (Nat.lt_ge_cases q n) as [Hq|Hq].
    - rewrite nth_error_app1 by lia. rewrite BV by exact Hq. destruct (nth_error tgt q) as [i|] eqn:Ei; [apply V4'; exact Ei|]. apply nth_error_None in Ei. lia.
    - rewrite nth_error_app2 by lia. rewrite LB. rewrite U4 by exact Hq. rewrite <- (firstn_skipn n buf) at 1. rewrite nth_error_app2 by (rewrite firstn_length; lia). rewrite firstn_length, Nat.min_l by lia. reflexivity.
  Qed.
  (** ** all passes *)
  Hypothesis Hnbit : 0 < nbit.
  Let low (m : nat) (x : A) : N := (getKey x mod 2 ^ N.of_nat (m * nbit))%N.
  Lemma radix_eq shift x : N.of_nat (radix getKey nbit shift x) = ((getKey x / 2 ^ N.of_nat shift) mod 2 ^ N.of_nat nbit)%N.
  Proof. unfold radix. rewrite N2Nat.id, N.land_ones, N.shiftr_div_pow2. reflexivity. Qed.
  Lemma low_S m x : low (S m) x = (N.of_nat (radix getKey nbit (m * nbit) x) * 2 ^ N.of_nat (m * nbit) + low m x)%N.
  Proof.
    rewrite radix_eq. unfold low. replace (N.of_nat (S m * nbit)) with (N.of_nat (m * nbit) + N.of_nat nbit)%N by lia. rewrite N.pow_add_r.
    rewrite N.mod_mul_r by (apply N.pow_nonzero; lia). lia.
  Qed.
  Lemma low_lt m x : (low m x < 2 ^ N.of_nat (m * nbit))%N. Proof. apply N.mod_lt. apply N.pow_nonzero. lia. Qed.
  Lemma sorted_flat_map (R : A -> A -> Prop) (f : nat -> list A) : forall k s,
    (forall r, StronglySorted R (f r)) -> (forall r r' x y, r < r' -> In x (f r) -> In y (f r') -> R x y) -> StronglySorted R (flat_map f (seq s k)).
  Proof.
    intros k s H1 H2. revert s. induction k as [|k IH]; intros s; cbn [seq flat_map]; [constructor|].
    assert (G : forall y, In y (flat_map f (seq (S s) k)) -> forall x, In x (f s) -> R x y).
    { intros y Hy x Hx. apply in_flat_map in Hy as (r & Hr & Hy). apply in_seq in Hr. apply (H2 s r); [lia|exact Hx|exact Hy]. }
    specialize (IH (S s)). revert G. generalize (flat_map f (seq (S s) k)), IH. intros l Hl G. specialize (H1 s). clear -H1 Hl G. induction (f s) as [|a t IHt]; [exact Hl|].
    cbn [app]. apply StronglySorted_inv in H1 as (S1 & S2). constructor.
    - apply IHt; [exact S1|]. intros y Hy x Hx. apply G; [exact Hy|right; exact Hx].
    - apply Forall_app. split; [exact S2|]. apply Forall_forall. intros y Hy. apply G; [exact Hy|left; reflexivity].
  Qed.
  Lemma sorted_filter (R : A -> A -> Prop) (g : A -> bool) l : StronglySorted R l -> StronglySorted R (filter g l).
  Proof.
    induction l as [|a l IH]; intros H; [constructor|]. apply StronglySorted_inv in H as (H1 & H2). cbn [filter]. destruct (g a); [|apply IH; exact H1]. constructor; [apply IH; exact H1|].
    rewrite Forall_forall in *. intros x Hx. apply filter_In in Hx. apply H2. apply Hx.
  Qed.
  Lemma sorted_impl_in (R R' : A -> A -> Prop) l : (forall x y, In x l -> In y l -> R x y -> R' x y) -> StronglySorted R l -> StronglySorted R' l.
  Proof.
    induction l as [|a l IH]; intros H S; [constructor|]. apply StronglySorted_inv in S as (S1 & S2). constructor.
    - apply IH; [|exact S1]. intros x y Hx Hy. apply H; right; assumption.
    - rewrite Forall_forall in *. intros y Hy. apply H; [left; reflexivity|right; exact Hy|apply S2; exact Hy].
  Qed.
  Lemma filter_filter (f g : A -> bool) l : filter f (filter g l) = filter (fun x => f x && g x) l.
  Proof. induction l as [|a l IH]; [reflexivity|]. cbn [filter]. destruct (g a); cbn [filter]; destruct (f a); cbn [andb]; rewrite IH; reflexivity. Qed.
  Lemma step_ok m l0 l : sortedByKey (low m) l0 l -> sortedByKey (low (S m)) l0 (bucketed (m * nbit) l).
  Proof.
    intros (P & So & F). unfold bucketed. pose proof (fun x => low_lt m x) as Lt. pose proof (fun x => low_S m x) as LS. set (M := (2 ^ N.of_nat (m * nbit))%N) in *. split; [|split].
    - rewrite P. apply Permutation_sym. rewrite flat_map_concat_map. apply bucket_permutation. intros a _. apply radix_lt.
    - apply sorted_flat_map.
      + intros r. apply (sorted_impl_in (fun x y => (low m x <= low m y)%N)); [|apply sorted_filter; exact So].
        intros x y Hx Hy Hxy. apply filter_In in Hx as (_ & Hx). apply filter_In in Hy as (_ & Hy). apply Nat.eqb_eq in Hx, Hy. rewrite !LS, Hx, Hy. lia.
      + intros r r' x y Hr Hx Hy. apply filter_In in Hx as (_ & Hx). apply filter_In in Hy as (_ & Hy). apply Nat.eqb_eq in Hx, Hy. rewrite !LS, Hx, Hy. pose proof (Lt x). nia.
    - intros k.
      assert (E : forall l, filter (fun x => (low (S m) x =? k)%N) l = filter (fun x => radix getKey nbit (m * nbit) x =? N.to_nat (k / M)) (filter (fun x => (low m x =? k mod M)%N) l)).
      { intros l'. rewrite filter_filter. apply filter_ext. intros x. rewrite LS. set (d := radix getKey nbit (m * nbit) x). pose proof (Lt x) as Lx. assert (M0 : M <> 0%N) by (unfold M; apply N.pow_nonzero; lia).
        apply Bool.eq_iff_eq_true. rewrite andb_true_iff, Nat.eqb_eq, !N.eqb_eq. split.
        - intros <-. rewrite (N.add_comm _ (low m x)), N.div_add, N.mod_add, N.div_small, N.mod_small by assumption. split; [|reflexivity]. rewrite N.add_0_l, Nat2N.id. reflexivity.
        - intros (E1 & E2). rewrite E1, E2, N2Nat.id. rewrite N.mul_comm. symmetry. apply N.div_mod. exact M0. }
      rewrite E. rewrite (E l0). rewrite <- F. clear E F P So.
      set (q := N.to_nat (k / M)). clearbody q.
      (* filtering the buckets by low digits, then by the digit q, leaves the bucket q *)
      assert (G : forall t s, filter (fun x => radix getKey nbit (m * nbit) x =? q) (filter (fun x => (low m x =? k mod M)%N) (flat_map (fun r => filter (fun x => radix getKey nbit (m * nbit) x =? r) l) (seq s t)))
        = if (s <=? q) && (q <? s + t) then filter (fun x => radix getKey nbit (m * nbit) x =? q) (filter (fun x => (low m x =? k mod M)%N) l) else []).
      { induction t as [|t IH]; intros s; cbn [seq flat_map].
        - cbn [filter]. destruct (Nat.leb_spec s q); destruct (Nat.ltb_spec q (s + 0)); try reflexivity. lia.
        - rewrite !filter_app_, IH. rewrite !filter_filter.
          assert (Q : filter (fun x => ((radix getKey nbit (m * nbit) x =? q) && (low m x =? k mod M)%N) && (radix getKey nbit (m * nbit) x =? s)) l
            = if s =? q then filter (fun x => (radix getKey nbit (m * nbit) x =? q) && (low m x =? k mod M)%N) l else []).
          { destruct (Nat.eqb_spec s q) as [->|Hne].
            - apply filter_ext. intros x. destruct (radix getKey nbit (m * nbit) x =? q); cbn [andb]; [rewrite andb_true_r|]; reflexivity.
            - apply filter_none. intros x _. destruct (Nat.eqb_spec (radix getKey nbit (m * nbit) x) q) as [->|]; [|reflexivity]. destruct (Nat.eqb_spec q s); [lia|]. rewrite !andb_false_r. reflexivity. }
          rewrite Q. clear Q. destruct (Nat.eqb_spec s q) as [Hs|Hne].
          + subst q. rename s into q. destruct (Nat.leb_spec (S q) q); [lia|]. cbn [andb]. rewrite app_nil_r. destruct (Nat.leb_spec q q); [|lia]. destruct (Nat.ltb_spec q (q + S t)); [|lia]. reflexivity.
          + cbn [app]. destruct (Nat.leb_spec (S s) q), (Nat.leb_spec s q); try lia; destruct (Nat.ltb_spec q (S s + t)), (Nat.ltb_spec q (s + S t)); try lia; reflexivity. }
      rewrite G. cbn [Nat.leb andb]. destruct (Nat.ltb_spec q (0 + nb)) as [H|H]; [reflexivity|]. symmetry. apply filter_none. intros x _. apply Nat.eqb_neq. pose proof (radix_lt (m * nbit) x). lia.
  Qed.
  Lemma start_ok l : sortedByKey (low 0) l l.
  Proof.
    split; [reflexivity|]. split; [|reflexivity]. apply (sorted_impl_in (fun _ _ => True)); [intros x y _ _ _; unfold low; cbn; rewrite !N.mod_1_r; lia|].
    induction l; constructor; [assumption|]. apply Forall_forall. trivial.
  Qed.
  Lemma bucketed_length shift l : length (bucketed shift l) = length l.
  Proof. unfold bucketed. rewrite flat_map_concat_map. apply Permutation_length. apply bucket_permutation. intros a _. apply radix_lt. Qed.
  Lemma passes_ok n nt gs : 0 < nt -> (forall loop, staticRegion n nt (gs loop)) -> forall k loop l0 b p val buf, rows nt nb b -> rows nt nb p -> n <= length val -> n <= length buf ->
    sortedByKey (low loop) l0 (firstn n val) -> 0 < k ->
    exists v w sorted, passes getKey nbit k loop gs b p val buf = Done (v, w) /\ length sorted = n /\ sortedByKey (low (loop + k)) l0 sorted /\
      (if k mod 2 =? 1 then length v = length val /\ skipn n v = skipn n val /\ w = sorted ++ skipn n buf
       else w = sorted ++ skipn n val /\ length v = length buf /\ skipn n v = skipn n buf).
  Proof.
    intros Hnt Hg. induction k as [|k IH]; intros loop l0 b p val buf Hb Hp Lv Lb Hs Hk; [lia|]. cbn [passes].
    destruct (pass_ok n nt (gs loop) (loop * nbit) b p val buf Hnt (Hg loop) Hb Hp Lv Lb) as (b' & p' & E & Hb' & Hp'). rewrite E. cbn [obind].
    pose proof (step_ok loop l0 _ Hs) as Hs'. pose proof (bucketed_length (loop * nbit) (firstn n val)) as BL. rewrite firstn_length, Nat.min_l in BL by exact Lv.
    set (new := bucketed (loop * nbit) (firstn n val)) in *.
    destruct k as [|k].
    - exists val, (new ++ skipn n buf), new. split; [reflexivity|]. split; [exact BL|]. split; [rewrite Nat.add_1_r; exact Hs'|]. cbn. auto.
    - destruct (IH (S loop) l0 b' p' (new ++ skipn n buf) val Hb' Hp') as (v & w & so & E' & Ls & Hso & Hc).
      { rewrite app_length. lia. } { exact Lv. } { rewrite firstn_app, BL, Nat.sub_diag. cbn [firstn]. rewrite app_nil_r, firstn_all2 by lia. exact Hs'. } { lia. }
      exists v, w, so. split; [exact E'|]. split; [exact Ls|]. split; [replace (loop + S (S k)) with (S loop + S k) by lia; exact Hso|].
      assert (Ln : length (new ++ skipn n buf) = length buf) by (rewrite app_length, skipn_length; lia).
      assert (Sn : skipn n (new ++ skipn n buf) = skipn n buf) by (rewrite skipn_app, BL, Nat.sub_diag, skipn_all2 by lia; reflexivity).
      rewrite Ln, Sn in Hc.
      assert (Par : (S (S k) mod 2 =? 1) = negb (S k mod 2 =? 1)).
      { clear. pose proof (Nat.mod_upper_bound (S k) 2 ltac:(lia)). pose proof (Nat.div_mod (S k) 2 ltac:(lia)). pose proof (Nat.mod_upper_bound (S (S k)) 2 ltac:(lia)). pose proof (Nat.div_mod (S (S k)) 2 ltac:(lia)).
        destruct (Nat.eqb_spec (S k mod 2) 1), (Nat.eqb_spec (S (S k) mod 2) 1); cbn; try reflexivity; lia. }
      rewrite Par. destruct (S k mod 2 =? 1); cbn [negb]; intuition.
  Qed.
  Lemma copy_ok (w : list A) order n v : Permutation order (seq 0 n) -> n <= length v -> n <= length w ->
    ofold (fun v i => do x <- mread w i; mwrite v i x) order v = Done (firstn n w ++ skipn n v).
  Proof.
    intros P Lv Lw.
    assert (G : forall order v, (forall i, In i order -> i < n) -> n <= length v -> exists v', ofold (fun v i => do x <- mread w i; mwrite v i x) order v = Done v' /\ length v' = length v /\ forall j, nth_error v' j = if existsb (Nat.eqb j) order then nth_error w j else nth_error v j).
    { induction order0 as [|i o IH]; intros v0 Ho L0; [exists v0; cbn; auto|]. cbn [ofold]. pose proof (Ho i (or_introl eq_refl)) as Hi. unfold mread at 1. destruct (nth_error w i) as [x|] eqn:Ex; [|apply nth_error_None in Ex; lia]. cbn [obind].
      destruct (nthw v0 i x ltac:(lia)) as (v1 & W & L1 & N1). rewrite W. cbn [obind]. destruct (IH v1) as (v' & E & L & N); [intros; apply Ho; right; assumption|lia|].
      exists v'. split; [exact E|]. split; [lia|]. intros j. rewrite N. cbn [existsb]. destruct (existsb (Nat.eqb j) o); [rewrite orb_true_r; reflexivity|]. rewrite orb_false_r, N1. destruct (Nat.eqb_spec j i) as [->|]; [congruence|reflexivity]. }
    destruct (G order v) as (v' & E & L & N); [intros i Hi; apply (Permutation_in _ P) in Hi; apply in_seq in Hi; lia|exact Lv|]. rewrite E. f_equal.
    apply nth_error_ext. intros j. rewrite N. destruct (Nat.lt_ge_cases j n) as [Hj|Hj].
    - assert (X : existsb (Nat.eqb j) order = true). { apply existsb_exists. exists j. split; [|apply Nat.eqb_refl]. apply (Permutation_in _ (Permutation_sym P)). apply in_seq. lia. }
      rewrite X. rewrite nth_error_app1 by (rewrite firstn_length; lia). rewrite <- (firstn_skipn n w) at 1. rewrite nth_error_app1 by (rewrite firstn_length; lia). reflexivity.
    - assert (X : existsb (Nat.eqb j) order = false). { apply Bool.not_true_iff_false. intros H. apply existsb_exists in H as (i & Hi & Hij). apply Nat.eqb_eq in Hij. subst i. apply (Permutation_in _ P) in Hi. apply in_seq in Hi. lia. }
      rewrite X. rewrite nth_error_app2 by (rewrite firstn_length; lia). rewrite firstn_length, Nat.min_l by lia. rewrite <- (firstn_skipn n v) at 1. rewrite nth_error_app2 by (rewrite firstn_length; lia). rewrite firstn_length, Nat.min_l by lia. reflexivity.
  Qed.
  Lemma sort_ok keybits n nt gs copying b p val buf : 0 < keybits -> 0 < nt -> (forall loop, staticRegion n nt (gs loop)) -> Permutation copying (seq 0 n) ->
    rows nt nb b -> rows nt nb p -> n <= length val -> n <= length buf -> (forall x, In x (firstn n val) -> (getKey x < 2 ^ N.of_nat keybits)%N) ->
    exists sorted buf', lsdSort getKey nbit keybits 0 (n - 1) gs copying b p val buf = Done (sorted ++ skipn n val, buf') /\
      sortedByKey getKey (firstn n val) sorted /\ length buf' = length buf /\ skipn n buf' = skipn n buf.
  Proof.
    intros Hkb Hnt Hg Pc Hb Hp Lv Lb Hk. unfold lsdSort. set (K := n_loop nbit keybits).
    assert (HK : keybits <= K * nbit). { unfold K, n_loop. pose proof (Nat.div_mod keybits nbit ltac:(lia)). pose proof (Nat.mod_upper_bound keybits nbit ltac:(lia)). destruct (Nat.eqb_spec (keybits mod nbit) 0); nia. }
    assert (HK0 : 0 < K) by (destruct K; [cbn in HK; lia|lia]).
    destruct (passes_ok n nt gs Hnt Hg K 0 (firstn n val) b p val buf Hb Hp Lv Lb (start_ok _) HK0) as (v & w & so & E & Ls & Hso & Hc). rewrite E. cbn [obind].
    assert (Hfin : sortedByKey getKey (firstn n val) so).
    { assert (Q : forall x, In x (firstn n val) -> low (0 + K) x = getKey x).
      { intros x Hx. unfold low. apply N.mod_small. eapply N.lt_le_trans; [apply Hk; exact Hx|]. apply N.pow_le_mono_r; [lia|]. cbn [Nat.add]. lia. }
      destruct Hso as (P & So & F). assert (Q' : forall x, In x so -> low (0 + K) x = getKey x) by (intros x Hx; apply Q; apply (Permutation_in _ (Permutation_sym P)); exact Hx).
      split; [exact P|]. split.
      - eapply sorted_impl_in; [|exact So]. intros x y Hx Hy H. cbn beta in H. rewrite !Q' in H by assumption. exact H.
      - intros k. rewrite <- (filter_ext_in (fun x => (low (0 + K) x =? k)%N) _ so) by (intros x Hx; rewrite Q' by exact Hx; reflexivity). rewrite F. apply filter_ext_in. intros x Hx. rewrite Q by exact Hx. reflexivity. }

    destruct (K mod 2 =? 1).
    - destruct Hc as (L1 & S1 & ->). rewrite (copy_ok _ copying n v Pc) by (rewrite ?app_length; lia). cbn [obind]. rewrite firstn_app, Ls, Nat.sub_diag. cbn [firstn]. rewrite app_nil_r, firstn_all2 by lia. rewrite S1.
      exists so, (so ++ skipn n buf). split; [reflexivity|]. split; [exact Hfin|]. split; [rewrite app_length, skipn_length; lia|]. rewrite skipn_app, Ls, Nat.sub_diag, skipn_all2 by lia. reflexivity.
    - destruct Hc as (-> & L1 & S1). exists so, v. auto.
  Qed.
End Radix.

(** the stably sorted sequence is unique *)
Lemma sorted_unique {A} (key : A -> N) : forall a l b, sortedByKey key l a -> sortedByKey key l b -> a = b.
Proof.
  assert (G : forall a b, StronglySorted (fun x y => (key x <= key y)%N) a -> StronglySorted (fun x y => (key x <= key y)%N) b -> (forall k, filter (fun x => (key x =? k)%N) a = filter (fun x => (key x =? k)%N) b) -> a = b).
  { induction a as [|x a IH]; intros b Sa Sb F.
    - destruct b as [|y b]; [reflexivity|]. specialize (F (key y)). cbn [filter] in F. rewrite N.eqb_refl in F. discriminate.
    - destruct b as [|y b]; [specialize (F (key x)); cbn [filter] in F; rewrite N.eqb_refl in F; discriminate|].
      apply StronglySorted_inv in Sa as (Sa & Ha). apply StronglySorted_inv in Sb as (Sb & Hb). rewrite Forall_forall in Ha, Hb.
      assert (K : key x = key y).
      { pose proof (F (key x)) as F1. pose proof (F (key y)) as F2. cbn [filter] in F1, F2. rewrite N.eqb_refl in F1. rewrite (N.eqb_refl (key y)) in F2. destruct (N.eqb_spec (key y) (key x)) as [E|E]; [congruence|].
        destruct (N.eqb_spec (key x) (key y)) as [E'|_]; [congruence|].
        assert (I1 : In x (filter (fun z => (key z =? key x)%N) b)) by (rewrite <- F1; left; reflexivity). assert (I2 : In y (filter (fun z => (key z =? key y)%N) a)) by (rewrite F2; left; reflexivity).
        apply filter_In in I1 as (I1 & _). apply filter_In in I2 as (I2 & _). apply Ha in I2. apply Hb in I1. lia. }
      pose proof (F (key x)) as F1. cbn [filter] in F1. rewrite <- K, N.eqb_refl in F1. injection F1 as -> F1. f_equal. apply IH; [exact Sa|exact Sb|].
      intros k. specialize (F k). cbn [filter] in F. destruct (key y =? k)%N; [injection F as F|]; exact F. }
  intros a l b (Pa & Sa & Fa) (Pb & Sb & Fb). apply G; [exact Sa|exact Sb|]. intros k. rewrite Fa, Fb. reflexivity.
Qed.
