(** The solver loops (C23, C24). *)
From Coq Require Import List Arith ZArith Reals Bool Lia Lra.
From Flocq Require Import Core BinarySingleNaN.
From Verif Require Import ListUtil Outcome F64 Arith QPModel QPSpec LinProofs QPProofs.
Import ListNotations.

Section Generic.
  Context {N : arith} (A : list N -> list N) (b : list N).
  Context (proj : list N -> list N) (resid : list N -> list N -> option (list N)) (tol : N).

  Definition evalres (x : list N) (r : N) : Prop := exists q, resid x (gradient A b x) = Some q /\ norm2 q = r.

  Lemma numbered_snoc : forall (hist : list (hrec N)) e, numbered hist -> h_ite e = length hist -> numbered (hist ++ [e]).
  Proof.
    intros hist e H E. unfold numbered in *. rewrite map_app, app_length, H. cbn [map length].
    replace (length hist + 1) with (S (length hist)) by lia. rewrite seq_S, E. reflexivity.
  Qed.

  Definition evalabs (x : list N) (r : N) : Prop := exists q, resid x (gradient A b x) = Some q /\ a_abs (norm2 q) = r.

  (** vectors of the right length *)
  Context (Lp : list N -> Prop) (Lp_upd : forall s x t y, Lp x -> Lp y -> Lp (vupd s x t y))
          (Lp_A : forall x, Lp x -> Lp (A x)) (Lp_b : Lp b).

  Lemma Lp_gradient : forall x, Lp x -> Lp (gradient A b x).
  Proof. intros x Hx. apply Lp_upd; [exact Lp_b|apply Lp_A; exact Hx]. Qed.

  Section BB.
    Context (stepSize : nat -> list N -> list N -> N) (stagnates : N -> bool).

    Lemma bbLoop_report : forall (P : list N -> Prop), (forall v, Lp v -> P (proj v)) -> (forall v, P v -> Lp v) ->
      forall n ite mv xk xkm1 alpha hist lastX code x hist' l,
      length hist = S ite -> numbered hist -> Forall (fun e => a_lt (a_abs (h_res e)) tol = false) hist ->
      (exists e, nth_error hist (ite - 1) = Some e /\ evalres xk (h_res e)) ->
      (exists e, nth_error hist ite = Some e /\ evalres xkm1 (h_res e)) ->
      P xk -> P xkm1 ->
      bbLoop A b proj resid stepSize stagnates tol n ite mv xk xkm1 (gradient A b xkm1) alpha hist lastX = SRet code x hist' l ->
      bb_report evalres tol (ite + n) code x hist' l /\ P x.
  Proof.
    intros P HP PL. induction n as [|n IH]; intros ite mv xk xkm1 alpha hist lastX code x hist' l Hl Hn Hf He He1 Pk Pk1 Hr; cbn [bbLoop] in Hr.
    - injection Hr as <- <- <- <-. split; [|exact Pk]. destruct He as (e & E1 & E2).
      rewrite Nat.add_0_r. apply (BB_exhausted _ _ _ xk hist lastX e); assumption.
    - set (y := proj (vupd (a_neg alpha) (gradient A b xkm1) (a_Z 1) xkm1)) in *.
      destruct (resid y (gradient A b y)) as [q|] eqn:Eq; [|discriminate].
      cbv zeta in Hr. set (e := HRec (S ite) alpha (norm2 q) (S mv)) in *.
      assert (Hny : numbered (hist ++ [e])) by (apply numbered_snoc; [exact Hn|cbn; lia]).
      assert (Hey : evalres y (h_res e)) by (exists q; split; [exact Eq|reflexivity]).
      assert (Py : P y) by (apply HP, Lp_upd; [apply Lp_gradient|]; apply PL; exact Pk1).
      destruct (a_lt (a_abs (norm2 q)) tol) eqn:Et.
      + injection Hr as <- <- <- <-. split; [|exact Py].
        apply BB_converged; [exact Hey|exact Et|exact Hf|lia|exact Hny].
      + assert (Hf' : Forall (fun e => a_lt (a_abs (h_res e)) tol = false) (hist ++ [e])).
        { apply Forall_app. split; [exact Hf|]. constructor; [exact Et|constructor]. }
        match type of Hr with context [stagnates ?a] => set (alpha' := a) in * end. destruct (stagnates alpha').
        * injection Hr as <- <- <- <-. split; [|exact Py].
          apply BB_stagnated; [exact Hey|rewrite app_length; cbn; lia|exact Hf'|exact Hny].
        * replace (ite + S n) with (S ite + n) by lia.
          apply (IH (S ite) (S mv) xkm1 y alpha' (hist ++ [e]) y code x hist' l).
          -- rewrite app_length. cbn. lia.
          -- exact Hny.
          -- exact Hf'.
          -- destruct He1 as (e1 & E1 & E2). exists e1. split; [|exact E2].
             rewrite nth_error_app1 by lia. replace (S ite - 1) with ite by lia. exact E1.
          -- exists e. split; [|exact Hey]. rewrite nth_error_app2 by lia. rewrite Hl, Nat.sub_diag. reflexivity.
          -- exact Pk1.
          -- exact Py.
          -- exact Hr.
  Qed.

    Lemma bbSolve_report : forall (P : list N -> Prop) firstStep iteMax x0 code x hist l,
      (forall v, Lp v -> P (proj v)) -> (forall v, P v -> Lp v) -> P x0 ->
      bbSolve A b proj resid stepSize stagnates tol firstStep iteMax x0 = SRet code x hist l ->
      bb_report evalres tol iteMax code x hist l /\ P x.
    Proof.
      intros P firstStep iteMax x0 code x hist l HP PL P0 Hr. unfold bbSolve in Hr.
      destruct (resid x0 (gradient A b x0)) as [q|] eqn:Eq; [|discriminate]. cbv zeta in Hr.
      set (e := HRec 0 (a_Z 0) (norm2 q) 1) in *.
      assert (He : evalres x0 (h_res e)) by (exists q; split; [exact Eq|reflexivity]).
      destruct (a_lt (a_abs (norm2 q)) tol) eqn:Et.
      - injection Hr as <- <- <- <-. split; [|exact P0].
        apply (BB_converged _ _ _ x0 [] e); [exact He|exact Et|constructor|cbn; lia|reflexivity].
      - destruct (firstStep (gradient A b x0) q) as [[alpha extra] fl].
        apply (bbLoop_report P HP PL iteMax 0 _ x0 x0 alpha [e] _ code x hist l) in Hr; [exact Hr|..]; try assumption; try reflexivity.
        + constructor; [exact Et|constructor].
        + exists e. split; [reflexivity|exact He].
        + exists e. split; [reflexivity|exact He].
    Qed.

    (** no projection error -> no exit *)
    Lemma bbLoop_no_exit : forall (P : list N -> Prop), (forall v, Lp v -> P (proj v)) -> (forall v, P v -> Lp v) ->
      (forall v, P v -> resid v (gradient A b v) <> None) ->
      forall n ite mv xk xkm1 alpha hist lastX, P xkm1 ->
      bbLoop A b proj resid stepSize stagnates tol n ite mv xk xkm1 (gradient A b xkm1) alpha hist lastX <> SExit.
    Proof.
      intros P HP PL Hs. induction n as [|n IH]; intros ite mv xk xkm1 alpha hist lastX Pk; cbn [bbLoop]; [discriminate|].
      cbv zeta. set (y := proj _).
      assert (Py : P y) by (apply HP, Lp_upd; [apply Lp_gradient|]; apply PL; exact Pk).
      pose proof (Hs y Py) as Hy.
      destruct (resid y (gradient A b y)) as [q|]; [|contradiction].
      destruct (a_lt _ tol); [discriminate|]. destruct (stagnates _); [discriminate|]. apply IH. exact Py.
    Qed.

    Lemma bbSolve_no_exit : forall (P : list N -> Prop) firstStep iteMax x0, (forall v, Lp v -> P (proj v)) -> (forall v, P v -> Lp v) ->
      (forall v, P v -> resid v (gradient A b v) <> None) -> P x0 ->
      bbSolve A b proj resid stepSize stagnates tol firstStep iteMax x0 <> SExit.
    Proof.
      intros P firstStep iteMax x0 HP PL Hs P0. unfold bbSolve. pose proof (Hs x0 P0) as H0.
      destruct (resid x0 (gradient A b x0)) as [q|]; [|contradiction]. cbv zeta.
      destruct (a_lt _ tol); [discriminate|]. destruct (firstStep _ q) as [[alpha extra] fl].
      apply (bbLoop_no_exit P); assumption.
    Qed.
  End BB.

  Section AP.
    Context (stagnates : N -> bool).
    Context (lt_trans : forall a c d : N, a_lt a c = true -> a_lt c d = true -> a_lt a d = true) (lt_irrefl : forall a : N, a_lt a a = false).

    Lemma lipschitz_prop : forall (P : list N -> Prop), (forall v, Lp v -> P (proj v)) -> (forall v, P v -> Lp v) ->
      forall fuel yk g r12 Lk tk x mv Lk' tk' x' Ax' mv', Lp yk -> Lp g -> P x ->
      lipschitz A b proj fuel yk g r12 Lk tk x mv = Done (Lk', tk', x', Ax', mv') -> P x' /\ Ax' = A x'.
    Proof.
      intros P HP PL. induction fuel as [|fuel IH]; intros yk g r12 Lk tk x mv Lk' tk' x' Ax' mv' Ly Lg Px Hr; cbn [lipschitz] in Hr; [discriminate|].
      cbv zeta in Hr. destruct (a_le _ _) in Hr.
      - injection Hr as <- <- <- <- <-. split; [exact Px|reflexivity].
      - eapply IH; [exact Ly|exact Lg| |exact Hr]. apply HP, Lp_upd; assumption.
    Qed.

    Definition best_of (ones xhat : list N) (rest : list (hrec N)) (resmin : N) : Prop :=
      ((exists e, In e rest /\ h_res e = resmin /\ evalabs xhat resmin) \/ (xhat = ones /\ resmin = dblMax)) /\
      forall e', In e' rest -> a_lt (h_res e') resmin = false.

    Lemma apLoop_report : forall (P : list N -> Prop), (forall v, Lp v -> P (proj v)) -> (forall v, P v -> Lp v) -> forall ones first, Lp ones ->
      forall fuel n ite mv xk yk Lk tk thetak resmin xhat rest lastX code x hist' l,
      Lp xk -> Lp yk -> length rest = ite -> numbered (first :: rest) ->
      best_of ones xhat rest resmin -> (xhat = ones \/ P xhat) ->
      (forall e', In e' rest -> a_lt (h_res e') tol = false) ->
      apLoop A b proj resid stagnates tol fuel n ite mv xk yk Lk tk thetak resmin xhat (first :: rest) lastX = Done (SRet code x hist' l) ->
      ap_report evalabs tol (ite + n) ones code x hist' l /\
      (x = ones \/ P x).
    Proof.
      intros P HP PL ones first Lones fuel.
      induction n as [|n IH]; intros ite mv xk yk Lk tk thetak resmin xhat rest lastX code x hist' l Lxk Lyk Hl Hn Hb Hx Hf Hr; cbn [apLoop] in Hr.
      - injection Hr as <- <- <- <-. split; [|exact Hx]. destruct Hb as [Hb1 Hb2].
        apply AP_intro; [exact Hn|lia| |right; left; split; [reflexivity|]; split; [lia|exact Hf]].
        destruct Hb1 as [(e & E1 & E2 & E3)|(E1 & E2)].
        + left. exists e. rewrite E2. split; [exact E1|]. split; [exact E3|exact Hb2].
        + right. rewrite <- E2. split; [exact E1|exact Hb2].
      - cbv zeta in Hr. 
        destruct (lipschitz A b proj fuel yk _ _ Lk tk _ (S mv)) as [[[[[Lk' tk'] x1] Ax] mv']| |] eqn:Hlip in Hr; [|discriminate..].
        cbn [obind] in Hr.
        assert (Lg : Lp (vupd (a_Z 1) b (a_Z 1) (A yk))) by (apply Lp_upd; [exact Lp_b|apply Lp_A; exact Lyk]).
        apply (lipschitz_prop P HP PL) in Hlip; [|exact Lyk|exact Lg|apply HP, Lp_upd; assumption]. destruct Hlip as [Px1 ->].
        assert (Lx1 : Lp x1) by (apply PL; exact Px1).
        destruct (stagnates tk').
        + injection Hr as <- <- <- <-. split; [|exact Hx]. destruct Hb as [Hb1 Hb2].
          apply AP_intro; [exact Hn|lia| |right; right; split; [reflexivity|]; split; [lia|exact Hf]].
          destruct Hb1 as [(e & E1 & E2 & E3)|(E1 & E2)].
          * left. exists e. rewrite E2. split; [exact E1|]. split; [exact E3|exact Hb2].
          * right. rewrite <- E2. split; [exact E1|exact Hb2].
        + change (vupd (a_Z 1) b (a_Z 1) (A x1)) with (gradient A b x1) in Hr.
          destruct (resid x1 (gradient A b x1)) as [q|] eqn:Eq; [|discriminate].
          set (e := HRec (S ite) tk' (a_abs (norm2 q)) mv') in *.
          set (res := a_abs (norm2 q)) in *.
          assert (Hn' : numbered (first :: rest ++ [e])).
          { change (first :: rest ++ [e]) with ((first :: rest) ++ [e]). apply numbered_snoc; [exact Hn|cbn; lia]. }
          set (resmin' := if a_lt res resmin then res else resmin) in *.
          set (xhat' := if a_lt res resmin then x1 else xhat) in *.
          assert (Hev : evalabs x1 res) by (exists q; split; [exact Eq|reflexivity]).
          assert (Hb' : best_of ones xhat' (rest ++ [e]) resmin').
          { destruct Hb as [Hb1 Hb2]. unfold xhat', resmin'. destruct (a_lt res resmin) eqn:Eb; split.
            - left. exists e. split; [apply in_or_app; right; left; reflexivity|]. split; [reflexivity|exact Hev].
            - intros e' He'. apply in_app_or in He'. destruct He' as [He'|[<-|[]]].
              + destruct (a_lt (h_res e') res) eqn:E1; [|reflexivity].
                specialize (Hb2 e' He'). rewrite (lt_trans _ _ _ E1 Eb) in Hb2. discriminate.
              + cbn [h_res e]. destruct (a_lt res res) eqn:E1; [|reflexivity]. exfalso. rewrite (lt_irrefl res) in E1. discriminate.
            - destruct Hb1 as [(e0 & E1 & E2)|E]; [left|right; exact E].
              exists e0. split; [apply in_or_app; left; exact E1|exact E2].
            - intros e' He'. apply in_app_or in He'. destruct He' as [He'|[<-|[]]]; [apply Hb2; exact He'|exact Eb]. }
          assert (Hx' : xhat' = ones \/ P xhat') by (unfold xhat'; destruct (a_lt res resmin); [right; exact Px1|exact Hx]).
          destruct (a_lt res tol) eqn:Et.
          * injection Hr as <- <- <- <-. split; [|exact Hx'].
            apply AP_intro; [exact Hn'|rewrite app_length; cbn; lia| |].
            -- destruct Hb' as [[(e0 & E1 & E2 & E3)|(E1 & E2)] Hb2].
               ++ left. exists e0. rewrite E2. split; [exact E1|]. split; [exact E3|exact Hb2].
               ++ right. rewrite <- E2. split; [exact E1|exact Hb2].
            -- left. split; [reflexivity|]. exists e. split; [apply last_last|]. split; [destruct rest; discriminate|].
               split; [exact Et|exact Hev].
          * replace (ite + S n) with (S ite + n) by lia.
            eapply IH; [..|exact Hr]; try assumption.
            -- match goal with |- Lp (if ?c then _ else _) => destruct c end; [exact Lx1|apply Lp_upd; assumption].
            -- rewrite app_length. cbn. lia.
            -- intros e' He'. apply in_app_or in He'. destruct He' as [He'|[<-|[]]]; [apply Hf; exact He'|exact Et].
    Qed.

    Lemma apSolve_report : forall (P : list N -> Prop), (forall v, Lp v -> P (proj v)) -> (forall v, P v -> Lp v) -> forall fuel iteMax x0 code x hist l, Lp x0 -> Lp (map (fun _ => a_Z 1) x0) ->
      apSolve A b proj resid stagnates tol fuel iteMax x0 = Done (SRet code x hist l) ->
      ap_report evalabs tol iteMax (map (fun _ => a_Z 1) x0) code x hist l /\
      (x = map (fun _ => a_Z 1) x0 \/ P x).
    Proof.
      intros P HP PL fuel iteMax x0 code x hist l L0 L1 Hr. unfold apSolve in Hr. cbv zeta in Hr.
      eapply (apLoop_report P HP PL) in Hr; [exact Hr|..].
      - exact L1.
      - exact L0.
      - exact L0.
      - reflexivity.
      - reflexivity.
      - split; [right; split; reflexivity|intros e' []].
      - left. reflexivity.
      - intros e' [].
    Qed.

    (** at convergence the returned vector is the last one the operator was applied to *)
    Lemma apLoop_converged : forall (ord : N -> Prop),
      (forall a c, a_lt a c = true -> ord a) ->
      (forall a c d, ord d -> a_lt a c = true -> a_lt a d = true \/ a_lt d c = true) ->
      forall fuel n ite mv xk yk Lk tk thetak resmin xhat first rest lastX code x hist' l,
      ord resmin -> a_lt resmin tol = false -> (forall e, In e rest -> a_lt (h_res e) tol = false) ->
      apLoop A b proj resid stagnates tol fuel n ite mv xk yk Lk tk thetak resmin xhat (first :: rest) lastX = Done (SRet code x hist' l) ->
      (exists e, In e (tl hist') /\ a_lt (h_res e) tol = true) -> x = l.
    Proof.
      intros ord O1 O2 fuel.
      induction n as [|n IH]; intros ite mv xk yk Lk tk thetak resmin xhat first rest lastX code x hist' l Ho Hm Hf Hr Hc; cbn [apLoop] in Hr.
      - injection Hr as <- <- <- <-. destruct Hc as (e & E1 & E2). rewrite (Hf e E1) in E2. discriminate.
      - cbv zeta in Hr.
        destruct (lipschitz A b proj fuel yk _ _ Lk tk _ (S mv)) as [[[[[Lk' tk'] x1] Ax] mv']| |] eqn:Hlip in Hr; [|discriminate..].
        cbn [obind] in Hr. destruct (stagnates tk').
        + injection Hr as <- <- <- <-. destruct Hc as (e & E1 & E2). rewrite (Hf e E1) in E2. discriminate.
        + destruct (resid x1 _) as [q|]; [|discriminate].
          set (res := a_abs (norm2 q)) in *.
          destruct (a_lt res tol) eqn:Et.
          * injection Hr as <- <- <- <-. destruct (O2 res tol resmin Ho Et) as [E|E]; rewrite E in *; [reflexivity|discriminate].
          * eapply (IH _ _ _ _ _ _ _ _ _ first (rest ++ [_])); [..|exact Hr|exact Hc].
            -- destruct (a_lt res resmin) eqn:Eb; [apply (O1 _ _ Eb)|exact Ho].
            -- destruct (a_lt res resmin); [exact Et|exact Hm].
            -- intros e He. apply in_app_or in He. destruct He as [He|[<-|[]]]; [apply Hf; exact He|exact Et].
    Qed.

    Lemma apSolve_converged : forall (ord : N -> Prop),
      (forall a c, a_lt a c = true -> ord a) ->
      (forall a c d, ord d -> a_lt a c = true -> a_lt a d = true \/ a_lt d c = true) ->
      ord dblMax -> a_lt dblMax tol = false ->
      forall fuel iteMax x0 code x hist l,
      apSolve A b proj resid stagnates tol fuel iteMax x0 = Done (SRet code x hist l) ->
      (exists e, In e (tl hist) /\ a_lt (h_res e) tol = true) -> x = l.
    Proof.
      intros ord O1 O2 O3 Ht fuel iteMax x0 code x hist l Hr Hc. unfold apSolve in Hr. cbv zeta in Hr.
      refine (apLoop_converged ord O1 O2 _ _ _ _ _ _ _ _ _ _ _ _ [] _ _ _ _ _ O3 Ht _ Hr Hc). intros e [].
    Qed.

    (** after at least one iteration the last vector applied is a projection *)
    Lemma apLoop_last : forall (P : list N -> Prop), (forall v, Lp v -> P (proj v)) -> (forall v, P v -> Lp v) ->
      forall fuel n ite mv xk yk Lk tk thetak resmin xhat hist lastX code x hist' l, Lp xk -> Lp yk ->
      apLoop A b proj resid stagnates tol fuel n ite mv xk yk Lk tk thetak resmin xhat hist lastX = Done (SRet code x hist' l) ->
      (hist' = hist /\ l = lastX) \/ P l.
    Proof.
      intros P HP PL fuel. induction n as [|n IH]; intros ite mv xk yk Lk tk thetak resmin xhat hist lastX code x hist' l Lxk Lyk Hr; cbn [apLoop] in Hr.
      - injection Hr as <- <- <- <-. left. split; reflexivity.
      - cbv zeta in Hr.
        destruct (lipschitz A b proj fuel yk _ _ Lk tk _ (S mv)) as [[[[[Lk' tk'] x1] Ax] mv']| |] eqn:Hlip in Hr; [|discriminate..].
        assert (Lg : Lp (vupd (a_Z 1) b (a_Z 1) (A yk))) by (apply Lp_upd; [exact Lp_b|apply Lp_A; exact Lyk]).
        apply (lipschitz_prop P HP PL) in Hlip; [|exact Lyk|exact Lg|apply HP, Lp_upd; assumption]. destruct Hlip as [Px1 ->].
        assert (Lx1 : Lp x1) by (apply PL; exact Px1).
        cbn [obind] in Hr. right. destruct (stagnates tk'); [injection Hr as <- <- <- <-; exact Px1|].
        destruct (resid x1 _) as [q|]; [|discriminate].
        destruct (a_lt _ tol) in Hr; [injection Hr as <- <- <- <-; exact Px1|].
        apply IH in Hr; [|exact Lx1|].
        + destruct Hr as [[_ ->]|Hr]; [exact Px1|exact Hr].
        + match goal with |- Lp (if ?c then _ else _) => destruct c end; [exact Lx1|apply Lp_upd; assumption].
    Qed.

    Lemma apSolve_last : forall (P : list N -> Prop), (forall v, Lp v -> P (proj v)) -> (forall v, P v -> Lp v) ->
      forall fuel iteMax x0 code x hist l, Lp x0 ->
      apSolve A b proj resid stagnates tol fuel iteMax x0 = Done (SRet code x hist l) -> tl hist = [] \/ P l.
    Proof.
      intros P HP PL fuel iteMax x0 code x hist l L0 Hr. unfold apSolve in Hr. cbv zeta in Hr.
      apply (apLoop_last P HP PL) in Hr; [|exact L0|exact L0]. destruct Hr as [[-> _]|Hr]; [left; reflexivity|right; exact Hr].
    Qed.

    Lemma apLoop_no_exit : forall (P : list N -> Prop), (forall v, Lp v -> P (proj v)) -> (forall v, P v -> Lp v) ->
      (forall v, P v -> resid v (gradient A b v) <> None) ->
      forall fuel n ite mv xk yk Lk tk thetak resmin xhat hist lastX, Lp xk -> Lp yk ->
      apLoop A b proj resid stagnates tol fuel n ite mv xk yk Lk tk thetak resmin xhat hist lastX <> Done SExit.
    Proof.
      intros P HP PL Hs fuel. induction n as [|n IH]; intros ite mv xk yk Lk tk thetak resmin xhat hist lastX Lxk Lyk; cbn [apLoop]; [discriminate|]. cbv zeta.
      destruct (lipschitz A b proj fuel yk _ _ Lk tk _ (S mv)) as [[[[[Lk' tk'] x1] Ax] mv']| |] eqn:Hlip; [|discriminate..].
      assert (Lg : Lp (vupd (a_Z 1) b (a_Z 1) (A yk))) by (apply Lp_upd; [exact Lp_b|apply Lp_A; exact Lyk]).
      apply (lipschitz_prop P HP PL) in Hlip; [|exact Lyk|exact Lg|apply HP, Lp_upd; assumption]. destruct Hlip as [Px1 ->].
      assert (Lx1 : Lp x1) by (apply PL; exact Px1).
      cbn [obind]. destruct (stagnates tk'); [discriminate|].
      change (vupd (a_Z 1) b (a_Z 1) (A x1)) with (gradient A b x1).
      specialize (Hs x1 Px1). destruct (resid x1 (gradient A b x1)) as [q|]; [|contradiction].
      destruct (a_lt _ tol); [discriminate|]. apply IH; [exact Lx1|].
      match goal with |- Lp (if ?c then _ else _) => destruct c end; [exact Lx1|apply Lp_upd; assumption].
    Qed.
  End AP.
End Generic.

(** ** Real order, double order *)
Lemma R_lt_trans : forall a c d : R, Rlt_bool a c = true -> Rlt_bool c d = true -> Rlt_bool a d = true.
Proof.
  intros a c d H1 H2. apply Rlt_bool_true.
  destruct (Rlt_bool_spec a c); [|discriminate]. destruct (Rlt_bool_spec c d); [|discriminate]. lra.
Qed.
Lemma R_lt_irrefl : forall a : R, Rlt_bool a a = false.
Proof. intro a. apply Rlt_bool_false. lra. Qed.
Lemma R_lt_cotrans : forall a c d : R, True -> Rlt_bool a c = true -> Rlt_bool a d = true \/ Rlt_bool d c = true.
Proof.
  intros a c d _ H. destruct (Rlt_bool_spec a c) as [H1|H1]; [|discriminate].
  destruct (Rlt_le_dec a d); [left|right]; apply Rlt_bool_true; lra.
Qed.

Lemma flt_irrefl : forall a : f64, flt a a = false.
Proof.
  intro a. destruct (is_finite a) eqn:E.
  - destruct (flt a a) eqn:F; [|reflexivity]. apply flt_R in F; [lra|assumption..].
  - destruct a as [| [] | |]; try discriminate; reflexivity.
Qed.
Lemma flt_not_nan : forall a c : f64, flt a c = true -> is_nan a = false.
Proof. intros [| | |] c H; try reflexivity. discriminate. Qed.
Lemma flt_trans : forall a c d : f64, flt a c = true -> flt c d = true -> flt a d = true.
Proof.
  intros a c d H1 H2.
  destruct (is_finite a) eqn:Ea, (is_finite c) eqn:Ec, (is_finite d) eqn:Ed.
  1: apply flt_R; [assumption..|]; apply flt_R in H1; [|assumption..]; apply flt_R in H2; [|assumption..]; lra.
  all: destruct a as [sa|[]| |sa ma ea Ha]; try discriminate Ea; destruct c as [sc|[]| |sc mc ec Hc]; try discriminate Ec;
    destruct d as [sd|[]| |sd md ed Hd]; try discriminate Ed; try discriminate H1; try discriminate H2; try reflexivity;
    try (destruct sa; reflexivity).
Qed.
Lemma flt_cotrans : forall a c d : f64, is_nan d = false -> flt a c = true -> flt a d = true \/ flt d c = true.
Proof.
  intros a c d Hd H.
  destruct (is_finite a) eqn:Ea, (is_finite c) eqn:Ec, (is_finite d) eqn:Ed.
  1: apply flt_R in H; [|assumption..]; destruct (Rlt_le_dec (B2R a) (B2R d)); [left|right]; apply flt_R; try assumption; lra.
  all: destruct a as [sa|[]| |sa ma ea Ha]; try discriminate Ea; destruct c as [sc|[]| |sc mc ec Hc]; try discriminate Ec;
    destruct d as [sd|[]| |sd md ed Hdd]; try discriminate Ed; try discriminate H; try discriminate Hd;
    try (left; reflexivity); try (right; reflexivity);
    try (left; destruct sa; reflexivity); try (right; destruct sd; reflexivity); try (right; destruct sc; reflexivity).
Qed.
