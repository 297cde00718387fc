(** * Total correctness of the lexer: numbers *)

From Coq Require Import String ZArith List Bool Lia Arith ZifyBool.
From Verif Require Import Base Utf8 Utf8Spec UnicodeRange Lexer Utf8Proofs LexerWp LexerTac LexerTotal.
Import ListNotations.
Open Scope Z_scope.

Ltac Zify.zify_post_hook ::= idtac.

Lemma wrap64_ok x : int64_ok (wrap64 x) = true.
Proof.
  unfold int64_ok, wrap64. Z.to_euclidean_division_equations. lia.
Qed.

Lemma wrap64_neg x : 0 <= x < 18446744073709551616 -> wrap64 x < 0 -> 9223372036854775808 <= x.
Proof. unfold wrap64. Z.to_euclidean_division_equations. lia. Qed.

Lemma u64_range x : 0 <= u64 x < 18446744073709551616.
Proof. unfold u64. Z.to_euclidean_division_equations. lia. Qed.

Ltac ar1 := unfold is_digit in *; lia.

Section Num.
  Variable clean : bool.
  Notation wp := (wp clean). Notation okst := (okst clean).

  Lemma wp_int_loop : forall f n0 s i, valid clean s -> (mu s < f)%nat -> (n0 <= errs s)%nat ->
    int64_ok i = true -> (i < 0 -> (n0 < errs s)%nat) ->
    wp n0 (int_loop f i)
       (fun r s' => okst s s' /\ (mu s' + w (fst r) <= mu s)%nat /\ (dep s' <= pred (dep s))%nat
                    /\ char_ok clean (fst r) /\ int64_ok (snd r) = true
                    /\ (snd r < 0 -> (n0 < errs s')%nat)) s.
  Proof.
    induction f as [|f IH]; intros n0 s i Hv Hf Hn Hi Hneg; [lia|]. start. cbn [int_loop].
    step. step. step.
    - step. cbn [fst snd]. split; [eassumption|]. repeat split; [lia|lia|assumption|assumption|lia].
    - set (ni := u64 (u64 i * 10 + c - 48)).
      pose proof (u64_range (u64 i * 10 + c - 48)) as Hr. fold ni in Hr. clearbody ni.
      pose proof (wrap64_neg ni Hr) as Hw.
      step. step.
      + step. eapply wp_mono; [apply IH; [val|ar|lia|apply wrap64_ok|lia]|].
        intros ? ? (? & ? & ? & ? & ? & ?). merge. split; [eassumption|]. repeat split; try assumption; ar.
      + step. eapply wp_mono; [apply IH; [val|ar|lia|apply wrap64_ok|lia]|].
        intros ? ? (? & ? & ? & ? & ? & ?). merge. split; [eassumption|]. repeat split; try assumption; ar.
  Qed.

  Lemma wp_frac_loop : forall f n0 s part frac, valid clean s -> (mu s < f)%nat ->
    wp n0 (frac_loop f part frac)
       (fun r s' => okst s s' /\ (mu s' + w (fst (fst r)) <= mu s)%nat /\ (dep s' <= pred (dep s))%nat
                    /\ char_ok clean (fst (fst r))) s.
  Proof.
    induction f as [|f IH]; intros n0 s part frac Hv Hf; [lia|]. start. cbn [frac_loop].
    step. step. step.
    - step. cbn [fst snd]. split; [eassumption|]. repeat split; [lia|lia|assumption].
    - set (fr := f64_mul frac f_10). set (pt := f64_add part _). clearbody fr pt.
      step. step.
      + step. eapply wp_mono; [apply IH; [val|ar]|].
        intros ? ? (? & ? & ? & ?). merge. split; [eassumption|]. repeat split; try assumption; ar.
      + step. eapply wp_mono; [apply IH; [val|ar]|].
        intros ? ? (? & ? & ? & ?). merge. split; [eassumption|]. repeat split; try assumption; ar.
  Qed.

  Lemma wp_exp_loop : forall f n0 s c e, valid clean s -> (mu s + w c < f)%nat -> (n0 <= errs s)%nat ->
    char_ok clean c -> 0 <= e -> (1024 <= e -> (n0 < errs s)%nat) ->
    wp n0 (exp_loop f c e)
       (fun r s' => okst s s' /\ (mu s' + w (fst r) <= mu s + w c)%nat
                    /\ (dep s' <= dep s)%nat
                    /\ char_ok clean (fst r)) s.
  Proof.
    induction f as [|f IH]; intros n0 s c e Hv Hf Hn Hc He Hbig; [lia|]. start. cbn [exp_loop].
    step.
    - step. cbn [fst]. split; [eassumption|]. repeat split; [lia|lia|assumption].
    - pose proof (w_cases c). step.
      + unfold wp, LexerWp.wp, undef. apply Hbig. unfold int64_ok, is_digit in *. lia.
      + assert (Hd : 48 <= c <= 57) by (unfold is_digit in *; lia).
        step. step.
        * go. eapply wp_mono; [apply IH; [val|lia|lia|assumption|lia|lia]|].
          intros ? ? (? & ? & ? & ?). merge. split; [eassumption|]. repeat split; try assumption; lia.
        * go. eapply wp_mono; [apply IH; [val|lia|lia|assumption|lia|lia]|].
          intros ? ? (? & ? & ? & ?). merge. split; [eassumption|]. repeat split; try assumption; lia.
  Qed.

  Lemma wp_lex_exponent n0 s c : valid clean s -> (dep s <= 8)%nat -> (n0 <= errs s)%nat ->
    char_ok clean c ->
    wp n0 (lex_exponent c)
       (fun r s' => okst s s' /\ (mu s' + w (fst r) <= mu s + w c)%nat
                    /\ (dep s' <= Nat.max (dep s) 2)%nat
                    /\ char_ok clean (fst r)) s.
  Proof.
    intros Hv Hd Hn Hc. start. pose proof (w_le c). unfold lex_exponent. st.
    2:{ st. cbn [fst]. split; [eassumption|]. repeat split; [li|li|assumption]. }
    st. st. rename c1 into sg || rename c0 into sg. rename s0 into s1.
    (* the rest after the sign was peeked *)
    assert (Hex : forall s2 g d u, okst s s2 -> (mu s2 + 1 <= mu s + w c)%nat \/ (mu s2 <= mu s)%nat ->
       (dep s2 <= Nat.max (dep s) 2)%nat -> (n0 <= errs s2)%nat ->
       ((is_digit g = true /\ l_unget s2 = g :: u) \/
        ((g = 45 \/ g = 43) /\ is_digit d = true /\ l_unget s2 = g :: d :: u)) ->
       wp n0 (c <- getc ;;
              r <- (if c =? 45 then c' <- getc ;; ret (-1, c')
                    else if c =? 43 then c' <- getc ;; ret (1, c')
                    else ret (1, c)) ;;
              let '(sg, c) := r in
              if negb (is_digit c) then throw XExponent
              else
                r <- with_fuel (fun f => exp_loop f c 0) ;;
                let '(c, e) := r in ret (c, e * sg))
         (fun r s' => okst s s' /\ (mu s' + w (fst r) <= mu s + w c)%nat
                    /\ (dep s' <= Nat.max (dep s) 2)%nat
                    /\ char_ok clean (fst r)) s2).
    { intros s2 g d u K2 Hm2 Hd2 He2 Hu. st. st.
      match goal with T : forall n u, l_unget s2 = n :: u -> _ |- _ =>
        assert (Hg : (is_digit c0 = true) \/ ((c0 = 45 \/ c0 = 43) /\ is_digit d = true /\ l_unget s0 = d :: u)) by
          (destruct Hu as [[Hg Hu]|(Hg & Hdg & Hu)]; destruct (T _ _ Hu) as [-> ->]; auto) end.
      st.
      apply (wp_mono _ _ _ (fun r s' => okst s s' /\ (mu s' + w (snd r) <= mu s + w c)%nat
                    /\ (dep s' <= Nat.max (dep s) 2)%nat /\ is_digit (snd r) = true
                    /\ (n0 <= errs s')%nat)).
      { clear Hu. st; [|st].
        - st. st. st. cbn [snd]. split; [eassumption|]. destruct Hg as [Hg|(_ & Hdg & Hu)]; [exfalso; match goal with E : (c0 =? _) = true |- _ => clear -Hg E end; ar1|].
          match goal with T : forall n u, l_unget s0 = n :: u -> _ |- _ => destruct (T _ _ Hu) as [-> _] end.
          repeat split; [li|li|assumption|eapply Nat.le_trans; [exact Hn|eapply ok_errs; eassumption]].
        - st. st. st. cbn [snd]. split; [eassumption|]. destruct Hg as [Hg|(_ & Hdg & Hu)]; [exfalso; match goal with E : (c0 =? _) = true |- _ => clear -Hg E end; ar1|].
          match goal with T : forall n u, l_unget s0 = n :: u -> _ |- _ => destruct (T _ _ Hu) as [-> _] end.
          repeat split; [li|li|assumption|eapply Nat.le_trans; [exact Hn|eapply ok_errs; eassumption]].
        - st. cbn [snd]. split; [eassumption|]. destruct Hg as [Hg|([Hg|Hg] & _)]; [|lia|lia].
          repeat split; [li|li|assumption|eapply Nat.le_trans; [exact Hn|eapply ok_errs; eassumption]]. }
      intros [sg1 c1] s3 (K3 & Hm3 & Hd3 & Hc3 & Hn3). cbn [snd] in *.
      rewrite Hc3. cbn [negb]. st. st.
      assert (char_ok clean c1) by (clear -Hc3; ar). pose proof (w_le c1).
      eapply wp_mono; [apply wp_exp_loop; [val|li|lia|assumption|lia|lia]|].
      intros [c2 e2] s4 (? & ? & ? & ?). cbn [fst] in *. mergeq. st. cbn [fst].
      split; [eassumption|]. repeat split; [li|li|assumption]. }
    assert (Hno : forall s2, okst s s2 -> (mu s2 <= mu s)%nat -> (dep s2 <= Nat.max (dep s) 2)%nat ->
       wp n0 (ret (c, 0)) (fun r s' => okst s s' /\ (mu s' + w (fst r) <= mu s + w c)%nat
                    /\ (dep s' <= Nat.max (dep s) 2)%nat
                    /\ char_ok clean (fst r)) s2).
    { intros. st. cbn [fst]. split; [eassumption|]. repeat split; [li|li|assumption]. }
    st. st.
    - st. st. st. st. st. st. st.
      destruct (is_digit c0) eqn:Edg.
      + eapply Hex with (g := sg) (d := c0); [assumption|li|li|eapply Nat.le_trans; [exact Hn|eapply ok_errs; eassumption]|].
        right. split; [lia|]. split; [assumption|].
        match goal with T : c0 <> -1 -> _, T2 : sg <> -1 -> _ |- _ =>
          rewrite T2 by lia; rewrite T by ar1; reflexivity end.
      + apply Hno; [assumption|li|li].
    - st. st. st.
      destruct (is_digit sg) eqn:Edg.
      + eapply Hex with (g := sg) (d := 0); [assumption|li|li|eapply Nat.le_trans; [exact Hn|eapply ok_errs; eassumption]|].
        left. split; [assumption|].
        match goal with T2 : sg <> -1 -> _ |- _ => rewrite T2 by ar1; reflexivity end.
      + apply Hno; [assumption|li|li].
  Qed.
End Num.
