(** * Total correctness of the lexer: next_token *)

From Coq Require Import String ZArith List Bool Lia Arith ZifyBool.
From Verif Require Import Base Utf8 Utf8Spec UnicodeRange Lexer Utf8Proofs UrangeProofs
  LexerWp LexerTac LexerTotal LexerNum LexerNum2 LexerDispatch.
Import ListNotations.
Open Scope Z_scope.

Ltac Zify.zify_post_hook ::= idtac.

Section Main.
  Variable clean : bool.
  Notation wp := (wp clean). Notation okst := (okst clean).

  Definition dpost (s : lexst) (r : option node) (s' : lexst) : Prop :=
    okst s s' /\ (mu s' <= mu s)%nat /\ (dep s' <= 3)%nat
    /\ (forall n, r = Some n -> is n EOF_TOKEN = true -> (errs s < errs s')%nat).

  Lemma dpost_intro s r s' : okst s s' -> (mu s' <= mu s)%nat -> (dep s' <= 3)%nat ->
    match r with None => True | Some n => is n EOF_TOKEN = false end -> dpost s r s'.
  Proof.
    intros K Hm Hd Hr. split; [exact K|]. split; [exact Hm|]. split; [exact Hd|].
    intros n ->. rewrite Hr. discriminate.
  Qed.

  Ltac done := apply dpost_intro; [eassumption|li|li|first [exact I|reflexivity|isn; reflexivity|assumption]].

  Lemma wp_num n0 lm s s1 c : okst s s1 -> (n0 <= errs s)%nat -> (mu s1 <= mu s)%nat -> (dep s1 <= 3)%nat ->
    char_ok clean c -> (c = 45 \/ c = 43 \/ c = 46 \/ is_digit c = true) ->
    wp n0 (number lm c) (fun a s' => wp n0 (ret (Some a)) (dpost s) s') s1.
  Proof.
    intros K Hn Hm Hd Hc Hx. pose proof (ok_errs _ _ _ K).
    eapply wp_mono; [apply wp_number; [val|lia|lia|assumption|assumption]|].
    intros n s2 (K2 & Hm2 & Hd2 & He2). mergeq. st.
    split; [eassumption|]. split; [li|]. split; [li|]. intros n1 [= <-] Hn1. specialize (He2 Hn1). lia.
  Qed.

  Lemma wp_id n0 s s1 c : okst s s1 -> (mu s1 <= mu s)%nat -> (dep s1 <= 3)%nat ->
    1 <= c < 2097152 -> (clean = true -> start_ok c s1) ->
    wp n0 (identifier c) (fun a s' => wp n0 (ret (Some a)) (dpost s) s') s1.
  Proof.
    intros K Hm Hd Hc Hx. pose proof (ok_errs _ _ _ K).
    eapply wp_mono; [apply wp_identifier; [val|lia|assumption|assumption]|].
    intros n s2 (K2 & Hm2 & Hd2 & He2). mergeq. st.
    split; [eassumption|]. split; [li|]. split; [li|]. intros n1 [= <-] Hn1. specialize (He2 Hn1). lia.
  Qed.

  Lemma wp_id2 n0 s s1 c : okst s s1 -> (mu s1 <= mu s)%nat -> (dep s1 <= 3)%nat ->
    1 <= c < 2097152 -> (clean = true -> start_ok c s1) ->
    wp n0 (n <- identifier c ;; if is n EOF_TOKEN then ret None else ret (Some n)) (dpost s) s1.
  Proof.
    intros K Hm Hd Hc Hx. pose proof (ok_errs _ _ _ K). st.
    eapply wp_mono; [apply wp_identifier; [val|lia|assumption|assumption]|].
    intros n s2 (K2 & Hm2 & Hd2 & He2). mergeq. st; st; done.
  Qed.

  Lemma char_pos c : char_ok clean c -> c <> -1 -> 1 <= c < 2097152.
  Proof. unfold char_ok. lia. Qed.

  Ltac eqor := eapply wp_mono; [apply wp_eq_or; [val|li|discriminate|discriminate]|];
     intros ? ? (? & ? & ? & ?); mergeq; st; done.

  Lemma wp_dispatch n0 lm s c : valid clean s -> (dep s <= 2)%nat -> (n0 <= errs s)%nat ->
    char_ok clean c -> c <> -1 ->
    wp n0 (dispatch lm c) (dpost s) s.
  Proof.
    intros Hv Hd Hn Hc Hc1. start. unfold dispatch.
    replace (c =? -1) with false by lia.
    st. { (* = *) st. st. st. st; st; repeat st; done. }
    st. { repeat st. done. }
    st. { st. st. eqor. }
    st. { repeat st. done. }
    st. { st. st. eqor. }
    st. { repeat st. done. }
    st. { st. st. eqor. }
    st. { repeat st. done. }
    st. { repeat st. done. }
    st. { repeat st. done. }
    st. { repeat st. done. }
    st. { repeat st. done. }
    st. { repeat st. done. }
    st. { (* . *) st. st. st. st. st.
      - st. st. apply wp_num; [eassumption|assumption|li|li|assumption|lia].
      - repeat st. done. }
    st. { (* & *) repeat st; done. }
    st. { (* < *) repeat st; done. }
    st. { (* + *) st. st. st.
      - repeat st. apply wp_num; [eassumption|assumption|li|li|assumption|lia].
      - st.
        + st. st. st.
          * repeat st. apply wp_num; [eassumption|assumption|li|li|assumption|lia].
          * repeat st. done.
        + repeat st. done. }
    st. { (* - *) st. st. st.
      - repeat st. apply wp_num; [eassumption|assumption|li|li|assumption|lia].
      - st.
        + st. st. st.
          * repeat st. apply wp_num; [eassumption|assumption|li|li|assumption|lia].
          * repeat st. done.
        + st.
          * repeat st; done.
          * st. st. st.
            -- st. st. apply wp_id; [eassumption|li|li|lia|].
               intro Hcl. right. right. right. exists c0, (l_unget s0).
               assert (Hnr : c0 <> 65533) by
                 (match goal with T : char_ok clean c0 |- _ => destruct T as [->|[_ T]]; [lia|] end; now apply H).
               assert (Hq : c0 <> -1 /\ c = 45 /\ (is_start_identifier c0 = true \/ c0 = 92)).
               { match goal with Ea : (c0 =? 45) = false, Eb : ((is_identifier c0 || _) && _)%bool = true, Ec : (c =? 45) = true, Ed : is_digit c0 = false |- _ => clear -Ea Eb Ec Ed Hnr end.
                 ar. }
               destruct Hq as (Hq1 & Hq2 & Hq3).
               split; [|right; split; assumption].
               match goal with T : c0 <> -1 -> _ |- _ => apply T; assumption end.
            -- repeat st. done. }
    st. { (* ^ *) st. st. st; [repeat st; done|]. unfold invalid_char. repeat st. done. }
    st. { (* $ *) st. st. st; [repeat st; done|]. st.
      - st. st. eapply wp_mono; [apply wp_variable; [val|li]|].
        intros ? ? (? & ? & ? & ?). mergeq. st. done.
      - repeat st. done. }
    st. { st. st. eqor. }
    st. { repeat st; done. }
    st. { repeat st; done. }
    st. { (* string *) st. eapply wp_mono; [apply wp_lex_string; [val|li]|].
      intros ? ? (? & ? & ?). mergeq. repeat st. done. }
    st. { (* / *) st. st. st.
      - eapply wp_mono; [apply wp_comment; [val|li]|].
        intros r s1 (? & ? & ? & Hr). mergeq.
        apply dpost_intro; [eassumption|li|li|]. destruct r; [now apply Hr|exact I].
      - st.
        + st. eapply wp_mono; [apply wp_comment; [val|li]|].
          intros [r|] s1 (? & ? & ? & Hr); mergeq.
          * st. st. st. apply dpost_intro; [eassumption|li|li|]. now apply Hr.
          * st. done.
        + repeat st. done. }
    st. { st. st. eapply wp_mono; [apply wp_whitespace; [val|li]|].
      intros ? ? (? & ? & ? & ?). mergeq. st. done. }
    st. { st. st. apply wp_num; [eassumption|assumption|li|li|assumption|auto]. }
    st. { eapply wp_mono; [apply wp_hash; [val|li]|].
      intros r s1 (? & ? & ? & Hr). mergeq.
      apply dpost_intro; [eassumption|li|li|]. destruct r; [now apply Hr|exact I]. }
    pose proof (char_pos c Hc Hc1) as Hcp.
    st.
    { cbv zeta. st.
      - st. st. st.
        + repeat st. done.
        + st. st. apply wp_id2; [eassumption|li|li|assumption|].
          intro Hcl. right. right. right. exists c0, (l_unget s0). split.
          * match goal with T : c0 <> -1 -> _ |- _ => apply T end.
            -- match goal with Ea : negb (is_start_identifier c0) = false |- _ => clear -Ea end. ar.
            -- match goal with T : char_ok clean c0 |- _ => destruct T as [->|[_ T]]; [lia|] end. now apply H.
          * left. split; [lia|]. match goal with Ea : negb (is_start_identifier c0) = false |- _ => clear -Ea end. now destruct (is_start_identifier c0).
      - apply wp_id2; [eassumption|li|li|assumption|].
        intro Hcl. match goal with Ea : (_ || _ || (c =? 64))%bool = true, Eb : (c =? 37) = false |- _ => clear -Ea Eb end. unfold start_ok. lia. }
    st.
    { assert (Hst : forall s', start_ok c s').
      { intro s'. right. right. left. match goal with Ea : (_ || (c =? 85))%bool = true |- _ => clear -Ea end. unfold is_start_identifier. ar. }
      st. st. st.
      - st. st. st.
        + st. st. eapply wp_mono; [apply wp_unicode_range; [val|li|assumption]|].
          intros ? ? (? & ? & ? & ?). mergeq. st. done.
        + repeat st. apply wp_id; [eassumption|li|li|assumption|auto].
      - repeat st. apply wp_id; [eassumption|li|li|assumption|auto]. }
    st.
    { st. st. apply wp_id; [eassumption|li|li|assumption|].
      intros _. right. right. now left. }
    unfold invalid_char. repeat st. done.
  Qed.

  Definition npost (s : lexst) (n : node) (s' : lexst) : Prop :=
    okst s s' /\ (dep s' <= 3)%nat
    /\ (is n EOF_TOKEN = true -> mu s' = 0%nat \/ (errs s < errs s')%nat)
    /\ (mu s' <= mu s)%nat
    /\ (is n EOF_TOKEN = false -> (mu s' < mu s)%nat).

  Lemma wp_token_loop lm : forall f n0 s, valid clean s -> (mu s < f)%nat -> (dep s <= 3)%nat ->
    (n0 <= errs s)%nat -> wp n0 (token_loop lm f) (npost s) s.
  Proof.
    induction f as [|f IH]; intros n0 s Hv Hf Hd Hn; [lia|]. cbn [token_loop].
    apply wp_bind. unfold wp at 1, LexerWp.wp at 1, mark_start.
    set (s0 := mkLex (l_in s) (l_unget s) (l_pos s) (l_pos s) (l_log s)).
    change (wp n0 (c <- getc ;; r <- dispatch lm c ;;
       match r with Some n => ret n | None => token_loop lm f end) (npost s) s0).
    assert (K : okst s s0) by (split; [apply R_mark|exact Hv|unfold errs; cbn; lia]).
    assert (mu s0 = mu s) by reflexivity. assert (dep s0 = dep s) by reflexivity.
    clearbody s0. pose proof (ok_errs _ _ _ K).
    st. apply wp_getc; [val|].
    intros c s1 Hc K1 Hm1 Hd1 Heof _. pose proof (ok_errs _ _ _ K1). mergeq.
    st. destruct (Z.eq_dec c (-1)) as [->|Hne].
    - unfold dispatch. change (-1 =? -1) with true. cbv iota. repeat st. split; [eassumption|].
      specialize (Heof eq_refl). repeat split; [lia|auto|lia|discriminate].
    - rewrite (w_one c Hne) in Hm1.
      eapply wp_mono; [apply wp_dispatch; [val|lia|lia|assumption|assumption]|].
      intros r s2 (K2 & Hm2 & Hd2 & He2). pose proof (ok_errs _ _ _ K2). mergeq. destruct r as [n|].
      + st. split; [eassumption|]. repeat split; [lia| |lia|lia].
        intro E. right. specialize (He2 n eq_refl E). lia.
      + eapply wp_mono; [apply IH; [val|lia|lia|lia]|].
        intros n s3 (K3 & Hd3 & He3 & Hm3 & Hp3). pose proof (ok_errs _ _ _ K3). mergeq.
        split; [eassumption|]. repeat split; [lia| |lia|lia].
        intro E. destruct (He3 E); [auto|right; lia].
  Qed.

  Lemma wp_next_token lm n0 s : valid clean s -> (dep s <= 3)%nat -> (n0 <= errs s)%nat ->
    wp n0 (next_token lm) (npost s) s.
  Proof.
    intros Hv Hd Hn. unfold next_token. st. apply wp_token_loop; auto. lia.
  Qed.

  Lemma wp_lex_all_loop lm : forall f n0 s, valid clean s -> (mu s < f)%nat -> (dep s <= 3)%nat ->
    (n0 <= errs s)%nat ->
    wp n0 (lex_all_loop lm f)
       (fun r s' => okst s s' /\ (dep s' <= 3)%nat /\ (length r <= mu s)%nat
                    /\ Forall (fun n => is n EOF_TOKEN = false) r
                    /\ (mu s' = 0%nat \/ (errs s < errs s')%nat)) s.
  Proof.
    induction f as [|f IH]; intros n0 s Hv Hf Hd Hn; [lia|]. cbn [lex_all_loop].
    st. eapply wp_mono; [apply wp_next_token; auto|].
    intros n s1 (K1 & Hd1 & He1 & Hm1 & Hp1). pose proof (ok_errs _ _ _ K1).
    destruct (is n EOF_TOKEN) eqn:E.
    - st. split; [exact K1|]. repeat split; [lia|cbn; lia|constructor|auto].
    - specialize (Hp1 eq_refl). st.
      eapply wp_mono; [apply IH; [val|lia|lia|lia]|].
      intros r s2 (K2 & Hd2 & Hl2 & Hr2 & He2). pose proof (ok_errs _ _ _ K2). mergeq. st.
      split; [eassumption|]. repeat split; [lia|cbn; lia|constructor; auto|].
      destruct He2; [auto|right; lia].
  Qed.
End Main.
