(** * Total correctness of the lexer: hashes, comments, ranges, variables *)

From Coq Require Import String ZArith List Bool Lia Arith ZifyBool.
From Verif Require Import Base Utf8 Utf8Spec UnicodeRange Lexer Utf8Proofs UrangeProofs
  LexerWp LexerTac LexerTotal LexerNum LexerNum2.
Import ListNotations.
Open Scope Z_scope.

Ltac Zify.zify_post_hook ::= idtac.
Ltac isn := rewrite ?is_set_low, ?is_set_str, ?is_set_int, ?is_set_bool, ?is_set_dec, ?is_mk.
Ltac fin3 := split; [eassumption|]; split; li.

Section Misc.
  Variable clean : bool.
  Notation wp := (wp clean). Notation okst := (okst clean).

  Lemma wp_hash_loop : forall f n0 s acc, valid clean s -> (mu s < f)%nat -> (dep s <= 8)%nat ->
    wp n0 (hash_loop f acc)
       (fun _ s' => okst s s' /\ (mu s' <= mu s)%nat /\ (dep s' <= Nat.max (dep s) 1)%nat) s.
  Proof.
    induction f as [|f IH]; intros n0 s acc Hv Hf Hd; [lia|]. start. cbn [hash_loop].
    assert (Hloop : forall s2 acc2, okst s s2 -> (mu s2 < mu s)%nat -> (dep s2 <= Nat.max (dep s) 1)%nat ->
      wp n0 (hash_loop f acc2)
       (fun _ s' => okst s s' /\ (mu s' <= mu s)%nat /\ (dep s' <= Nat.max (dep s) 1)%nat) s2).
    { intros s2 acc2 K2 Hm Hd2. eapply wp_mono; [apply IH; [val|li|li]|].
      intros ? ? (? & ? & ?). mergeq. fin3. }
    st. st. st.
    - st. st_escape. st; [st; fin3|]. st. st. apply Hloop; [assumption|li|li].
    - st.
      + st. st. st. fin3.
      + st. st. apply Hloop; [assumption| |li].
        assert (w c = 1%nat) by (apply w_one; clear -E0; unfold is_hash_character in E0; ar). li.
  Qed.

  Lemma wp_hash n0 s : valid clean s -> (dep s <= 8)%nat ->
    wp n0 hash
       (fun r s' => okst s s' /\ (mu s' <= mu s)%nat /\ (dep s' <= Nat.max (dep s) 1)%nat
                    /\ (forall n, r = Some n -> is n EOF_TOKEN = false)) s.
  Proof.
    intros Hv Hd. start. unfold hash. st. st.
    eapply wp_mono; [apply wp_hash_loop; [val|li|li]|].
    intros [|b r] s1 (? & ? & ?); mergeq.
    - repeat st. split; [eassumption|]. repeat split; [li|li|]. discriminate.
    - repeat st. split; [eassumption|]. repeat split; [li|li|]. intros n0' [= <-]. now isn.
  Qed.

  Lemma wp_c_comment_loop : forall f n0 s acc, valid clean s -> (mu s < f)%nat -> (dep s <= 8)%nat ->
    wp n0 (c_comment_loop f acc)
       (fun _ s' => okst s s' /\ (mu s' <= mu s)%nat /\ (dep s' <= Nat.max (dep s) 1)%nat) s.
  Proof.
    induction f as [|f IH]; intros n0 s acc Hv Hf Hd; [lia|]. start. cbn [c_comment_loop].
    assert (Hloop : forall s2 acc2, okst s s2 -> (mu s2 < mu s)%nat -> (dep s2 <= Nat.max (dep s) 1)%nat ->
      wp n0 (c_comment_loop f acc2)
       (fun _ s' => okst s s' /\ (mu s' <= mu s)%nat /\ (dep s' <= Nat.max (dep s) 1)%nat) s2).
    { intros s2 acc2 K2 Hm Hd2. eapply wp_mono; [apply IH; [val|li|li]|].
      intros ? ? (? & ? & ?). mergeq. fin3. }
    st. st. st.
    - repeat st. fin3.
    - st.
      + st. st. st; [st; fin3|]. st. st. st. st. apply Hloop; [assumption|li|li].
      + st. st. apply Hloop; [assumption|li|li].
  Qed.

  Lemma wp_cpp_comment_loop : forall f n0 s acc, valid clean s -> (mu s < f)%nat -> (dep s <= 8)%nat ->
    wp n0 (cpp_comment_loop f acc)
       (fun _ s' => okst s s' /\ (mu s' <= mu s)%nat /\ (dep s' <= Nat.max (dep s) 3)%nat) s.
  Proof.
    induction f as [|f IH]; intros n0 s acc Hv Hf Hd; [lia|]. start. cbn [cpp_comment_loop].
    assert (Hloop : forall s2 acc2, okst s s2 -> (mu s2 < mu s)%nat -> (dep s2 <= Nat.max (dep s) 1)%nat ->
      wp n0 (cpp_comment_loop f acc2)
       (fun _ s' => okst s s' /\ (mu s' <= mu s)%nat /\ (dep s' <= Nat.max (dep s) 3)%nat) s2).
    { intros s2 acc2 K2 Hm Hd2. eapply wp_mono; [apply IH; [val|li|li]|].
      intros ? ? (? & ? & ?). mergeq. fin3. }
    st. st. st; [st; fin3|]. st.
    - st. st. st.
      + st. st. st.
        * st. st. st.
          assert (Hw : forall s5, okst s s5 -> (mu s5 <= mu s2)%nat \/ (mu s5 <= mu s3 + w c2)%nat ->
             (dep s5 <= Nat.max (dep s) 1)%nat ->
             wp n0 (cpp_comment_loop f (acc ++ [10]))
              (fun _ s' => okst s s' /\ (mu s' <= mu s)%nat /\ (dep s' <= Nat.max (dep s) 3)%nat) s5).
          { intros. apply Hloop; [assumption|li|li]. }
          st.
          -- st. apply Hw; [assumption|li|li].
          -- st. apply Hw; [assumption|li|li].
        * change (w 47) with 1%nat in *. change (w 10) with 1%nat in *.
          st. st. st. st. st. st. st.
          change (w 47) with 1%nat in *. change (w 10) with 1%nat in *. fin3.
      + st. st. st. st. st. change (w 10) with 1%nat in *. fin3.
    - st. st. apply Hloop; [assumption|li|li].
  Qed.

  Lemma wp_comment n0 st s : valid clean s -> (dep s <= 8)%nat ->
    wp n0 (comment st)
       (fun r s' => okst s s' /\ (mu s' <= mu s)%nat /\ (dep s' <= Nat.max (dep s) 3)%nat
                    /\ (forall n, r = Some n -> is n EOF_TOKEN = false)) s.
  Proof.
    intros Hv Hd. start. unfold comment. st.
    apply (wp_mono _ _ _ (fun r s' => okst s s' /\ (mu s' <= mu s)%nat /\ (dep s' <= Nat.max (dep s) 3)%nat)).
    { st.
      - st. st. eapply wp_mono; [apply wp_skip_spaces; [val|li]|].
        intros c1 s1 (? & ? & ? & ?). mergeq. pose proof (w_le c1). st. st. st.
        eapply wp_mono; [apply wp_c_comment_loop; [val|li|li]|].
        intros ? ? (? & ? & ?). mergeq. fin3.
      - st. st. eapply wp_mono; [apply wp_skip_blanks; [val|li]|].
        intros c1 s1 (? & ? & ? & ?). mergeq. pose proof (w_le c1). st. st. st.
        eapply wp_mono; [apply wp_cpp_comment_loop; [val|li|li]|].
        intros ? ? (? & ? & ?). mergeq. fin3. }
    intros r s1 (? & ? & ?). st.
    - st. st. st. split; [eassumption|]. repeat split; [li|li|].
      intros n [= <-]. now isn.
    - st. split; [eassumption|]. repeat split; [li|li|discriminate].
  Qed.

  Lemma wp_ur_loop k : forall n0 s d st en mask, valid clean s -> (dep s <= 8)%nat ->
    char_ok clean d -> 0 <= st -> 0 <= en ->
    wp n0 (ur_loop k d st en mask)
       (fun r s' => let '(st', en', mask', d') := r in
                    okst s s' /\ (mu s' + w d' <= mu s + w d)%nat /\ (dep s' <= dep s)%nat
                    /\ char_ok clean d' /\ 0 <= st' /\ 0 <= en') s.
  Proof.
    induction k as [|k IH]; intros n0 s d st en mask Hv Hd Hc Hst Hen; start; cbn [ur_loop].
    - st. split; [eassumption|]. repeat split; try li. assumption.
    - pose proof (w_le d). st.
      + assert (w d = 1%nat) by (apply w_one; clear -E; unfold is_hex in E; ar).
        st.
        * st. st. eapply wp_mono; [apply IH; [val|li|assumption|li|destruct mask; li]|].
          intros [[[st' en'] mask'] d'] s' (? & ? & ? & ? & ? & ?). mergeq.
          split; [eassumption|]. repeat split; try li. assumption.
        * st. apply wp_hex; [rewrite orb_false_r in E; apply andb_true_iff in E; tauto|]. intros h Hh. st. st.
          eapply wp_mono; [apply IH; [val|li|assumption|li|li]|].
          intros [[[st' en'] mask'] d'] s' (? & ? & ? & ? & ? & ?). mergeq.
          split; [eassumption|]. repeat split; try li. assumption.
      + st. split; [eassumption|]. repeat split; try li. assumption.
  Qed.

  Lemma wp_ur_end_loop k : forall n0 s d en, valid clean s -> (dep s <= 8)%nat ->
    char_ok clean d -> 0 <= en ->
    wp n0 (ur_end_loop k d en)
       (fun r s' => let '(en', d') := r in
                    okst s s' /\ (mu s' + w d' <= mu s + w d)%nat /\ (dep s' <= dep s)%nat
                    /\ char_ok clean d' /\ 0 <= en') s.
  Proof.
    induction k as [|k IH]; intros n0 s d en Hv Hd Hc Hen; start; cbn [ur_end_loop].
    - st. split; [eassumption|]. repeat split; try li. assumption.
    - pose proof (w_le d). st.
      + st. apply wp_hex; [assumption|]. intros h Hh. st. st.
        assert (w d = 1%nat) by (apply w_one; clear -E; unfold is_hex in E; ar).
        eapply wp_mono; [apply IH; [val|li|assumption|li]|].
        intros [en' d'] s' (? & ? & ? & ? & ?). mergeq.
        split; [eassumption|]. repeat split; try li. assumption.
      + st. split; [eassumption|]. repeat split; try li. assumption.
  Qed.

  Lemma wp_unicode_range n0 s d : valid clean s -> (dep s <= 8)%nat -> char_ok clean d ->
    wp n0 (unicode_range d)
       (fun n s' => okst s s' /\ (mu s' <= mu s + w d)%nat /\ (dep s' <= dep s + 1)%nat
                    /\ is n EOF_TOKEN = false) s.
  Proof.
    intros Hv Hd Hc. start. unfold unicode_range. st.
    eapply wp_mono; [apply wp_ur_loop; [val|li|assumption|li|li]|].
    intros [[[st en] mask] d1] s1 (? & ? & ? & ? & ? & ?). mergeq.
    st.
    apply (wp_mono _ _ _ (fun r s' => okst s s' /\ (mu s' <= mu s + w d)%nat /\ (dep s' <= dep s)%nat
       /\ match r with
          | None => True
          | Some (a, b, c) => 0 <= a < 1114112 /\ 0 <= b < 2097152 /\ char_ok clean c
                              /\ (mu s' + w c <= mu s + w d)%nat
          end)).
    { st.
      - st. st.
        + st. st. st. st. split; [eassumption|]. repeat split; try lia; try assumption;
          destruct (2097151 <? en) eqn:En; lia.
        + st. st. split; [eassumption|]. repeat split; try lia; try assumption;
          destruct (2097151 <? en) eqn:En; lia.
      - st.
        apply (wp_mono _ _ _ (fun r s' => let '(b, c) := r in okst s s' /\ (dep s' <= dep s)%nat
           /\ 0 <= b /\ char_ok clean c /\ (mu s' + w c <= mu s + w d)%nat)).
        { st.
          - st. st. eapply wp_mono; [apply wp_ur_end_loop; [val|li|assumption|li]|].
            intros [en' d'] s' (? & ? & ? & ? & ?). mergeq.
            split; [eassumption|]. repeat split; try lia. assumption.
          - st. split; [eassumption|]. repeat split; try lia. assumption. }
        intros [b c] s2 (? & ? & ? & ? & ?). st.
        + st. st. st. split; [eassumption|]. repeat split; li.
        + st. split; [eassumption|]. repeat split; try lia. assumption. }
    intros [[[a b] c]|] s2 (? & ? & ? & ?).
    - destruct H7 as (? & ? & ? & ?). st; pose proof (w_le c).
      + st. st. st. split; [eassumption|]. repeat split; li.
      + st. st. st. st. rewrite ur_make_ok by lia. st.
        split; [eassumption|]. repeat split; try lia.
    - st. split; [eassumption|]. repeat split; li.
  Qed.

  Lemma wp_var_loop : forall f n0 s c acc, valid clean s -> (mu s < f)%nat ->
    wp n0 (var_loop f c acc)
       (fun r s' => okst s s' /\ (mu s' + w (snd r) <= mu s)%nat /\ (dep s' <= pred (dep s))%nat
                    /\ char_ok clean (snd r)) s.
  Proof.
    induction f as [|f IH]; intros n0 s c acc Hv Hf; [lia|]. start. cbn [var_loop].
    st. st. st. st. st.
    - assert (w c0 = 1%nat) by (apply w_one; clear -E; unfold is_variable in E; ar).
      eapply wp_mono; [apply IH; [val|li]|].
      intros ? ? (? & ? & ? & ?). mergeq. split; [eassumption|]. repeat split; try li. assumption.
    - st. cbn [snd]. split; [eassumption|]. repeat split; try li. assumption.
  Qed.

  Lemma wp_variable n0 s c : valid clean s -> (dep s <= 8)%nat ->
    wp n0 (variable c)
       (fun n s' => okst s s' /\ (mu s' <= mu s)%nat /\ (dep s' <= Nat.max (dep s) 1)%nat
                    /\ is n EOF_TOKEN = false) s.
  Proof.
    intros Hv Hd. start. unfold variable. st. st.
    eapply wp_mono; [apply wp_var_loop; [val|li]|].
    intros [v c1] s1 (? & ? & ? & ?). cbn [snd] in *. mergeq. pose proof (w_le c1). st.
    - st. st. st. split; [eassumption|]. repeat split; try li.
    - st. st. st. st. st. split; [eassumption|]. repeat split; try li.
  Qed.

  Lemma wp_whitespace n0 s : valid clean s -> (dep s <= 8)%nat ->
    wp n0 whitespace
       (fun n s' => okst s s' /\ (mu s' <= mu s)%nat /\ (dep s' <= Nat.max (dep s) 1)%nat
                    /\ is n EOF_TOKEN = false) s.
  Proof.
    intros Hv Hd. start. unfold whitespace. st. st.
    eapply wp_mono; [apply wp_skip_spaces; [val|li]|].
    intros c1 s1 (? & ? & ? & ?). mergeq. pose proof (w_le c1).
    st. st. st. split; [eassumption|]. repeat split; try li.
  Qed.

  Lemma wp_eq_or n0 s a b : valid clean s -> (dep s <= 8)%nat -> a <> EOF_TOKEN -> b <> EOF_TOKEN ->
    wp n0 (eq_or a b)
       (fun n s' => okst s s' /\ (mu s' <= mu s)%nat /\ (dep s' <= Nat.max (dep s) 1)%nat
                    /\ is n EOF_TOKEN = false) s.
  Proof.
    intros Hv Hd Ha Hb. start. unfold eq_or. st. st. st.
    - st. split; [eassumption|]. repeat split; try li. isn. destruct a; auto. congruence.
    - st. st. st. split; [eassumption|]. repeat split; try li. isn. destruct b; auto. congruence.
  Qed.
End Misc.
