(** * Total correctness of the lexer: number() *)

From Coq Require Import String ZArith List Bool Lia Arith ZifyBool.
From Coq Require Import SpecFloat.
From Verif Require Import Base Utf8 Utf8Spec UnicodeRange Lexer Utf8Proofs LexerWp LexerTotal LexerNum.
Import ListNotations.
Open Scope Z_scope.

Ltac Zify.zify_post_hook ::= idtac.

Section Num.
  Variable clean : bool.
  Notation wp := (wp clean). Notation okst := (okst clean).

  Lemma wp_dim_loop : forall f n0 s c dim, valid clean s -> (mu s + w c < f)%nat -> (dep s <= 8)%nat ->
    char_ok clean c ->
    wp n0 (dim_loop f c dim)
       (fun r s' => okst s s'
          /\ (dep s' <= dep s + 1)%nat
          /\ ((is_identifier c || (c =? 92)) = true -> (dep s' <= Nat.max (dep s) 1)%nat)
          /\ ((fst r = dim /\ mu s' <= mu s + w c)%nat \/ (mu s' + 1 <= mu s + w c)%nat)) s.
  Proof.
    induction f as [|f IH]; intros n0 s c dim Hv Hf Hd Hc; [lia|]. start. cbn [dim_loop].
    pose proof (w_cases c) as Hwc. step.
    - step. use_escape. step.
      + step. cbn [fst]. split; [eassumption|]. repeat split; [lia|lia|]. left. split; [reflexivity|lia].
      + step. step. step. step.
        eapply wp_mono; [apply IH; [val|lia|lia|assumption]|].
        intros r s4 (K4 & D1 & D2 & Hm). merge. split; [eassumption|].
        repeat split; [lia|lia|]. right. destruct Hm as [[_ Hm]|Hm]; lia.
    - step.
      + step. step. step. cbn [fst]. split; [eassumption|]. repeat split; [lia| |left; split; [reflexivity|lia]].
        intro. unfold is_identifier in *. ar.
      + step. step. step. step.
        assert (Hw1 : w c = 1%nat) by (clear -E0 Hwc; ar).
        eapply wp_mono; [apply IH; [val|lia|lia|assumption]|].
        intros r s4 (K4 & D1 & D2 & Hm). merge. split; [eassumption|].
        repeat split; [lia|lia|]. right. destruct Hm as [[_ Hm]|Hm]; lia.
  Qed.

  Ltac isn := rewrite ?is_set_low, ?is_set_str, ?is_set_int, ?is_set_bool, ?is_set_dec, ?is_mk.

  Lemma wp_number lm n0 s c0 : valid clean s -> (dep s <= 8)%nat -> (n0 <= errs s)%nat ->
    char_ok clean c0 -> (c0 = 45 \/ c0 = 43 \/ c0 = 46 \/ is_digit c0 = true) ->
    wp n0 (number lm c0) (tok_post clean s) s.
  Proof.
    intros Hv Hd Hn Hc0 Hne. start. unfold number.
    set (has_sign := ((c0 =? 45) || (c0 =? 43))%bool).
    set (sign := if c0 =? 45 then -1 else 1).
    assert (Hsg : sign = -1 \/ sign = 1) by (unfold sign; destruct (c0 =? 45); auto).
    clearbody sign.
    step.
    apply (wp_mono _ _ _ (fun c s' => okst s s' /\ ((mu s' + w c <= mu s /\ dep s' <= pred (dep s))%nat \/ ((c = 46 \/ is_digit c = true) /\ s' = s))
              /\ (dep s' <= dep s)%nat /\ char_ok clean c)).
    { unfold has_sign. step.
      - step. split; [eassumption|]. repeat split; [lia|lia|assumption].
      - step. split; [eassumption|]. repeat split; [|lia|assumption].
        right. split; [|reflexivity]. clear -Hne E. unfold is_digit in *. lia. }
    intros c s1 (K1 & Hm1 & Hd1 & Hc1). clear K. pose proof (w_cases c) as Hw1.
    assert (Hn1 : (n0 <= errs s1)%nat) by (pose proof (ok_errs _ _ _ K1); lia).
    step.
    apply (wp_mono _ _ _ (fun r s' => okst s s'
              /\ ((mu s' + w (fst r) <= mu s /\ dep s' <= pred (dep s))%nat \/ (fst r = 46 /\ s' = s))
              /\ (dep s' <= dep s)%nat /\ char_ok clean (fst r) /\ int64_ok (snd r) = true
              /\ (snd r < 0 -> (n0 < errs s')%nat) /\ (n0 <= errs s')%nat)).
    { step.
      - step. eapply wp_mono; [apply wp_int_loop; [val|lia|lia| |]|].
        + unfold int64_ok. clear -E. unfold is_digit in E. lia.
        + clear -E. unfold is_digit in E. lia.
        + intros r s2 (K2 & Hm2 & Hd2 & Hc2 & Hi2 & Hb2). pose proof (ok_errs _ _ _ K2).
          destruct Hm1 as [Hm1|[_ ->]]; merge; (split; [eassumption|]);
          repeat split; try assumption; try lia; try (left; lia).
      - step. cbn [fst snd]. split; [eassumption|]. repeat split; try assumption; try lia.
        destruct Hm1 as [Hm1|[[Hm1|Hm1] ->]]; auto. rewrite Hm1 in E. discriminate. }
    intros [c2 i2] s2 (K2 & Hm2 & Hd2 & Hc2 & Hi2 & Hb2 & Hn2). cbn [fst snd] in *.
    clear s1 K1 Hm1 Hd1 Hw1 Hn1 c Hc1.
    step.
    apply (wp_mono _ _ _ (fun r s' => okst s s'
              /\ (mu s' + w (fst (fst r)) <= mu s)%nat
              /\ (dep s' <= pred (dep s))%nat /\ char_ok clean (fst (fst r))
              /\ (errs s2 <= errs s')%nat)).
    { step.
      - step. step. eapply wp_mono; [apply wp_frac_loop; [val|lia]|].
        intros [[c3 p3] f3] s3 (K3 & Hm3 & Hd3 & Hc3). cbn [fst snd] in *.
        pose proof (ok_errs _ _ _ K3). merge.
        destruct Hm2 as [Hm2|[_ ->]]; step.
        + step. step. step. cbn [fst snd]. split; [eassumption|]. repeat split; try assumption; lia.
        + step. cbn [fst snd]. split; [eassumption|]. repeat split; try assumption; lia.
        + step. step. step. cbn [fst snd]. split; [eassumption|]. repeat split; try assumption; lia.
        + step. cbn [fst snd]. split; [eassumption|]. repeat split; try assumption; lia.
      - step. cbn [fst snd]. split; [eassumption|]. repeat split; try assumption; lia. }
    intros [[c3 p3] f3] s3 (K3 & Hm3 & Hd3 & Hc3 & He3). cbn [fst snd] in *.
    clear K2 Hm2 Hd2 c2 Hc2.
    step.
    eapply wp_mono; [apply wp_lex_exponent; [val|lia|lia|assumption]|].
    intros [c4 e4] s4 (K4 & Hm4 & Hd4 & Hc4). cbn [fst snd] in *.
    pose proof (ok_errs _ _ _ K4). merge. pose proof (w_cases c4) as Hw4.
    assert (Hm4' : (mu s4 + w c4 <= mu s)%nat) by lia.
    assert (Hd4' : (dep s4 <= Nat.max (pred (dep s)) 2)%nat) by lia.
    assert (He4' : (errs s2 <= errs s4)%nat) by lia.
    clear Hm3 Hd3 He3 Hm4 Hd4 He He0.
    step.
    apply (wp_mono _ _ _ (fun r s' => okst s s'
              /\ (mu s' <= mu s)%nat
              /\ (dep s' <= Nat.max (dep s) 3)%nat
              /\ (errs s2 <= errs s')%nat)).
    { step.
      - step. step. eapply wp_mono; [apply wp_dim_loop; [val|lia|lia|assumption]|].
        intros [d5 c5] s5 (K5 & D1 & D2 & Hm5). cbn [fst snd] in *. specialize (D2 E).
        pose proof (ok_errs _ _ _ K5). merge.
        step.
        + destruct Hm5 as [[-> _]|Hm5]; [discriminate|].
          change (w 45) with 1%nat in *.
          step. step.
          change (w 45) with 1%nat in *.
          step. split; [eassumption|]. repeat split; lia.
        + step. split; [eassumption|]. repeat split; [destruct Hm5; lia|lia|lia].
      - step.
        + step. split; [eassumption|]. repeat split; lia.
        + step. step. step. split; [eassumption|]. repeat split; lia. }
    intros [[d6 c6] f6] s6 (K6 & Hm6 & Hd6 & He6).
    match goal with |- context [f_1] => idtac end; destruct (SpecFloat.SFeqb f6 f_1);
    match goal with |- context [e4 =? 0] => destruct (e4 =? 0) end; cbn [negb orb].
    1:{ step.
        - unfold wp, LexerWp.wp, undef.
          assert (i2 < 0) by (clear -Hi2 E Hsg; unfold int64_ok in *; destruct Hsg as [->| ->]; lia).
          specialize (Hb2 H0). lia.
        - step. step. step. split; [assumption|]. split; [lia|]. split; [lia|]. isn. discriminate. }
    all: step; step; step; step; (split; [assumption|]; split; [lia|]; split; [lia|]; isn; discriminate).
  Qed.
End Num.
