(** * Total correctness of the lexer: identifiers, numbers, tokens *)

From Coq Require Import String ZArith List Bool Lia Arith ZifyBool.
From Verif Require Import Base Utf8 Utf8Spec UnicodeRange Lexer Utf8Proofs LexerWp.
Import ListNotations.
Open Scope Z_scope.

Ltac Zify.zify_post_hook ::= idtac.

Section Tok.
  Variable clean : bool.
  Notation wp := (wp clean). Notation okst := (okst clean).

  (** The first character of an identifier is as expected by identifier(). *)
  Definition start_ok (c0 : Z) (s : lexst) : Prop :=
    c0 = 64 \/ c0 = 92 \/ is_start_identifier c0 = true \/
    exists n u, l_unget s = n :: u /\
      ((c0 = 37 /\ is_start_identifier n = true)
       \/ (c0 = 45 /\ (is_start_identifier n = true \/ n = 92))).

  Definition tok_post (s : lexst) (n : node) (s' : lexst) : Prop :=
    okst s s' /\ (mu s' <= mu s)%nat /\ (dep s' <= Nat.max (dep s) 3)%nat
    /\ (is n EOF_TOKEN = true -> (errs s < errs s')%nat).

  Lemma is_set_low n l t : is (set_low n l) t = is n t.
  Proof. now destruct n. Qed.
  Lemma is_set_str n l t : is (set_str n l) t = is n t.
  Proof. now destruct n. Qed.
  Lemma is_set_int n l t : is (set_int n l) t = is n t.
  Proof. now destruct n. Qed.
  Lemma is_set_bool n l t : is (set_bool n l) t = is n t.
  Proof. now destruct n. Qed.
  Lemma is_set_dec n l t : is (set_dec n l) t = is n t.
  Proof. now destruct n. Qed.
  Lemma is_mk a p t : is (mk a p) t = ntype_eqb a t.
  Proof. reflexivity. Qed.

  Ltac isn := rewrite ?is_set_low, ?is_set_str, ?is_set_int, ?is_set_bool, ?is_set_dec, ?is_mk.
  Ltac tokfin := split; [eassumption|]; split; [ar|]; split; [ar|];
    isn; intro; first [discriminate | ar].

  Lemma wp_ident_finish n0 s ty id low c : valid clean s -> (dep s <= 8)%nat ->
    char_ok clean c \/ c = 65533 -> ty <> EOF_TOKEN ->
    wp n0 (ident_finish ty id low c)
       (fun n s' => okst s s' /\ (mu s' <= mu s + w c)%nat /\ (dep s' <= Nat.max (dep s + 1) 1)%nat
                    /\ (is n EOF_TOKEN = true -> (errs s < errs s')%nat)) s.
  Proof.
    intros Hv Hd Hc Ht. start. pose proof (w_cases c). unfold ident_finish. destruct id as [|i0 id].
    - go. tokfin.
    - step; [step|].
      + step. step. eapply wp_mono; [apply wp_skip_spaces; [val|lia]|].
        intros c1 s1 (? & ? & ? & ?). merge. pose proof (w_cases c1).
        step. apply (wp_mono _ _ _ (fun r s' => okst s s' /\ (mu s' <= mu s)%nat /\ (dep s' <= Nat.max (dep s) 1)%nat)).
        { step.
          - step. eapply wp_mono; [apply wp_lex_string; [val|lia]|].
            intros ? ? (? & ? & ?). merge. go. fin.
          - go. eapply wp_mono; [apply wp_url_loop; [val|lia]|].
            intros ? ? (? & ? & ?). merge. fin. }
        intros [u c2] s2 (? & ? & ?).
        step. apply (wp_mono _ _ _ (fun r s' => okst s s' /\ (mu s' <= mu s)%nat /\ (dep s' <= Nat.max (dep s) 1)%nat)).
        { step; [go; fin|]. go.
          eapply wp_mono; [apply wp_url_close; [val|lia]|].
          intros ? ? (? & ? & ?). merge. fin. }
        intros [] s3 (? & ? & ?). go. tokfin.
      + go. tokfin.
      + go. split; [eassumption|]; split; [ar|]; split; [ar|]. isn. intro E'.
        apply ntype_eqb_spec in E'. congruence.
  Qed.

  Lemma wp_ident_rest n0 s ty id low : valid clean s -> (dep s <= 8)%nat -> ty <> EOF_TOKEN ->
    wp n0 (r <- with_fuel (fun f => ident_loop f id low) ;;
           let '(id, low, c) := r in ident_finish ty id low c)
       (fun n s' => okst s s' /\ (mu s' <= mu s)%nat /\ (dep s' <= Nat.max (dep s) 2)%nat
                    /\ (is n EOF_TOKEN = true -> (errs s < errs s')%nat)) s.
  Proof.
    intros Hv Hd Ht. start. go.
    eapply wp_mono; [apply wp_ident_loop; [val|lia|lia]|].
    intros [[id1 low1] c1] s1 (? & ? & ? & ?). cbn [snd] in *. merge.
    eapply wp_mono; [apply wp_ident_finish; [val|lia|assumption|assumption]|].
    intros ? ? (? & ? & ? & ?). merge. split; [eassumption|].
    split; [lia|]. split; [lia|]. intro E. specialize (H6 E). lia.
  Qed.

  Lemma wp_identifier n0 s c0 : valid clean s -> (dep s <= 8)%nat -> 1 <= c0 < 2097152 ->
    (clean = true -> start_ok c0 s) ->
    wp n0 (identifier c0) (tok_post s) s.
  Proof.
    intros Hv Hd Hc0 Hs. start. unfold identifier.
    set (ty := if c0 =? 37 then PLACEHOLDER else if c0 =? 64 then AT_KEYWORD else IDENTIFIER).
    assert (Hty : ty <> EOF_TOKEN) by (unfold ty; destruct (c0 =? 37), (c0 =? 64); discriminate).
    step.
    apply (wp_mono _ _ _ (fun c s' => okst s s' /\ (mu s' <= mu s)%nat /\ (dep s' <= dep s)%nat
              /\ (c0 = 64 -> (mu s' + w c <= mu s)%nat /\ (dep s' <= pred (dep s))%nat)
              /\ (char_ok clean c \/ (c = c0 /\ c0 <> 64))
              /\ (clean = true -> (c0 = 64 \/ c = 92 \/ is_start_identifier c = true \/
                   (c0 = 45 /\ c = 45 /\ exists n u, l_unget s' = n :: u /\ (is_start_identifier n = true \/ n = 92)))))).
    { step.
      - step. split; [eassumption|]. split; [ar|]. split; [ar|]. split; [ar|]. split; [now left|].
        intro Hcl. destruct (Hs Hcl) as [Hx|[Hx|[Hx|Hx]]]; [now left|ar|ar|].
        destruct Hx as (n & u & Eu & Hn). 
        match goal with T : forall n u, l_unget s = n :: u -> _ |- _ => destruct (T n u Eu) as [-> _] end.
        destruct Hn as [[-> Hn]|[Hn _]]; [auto|ar].
      - step. split; [eassumption|]. split; [ar|]. split; [ar|]. split; [ar|]. split; [right; ar|].
        intro Hcl. destruct (Hs Hcl) as [Hx|[Hx|[Hx|Hx]]]; [ar|ar|ar|].
        destruct Hx as (n & u & Eu & Hn). destruct Hn as [[Hn _]|[Hn Hn']]; [ar|].
        right. right. right. split; [exact Hn|]. split; [exact Hn|]. exists n, u. auto. }
    intros c s1 (K1 & Hm1 & Hd1 & Hw1 & Hc1 & Hs1). clear K.
    step.
    apply (wp_mono _ _ _ (fun r s' => okst s s' /\ (mu s' <= mu s)%nat /\ (dep s' <= dep s)%nat
              /\ (c0 = 64 -> (mu s' + w (snd r) <= mu s)%nat /\ (dep s' <= pred (dep s))%nat)
              /\ (char_ok clean (snd r) \/ (snd r = c0 /\ c0 <> 64))
              /\ (clean = true -> c0 = 64 \/ snd r = 92 \/ is_start_identifier (snd r) = true))).
    { step.
      - step. step. step. cbn [snd]. split; [eassumption|]. split; [ar|]. split; [ar|]. split; [ar|]. split; [now left|].
        intro Hcl. destruct (Hs1 Hcl) as [Hx|[Hx|[Hx|Hx]]]; [now left|ar|ar|].
        destruct Hx as (_ & _ & n & u & Eu & Hn).
        match goal with T : forall n u, l_unget s1 = n :: u -> _ |- _ => destruct (T n u Eu) as [-> _] end.
        destruct Hn; auto.
      - step. cbn [snd]. split; [eassumption|]. split; [ar|]. split; [ar|]. split; [exact Hw1|]. split; [exact Hc1|].
        intro Hcl. destruct (Hs1 Hcl) as [Hx|[Hx|[Hx|Hx]]]; auto. ar. }
    intros [id c1] s2 (K2 & Hm2 & Hd2 & Hw2 & Hc2 & Hs2). clear K1. cbn [snd] in *.
    assert (Hrest : forall s3 i l, okst s s3 -> (mu s3 <= mu s)%nat -> (dep s3 <= Nat.max (dep s) 1)%nat ->
       wp n0 (r <- with_fuel (fun f => ident_loop f i l) ;;
           let '(id, low, c) := r in ident_finish ty id low c) (tok_post s) s3).
    { intros s3 i l K3 Hm3 Hd3. eapply wp_mono; [apply wp_ident_rest; [val|lia|assumption]|].
      intros ? ? (? & ? & ? & He3). pose proof (ok_errs _ _ _ K3). merge. split; [eassumption|]. split; [lia|]. split; [lia|].
      intro E. specialize (He3 E). lia. }
    step; [|step; [|step]].
    - step. use_escape. step.
      + apply Hrest; [assumption|lia|lia].
      + step. step. step. step. apply Hrest; [assumption|lia|lia].
    - step. step. step. step. apply Hrest; [assumption|lia|lia].
    - unfold ty in E1. destruct (c0 =? 37) eqn:E37; [discriminate|].
      destruct (c0 =? 64) eqn:E64; [|discriminate].
      destruct Hc2 as [Hc2|Hc2]; [|lia].
      destruct Hw2 as [Hw2 Hd3]; [lia|].
      go. tokfin.
    - unfold wp, throw, may_throw. split; [|now right].
      destruct clean; [|reflexivity]. destruct (Hs2 eq_refl) as [Hx|[Hx|Hx]]; [|ar|ar].
      unfold ty in E1. subst c0. discriminate.
  Qed.
End Tok.
