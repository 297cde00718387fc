(** * Operators *)

From Coq Require Import String ZArith List Bool Lia Arith ZifyBool.
From Verif Require Import Base Utf8 Utf8Spec UnicodeRange Lexer LexSpec Utf8Proofs LexerWp Utf8Stream View OutText RoundString RoundUrl RoundIdent TextSpec.
Import ListNotations.
Open Scope string_scope. Open Scope list_scope. Open Scope Z_scope.
Ltac Zify.zify_post_hook ::= idtac.

(** The character [c] followed by the text [v] starts a longer token. *)
Definition longer (c : Z) (v : list Z) : Prop :=
  let n := hd (-1) v in
  let m := hd (-1) (tl v) in
  (In c [61; 58; 33; 62; 60; 36; 126; 42; 124] /\ n = 61)         (* == := != >= <= $= ~= *= |= *)
  \/ (In c [46; 43; 45] /\ is_digit n = true)                      (* .5 +5 -5 *)
  \/ (In c [43; 45] /\ n = 46 /\ is_digit m = true)                (* +.5 -.5 *)
  \/ (In c [38; 42; 124] /\ n = c)                                 (* && ** || *)
  \/ (c = 60 /\ n = 33 /\ m = 45 /\ hd (-1) (tl (tl v)) = 45)      (* <!-- *)
  \/ (c = 45 /\ n = 45 /\ m = 62)                                  (* --> *)
  \/ (c = 45 /\ n <> 45 /\ (is_identifier n = true \/ n = 92))     (* -name *)
  \/ (c = 36 /\ is_variable n = true)                              (* $name *)
  \/ (c = 47 /\ (n = 42 \/ n = 47)).                               (* comments *)

Ltac head := match goal with |- context [runs _ _ _ (if ?b then _ else _)] => 
               first [ change b with true; cbv iota | change b with false; cbv iota ] end.

Ltac hdcase v := let n := fresh "n" in destruct v as [|n v]; cbn [hd tl] in *.
Ltac fin := eapply runs_weaken; [apply runs_ret|cbn; lia].
Ltac node := unfold some; rb; [apply runs_new_node|fin].
Ltac unhd := rb; [apply runs_unget_hd; [cbn; lia|assumption]|].

Lemma unhd2 st v : Forall okc v -> runs st 1 (tl (tl v)) (ungetc (hd (-1) (tl v))) tt 2 (tl v).
Proof. intro H. apply runs_unget_hd; [lia|]. destruct v; [constructor|now inversion H]. Qed.

Lemma okc_tl v : Forall okc v -> Forall okc (tl v).
Proof. intro H. destruct v; [constructor|now inversion H]. Qed.

Lemma okc_hd v : Forall okc v -> hd (-1) v = -1 \/ okc (hd (-1) v).
Proof. intro H. destruct v; [now left|right; now inversion H]. Qed.

Lemma runs_unget_again st d v : Forall okc v -> (d < 16)%nat ->
  runs st d (tl v) (ungetc (hd (-1) v)) tt (S d) v.
Proof. intros. now apply runs_unget_hd. Qed.

Lemma runs_operator st lm c t v : In (c, t) operators -> Forall okc v -> ~ longer c v ->
  runs st 2 v (dispatch lm c) (Some (mk t st)) 4 v.
Proof.
  intros Hin Hv Hl. unfold longer in Hl. cbv zeta in Hl. cbn [In] in Hl. unfold operators in Hin. cbn [In] in Hin.
  pose proof (okc_tl v Hv) as Hv1. pose proof (okc_tl _ Hv1) as Hv2.
  repeat match type of Hin with _ \/ _ => destruct Hin as [Hin|Hin] end; [..|contradiction];
  (apply pair_equal_spec in Hin; destruct Hin as [<- <-]; unfold dispatch, some, eq_or; repeat head).
  all: try solve [node].
  all: try solve [ rb; [rb; [apply runs_getc|no; unhd; apply runs_new_node]|fin] ].
  all: rb; [apply runs_getc|].
  all: try solve [ repeat no; unhd; node ].
  - rb; [yes; apply runs_unget_hd; [cbn; lia|assumption]|]. node.
  - unhd. no. node.
  - (* < *)
    destruct (hd (-1) v =? 33) eqn:E1; [|no; unhd; node].
    rb; [apply runs_getc|].
    destruct (hd (-1) (tl v) =? 45) eqn:E2.
    + rb; [apply runs_getc|]. no.
      rb; [apply runs_unget_hd; [cbn; lia|assumption]|].
      rb; [apply runs_unget_hd; [cbn; lia|assumption]|].
      rb; [apply runs_unget_hd; [cbn; lia|assumption]|]. node.
    + rb; [apply runs_unget_hd; [cbn; lia|assumption]|].
      rb; [apply runs_unget_hd; [cbn; lia|assumption]|]. node.
  - (* + *)
    no. destruct (hd (-1) v =? 46) eqn:E1; [|unhd; node].
    rb; [apply runs_getc|]. no. unhd. unhd. node.
  - (* - *)
    no. destruct (hd (-1) v =? 46) eqn:E1.
    { rb; [apply runs_getc|]. no. unhd. unhd. node. }
    destruct (hd (-1) v =? 45) eqn:E2.
    { rb; [apply runs_getc|]. no. unhd. unhd. node. }
    unhd. no. node.
Qed.

Lemma long_operators_ascii a t : In (a, t) long_operators -> Forall textc a.
Proof.
  intro Hin. unfold long_operators in Hin. cbn [In] in Hin.
  repeat match type of Hin with _ \/ _ => destruct Hin as [Hin|Hin] end; [..|contradiction];
  (apply pair_equal_spec in Hin; destruct Hin as [<- <-]);
  repeat (apply Forall_cons; [apply textc_ascii; lia|]); constructor.
Qed.

Lemma runs_long_operator st lm a t v : In (a, t) long_operators -> Forall okc v ->
  runs st 2 (tl (a ++ v)) (dispatch lm (hd (-1) (a ++ v))) (Some (mk t st)) 2 v.
Proof.
  intros Hin Hv. unfold long_operators in Hin. cbn [In] in Hin.
  repeat match type of Hin with _ \/ _ => destruct Hin as [Hin|Hin] end; [..|contradiction];
  (apply pair_equal_spec in Hin; destruct Hin as [<- <-]); cbn [app hd tl]; unfold dispatch, some, eq_or; repeat head.
  all: try solve [ rb; [rget; repeat head; apply runs_new_node|fin] ].
  all: rget; repeat head; try solve [node].
  all: rget; repeat head; try solve [node].
  all: rget; repeat head; try solve [node].
Qed.

Lemma operator_ascii c t : In (c, t) operators -> textc c.
Proof.
  intro Hin. unfold operators in Hin. cbn [In] in Hin.
  repeat match type of Hin with _ \/ _ => destruct Hin as [Hin|Hin] end; [..|contradiction];
  (apply pair_equal_spec in Hin; destruct Hin as [<- <-]); apply textc_ascii; lia.
Qed.

Lemma operator_back lm c t rest p : In (c, t) operators -> Forall clean_char rest ->
  ~ longer c (normalize rest) ->
  exists s', next_token lm (new_lexer (c :: utf8s rest) p) = Ret (mk t p) s'
             /\ holds s' (normalize rest) /\ l_log s' = [].
Proof.
  intros Hin Hr Hl. pose proof (operator_ascii c t Hin) as Hc.
  assert (Hc1 : 0 < c < 128).
  { unfold operators in Hin. cbn [In] in Hin.
    repeat match type of Hin with _ \/ _ => destruct Hin as [Hin|Hin] end; [..|contradiction];
    (apply pair_equal_spec in Hin; destruct Hin as [<- <-]); lia. }
  assert (H0 := holds_text [c] rest p ltac:(now constructor) Hr).
  rewrite (utf8s_ascii [c]) in H0 by (repeat constructor; lia). cbn [app] in H0.
  edestruct (next_token_runs' lm _ _ (mk t) 4 (normalize rest) H0) as (s' & E & K & _ & L); [cbn; lia| |].
  - intro st. cbn [hd tl]. apply runs_operator; auto. now apply normalize_ok.
  - exists s'. repeat split; auto.
Qed.

Lemma long_operator_back lm a t rest p : In (a, t) long_operators -> Forall clean_char rest ->
  exists s', next_token lm (new_lexer (a ++ utf8s rest) p) = Ret (mk t p) s'
             /\ holds s' (normalize rest) /\ l_log s' = [].
Proof.
  intros Hin Hr. pose proof (long_operators_ascii a t Hin) as Hc.
  assert (Hc1 : utf8s a = a).
  { unfold long_operators in Hin. cbn [In] in Hin.
    repeat match type of Hin with _ \/ _ => destruct Hin as [Hin|Hin] end; [..|contradiction];
    (apply pair_equal_spec in Hin; destruct Hin as [<- <-]); reflexivity. }
  assert (H0 := holds_text a rest p Hc Hr). rewrite Hc1 in H0.
  edestruct (next_token_runs' lm _ _ (mk t) 2 (normalize rest) H0) as (s' & E & K & _ & L); [cbn; lia| |].
  - intro st. apply runs_long_operator; auto. now apply normalize_ok.
  - exists s'. repeat split; auto.
Qed.
