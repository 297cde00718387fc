(** * Reading back strings and URLs *)

From Coq Require Import String ZArith List Bool Lia Arith ZifyBool.
From Verif Require Import Base Utf8 Utf8Spec UnicodeRange Lexer LexSpec Utf8Proofs LexerWp View OutText.
Import ListNotations.
Open Scope string_scope. Open Scope list_scope. Open Scope Z_scope.
Ltac Zify.zify_post_hook ::= idtac.

Lemma encodable_ascii c : 0 < c < 128 -> encodable c.
Proof.
  intro H. unfold encodable, scalar, nonchar. repeat split; try lia.
  intros [E|E]; rewrite Z.mod_small in E; lia.
Qed.

(** Characters which may be in a string or a URL. *)
Definition textc (c : Z) : Prop := encodable c /\ c <> 65533 /\ c <> 10 /\ c <> 12 /\ c <> 13.

Lemma textc_ascii c : 31 < c < 128 -> textc c.
Proof. intro H. unfold textc. split; [apply encodable_ascii; lia|lia]. Qed.

Lemma textc_clean c : textc c -> clean_char c.
Proof. unfold textc, encodable, clean_char. tauto. Qed.
Lemma textc_range c : textc c -> 0 < c < 1114112.
Proof. unfold textc, encodable, scalar. lia. Qed.

Lemma utf8_bytes_high c b : 128 <= c < 1114112 -> In b (utf8 c) -> 128 <= b < 256.
Proof.
  intros Hc Hin. destruct (utf8_shape c Hc) as (x & mb & E & Hx & Hmb & _). rewrite E in Hin.
  destruct Hin as [<-|Hin]; [lia|]. rewrite forallb_forall in Hmb. specialize (Hmb b Hin).
  unfold is_follow in Hmb. lia.
Qed.

Lemma c_str_plain s : Forall (fun b => b <> 0) s -> c_str s = s.
Proof.
  induction s as [|b s IH]; intro H; [reflexivity|]. inversion H; subst. cbn [c_str].
  replace (b =? 0) with false by lia. now rewrite IH.
Qed.

Lemma utf8s_nonzero l : Forall (fun c => 0 < c < 1114112) l -> Forall (fun b => b <> 0) (utf8s l).
Proof.
  induction l as [|c l IH]; intro H; [constructor|]. inversion H; subst.
  rewrite utf8s_cons. apply Forall_app. split; [|now apply IH].
  apply Forall_forall. intros b Hb. destruct (Z.lt_ge_cases c 128).
  - rewrite utf8_ascii in Hb by lia. destruct Hb as [<-|[]]. lia.
  - apply utf8_bytes_high in Hb; lia.
Qed.

(** Quoting characters instead of bytes. *)
Fixpoint quote_chars (q : Z) (l : list Z) : list Z :=
  match l with
  | [] => []
  | c :: r => if c =? q then 92 :: q :: quote_chars q r else c :: quote_chars q r
  end.

Lemma quote_with_app q a b : quote_with q (a ++ b) = quote_with q a ++ quote_with q b.
Proof.
  induction a as [|c a IH]; [reflexivity|]. cbn [app quote_with].
  destruct (c =? q); cbn [app]; now rewrite IH.
Qed.

Lemma quote_with_none q a : Forall (fun b => b <> q) a -> quote_with q a = a.
Proof.
  induction a as [|c a IH]; intro H; [reflexivity|]. inversion H; subst. cbn [quote_with].
  replace (c =? q) with false by lia. now rewrite IH.
Qed.

Lemma quote_utf8s q l : 0 < q < 128 -> Forall (fun c => 0 < c < 1114112) l ->
  quote_with q (utf8s l) = utf8s (quote_chars q l).
Proof.
  intros Hq. induction l as [|c l IH]; intro H; [reflexivity|]. inversion H as [|? ? Hc Hl]; subst.
  rewrite utf8s_cons, quote_with_app, IH by assumption. cbn [quote_chars].
  destruct (c =? q) eqn:E.
  - assert (c = q) by lia. subst c. rewrite !utf8s_cons, !utf8_ascii by lia.
    cbn [quote_with]. rewrite Z.eqb_refl. reflexivity.
  - rewrite utf8s_cons. f_equal. apply quote_with_none. apply Forall_forall. intros b Hb.
    destruct (Z.lt_ge_cases c 128).
    + rewrite utf8_ascii in Hb by lia. destruct Hb as [<-|[]]. lia.
    + apply utf8_bytes_high in Hb; lia.
Qed.

Definition quote_of (s : str) : Z := if (count 34 s <=? count 39 s)%nat then 34 else 39.

Lemma quote_of_cases s : quote_of s = 34 \/ quote_of s = 39.
Proof. unfold quote_of. destruct (_ <=? _)%nat; auto. Qed.

Lemma output_string_utf8 l : Forall (fun c => 0 < c < 1114112) l ->
  output_string (utf8s l) =
  utf8s (quote_of (utf8s l) :: quote_chars (quote_of (utf8s l)) l ++ [quote_of (utf8s l)]).
Proof.
  intro H. unfold output_string. rewrite c_str_plain by now apply utf8s_nonzero.
  change (if (count 34 (utf8s l) <=? count 39 (utf8s l))%nat then 34 else 39) with (quote_of (utf8s l)).
  pose proof (quote_of_cases (utf8s l)). set (q := quote_of (utf8s l)) in *. clearbody q.
  rewrite quote_utf8s by (assumption || lia).
  rewrite utf8s_cons, utf8s_app, (utf8_ascii q) by lia. cbn [app]. f_equal. f_equal.
  rewrite utf8s_cons, utf8_ascii by lia. reflexivity.
Qed.

Lemma runs_escape_plain st d c v : textc c -> is_hex c = false ->
  runs st d (c :: v) escape c (pred d) v.
Proof.
  intros (Hc & H1 & H2 & _) Hh. unfold escape. unfold encodable, scalar in Hc.
  rget. do 3 no. rewrite Hh. apply runs_ret.
Qed.

Lemma runs_string_loop st q : (q = 34 \/ q = 39) -> forall l f acc v, 
  Forall textc l -> ~ In 92 l -> Forall okc v -> (length (quote_chars q l ++ q :: v) < f)%nat ->
  runs st 2 (quote_chars q l ++ q :: v) (string_loop f q acc) (acc ++ utf8s l) 2 v.
Proof.
  intros Hq. induction l as [|c l IH]; intros f acc v Hl H92 Hv Hf.
  - destruct f as [|f]; [cbn in Hf; lia|]. cbn [quote_chars app string_loop].
    rget. do 2 no. yes. cbn. rewrite app_nil_r.
    eapply runs_weaken; [apply runs_ret|cbn; lia].
  - inversion Hl as [|? ? Hc Hl']; subst.
    assert (Hc92 : c <> 92) by (intros ->; apply H92; now left).
    assert (H92' : ~ In 92 l) by (intro; apply H92; now right).
    assert (Hlen : (length (quote_chars q l ++ q :: v) + 1 < f)%nat).
    { cbn [quote_chars] in Hf. destruct (c =? q); cbn [app length] in Hf; lia. }
    destruct f as [|f]; [cbn in Hlen; lia|].
    cbn [quote_chars string_loop]. pose proof (textc_range c Hc) as Hr.
    assert (Hc' := Hc). destruct Hc' as (He & H1 & H2 & H3 & H4).
    replace (acc ++ utf8s (c :: l)) with ((acc ++ utf8 c) ++ utf8s l) by (rewrite <- app_assoc; reflexivity).
    destruct (c =? q) eqn:E.
    + assert (c = q) by lia. subst c. cbn [app].
      rget. do 3 no. rb.
      { yes. rget. do 3 no.
        rb; [apply runs_ungetc; [unfold okc; destruct Hq; lia|cbn; lia]|].
        cbn [pred]. apply runs_escape_plain; [assumption|chars]. }
      yes. rb; [apply runs_wctomb; assumption|].
      eapply runs_strengthen; [apply IH; auto; lia|cbn; lia].
    + cbn [app]. rget. do 3 no. rb.
      { no. apply runs_ret. }
      yes. rb; [apply runs_wctomb; assumption|].
      eapply runs_strengthen; [apply IH; auto; lia|cbn; lia].
Qed.

Lemma runs_lex_string st q l v : (q = 34 \/ q = 39) -> Forall textc l -> ~ In 92 l -> Forall okc v ->
  runs st 2 (quote_chars q l ++ q :: v) (lex_string q) (utf8s l) 2 v.
Proof.
  intros. unfold lex_string. apply runs_with_fuel. intros k Hk.
  apply runs_string_loop; auto; lia.
Qed.

Lemma quote_chars_text q l : (q = 34 \/ q = 39) -> Forall textc l -> Forall textc (quote_chars q l).
Proof.
  intros Hq. assert (H92 : textc 92) by (apply textc_ascii; lia).
  assert (Htq : textc q) by (apply textc_ascii; lia).
  induction l as [|c l IH]; intro H; [constructor|]. inversion H; subst. cbn [quote_chars].
  destruct (c =? q); repeat (apply Forall_cons; [assumption|]); auto.
Qed.

Lemma textc_plain l : Forall textc l -> Forall (fun c => c <> 12 /\ c <> 13) l.
Proof. apply Forall_impl. unfold textc. tauto. Qed.

(** A string written by the assembler, followed by anything. *)
Lemma string_round_trip lm l rest : Forall textc l -> ~ In 92 l -> Forall clean_char rest ->
  forall s, holds s (normalize (quote_of (utf8s l) :: quote_chars (quote_of (utf8s l)) l ++ quote_of (utf8s l) :: rest)) ->
  (dep s <= 3)%nat ->
  exists s', next_token lm s = Ret (set_str (mk STRING (l_pos s)) (utf8s l)) s'
             /\ holds s' (normalize rest) /\ (dep s' <= 2)%nat /\ l_log s' = l_log s.
Proof.
  intros Hl H92 Hr. pose proof (quote_of_cases (utf8s l)) as Hq.
  set (q := quote_of (utf8s l)) in *. clearbody q.
  assert (Htq : textc q) by (apply textc_ascii; lia).
  replace (q :: quote_chars q l ++ q :: rest) with ((q :: quote_chars q l ++ [q]) ++ rest)
    by (cbn; rewrite <- app_assoc; reflexivity).
  rewrite normalize_plain.
  2:{ apply textc_plain. constructor; [assumption|]. apply Forall_app.
      split; [now apply quote_chars_text|now constructor]. }
  cbn [app]. rewrite <- app_assoc. cbn [app].
  apply (next_token_runs lm _ (fun p => set_str (mk STRING p) (utf8s l)) 2).
  intro st. cbn [hd tl]. unfold dispatch.
  do 26 (no || idtac). yes.
  rb; [apply runs_lex_string; auto; now apply normalize_ok|].
  rb; [apply runs_new_node|]. apply runs_ret.
Qed.
