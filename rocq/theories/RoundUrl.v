(** * Reading back URLs *)

From Coq Require Import String ZArith List Bool Lia Arith ZifyBool.
From Verif Require Import Base Utf8 Utf8Spec UnicodeRange Lexer LexSpec Utf8Proofs LexerWp View OutText RoundString.
Import ListNotations.
Open Scope string_scope. Open Scope list_scope. Open Scope Z_scope.
Ltac Zify.zify_post_hook ::= idtac.

(** Characters which force the use of quotes. *)
Definition quoted_char (c : Z) : Prop :=
  c = 40 \/ c = 41 \/ c = 39 \/ c = 34 \/ c = 8 \/ c = 11 \/ 14 <= c <= 31 \/ c = 127.

Definition needs_quotes (b : Z) : bool :=
  let c := to_char b in
  (c =? 40) || (c =? 41) || (c =? 39) || (c =? 34) || is_non_printable c.

Lemma url_direct_eq s : url_direct s = negb (existsb needs_quotes s).
Proof. reflexivity. Qed.

Lemma needs_quotes_high b : 128 <= b < 256 -> needs_quotes b = false.
Proof. intro H. unfold needs_quotes, to_char. replace (128 <=? b) with true by lia. chars. Qed.

Lemma needs_quotes_utf8 c : textc c -> existsb needs_quotes (utf8 c) = true <-> quoted_char c.
Proof.
  intros Hc. pose proof (textc_range c Hc) as Hr. destruct Hc as (_ & H1 & _).
  destruct (Z.lt_ge_cases c 128) as [L|G].
  - rewrite utf8_ascii by lia. cbn [existsb]. unfold needs_quotes, to_char, quoted_char.
    replace (128 <=? c) with false by lia. chars.
  - split.
    + intro H. apply existsb_exists in H. destruct H as (b & Hb & Hn).
      rewrite needs_quotes_high in Hn; [discriminate|]. apply utf8_bytes_high in Hb; lia.
    + unfold quoted_char. lia.
Qed.

Lemma url_direct_utf8 l : Forall textc l ->
  url_direct (utf8s l) = true <-> Forall (fun c => ~ quoted_char c) l.
Proof.
  intro H. rewrite url_direct_eq. induction l as [|c l IH]; [split; auto|].
  inversion H as [|? ? Hc Hl]; subst. specialize (IH Hl). pose proof (needs_quotes_utf8 c Hc) as Hn.
  rewrite utf8s_cons, existsb_app. rewrite negb_orb, andb_true_iff, IH, negb_true_iff. split.
  - intros [E F]. constructor; [|assumption]. rewrite <- Hn. congruence.
  - intro F. inversion F; subst. split; [|assumption].
    destruct (existsb needs_quotes (utf8 c)); [tauto|reflexivity].
Qed.

Lemma runs_skip_spaces st d v c rest : (forall x, In x v -> is_space x = true) -> is_space c = false ->
  forall f, (length v < f)%nat -> runs st d (v ++ c :: rest) (skip_spaces f) c d rest.
Proof.
  intros Hv Hc. induction v as [|x v IH]; intros f Hf.
  - destruct f as [|f]; [cbn in Hf; lia|]. cbn [app skip_spaces]. rget. rewrite Hc.
    eapply runs_weaken; [apply runs_ret|lia].
  - destruct f as [|f]; [cbn in Hf; lia|]. cbn [app skip_spaces]. rget. rewrite (Hv x) by now left.
    eapply runs_strengthen; [apply IH; [intros; apply Hv; now right|cbn in Hf; lia]|lia].
Qed.

Lemma runs_url_close st d v rest : (forall x, In x v -> is_space x = true) ->
  forall f, (length v < f)%nat -> runs st d (v ++ 41 :: rest) (url_close f) tt d rest.
Proof.
  intros Hv. induction v as [|x v IH]; intros f Hf.
  - destruct f as [|f]; [cbn in Hf; lia|]. cbn [app url_close]. rget. change (41 =? 41) with true. cbv iota.
    eapply runs_weaken; [apply runs_ret|lia].
  - destruct f as [|f]; [cbn in Hf; lia|]. cbn [app url_close]. rget.
    assert (Hx := Hv x (or_introl eq_refl)).
    replace (x =? 41) with false by (symmetry; chars). rewrite Hx. cbn [negb].
    eapply runs_strengthen; [apply IH; [intros; apply Hv; now right|cbn in Hf; lia]|lia].
Qed.

Definition direct_char (c : Z) : Prop := textc c /\ ~ quoted_char c /\ c <> 32 /\ c <> 9.

(** [sp] is empty or a space, [e] is the character that ends the URL. *)
Lemma runs_url_loop st e v : (e = 41 \/ e = 32) -> forall l d f acc, Forall direct_char l ->
  (length l < f)%nat ->
  runs st d (l ++ e :: v) (url_loop f acc) (acc ++ utf8s l, e) d v.
Proof.
  intros He. induction l as [|c l IH]; intros d f acc Hl Hf.
  - destruct f as [|f]; [cbn in Hf; lia|]. cbn [app url_loop]. rget. yes.
    cbn. rewrite app_nil_r. eapply runs_weaken; [apply runs_ret|lia].
  - destruct f as [|f]; [cbn in Hf; lia|]. inversion Hl as [|? ? (Hc & Hq & H1 & H2) Hl']; subst.
    pose proof (textc_range c Hc) as Hr. assert (Hc' := Hc). destruct Hc' as (Hx & H3 & H4 & H5 & H6).
    unfold quoted_char in Hq.
    cbn [app url_loop]. rget. do 2 no.
    rb; [apply runs_wctomb; assumption|].
    replace (acc ++ utf8s (c :: l)) with ((acc ++ utf8 c) ++ utf8s l) by (rewrite <- app_assoc; reflexivity).
    eapply runs_strengthen; [apply IH; [assumption|cbn in Hf; lia]|lia].
Qed.

Lemma runs_ascii st d v c : 0 < c < 128 -> runs st d v (wctomb_m c) [c] d v.
Proof.
  intro H. rewrite <- (utf8_ascii c) by lia. apply runs_wctomb. now apply encodable_ascii.
Qed.

(** The identifier "url(" . *)
Lemma runs_url_ident st lm v n v' :
  runs st 1 v (ident_finish IDENTIFIER (zs "url") (zs "url") 40) n 2 v' ->
  runs st 2 (114 :: 108 :: 40 :: v) (dispatch lm 117) (Some n) 2 v'.
Proof.
  intro H. unfold dispatch. do 30 (no || idtac).
  match goal with |- runs _ _ _ (if ?b then _ else _) _ _ _ => change b with true; cbv iota end.
  rget. no. rb; [apply runs_ungetc; [unfold okc; lia|cbn; lia]|].
  rb; [|apply runs_ret]. unfold identifier. cbv zeta.
  change (117 =? 37) with false. change (117 =? 64) with false. cbv iota.
  rb; [apply runs_ret|]. change (117 =? 45) with false. cbv iota.
  rb; [apply runs_ret|]. cbv beta iota. no. yes.
  rb; [apply runs_ascii; lia|]. change (tolower 117) with 117.
  rb; [apply runs_ascii; lia|]. cbn [app].
  rb.
  { apply runs_with_fuel. intros k Hk. cbn [length] in Hk.
    destruct k as [|[|[|k]]]; try lia. cbn [ident_loop].
    rget. no. no. rb; [apply runs_ascii; lia|]. change (tolower 114) with 114. rb; [apply runs_ascii; lia|].
    rget. no. no. rb; [apply runs_ascii; lia|]. change (tolower 108) with 108. rb; [apply runs_ascii; lia|].
    rget. no. yes. apply runs_ret. }
  cbv beta iota. eapply runs_strengthen; [exact H|cbn; lia].
Qed.

Definition sp_of (spaces : bool) : list Z := if spaces then [32] else [].

Lemma sp_space spaces x : In x (sp_of spaces) -> is_space x = true.
Proof. destruct spaces; [intros [<-|[]]; reflexivity|intros []]. Qed.

Lemma runs_url_direct st spaces c l v : direct_char c -> Forall direct_char l -> Forall okc v ->
  runs st 1 (sp_of spaces ++ c :: l ++ sp_of spaces ++ 41 :: v) (ident_finish IDENTIFIER (zs "url") (zs "url") 40)
    (set_str (mk URL st) (utf8s (c :: l))) 2 v.
Proof.
  intros Hc Hl Hv. unfold ident_finish. change (zs "url") with [117; 114; 108]. cbv iota.
  change ((40 =? 40) && negb (ntype_eqb IDENTIFIER AT_KEYWORD)) with true.
  change (str_eqb [117; 114; 108] [117; 114; 108]) with true. cbv iota.
  destruct Hc as (Ht & Hq & H1 & H2). pose proof (textc_range c Ht) as Hr.
  assert (Hc' := Ht). destruct Hc' as (Hx & H3 & H4 & H5 & H6). unfold quoted_char in Hq.
  rb. { apply runs_with_fuel. intros k Hk. apply runs_skip_spaces; [apply sp_space|chars|].
        rewrite app_length in Hk. lia. }
  assert (He : exists e w, sp_of spaces ++ 41 :: v = e :: w /\ (e = 41 /\ w = v \/ e = 32 /\ w = 41 :: v)).
  { destruct spaces; [exists 32, (41 :: v)|exists 41, v]; auto. }
  destruct He as (e & w & -> & He).
  rb. { no. rb; [apply runs_wctomb; assumption|].
        apply runs_with_fuel. intros k Hk. apply (runs_url_loop st e w); [lia|assumption|].
        rewrite app_length in Hk. lia. }
  cbv beta iota. eapply (runs_bind st 1 w _ tt 1 v).
  { destruct He as [(-> & ->)|(-> & ->)].
    - change (41 =? 41) with true. cbv iota. apply runs_ret.
    - change (32 =? 41) with false. cbv iota. apply runs_with_fuel. intros k Hk.
      apply (runs_url_close st 1 [] v); [intros ? []|cbn [length] in *; lia]. }
  rb; [apply runs_new_node|]. rewrite utf8s_cons. eapply runs_weaken; [apply runs_ret|lia].
Qed.

Lemma runs_url_quoted st spaces q l v : (q = 34 \/ q = 39) -> Forall textc l -> ~ In 92 l -> Forall okc v ->
  runs st 1 (sp_of spaces ++ q :: quote_chars q l ++ q :: sp_of spaces ++ 41 :: v)
    (ident_finish IDENTIFIER (zs "url") (zs "url") 40)
    (set_str (mk URL st) (utf8s l)) 2 v.
Proof.
  intros Hq Hl H92 Hv. unfold ident_finish. change (zs "url") with [117; 114; 108]. cbv iota.
  change ((40 =? 40) && negb (ntype_eqb IDENTIFIER AT_KEYWORD)) with true.
  change (str_eqb [117; 114; 108] [117; 114; 108]) with true. cbv iota.
  rb. { apply runs_with_fuel. intros k Hk. apply runs_skip_spaces; [apply sp_space|destruct Hq; subst; reflexivity|].
        rewrite app_length in Hk. lia. }
  rb. { yes. rb; [|apply runs_ret]. eapply runs_strengthen; [apply runs_lex_string; auto|lia].
        apply Forall_app. split; [|constructor; [unfold okc; lia|assumption]].
        destruct spaces; repeat constructor; lia. }
  cbv beta iota. rb.
  { no. apply runs_with_fuel. intros k Hk. apply runs_url_close; [apply sp_space|].
    rewrite app_length in Hk. lia. }
  rb; [apply runs_new_node|]. apply runs_ret.
Qed.

Lemma zs_url : zs "url(" = [117; 114; 108; 40]. Proof. reflexivity. Qed.

Lemma direct_textc l : Forall direct_char l -> Forall textc l.
Proof. apply Forall_impl. unfold direct_char. tauto. Qed.

Lemma textc_nz l : Forall textc l -> Forall (fun c => 0 < c < 1114112) l.
Proof. apply Forall_impl. intros. now apply textc_range. Qed.

Lemma utf8s_ascii l : Forall (fun c => 0 <= c < 128) l -> utf8s l = l.
Proof.
  induction l as [|c l IH]; intro H; [reflexivity|]. inversion H; subst.
  rewrite utf8s_cons, utf8_ascii by lia. cbn. now rewrite IH.
Qed.

Lemma sp_utf8 spaces : utf8s (sp_of spaces) = sp_of spaces.
Proof. destruct spaces; reflexivity. Qed.
Lemma sp_text spaces : Forall textc (sp_of spaces).
Proof. destruct spaces; constructor; [apply textc_ascii; lia|constructor]. Qed.

Lemma output_url_direct spaces l : Forall direct_char l ->
  output_url spaces (utf8s l) = utf8s ([117; 114; 108; 40] ++ sp_of spaces ++ l ++ sp_of spaces ++ [41]).
Proof.
  intro H. unfold output_url. rewrite c_str_plain by now apply utf8s_nonzero, textc_nz, direct_textc.
  replace (url_direct (utf8s l)) with true.
  2:{ symmetry. apply url_direct_utf8; [now apply direct_textc|].
      revert H. apply Forall_impl. unfold direct_char. tauto. }
  rewrite !utf8s_app, sp_utf8. reflexivity.
Qed.

Lemma output_url_quoted spaces l : Forall textc l -> Exists quoted_char l ->
  let q := quote_of (utf8s l) in
  output_url spaces (utf8s l) =
  utf8s ([117; 114; 108; 40] ++ sp_of spaces ++ (q :: quote_chars q l ++ [q]) ++ sp_of spaces ++ [41]).
Proof.
  intros H Hx q. unfold output_url. rewrite c_str_plain by now apply utf8s_nonzero, textc_nz.
  replace (url_direct (utf8s l)) with false.
  2:{ symmetry. apply not_true_iff_false. rewrite url_direct_utf8 by assumption.
      rewrite Forall_forall. intro F. apply Exists_exists in Hx. destruct Hx as (c & Hc & Hq).
      now apply (F c). }
  rewrite output_string_utf8 by now apply textc_nz.
  fold q. rewrite (utf8s_app [117; 114; 108; 40]), (utf8s_app (sp_of spaces)), (utf8s_app (q :: _)), (utf8s_app (sp_of spaces)), sp_utf8. reflexivity.
Qed.

Lemma next_token_runs' lm s v node_of d' v' : holds s v -> (dep s <= 3)%nat ->
  (forall st, runs st 2 (tl v) (dispatch lm (hd (-1) v)) (Some (node_of st)) d' v') ->
  exists s', next_token lm s = Ret (node_of (l_pos s)) s' /\ holds s' v'
             /\ (dep s' <= d')%nat /\ l_log s' = l_log s.
Proof. intros H1 H2 H3. exact (next_token_runs lm v node_of d' v' H3 s H1 H2). Qed.

(** A text [a] without line terminators, followed by [rest]. *)
Lemma holds_text a rest p : Forall textc a -> Forall clean_char rest ->
  holds (new_lexer (utf8s a ++ utf8s rest) p) (a ++ normalize rest).
Proof.
  intros Ha Hr. rewrite <- utf8s_app.
  rewrite <- (normalize_plain a rest) by now apply textc_plain.
  apply holds_new. apply Forall_app. split; [|assumption].
  revert Ha. apply Forall_impl. apply textc_clean.
Qed.

Lemma url_text : Forall textc [117; 114; 108; 40].
Proof. repeat (apply Forall_cons; [apply textc_ascii; lia|]); constructor. Qed.

Lemma url_direct_back lm spaces l rest p : l <> [] -> Forall direct_char l -> Forall clean_char rest ->
  exists s', next_token lm (new_lexer (output_url spaces (utf8s l) ++ utf8s rest) p)
             = Ret (set_str (mk URL p) (utf8s l)) s'
             /\ holds s' (normalize rest) /\ l_log s' = [].
Proof.
  intros Hn Hl Hr. rewrite output_url_direct by assumption.
  set (a := [117; 114; 108; 40] ++ sp_of spaces ++ l ++ sp_of spaces ++ [41]).
  assert (Ha : Forall textc a).
  { unfold a. pose proof url_text. pose proof (sp_text spaces). pose proof (direct_textc l Hl).
    repeat (apply Forall_app; split); auto. constructor; [apply textc_ascii; lia|constructor]. }
  pose proof (holds_text a rest p Ha Hr) as H0.
  set (s := new_lexer (utf8s a ++ utf8s rest) p) in *. unfold a in H0. rewrite <- !app_assoc in H0. cbn [app] in H0.
  destruct l as [|c l]; [congruence|]. inversion Hl as [|? ? Hc Hl']; subst.
  destruct (next_token_runs' lm s _ (fun p => set_str (mk URL p) (utf8s (c :: l))) 2 (normalize rest) H0)
    as (s' & E & K & _ & L); [cbn; lia| |].
  - intro st. cbn [hd tl]. apply runs_url_ident. cbn [app].
    apply runs_url_direct; auto. now apply normalize_ok.
  - exists s'. repeat split; auto.
Qed.

Lemma url_quoted_back lm spaces l rest p : Forall textc l -> Exists quoted_char l -> ~ In 92 l -> Forall clean_char rest ->
  exists s', next_token lm (new_lexer (output_url spaces (utf8s l) ++ utf8s rest) p)
             = Ret (set_str (mk URL p) (utf8s l)) s'
             /\ holds s' (normalize rest) /\ l_log s' = [].
Proof.
  intros Hl Hx H92 Hr. rewrite output_url_quoted by assumption.
  pose proof (quote_of_cases (utf8s l)) as Hq. set (q := quote_of (utf8s l)) in *. clearbody q.
  set (a := [117; 114; 108; 40] ++ sp_of spaces ++ (q :: quote_chars q l ++ [q]) ++ sp_of spaces ++ [41]).
  assert (Htq : textc q) by (apply textc_ascii; lia).
  assert (Ha : Forall textc a).
  { unfold a. pose proof url_text. pose proof (sp_text spaces). pose proof (quote_chars_text q l Hq Hl).
    assert (Forall textc [q]) by (constructor; [assumption|constructor]).
    assert (Forall textc [41]) by (constructor; [apply textc_ascii; lia|constructor]).
    repeat (apply Forall_app; split); auto. constructor; [assumption|]. apply Forall_app. auto. }
  pose proof (holds_text a rest p Ha Hr) as H0.
  set (s := new_lexer (utf8s a ++ utf8s rest) p) in *. unfold a in H0. 
  repeat (rewrite <- !app_assoc in H0; cbn [app] in H0).
  destruct (next_token_runs' lm s _ (fun p => set_str (mk URL p) (utf8s l)) 2 (normalize rest) H0)
    as (s' & E & K & _ & L); [cbn; lia| |].
  - intro st. cbn [hd tl]. apply runs_url_ident. cbn [app].
    apply runs_url_quoted; auto. now apply normalize_ok.
  - exists s'. repeat split; auto.
Qed.

Lemma string_back lm l rest p : Forall textc l -> ~ In 92 l -> Forall clean_char rest ->
  exists s', next_token lm (new_lexer (output_string (utf8s l) ++ utf8s rest) p)
             = Ret (set_str (mk STRING p) (utf8s l)) s'
             /\ holds s' (normalize rest) /\ l_log s' = [].
Proof.
  intros Hl H92 Hr. rewrite output_string_utf8 by now apply textc_nz.
  pose proof (quote_of_cases (utf8s l)) as Hq. pose proof (string_round_trip lm l rest Hl H92 Hr) as T.
  set (q := quote_of (utf8s l)) in *. clearbody q.
  assert (Htq : textc q) by (apply textc_ascii; lia).
  set (a := q :: quote_chars q l ++ [q]) in *.
  assert (Ha : Forall textc a).
  { constructor; [assumption|]. apply Forall_app. split; [now apply quote_chars_text|].
    constructor; [assumption|constructor]. }
  pose proof (holds_text a rest p Ha Hr) as H0.
  destruct (T (new_lexer (utf8s a ++ utf8s rest) p)) as (s' & E & K & _ & L); [|cbn; lia|eauto 6].
  replace (q :: quote_chars q l ++ q :: rest) with (a ++ rest) by (unfold a; cbn; rewrite <- app_assoc; reflexivity).
  rewrite normalize_plain by now apply textc_plain. exact H0.
Qed.
