(** * Reading back a hash: # and a name *)

From Coq Require Import String ZArith List Bool Lia Arith ZifyBool.
From Verif Require Import Base Utf8 Utf8Spec UnicodeRange Lexer LexSpec Utf8Proofs LexerWp Utf8Stream View OutText RoundString RoundUrl RoundIdent TextSpec.
Import ListNotations.
Open Scope string_scope. Open Scope list_scope. Open Scope Z_scope.
Ltac Zify.zify_post_hook ::= idtac.

Definition hash_tok (l : str) (st : position) : node := set_str (mk HASH st) l.

Lemma runs_hash_loop st l v : Forall (fun c => is_hash_character c = true /\ 0 < c < 128) l -> Forall okc v ->
  is_hash_character (hd (-1) v) = false -> hd (-1) v <> 92 ->
  forall k d acc, (d <= 2)%nat -> (length l < k)%nat -> runs st d (l ++ v) (hash_loop k acc) (acc ++ l) 3 v.
Proof.
  intros Hl Hv H1 H2. induction Hl as [|c l [Hc Ha] Hl IH]; intros k d acc Hd Hk; (destruct k as [|k]; [cbn in Hk; lia|]); cbn [hash_loop app].
  - rb; [apply runs_getc|]. no. rewrite H1. cbn [negb]. rewrite app_nil_r.
    rb; [apply runs_unget_hd; [lia|assumption]|]. eapply runs_weaken; [apply runs_ret|lia].
  - rget. no. rewrite Hc. cbn [negb]. rb; [apply runs_wctomb; repeat split; unfold scalar, nonchar; try lia; rewrite Z.mod_small; lia|].
    rewrite utf8_ascii by lia. specialize (IH k (pred d) (acc ++ [c])). rewrite <- app_assoc in IH. apply IH; cbn in *; lia.
Qed.

Lemma runs_hash st lm l v : l <> [] -> Forall (fun c => is_hash_character c = true /\ 0 < c < 128) l -> Forall okc v ->
  is_hash_character (hd (-1) v) = false -> hd (-1) v <> 92 ->
  runs st 2 (l ++ v) (dispatch lm 35) (Some (hash_tok l st)) 3 v.
Proof.
  intros Hn Hl Hv H1 H2. unfold dispatch.
  repeat match goal with |- context [runs _ _ _ (if ?b then _ else _)] => first [ change b with true; cbv iota | change b with false; cbv iota ] end.
  unfold hash. rb.
  - apply runs_with_fuel. intros k Hk. apply runs_hash_loop with (acc := []); auto. rewrite app_length in Hk. lia.
  - cbn [app]. destruct l as [|c l]; [congruence|]. rb; [apply runs_new_node|]. apply runs_ret.
Qed.

Lemma hash_back lm l rest p : l <> [] -> Forall (fun c => is_hash_character c = true /\ 0 < c < 128) l -> Forall clean_char rest ->
  is_hash_character (hd (-1) (normalize rest)) = false -> hd (-1) (normalize rest) <> 92 ->
  exists s', next_token lm (new_lexer (35 :: l ++ utf8s rest) p) = Ret (hash_tok l p) s'
    /\ holds s' (normalize rest) /\ l_log s' = [].
Proof.
  intros Hn Hl Hr H1 H2.
  assert (Ht : Forall textc (35 :: l)).
  { constructor; [apply textc_ascii; lia|]. rewrite Forall_forall in *. intros c Hc. destruct (Hl c Hc) as [A B]. apply textc_ascii. chars. }
  pose proof (holds_text _ rest p Ht Hr) as H0.
  rewrite (utf8s_ascii (35 :: l)) in H0.
  2:{ constructor; [lia|]. rewrite Forall_forall in *. intros c Hc. destruct (Hl c Hc). lia. }
  cbn [app] in H0. edestruct (next_token_runs' lm _ _ (hash_tok l) 3 (normalize rest) H0) as (s' & E & K & _ & L); [cbn; lia| |].
  - intro st. cbn [hd tl]. apply runs_hash; auto. now apply normalize_ok.
  - exists s'. repeat split; auto.
Qed.
