(** * What the lexer reports is only ever added to the messages *)

From Coq Require Import String ZArith List Bool Floats.SpecFloat.
From Verif Require Import Base Utf8 UnicodeRange MessagesParser.
From Verif Require Import Lexer.
Import ListNotations.
Open Scope string_scope. Open Scope list_scope. Open Scope Z_scope.

(** The log holds the last message first. *)
Definition said (s : lexst) : list msg := rev (l_log s).
Notation adds := (only_adds said).
Lemma adds_ret {A} (x : A) : adds (ret x). Proof. intro s. exists []. now rewrite app_nil_r. Qed.
Lemma adds_throw {A} e : adds (@throw A e). Proof. intro s. exists []. now rewrite app_nil_r. Qed.
Lemma adds_undef {A} : adds (@undef A). Proof. intro s. exists []. now rewrite app_nil_r. Qed.
Lemma adds_nofuel {A} : adds (@nofuel A). Proof. intro s. exact I. Qed.
Lemma adds_no_fuel {A} : adds (fun _ : lexst => @NoFuel lexst A). Proof. intro s. exact I. Qed.
Lemma adds_bind {A B} (m : M A) (f : A -> M B) : adds m -> (forall x, adds (f x)) -> adds (bind m f).
Proof.
  intros H K s. specialize (H s). unfold bind. destruct (m s) as [a s1| | |]; try exact H. specialize (K a s1). destruct H as (l & E).
  destruct (f a s1); try exact I; destruct K as (l2 & ->); rewrite E, <- app_assoc; eauto.
Qed.
Lemma adds_emit l p t : adds (emit l p t). Proof. intro s. unfold said. cbn. eauto. Qed.
Lemma adds_err t : adds (err t). Proof. apply adds_emit. Qed.
Ltac at_once := intros; let s := fresh "s" in intro s; exists []; cbn; now rewrite app_nil_r.
Lemma adds_new_node t : adds (new_node t). Proof. at_once. Qed.
Lemma adds_with_fuel {A} (f : nat -> M A) : (forall n, adds (f n)) -> adds (with_fuel f). Proof. intros H s. exact (H _ s). Qed.
#[export] Hint Resolve adds_ret adds_throw adds_undef adds_nofuel adds_no_fuel adds_emit adds_err adds_new_node adds_bind adds_with_fuel : adds.
#[export] Hint Extern 4 (only_adds _ (match ?x with _ => _ end)) => destruct x : adds.
Ltac walk :=
  intros; cbv zeta;
  lazymatch goal with
  | |- only_adds _ (bind _ _) => apply adds_bind; [walk|walk]
  | |- only_adds _ (with_fuel _) => apply adds_with_fuel; walk
  | |- only_adds _ (match ?x with _ => _ end) => destruct x; walk
  | |- only_adds _ _ => auto 12 with adds
  | |- _ => idtac
  end.
Lemma adds_wctomb_m : forall (c : Z), adds (wctomb_m c).
Proof. unfold wctomb_m. walk. Qed.
#[export] Hint Resolve adds_wctomb_m : adds.
Lemma adds_set_in l : adds (set_in l). Proof. at_once. Qed.
#[export] Hint Resolve adds_set_in : adds.
Lemma adds_set_unget l : adds (set_unget l). Proof. at_once. Qed.
#[export] Hint Resolve adds_set_unget : adds.
Lemma adds_set_pos l : adds (set_pos l). Proof. at_once. Qed.
#[export] Hint Resolve adds_set_pos : adds.
Lemma adds_getc_tail : forall (c : Z) (rest : list Z), adds (getc_tail c rest).
Proof. unfold getc_tail. walk. Qed.
#[export] Hint Resolve adds_getc_tail : adds.
Lemma adds_getc : adds getc.
Proof.
  intro s. unfold getc.
  assert (Q : forall m : M Z, adds m -> match m s with Ret _ s' | Throw _ s' | Undef s' => exists l, said s' = said s ++ l | NoFuel => True end) by (intros m H; exact (H s)).
  destruct (l_unget s) as [|c u]; [|apply Q; walk].
  destruct (l_in s) as [|b rest]; [exists []; now rewrite app_nil_r|].
  destruct (b <? 128); [apply Q; walk|]. destruct (_ && _); [|apply Q; walk].
  destruct (take_follow 7 rest) as [mb rest2]. destruct (_ =? 7)%nat; [apply Q; walk|].
  destruct (mbtowc _); apply Q; walk.
Qed.
#[export] Hint Resolve adds_getc : adds.
Lemma adds_ungetc c : adds (ungetc c).
Proof. intro s. unfold ungetc. repeat (match goal with |- context [if ?b then _ else _] => destruct b end); try (exists []; cbn; now rewrite app_nil_r). Qed.
#[export] Hint Resolve adds_ungetc : adds.
Lemma adds_hex_to_dec : forall (c : Z), adds (hex_to_dec c).
Proof. unfold hex_to_dec. walk. Qed.
#[export] Hint Resolve adds_hex_to_dec : adds.
Lemma adds_escape_hex : forall (k : nat) (wc : Z), adds (escape_hex k wc).
Proof.
  intros k. induction k as [|k IH]; intros; cbn [escape_hex]; walk.
Qed.
#[export] Hint Resolve adds_escape_hex : adds.
Lemma adds_escape : adds (escape).
Proof. unfold escape. walk. Qed.
#[export] Hint Resolve adds_escape : adds.
Lemma adds_string_loop : forall (fuel : nat) (quote : Z) (acc : str), adds (string_loop fuel quote acc).
Proof.
  intros fuel. induction fuel as [|fuel IH]; intros; cbn [string_loop]; walk.
Qed.
#[export] Hint Resolve adds_string_loop : adds.
Lemma adds_lex_string : forall (quote : Z), adds (lex_string quote).
Proof. unfold lex_string. walk. Qed.
#[export] Hint Resolve adds_lex_string : adds.
Lemma adds_ident_loop : forall (fuel : nat) (id low : str), adds (ident_loop fuel id low).
Proof.
  intros fuel. induction fuel as [|fuel IH]; intros; cbn [ident_loop]; walk.
Qed.
#[export] Hint Resolve adds_ident_loop : adds.
Lemma adds_skip_spaces : forall (fuel : nat), adds (skip_spaces fuel).
Proof.
  intros fuel. induction fuel as [|fuel IH]; intros; cbn [skip_spaces]; walk.
Qed.
#[export] Hint Resolve adds_skip_spaces : adds.
Lemma adds_url_loop : forall (fuel : nat) (url : str), adds (url_loop fuel url).
Proof.
  intros fuel. induction fuel as [|fuel IH]; intros; cbn [url_loop]; walk.
Qed.
#[export] Hint Resolve adds_url_loop : adds.
Lemma adds_url_close : forall (fuel : nat), adds (url_close fuel).
Proof.
  intros fuel. induction fuel as [|fuel IH]; intros; cbn [url_close]; walk.
Qed.
#[export] Hint Resolve adds_url_close : adds.
Lemma adds_ident_finish : forall (ty : ntype) (id low : str) (c : Z), adds (ident_finish ty id low c).
Proof. unfold ident_finish. walk. Qed.
#[export] Hint Resolve adds_ident_finish : adds.
Lemma adds_identifier : forall (c0 : Z), adds (identifier c0).
Proof. unfold identifier. walk. Qed.
#[export] Hint Resolve adds_identifier : adds.
Lemma adds_int_loop : forall (fuel : nat) (i : Z), adds (int_loop fuel i).
Proof.
  intros fuel. induction fuel as [|fuel IH]; intros; cbn [int_loop]; walk.
Qed.
#[export] Hint Resolve adds_int_loop : adds.
Lemma adds_frac_loop : forall (fuel : nat) (part frac : f64), adds (frac_loop fuel part frac).
Proof.
  intros fuel. induction fuel as [|fuel IH]; intros; cbn [frac_loop]; walk.
Qed.
#[export] Hint Resolve adds_frac_loop : adds.
Lemma adds_exp_loop : forall (fuel : nat) (c e : Z), adds (exp_loop fuel c e).
Proof.
  intros fuel. induction fuel as [|fuel IH]; intros; cbn [exp_loop]; walk.
Qed.
#[export] Hint Resolve adds_exp_loop : adds.
Lemma adds_dim_loop : forall (fuel : nat) (c : Z) (dim : str), adds (dim_loop fuel c dim).
Proof.
  intros fuel. induction fuel as [|fuel IH]; intros; cbn [dim_loop]; walk.
Qed.
#[export] Hint Resolve adds_dim_loop : adds.
Lemma adds_lex_exponent : forall (c : Z), adds (lex_exponent c).
Proof. unfold lex_exponent. walk. Qed.
#[export] Hint Resolve adds_lex_exponent : adds.
Lemma adds_number : forall (lm : libm) (c0 : Z), adds (number lm c0).
Proof. unfold number. walk. Qed.
#[export] Hint Resolve adds_number : adds.
Lemma adds_hash_loop : forall (fuel : nat) (acc : str), adds (hash_loop fuel acc).
Proof.
  intros fuel. induction fuel as [|fuel IH]; intros; cbn [hash_loop]; walk.
Qed.
#[export] Hint Resolve adds_hash_loop : adds.
Lemma adds_hash : adds (hash).
Proof. unfold hash. walk. Qed.
#[export] Hint Resolve adds_hash : adds.
Lemma adds_c_comment_loop : forall (fuel : nat) (acc : str), adds (c_comment_loop fuel acc).
Proof.
  intros fuel. induction fuel as [|fuel IH]; intros; cbn [c_comment_loop]; walk.
Qed.
#[export] Hint Resolve adds_c_comment_loop : adds.
Lemma adds_skip_blanks : forall (fuel : nat), adds (skip_blanks fuel).
Proof.
  intros fuel. induction fuel as [|fuel IH]; intros; cbn [skip_blanks]; walk.
Qed.
#[export] Hint Resolve adds_skip_blanks : adds.
Lemma adds_cpp_comment_loop : forall (fuel : nat) (acc : str), adds (cpp_comment_loop fuel acc).
Proof.
  intros fuel. induction fuel as [|fuel IH]; intros; cbn [cpp_comment_loop]; walk.
Qed.
#[export] Hint Resolve adds_cpp_comment_loop : adds.
Lemma adds_comment : forall (c_style : bool), adds (comment c_style).
Proof. unfold comment. walk. Qed.
#[export] Hint Resolve adds_comment : adds.
Lemma adds_ur_loop : forall (k : nat) (d start end_ : Z) (mask : bool), adds (ur_loop k d start end_ mask).
Proof.
  intros k. induction k as [|k IH]; intros; cbn [ur_loop]; walk.
Qed.
#[export] Hint Resolve adds_ur_loop : adds.
Lemma adds_ur_end_loop : forall (k : nat) (d end_ : Z), adds (ur_end_loop k d end_).
Proof.
  intros k. induction k as [|k IH]; intros; cbn [ur_end_loop]; walk.
Qed.
#[export] Hint Resolve adds_ur_end_loop : adds.
Lemma adds_unicode_range : forall (d : Z), adds (unicode_range d).
Proof. unfold unicode_range. walk. Qed.
#[export] Hint Resolve adds_unicode_range : adds.
Lemma adds_var_loop : forall (fuel : nat) (c : Z) (acc : str), adds (var_loop fuel c acc).
Proof.
  intros fuel. induction fuel as [|fuel IH]; intros; cbn [var_loop]; walk.
Qed.
#[export] Hint Resolve adds_var_loop : adds.
Lemma adds_variable : forall (c : Z), adds (variable c).
Proof. unfold variable. walk. Qed.
#[export] Hint Resolve adds_variable : adds.
Lemma adds_whitespace : adds (whitespace).
Proof. unfold whitespace. walk. Qed.
#[export] Hint Resolve adds_whitespace : adds.
Lemma adds_eq_or : forall (a b : ntype), adds (eq_or a b).
Proof. unfold eq_or. walk. Qed.
#[export] Hint Resolve adds_eq_or : adds.
Lemma adds_invalid_char : adds (invalid_char).
Proof. unfold invalid_char. walk. Qed.
#[export] Hint Resolve adds_invalid_char : adds.
Lemma adds_some : forall (A : Type) (m : M A), (adds (m)) -> adds (@some A m).
Proof. unfold some. walk. Qed.
#[export] Hint Resolve adds_some : adds.
Lemma adds_dispatch : forall (lm : libm) (c : Z), adds (dispatch lm c).
Proof. unfold dispatch. walk. Qed.
#[export] Hint Resolve adds_dispatch : adds.
Lemma adds_mark_start : adds mark_start. Proof. at_once. Qed.
#[export] Hint Resolve adds_mark_start : adds.
Lemma adds_token_loop : forall (lm : libm) (fuel : nat), adds (token_loop lm fuel).
Proof.
  intros lm fuel. revert lm. induction fuel as [|fuel IH]; intros; cbn [token_loop]; walk.
Qed.
#[export] Hint Resolve adds_token_loop : adds.
Lemma adds_next_token : forall (lm : libm), adds (next_token lm).
Proof. unfold next_token. walk. Qed.
#[export] Hint Resolve adds_next_token : adds.
Lemma adds_lex_all_loop : forall (lm : libm) (fuel : nat), adds (lex_all_loop lm fuel).
Proof.
  intros lm fuel. revert lm. induction fuel as [|fuel IH]; intros; cbn [lex_all_loop]; walk.
Qed.
#[export] Hint Resolve adds_lex_all_loop : adds.
Lemma adds_lex_all : forall (lm : libm), adds (lex_all lm).
Proof. unfold lex_all. walk. Qed.
#[export] Hint Resolve adds_lex_all : adds.
