(** * Tactics for the lexer proofs *)

From Coq Require Import String ZArith List Bool Lia Arith ZifyBool.
From Verif Require Import Base Utf8 Utf8Spec UnicodeRange Lexer Utf8Proofs LexerWp.
Import ListNotations.
Open Scope Z_scope.

Ltac Zify.zify_post_hook ::= idtac.

Lemma w_le c : (w c <= 1)%nat.
Proof. unfold w. destruct (c =? -1); lia. Qed.
Lemma w_one c : c <> -1 -> w c = 1%nat.
Proof. unfold w. destruct (c =? -1) eqn:E; b2p; lia. Qed.

Ltac mergeq :=
  match goal with
  | K : okst ?cl ?a ?b, H : okst ?cl ?b ?c |- _ =>
      let N := fresh "K" in
      pose proof (okst_trans cl a b c K H) as N; clear K H
  end.

(** Linear arithmetic on the measures only. *)
Ltac li :=
  repeat match goal with
  | H : _ = true |- _ => clear H
  | H : _ = false |- _ => clear H
  | H : char_ok _ _ |- _ => clear H
  | H : @eq str _ _ |- _ => clear H
  | H : okst _ _ _ |- _ => clear H
  | H : valid _ _ |- _ => clear H
  | H : ?P -> ?Q |- _ => match type of P with Prop => clear H end
  | H : forall _, _ |- _ => clear H
  end; lia.

(** Does the test [E] say that a character is not EOF? *)
Ltac noteof E :=
  repeat match goal with
  | W : (w ?c <= 1)%nat |- _ =>
      match type of E with context [c] => idtac end;
      assert (w c = 1%nat) by (apply w_one; clear -E;
        unfold is_identifier, is_variable, is_start_identifier, is_hex,
                is_hash_character, is_non_printable, is_space, char_ok, is_digit, is_upper,
                is_lower in *; lia);
      clear W
  end.

Ltac st :=
  lazymatch goal with
  | |- wp _ _ (bind _ _) _ _ => apply wp_bind
  | |- wp _ _ (ret _) _ _ => apply wp_ret
  | |- wp _ _ getc _ _ =>
      apply wp_getc; [val|];
      let c := fresh "c" in let s := fresh "s" in
      intros c s ? ? ? ? ? ?; pose proof (w_le c); mergeq
  | |- wp _ _ (ungetc ?c) _ _ =>
      apply wp_ungetc; [val|assumption || (left; assumption) || (left; unfold char_ok; right; lia)
                       |li|intros ? ? ? ? ?; mergeq;
      try match goal with H : context [w (Zpos ?p)] |- _ => change (w (Zpos p)) with 1%nat in * end]
  | |- wp _ _ (err _) _ _ => apply wp_err; [val|intros ? ? ? ? ?; mergeq]
  | |- wp _ _ (emit _ _ _) _ _ => apply wp_emit; [val|intros ? ? ? ? ?; mergeq]
  | |- wp _ _ (wctomb_m _) _ _ => apply wp_wctomb; [val|intros ? ? ? ? ?; mergeq]
  | |- wp _ _ (new_node _) _ _ => apply wp_new_node
  | |- wp _ _ (with_fuel _) _ _ => apply wp_with_fuel; intros ? ?
  | |- wp _ _ (some _) _ _ => unfold some
  | |- wp _ _ (if ?b then _ else _) _ _ =>
      let E := fresh "E" in destruct b eqn:E; noteof E
  | |- wp _ _ (let '(_, _) := ?r in _) _ _ => destruct r
  end.
Ltac st_escape :=
    eapply wp_mono; [apply wp_escape; [val|li]|];
    let c := fresh "c" in let s' := fresh "s" in
    let H := fresh in
    intros c s' (? & ? & ? & ? & H); pose proof (w_le c); mergeq.
