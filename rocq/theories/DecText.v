(** * Decimal notation of integers (std::to_string, operator << ) *)

From Coq Require Import ZArith List Bool Lia.
From Verif Require Import Base TextSpec.
Import ListNotations.
Open Scope Z_scope.

Fixpoint dec_digits (fuel : nat) (v : Z) (acc : str) : str :=
  match fuel with
  | O => acc
  | S f =>
      let acc' := (48 + v mod 10) :: acc in
      if v / 10 =? 0 then acc' else dec_digits f (v / 10) acc'
  end.
(** A natural number; 64 digits are more than enough for all the integer
    types. *)
Definition nat_text (v : Z) : str := dec_digits 64 v [].
(** A signed integer. *)
Definition int_text (v : Z) : str := if v <? 0 then 45 :: nat_text (- v) else nat_text v.

Lemma decimal_from l : forall i, fold_left (fun a d => 10 * a + (d - 48)) l i = i * 10 ^ Z.of_nat (length l) + decimal l.
Proof.
  induction l as [|c l IH]; intro i; [cbn; lia|]. cbn [fold_left length]. unfold decimal. cbn [fold_left].
  rewrite IH, (IH (10 * 0 + (c - 48))). rewrite Nat2Z.inj_succ, Z.pow_succ_r by lia. ring.
Qed.

Lemma decimal_app a b : decimal (a ++ b) = decimal a * 10 ^ Z.of_nat (length b) + decimal b.
Proof. unfold decimal at 1. rewrite fold_left_app. fold (decimal a). apply decimal_from. Qed.

Lemma dec_digits_spec f : forall v acc, 0 <= v < 10 ^ Z.of_nat f -> (0 < f)%nat ->
  exists h, dec_digits f v acc = h ++ acc /\ Forall digit h /\ decimal h = v /\ h <> []
    /\ (v <> 0 -> first h <> 48) /\ (v = 0 -> h = [48]).
Proof.
  induction f as [|f IH]; intros v acc Hv Hf; [lia|]. cbn [dec_digits].
  assert (Hm : 0 <= v mod 10 < 10) by (apply Z.mod_pos_bound; lia).
  rewrite Nat2Z.inj_succ, Z.pow_succ_r in Hv by lia.
  assert (Hd1 : digit (48 + v mod 10)) by (unfold digit; lia).
  assert (Hdm : v = 10 * (v / 10) + v mod 10) by (apply Z.div_mod; lia).
  destruct (v / 10 =? 0) eqn:E.
  - apply Z.eqb_eq in E. exists [48 + v mod 10]. cbn [app first].
    split; [reflexivity|]. split; [now constructor|]. unfold decimal. cbn [fold_left].
    split; [lia|]. split; [discriminate|]. split; [lia|]. intros ->. reflexivity.
  - apply Z.eqb_neq in E.
    assert (Hd : 0 <= v / 10 < 10 ^ Z.of_nat f) by (split; [apply Z.div_pos; lia|apply Z.div_lt_upper_bound; lia]).
    assert (0 < f)%nat by (destruct f; [cbn in Hd; lia|lia]).
    destruct (IH (v / 10) ((48 + v mod 10) :: acc) Hd ltac:(lia)) as (h & E1 & E2 & E3 & E4 & E5 & E6).
    exists (h ++ [48 + v mod 10]). rewrite <- app_assoc. split; [exact E1|].
    split; [apply Forall_app; split; [assumption|now constructor]|].
    rewrite decimal_app, E3. unfold decimal. cbn [fold_left length].
    split; [change (10 ^ Z.of_nat 1) with 10; lia|]. split; [now destruct h|].
    split; [|intros ->; cbn in E; lia]. intros _. destruct h as [|x h]; [congruence|]. apply E5. assumption.
Qed.

(** The text of a number is made of digits, its value is the number and it has
    no superfluous zero. *)
Lemma nat_text_spec v : 0 <= v < 10 ^ 64 ->
  Forall digit (nat_text v) /\ decimal (nat_text v) = v /\ nat_text v <> []
  /\ (v <> 0 -> first (nat_text v) <> 48) /\ (v = 0 -> nat_text v = [48]).
Proof.
  intro H. unfold nat_text. destruct (dec_digits_spec 64 v [] H ltac:(lia)) as (h & E1 & E2).
  rewrite E1, app_nil_r. exact E2.
Qed.
