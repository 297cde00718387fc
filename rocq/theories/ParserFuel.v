(** * More fuel does not change what the parser does *)

From Coq Require Import String ZArith List Bool Lia Arith.
From Verif Require Import Base Parser.
Import ListNotations.
Open Scope string_scope. Open Scope list_scope. Open Scope nat_scope.

(** [m2] does what [m1] does whenever [m1] has enough fuel. *)
Definition below {A} (m1 m2 : P A) : Prop := forall s, m1 s = NoFuel \/ m2 s = m1 s.
Lemma below_refl {A} (m : P A) : below m m.
Proof. intro s. auto. Qed.
Lemma below_bind {A B} (m1 m2 : P A) (f1 f2 : A -> P B) : below m1 m2 -> (forall a, below (f1 a) (f2 a)) -> below (bind m1 f1) (bind m2 f2).
Proof.
  intros H K s. unfold bind. destruct (H s) as [E|E]; [rewrite E; auto|]. rewrite E.
  destruct (m1 s); auto. apply K.
Qed.
Lemma below_none {A} (m : P A) : below (fun _ => NoFuel) m.
Proof. intro s. auto. Qed.

Ltac bel := repeat match goal with
  | |- below ?m ?m => apply below_refl
  | |- below (fun _ => NoFuel) _ => apply below_none
  | |- below (bind _ _) (bind _ _) => apply below_bind; [|intros ?]
  | |- below (if ?b then _ else _) (if ?b then _ else _) => destruct b
  | |- below (match ?x with _ => _ end) (match ?x with _ => _ end) => destruct x
  | H : forall _, _ |- below _ _ => solve [apply H]
  end.

Lemma fuel_step f : forall g, f <= g -> (forall fl rp cp d c, below (cv_loop f fl rp cp d c) (cv_loop g fl rp cp d c))
  /\ (forall n, below (at_rule f n) (at_rule g n))
  /\ (forall n, below (component_value f n) (component_value g n))
  /\ (forall n c, below (block f n c) (block g n c))
  /\ (forall n, below (block_list f n) (block_list g n)).
Proof.
  induction f as [|f IH]; intros g L; [repeat split; intros; cbn; bel|].
  destruct g as [|g]; [lia|]. assert (Lg : f <= g) by lia. destruct (IH g Lg) as (A & B & C & D & E). clear IH.
  split; [|split; [|split; [|split]]]; intros; cbn [cv_loop at_rule component_value block block_list].
  - apply below_bind; [apply below_refl|]. intro a. bel.
  - bel.
  - bel.
  - bel.
  - bel.
Qed.
Lemma fuel_at f g n : f <= g -> below (at_rule f n) (at_rule g n).
Proof. intro L. apply (fuel_step f g L). Qed.
Lemma fuel_cvl f g fl : f <= g -> below (component_value_list f fl) (component_value_list g fl).
Proof. intro L. unfold component_value_list. apply below_bind; [apply below_refl|]. intro a. apply (fuel_step f g L). Qed.
Lemma fuel_qualified f g : f <= g -> below (qualified_rule f) (qualified_rule g).
Proof. intro L. unfold qualified_rule. pose proof (fuel_cvl f g (mkFlags false true) L) as H. bel. exact H. Qed.
Lemma fuel_stylesheet_loop f : forall g acc, f <= g -> below (stylesheet_loop f acc) (stylesheet_loop g acc).
Proof.
  induction f as [|f IH]; intros g acc L; [apply below_none|]. destruct g as [|g]; [lia|]. assert (Lg : f <= g) by lia.
  cbn [stylesheet_loop]. apply below_bind; [apply below_refl|]. intro a.
  pose proof (fun n => fuel_at f g n Lg) as H1. pose proof (fuel_qualified f g Lg) as H2.
  assert (H3 : forall acc, below (stylesheet_loop f acc) (stylesheet_loop g acc)) by (intros; now apply IH).
  bel; exact H2.
Qed.
Lemma fuel_rule f g : f <= g -> below (rule f) (rule g).
Proof.
  intro L. pose proof (fun n => fuel_at f g n L) as H1. pose proof (fuel_qualified f g L) as H2. unfold rule. bel; exact H2.
Qed.
Lemma fuel_rule_list_loop f : forall g acc, f <= g -> below (rule_list_loop f acc) (rule_list_loop g acc).
Proof.
  induction f as [|f IH]; intros g acc L; [apply below_none|]. destruct g as [|g]; [lia|]. assert (Lg : f <= g) by lia.
  cbn [rule_list_loop]. pose proof (fuel_rule f g Lg) as H2.
  assert (H3 : forall acc, below (rule_list_loop f acc) (rule_list_loop g acc)) by (intros; now apply IH).
  apply below_bind; [apply below_refl|]. intro a. bel; exact H2.
Qed.
Lemma fuel_declaration_loop f : forall g acc, f <= g -> below (declaration_loop f acc) (declaration_loop g acc).
Proof.
  induction f as [|f IH]; intros g acc L; [apply below_none|]. destruct g as [|g]; [lia|]. assert (Lg : f <= g) by lia.
  cbn [declaration_loop]. pose proof (fun n => fuel_at f g n Lg) as H1. pose proof (fuel_cvl f g (mkFlags true false) Lg) as H2.
  assert (H3 : forall acc, below (declaration_loop f acc) (declaration_loop g acc)) by (intros; now apply IH).
  apply below_bind; [apply below_refl|]. intro a. unfold declaration. bel; exact H2.
Qed.
Lemma fuel_stylesheet f g : f <= g -> below (stylesheet f) (stylesheet g).
Proof. intro L. pose proof (fun acc => fuel_stylesheet_loop f g acc L) as H. unfold stylesheet. bel. Qed.
Lemma fuel_rule_list f g : f <= g -> below (rule_list f) (rule_list g).
Proof. intro L. pose proof (fun acc => fuel_rule_list_loop f g acc L) as H. unfold rule_list. bel. Qed.
Lemma fuel_declaration_list f g : f <= g -> below (declaration_list f) (declaration_list g).
Proof. intro L. pose proof (fun acc => fuel_declaration_loop f g acc L) as H. unfold declaration_list. bel. Qed.
