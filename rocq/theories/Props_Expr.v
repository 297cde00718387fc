(** * Properties of expressions: operators (C32 to C41) *)

From Coq Require Import String ZArith List Bool Lia Arith ZifyBool Floats.SpecFloat Reals.
From Verif Require Import Base UnicodeRange NodeHeap Color FloatBits FloatFacts Dim Expr ExprSpec ExprRun.
Import ListNotations.
Open Scope string_scope. Open Scope list_scope. Open Scope Z_scope.
Ltac Zify.zify_post_hook ::= idtac.

(** ** C33 Addition requires equal units *)
(** Two integers: the exact sum or difference, when it fits in 64 bits. *)
Theorem c33_integers_partial : forall s a b ca cb x y u (sub : bool),
  node_at s a ca -> node_at s b cb -> int_node ca x u -> int_node cb y u ->
  let v := if sub then x - y else x + y in
  -9223372036854775808 <= v <= 9223372036854775807 ->
  gives (add a b sub) s (fun c => int_node c v u).
Proof.
  intros s a b ca cb x y u sub Ha Hb (Ta & Va & Ua) (Tb & Vb & Ub) v Hv. subst x y u.
  eapply gives_fresh.
  - unfold add. steps. rewrite Ta, Tb. unfold add_types. cbv iota. steps. unfold add_numbers. steps. rewrite Ub. rewrite str_eqb_refl. cbn [negb]. steps.
    change (ntype_eqb INTEGER PERCENT) with false. cbv iota. steps. fold v. unfold int64. replace (int64_ok v) with true by (unfold int64_ok; lia). steps. reflexivity.
  - repeat split.
Qed.

Lemma wrong_unit s a b ca cb t v : node_at s a ca -> node_at s b cb -> has_str (c_type ca) = true -> has_str (c_type cb) = true ->
  c_str ca <> c_str cb -> refuses (add_numbers a b t true v) s.
Proof.
  intros Ha Hb Sa Sb N. eapply refuses_here. unfold add_numbers. steps.
  replace (str_eqb (c_str ca) (c_str cb)) with false by (symmetry; now apply str_eqb_neq). cbn [negb]. cbv iota. reflexivity.
Qed.
Ltac hs := match goal with T : c_type ?c = _ |- context [c_type ?c] => rewrite T; reflexivity end.

(** The kind of the result: an integer when both numbers are integers. *)
Theorem c33_decimals : forall s a b ca cb x y u (sub : bool),
  node_at s a ca -> node_at s b cb -> number ca x u -> number cb y u ->
  (forall i j, x = inl i -> y = inl j -> False) ->
  gives (add a b sub) s (fun c => dec_node c (if sub then f64_sub (as_double x) (as_double y) else f64_add (as_double x) (as_double y)) u).
Proof.
  intros s a b ca cb x y u sub Ha Hb Na Nb Hne.
  destruct Na as [ca x u (Ta & Va & Ua)|ca x u (Ta & Va & Ua)]; inversion Nb as [c' y' u' (Tb & Vb & Ub)|c' y' u' (Tb & Vb & Ub)]; subst.
  1:{ exfalso. eapply Hne; reflexivity. }
  all: eapply gives_fresh;
    [unfold add; steps; rewrite Ta, Tb; unfold add_types; cbv iota; steps; unfold add_numbers; steps;
     first [rewrite Ub | rewrite Ua]; rewrite str_eqb_refl; cbn [negb]; steps;
     change (ntype_eqb DECIMAL_NUMBER PERCENT) with false; cbv iota; steps; reflexivity
    |repeat split].
Qed.
(** In terms of real numbers: the exact result, rounded to the nearest double. *)
Theorem c33_decimals_rounded : forall s a b ca cb x y u (sub : bool),
  node_at s a ca -> node_at s b cb -> dec_node ca x u -> dec_node cb y u ->
  f64_valid x -> f64_finite x -> f64_valid y -> f64_finite y ->
  let v := (if sub then f64_R x - f64_R y else f64_R x + f64_R y)%R in
  (Rabs (rnd v) < powerRZ 2 1024)%R ->
  gives (add a b sub) s (fun c => exists d, dec_node c d u /\ f64_finite d /\ f64_R d = rnd v).
Proof.
  intros s a b ca cb x y u sub Ha Hb Na Nb Vx Fx Vy Fy v Hv.
  destruct (c33_decimals s a b ca cb (inr x) (inr y) u sub Ha Hb) as (r & s' & c & E1 & E2 & E3 & E4 & E5).
  - now constructor. - now constructor. - intros i j X; discriminate X.
  - exists r, s', c. repeat split; auto. eexists. split; [exact E3|]. cbn [as_double]. subst v. destruct sub.
    + destruct (f64_sub_spec x y Vx Fx Vy Fy Hv) as (_ & F & R). auto.
    + destruct (f64_add_spec x y Vx Fx Vy Fy Hv) as (_ & F & R). auto.
Qed.
(** Different units: an error and no value. *)
Theorem c33_units : forall s a b ca cb x y u w sub,
  node_at s a ca -> node_at s b cb -> number ca x u -> number cb y w -> u <> w -> refuses (add a b sub) s.
Proof.
  intros s a b ca cb x y u w sub Ha Hb Na Nb Hne.
  destruct Na as [ca x u (Ta & Va & Ua)|ca x u (Ta & Va & Ua)]; destruct Nb as [cb y w (Tb & Vb & Ub)|cb y w (Tb & Vb & Ub)]; subst;
  match goal with |- refuses ?m s =>
    assert (K : exists t v, add a b sub s = add_numbers a b t true v s)
      by (eexists _, _; unfold add; steps; rewrite Ta, Tb; unfold add_types; cbv iota; steps; reflexivity);
    destruct K as (t & v & K); destruct (wrong_unit s a b ca cb t v Ha Hb) as (s' & x & K1 & K2);
    [hs|hs|assumption|exists s', x; rewrite K; auto] end.
Qed.
Theorem c33_percents : forall s a b ca cb x y (sub : bool),
  node_at s a ca -> node_at s b cb -> percent_node ca x -> percent_node cb y ->
  gives (add a b sub) s (fun c => percent_node c (if sub then f64_sub x y else f64_add x y)).
Proof.
  intros s a b ca cb x y sub Ha Hb (Ta & Va) (Tb & Vb). subst. eapply gives_fresh.
  - unfold add. steps. rewrite Ta, Tb. unfold add_types. cbv iota. steps. unfold add_numbers. steps.
    change (ntype_eqb PERCENT PERCENT) with true. cbn [negb]. cbv iota. steps. reflexivity.
  - repeat split.
Qed.
(** A number and a percentage, or a number and a string, are never added. *)
Definition addable (t u : ntype) : bool :=
  match t, u with
  | STRING, STRING | INTEGER, INTEGER | INTEGER, DECIMAL_NUMBER | DECIMAL_NUMBER, INTEGER | DECIMAL_NUMBER, DECIMAL_NUMBER
  | PERCENT, PERCENT | COLOR, COLOR | COLOR, INTEGER | COLOR, DECIMAL_NUMBER | INTEGER, COLOR | DECIMAL_NUMBER, COLOR => true
  | _, _ => false
  end.
Theorem c33_other_types : forall s a b ca cb sub,
  node_at s a ca -> node_at s b cb -> addable (c_type ca) (c_type cb) = false -> refuses (add a b sub) s.
Proof.
  intros s a b ca cb sub Ha Hb H. eapply refuses_here. unfold add. steps. unfold add_types.
  destruct (c_type ca); destruct (c_type cb); try discriminate H; reflexivity.
Qed.
Example c33_ex : exists ca cb, node_at (mkE (tokens [num 3 "px"; num 5 "px"]) [] 0%nat 0 (-1) None [] false) 1%nat ca
  /\ node_at (mkE (tokens [num 3 "px"; num 5 "px"]) [] 0%nat 0 (-1) None [] false) 2%nat cb
  /\ int_node ca 3 (zs "px") /\ int_node cb 5 (zs "px") /\ number ca (inl 3) (zs "px") /\ addable PERCENT INTEGER = false.
Proof. eexists _, _. split; [reflexivity|]. split; [reflexivity|]. split; [repeat split|]. split; [repeat split|]. split; [apply number_int; repeat split|reflexivity]. Qed.
