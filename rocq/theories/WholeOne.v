(** * A style sheet can be told from its nodes: two plain style sheets with the same
      compiled nodes are the same *)

From Coq Require Import String ZArith List Bool Lia Arith ZifyBool Floats.SpecFloat.
From Verif Require Import Base NodeHeap NodeProofs.
From Verif Require Lexer Parser Assembler Functions.
From Verif Require Import Compiler Compile CompRun Pipeline.
From Verif Require Import Trees WholeSpec LaySpec StyleSpec WholeShape WholeTree WholeMain.
Import ListNotations.
Open Scope string_scope. Open Scope list_scope. Open Scope Z_scope.
Ltac Zify.zify_post_hook ::= idtac.

Lemma map_one {A B} (P : A -> Prop) (f : A -> B) l1 l2 : (forall x y, P x -> P y -> f x = f y -> x = y) -> Forall P l1 -> Forall P l2 -> map f l1 = map f l2 -> l1 = l2.
Proof.
  intros H F1. revert l2. induction F1 as [|x l1 Hx F1 IH]; intros l2 F2 E; destruct l2 as [|y l2]; try discriminate; [reflexivity|]. cbn [map] in E. injection E as E1 E2.
  f_equal; [apply H; [exact Hx|exact (Forall_inv F2)|exact E1]|apply IH; [exact (Forall_inv_tail F2)|exact E2]].
Qed.
Lemma value_one v w : value_ok v -> value_ok w -> value_leaf v = value_leaf w -> v = w.
Proof. destruct v, w; cbn; try tauto; intros _ _ E; try discriminate; injection E; intros; subst; reflexivity. Qed.
Lemma group_one g1 g2 : g1 <> [] /\ Forall value_ok g1 -> g2 <> [] /\ Forall value_ok g2 -> group_leaves g1 = group_leaves g2 -> g1 = g2.
Proof.
  intros (N1 & F1) (N2 & F2). revert g2 N2 F2. induction F1 as [|v g1 V F1 IH]; intros g2 N2 F2 E; [congruence|]. destruct g2 as [|w g2]; [congruence|]. pose proof (Forall_inv F2) as W. apply Forall_inv_tail in F2.
  destruct g1 as [|v2 g1], g2 as [|w2 g2].
  - injection E as E. f_equal. now apply value_one.
  - discriminate E.
  - discriminate E.
  - change (group_leaves (v :: v2 :: g1)) with (value_leaf v :: sign WHITESPACE :: group_leaves (v2 :: g1)) in E. change (group_leaves (w :: w2 :: g2)) with (value_leaf w :: sign WHITESPACE :: group_leaves (w2 :: g2)) in E. injection E as E1 E2.
    f_equal; [now apply value_one|]. apply IH; [discriminate|discriminate|exact F2|exact E2].
Qed.
Lemma arg_one l1 l2 : arg_shape l1 = arg_shape l2 -> l1 = l2. Proof. unfold arg_shape. intro E. now injection E. Qed.
Lemma decl_one d1 d2 : decl_ok d1 -> decl_ok d2 -> done_decl d1 = done_decl d2 -> d1 = d2.
Proof.
  destruct d1 as [n1 g1 i1], d2 as [n2 g2 i2]. intros (_ & _ & _ & F1) (_ & _ & _ & F2) E. unfold done_decl in E. cbn [d_name d_groups d_important] in *. injection E as E1 E2 E3. f_equal; [exact E1| |destruct i1, i2; congruence].
  eapply (map_one _ (fun g => arg_shape (group_leaves g))); [|exact F1|exact F2|exact E3]. intros x y Px Py Q. apply arg_one in Q. now apply group_one.
Qed.
(** What may follow the marks of a compound. *)
Definition ends (r : list shape) : Prop := match r with [] => True | s :: _ => exists l, s = sign (link_type l) end.
Lemma marks_one m1 : forall m2 r1 r2, ends r1 -> ends r2 -> flat_map mark_leaves m1 ++ r1 = flat_map mark_leaves m2 ++ r2 -> m1 = m2 /\ r1 = r2.
Proof.
  assert (No : forall m l r1 r2, ends r2 -> flat_map mark_leaves (m :: l) ++ r1 = r2 -> False).
  { intros m l r1 r2 E Q. subst r2. destruct m; cbn in E; destruct E as (k & E); destruct k; discriminate. }
  induction m1 as [|m m1 IH]; intros m2 r1 r2 E1 E2 Q.
  - destruct m2 as [|m m2]; [auto|]. exfalso. exact (No _ _ _ _ E1 (eq_sym Q)).
  - destruct m2 as [|n m2]; [exfalso; exact (No _ _ _ _ E2 Q)|]. destruct m, n; cbn in Q; injection Q; intros; try discriminate; subst; destruct (IH m2 r1 r2 E1 E2) as (-> & ->); auto.
Qed.
Lemma compound_one k1 k2 r1 r2 : ends r1 -> ends r2 -> compound_leaves k1 ++ r1 = compound_leaves k2 ++ r2 -> k1 = k2 /\ r1 = r2.
Proof.
  assert (No : forall w l m r, ends r -> flat_map mark_leaves m ++ r = leaf IDENTIFIER w 0 :: l -> False).
  { intros w l m r E Q. destruct m as [|[x|x] m]; cbn in Q; [|discriminate|discriminate]. subst r. destruct E as (k & E). destruct k; discriminate. }
  destruct k1 as [n1 m1], k2 as [n2 m2]. unfold compound_leaves. cbn [k_name k_marks]. intros E1 E2 Q. rewrite <- !app_assoc in Q. destruct n1 as [w1|], n2 as [w2|]; cbn [app] in Q.
  - assert (Qt : flat_map mark_leaves m1 ++ r1 = flat_map mark_leaves m2 ++ r2) by now injection Q. assert (w1 = w2) by now injection Q. subst. destruct (marks_one m1 m2 r1 r2 E1 E2 Qt) as (-> & ->). auto.
  - exfalso. eapply No; [exact E2|symmetry; exact Q].
  - exfalso. eapply No; [exact E1|exact Q].
  - destruct (marks_one m1 m2 r1 r2 E1 E2 Q) as (-> & ->). auto.
Qed.
Lemma complex_one s1 s2 : complex_leaves s1 = complex_leaves s2 -> s1 = s2.
Proof.
  assert (En : forall l, ends (flat_map (fun x => sign (link_type (fst x)) :: compound_leaves (snd x)) l)) by (intros [|(x & k) l]; cbn; eauto).
  destruct s1 as [k1 l1], s2 as [k2 l2]. unfold complex_leaves. cbn [s_first s_more]. intro Q. destruct (compound_one _ _ _ _ (En l1) (En l2) Q) as (-> & Ql). f_equal. clear Q.
  revert l2 Ql. induction l1 as [|(x & k) l1 IH]; intros l2 Ql; destruct l2 as [|(y & q) l2]; try discriminate; [reflexivity|]. cbn [flat_map fst snd app] in Ql.
  assert (Qt : compound_leaves k ++ flat_map (fun x => sign (link_type (fst x)) :: compound_leaves (snd x)) l1 = compound_leaves q ++ flat_map (fun x => sign (link_type (fst x)) :: compound_leaves (snd x)) l2) by now injection Ql.
  assert (x = y) by (destruct x, y; try reflexivity; discriminate Ql). subst y. destruct (compound_one _ _ _ _ (En l1) (En l2) Qt) as (-> & Q2). now rewrite (IH _ Q2).
Qed.
Lemma rule_one r1 r2 : rule_ok r1 -> rule_ok r2 -> done_rule r1 = done_rule r2 -> r1 = r2.
Proof.
  destruct r1 as [s1 d1], r2 as [s2 d2]. intros (_ & _ & N1 & F1) (_ & _ & N2 & F2) E. unfold done_rule, inner in E. cbn [r_selectors r_decls] in *. injection E as E. apply app_inj_tail in E. destruct E as (Es & Ed). f_equal.
  - clear - Es. revert s2 Es. induction s1 as [|x s1 IH]; intros [|y s2] Es; try discriminate; [reflexivity|]. cbn [map] in Es. injection Es as E1 E2. f_equal; [now apply complex_one|auto].
  - assert (Q : match d1 with [d] => [done_decl d] | _ => [inner LIST (map done_decl d1)] end = match d2 with [d] => [done_decl d] | _ => [inner LIST (map done_decl d2)] end).
    { destruct d1 as [|a1 [|b1 d1]]; [congruence| |]; destruct d2 as [|a2 [|b2 d2]]; try congruence; apply (f_equal (fun s => match s with Shape _ _ _ _ l => l end)) in Ed; exact Ed. }
    clear Ed. destruct d1 as [|a1 [|b1 d1]]; [congruence| |]; destruct d2 as [|a2 [|b2 d2]]; try congruence; try (unfold done_decl, inner in Q; discriminate Q).
    + f_equal. apply decl_one; [exact (Forall_inv F1)|exact (Forall_inv F2)|]. exact (f_equal (fun l => hd (inner LIST []) l) Q).
    + apply (map_one decl_ok done_decl); [exact decl_one|exact F1|exact F2|]. apply (f_equal (fun l => match l with [Shape _ _ _ _ l] => l | _ => [] end)) in Q. exact Q.
Qed.
Lemma sheet_one l1 l2 : Forall rule_ok l1 -> Forall rule_ok l2 -> done_sheet l1 = done_sheet l2 -> l1 = l2.
Proof. intros F1 F2 E. unfold done_sheet, inner in E. injection E as E. apply (map_one rule_ok done_rule); [exact rule_one|exact F1|exact F2|exact E]. Qed.

(** ** A heap has one tree under an address *)
Lemma holds_one h T : holds h T -> forall T2, holds h T2 -> top T2 = top T -> tree_shape T2 = tree_shape T.
Proof.
  induction T as [a c l IH] using tree_rect'. intros H T2 H2 E. destruct T2 as [a2 c2 l2]. cbn [top] in E. subst a2. apply holds_inv in H. apply holds_inv in H2. destruct H as (H & F), H2 as (H2 & F2). rewrite H in H2.
  assert (Ec : with_ch c (map top l) = with_ch c2 (map top l2)) by congruence. assert (Em : map top l = map top l2) by (destruct c, c2; unfold with_ch in Ec; cbn in Ec; congruence). 
  assert (Et : map tree_shape l2 = map tree_shape l).
  { clear H H2 Ec. revert l2 F2 Em. induction IH as [|T l HT IH IHl]; intros l2 F2 Em; destruct l2 as [|T2 l2]; try discriminate; [reflexivity|]. cbn [map] in *. injection Em as E1 E2.
    f_equal; [apply HT; [exact (Forall_inv F)|exact (Forall_inv F2)|congruence]|apply IHl; [exact (Forall_inv_tail F)|exact (Forall_inv_tail F2)|exact E2]]. }
  cbn [tree_shape]. rewrite Et. destruct c, c2; unfold with_ch in Ec; cbn in *; congruence.
Qed.

(** ** A text is a layout of one plain style sheet *)
Section One.
Context (o : outside).
Definition fields_of (l : list rule) : Prop := Forall (fun r => Forall (fun d => o_slash o (d_name d) = false) (r_decls r)) l.
Theorem laid_one l1 l2 t : l1 <> [] -> Forall rule_ok l1 -> fields_of l1 -> l2 <> [] -> Forall rule_ok l2 -> fields_of l2 -> sheet_laid l1 t -> sheet_laid l2 t ->
  Z.of_nat (length (sheet_text l1)) < 2 ^ 60 -> Z.of_nat (length (sheet_text l2)) < 2 ^ 60 -> l1 = l2.
Proof.
  intros N1 F1 A1 N2 F2 A2 L1 L2 Z1 Z2. set (fuel := (8 * length (sheet_text l1) + 12 + (8 * length (sheet_text l2) + 12))%nat).
  destruct (sheet_read o l1 t N1 F1 L1) as (h & T & E & H & Sh & Nd). destruct (sheet_read o l2 t N2 F2 L2) as (h' & T' & E' & H' & Sh' & Nd').
  rewrite E in E'. assert (top T' = top T) by congruence. assert (h' = h) by congruence. subst h'. clear E E'.
  destruct (sheet_passes o (functions_of o default_paths fuel) fuel h [] default_paths T l1 N1 F1 A1 H Sh Nd Z1 ltac:(lia)) as (x & X & E & Hx & Sx & Tx).
  destruct (sheet_passes o (functions_of o default_paths fuel) fuel h [] default_paths T' l2 N2 F2 A2 H' Sh' Nd' Z2 ltac:(lia)) as (y & Y & E' & Hy & Sy & Ty).
  rewrite H0 in E'. rewrite E in E'. assert (y = x) by congruence. subst y. apply sheet_one; [exact F1|exact F2|]. rewrite <- Sx, <- Sy. apply (holds_one x); [exact Hy|exact Hx|congruence].
Qed.
End One.
