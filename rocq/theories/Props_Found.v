(** * C67, C72, C73: what the whole program does not keep

    Texts which are in the language of csspp, and what comes out of them,
    whatever the file system, the mathematical library and the selector scripts
    give. Each theorem is a counter-example to the property it is named after. *)

From Coq Require Import String ZArith List Bool Lia Floats.SpecFloat.
From Verif Require Import Base NodeHeap.
From Verif Require Lexer Parser Expr Functions Selector Assembler NodeText.
From Verif Require Import Compiler Compile Pipeline WholeSpec LaySpec StyleSpec.
From Verif Require Import VarSpec.
From Verif Require WholeMain WholeOne WholeVarMain Props_Vars.
Import ListNotations.
Open Scope string_scope. Open Scope list_scope. Open Scope Z_scope.

(** csspp on a text, with the scripts of the distribution. *)
Definition gives (t u : string) : Prop := forall env read checks,
  translate (mkOut env read checks scripts_metrics scripts_slash) 60 Assembler.COMPRESSED (zs t) = Ret (Some (zs u)) [].
Definition throws (t : string) (e : exn) : Prop := forall env read checks,
  exists m, translate (mkOut env read checks scripts_metrics scripts_slash) 60 Assembler.COMPRESSED (zs t) = Throw e m.
Ltac run := intros ? ? ?; vm_compute; reflexivity.
Ltac runs := intros ? ? ?; eexists; vm_compute; reflexivity.

(** C67. An at-rule in a rule is accepted by the parser and the compiler, and
    stops the assembler with an exception. *)
Theorem c67_nested_at_refuted : throws "a{b:c;@media print{d:e}}" XLogic /\ throws "a{@media screen{b{c:d}}}" XLogic.
Proof. split; runs. Qed.
(** So does a list of values in parentheses. *)
Theorem c67_array_refuted : throws "a{b:(1,2)}" XLogic.
Proof. runs. Qed.

(** And an at-rule in the block of another one which has rules. *)
Theorem c67_nested_media_refuted : throws "@media screen{i{c:d}@media print{b{e:f}}}" XLogic.
Proof. runs. Qed.

(** C72. "The declarations around a nested rule stay separate declarations": the
    ';' between them is lost, and what comes out is one declaration. *)
Theorem c72_around_refuted : gives "a{x:y;b{c:d};z:t}" "a{x:yz:t}a b{c:d}".
Proof. run. Qed.
(** The text is then read as a declaration named x. *)
Theorem c72_merged_refuted : forall env read checks,
  translate (mkOut env read checks scripts_metrics scripts_slash) 60 Assembler.COMPRESSED (zs "a{x:y;b{c:d};z:t}") <> translate (mkOut env read checks scripts_metrics scripts_slash) 60 Assembler.COMPRESSED (zs "a{x:y;z:t;b{c:d}}").
Proof.
  intros env read checks. rewrite (c72_around_refuted env read checks).
  assert (E : translate (mkOut env read checks scripts_metrics scripts_slash) 60 Assembler.COMPRESSED (zs "a{x:y;z:t;b{c:d}}") = Ret (Some (zs "a{x:y;z:t}a b{c:d}")) []) by (vm_compute; reflexivity).
  rewrite E. intro Q. injection Q as Q. discriminate Q.
Qed.
(** A rule with nothing but a nested rule is left empty; "no empty rule comes out" is false. *)
Theorem c72_empty_refuted : gives "a{b{c:d}}" "a{}a b{c:d}".
Proof. run. Qed.
(** Declarations before a nested rule are kept as they are. *)
Theorem c72_before_partial : gives "a{x:y;b{c:d}}" "a{x:y}a b{c:d}" /\ gives "a{x:y;z:t;b{c:d}e{f:g}}" "a{x:y;z:t}a b{c:d}a e{f:g}".
Proof. split; run. Qed.

(** C73. "Two values which are separate tokens of a declaration do not become one":
    a number and a signed number written side by side do. *)
Theorem c73_signed_refuted : gives "a{b:1+2}" "a{b:12}" /\ gives "a{b:1px+2px}" "a{b:1px2px}".
Proof. split; run. Qed.
(** What is after a list in parentheses: "every value of a declaration is used" is
    false, all but the first value in the parentheses is lost without a message. *)
Theorem c73_group_refuted : gives "a{b:(1px solid)}" "a{b:1px}" /\ gives "a{b:(1+2)}" "a{b:1}".
Proof. split; run. Qed.
(** A value before a parenthesis is glued to what is in it. *)
Theorem c73_glued_refuted : gives "a{grid:(a b) (c d)}" "a{grid:ac}" /\ gives "a{b:c (d e)}" "a{b:cd}".
Proof. split; run. Qed.

(** ** Nothing of a plain style sheet is lost

    Two plain style sheets, laid out in any way and written in any two of the
    styles, which come out as the same text are the same style sheet: the same
    selectors with the same parts in the same order, the same declarations with
    the same groups of the same values. Declarations are kept apart, values are
    kept apart, none is dropped and none changes place. *)
Definition plain_for (o : outside) (l : list rule) : Prop :=
  l <> [] /\ Forall rule_ok l /\ Forall (fun r => Forall (fun d => o_slash o (d_name d) = false) (r_decls r)) l
  /\ Z.of_nat (length (sheet_text l)) < 2 ^ 60.
Theorem c73_kept_partial : forall o l1 l2 t1 t2 m1 m2 u ms1 ms2 fuel,
  plain_for o l1 -> plain_for o l2 -> sheet_laid l1 t1 -> sheet_laid l2 t2 ->
  (8 * length (sheet_text l1) + 12 <= fuel)%nat -> (8 * length (sheet_text l2) + 12 <= fuel)%nat ->
  translate o fuel m1 t1 = Ret (Some u) ms1 -> translate o fuel m2 t2 = Ret (Some u) ms2 -> l1 = l2.
Proof.
  intros o l1 l2 t1 t2 m1 m2 u ms1 ms2 fuel (N1 & F1 & A1 & Z1) (N2 & F2 & A2 & Z2) L1 L2 U1 U2 E1 E2.
  rewrite (WholeMain.sheet_same o l1 t1 m1 fuel) in E1 by assumption. rewrite (WholeMain.sheet_same o l2 t2 m2 fuel) in E2 by assumption.
  assert (Q : sheet_styled m1 l1 = sheet_styled m2 l2) by congruence.
  apply (WholeOne.laid_one o l1 l2 (sheet_styled m1 l1)); try assumption; [now apply WholeMain.styled_sheet|]. rewrite Q. now apply WholeMain.styled_sheet.
Qed.
(** A text is a layout of one plain style sheet. *)
Theorem c69_unique : forall o l1 l2 t, plain_for o l1 -> plain_for o l2 -> sheet_laid l1 t -> sheet_laid l2 t -> l1 = l2.
Proof. intros o l1 l2 t (N1 & F1 & A1 & Z1) (N2 & F2 & A2 & Z2) L1 L2. now apply (WholeOne.laid_one o l1 l2 t). Qed.
(** In particular what comes out, in any style, is a layout of the style sheet it comes from and of no other. *)
Theorem c70_unique : forall o l l2 t m u ms fuel,
  plain_for o l -> plain_for o l2 -> sheet_laid l t -> (8 * length (sheet_text l) + 12 <= fuel)%nat ->
  translate o fuel m t = Ret (Some u) ms -> (sheet_laid l2 u <-> l2 = l).
Proof.
  intros o l l2 t m u ms fuel P P2 L U E. pose proof P as (N1 & F1 & A1 & Z1). rewrite (WholeMain.sheet_same o l t m fuel) in E by assumption. injection E as <- _.
  split; [|intros ->; now apply WholeMain.styled_sheet]. intro L2. apply (c69_unique o l2 l (sheet_styled m l)); try assumption. now apply WholeMain.styled_sheet.
Qed.
(** Scripts with variables which come out as the same text have the same rules
    once the variables are replaced. *)
Theorem c71_kept : forall o l1 r1 l2 r2 t1 t2 m1 m2 u ms1 ms2 fuel,
  Props_Vars.good o l1 r1 -> Props_Vars.good o l2 r2 -> script_laid l1 t1 -> script_laid l2 t2 ->
  (8 * (Props_Vars.script_size l1 + Props_Vars.script_size r1) + 12 <= fuel)%nat ->
  (8 * (Props_Vars.script_size l2 + Props_Vars.script_size r2) + 12 <= fuel)%nat ->
  translate o fuel m1 t1 = Ret (Some u) ms1 -> translate o fuel m2 t2 = Ret (Some u) ms2 -> styles r1 = styles r2.
Proof.
  intros o l1 r1 l2 r2 t1 t2 m1 m2 u ms1 ms2 fuel G1 G2 L1 L2 U1 U2 E1 E2.
  pose proof (Props_Vars.c71_plain o l1 r1 t1 G1 L1) as F1. pose proof (Props_Vars.c71_plain o l2 r2 t2 G2 L2) as F2.
  rewrite (Props_Vars.c71_variables o l1 r1 t1 m1 fuel G1 L1 U1) in E1. rewrite (Props_Vars.c71_variables o l2 r2 t2 m2 fuel G2 L2 U2) in E2.
  assert (Q : sheet_styled m1 (styles r1) = sheet_styled m2 (styles r2)) by congruence.
  destruct G1 as (_ & _ & N1 & A1 & _ & Z1), G2 as (_ & _ & N2 & A2 & _ & Z2). pose proof (Props_Vars.styles_size r1) as Y1. pose proof (Props_Vars.styles_size r2) as Y2. unfold Props_Vars.script_size in *.
  apply (c69_unique o (styles r1) (styles r2) (sheet_styled m1 (styles r1))); [split; [exact N1|split; [exact F1|split; [exact A1|lia]]]|split; [exact N2|split; [exact F2|split; [exact A2|lia]]]|now apply WholeMain.styled_sheet|]. rewrite Q. now apply WholeMain.styled_sheet.
Qed.
(** Declarations in the other order do not come out as the same text. *)
Theorem c72_order_partial : forall o s d1 d2 t1 t2 m1 m2 u ms1 ms2 fuel,
  plain_for o [mkRule s [d1; d2]] -> plain_for o [mkRule s [d2; d1]] ->
  sheet_laid [mkRule s [d1; d2]] t1 -> sheet_laid [mkRule s [d2; d1]] t2 ->
  (8 * length (sheet_text [mkRule s [d1; d2]]) + 12 <= fuel)%nat ->
  (8 * length (sheet_text [mkRule s [d2; d1]]) + 12 <= fuel)%nat ->
  translate o fuel m1 t1 = Ret (Some u) ms1 -> translate o fuel m2 t2 = Ret (Some u) ms2 -> d1 = d2.
Proof.
  intros o s d1 d2 t1 t2 m1 m2 u ms1 ms2 fuel P1 P2 L1 L2 U1 U2 E1 E2. assert (Q := c73_kept_partial o _ _ t1 t2 m1 m2 u ms1 ms2 fuel P1 P2 L1 L2 U1 U2 E1 E2). congruence.
Qed.

(** Two style sheets the theorems apply to. *)
Module ExampleFound.
  Definition w (s : string) : complex := mkComplex (mkCompound (Some (zs s)) []) [].
  Definition one : decl := mkDecl (zs "x") [[Word (zs "y"); Size 1 (zs "px")]] false.
  Definition two : decl := mkDecl (zs "z") [[Word (zs "t")]; [Size 2 []]] true.
  Definition sheet (a b : decl) : list rule := [mkRule [w "a"; w "b"] [a; b]].
  Ltac wd := cbn; repeat match goal with |- _ /\ _ => split | |- Forall _ _ => constructor end; unfold small, numeral; try lia.
  Example c73_ex : (forall o, (forall f, o_slash o f = scripts_slash f) -> plain_for o (sheet one two) /\ plain_for o (sheet two one))
    /\ sheet_text (sheet one two) = zs "a,b{x:y 1px;z:t,2!important}" /\ sheet_text (sheet two one) = zs "a,b{z:t,2!important;x:y 1px}".
  Proof.
    split; [|split; reflexivity]. intros o E.
    assert (D1 : decl_ok one) by (unfold decl_ok, decl_with, one; cbn [d_name d_groups]; split; [wd|split; [discriminate|split; [discriminate|]]]; constructor; [|constructor]; split; [discriminate|]; constructor; [|constructor; [|constructor]]; cbn; [split; [split; [unfold small; lia|constructor]|split; [vm_compute; intuition discriminate|vm_compute; reflexivity]]|split; [lia|wd]]).
    assert (D2 : decl_ok two) by (unfold decl_ok, decl_with, two; cbn [d_name d_groups]; split; [wd|split; [discriminate|split; [discriminate|]]]; constructor; [|constructor; [|constructor]]; (split; [discriminate|]); (constructor; [|constructor]); cbn; [split; [split; [unfold small; lia|constructor]|split; [vm_compute; intuition discriminate|vm_compute; reflexivity]]|split; [lia|constructor]]).
    assert (W : forall s, small (Z.of_N (Ascii.N_of_ascii s)) -> complex_ok (w (String s ""))).
    { intros s Q. split; [|cbn; lia]. constructor; [|constructor]. split; [split; [exact Q|constructor]|constructor]. }
    assert (S1 : o_slash o (d_name one) = false /\ o_slash o (d_name two) = false) by (rewrite !E; split; vm_compute; reflexivity).
    assert (Wa : complex_ok (w "a")) by (apply W; unfold small; cbn; lia). assert (Wb : complex_ok (w "b")) by (apply W; unfold small; cbn; lia).
    assert (G : forall a b, decl_ok a -> decl_ok b -> o_slash o (d_name a) = false -> o_slash o (d_name b) = false -> Z.of_nat (length (sheet_text (sheet a b))) < 2 ^ 60 -> plain_for o (sheet a b)).
    { intros a b Ha Hb Sa Sb L. split; [discriminate|]. split; [|split; [|exact L]]; (constructor; [|constructor]); cbn [r_selectors r_decls].
      - split; [discriminate|]. split; [exact (Forall_cons _ Wa (Forall_cons _ Wb (Forall_nil _)))|]. split; [discriminate|]. exact (Forall_cons _ Ha (Forall_cons _ Hb (Forall_nil _))).
      - exact (Forall_cons _ Sa (Forall_cons _ Sb (Forall_nil _))). }
    split; apply G; try assumption; try (vm_compute; reflexivity); tauto.
  Qed.
End ExampleFound.
