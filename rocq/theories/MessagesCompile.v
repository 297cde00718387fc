(** * What the rules and the at-rules report is only ever added to the messages *)

From Coq Require Import String Ascii ZArith List Bool Floats.SpecFloat.
From Verif Require Import Base NodeHeap.
From Verif Require Parser Expr Selector FloatBits MessagesExpr.
From Verif Require Import MessagesParser.
From Verif Require Import MessagesCompiler.
From Verif Require Import Compiler Compile.
From Verif Require Import MessagesExpr.
Import ListNotations.
Open Scope string_scope. Open Scope list_scope. Open Scope Z_scope.

Notation adds := (only_adds k_msgs).
Notation adds_e := (only_adds Expr.e_msgs).
(** The rules: the functions and files of their compiler, and the parser of selectors. *)
Definition rules_add (k : rules) : Prop := world_adds (r_world k) /\ forall x n, adds (r_selector k x n).
Lemma rules_world k : rules_add k -> world_adds (r_world k). Proof. now intros (H & _). Qed.
Lemma rules_selector k x n : rules_add k -> adds (r_selector k x n). Proof. intros (_ & H). apply H. Qed.
Lemma rules_functions k x : rules_add k -> fn_adds (w_functions (r_world k) x). Proof. intros (H & _). now apply MessagesCompiler.world_functions. Qed.
#[export] Hint Resolve rules_world rules_selector rules_functions : adds.
Ltac walk :=
  intros; cbv zeta;
  lazymatch goal with
  | |- only_adds _ (bind _ _) => apply MessagesCompiler.adds_bind; [walk|walk]
  | |- only_adds _ (Expr.bind _ _) => apply MessagesExpr.adds_bind; [walk|walk]
  | |- only_adds _ (match ?x with _ => _ end) => destruct x; walk
  | |- only_adds _ _ => auto 12 with adds
  | |- _ => idtac
  end.
Lemma adds_expr_warn p t : adds_e (expr_warn p t). Proof. intro s. cbn. eauto. Qed.
#[export] Hint Resolve adds_expr_warn : adds.
Lemma adds_take_flag parent : adds_e (take_flag parent).
Proof. unfold take_flag. walk. exact (MessagesExpr.adds_at (fun s => Expr.lift (remove_child (Expr.e_node s) _)) (fun s => MessagesExpr.adds_lift _)). Qed.
#[export] Hint Resolve adds_take_flag : adds.
Lemma adds_list_loop : forall (fuel : nat) (cond : Expr.E (option addr)) (parent : addr), (adds_e (cond)) -> adds_e (list_loop fuel cond parent).
Proof.
  intros fuel. induction fuel as [|fuel IH]; intros; cbn [list_loop]; walk.
Qed.
#[export] Hint Resolve adds_list_loop : adds.
Lemma adds_compile_list : forall (lm : libm) (fn : Expr.functions) (fuel : nat) (parent : addr), fn_adds fn -> adds_e (compile_list lm fn fuel parent).
Proof. unfold compile_list. walk. Qed.
#[export] Hint Resolve adds_compile_list : adds.
Lemma adds_args_loop : forall (lm : libm) (fn : Expr.functions) (fuel : nat) (font : bool) (n : addr) (i : Z) (k : nat), fn_adds fn -> adds_e (args_loop lm fn fuel font n i k).
Proof.
  intros lm fn fuel font n i k. revert lm fn fuel font n i. induction k as [|k IH]; intros; cbn [args_loop]; walk.
Qed.
#[export] Hint Resolve adds_args_loop : adds.
Lemma adds_compile_args : forall (lm : libm) (fn : Expr.functions) (fuel : nat) (font : bool) (n : addr), fn_adds fn -> adds_e (compile_args lm fn fuel font n).
Proof. unfold compile_args. walk. Qed.
#[export] Hint Resolve adds_compile_args : adds.
Lemma adds_count_type : forall (t : ntype) (l : list addr), adds (count_type t l).
Proof.
  intros t l. revert t. induction l as [|x0_ l IH]; intros; cbn [count_type]; walk.
Qed.
#[export] Hint Resolve adds_count_type : adds.
Lemma adds_is_nested_declaration : forall (n : addr), adds (is_nested_declaration n).
Proof. unfold is_nested_declaration. walk. Qed.
#[export] Hint Resolve adds_is_nested_declaration : adds.
Lemma adds_result_loop : forall (stop : bool) (f : option addr -> addr -> C (option addr)) (n : addr) (fuel : nat) (idx : Z) (r : option addr), (forall y0 y1, adds (f y0 y1)) -> adds (result_loop stop f n fuel idx r).
Proof.
  intros stop f n fuel. revert stop f n. induction fuel as [|fuel IH]; intros; cbn [result_loop]; walk.
Qed.
#[export] Hint Resolve adds_result_loop : adds.
Lemma adds_field_name : forall (n : addr), adds (field_name n).
Proof. unfold field_name. walk. Qed.
#[export] Hint Resolve adds_field_name : adds.
Lemma adds_move_values : forall (n d : addr) (k : nat), adds (move_values n d k).
Proof.
  intros n d k. revert n d. induction k as [|k IH]; intros; cbn [move_values]; walk.
Qed.
#[export] Hint Resolve adds_move_values : adds.
Lemma adds_new_declaration : forall (n id : addr), adds (new_declaration n id).
Proof. unfold new_declaration. walk. Qed.
#[export] Hint Resolve adds_new_declaration : adds.
Lemma adds_has_sub_fields : forall (l : list addr), adds (has_sub_fields l).
Proof.
  intros l. induction l as [|x0_ l IH]; intros; cbn [has_sub_fields]; walk.
Qed.
#[export] Hint Resolve adds_has_sub_fields : adds.
Lemma adds_compile_expressions : forall (k : rules) (fuel : nat) (x : ctx) (d : addr), rules_add k -> adds (compile_expressions k fuel x d).
Proof. unfold compile_expressions. walk. Qed.
#[export] Hint Resolve adds_compile_expressions : adds.
Lemma adds_compile_declaration : forall (k : rules) (fuel : nat) (values : ctx -> option addr -> addr -> C (option addr)) (x : ctx) (r : option addr) (n : addr), rules_add k -> (forall y0 y1 y2, adds (values y0 y1 y2)) -> adds (compile_declaration k fuel values x r n).
Proof. unfold compile_declaration. walk. Qed.
#[export] Hint Resolve adds_compile_declaration : adds.
Lemma adds_at_charset : forall (parent n : addr), adds (at_charset parent n).
Proof. unfold at_charset. walk. Qed.
#[export] Hint Resolve adds_at_charset : adds.
Lemma adds_first_expression : forall (n : addr), adds (first_expression n).
Proof. unfold first_expression. walk. Qed.
#[export] Hint Resolve adds_first_expression : adds.
Lemma adds_at_message w l d parent n expr : adds (at_message w l d parent n expr).
Proof. unfold at_message. walk. intro s. apply MessagesCompiler.adds_say. Qed.
#[export] Hint Resolve adds_at_message : adds.
Lemma adds_frame_position : forall (p : position) (a : addr), adds (frame_position p a).
Proof. unfold frame_position. walk. Qed.
#[export] Hint Resolve adds_frame_position : adds.
Lemma adds_frame_content : forall (p : position) (q : position) (cv : addr), adds (frame_content p q cv).
Proof. unfold frame_content. walk. Qed.
#[export] Hint Resolve adds_frame_content : adds.
Lemma adds_frames_loop : forall (compile : option addr -> addr -> C (option addr)) (p q : position) (l : addr) (positions : list addr) (r : option addr), (forall y0 y1, adds (compile y0 y1)) -> adds (frames_loop compile p q l positions r).
Proof.
  intros compile p q l positions. revert compile p q l. induction positions as [|x0_ positions IH]; intros; cbn [frames_loop]; walk.
Qed.
#[export] Hint Resolve adds_frames_loop : adds.
Lemma adds_at_keyframes : forall (compile : option addr -> addr -> C (option addr)) (r : option addr) (n : addr), (forall y0 y1, adds (compile y0 y1)) -> adds (at_keyframes compile r n).
Proof. unfold at_keyframes. walk. Qed.
#[export] Hint Resolve adds_at_keyframes : adds.
Lemma adds_at_block : forall (value at_ : ctx -> option addr -> addr -> C (option addr)) (fuel : nat) (x : ctx) (r : option addr) (n : addr), (forall y0 y1 y2, adds (value y0 y1 y2)) -> (forall y0 y1 y2, adds (at_ y0 y1 y2)) -> adds (at_block value at_ fuel x r n).
Proof. unfold at_block. walk. Qed.
#[export] Hint Resolve adds_at_block : adds.
Lemma adds_at_fields (value : ctx -> option addr -> addr -> C (option addr)) fuel x r n : (forall a b c, adds (value a b c)) -> adds (at_fields value fuel x r n).
Proof.
  intro V. unfold at_fields. walk.
  generalize 0. revert r. induction fuel as [|fuel IH]; intros; walk.
Qed.
#[export] Hint Resolve adds_at_fields : adds.
Lemma adds_at_return : forall (k : rules) (fuel : nat) (x : ctx) (r : option addr) (n : addr) (expr : option addr), rules_add k -> adds (at_return k fuel x r n expr).
Proof. unfold at_return. walk. Qed.
#[export] Hint Resolve adds_at_return : adds.
Lemma adds_compile_at_keyword : forall (k : rules) (fuel : nat) (compile value at_ : ctx -> option addr -> addr -> C (option addr)) (x : ctx) (r : option addr) (n : addr), rules_add k -> (forall y0 y1 y2, adds (compile y0 y1 y2)) -> (forall y0 y1 y2, adds (value y0 y1 y2)) -> (forall y0 y1 y2, adds (at_ y0 y1 y2)) -> adds (compile_at_keyword k fuel compile value at_ x r n).
Proof. unfold compile_at_keyword. walk. Qed.
#[export] Hint Resolve adds_compile_at_keyword : adds.
Lemma adds_compile_qualified_rule : forall (k : rules) (fuel : nat) (value : ctx -> option addr -> addr -> C (option addr)) (x : ctx) (r : option addr) (n : addr), rules_add k -> (forall y0 y1 y2, adds (value y0 y1 y2)) -> adds (compile_qualified_rule k fuel value x r n).
Proof. unfold compile_qualified_rule. walk. Qed.
#[export] Hint Resolve adds_compile_qualified_rule : adds.
Lemma adds_compile_component_value : forall (k : rules) (fuel : nat) (at_ values value : ctx -> option addr -> addr -> C (option addr)) (x : ctx) (r : option addr) (n : addr), rules_add k -> (forall y0 y1 y2, adds (at_ y0 y1 y2)) -> (forall y0 y1 y2, adds (values y0 y1 y2)) -> (forall y0 y1 y2, adds (value y0 y1 y2)) -> adds (compile_component_value k fuel at_ values value x r n).
Proof. unfold compile_component_value. walk. Qed.
#[export] Hint Resolve adds_compile_component_value : adds.
Lemma adds_values_loop : forall (values value : ctx -> option addr -> addr -> C (option addr)) (x : ctx) (fuel : nat) (d : addr) (i : Z) (r : option addr), (forall y0 y1 y2, adds (values y0 y1 y2)) -> (forall y0 y1 y2, adds (value y0 y1 y2)) -> adds (values_loop values value x fuel d i r).
Proof.
  intros values value x fuel. revert values value x. induction fuel as [|fuel IH]; intros; cbn [values_loop]; walk.
Qed.
#[export] Hint Resolve adds_values_loop : adds.
Lemma adds_run k : rules_add k -> forall fuel j x r n, adds (run k fuel j x r n).
Proof.
  intros R. induction fuel as [|fuel IH]; intros; cbn [run]; walk.
Qed.
#[export] Hint Resolve adds_run : adds.
