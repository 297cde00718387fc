(** * What the compiler reports is only ever added to the messages *)

From Coq Require Import String ZArith List Bool Floats.SpecFloat.
From Verif Require Import Base NodeHeap.
From Verif Require Parser Selector Expr MessagesExpr.
From Verif Require Import MessagesParser.
From Verif Require Import MessagesExpr.
From Verif Require Import Compiler Compile.
Import ListNotations.
Open Scope string_scope. Open Scope list_scope. Open Scope Z_scope.

Notation adds := (only_adds k_msgs).
Notation adds_e := (only_adds Expr.e_msgs).
(** The functions and the files of the compiler. *)
Definition world_adds (w : world) : Prop :=
  (forall x, MessagesExpr.fn_adds (w_functions w x))
  /\ (forall file h ms, match w_load w file (h, ms) with
                        | Ret _ g | Throw _ g | Undef g => exists l, snd g = ms ++ l
                        | NoFuel => True
                        end).
Lemma adds_ret {A} (x : A) : adds (ret x). Proof. intro s. exists []. now rewrite app_nil_r. Qed.
Lemma adds_throw {A} e : adds (@throw A e). Proof. intro s. exists []. now rewrite app_nil_r. Qed.
Lemma adds_nofuel {A} : adds (@nofuel A). Proof. intro s. exact I. Qed.
Lemma adds_no_fuel {A} : adds (fun _ : kst => @NoFuel kst A). Proof. intro s. exact I. Qed.
Lemma adds_bind {A B} (m : C A) (f : A -> C B) : adds m -> (forall x, adds (f x)) -> adds (bind m f).
Proof.
  intros H K s. specialize (H s). unfold bind. destruct (m s) as [a s1| | |]; try exact H. specialize (K a s1). destruct H as (l & E).
  destruct (f a s1); try exact I; destruct K as (l2 & ->); rewrite E, <- app_assoc; eauto.
Qed.
Lemma adds_lift {A} (m : act A) : adds (lift m).
Proof. intro s. unfold lift. destruct (m (k_heap s)); try exact I; exists []; now rewrite app_nil_r. Qed.
Lemma adds_say l p t : adds (say l p t). Proof. intro s. cbn. eauto. Qed.
Lemma adds_report p t : adds (report p t). Proof. apply adds_say. Qed.
(** A computation which looks at the state first. *)
Lemma adds_at {A} (f : kst -> C A) : (forall t, adds (f t)) -> adds (fun s => f s s).
Proof. intros H s. exact (H s s). Qed.
#[export] Hint Resolve adds_ret adds_throw adds_nofuel adds_no_fuel adds_lift adds_say adds_report adds_bind : adds.
#[export] Hint Extern 4 (only_adds _ (match ?x with _ => _ end)) => destruct x : adds.
Ltac at_once := intros; let s := fresh "s" in intro s; exists []; cbn; now rewrite app_nil_r.
Ltac walk :=
  intros; cbv zeta;
  lazymatch goal with
  | |- only_adds _ (bind _ _) => apply adds_bind; [walk|walk]
  | |- only_adds _ (Expr.bind _ _) => apply MessagesExpr.adds_bind; [walk|walk]
  | |- only_adds _ (match ?x with _ => _ end) => destruct x; walk
  | |- only_adds _ _ => auto 12 with adds
  | |- _ => idtac
  end.
Lemma adds_type_of : forall (a : addr), adds (type_of a).
Proof. unfold type_of. walk. Qed.
#[export] Hint Resolve adds_type_of : adds.
Lemma adds_pos_of : forall (a : addr), adds (pos_of a).
Proof. unfold pos_of. walk. Qed.
#[export] Hint Resolve adds_pos_of : adds.
Lemma adds_is_a : forall (a : addr) (t : ntype), adds (is_a a t).
Proof. unfold is_a. walk. Qed.
#[export] Hint Resolve adds_is_a : adds.
Lemma adds_child_is : forall (a : addr) (i : Z) (t : ntype), adds (child_is a i t).
Proof. unfold child_is. walk. Qed.
#[export] Hint Resolve adds_child_is : adds.
Lemma adds_previous_parent : forall (x : ctx), adds (previous_parent x).
Proof. unfold previous_parent. walk. Qed.
#[export] Hint Resolve adds_previous_parent : adds.
Lemma adds_find_scope : forall (ps : list addr), adds (find_scope ps).
Proof.
  intros ps. induction ps as [|x0_ ps IH]; intros; cbn [find_scope]; walk.
Qed.
#[export] Hint Resolve adds_find_scope : adds.
Lemma adds_state_set_variable : forall (x : ctx) (name value : addr) (global : bool), adds (state_set_variable x name value global).
Proof. unfold state_set_variable. walk. Qed.
#[export] Hint Resolve adds_state_set_variable : adds.
Lemma adds_lookup_parents : forall (ps : list addr) (k : str), adds (lookup_parents ps k).
Proof.
  intros ps. induction ps as [|x0_ ps IH]; intros; cbn [lookup_parents]; walk.
Qed.
#[export] Hint Resolve adds_lookup_parents : adds.
Lemma adds_state_get_variable : forall (x : ctx) (k : str), adds (state_get_variable x k).
Proof. unfold state_get_variable. walk. Qed.
#[export] Hint Resolve adds_state_get_variable : adds.
Lemma adds_find_file w name : adds (find_file w name).
Proof. intro s. unfold find_file. destruct name as [|c r]; [exists []; now rewrite app_nil_r|]. destruct (c =? 47); exists []; cbn; now rewrite app_nil_r. Qed.
#[export] Hint Resolve adds_find_file : adds.
Lemma adds_find_validation : forall (w : world) (name : str), world_adds w -> adds (find_validation w name).
Proof. unfold find_validation. walk. Qed.
#[export] Hint Resolve adds_find_validation : adds.
Lemma adds_find_import : forall (w : world) (name : str), world_adds w -> adds (find_import w name).
Proof. unfold find_import. walk. Qed.
#[export] Hint Resolve adds_find_import : adds.
Lemma adds_comment_loop w x p fuel : forall from comment, adds (comment_loop w x p fuel from comment).
Proof.
  induction fuel as [|fuel IH]; intros; cbn [comment_loop]; walk.
  all: intro s; cbv beta zeta; lazymatch goal with |- match comment_loop _ _ _ _ ?a ?b ?t with _ => _ end => exact (IH a b t) end.
Qed.
#[export] Hint Resolve adds_comment_loop : adds.
Lemma adds_replace_variables_in_comment : forall (w : world) (x : ctx) (n : addr), world_adds w -> adds (replace_variables_in_comment w x n).
Proof. unfold replace_variables_in_comment. walk. Qed.
#[export] Hint Resolve adds_replace_variables_in_comment : adds.
Lemma adds_child_nodes l : adds (child_nodes l). Proof. at_once. Qed.
#[export] Hint Resolve adds_child_nodes : adds.
Lemma adds_is_variable_set : forall (n : addr) (with_block : bool), adds (is_variable_set n with_block).
Proof. unfold is_variable_set. walk. Qed.
#[export] Hint Resolve adds_is_variable_set : adds.
Lemma adds_each : forall (f : addr -> C unit) (l : list addr), (forall y0, adds (f y0)) -> adds (each f l).
Proof.
  intros f l. revert f. induction l as [|x0_ l IH]; intros; cbn [each]; walk.
Qed.
#[export] Hint Resolve adds_each : adds.
Lemma adds_mark_selectors : forall (fuel : nat) (n : addr), adds (mark_selectors fuel n).
Proof.
  intros fuel. induction fuel as [|fuel IH]; intros; cbn [mark_selectors]; walk.
Qed.
#[export] Hint Resolve adds_mark_selectors : adds.
Lemma adds_new_arg : forall (sep : ntype) (p : position), adds (new_arg sep p).
Proof. unfold new_arg. walk. Qed.
#[export] Hint Resolve adds_new_arg : adds.
Lemma adds_drop_spaces : forall (fuel : nat) (a : addr), adds (drop_spaces fuel a).
Proof.
  intros fuel. induction fuel as [|fuel IH]; intros; cbn [drop_spaces]; walk.
Qed.
#[export] Hint Resolve adds_drop_spaces : adds.
Lemma adds_argify_loop : forall (sep : ntype) (n : addr) (p : position) (l : list addr) (arg : addr), adds (argify_loop sep n p l arg).
Proof.
  intros sep n p l. revert sep n p. induction l as [|x0_ l IH]; intros; cbn [argify_loop]; walk.
Qed.
#[export] Hint Resolve adds_argify_loop : adds.
Lemma adds_argify_by : forall (sep : ntype) (n : addr), adds (argify_by sep n).
Proof. unfold argify_by. walk. Qed.
#[export] Hint Resolve adds_argify_by : adds.
Lemma adds_prepare_loop : forall (l : list addr) (optional : bool), adds (prepare_loop l optional).
Proof.
  intros l. induction l as [|x0_ l IH]; intros; cbn [prepare_loop]; walk.
Qed.
#[export] Hint Resolve adds_prepare_loop : adds.
Lemma adds_argify n : adds (argify n). Proof. apply adds_argify_by. Qed.
#[export] Hint Resolve adds_argify : adds.
Lemma adds_prepare_function_arguments var : adds (prepare_function_arguments var).
Proof. unfold prepare_function_arguments. walk. Qed.
#[export] Hint Resolve adds_prepare_function_arguments : adds.
Lemma adds_flags_loop : forall (n : addr) (pos : nat) (global unset late : bool), adds (flags_loop n pos global unset late).
Proof.
  intros n pos. revert n. induction pos as [|pos IH]; intros; cbn [flags_loop]; walk.
Qed.
#[export] Hint Resolve adds_flags_loop : adds.
Lemma adds_compiler_set_variable : forall (x : ctx) (n : addr), adds (compiler_set_variable x n).
Proof. unfold compiler_set_variable. walk. Qed.
#[export] Hint Resolve adds_compiler_set_variable : adds.
Lemma adds_handle_mixin : forall (x : ctx) (n : addr), adds (handle_mixin x n).
Proof. unfold handle_mixin. walk. Qed.
#[export] Hint Resolve adds_handle_mixin : adds.
Lemma adds_insert_clones : forall (fuel : nat) (parent : addr) (i : Z) (l : list addr), adds (insert_clones fuel parent i l).
Proof.
  intros fuel parent i l. revert fuel parent i. induction l as [|x0_ l IH]; intros; cbn [insert_clones]; walk.
Qed.
#[export] Hint Resolve adds_insert_clones : adds.
Lemma adds_insert_all : forall (parent : addr) (i : Z) (l : list addr), adds (insert_all parent i l).
Proof.
  intros parent i l. revert parent i. induction l as [|x0_ l IH]; intros; cbn [insert_all]; walk.
Qed.
#[export] Hint Resolve adds_insert_all : adds.
Lemma adds_insert_value : forall (fuel : nat) (parent val : addr) (idx : Z), adds (insert_value fuel parent val idx).
Proof. unfold insert_value. walk. Qed.
#[export] Hint Resolve adds_insert_value : adds.
Lemma adds_set_parameter : forall (root arg_name value : addr) (p : position), adds (set_parameter root arg_name value p).
Proof. unfold set_parameter. walk. Qed.
#[export] Hint Resolve adds_set_parameter : adds.
Lemma adds_parameters_loop : forall (fuel : nat) (root n : addr) (args inputs : list addr), adds (parameters_loop fuel root n args inputs).
Proof.
  intros fuel root n args. revert fuel root n. induction args as [|x0_ args IH]; intros; cbn [parameters_loop]; walk.
Qed.
#[export] Hint Resolve adds_parameters_loop : adds.
Lemma adds_replace_variable : forall (fuel : nat) (self : ctx -> addr -> C unit) (x : ctx) (parent n : addr) (idx : Z), (forall y0 y1, adds (self y0 y1)) -> adds (replace_variable fuel self x parent n idx).
Proof. unfold replace_variable. walk. Qed.
#[export] Hint Resolve adds_replace_variable : adds.
Lemma adds_with_expr n {A} (m : Expr.E A) : adds_e m -> adds (with_expr n m).
Proof. intros H s. unfold with_expr. specialize (H (Expr.mkE (k_heap s) (k_msgs s) n 0 (-1) None [] false)). destruct (m _); try exact I; exact H. Qed.
#[export] Hint Resolve adds_with_expr : adds.
Lemma world_functions w x : world_adds w -> MessagesExpr.fn_adds (w_functions w x).
Proof. intros (H & _). apply H. Qed.
#[export] Hint Resolve world_functions : adds.
Lemma adds_at_keyword_expression w fuel x n : world_adds w -> adds (at_keyword_expression w fuel x n).
Proof. unfold at_keyword_expression. walk. Qed.
#[export] Hint Resolve adds_at_keyword_expression : adds.
Lemma adds_truth : forall (n a : addr), adds (truth n a).
Proof. unfold truth. walk. Qed.
#[export] Hint Resolve adds_truth : adds.
Lemma adds_is_else : forall (n : addr), adds (is_else n).
Proof. unfold is_else. walk. Qed.
#[export] Hint Resolve adds_is_else : adds.
Lemma adds_next_of : forall (parent : addr) (idx : Z), adds (next_of parent idx).
Proof. unfold next_of. walk. Qed.
#[export] Hint Resolve adds_next_of : adds.
Lemma adds_replace_if : forall (w : world) (fuel : nat) (x : ctx) (parent n : addr) (idx : Z), world_adds w -> adds (replace_if w fuel x parent n idx).
Proof. unfold replace_if. walk. Qed.
#[export] Hint Resolve adds_replace_if : adds.
Lemma adds_replace_else : forall (w : world) (fuel : nat) (x : ctx) (parent n : addr) (idx : Z), world_adds w -> adds (replace_else w fuel x parent n idx).
Proof. unfold replace_else. walk. Qed.
#[export] Hint Resolve adds_replace_else : adds.
Lemma adds_replace_import w fuel x parent n idx : world_adds w -> adds (replace_import w fuel x parent n idx).
Proof.
  intro W. unfold replace_import. walk. intro st0. match goal with |- context [w_load w ?f _] => pose proof (proj2 W f (k_heap st0) (k_msgs st0)) as L; destruct (w_load w f (k_heap st0, k_msgs st0)) as [r (h & m)|e (h & m)|(h & m)|]; try exact I; try exact L end.
cbn [snd] in L. destruct L as (l1 & ->). cbv zeta.
  assert (Q : forall m2 : C Z, adds m2 -> match m2 (mkK h (k_msgs st0 ++ l1) (k_paths st0)) with Ret _ s' | Throw _ s' | Undef s' => exists k, k_msgs s' = k_msgs st0 ++ k | NoFuel => True end).
  { intros m2 A. specialize (A (mkK h (k_msgs st0 ++ l1) (k_paths st0))). destruct (m2 _); try exact I; destruct A as (l2 & ->); cbn [k_msgs]; rewrite <- app_assoc; eauto. }
  destruct r as [r0|]; lazymatch goal with |- match ?m2 _ with _ => _ end => apply (Q m2) end; walk.
Qed.
#[export] Hint Resolve adds_replace_import : adds.
Lemma adds_replace_at_keyword : forall (w : world) (fuel : nat) (self : ctx -> addr -> C unit) (x : ctx) (parent n : addr) (idx : Z), world_adds w -> (forall y0 y1, adds (self y0 y1)) -> adds (replace_at_keyword w fuel self x parent n idx).
Proof. unfold replace_at_keyword. walk. Qed.
#[export] Hint Resolve adds_replace_at_keyword : adds.
Lemma adds_step_over : forall (n child : addr) (idx : Z), adds (step_over n child idx).
Proof. unfold step_over. walk. Qed.
#[export] Hint Resolve adds_step_over : adds.
Lemma adds_variables_loop : forall (w : world) (self : ctx -> addr -> C unit) (x : ctx) (n : addr) (fuel : nat) (idx : Z), world_adds w -> (forall y0 y1, adds (self y0 y1)) -> adds (variables_loop w self x n fuel idx).
Proof.
  intros w self x n fuel. revert w self x n. induction fuel as [|fuel IH]; intros; cbn [variables_loop]; walk.
Qed.
#[export] Hint Resolve adds_variables_loop : adds.
Lemma adds_replace_variables : forall (w : world) (fuel : nat) (x0 : ctx) (n : addr), world_adds w -> adds (replace_variables w fuel x0 n).
Proof.
  intros w fuel. revert w. induction fuel as [|fuel IH]; intros; cbn [replace_variables]; walk.
Qed.
#[export] Hint Resolve adds_replace_variables : adds.
Lemma adds_step_loop : forall (f : addr -> C unit) (n : addr) (fuel : nat) (idx : Z), (forall y0, adds (f y0)) -> adds (step_loop f n fuel idx).
Proof.
  intros f n fuel. revert f n. induction fuel as [|fuel IH]; intros; cbn [step_loop]; walk.
Qed.
#[export] Hint Resolve adds_step_loop : adds.
Lemma adds_is_empty_rule : forall (n : addr), adds (is_empty_rule n).
Proof. unfold is_empty_rule. walk. Qed.
#[export] Hint Resolve adds_is_empty_rule : adds.
Lemma adds_remove_empty_rules : forall (fuel : nat) (x0 : ctx) (n : addr), adds (remove_empty_rules fuel x0 n).
Proof.
  intros fuel. induction fuel as [|fuel IH]; intros; cbn [remove_empty_rules]; walk.
Qed.
#[export] Hint Resolve adds_remove_empty_rules : adds.
Lemma adds_ref_loop : forall (f : addr -> addr -> C addr) (n : addr) (fuel : nat) (idx : Z) (v : addr), (forall y0 y1, adds (f y0 y1)) -> adds (ref_loop f n fuel idx v).
Proof.
  intros f n fuel. revert f n. induction fuel as [|fuel IH]; intros; cbn [ref_loop]; walk.
Qed.
#[export] Hint Resolve adds_ref_loop : adds.
Lemma adds_insert_after : forall (parent last n : addr), adds (insert_after parent last n).
Proof. unfold insert_after. walk. Qed.
#[export] Hint Resolve adds_insert_after : adds.
Lemma adds_expand_declarations : forall (fuel : nat) (x0 : ctx) (name : str) (parent root n : addr), adds (expand_declarations fuel x0 name parent root n).
Proof.
  intros fuel. induction fuel as [|fuel IH]; intros; cbn [expand_declarations]; walk.
Qed.
#[export] Hint Resolve adds_expand_declarations : adds.
Lemma adds_expand_declaration : forall (fuel : nat) (x : ctx) (n : addr), adds (expand_declaration fuel x n).
Proof. unfold expand_declaration. walk. Qed.
#[export] Hint Resolve adds_expand_declaration : adds.
Lemma adds_take_args : forall (fuel : nat) (n list : addr), adds (take_args fuel n list).
Proof.
  intros fuel. induction fuel as [|fuel IH]; intros; cbn [take_args]; walk.
Qed.
#[export] Hint Resolve adds_take_args : adds.
Lemma adds_append_items : forall (fuel : nat) (copy : addr) (items : list addr) (first : bool), adds (append_items fuel copy items first).
Proof.
  intros fuel copy items. revert fuel copy. induction items as [|x0_ items IH]; intros; cbn [append_items]; walk.
Qed.
#[export] Hint Resolve adds_append_items : adds.
Lemma adds_append_args : forall (fuel : nat) (copy : addr) (args : list addr), adds (append_args fuel copy args).
Proof.
  intros fuel copy args. revert fuel copy. induction args as [|x0_ args IH]; intros; cbn [append_args]; walk.
Qed.
#[export] Hint Resolve adds_append_args : adds.
Lemma adds_outer_loop : forall (fuel : nat) (n inner : addr) (idx : Z) (outer : list addr), adds (outer_loop fuel n inner idx outer).
Proof.
  intros fuel n inner idx outer. revert fuel n inner idx. induction outer as [|x0_ outer IH]; intros; cbn [outer_loop]; walk.
Qed.
#[export] Hint Resolve adds_outer_loop : adds.
Lemma adds_prepend_selectors : forall (fuel : nat) (root n : addr), adds (prepend_selectors fuel root n).
Proof. unfold prepend_selectors. walk. Qed.
#[export] Hint Resolve adds_prepend_selectors : adds.
Lemma adds_expand : forall (fuel : nat) (x0 : ctx) (rules : option (addr * addr)) (last n : addr), adds (expand fuel x0 rules last n).
Proof.
  intros fuel. induction fuel as [|fuel IH]; intros; cbn [expand]; walk.
Qed.
#[export] Hint Resolve adds_expand : adds.
Lemma adds_expand_nested_components : forall (fuel : nat) (x : ctx) (n : addr), adds (expand_nested_components fuel x n).
Proof. unfold expand_nested_components. walk. Qed.
#[export] Hint Resolve adds_expand_nested_components : adds.
