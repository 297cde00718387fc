(** * What the expressions report is only ever added to the messages *)

From Coq Require Import String ZArith List Bool Floats.SpecFloat.
From Verif Require Import Base UnicodeRange NodeHeap Color FloatBits Dim.
From Verif Require Import MessagesParser.
From Verif Require Import Expr.
Import ListNotations.
Open Scope string_scope. Open Scope list_scope. Open Scope Z_scope.

Notation adds := (only_adds e_msgs).
(** The functions given to the expressions. *)
Definition fn_adds (fn : functions) : Prop :=
  forall c a h ms, match fn c a (h, ms) with
                 | Ret _ g | Throw _ g | Undef g => exists l, snd g = ms ++ l
                 | NoFuel => True
                 end.

Lemma adds_ret {A} (x : A) : adds (ret x). Proof. intro s. exists []. now rewrite app_nil_r. Qed.
Lemma adds_throw {A} e : adds (@throw A e). Proof. intro s. exists []. now rewrite app_nil_r. Qed.
Lemma adds_undef {A} : adds (@undef A). Proof. intro s. exists []. now rewrite app_nil_r. Qed.
Lemma adds_nofuel {A} : adds (fun _ : est => @NoFuel est A). Proof. intro s. exact I. Qed.
Lemma adds_bind {A B} (m : E A) (f : A -> E B) : adds m -> (forall x, adds (f x)) -> adds (bind m f).
Proof.
  intros H K s. specialize (H s). unfold bind. destruct (m s) as [a s1| | |]; try exact H. specialize (K a s1). destruct H as (l & E).
  destruct (f a s1); try exact I; destruct K as (l2 & ->); rewrite E, <- app_assoc; eauto.
Qed.
Lemma adds_lift {A} (m : act A) : adds (lift m).
Proof. intro s. unfold lift. destruct (m (e_heap s)); try exact I; exists []; now rewrite app_nil_r. Qed.
Lemma adds_report p t : adds (report p t). Proof. intro s. cbn. eauto. Qed.
Lemma adds_cur : adds cur. Proof. intro s. unfold cur. destruct (e_cur s); exists []; now rewrite app_nil_r. Qed.
Lemma adds_same {A} (f : est -> A) (g : est -> est) : (forall s, e_msgs (g s) = e_msgs s) -> adds (fun s => Ret (f s) (g s)).
Proof. intros H s. exists []. now rewrite H, app_nil_r. Qed.
(** A computation which looks at the state first. *)
Lemma adds_at {A} (f : est -> E A) : (forall t, adds (f t)) -> adds (fun s => f s s).
Proof. intros H s. exact (H s s). Qed.
#[export] Hint Resolve adds_ret adds_throw adds_undef adds_nofuel adds_lift adds_report adds_cur : adds.
#[export] Hint Resolve adds_bind : adds.
#[export] Hint Extern 4 (only_adds _ (match ?x with _ => _ end)) => destruct x : adds.
Ltac at_once := intros; let s := fresh "s" in intro s; exists []; cbn; now rewrite app_nil_r.
Ltac at_state m := let H := fresh in enough (H : adds m) by (lazymatch goal with |- only_adds _ _ => exact H | |- match _ ?s with _ => _ end => exact (H s) end).
Ltac walk :=
  intros; cbv zeta;
  lazymatch goal with
  | |- only_adds _ (bind _ _) => apply adds_bind; [walk|walk]
  | |- only_adds _ (match ?x with _ => _ end) => destruct x; walk
  | |- only_adds _ (fun s => match e_cur s with _ => _ end) => idtac
  | |- only_adds _ _ => auto 12 with adds
  | |- _ => idtac
  end.
Lemma adds_refuse : forall (p : position) (text : string), adds (refuse p text).
Proof. unfold refuse. walk. Qed.
#[export] Hint Resolve adds_refuse : adds.
Lemma adds_read : forall (a : addr), adds (read a).
Proof. unfold read. walk. Qed.
#[export] Hint Resolve adds_read : adds.
Lemma adds_type_of : forall (a : addr), adds (type_of a).
Proof. unfold type_of. walk. Qed.
#[export] Hint Resolve adds_type_of : adds.
Lemma adds_pos_of : forall (a : addr), adds (pos_of a).
Proof. unfold pos_of. walk. Qed.
#[export] Hint Resolve adds_pos_of : adds.
Lemma adds_string_of : forall (a : addr), adds (string_of a).
Proof. unfold string_of. walk. Qed.
#[export] Hint Resolve adds_string_of : adds.
Lemma adds_integer_of : forall (a : addr), adds (integer_of a).
Proof. unfold integer_of. walk. Qed.
#[export] Hint Resolve adds_integer_of : adds.
Lemma adds_decimal_of : forall (a : addr), adds (decimal_of a).
Proof. unfold decimal_of. walk. Qed.
#[export] Hint Resolve adds_decimal_of : adds.
Lemma adds_color_of : forall (a : addr), adds (color_of a).
Proof. unfold color_of. walk. Qed.
#[export] Hint Resolve adds_color_of : adds.
Lemma adds_cur_type : adds (cur_type).
Proof. unfold cur_type. walk. Qed.
#[export] Hint Resolve adds_cur_type : adds.
Lemma adds_cur_pos : adds (cur_pos).
Proof. unfold cur_pos. walk. Qed.
#[export] Hint Resolve adds_cur_pos : adds.
Lemma adds_cur_is : forall (t : ntype), adds (cur_is t).
Proof. unfold cur_is. walk. Qed.
#[export] Hint Resolve adds_cur_is : adds.
Lemma adds_cur_is_word : forall (name : string), adds (cur_is_word name).
Proof. unfold cur_is_word. walk. Qed.
#[export] Hint Resolve adds_cur_is_word : adds.
Lemma adds_alloc : forall (t : ntype) (p : position), adds (alloc t p).
Proof. unfold alloc. walk. Qed.
#[export] Hint Resolve adds_alloc : adds.
Lemma adds_new_color : forall (p : position) (k : color), adds (new_color p k).
Proof. unfold new_color. walk. Qed.
#[export] Hint Resolve adds_new_color : adds.
Lemma adds_new_boolean : forall (p : position) (b : bool), adds (new_boolean p b).
Proof. unfold new_boolean. walk. Qed.
#[export] Hint Resolve adds_new_boolean : adds.
Lemma adds_new_string : forall (p : position) (v : str), adds (new_string p v).
Proof. unfold new_string. walk. Qed.
#[export] Hint Resolve adds_new_string : adds.
Lemma adds_int64 : forall (v : Z), adds (int64 v).
Proof. unfold int64. walk. Qed.
#[export] Hint Resolve adds_int64 : adds.
Lemma adds_to_int64 : forall (x : f64), adds (to_int64 x).
Proof. unfold to_int64. walk. Qed.
#[export] Hint Resolve adds_to_int64 : adds.
Lemma adds_add_colors : forall (lhs rhs : addr) (subtract swapped : bool), adds (add_colors lhs rhs subtract swapped).
Proof. unfold add_colors. walk. Qed.
#[export] Hint Resolve adds_add_colors : adds.
Lemma adds_add_numbers : forall (lhs rhs : addr) (t : ntype) (check : bool) (value : E (Z + f64)), (adds (value)) -> adds (add_numbers lhs rhs t check value).
Proof. unfold add_numbers. walk. Qed.
#[export] Hint Resolve adds_add_numbers : adds.
Lemma adds_add_types : forall (lhs rhs : addr) (subtract : bool) (p : position) (lt rt : ntype), adds (add_types lhs rhs subtract p lt rt).
Proof. unfold add_types. walk. Qed.
#[export] Hint Resolve adds_add_types : adds.
Lemma adds_add : forall (lhs rhs : addr) (subtract : bool), adds (add lhs rhs subtract).
Proof. unfold add. walk. Qed.
#[export] Hint Resolve adds_add : adds.
Lemma adds_mul_color : forall (o : mulop) (lhs rhs : addr) (bf : f64), adds (mul_color o lhs rhs bf).
Proof. unfold mul_color. walk. Qed.
#[export] Hint Resolve adds_mul_color : adds.
Lemma adds_report_dims : forall (p : position) (l : list dim_error), adds (report_dims p l).
Proof.
  intros p l. revert p. induction l as [|x0_ l IH]; intros; cbn [report_dims]; walk.
Qed.
#[export] Hint Resolve adds_report_dims : adds.
Lemma adds_font_metrics : forall (lhs rhs : addr) (af bf : f64), adds (font_metrics lhs rhs af bf).
Proof. unfold font_metrics. walk. Qed.
#[export] Hint Resolve adds_font_metrics : adds.
Lemma adds_mul_numbers o lhs rhs t v : adds (mul_numbers o lhs rhs t v).
Proof.
  intro s. unfold mul_numbers. destruct (e_font s && _).
  - lazymatch goal with |- match ?m s with _ => _ end => at_state m end. walk.
  - lazymatch goal with |- match ?m s with _ => _ end => at_state m end. walk.
Qed.
#[export] Hint Resolve adds_mul_numbers : adds.
Lemma adds_mul_string : forall (o : mulop) (lhs rhs : addr), adds (mul_string o lhs rhs).
Proof. unfold mul_string. walk. Qed.
#[export] Hint Resolve adds_mul_string : adds.
Lemma adds_mul_ranges : forall (lhs rhs : addr), adds (mul_ranges lhs rhs).
Proof. unfold mul_ranges. walk. Qed.
#[export] Hint Resolve adds_mul_ranges : adds.
Lemma adds_mul_two_colors : forall (o : mulop) (lhs rhs : addr), adds (mul_two_colors o lhs rhs).
Proof. unfold mul_two_colors. walk. Qed.
#[export] Hint Resolve adds_mul_two_colors : adds.
Lemma adds_mul_types : forall (o : mulop) (lhs rhs : addr) (lt rt : ntype), adds (mul_types o lhs rhs lt rt).
Proof. unfold mul_types. walk. Qed.
#[export] Hint Resolve adds_mul_types : adds.
Lemma adds_multiply : forall (o : mulop) (lhs rhs : addr), adds (multiply o lhs rhs).
Proof. unfold multiply. walk. Qed.
#[export] Hint Resolve adds_multiply : adds.
Lemma adds_power_value : forall (lm : libm) (lhs rhs : addr) (lt rt : ntype), adds (power_value lm lhs rhs lt rt).
Proof. unfold power_value. walk. Qed.
#[export] Hint Resolve adds_power_value : adds.
Lemma adds_apply_power : forall (lm : libm) (lhs rhs : addr), adds (apply_power lm lhs rhs).
Proof. unfold apply_power. walk. Qed.
#[export] Hint Resolve adds_apply_power : adds.
Lemma adds_comparable_types : forall (lhs rhs : addr) (p : position) (lt rt : ntype), adds (comparable_types lhs rhs p lt rt).
Proof. unfold comparable_types. walk. Qed.
#[export] Hint Resolve adds_comparable_types : adds.
Lemma adds_is_comparable : forall (lhs rhs : addr), adds (is_comparable lhs rhs).
Proof. unfold is_comparable. walk. Qed.
#[export] Hint Resolve adds_is_comparable : adds.
Lemma adds_equal_types : forall (lhs rhs : addr) (lt rt : ntype), adds (equal_types lhs rhs lt rt).
Proof. unfold equal_types. walk. Qed.
#[export] Hint Resolve adds_equal_types : adds.
Lemma adds_is_equal : forall (lhs rhs : addr), adds (is_equal lhs rhs).
Proof. unfold is_equal. walk. Qed.
#[export] Hint Resolve adds_is_equal : adds.
Lemma adds_less_types : forall (lhs rhs : addr) (p : position) (lt rt : ntype), adds (less_types lhs rhs p lt rt).
Proof. unfold less_types. walk. Qed.
#[export] Hint Resolve adds_less_types : adds.
Lemma adds_is_less_than : forall (lhs rhs : addr), adds (is_less_than lhs rhs).
Proof. unfold is_less_than. walk. Qed.
#[export] Hint Resolve adds_is_less_than : adds.
Lemma adds_do_match : forall (o : matchop) (lhs rhs : addr), adds (do_match o lhs rhs).
Proof. unfold do_match. walk. Qed.
#[export] Hint Resolve adds_do_match : adds.
Lemma adds_to_boolean : forall (c : cell), adds (to_boolean c).
Proof. unfold to_boolean. walk. Qed.
#[export] Hint Resolve adds_to_boolean : adds.
Lemma adds_boolean : forall (a : addr), adds (boolean a).
Proof. unfold boolean. walk. Qed.
#[export] Hint Resolve adds_boolean : adds.
Lemma adds_node_size : adds node_size. Proof. exact (adds_at (fun s => lift (size (e_node s))) (fun s => adds_lift _)). Qed.
#[export] Hint Resolve adds_node_size : adds.
Lemma adds_child i : adds (child i). Proof. exact (adds_at (fun s => lift (get_child (e_node s) i)) (fun s => adds_lift _)). Qed.
#[export] Hint Resolve adds_child : adds.
Lemma adds_set_pos p : adds (set_pos p). Proof. at_once. Qed.
#[export] Hint Resolve adds_set_pos : adds.
Lemma adds_get_pos  : adds (get_pos ). Proof. at_once. Qed.
#[export] Hint Resolve adds_get_pos : adds.
Lemma adds_set_cur a : adds (set_cur a). Proof. at_once. Qed.
#[export] Hint Resolve adds_set_cur : adds.
Lemma adds_end_of_nodes : adds (end_of_nodes).
Proof. unfold end_of_nodes. walk. Qed.
#[export] Hint Resolve adds_end_of_nodes : adds.
Lemma adds_mark_start  : adds (mark_start ). Proof. at_once. Qed.
#[export] Hint Resolve adds_mark_start : adds.
Lemma adds_skip_ws : forall (fuel : nat), adds (skip_ws fuel).
Proof.
  intros fuel. induction fuel as [|fuel IH]; intros; cbn [skip_ws]; walk.
Qed.
#[export] Hint Resolve adds_skip_ws : adds.
Lemma adds_next : adds next.
Proof.
  unfold next. walk.
  - intro s. cbv beta. destruct (e_cur s) as [a|]; [|exists []; now rewrite app_nil_r]. lazymatch goal with |- match ?m s with _ => _ end => at_state m end. walk.
  - exact (adds_at (fun s => pos_of (e_node s)) (fun s => adds_pos_of _)).
Qed.
#[export] Hint Resolve adds_next : adds.
Lemma adds_back_to_current : forall (fuel : nat), adds (back_to_current fuel).
Proof.
  intros fuel. induction fuel as [|fuel IH]; intros; cbn [back_to_current]; walk.
Qed.
#[export] Hint Resolve adds_back_to_current : adds.
Lemma adds_remove_back fuel start : adds (remove_back fuel start).
Proof. induction fuel as [|fuel IH]; cbn [remove_back]; walk. exact (adds_at (fun s => lift (remove_child_at (e_node s) (x - 1))) (fun s => adds_lift _)). Qed.
#[export] Hint Resolve adds_remove_back : adds.
Lemma adds_replace_with_result r : adds (replace_with_result r).
Proof.
  unfold replace_with_result. walk.
  - exact (adds_at (fun s => remove_back (Z.to_nat (e_pos s)) (e_start s)) (fun s => adds_remove_back _ _)).
  - exact (adds_at (fun s => lift (insert_child (e_node s) x3 a)) (fun s => adds_lift _)).
Qed.
#[export] Hint Resolve adds_replace_with_result : adds.
Lemma adds_in_new n font {A} (m : E A) : adds m -> adds (in_new n font m).
Proof. intros H s. unfold in_new. specialize (H (mkE (e_heap s) (e_msgs s) n 0 (-1) None [] font)). destruct (m _); try exact I; exact H. Qed.
#[export] Hint Resolve adds_in_new : adds.
Lemma adds_level_loop op lower operator apply : adds lower -> adds operator -> (forall o p l r, adds (apply o p l r)) -> forall fuel r, adds (level_loop op lower operator apply fuel r).
Proof. intros H1 H2 H3. induction fuel as [|fuel IH]; intros; cbn [level_loop]; walk. Qed.
#[export] Hint Resolve adds_level_loop : adds.
Lemma adds_level op lower operator apply f : adds lower -> adds operator -> (forall o p l r, adds (apply o p l r)) -> adds (level op lower operator apply f).
Proof. intros. unfold level. walk. Qed.
#[export] Hint Resolve adds_level : adds.
Lemma adds_power_operator : adds power_operator. Proof. unfold power_operator. walk. Qed.
#[export] Hint Resolve adds_power_operator : adds.
Lemma adds_power_ : forall (lm : libm) (post : E (option addr)), (adds (post)) -> adds (power_ lm post).
Proof. unfold power_. walk. Qed.
#[export] Hint Resolve adds_power_ : adds.
Lemma adds_multiplicative_operator : adds (multiplicative_operator).
Proof. unfold multiplicative_operator. walk. Qed.
#[export] Hint Resolve adds_multiplicative_operator : adds.
Lemma adds_multiplicative_ : forall (f : nat) (power : E (option addr)), (adds (power)) -> adds (multiplicative_ f power).
Proof. unfold multiplicative_. walk. Qed.
#[export] Hint Resolve adds_multiplicative_ : adds.
Lemma adds_additive_operator : adds (additive_operator).
Proof. unfold additive_operator. walk. Qed.
#[export] Hint Resolve adds_additive_operator : adds.
Lemma adds_additive_ : forall (f : nat) (mul : E (option addr)), (adds (mul)) -> adds (additive_ f mul).
Proof. unfold additive_. walk. Qed.
#[export] Hint Resolve adds_additive_ : adds.
Lemma adds_relational_operator : adds (relational_operator).
Proof. unfold relational_operator. walk. Qed.
#[export] Hint Resolve adds_relational_operator : adds.
Lemma adds_relation : forall (o : relop) (l r : addr), adds (relation o l r).
Proof. unfold relation. walk. Qed.
#[export] Hint Resolve adds_relation : adds.
Lemma adds_apply_relation : forall (o : relop) (p : position) (l r : addr), adds (apply_relation o p l r).
Proof. unfold apply_relation. walk. Qed.
#[export] Hint Resolve adds_apply_relation : adds.
Lemma adds_relational_ : forall (f : nat) (additive : E (option addr)), (adds (additive)) -> adds (relational_ f additive).
Proof. unfold relational_. walk. Qed.
#[export] Hint Resolve adds_relational_ : adds.
Lemma adds_equality_operator : adds (equality_operator).
Proof. unfold equality_operator. walk. Qed.
#[export] Hint Resolve adds_equality_operator : adds.
Lemma adds_apply_equality : forall (o : eqop) (p : position) (l r : addr), adds (apply_equality o p l r).
Proof. unfold apply_equality. walk. Qed.
#[export] Hint Resolve adds_apply_equality : adds.
Lemma adds_equality_ : forall (f : nat) (relational : E (option addr)), (adds (relational)) -> adds (equality_ f relational).
Proof. unfold equality_. walk. Qed.
#[export] Hint Resolve adds_equality_ : adds.
Lemma adds_and_operator : adds (and_operator).
Proof. unfold and_operator. walk. Qed.
#[export] Hint Resolve adds_and_operator : adds.
Lemma adds_or_operator : adds (or_operator).
Proof. unfold or_operator. walk. Qed.
#[export] Hint Resolve adds_or_operator : adds.
Lemma adds_apply_logical : forall (f : bool -> bool -> bool) (o : unit) (p : position) (l r : addr), adds (apply_logical f o p l r).
Proof. unfold apply_logical. walk. Qed.
#[export] Hint Resolve adds_apply_logical : adds.
Lemma adds_logical_and_ : forall (f : nat) (equality : E (option addr)), (adds (equality)) -> adds (logical_and_ f equality).
Proof. unfold logical_and_. walk. Qed.
#[export] Hint Resolve adds_logical_and_ : adds.
Lemma adds_logical_or_ : forall (f : nat) (logical_and : E (option addr)), (adds (logical_and)) -> adds (logical_or_ f logical_and).
Proof. unfold logical_or_. walk. Qed.
#[export] Hint Resolve adds_logical_or_ : adds.
Lemma adds_quiet {A} (m : E A) : adds (quiet m).
Proof. intro s. unfold quiet. destruct (m s); try exact I; exists []; cbn; now rewrite app_nil_r. Qed.
#[export] Hint Resolve adds_quiet : adds.
Lemma adds_conditional_loop : forall (fuel : nat) (self : E (option addr)) (result : addr), (adds (self)) -> adds (conditional_loop fuel self result).
Proof.
  intros fuel. induction fuel as [|fuel IH]; intros; cbn [conditional_loop]; walk.
Qed.
#[export] Hint Resolve adds_conditional_loop : adds.
Lemma adds_conditional_ : forall (f : nat) (self logical_or : E (option addr)), (adds (self)) -> (adds (logical_or)) -> adds (conditional_ f self logical_or).
Proof. unfold conditional_. walk. Qed.
#[export] Hint Resolve adds_conditional_ : adds.
Lemma adds_set_var n v : adds (set_var n v). Proof. at_once. Qed.
#[export] Hint Resolve adds_set_var : adds.
Lemma adds_assignment_ : forall (conditional : E (option addr)), (adds (conditional)) -> adds (assignment_ conditional).
Proof. unfold assignment_. walk. Qed.
#[export] Hint Resolve adds_assignment_ : adds.
Lemma adds_is_label : adds (is_label).
Proof. unfold is_label. walk. Qed.
#[export] Hint Resolve adds_is_label : adds.
Lemma adds_map_loop : forall (fuel : nat) (assignment : E (option addr)) (m : addr), (adds (assignment)) -> adds (map_loop fuel assignment m).
Proof.
  intros fuel. induction fuel as [|fuel IH]; intros; cbn [map_loop]; walk.
Qed.
#[export] Hint Resolve adds_map_loop : adds.
Lemma adds_array_loop : forall (fuel : nat) (assignment : E (option addr)) (arr : addr), (adds (assignment)) -> adds (array_loop fuel assignment arr).
Proof.
  intros fuel. induction fuel as [|fuel IH]; intros; cbn [array_loop]; walk.
Qed.
#[export] Hint Resolve adds_array_loop : adds.
Lemma adds_expression_list_ : forall (f : nat) (conditional : E (option addr)), (adds (conditional)) -> adds (expression_list_ f conditional).
Proof. unfold expression_list_. walk. Qed.
#[export] Hint Resolve adds_expression_list_ : adds.
Lemma adds_field_loop : forall (fuel : nat) (m : addr) (name : str) (j n : Z), adds (field_loop fuel m name j n).
Proof.
  intros fuel. induction fuel as [|fuel IH]; intros; cbn [field_loop]; walk.
Qed.
#[export] Hint Resolve adds_field_loop : adds.
Lemma adds_field : forall (m index : addr), adds (field m index).
Proof. unfold field. walk. Qed.
#[export] Hint Resolve adds_field : adds.
Lemma adds_index_integer : forall (result i : addr), adds (index_integer result i).
Proof. unfold index_integer. walk. Qed.
#[export] Hint Resolve adds_index_integer : adds.
Lemma adds_post_loop : forall (fuel : nat) (conditional : E (option addr)) (result : addr), (adds (conditional)) -> adds (post_loop fuel conditional result).
Proof.
  intros fuel. induction fuel as [|fuel IH]; intros; cbn [post_loop]; walk.
Qed.
#[export] Hint Resolve adds_post_loop : adds.
Lemma adds_post_ : forall (f : nat) (unary conditional : E (option addr)), (adds (unary)) -> (adds (conditional)) -> adds (post_ f unary conditional).
Proof. unfold post_. walk. Qed.
#[export] Hint Resolve adds_post_ : adds.
Lemma adds_call fn a : fn_adds fn -> adds (call fn a).
Proof. intros H s. unfold call. specialize (H (e_cur s) a (e_heap s) (e_msgs s)). destruct (fn _ a _); try exact I; exact H. Qed.
#[export] Hint Resolve adds_call : adds.
Lemma adds_negate : forall (a : addr), adds (negate a).
Proof. unfold negate. walk. Qed.
#[export] Hint Resolve adds_negate : adds.
Lemma adds_word a : adds (word a).
Proof. unfold word. walk. intro s. destruct (map_get _ _); exists []; now rewrite app_nil_r. Qed.
#[export] Hint Resolve adds_word : adds.
Lemma adds_unary_ : forall (f : nat) (fn : functions) (power conditional : E (option addr)), fn_adds fn -> (adds (power)) -> (adds (conditional)) -> adds (unary_ f fn power conditional).
Proof. unfold unary_. walk. Qed.
#[export] Hint Resolve adds_unary_ : adds.
Lemma adds_exprs lm fn : fn_adds fn -> forall fuel k, adds (exprs lm fn fuel k).
Proof.
  intros Hf. induction fuel as [|fuel IH]; intro k; cbn [exprs]; [walk|]. intro s. cbv zeta.
  lazymatch goal with |- match ?m s with _ => _ end => at_state m end.
  assert (IHt := IH true). assert (IHf := IH false). clear IH. destruct k; [|auto 30 with adds].
  apply adds_conditional_; [exact IHt|]. apply adds_logical_or_, adds_logical_and_, adds_equality_, adds_relational_, adds_additive_, adds_multiplicative_. auto 30 with adds.
Qed.
#[export] Hint Resolve adds_exprs : adds.
Lemma adds_conditional : forall (lm : libm) (fn : functions) (fuel : nat), fn_adds fn -> adds (conditional lm fn fuel).
Proof. unfold conditional. walk. Qed.
#[export] Hint Resolve adds_conditional : adds.
Lemma adds_compile : forall (lm : libm) (fn : functions) (fuel : nat), fn_adds fn -> adds (compile lm fn fuel).
Proof. unfold compile. walk. Qed.
#[export] Hint Resolve adds_compile : adds.
