(** * What the lexer, the parser and the selectors report is only ever added to the messages *)

From Coq Require Import String ZArith List Bool.
From Verif Require Import Base NthChild.
From Verif Require Import Parser Selector.
Import ListNotations.
Open Scope string_scope. Open Scope list_scope. Open Scope Z_scope.

(** The messages in the state after are those before and perhaps some more,
    however the computation ends. *)
Definition only_adds {S A} (msgs : S -> list msg) (m : S -> outcome S A) : Prop :=
  forall s, match m s with
            | Ret _ s' | Throw _ s' | Undef s' => exists l, msgs s' = msgs s ++ l
            | NoFuel => True
            end.
Notation adds := (only_adds ps_msgs).
Create HintDb adds.

Lemma adds_ret {A} (x : A) : adds (ret x). Proof. intro s. exists []. now rewrite app_nil_r. Qed.
Lemma adds_fail {A} e : adds (@fail A e). Proof. intro s. exists []. now rewrite app_nil_r. Qed.
Lemma adds_bind {A B} (m : P A) (f : A -> P B) : adds m -> (forall x, adds (f x)) -> adds (bind m f).
Proof.
  intros H K s. specialize (H s). unfold bind. destruct (m s) as [a s1| | |]; try exact H. specialize (K a s1). destruct H as (l & E).
  destruct (f a s1); try exact I; destruct K as (l2 & ->); rewrite E, <- app_assoc; eauto.
Qed.
Lemma adds_last_token : adds last_token. Proof. intro s. exists []. now rewrite app_nil_r. Qed.
Lemma adds_next_token : adds next_token. Proof. intro s. exists []. cbn. now rewrite app_nil_r. Qed.
Lemma adds_report p t : adds (report p t). Proof. intro s. cbn. eauto. Qed.
Lemma adds_emit l : adds (emit l). Proof. intro s. cbn. eauto. Qed.
Lemma adds_skip_spaces : adds skip_spaces. Proof. intro s. exists []. cbn. now rewrite app_nil_r. Qed.
Lemma adds_nofuel {A} : adds (fun _ : pstate => @NoFuel pstate A). Proof. intro s. exact I. Qed.
Lemma adds_undef {A} : adds (fun s : pstate => @Undef pstate A s). Proof. intro s. exists []. now rewrite app_nil_r. Qed.
#[export] Hint Resolve adds_ret adds_fail adds_last_token adds_next_token adds_report adds_emit adds_skip_spaces adds_nofuel adds_undef : adds.
Ltac walk :=
  intros; cbv zeta;
  lazymatch goal with
  | |- only_adds _ (bind _ _) => apply adds_bind; [walk|walk]
  | |- only_adds _ (match ?x with _ => _ end) => destruct x; walk
  | |- only_adds _ _ => auto 6 with adds
  end.
Lemma adds_lift : forall (A : Type) (o : option A), adds (@lift A o).
Proof. unfold lift. walk. Qed.
#[export] Hint Resolve adds_lift : adds.
Lemma adds_skip_space : adds (skip_space).
Proof. unfold skip_space. walk. Qed.
#[export] Hint Resolve adds_skip_space : adds.
Lemma adds_cv : forall fuel, (forall fl rp cp don cur, adds (cv_loop fuel fl rp cp don cur)) /\ (forall a, adds (at_rule fuel a)) /\ (forall n, adds (component_value fuel n)) /\ (forall b c, adds (block fuel b c)) /\ (forall b, adds (block_list fuel b)).
Proof.
  induction fuel as [|fuel (I1 & I2 & I3 & I4 & I5)]; (split; [|split; [|split; [|split]]]); intros; cbn [cv_loop at_rule component_value block block_list]; walk.
Qed.
Lemma adds_cv_loop fuel fl rp cp don cur : adds (cv_loop fuel fl rp cp don cur). Proof. apply adds_cv. Qed.
#[export] Hint Resolve adds_cv_loop : adds.
Lemma adds_at_rule fuel a : adds (at_rule fuel a). Proof. apply adds_cv. Qed.
#[export] Hint Resolve adds_at_rule : adds.
Lemma adds_component_value fuel n : adds (component_value fuel n). Proof. apply adds_cv. Qed.
#[export] Hint Resolve adds_component_value : adds.
Lemma adds_block fuel b c : adds (block fuel b c). Proof. apply adds_cv. Qed.
#[export] Hint Resolve adds_block : adds.
Lemma adds_block_list fuel b : adds (block_list fuel b). Proof. apply adds_cv. Qed.
#[export] Hint Resolve adds_block_list : adds.
Lemma adds_component_value_list : forall (fuel : nat) (fl : cflags), adds (component_value_list fuel fl).
Proof. unfold component_value_list. walk. Qed.
#[export] Hint Resolve adds_component_value_list : adds.
Lemma adds_qualified_rule : forall (fuel : nat), adds (qualified_rule fuel).
Proof. unfold qualified_rule. walk. Qed.
#[export] Hint Resolve adds_qualified_rule : adds.
Lemma adds_stylesheet_loop : forall (fuel : nat) (acc : list node), adds (stylesheet_loop fuel acc).
Proof.
  intros fuel. induction fuel as [|fuel IH]; intros; cbn [stylesheet_loop]; walk.
Qed.
#[export] Hint Resolve adds_stylesheet_loop : adds.
Lemma adds_stylesheet : forall (fuel : nat), adds (stylesheet fuel).
Proof. unfold stylesheet. walk. Qed.
#[export] Hint Resolve adds_stylesheet : adds.
Lemma adds_rule : forall (fuel : nat), adds (rule fuel).
Proof. unfold rule. walk. Qed.
#[export] Hint Resolve adds_rule : adds.
Lemma adds_rule_list_loop : forall (fuel : nat) (acc : list node), adds (rule_list_loop fuel acc).
Proof.
  intros fuel. induction fuel as [|fuel IH]; intros; cbn [rule_list_loop]; walk.
Qed.
#[export] Hint Resolve adds_rule_list_loop : adds.
Lemma adds_rule_list : forall (fuel : nat), adds (rule_list fuel).
Proof. unfold rule_list. walk. Qed.
#[export] Hint Resolve adds_rule_list : adds.
Lemma adds_declaration : forall (fuel : nat) (identifier : node), adds (declaration fuel identifier).
Proof. unfold declaration. walk. Qed.
#[export] Hint Resolve adds_declaration : adds.
Lemma adds_declaration_loop : forall (fuel : nat) (acc : list node), adds (declaration_loop fuel acc).
Proof.
  intros fuel. induction fuel as [|fuel IH]; intros; cbn [declaration_loop]; walk.
Qed.
#[export] Hint Resolve adds_declaration_loop : adds.
Lemma adds_declaration_list : forall (fuel : nat), adds (declaration_list fuel).
Proof. unfold declaration_list. walk. Qed.
#[export] Hint Resolve adds_declaration_list : adds.
Lemma adds_parse : forall (e : entry) (fuel : nat), adds (parse e fuel).
Proof. unfold parse. walk. Qed.
#[export] Hint Resolve adds_parse : adds.
Lemma adds_argify_loop code sep p l : forall args arg, adds (argify_loop code sep p l args arg).
Proof. induction l as [|x l IH]; intros; cbn [argify_loop]; walk. Qed.
#[export] Hint Resolve adds_argify_loop : adds.
Lemma adds_argify code n sep : adds (argify code n sep). Proof. unfold argify. walk. Qed.
#[export] Hint Resolve adds_argify : adds.
Lemma adds_refuse : forall (A : Type) (p : position) (text : string), adds (@refuse A p text).
Proof. unfold refuse. walk. Qed.
#[export] Hint Resolve adds_refuse : adds.
Lemma adds_run_validation : forall (k : checks) (sc : script) (name : str) (check_only : bool), adds (run_validation k sc name check_only).
Proof. unfold run_validation. walk. Qed.
#[export] Hint Resolve adds_run_validation : adds.
Lemma adds_attribute_check : forall (done : list node) (n : node) (rest : list node), adds (attribute_check done n rest).
Proof. unfold attribute_check. walk. Qed.
#[export] Hint Resolve adds_attribute_check : adds.
Lemma adds_lang_check : forall (k : checks) (f : node), adds (lang_check k f).
Proof. unfold lang_check. walk. Qed.
#[export] Hint Resolve adds_lang_check : adds.
Lemma adds_pseudo_function : forall (k : checks) (p : position) (f : node), adds (pseudo_function k p f).
Proof. unfold pseudo_function. walk. Qed.
#[export] Hint Resolve adds_pseudo_function : adds.
Lemma adds_simple_term : forall (k : checks) (p : position) (c : cursor), adds (simple_term k p c).
Proof. unfold simple_term. walk. Qed.
#[export] Hint Resolve adds_simple_term : adds.
Lemma adds_selector_term : forall (k : checks) (p : position) (c : cursor), adds (selector_term k p c).
Proof. unfold selector_term. walk. Qed.
#[export] Hint Resolve adds_selector_term : adds.
Lemma adds_skip_separator : forall (p : position) (c : cursor), adds (skip_separator p c).
Proof. unfold skip_separator. walk. Qed.
#[export] Hint Resolve adds_skip_separator : adds.
Lemma adds_selector_loop : forall (fuel : nat) (k : checks) (p : position) (c : cursor), adds (selector_loop fuel k p c).
Proof.
  intros fuel. induction fuel as [|fuel IH]; intros; cbn [selector_loop]; walk.
Qed.
#[export] Hint Resolve adds_selector_loop : adds.
Lemma adds_selector_list : forall (k : checks) (n : node), adds (selector_list k n).
Proof. unfold selector_list. walk. Qed.
#[export] Hint Resolve adds_selector_list : adds.
Lemma adds_hashes : forall (p : position) (l : list node) (seen : list str) (err : bool), adds (hashes p l seen err).
Proof.
  intros p l. revert p. induction l as [|x0_ l IH]; intros; cbn [hashes]; walk.
Qed.
#[export] Hint Resolve adds_hashes : adds.
Lemma adds_check_hashes : forall (arg : node), adds (check_hashes arg).
Proof. unfold check_hashes. walk. Qed.
#[export] Hint Resolve adds_check_hashes : adds.
Lemma adds_selectors : forall (k : checks) (l : list node) (acc : list node), adds (selectors k l acc).
Proof.
  intros k l. revert k. induction l as [|x0_ l IH]; intros; cbn [selectors]; walk.
Qed.
#[export] Hint Resolve adds_selectors : adds.
Lemma adds_parse_selector : forall (code : ntype -> Z) (k : checks) (n : node), adds (parse_selector code k n).
Proof. unfold parse_selector. walk. Qed.
#[export] Hint Resolve adds_parse_selector : adds.
