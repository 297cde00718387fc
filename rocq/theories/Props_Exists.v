(** * C77: which variables and functions exist; percentages *)

From Coq Require Import String ZArith List Bool Lia Arith ZifyBool Reals Lra Floats.SpecFloat.
From Verif Require Import Base UnicodeRange NodeHeap NodeProofs Color FloatBits Dim Expr ExprSpec ExprRun Hsl Functions FunctionSpec FunctionRun
  FloatFacts FloatMath Props_Functions Props_Math.
Import ListNotations.
Open Scope string_scope. Open Scope list_scope. Open Scope Z_scope.
Ltac Zify.zify_post_hook ::= idtac.

(** What was found under a name is a definition of one of these kinds: the
    compiler stores a definition as a LIST, of what is defined and its value. *)
Inductive defined (s : est) (kinds : list ntype) : option addr -> Prop :=
| is_defined : forall v d x l e, node_at s v d -> c_type d = LIST -> c_ch d = x :: l -> node_at s x e -> In (c_type e) kinds -> defined s kinds (Some v).
(** ... is something else, made of nodes which exist. *)
Inductive other (s : est) (kinds : list ntype) : option addr -> Prop :=
| other_none : other s kinds None
| other_node : forall v d, node_at s v d -> c_type d <> LIST -> other s kinds (Some v)
| other_empty : forall v d, node_at s v d -> c_type d = LIST -> c_ch d = [] -> other s kinds (Some v)
| other_kind : forall v d x l e, node_at s v d -> c_type d = LIST -> c_ch d = x :: l -> node_at s x e -> ~ In (c_type e) kinds -> other s kinds (Some v).
Lemma defined_or_other s kinds o : defined s kinds o -> other s kinds o -> False.
Proof.
  intros D O. destruct D as [v d x l e A B C E F]. inversion O as [|v' d' A' B'|v' d' A' B' C'|v' d' x' l' e' A' B' C' E' F']; subst;
    unfold node_at in *; rewrite A in A'; injection A' as <-; try congruence.
Qed.

(** The lookup of a name gives [o] (a new node makes no difference to it). *)
Definition finds (env : fenv) (s : est) (n : str) (global : bool) (o : option addr) : Prop :=
  forall c, f_variable env n global (fresh s c) = Ret o (fresh s c).

Definition truth_node (b : bool) (c : cell) : Prop := c_type c = BOOLEAN /\ c_bool c = b.
Definition variables : list ntype := [VARIABLE; IDENTIFIER].
Definition functions : list ntype := [VARIABLE_FUNCTION; FUNCTION].

Lemma run_name s func name x c : called s func name [[x]] -> node_at s x c -> In (c_type c) [STRING; IDENTIFIER] ->
  get_name func 0 s = Ret (Some (x, c_str c)) s.
Proof.
  intros C H T. unfold get_name. rewrite (b_ret _ _ _ _ _ (run_get_typed s func _ _ C _ 0 x c eq_refl H)).
  destruct T as [T|[T|[]]]; rewrite <- T; cbn [ntype_eqb orb]; change (ntype_eqb STRING IDENTIFIER) with false; change (ntype_eqb STRING STRING) with true;
    change (ntype_eqb IDENTIFIER IDENTIFIER) with true; cbn [orb]; cbv iota; rewrite (b_ret _ _ _ _ _ (run_string s x c H ltac:(rewrite <- T; reflexivity))); reflexivity.
Qed.
Lemma exists_run env s func name x c n global kind kinds message o (b : bool) : called s func name [[x]] -> node_at s x c ->
  In (c_type c) [STRING; IDENTIFIER] -> c_str c = n -> n <> [] -> finds env s n global o ->
  (forall t, kind t = true <-> In t kinds) -> (if b then defined s kinds o else other s kinds o) ->
  exists r, fn_exists env global kind message func s = Ret (Some (new_addr s)) (fresh s r) /\ truth_node b r.
Proof.
  intros C H T N NE F K D. destruct (called_pos _ _ _ _ C) as (p & P).
  unfold fn_exists. rewrite (b_ret _ _ _ _ _ (run_name _ _ _ _ _ C H T)). rewrite N. cbv iota beta. destruct n as [|n0 n]; [congruence|].
  rewrite (b_ret _ _ _ _ _ P). rewrite (b_ret _ _ _ _ _ (run_alloc _ _ _)). rewrite (b_ret _ _ _ _ _ (F (blank BOOLEAN p))).
  set (f := fresh s (blank BOOLEAN p)).
  assert (Keep : forall a d, node_at s a d -> node_at f a d) by (intros a d A; exact (fresh_keeps _ _ a d A)).
  assert (No : forall m : E unit, m f = Ret tt f -> exists r, bind m (fun _ => ret (Some (new_addr s))) f = Ret (Some (new_addr s)) (fresh s r) /\ truth_node false r).
  { intros m M. exists (blank BOOLEAN p). split; [rewrite (b_ret _ _ _ _ _ M); reflexivity|split; reflexivity]. }
  destruct b.
  - destruct D as [v d y l e A B Cl E I]. exists (with_bool (blank BOOLEAN p) true). split; [|split; reflexivity].
    rewrite bind_assoc. rewrite (b_ret _ _ _ _ _ (run_type _ _ _ (Keep _ _ A))). rewrite B. change (ntype_eqb LIST LIST) with true. cbv iota.
    rewrite bind_assoc. rewrite (b_ret _ _ _ _ _ (run_size _ _ _ (Keep _ _ A) ltac:(rewrite B; reflexivity))). rewrite Cl.
    replace (Z.of_nat (length (y :: l)) =? 0) with false by (cbn; lia). cbv iota.
    rewrite bind_assoc. rewrite (b_ret _ _ _ _ _ (run_child _ _ _ (Keep _ _ A) 0 y ltac:(rewrite B; reflexivity) ltac:(rewrite Cl; cbn; lia) ltac:(rewrite Cl; reflexivity))).
    rewrite bind_assoc. rewrite (b_ret _ _ _ _ _ (run_type _ _ _ (Keep _ _ E))). rewrite (proj2 (K _) I). cbv iota.
    rewrite (b_ret _ _ _ _ _ (run_set_boolean f _ _ (fresh_at _ _) true ltac:(reflexivity))). unfold f. rewrite fresh_put. reflexivity.
  - destruct D as [|v d A B|v d A B Cl|v d y l e A B Cl E I].
    + apply No. reflexivity.
    + apply No. rewrite (b_ret _ _ _ _ _ (run_type _ _ _ (Keep _ _ A))). rewrite (proj2 (ntype_eqb_neq _ _) B). reflexivity.
    + apply No. rewrite (b_ret _ _ _ _ _ (run_type _ _ _ (Keep _ _ A))). rewrite B. change (ntype_eqb LIST LIST) with true. cbv iota.
      rewrite (b_ret _ _ _ _ _ (run_size _ _ _ (Keep _ _ A) ltac:(rewrite B; reflexivity))). rewrite Cl. reflexivity.
    + apply No. rewrite (b_ret _ _ _ _ _ (run_type _ _ _ (Keep _ _ A))). rewrite B. change (ntype_eqb LIST LIST) with true. cbv iota.
      rewrite (b_ret _ _ _ _ _ (run_size _ _ _ (Keep _ _ A) ltac:(rewrite B; reflexivity))). rewrite Cl.
      replace (Z.of_nat (length (y :: l)) =? 0) with false by (cbn; lia). cbv iota.
      rewrite (b_ret _ _ _ _ _ (run_child _ _ _ (Keep _ _ A) 0 y ltac:(rewrite B; reflexivity) ltac:(rewrite Cl; cbn; lia) ltac:(rewrite Cl; reflexivity))).
      rewrite (b_ret _ _ _ _ _ (run_type _ _ _ (Keep _ _ E))).
      destruct (kind (c_type e)) eqn:Q; [apply K in Q; contradiction|reflexivity].
Qed.

(** variable_exists() and global_variable_exists() *)
Theorem c77_variable : forall env name global s func x c o (b : bool), In (name, global) [("variable_exists", false); ("global_variable_exists", true)] ->
  called s func (zs name) [[x]] -> node_at s x c -> In (c_type c) [STRING; IDENTIFIER] -> c_str c <> [] -> finds env s (c_str c) global o ->
  (if b then defined s variables o else other s variables o) -> yields env s func [] (truth_node b).
Proof.
  intros env name global s func x c o b I C H T N F D.
  assert (K : forall t, variable_kind t = true <-> In t variables).
  { intro t. unfold variable_kind, variables. cbn [In]. rewrite orb_true_iff, !ntype_eqb_spec. split; [intros [->| ->]; auto|intros [<-|[<-|[]]]; auto]. }
  destruct I as [I|[I|[]]]; injection I as <- <-;
    [destruct (exists_run env s func _ x c _ false variable_kind variables "variable_exists() expects a string or an identifier as parameter." o b C H T eq_refl N F K D) as (r & R & W)
    |destruct (exists_run env s func _ x c _ true variable_kind variables "global_variable_exists() expects a string or an identifier as parameter." o b C H T eq_refl N F K D) as (r & R & W)];
    (apply (yields_fresh env s func r); [enter C; exact R|exact W]).
Qed.

(** function_exists(): the functions of the language exist ... *)
Definition language : list string := map (fun e => fst (fst e)) arities ++ unbounded.
Lemma found_iff n : (exists e, find_entry table n = Some e) <-> In n (map zs language).
Proof.
  assert (G : forall l, (exists e, find_entry l n = Some e) <-> In n (map (fun e => zs (t_name e)) l)).
  { induction l as [|e l IH]; cbn [find_entry map In]; [split; [intros (e & E); discriminate|intros []]|].
    destruct (str_eqb n (zs (t_name e))) eqn:Q.
    - apply str_eqb_spec in Q. split; [intros _; left; congruence|intros _; eauto].
    - rewrite IH. split; [tauto|]. intros [X|X]; [|exact X]. apply str_eqb_neq in Q. congruence. }
  rewrite G. clear G. split.
  - assert (X : incl (map (fun e => zs (t_name e)) table) (map zs language)).
    { assert (Y : forallb (fun x => existsb (str_eqb x) (map zs language)) (map (fun e => zs (t_name e)) table) = true) by (vm_compute; reflexivity).
      rewrite forallb_forall in Y. intros a A. specialize (Y a A). apply existsb_exists in Y. destruct Y as (b & B & E). apply str_eqb_spec in E. now subst b. }
    apply X.
  - assert (X : incl (map zs language) (map (fun e => zs (t_name e)) table)).
    { assert (Y : forallb (fun x => existsb (str_eqb x) (map (fun e => zs (t_name e)) table)) (map zs language) = true) by (vm_compute; reflexivity).
      rewrite forallb_forall in Y. intros a A. specialize (Y a A). apply existsb_exists in Y. destruct Y as (b & B & E). apply str_eqb_spec in E. now subst b. }
    apply X.
Qed.
Lemma function_exists_start env n s func x c : called s func (zs "function_exists") [[x]] -> node_at s x c -> In (c_type c) [STRING; IDENTIFIER] -> c_str c <> [] ->
  execute env n func s = match find_entry table (c_str c) with
    | Some _ => (p <- pos_of func ;; r <- new_boolean p true ;; ret (Some r, n)) s
    | None => (r <- fn_exists env true function_kind "function_exists() expects a string or an identifier as parameter." func ;; ret (r, n)) s
    end.
Proof.
  intros C H T N. unfold execute. rewrite (b_ret _ _ _ _ _ (called_name s func _ _ C)).
  match goal with |- context [find_entry table ?x] =>
    replace (find_entry table x) with (Some (mkEntry "function_exists" 1 1 (plain (fun env => fn_exists env true function_kind "function_exists() expects a string or an identifier as parameter.")))) by reflexivity end.
  rewrite (b_ret _ _ _ _ _ (called_size s func _ _ C)). cbn [t_min t_max length]. change ((1 <=? Z.of_nat 1) && (Z.of_nat 1 <=? 1)) with true. cbv iota.
  rewrite str_eqb_refl. rewrite bind_assoc, (b_ret _ _ _ _ _ (run_name _ _ _ _ _ C H T)). rewrite bind_ret.
  destruct (c_str c) as [|a l]; [congruence|]. destruct (find_entry table (a :: l)); reflexivity.
Qed.
Theorem c77_language : forall env s func x c, called s func (zs "function_exists") [[x]] -> node_at s x c -> In (c_type c) [STRING; IDENTIFIER] ->
  In (c_str c) (map zs language) -> yields env s func [] (truth_node true).
Proof.
  intros env s func x c C H T I. destruct (called_pos _ _ _ _ C) as (p & P).
  assert (N : c_str c <> []).
  { intro E. rewrite E in I. assert (X : existsb (str_eqb []) (map zs language) = true) by (apply existsb_exists; exists []; split; [exact I|reflexivity]). vm_compute in X. discriminate. }
  apply (yields_fresh env s func (with_bool (blank BOOLEAN p) true)); [|split; reflexivity].
  intro n. rewrite (function_exists_start env n s func x c C H T N). apply found_iff in I. destruct I as (e & ->).
  rewrite (b_ret _ _ _ _ _ P). unfold new_boolean. steps. reflexivity.
Qed.
(** ... and so do those of the script. *)
Theorem c77_function : forall env s func x c o (b : bool), called s func (zs "function_exists") [[x]] -> node_at s x c -> In (c_type c) [STRING; IDENTIFIER] -> c_str c <> [] ->
  ~ In (c_str c) (map zs language) -> finds env s (c_str c) true o ->
  (if b then defined s functions o else other s functions o) -> yields env s func [] (truth_node b).
Proof.
  intros env s func x c o b C H T N L F D.
  assert (K : forall t, function_kind t = true <-> In t functions).
  { intro t. unfold function_kind, functions. cbn [In]. rewrite orb_true_iff, !ntype_eqb_spec. split; [intros [->| ->]; auto|intros [<-|[<-|[]]]; auto]. }
  destruct (exists_run env s func _ x c _ true function_kind functions "function_exists() expects a string or an identifier as parameter." o b C H T eq_refl N F K D) as (r & R & W).
  apply (yields_fresh env s func r); [|exact W]. intro n. rewrite (function_exists_start env n s func x c C H T N).
  destruct (find_entry table (c_str c)) as [e|] eqn:E; [exfalso; apply L, found_iff; eauto|]. rewrite (b_ret _ _ _ _ _ R). reflexivity.
Qed.
(** An empty name is an error. *)
Theorem c77_empty : forall env name s func x c, In name ["variable_exists"; "global_variable_exists"; "function_exists"] ->
  called s func (zs name) [[x]] -> current_ok s -> node_at s x c -> In (c_type c) [STRING; IDENTIFIER] -> c_str c = [] -> denied env s func.
Proof.
  intros env name s func x c I C K H T N.
  assert (W : forall global kind m, fails (fn_exists env global kind m func) s).
  { intros global kind m. unfold fn_exists. eapply fails_bind; [exact (run_name _ _ _ _ _ C H T)|]. rewrite N. apply fails_wrong. exact K. }
  destruct I as [I|[I|[I|[]]]]; subst name.
  - eapply denied_plain; [exact C|reflexivity|unfold simple; reflexivity|cbn [t_min t_max length]; lia|reflexivity|apply W].
  - eapply denied_plain; [exact C|reflexivity|unfold simple; reflexivity|cbn [t_min t_max length]; lia|reflexivity|apply W].
  - destruct (W true function_kind "function_exists() expects a string or an identifier as parameter.") as (p & t & R). intro n.
    unfold execute. rewrite (b_ret _ _ _ _ _ (called_name s func _ _ C)).
    match goal with |- context [find_entry table ?x] =>
      replace (find_entry table x) with (Some (mkEntry "function_exists" 1 1 (plain (fun env => fn_exists env true function_kind "function_exists() expects a string or an identifier as parameter.")))) by reflexivity end.
    rewrite (b_ret _ _ _ _ _ (called_size s func _ _ C)). cbn [t_min t_max length]. change ((1 <=? Z.of_nat 1) && (Z.of_nat 1 <=? 1)) with true. cbv iota.
    rewrite str_eqb_refl. rewrite bind_assoc, (b_ret _ _ _ _ _ (run_name _ _ _ _ _ C H T)). rewrite bind_ret, N. cbn [t_run]. unfold plain.
    rewrite (b_ret _ _ _ _ _ R). eexists. eexists. split; [reflexivity|]. split; [reflexivity|]. split; [reflexivity|]. intros a d A. exact A.
Qed.

(** percentage(): the same value (50 is 5000%); the unit is lost. *)
Theorem c77_percentage : forall env s func x c, called s func (zs "percentage") [[x]] -> node_at s x c ->
  (forall v u, int_node c v u -> int64_ok v = true -> yields env s func [] (fun r => exists w, percent_node r w /\ f64_R w = rnd (IZR v)))
  /\ (forall v u, dec_node c v u -> yields env s func [] (fun r => percent_node r v))
  /\ (forall v, percent_node c v -> yields env s func [] (fun r => r = c)).
Proof.
  intros env s func x c C H. split; [|split].
  - intros v u (T & V & U) B. assert (Bv : Z.abs v <= 2 ^ 63) by (unfold int64_ok in B; lia).
    apply (yields_fresh _ _ _ (with_dec (blank PERCENT (c_pos c)) (f64_of_Z v))).
    + enter C. unfold fn_percentage, convert. rewrite (b_ret _ _ _ _ _ (run_get_any _ _ _ _ C 0)). cbn [arg1 nth_error]. step. rewrite T.
      change (ntype_eqb INTEGER PERCENT) with false. cbv iota. unfold percent_of_integer, make_decimal. rewrite V. steps. reflexivity.
    + exists (f64_of_Z v). split; [split; reflexivity|]. destruct (f64_of_Z_spec v (rnd_bound v Bv)) as (_ & _ & R). exact R.
  - intros v u (T & V & U). apply (yields_fresh _ _ _ (with_dec (blank PERCENT (c_pos c)) v)); [|split; reflexivity].
    enter C. unfold fn_percentage, convert. rewrite (b_ret _ _ _ _ _ (run_get_any _ _ _ _ C 0)). cbn [arg1 nth_error]. step. rewrite T.
    change (ntype_eqb DECIMAL_NUMBER PERCENT) with false. cbv iota. unfold percent_of_decimal, make_decimal. rewrite V. steps. reflexivity.
  - intros v (T & V). eapply yields_same; [exact H| |reflexivity].
    enter C. unfold fn_percentage, convert. rewrite (b_ret _ _ _ _ _ (run_get_any _ _ _ _ C 0)). cbn [arg1 nth_error]. step. rewrite T. reflexivity.
Qed.
(** decimal_number() and integer() of a percentage: 1 for 100%, without unit. *)
Theorem c77_back : forall env s func x c v, node_at s x c -> percent_node c v ->
  (called s func (zs "decimal_number") [[x]] -> yields env s func [] (fun r => dec_node r v []))
  /\ (called s func (zs "integer") [[x]] -> forall z, f64_finite v -> truncated (f64_R v) z -> int64_ok z = true -> yields env s func [] (fun r => int_node r z [])).
Proof.
  intros env s func x c v H (T & V). split; intro C.
  - apply (yields_fresh _ _ _ (with_dec (blank DECIMAL_NUMBER (c_pos c)) v)); [|split; [reflexivity|split; reflexivity]].
    enter C. unfold fn_decimal_number, convert. rewrite (b_ret _ _ _ _ _ (run_get_any _ _ _ _ C 0)). cbn [arg1 nth_error]. step. rewrite T.
    change (ntype_eqb PERCENT DECIMAL_NUMBER) with false. cbv iota. unfold decimal_of_percent, make_decimal. rewrite V. steps. reflexivity.
  - intros z F TR OK. destruct (sf_trunc_spec v F) as (z' & E & TR'). assert (z' = z) as -> by exact (truncated_unique _ _ _ TR' TR).
    apply (yields_fresh _ _ _ (with_str (with_int (blank INTEGER (c_pos c)) z) [])); [|split; [reflexivity|split; reflexivity]].
    enter C. unfold fn_integer, convert. rewrite (b_ret _ _ _ _ _ (run_get_any _ _ _ _ C 0)). cbn [arg1 nth_error]. step. rewrite T.
    change (ntype_eqb PERCENT INTEGER) with false. cbv iota. unfold integer_of_percent, to_int64, int_of_f64, make_integer. rewrite V, E, OK. steps. reflexivity.
Qed.

(** A script in which the name "v" is that of a variable. *)
Definition ex_env : fenv := mkFE (mkLibm (fun x _ => x)) (fun x => x) (fun x => x) (fun x => x) (fun x => x) (fun x => x) (fun x => x) (fun x => x) 0 3
  (fun _ => []) (fun _ _ => []) (fun n _ => ret (if str_eqb n (zs "v") then Some 3%nat else None)) (fun _ => ret None).
Definition ex_state (name argument : string) : est :=
  with_heap (call name [text argument]) (e_heap (call name [text argument]) ++ [with_ch (ExprSpec.plain LIST) [4%nat]; ExprSpec.plain VARIABLE]).
Example c77_ex : called (ex_state "variable_exists" "v") 0%nat (zs "variable_exists") [[2%nat]]
  /\ finds ex_env (ex_state "variable_exists" "v") (zs "v") false (Some 3%nat)
  /\ finds ex_env (ex_state "variable_exists" "w") (zs "w") false None
  /\ defined (ex_state "variable_exists" "v") variables (Some 3%nat)
  /\ other (ex_state "function_exists" "v") functions (Some 3%nat)
  /\ In (zs "cos") (map zs language) /\ ~ In (zs "v") (map zs language)
  /\ current_ok (ex_state "variable_exists" "")
  /\ match execute ex_env 0 0%nat (ex_state "variable_exists" "v") with
     | Ret (Some r, n) s => exists c, node_at s r c /\ truth_node true c
     | _ => False
     end
  /\ match execute ex_env 0 0%nat (ex_state "function_exists" "v") with
     | Ret (Some r, n) s => exists c, node_at s r c /\ truth_node false c
     | _ => False
     end.
Proof.
  split.
  { eexists. split; [vm_compute; reflexivity|]. split; [reflexivity|]. split; [reflexivity|]. constructor; [|constructor]. split.
    - eexists. split; [vm_compute; reflexivity|split; reflexivity].
    - intros x [<-|[]]. eexists. vm_compute. reflexivity. }
  split; [intro c; reflexivity|]. split; [intro c; reflexivity|].
  split; [eapply is_defined; [vm_compute; reflexivity|reflexivity|reflexivity|vm_compute; reflexivity|left; reflexivity]|].
  split; [eapply other_kind; [vm_compute; reflexivity|reflexivity|reflexivity|vm_compute; reflexivity|intros [X|[X|[]]]; discriminate X]|].
  split; [apply in_map; unfold language; apply in_or_app; left; cbn [arities map fst]; repeat (first [left; reflexivity|right])|].
  split.
  { intro I. assert (X : existsb (str_eqb (zs "v")) (map zs language) = true) by (apply existsb_exists; exists (zs "v"); split; [exact I|apply str_eqb_refl]).
    vm_compute in X. discriminate X. }
  split; [exists 0%nat; eexists; split; [reflexivity|vm_compute; reflexivity]|].
  split; vm_compute; eexists; (split; [reflexivity|split; reflexivity]).
Qed.
