(** * What the functions report is only ever added to the messages *)

From Coq Require Import String ZArith List Bool Floats.SpecFloat.
From Verif Require Lexer.
From Verif Require Import Base UnicodeRange NodeHeap DecText DecFmt Color FloatBits Dim.
From Verif Require Import MessagesParser.
From Verif Require Import Expr Hsl Functions MessagesExpr.
Import ListNotations.
Open Scope string_scope. Open Scope list_scope. Open Scope Z_scope.

Notation adds := (only_adds e_msgs).

Definition env_adds (env : fenv) : Prop := (forall n g, adds (f_variable env n g)) /\ (forall a, adds (f_user env a)).
Lemma adds_wrong t : adds (wrong t). Proof. unfold wrong. walk. Qed.
#[export] Hint Resolve adds_wrong : adds.
Lemma adds_get_any : forall (func : addr) (n : Z), adds (get_any func n).
Proof. unfold get_any. walk. Qed.
#[export] Hint Resolve adds_get_any : adds.
Lemma adds_get_typed : forall (ok : ntype -> bool) (func : addr) (n : Z), adds (get_typed ok func n).
Proof. unfold get_typed. walk. Qed.
#[export] Hint Resolve adds_get_typed : adds.
Lemma adds_get_color_arg : forall (func : addr) (n : Z), adds (get_color_arg func n).
Proof. unfold get_color_arg. walk. Qed.
#[export] Hint Resolve adds_get_color_arg : adds.
Lemma adds_number_value : forall (a : addr), adds (number_value a).
Proof. unfold number_value. walk. Qed.
#[export] Hint Resolve adds_number_value : adds.
Lemma adds_get_number : forall (func : addr) (n : Z), adds (get_number func n).
Proof. unfold get_number. walk. Qed.
#[export] Hint Resolve adds_get_number : adds.
Lemma adds_get_number_or_percent : forall (func : addr) (n : Z), adds (get_number_or_percent func n).
Proof. unfold get_number_or_percent. walk. Qed.
#[export] Hint Resolve adds_get_number_or_percent : adds.
Lemma adds_get_string_arg : forall (func : addr) (n : Z), adds (get_string_arg func n).
Proof. unfold get_string_arg. walk. Qed.
#[export] Hint Resolve adds_get_string_arg : adds.
Lemma adds_get_name : forall (func : addr) (n : Z), adds (get_name func n).
Proof. unfold get_name. walk. Qed.
#[export] Hint Resolve adds_get_name : adds.
Lemma adds_make_integer : forall (p : position) (v : Z) (unit : str), adds (make_integer p v unit).
Proof. unfold make_integer. walk. Qed.
#[export] Hint Resolve adds_make_integer : adds.
Lemma adds_make_decimal : forall (t : ntype) (p : position) (v : f64), adds (make_decimal t p v).
Proof. unfold make_decimal. walk. Qed.
#[export] Hint Resolve adds_make_decimal : adds.
Lemma adds_as_decimal : forall (a : addr), adds (as_decimal a).
Proof. unfold as_decimal. walk. Qed.
#[export] Hint Resolve adds_as_decimal : adds.
Lemma adds_fn_abs : forall (func : addr), adds (fn_abs func).
Proof. unfold fn_abs. walk. Qed.
#[export] Hint Resolve adds_fn_abs : adds.
Lemma adds_fn_arc : forall (f : f64 -> f64) (message : string) (func : addr), adds (fn_arc f message func).
Proof. unfold fn_arc. walk. Qed.
#[export] Hint Resolve adds_fn_arc : adds.
Lemma adds_fn_integral : forall (f : f64 -> f64) (message : string) (func : addr), adds (fn_integral f message func).
Proof. unfold fn_integral. walk. Qed.
#[export] Hint Resolve adds_fn_integral : adds.
Lemma adds_to_radians : forall (p : position) (n : f64) (unit : str), adds (to_radians p n unit).
Proof. unfold to_radians. walk. Qed.
#[export] Hint Resolve adds_to_radians : adds.
Lemma adds_fn_trig : forall (f : f64 -> f64) (message : string) (func : addr), adds (fn_trig f message func).
Proof. unfold fn_trig. walk. Qed.
#[export] Hint Resolve adds_fn_trig : adds.
Lemma adds_fn_log : forall (env : fenv) (func : addr), adds (fn_log env func).
Proof. unfold fn_log. walk. Qed.
#[export] Hint Resolve adds_fn_log : adds.
Lemma adds_fn_sign : forall (func : addr), adds (fn_sign func).
Proof. unfold fn_sign. walk. Qed.
#[export] Hint Resolve adds_fn_sign : adds.
Lemma adds_fn_sqrt : forall (func : addr), adds (fn_sqrt func).
Proof. unfold fn_sqrt. walk. Qed.
#[export] Hint Resolve adds_fn_sqrt : adds.
Lemma adds_fn_random : forall (env : fenv) (func : addr), adds (fn_random env func).
Proof. unfold fn_random. walk. Qed.
#[export] Hint Resolve adds_fn_random : adds.
Lemma adds_fn_unit : forall (func : addr), adds (fn_unit func).
Proof. unfold fn_unit. walk. Qed.
#[export] Hint Resolve adds_fn_unit : adds.
Lemma adds_first_number env text p : adds (first_number env text p).
Proof.
  intro s. unfold first_number. destruct (Lexer.next_token (f_libm env) _) as [n l|e l|l|]; try exact I; try (eexists; reflexivity).
  cbv zeta. destruct (is n WHITESPACE); [|eexists; reflexivity]. destruct (Lexer.next_token (f_libm env) l); try exact I; eexists; reflexivity.
Qed.
#[export] Hint Resolve adds_first_number : adds.
Lemma adds_token_node n : adds (token_node n). Proof. at_once. Qed.
#[export] Hint Resolve adds_token_node : adds.
Lemma adds_extreme_loop name better fuel func : forall idx best value unit, adds (extreme_loop name better fuel func idx best value unit).
Proof. induction fuel as [|fuel IH]; intros; cbn [extreme_loop]; walk. Qed.
#[export] Hint Resolve adds_extreme_loop : adds.
Lemma adds_extreme name better func : adds (extreme name better func). Proof. unfold extreme. walk. Qed.
#[export] Hint Resolve adds_extreme : adds.
Lemma adds_convert env same f g h s1 s2 func : (forall p c, adds (f p c)) -> (forall p c, adds (g p c)) -> (forall p c, adds (h p c)) -> adds (convert env same f g h s1 s2 func).
Proof. intros. unfold convert. walk. Qed.
Lemma adds_never p c : adds (never p c). Proof. unfold never. walk. Qed.
#[export] Hint Resolve adds_never : adds.
Lemma adds_decimal_of_integer : forall (p : position) (c : cell), adds (decimal_of_integer p c).
Proof. unfold decimal_of_integer. walk. Qed.
#[export] Hint Resolve adds_decimal_of_integer : adds.
Lemma adds_decimal_of_percent : forall (p : position) (c : cell), adds (decimal_of_percent p c).
Proof. unfold decimal_of_percent. walk. Qed.
#[export] Hint Resolve adds_decimal_of_percent : adds.
Lemma adds_integer_of_decimal : forall (p : position) (c : cell), adds (integer_of_decimal p c).
Proof. unfold integer_of_decimal. walk. Qed.
#[export] Hint Resolve adds_integer_of_decimal : adds.
Lemma adds_integer_of_percent : forall (p : position) (c : cell), adds (integer_of_percent p c).
Proof. unfold integer_of_percent. walk. Qed.
#[export] Hint Resolve adds_integer_of_percent : adds.
Lemma adds_percent_of_integer : forall (p : position) (c : cell), adds (percent_of_integer p c).
Proof. unfold percent_of_integer. walk. Qed.
#[export] Hint Resolve adds_percent_of_integer : adds.
Lemma adds_percent_of_decimal : forall (p : position) (c : cell), adds (percent_of_decimal p c).
Proof. unfold percent_of_decimal. walk. Qed.
#[export] Hint Resolve adds_percent_of_decimal : adds.
Lemma adds_number_text : forall (env : fenv) (c : cell), adds (number_text env c).
Proof. unfold number_text. walk. Qed.
#[export] Hint Resolve adds_number_text : adds.
Lemma adds_fn_decimal_number env func : adds (fn_decimal_number env func). Proof. apply adds_convert; auto with adds. Qed.
Lemma adds_fn_integer env func : adds (fn_integer env func). Proof. apply adds_convert; auto with adds. Qed.
Lemma adds_fn_percentage env func : adds (fn_percentage env func). Proof. apply adds_convert; auto with adds. Qed.
Lemma adds_fn_max func : adds (fn_max func). Proof. apply adds_extreme. Qed.
Lemma adds_fn_min func : adds (fn_min func). Proof. apply adds_extreme. Qed.
#[export] Hint Resolve adds_fn_decimal_number adds_fn_integer adds_fn_percentage adds_fn_max adds_fn_min : adds.
#[export] Hint Resolve adds_number_text : adds.
Lemma adds_fn_text : forall (env : fenv) (same : ntype) (bad_value : string) (func : addr), adds (fn_text env same bad_value func).
Proof. unfold fn_text. walk. Qed.
#[export] Hint Resolve adds_fn_text : adds.
Lemma adds_fn_inspect env func : adds (fn_inspect env func).
Proof. unfold fn_inspect. walk. Qed.
#[export] Hint Resolve adds_fn_inspect : adds.
Lemma adds_fn_str_length : forall (func : addr), adds (fn_str_length func).
Proof. unfold fn_str_length. walk. Qed.
#[export] Hint Resolve adds_fn_str_length : adds.
Lemma adds_fn_type_of : forall (func : addr), adds (fn_type_of func).
Proof. unfold fn_type_of. walk. Qed.
#[export] Hint Resolve adds_fn_type_of : adds.
Lemma adds_fn_component : forall (f : color -> f32) (message : string) (func : addr), adds (fn_component f message func).
Proof. unfold fn_component. walk. Qed.
#[export] Hint Resolve adds_fn_component : adds.
Lemma adds_fn_alpha : forall (func : addr), adds (fn_alpha func).
Proof. unfold fn_alpha. walk. Qed.
#[export] Hint Resolve adds_fn_alpha : adds.
Lemma adds_fn_hue : forall (func : addr), adds (fn_hue func).
Proof. unfold fn_hue. walk. Qed.
#[export] Hint Resolve adds_fn_hue : adds.
Lemma adds_fn_percent : forall (f : color -> f32) (message : string) (func : addr), adds (fn_percent f message func).
Proof. unfold fn_percent. walk. Qed.
#[export] Hint Resolve adds_fn_percent : adds.
Lemma adds_fn_rgb : forall (scale : f64 -> f64) (message : string) (func : addr), adds (fn_rgb scale message func).
Proof. unfold fn_rgb. walk. Qed.
#[export] Hint Resolve adds_fn_rgb : adds.
Lemma adds_fn_rgba : forall (scale : f64 -> f64) (message : string) (func : addr), adds (fn_rgba scale message func).
Proof. unfold fn_rgba. walk. Qed.
#[export] Hint Resolve adds_fn_rgba : adds.
Lemma adds_fn_hsl : forall (alpha : bool) (message : string) (func : addr), adds (fn_hsl alpha message func).
Proof. unfold fn_hsl. walk. Qed.
#[export] Hint Resolve adds_fn_hsl : adds.
Lemma adds_fn_if : forall (func : addr), adds (fn_if func).
Proof. unfold fn_if. walk. Qed.
#[export] Hint Resolve adds_fn_if : adds.
Lemma adds_fn_not : forall (func : addr), adds (fn_not func).
Proof. unfold fn_not. walk. Qed.
#[export] Hint Resolve adds_fn_not : adds.
Lemma adds_fn_exists env global kind message func : env_adds env -> adds (fn_exists env global kind message func).
Proof. intros (H1 & H2). unfold fn_exists. walk. Qed.
#[export] Hint Resolve adds_fn_exists : adds.
Lemma adds_fn_unique_id : forall (counter : Z) (func : addr), adds (fn_unique_id counter func).
Proof. unfold fn_unique_id. walk. Qed.
#[export] Hint Resolve adds_fn_unique_id : adds.
Lemma adds_plain f env counter func : adds (f env func) -> adds (plain f env counter func).
Proof. intro H. unfold plain. walk. Qed.
#[export] Hint Resolve adds_plain : adds.
Lemma adds_table env counter func : env_adds env -> forall e, In e table -> adds (t_run e env counter func).
Proof.
  intros H e I. unfold table in I. cbn [In] in I.
  repeat (destruct I as [<-|I]; [cbn [t_run]; unfold simple; first [apply adds_plain; unfold fn_identifier, fn_string; auto with adds|auto with adds]|]). destruct I.
Qed.
Lemma find_entry_in l name e : find_entry l name = Some e -> In e l.
Proof. induction l as [|x l IH]; [discriminate|]. cbn [find_entry]. destruct (str_eqb _ _); [intro E; injection E as ->; now left|right; auto]. Qed.
Lemma adds_execute env counter func : env_adds env -> adds (execute env counter func).
Proof.
  intro H. unfold execute. apply adds_bind; [auto with adds|]. intro name. destruct (find_entry table name) as [e|] eqn:E.
  - apply find_entry_in in E. pose proof (adds_table env counter func H e E). walk.
  - destruct H as (H1 & H2). walk.
Qed.
#[export] Hint Resolve adds_execute : adds.
