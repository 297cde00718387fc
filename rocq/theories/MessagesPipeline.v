(** * What the passes and the functions report is only ever added to the messages *)

From Coq Require Import String ZArith List Bool Floats.SpecFloat.
From Verif Require Import Base NodeHeap.
From Verif Require Lexer Parser Expr Functions Selector Assembler NodeText.
From Verif Require MessagesExpr MessagesFunctions MessagesCompiler.
From Verif Require Import MessagesParser MessagesCompiler MessagesCompile.
From Verif Require Import Compiler Compile Pipeline.
Import ListNotations.
Open Scope string_scope. Open Scope list_scope. Open Scope Z_scope.

Notation adds := (only_adds k_msgs).
Notation adds_e := (only_adds Expr.e_msgs).

Lemma adds_selector_pass o x n : adds (selector_pass o x n).
Proof.
  intro s. unfold selector_pass.
  destruct (nth_error _ n) as [c|]; [|exists []; now rewrite app_nil_r].
  destruct (split_last _) as [(front, last)|]; [|exists []; now rewrite app_nil_r].
  destruct (dig_all _ front) as [l|]; [|exists []; now rewrite app_nil_r]. cbv zeta.
  match goal with |- match (match Selector.parse_selector ?a ?b ?c ?p with _ => _ end) with _ => _ end =>
    pose proof (MessagesParser.adds_parse_selector a b c p) as H; destruct (Selector.parse_selector a b c p) as [[t|] ps|e ps|ps|] end; try exact I.
  1: destruct (plant_all _ _) as [args h].
  all: exact H.
Qed.
#[export] Hint Resolve adds_selector_pass : adds.
Lemma adds_passes k fuel x : rules_add k -> adds (passes k fuel x).
Proof. intro R. unfold passes. pose proof (adds_run k R) as Q. walk. Qed.
#[export] Hint Resolve adds_passes : adds.
Lemma adds_in_expr paths {A} (m : C A) : adds m -> adds_e (in_expr paths m).
Proof.
  intros H s. unfold in_expr. specialize (H (mkK (Expr.e_heap s) (Expr.e_msgs s) paths)).
  destruct (m _); try exact I; exact H.
Qed.
Lemma adds_handler_variable x name global : adds (handler_variable x name global).
Proof. unfold handler_variable. walk. Qed.
#[export] Hint Resolve adds_handler_variable : adds.
Lemma adds_user_arguments fuel root func val args : forall inputs, adds (user_arguments fuel root func val args inputs).
Proof. induction args as [|a args IH]; intros; cbn [user_arguments]; walk. Qed.
#[export] Hint Resolve adds_user_arguments : adds.
Lemma adds_add_clones fuel root l : adds (add_clones fuel root l).
Proof. induction l as [|a l IH]; cbn [add_clones]; walk. Qed.
#[export] Hint Resolve adds_add_clones : adds.
Lemma adds_user_function compile fuel x func : (forall y, adds (compile y)) -> adds (user_function compile fuel x func).
Proof. intro H. unfold user_function. walk. Qed.

(** What the lexer and the parser report comes after what was reported before. *)
Lemma read_sheet_adds o input g :
  match read_sheet o input g with
  | Ret _ g2 | Throw _ g2 | Undef g2 => exists l, snd g2 = snd g ++ l
  | NoFuel => True
  end.
Proof.
  unfold read_sheet. destruct (Lexer.lex_all _ _) as [toks s|e s|s|]; try exact I; try solve [cbn; eauto]. cbv zeta.
  pose proof (MessagesParser.adds_parse Parser.EStylesheet (Parser.enough toks) (Parser.mkPS toks (Lexer.l_pos s) (snd g ++ rev (Lexer.l_log s)))) as H.
  destruct (Parser.parse _ _ _) as [n ps|e ps|ps|]; try exact I; destruct H as (l & H); cbn [Parser.ps_msgs] in H; rewrite <- app_assoc in H.
  1: destruct (plant n (fst g)) as [a h].
  all: cbn [snd]; eauto.
Qed.
Lemma load_sheet_adds o file g :
  match load_sheet o file g with
  | Ret _ g2 | Throw _ g2 | Undef g2 => exists l, snd g2 = snd g ++ l
  | NoFuel => True
  end.
Proof.
  unfold load_sheet. destruct (o_read o file) as [input|]; [|exists []; now rewrite app_nil_r].
  pose proof (read_sheet_adds o input g) as H. destruct (read_sheet o input g); exact H.
Qed.
Lemma world_of_adds o fn : (forall x, MessagesExpr.fn_adds (fn x)) -> world_adds (world_of o fn).
Proof. intro H. split; [exact H|]. intros file h ms. exact (load_sheet_adds o file (h, ms)). Qed.
Lemma rules_of_add o fn : (forall x, MessagesExpr.fn_adds (fn x)) -> rules_add (rules_of o fn).
Proof. intro H. split; [now apply world_of_adds|]. intros x n. apply adds_selector_pass. Qed.

Lemma adds_in_call c n {A} (m : Expr.E A) : adds_e m -> adds (in_call c n m).
Proof. intros H s. unfold in_call. specialize (H (Expr.mkE (k_heap s) (k_msgs s) n 0 (-1) c [] false)). destruct (m _); try exact I; exact H. Qed.
Lemma functions_add o paths : forall fuel x, MessagesExpr.fn_adds (functions_of o paths fuel x).
Proof.
  induction fuel as [|fuel IH]; intros x c0 a h ms; [exact I|]. cbn [functions_of fst snd]. cbv zeta.
  match goal with |- match (match ?m ?s with _ => _ end) with _ => _ end =>
    assert (H : adds m); [|specialize (H s); destruct (m s) as [r k|e k|k|]; try exact I; exact H] end.
  apply adds_bind; [auto with adds|]. intros _. apply adds_bind; [auto with adds|]. intro name.
  apply adds_bind.
  - walk.
  - intros _. apply adds_bind; [|walk]. apply adds_in_call. apply MessagesFunctions.adds_execute. split.
    + intros nm gl. cbn [Functions.f_variable]. apply adds_in_expr. auto with adds.
    + intro c. cbn [Functions.f_user]. apply adds_in_expr. apply adds_user_function. intro y. apply adds_passes. apply rules_of_add. exact IH.
Qed.
Lemma the_rules_add o paths fuel : rules_add (rules_of o (functions_of o paths fuel)).
Proof. apply rules_of_add. apply functions_add. Qed.
