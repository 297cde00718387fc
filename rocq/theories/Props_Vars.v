(** * C71: scripts with variables, from a text to a text

    WholeSpec.v says what a rule and its values are, VarSpec.v what a script with
    variables is, its text, its layouts and its rules with the values of the
    variables, StyleSpec.v the text of rules in each style; Pipeline.translate is
    the whole of the program (lexer, parser, the passes of compile(), assembler). *)

From Coq Require Import String ZArith List Bool Lia Floats.SpecFloat.
From Verif Require Import Base NodeHeap.
From Verif Require Lexer Parser Expr Functions Selector Assembler NodeText.
From Verif Require Import Compiler Compile Pipeline WholeSpec LaySpec VarSpec StyleSpec.
From Verif Require WholeMain WholeEnv WholeRoot WholeVarMain WholeUnset WholeUnsetMain WholeShape.
Import ListNotations.
Open Scope string_scope. Open Scope list_scope. Open Scope Z_scope.

(** No field of the rules takes '/' as a separator of its values. *)
Definition no_slash (o : outside) (l : list rule) : Prop := Forall (fun r => Forall (fun d => o_slash o (d_name d) = false) (r_decls r)) l.
(** The size of a script: its characters. *)
Definition script_size (l : list statement) : nat := length (script_text l).
(** A script the theorems are about: each statement is one of VarSpec.v, the
    variables are set before they are used, there is a rule, and the sizes fit
    the machine. [l'] is the script with the values of its variables. *)
Definition good (o : outside) (l l' : list statement) : Prop :=
  Forall statement_ok l /\ resolve unset l = Some l' /\ styles l' <> [] /\ no_slash o (styles l')
  /\ Z.of_nat (script_size l) < 2 ^ 60 /\ Z.of_nat (script_size l') < 2 ^ 60.

(** C71. However a script with variables is laid out, the output in each style is
    the exact text of its rules, where each variable is replaced by the values of
    the last statement above which sets it; there are no messages. *)
Theorem c71_variables : forall o l l' t m fuel,
  good o l l' -> script_laid l t -> (8 * (script_size l + script_size l') + 12 <= fuel)%nat ->
  translate o fuel m t = Ret (Some (sheet_styled m (styles l'))) [].
Proof. intros o l l' t m fuel (A & B & C & D & E & F) L Fu. now apply WholeVarMain.script_same with (l := l). Qed.

(** The rules with the values are plain CSS: what is written has no variable. *)
Theorem c71_plain : forall o l l' t, good o l l' -> script_laid l t -> Forall rule_ok (styles l').
Proof.
  intros o l l' t (A & B & C & _) L.
  destruct (WholeMain.script_read o l t ltac:(intros ->; injection B as <-; now apply C) A L) as (n & T & _ & _ & _ & (ss & Hs & _) & _).
  destruct (WholeEnv.script_steps _ l WholeRoot.nothing unset l' ss WholeVarMain.agrees_nothing A B Hs (Nat.lt_succ_diag_r _)) as (_ & R & _). exact R.
Qed.

(** Two scripts with the same rules once their variables have values give the same. *)
Theorem c71_same : forall o l1 l2 r1 r2 t1 t2 m fuel,
  good o l1 r1 -> good o l2 r2 -> styles r1 = styles r2 -> script_laid l1 t1 -> script_laid l2 t2 ->
  (8 * (script_size l1 + script_size r1) + 12 <= fuel)%nat -> (8 * (script_size l2 + script_size r2) + 12 <= fuel)%nat ->
  translate o fuel m t1 = translate o fuel m t2.
Proof. intros o l1 l2 r1 r2 t1 t2 m fuel A B E L1 L2 F1 F2. rewrite (c71_variables o l1 r1), (c71_variables o l2 r2) by assumption. now rewrite E. Qed.
Lemma styles_size l : (length (sheet_text (styles l)) <= script_size l)%nat.
Proof.
  unfold script_size. induction l as [|[w g|r] l IH]; [cbn; lia| |]; unfold script_text in *; cbn [flat_map styles]; rewrite app_length; [lia|].
  unfold sheet_text in *. cbn [flat_map statement_text]. rewrite app_length. lia.
Qed.
(** A variable may be written or its values, it is the same. *)
Theorem c71_inline : forall o l l' t u m fuel,
  good o l l' -> script_laid l t -> sheet_laid (styles l') u -> (8 * (script_size l + script_size l') + 12 <= fuel)%nat ->
  translate o fuel m t = translate o fuel m u.
Proof.
  intros o l l' t u m fuel G L Lu Fu. rewrite (c71_variables o l l') by assumption. pose proof (c71_plain o l l' t G L) as R. destruct G as (A & B & C & D & E & F). pose proof (styles_size l') as S.
  symmetry. apply WholeMain.sheet_same; try assumption; [|lia]. unfold script_size in *. lia.
Qed.
(** The output given to csspp again comes out as it was. *)
Theorem c71_settled : forall o l l' t u w m fuel,
  good o l l' -> script_laid l t -> (8 * (script_size l + script_size l') + 12 <= fuel)%nat ->
  translate o fuel m t = Ret (Some u) w -> translate o fuel m u = Ret (Some u) [].
Proof.
  intros o l l' t u w m fuel G L Fu H. pose proof (c71_variables o l l' t m fuel G L Fu) as E. rewrite E in H. injection H as <- <-. rewrite <- E. symmetry.
  apply (c71_inline o l l'); try assumption. apply WholeMain.styled_sheet. eapply c71_plain; eassumption.
Qed.

(** A case: a value used twice, a variable made of another, one set again, '-'
    and '_' in a name, all of it laid out loosely. *)
Definition script_ex : list statement :=
  [Set_to (zs "gap-x") [Size 4 (zs "px")]; Set_to (zs "both") [Var (zs "gap_x"); Word (zs "auto")];
   Style (mkRule [mkComplex (mkCompound (Some (zs "a")) [Class (zs "b")]) []] [mkDecl (zs "margin") [[Var (zs "both")]] true; mkDecl (zs "padding") [[Var (zs "gap-x"); Size 1 (zs "px")]; [Var (zs "gap-x")]] false]);
   Set_to (zs "gap-x") [Size 7 (zs "em")];
   Style (mkRule [mkComplex (mkCompound (Some (zs "c")) []) []] [mkDecl (zs "margin") [[Var (zs "both")]; [Var (zs "gap-x")]] false])].
Definition result_ex : list statement :=
  [Set_to (zs "gap-x") [Size 4 (zs "px")]; Set_to (zs "both") [Size 4 (zs "px"); Word (zs "auto")];
   Style (mkRule [mkComplex (mkCompound (Some (zs "a")) [Class (zs "b")]) []] [mkDecl (zs "margin") [[Size 4 (zs "px"); Word (zs "auto")]] true; mkDecl (zs "padding") [[Size 4 (zs "px"); Size 1 (zs "px")]; [Size 4 (zs "px")]] false]);
   Set_to (zs "gap-x") [Size 7 (zs "em")];
   Style (mkRule [mkComplex (mkCompound (Some (zs "c")) []) []] [mkDecl (zs "margin") [[Size 4 (zs "px"); Word (zs "auto")]; [Size 7 (zs "em")]] false])].
Definition text_ex : str := zs " $gap-x : 4px ; $both:$gap_x  auto;a.b {margin:$both ! important; padding: $gap-x 1px , $gap-x;} $gap-x:7em;c{margin:$both,$gap-x}".
Ltac names := cbn; unfold small, numeral; repeat (apply conj || apply Forall_cons || apply Forall_nil); try lia.
Ltac gaps := apply WholeMain.blanks_gap; reflexivity.
Lemma statements_ex : Forall statement_ok script_ex.
Proof.
  unfold script_ex, statement_ok, rule_with, decl_with, complex_ok, compound_ok, script_value, value_ok.
  repeat (apply conj || apply Forall_cons || apply Forall_nil); try discriminate; try (cbn; lia); try (vm_compute; intuition discriminate); names.
Qed.
Example c71_ex_good : forall o, (forall f, o_slash o f = false) -> good o script_ex result_ex.
Proof.
  intros o S. split; [exact statements_ex|split; [reflexivity|split; [discriminate|split; [|split; [vm_compute; reflexivity|vm_compute; reflexivity]]]]].
  unfold no_slash. cbn. repeat constructor; apply S.
Qed.

(** ** The text itself is a layout *)
Lemma rule_tight r : r_decls r <> [] -> rule_laid r (rule_text r).
Proof.
  intro N. unfold rule_laid, rule_text.
  apply WholeMain.tight; [apply WholeMain.tight_between; [apply (WholeMain.styled_comma Assembler.COMPRESSED)|]; intro s; rewrite <- WholeMain.complex_compressed; apply WholeMain.styled_complex|].
  apply WholeMain.tight; [apply (WholeMain.tight_around [] "{" []); gaps|].
  apply WholeMain.tight; [apply WholeMain.tight_between; [apply (WholeMain.tight_around [] ";" []); gaps|]; intro d; apply (WholeMain.styled_decl Assembler.COMPRESSED)|].
  apply (WholeMain.tight _ _ [] (zs "}")); [now left|]. apply (WholeMain.tight _ _ [] (zs "}")); [gaps|reflexivity].
Qed.
Lemma group_tight g : group_laid g (group_text g).
Proof. apply WholeMain.tight_between; [split; [gaps|discriminate]|]. intro v. reflexivity. Qed.
Lemma statement_tight s : statement_ok s -> statement_laid s (statement_text s).
Proof.
  destruct s as [w g|r]; cbn [statement_ok statement_laid statement_text].
  - intros _. rewrite app_assoc. apply WholeMain.tight; [reflexivity|]. apply WholeMain.tight; [apply (WholeMain.tight_around [] ":" []); gaps|]. apply WholeMain.tight; [apply group_tight|]. apply (WholeMain.tight _ _ [] (zs ";")); [gaps|reflexivity].
  - intros (_ & _ & N & _). now apply rule_tight.
Qed.
Theorem c71_text_laid : forall l, Forall statement_ok l -> script_laid l (script_text l).
Proof.
  intros l F. exists [], (script_text l). split; [reflexivity|]. split; [gaps|]. unfold script_text. induction F as [|s l H F IH]; [reflexivity|]. cbn [map each flat_map]. apply WholeMain.tight; [|exact IH].
  exists (statement_text s), []. rewrite app_nil_r. split; [reflexivity|]. split; [now apply statement_tight|gaps].
Qed.

(** The case is a script of the theorems, and so is its loose layout, of which
    here is the start in full. *)
Definition start_ex : list statement := firstn 1 script_ex ++ [Style (mkRule [mkComplex (mkCompound (Some (zs "a")) [Class (zs "b")]) []] [mkDecl (zs "margin") [[Var (zs "gap_x")]] true])].
Example c71_ex_laid : script_laid script_ex (script_text script_ex) /\ script_laid start_ex (zs " $gap-x : 4px ; a.b {margin:$gap_x ! important;} ").
Proof.
  split; [apply c71_text_laid, statements_ex|].
  exists (zs " "), (zs "$gap-x : 4px ; a.b {margin:$gap_x ! important;} "). split; [reflexivity|]. split; [gaps|]. cbn [start_ex firstn script_ex app map each statement_laid].
  exists (zs "$gap-x : 4px ; "), (zs "a.b {margin:$gap_x ! important;} "). split; [reflexivity|]. split.
  - exists (zs "$gap-x : 4px ;"), (zs " "). split; [reflexivity|]. split; [|gaps]. exists (zs "$gap-x"), (zs " : 4px ;"). split; [reflexivity|]. split; [reflexivity|].
    exists (zs " : "), (zs "4px ;"). split; [reflexivity|]. split; [apply (WholeMain.tight_around (zs " ") ":" (zs " ")); gaps|]. exists (zs "4px"), (zs " ;"). split; [reflexivity|]. split; [reflexivity|]. exists (zs " "), (zs ";"). split; [reflexivity|]. split; [gaps|reflexivity].
  - exists (zs "a.b {margin:$gap_x ! important;} "), []. split; [reflexivity|]. split; [|reflexivity]. exists (zs "a.b {margin:$gap_x ! important;}"), (zs " "). split; [reflexivity|]. split; [|gaps].
    unfold rule_laid. cbn [r_selectors r_decls map between]. exists (zs "a.b"), (zs " {margin:$gap_x ! important;}"). split; [reflexivity|]. split; [exists (zs "a.b"), []; split; [reflexivity|]; split; reflexivity|].
    exists (zs " {"), (zs "margin:$gap_x ! important;}"). split; [reflexivity|]. split; [apply (WholeMain.tight_around (zs " ") "{" []); gaps|].
    exists (zs "margin:$gap_x ! important"), (zs ";}"). split; [reflexivity|]. split.
    + exists (zs "margin"), (zs ":$gap_x ! important"). split; [reflexivity|]. split; [reflexivity|]. exists (zs ":"), (zs "$gap_x ! important"). split; [reflexivity|]. split; [apply (WholeMain.tight_around [] ":" []); gaps|].
      exists (zs "$gap_x"), (zs " ! important"). split; [reflexivity|]. split; [reflexivity|]. exists (zs " ! "), (zs "important"). split; [reflexivity|]. split; [apply (WholeMain.tight_around (zs " ") "!" (zs " ")); gaps|reflexivity].
    + exists (zs ";"), (zs "}"). split; [reflexivity|]. split; [right; exists [], (zs ";"); split; [reflexivity|]; split; [gaps|reflexivity]|]. exists [], (zs "}"). split; [reflexivity|]. split; [gaps|reflexivity].
Qed.
(** What comes out of the case, run through the whole program from its loose
    layout: the same as the theorem says. *)
Example c71_ex_run : forall env read checks,
  translate (mkOut env read checks scripts_metrics scripts_slash) 60 Assembler.COMPRESSED text_ex = Ret (Some (sheet_styled Assembler.COMPRESSED (styles result_ex))) []
  /\ sheet_styled Assembler.COMPRESSED (styles result_ex) = zs "a.b{margin:4px auto!important;padding:4px 1px,4px}c{margin:4px auto,7em}".
Proof. intros. split; vm_compute; reflexivity. Qed.
(** A variable which is used above the statement which sets it, or which no
    statement sets, is not guessed: nothing is written in any style, and a message
    says so (however the run ends; given enough steps, it does). *)
Theorem c71_unset : forall o l t,
  Forall statement_ok l -> resolve unset l = None -> script_laid l t -> Z.of_nat (script_size l) < 2 ^ 60 ->
  exists n, forall fuel m, (n <= fuel)%nat ->
  match translate o fuel m t with
  | Ret (Some _) _ => False
  | Ret None ms | Throw _ ms | Undef ms => exists p, In (mkMsg LError p "variable is not set.") ms
  | NoFuel => True
  end.
Proof. exact WholeUnsetMain.unset_whole. Qed.
(** Cases of it, and that the runs end: with nothing written. *)
Definition unset_exs : list (list statement * string) :=
  let a := mkComplex (mkCompound (Some (zs "a")) []) [] in
  [([Style (mkRule [a] [mkDecl (zs "b") [[Var (zs "x")]] false]); Set_to (zs "x") [Size 1 (zs "px")]], "a{b:$x}$x:1px;");
   ([Set_to (zs "x") [Size 1 (zs "px")]; Style (mkRule [a] [mkDecl (zs "b") [[Var (zs "x"); Var (zs "y")]] false])], "$x:1px;a{b:$x $y}");
   ([Set_to (zs "x") [Var (zs "x")]; Style (mkRule [a] [mkDecl (zs "b") [[Var (zs "x")]] false])], "$x:$x;a{b:$x}")].
Lemma unset_exs_ok : Forall (fun e => Forall statement_ok (fst e) /\ resolve unset (fst e) = None /\ script_text (fst e) = zs (snd e)) unset_exs.
Proof.
  unfold unset_exs. repeat (apply Forall_cons || apply Forall_nil); cbn [fst snd]; (split; [|split; vm_compute; reflexivity]);
  unfold statement_ok, rule_with, decl_with, complex_ok, compound_ok, script_value, value_ok;
  repeat (apply conj || apply Forall_cons || apply Forall_nil); try discriminate; try (cbn; lia); try (vm_compute; intuition discriminate); names.
Qed.
Example c71_unset_ex : forall env read checks, Forall (fun e =>
    Forall statement_ok (fst e) /\ resolve unset (fst e) = None /\ script_laid (fst e) (zs (snd e))
    /\ exists x r, translate (mkOut env read checks scripts_metrics scripts_slash) 60 Assembler.COMPRESSED (zs (snd e)) = Ret None (x :: r) /\ m_level x = LError /\ m_text x = "variable is not set.") unset_exs.
Proof.
  intros. pose proof unset_exs_ok as H. rewrite Forall_forall in *. intros e I. destruct (H e I) as (A & B & C). split; [exact A|]. split; [exact B|]. split; [rewrite <- C; now apply c71_text_laid|].
  clear H A B C. destruct I as [<-|[<-|[<-|[]]]]; eexists _, _; (split; [vm_compute; reflexivity|split; reflexivity]).
Qed.
