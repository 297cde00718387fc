(** * C74: no message is ever taken back, and an error is always fatal *)

From Coq Require Import String ZArith List Bool Floats.SpecFloat.
From Verif Require Import Base NodeHeap.
From Verif Require Lexer Parser Expr Functions Selector Assembler.
From Verif Require MessagesLexer MessagesExpr MessagesFunctions MessagesAssembler.
From Verif Require Import MessagesParser MessagesCompiler MessagesCompile MessagesPipeline.
From Verif Require Import Compiler Compile Pipeline.
Import ListNotations.
Open Scope string_scope. Open Scope list_scope. Open Scope Z_scope.

(** What was said before is still there, at the start, and in the same order. *)
Definition still_there (before after : list msg) : Prop := exists more, after = before ++ more.
(** So for a computation which starts with the messages [before]: however it
    ends, with a result, an exception or undefined behaviour. *)
Definition ends_with {S A} (msgs : S -> list msg) (before : list msg) (r : outcome S A) : Prop :=
  match r with Ret _ s | Throw _ s | Undef s => still_there before (msgs s) | NoFuel => True end.

(** ** Each part of the program *)
(** The lexer, from any state of it; its log holds the last message first. *)
Theorem c74_lexer : forall lm s,
  ends_with (fun s => rev (Lexer.l_log s)) (rev (Lexer.l_log s)) (Lexer.next_token lm s)
  /\ ends_with (fun s => rev (Lexer.l_log s)) (rev (Lexer.l_log s)) (Lexer.lex_all lm s).
Proof. intros lm s. split; [exact (MessagesLexer.adds_next_token lm s)|exact (MessagesLexer.adds_lex_all lm s)]. Qed.
(** The parser, at each of its entries. *)
Theorem c74_parser : forall e fuel s, ends_with Parser.ps_msgs (Parser.ps_msgs s) (Parser.parse e fuel s).
Proof. intros e fuel s. exact (MessagesParser.adds_parse e fuel s). Qed.
(** The parser of selectors. *)
Theorem c74_selectors : forall code k n s, ends_with Parser.ps_msgs (Parser.ps_msgs s) (Selector.parse_selector code k n s).
Proof. intros code k n s. exact (MessagesParser.adds_parse_selector code k n s). Qed.
(** A call of a function, internal or of the user. *)
Theorem c74_functions : forall o paths fuel x cur func g, ends_with snd (snd g) (functions_of o paths fuel x cur func g).
Proof. intros o paths fuel x cur func (h, ms). exact (functions_add o paths fuel x cur func h ms). Qed.
(** An expression. *)
Theorem c74_expressions : forall lm o paths fuel depth x s,
  ends_with Expr.e_msgs (Expr.e_msgs s) (Expr.compile lm (functions_of o paths depth x) fuel s).
Proof. intros lm o paths fuel depth x s. exact (MessagesExpr.adds_compile lm _ fuel (functions_add o paths depth x) s). Qed.
(** The five passes, one by one and together. *)
Theorem c74_passes : forall o paths depth fuel x n s,
  let k := rules_of o (functions_of o paths depth) in
  ends_with k_msgs (k_msgs s) (mark_selectors fuel n s)
  /\ ends_with k_msgs (k_msgs s) (replace_variables (r_world k) fuel x n s)
  /\ (forall j r, ends_with k_msgs (k_msgs s) (run k fuel j x r n s))
  /\ ends_with k_msgs (k_msgs s) (remove_empty_rules fuel x n s)
  /\ ends_with k_msgs (k_msgs s) (expand_nested_components fuel x n s)
  /\ ends_with k_msgs (k_msgs s) (passes k fuel x s).
Proof.
  intros o paths depth fuel x n s k. assert (R : rules_add k) by apply the_rules_add.
  split; [exact (adds_mark_selectors fuel n s)|]. split; [exact (adds_replace_variables _ fuel x n (proj1 R) s)|].
  split; [intros j r; exact (adds_run k R fuel j x r n s)|]. split; [exact (adds_remove_empty_rules fuel x n s)|].
  split; [exact (adds_expand_nested_components fuel x n s)|exact (adds_passes k fuel x R s)].
Qed.
(** The assembler; the text neither is taken back. *)
Theorem c74_assembler : forall h lm prec m fuel a s,
  ends_with Assembler.o_msgs (Assembler.o_msgs s) (Assembler.output h lm prec m fuel a s)
  /\ match Assembler.output h lm prec m fuel a s with
     | Ret _ t | Throw _ t | Undef t => exists more, Assembler.o_text t = Assembler.o_text s ++ more
     | NoFuel => True
     end.
Proof.
  intros h lm prec m fuel a s. pose proof (proj1 (MessagesAssembler.grows_output h lm prec m fuel) a s) as H.
  unfold ends_with. destruct (Assembler.output h lm prec m fuel a s); try (split; exact I); destruct H; now split.
Qed.

(** ** The whole program *)
(** The messages of the lexer and of the parser. *)
Definition reading (o : outside) (input : list Z) : list msg :=
  match read_sheet o input ([], []) with Ret _ g | Throw _ g | Undef g => snd g | NoFuel => [] end.
(** The messages of the passes as well. *)
Definition compiling (o : outside) (fuel : nat) (input : list Z) : list msg :=
  match read_sheet o input ([], []) with
  | Ret root (h, m) =>
      match passes (rules_of o (functions_of o default_paths fuel)) fuel (mkX root [] false) (mkK h m default_paths) with
      | Ret _ s | Throw _ s | Undef s => k_msgs s
      | NoFuel => m
      end
  | _ => reading o input
  end.
Theorem c74_lexer_first : forall o input,
  match Lexer.lex_all (o_libm o) (Lexer.new_lexer input (new_position 1 1)) with
  | Ret _ s | Throw _ s | Undef s => match read_sheet o input ([], []) with NoFuel => True | _ => still_there (rev (Lexer.l_log s)) (reading o input) end
  | NoFuel => True
  end.
Proof.
  intros o input. unfold reading, read_sheet. destruct (Lexer.lex_all _ _) as [toks s|e s|s|]; try exact I; try (exists []; now rewrite app_nil_r).
  cbn [fst snd app]. pose proof (MessagesParser.adds_parse Parser.EStylesheet (Parser.enough toks) (Parser.mkPS toks (Lexer.l_pos s) (rev (Lexer.l_log s)))) as H.
  destruct (Parser.parse _ _ _) as [n ps|e ps|ps|]; try exact I; [destruct (plant n []) as [a h]|..]; exact H.
Qed.
(** Nothing that was said is missing in the end. *)
Theorem c74_whole : forall o fuel m input,
  ends_with (fun ms => ms) (reading o input) (translate o fuel m input).
Proof.
  intros o fuel m input. unfold reading, translate.
  assert (Z : forall l : list msg, still_there l l) by (intro l; exists []; now rewrite app_nil_r).
  destruct (read_sheet o input ([], [])) as [root (h, ms)|e g|g|]; try exact I; try apply Z.
  cbn [snd]. destruct (has_error ms); [apply Z|].
  pose proof (adds_passes (rules_of o (functions_of o default_paths fuel)) fuel (mkX root [] false) (the_rules_add _ _ _) (mkK h ms default_paths)) as P.
  destruct (passes _ _ _ _) as [r s|e s|s|]; try exact I; try exact P. cbn [k_msgs] in P.
  destruct (has_error (k_msgs s)); [exact P|].
  pose proof (c74_assembler (k_heap s) (o_libm o) (Functions.f_precision (o_env o)) m fuel root (Assembler.mkO [] false (k_msgs s))) as (Q & _).
  destruct (Assembler.output _ _ _ _ _ _ _); try exact I; cbn [ends_with Assembler.o_msgs] in Q; destruct P as (l1 & P), Q as (l2 & Q);
    exists (l1 ++ l2); cbn [ends_with]; now rewrite Q, P, app_assoc.
Qed.
(** When a text is written no error was reported before: not by the lexer, not
    by the parser, not by any pass; and all that was said is still there. *)
Theorem c74_no_error : forall o fuel m input u ms,
  translate o fuel m input = Ret (Some u) ms ->
  still_there (reading o input) (compiling o fuel input) /\ still_there (compiling o fuel input) ms
  /\ Forall (fun w => m_level w <> LError /\ m_level w <> LFatal) (compiling o fuel input).
Proof.
  intros o fuel m input u ms. unfold compiling, reading, translate.
  destruct (read_sheet o input ([], [])) as [root (h, m0)|e g|g|]; try discriminate.
  destruct (has_error m0); [discriminate|].
  pose proof (adds_passes (rules_of o (functions_of o default_paths fuel)) fuel (mkX root [] false) (the_rules_add _ _ _) (mkK h m0 default_paths)) as P.
  destruct (passes _ _ _ _) as [r s|e s|s|]; try discriminate. cbn [k_msgs snd] in *.
  destruct (has_error (k_msgs s)) eqn:F; [discriminate|].
  pose proof (c74_assembler (k_heap s) (o_libm o) (Functions.f_precision (o_env o)) m fuel root (Assembler.mkO [] false (k_msgs s))) as (Q & _).
  destruct (Assembler.output _ _ _ _ _ _ _); try discriminate. intro E. injection E as _ <-. split; [exact P|]. split; [exact Q|].
  apply Forall_forall. intros w I. unfold has_error in F. destruct (is_error w) eqn:G.
  - exfalso. assert (X : existsb is_error (k_msgs s) = true) by (apply existsb_exists; eauto). congruence.
  - unfold is_error in G. split; intro L; rewrite L in G; discriminate.
Qed.

(** So an error that any of them reports is the end of it: nothing is written,
    in no style. *)
Lemma error_stops o fuel m input w u ms : In w (compiling o fuel input) -> m_level w = LError -> translate o fuel m input <> Ret (Some u) ms.
Proof.
  intros I L T. destruct (c74_no_error o fuel m input u ms T) as (_ & _ & F). rewrite Forall_forall in F. destruct (F w I) as (N & _). now apply N.
Qed.
Lemma there_in {l1 l2 : list msg} {w} : still_there l1 l2 -> In w l1 -> In w l2.
Proof. intros (k & ->) H. apply in_or_app. now left. Qed.
Lemma reading_compiling o fuel input : still_there (reading o input) (compiling o fuel input).
Proof.
  unfold compiling. destruct (read_sheet o input ([], [])) as [root (h, m0)|e g|g|] eqn:R; try (exists []; now rewrite app_nil_r).
  unfold reading. rewrite R. pose proof (adds_passes (rules_of o (functions_of o default_paths fuel)) fuel (mkX root [] false) (the_rules_add _ _ _) (mkK h m0 default_paths)) as P.
  destruct (passes _ _ _ _); try exact P. exists []. now rewrite app_nil_r.
Qed.
Theorem c74_lexer_error : forall o fuel m input toks s w u ms,
  Lexer.lex_all (o_libm o) (Lexer.new_lexer input (new_position 1 1)) = Ret toks s -> In w (Lexer.l_log s) -> m_level w = LError ->
  translate o fuel m input <> Ret (Some u) ms.
Proof.
  intros o fuel m input toks s w u ms L I E T. refine (error_stops o fuel m input w u ms _ E T). apply (there_in (reading_compiling o fuel input)).
  pose proof (c74_lexer_first o input) as H. rewrite L in H. destruct (read_sheet o input ([], [])) eqn:R; [| | |unfold translate in T; rewrite R in T; discriminate];
    apply (there_in H); now rewrite <- in_rev.
Qed.
Theorem c74_parser_error : forall o fuel m input w u ms,
  In w (reading o input) -> m_level w = LError -> translate o fuel m input <> Ret (Some u) ms.
Proof. intros o fuel m input w u ms I. apply error_stops. exact (there_in (reading_compiling o fuel input) I). Qed.
(** An error in the replacement of variables (control flow, mixins and imports
    too), the second of the passes. *)
Theorem c74_variables_error : forall o fuel m input root h m0 s1 s2 w u ms,
  let k := rules_of o (functions_of o default_paths fuel) in
  read_sheet o input ([], []) = Ret root (h, m0) ->
  mark_selectors fuel root (mkK h m0 default_paths) = Ret tt s1 ->
  replace_variables (r_world k) fuel (mkX root [] false) root s1 = Ret tt s2 ->
  In w (k_msgs s2) -> m_level w = LError -> translate o fuel m input <> Ret (Some u) ms.
Proof.
  intros o fuel m input root h m0 s1 s2 w u ms k R M V I E T. refine (error_stops o fuel m input w u ms _ E T).
  unfold compiling. rewrite R. fold k. unfold passes. cbn [x_root]. unfold bind. rewrite M, V.
  assert (A : forall m : C (option addr), MessagesParser.only_adds k_msgs m -> In w match m s2 with Ret _ s | Throw _ s | Undef s => k_msgs s | NoFuel => m0 end \/ m s2 = NoFuel).
  { intros q Q. specialize (Q s2). destruct (q s2); [left|left|left|now right]; exact (there_in Q I). }
  destruct (A (r <- run k fuel Compile (mkX root [] false) None root ;; remove_empty_rules fuel (mkX root [] false) root ;;; expand_nested_components fuel (mkX root [] false) root ;;; ret r)) as [B|B].
  - apply adds_bind; [apply adds_run; apply the_rules_add|]. intro r. apply adds_bind; [auto with adds|]. intros _. apply adds_bind; auto with adds.
  - exact B.
  - exfalso. unfold translate in T. rewrite R in T. destruct (has_error m0); [discriminate|]. fold k in T. unfold passes in T. cbn [x_root] in T. unfold bind in T, B. rewrite M, V, B in T. discriminate.
Qed.
(** An error in the rules and the at-rules, the third of the passes. *)
Theorem c74_rules_error : forall o fuel m input root h m0 s1 s2 s3 r w u ms,
  let k := rules_of o (functions_of o default_paths fuel) in
  read_sheet o input ([], []) = Ret root (h, m0) ->
  mark_selectors fuel root (mkK h m0 default_paths) = Ret tt s1 ->
  replace_variables (r_world k) fuel (mkX root [] false) root s1 = Ret tt s2 ->
  run k fuel Compile (mkX root [] false) None root s2 = Ret r s3 ->
  In w (k_msgs s3) -> m_level w = LError -> translate o fuel m input <> Ret (Some u) ms.
Proof.
  intros o fuel m input root h m0 s1 s2 s3 r w u ms k R M V W I E T. refine (error_stops o fuel m input w u ms _ E T).
  unfold compiling. rewrite R. fold k. unfold passes. cbn [x_root]. unfold bind at 1 2 3. rewrite M, V, W.
  assert (A : forall m : C (option addr), MessagesParser.only_adds k_msgs m -> In w match m s3 with Ret _ s | Throw _ s | Undef s => k_msgs s | NoFuel => m0 end \/ m s3 = NoFuel).
  { intros q Q. specialize (Q s3). destruct (q s3); [left|left|left|now right]; exact (there_in Q I). }
  destruct (A (remove_empty_rules fuel (mkX root [] false) root ;;; expand_nested_components fuel (mkX root [] false) root ;;; ret r)) as [B|B].
  - apply adds_bind; [auto with adds|]. intros _. apply adds_bind; auto with adds.
  - exact B.
  - exfalso. unfold translate in T. rewrite R in T. destruct (has_error m0); [discriminate|]. fold k in T. unfold passes in T. cbn [x_root] in T. unfold bind at 1 2 3 in T. rewrite M, V, W, B in T. discriminate.
Qed.

(** Cases: an error of each of them, with what the others say; warnings do not stop. *)
Theorem c74_ex : forall env read checks,
  let run t := translate (mkOut env read checks scripts_metrics scripts_slash) 60 Assembler.COMPRESSED (zs t) in
  let says r := match r with Ret u ms => Some (match u with Some t => t | None => zs "nothing" end, map (fun w => (m_level w, m_text w)) ms) | _ => None end in
  map (fun t => says (run t)) ["a{b:""c}"; "a{b:$x}@warning ""w"";"; "a{b:c}@warning ""w"";"; "@warning ""v"";@error ""w"";a{b:c}"]
  = [Some (zs "nothing", [(LError, "found an unterminated string."); (LError, "Block expected to end with CLOSE_CURLYBRACKET.")]);
     Some (zs "nothing", [(LError, "variable is not set."); (LError, "somehow a declaration list is missing fields, this happens if you used an invalid variable."); (LWarning, "w")]);
     Some (zs "a{b:c}", [(LWarning, "w")]);
     Some (zs "nothing", [(LWarning, "v"); (LError, "w")])].
Proof. intros. vm_compute. reflexivity. Qed.
(** The hypotheses of the theorems on errors are met. *)
Example c74_ex_errors : forall env read checks,
  let o := mkOut env read checks scripts_metrics scripts_slash in
  let t := zs "a{b:$x}" in
  (exists w, In w (compiling o 60 t) /\ m_level w = LError) /\ (exists w, In w (reading o (zs "a{b:c")) /\ m_level w = LError).
Proof. intros. split; eexists; (split; [vm_compute; left; reflexivity|reflexivity]). Qed.

(** ** From one part to the next

    What a part says is what is heard of it: run as a part of another one, it
    goes on from the messages there were, and leaves exactly the messages it
    had at its end. *)
Definition said {S A} (msgs : S -> list msg) (r : outcome S A) : option (list msg) :=
  match r with Ret _ s | Throw _ s | Undef s => Some (msgs s) | NoFuel => None end.
Definition at_start (h : heap) (ms : list msg) (n : addr) (font : bool) : Expr.est := Expr.mkE h ms n 0 (-1) None [] font.

Theorem c74_handed_over :
  (* an expression in the compiler *)
  (forall A n (m : Expr.E A) s, said k_msgs (with_expr n m s) = said Expr.e_msgs (m (at_start (k_heap s) (k_msgs s) n false)))
  (* an expression between parentheses, the arguments of a function *)
  /\ (forall A n font (m : Expr.E A) s, said Expr.e_msgs (Expr.in_new n font m s) = said Expr.e_msgs (m (at_start (Expr.e_heap s) (Expr.e_msgs s) n font)))
  (* the call of a function *)
  /\ (forall fn a s, said Expr.e_msgs (Expr.call fn a s) = said snd (fn (Expr.e_cur s) a (Expr.e_heap s, Expr.e_msgs s)))
  (* the compiler in a function of the user *)
  /\ (forall A paths (m : C A) s, said Expr.e_msgs (in_expr paths m s) = said k_msgs (m (mkK (Expr.e_heap s) (Expr.e_msgs s) paths)))
  (* the file of an import *)
  /\ (forall o file input g, o_read o file = Some input -> said snd (load_sheet o file g) = said snd (read_sheet o input g)).
Proof.
  split; [|split; [|split; [|split]]].
  - intros A n m s. unfold with_expr, at_start. now destruct (m _).
  - intros A n font m s. unfold Expr.in_new, at_start. now destruct (m _).
  - intros fn a s. unfold Expr.call. now destruct (fn _ _ _).
  - intros A paths m s. unfold in_expr. now destruct (m _).
  - intros o file input g R. unfold load_sheet. rewrite R. now destruct (read_sheet _ _ _).
Qed.

(** The messages of a file, read when there are some already: those there were,
    then those of the lexer, then those of the parser. *)
Theorem c74_reading : forall o input g,
  match Lexer.lex_all (o_libm o) (Lexer.new_lexer input (new_position 1 1)) with
  | Ret toks s =>
      said snd (read_sheet o input g)
      = said Parser.ps_msgs (Parser.parse Parser.EStylesheet (Parser.enough toks) (Parser.mkPS toks (Lexer.l_pos s) (snd g ++ rev (Lexer.l_log s))))
  | Throw _ s | Undef s => said snd (read_sheet o input g) = Some (snd g ++ rev (Lexer.l_log s))
  | NoFuel => True
  end.
Proof.
  intros o input g. unfold read_sheet. destruct (Lexer.lex_all _ _); try reflexivity.
  destruct (Parser.parse _ _ _); try reflexivity. now destruct (plant _ _).
Qed.
(** A selector which stands in the tree. *)
Theorem c74_selector_heard : forall o x n s c front last l,
  nth_error (k_heap s) n = Some c -> c_ch c = front ++ [last] -> dig_all (k_heap s) front = Some l ->
  said k_msgs (selector_pass o x n s)
  = said Parser.ps_msgs (Selector.parse_selector sep_code (o_checks o) (set_ch (mk (c_type c) (c_pos c)) (l ++ [mk OPEN_CURLYBRACKET (c_pos c)])) (Parser.mkPS [] (c_pos c) (k_msgs s))).
Proof.
  intros o x n s c front last l N C D. unfold selector_pass. rewrite N, C.
  assert (E : split_last (front ++ [last]) = Some (front, last)).
  { clear. induction front as [|y r IH]; [reflexivity|]. cbn [app split_last]. rewrite IH. destruct r; reflexivity. }
  rewrite E, D. unfold the_block. destruct (Selector.parse_selector _ _ _ _) as [[t|] ps|e ps|ps|]; try reflexivity.
  now destruct (plant_all _ _).
Qed.
(** An import: all that was said when the file was read is there at the end. *)
Theorem c74_import : forall w fuel x parent n idx s e s1 name f file s2 s3 r h m,
  at_keyword_expression w fuel x n s = Ret (Some e) s1 ->
  (exists c, nth_error (k_heap s1) e = Some c /\ (c_type c = STRING \/ c_type c = URL) /\ import_name (ntype_eqb (c_type c) URL) (c_str c) = Some name) ->
  find_import w name s1 = Ret (f :: file) s2 ->
  lift (remove_child_at parent idx) s2 = Ret tt s3 ->
  w_load w (f :: file) (k_heap s3, k_msgs s3) = Ret r (h, m) ->
  ends_with k_msgs m (replace_import w fuel x parent n idx s).
Proof.
  intros w fuel x parent n idx s e s1 name f file s2 s3 r h m A (c & N & T & I) F D L.
  assert (B : forall A B (m : C A) (k : A -> C B) t a t', m t = Ret a t' -> bind m k t = k a t') by (intros A0 B0 m0 k t a t' Q; unfold bind; now rewrite Q).
  assert (Ty : type_of e s1 = Ret (c_type c) s1).
  { unfold type_of, bind, lift, NodeHeap.load. rewrite N. destruct s1. reflexivity. }
  assert (St : lift (get_string e) s1 = Ret (c_str c) s1).
  { unfold lift, get_string, NodeHeap.bind, NodeHeap.load. rewrite N. destruct s1, T as [-> | ->]; reflexivity. }
  unfold replace_import. rewrite (B _ _ _ _ _ _ _ A). cbv beta iota. rewrite (B _ _ _ _ _ _ _ Ty). cbv beta.
  assert (K : negb (ntype_eqb (c_type c) STRING || ntype_eqb (c_type c) URL) = false) by (destruct T as [-> | ->]; reflexivity).
  rewrite K, (B _ _ _ _ _ _ _ St). cbv beta. rewrite I, (B _ _ _ _ _ _ _ F). cbv beta iota. rewrite (B _ _ _ _ _ _ _ D). cbv beta. rewrite L.
  destruct r as [l|].
  - assert (Q : MessagesParser.only_adds k_msgs ((if (errors_in m =? errors_in (k_msgs s3))%nat then c <- lift (load l) ;; insert_all parent idx (c_ch c) else ret tt) ;;; ret idx)).
    { apply adds_bind; [|auto with adds]. destruct (errors_in m =? errors_in (k_msgs s3))%nat; auto with adds. }
    exact (Q (mkK h m (k_paths s3))).
  - assert (Q : MessagesParser.only_adds k_msgs (report (mkPos 1 1 1) "script could not be opened." ;;; ret idx)) by (apply adds_bind; auto with adds).
    exact (Q (mkK h m (k_paths s3))).
Qed.
(** A call: what was said when the arguments were rearranged and compiled is
    there when the function comes back. *)
Theorem c74_call_heard : forall o paths f x cur func h ms ok k1 name k2,
  argify func (mkK h ms paths) = Ret ok k1 ->
  lift (get_string func) k1 = Ret name k1 -> named name ["calc"; "expression"] = false ->
  with_expr func (compile_args (o_libm o) (functions_of o paths f x) f false func) k1 = Ret tt k2 ->
  ends_with snd (k_msgs k2) (functions_of o paths (S f) x cur func (h, ms)).
Proof.
  intros o paths f x cur func h ms ok k1 name k2 A G N C2. cbn [functions_of]. cbv zeta. cbn [fst snd].
  assert (B : forall A B (m : C A) (k : A -> C B) t a t', m t = Ret a t' -> bind m k t = k a t') by (intros A0 B0 m0 k t a t' Q; unfold bind; now rewrite Q).
  rewrite (B _ _ _ _ _ _ _ A). cbv beta. rewrite (B _ _ _ _ _ _ _ G). cbv beta. rewrite N, (B _ _ _ _ _ _ _ C2). cbv beta.
  match goal with |- context [in_call ?q func ?e] => set (ee := e) end.
  assert (Q : MessagesParser.only_adds k_msgs (r <- in_call cur func ee ;; ret (fst r))).
  { apply adds_bind; [|intro r; apply adds_ret]. unfold ee. apply adds_in_call. apply MessagesFunctions.adds_execute. split.
    - intros nm gl. cbn [Functions.f_variable]. apply adds_in_expr. unfold handler_variable. destruct gl; auto with adds.
    - intro c. cbn [Functions.f_user]. apply adds_in_expr. apply adds_user_function. intro y. apply adds_passes. apply the_rules_add. }
  specialize (Q k2). destruct ((r <- in_call cur func ee ;; ret (fst r)) k2); exact Q.
Qed.
(** The text of decimal_number(), integer() and percentage(): read by a lexer
    of its own, which says what it says to the same place. *)
Theorem c74_text_heard : forall env text p s n l,
  Lexer.next_token (Functions.f_libm env) (Lexer.new_lexer text p) = Ret n l -> n_type n <> WHITESPACE ->
  said Expr.e_msgs (Functions.first_number env text p s) = Some (Expr.e_msgs s ++ rev (Lexer.l_log l)).
Proof.
  intros env text p s n l L N. unfold Functions.first_number. rewrite L. unfold is. rewrite (proj2 (ntype_eqb_neq _ _) N). reflexivity.
Qed.
Theorem c74_blank_text_heard : forall env text p s n l n2 l2,
  Lexer.next_token (Functions.f_libm env) (Lexer.new_lexer text p) = Ret n l -> n_type n = WHITESPACE ->
  Lexer.next_token (Functions.f_libm env) l = Ret n2 l2 ->
  said Expr.e_msgs (Functions.first_number env text p s) = Some (Expr.e_msgs s ++ rev (Lexer.l_log l2)).
Proof.
  intros env text p s n l n2 l2 L N L2. unfold Functions.first_number. rewrite L. unfold is. rewrite N, L2. reflexivity.
Qed.

(** Cases: what is said in a file of an import (its lexer, parser and rules),
    in an argument of a function, by a function, in a selector, in the mixin of
    an include, is said in the end. *)
Theorem c74_ex_parts : forall env checks,
  let files f := if str_eqb f (zs "/usr/lib/csspp/scripts/x.scss") then Some (zs "a{b:$$}@error ""from x"";")
                 else if str_eqb f (zs "/usr/lib/csspp/scripts/y.scss") then Some (zs "@warning ""from y"";")
                 else if str_eqb f (zs "/usr/lib/csspp/scripts/z.scss") then Some (zs "a{b:""c}") else None in
  let run t := translate (mkOut env files checks scripts_metrics scripts_slash) 60 Assembler.COMPRESSED (zs t) in
  let says r := match r with Ret u ms => Some (match u with Some t => t | None => zs "nothing" end, map m_text ms) | _ => None end in
  let twice := "unsupported type as a unary expression token." in
  map (fun t => says (run t))
    ["@import ""y.scss"";a{b:c}"; "@import ""x.scss"";a{b:c}"; "@import ""z.scss"";a{b:c}"; "a{b:abs(1px+1em)}"; "a{b:abs($$)}";
     "a{b:max(1px,1em)}"; "a >{c:d}"; "@mixin m($x){c:$x}a{@include m();}"; "a{b:(1px=1em)}"]
  = [Some (zs "a{b:c}", ["from y"]);
     Some (zs "nothing", [twice; twice; "from x"]);
     Some (zs "nothing", ["found an unterminated string."; "Block expected to end with CLOSE_CURLYBRACKET."]);
     Some (zs "nothing", ["abs() expects a number as parameter."]);
     Some (zs "nothing", [twice; twice; "abs() expects a number as parameter."]);
     Some (zs "nothing", ["max() expects all numbers to have the same dimension."]);
     Some (zs "nothing", ["found token, which is expected to be followed by another selector term."]);
     Some (zs "nothing", ["missing function variable when calling a function or using @include."]);
     Some (zs "nothing", ["incompatible types or dimensions for operator '=', '!=', '<', '<=', '>', '>=', '~=', '^=', '$=', '*=', or '|='."])].
Proof. intros. vm_compute. reflexivity. Qed.
