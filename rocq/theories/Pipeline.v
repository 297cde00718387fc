(** * From a text to a text

    The passes put one after the other: the lexer, the parser, the five passes
    of compiler::compile(true) (compiler.cpp:534-580), the assembler; user
    defined functions and @import, which start a compiler or a parser again.

    Simplified: the messages of the lexer come before those of the parser; the
    tokens after a first EOF_TOKEN are not read; the parser of selectors leaves
    a refused rule as it was (Selector.v); the counter of unique_id() starts
    at zero in each expression; to_string() on a node that cannot be shown gives
    an empty text instead of an exception. The header and the footer
    (compile(false)) are not modelled. *)

From Coq Require Import String ZArith List Bool Floats.SpecFloat.
From Verif Require Import Base NodeHeap.
From Verif Require Lexer Parser Expr Functions Selector Assembler NodeText.
From Verif Require Import Compiler Compile.
Import ListNotations.
Open Scope string_scope. Open Scope list_scope. Open Scope Z_scope.

(** ** Trees of nodes and shared nodes *)
Definition cell_of (n : node) (ch : list addr) : cell :=
  mkCell (n_type n) (n_pos n) (n_bool n) (n_int n) (n_dec n) (n_str n) (n_low n) ch [] [].
Fixpoint plant (n : node) (h : heap) : addr * heap :=
  let '(l, h1) :=
    (fix go (l : list node) (h : heap) : list addr * heap :=
       match l with
       | [] => ([], h)
       | x :: r => let '(a, h1) := plant x h in let '(b, h2) := go r h1 in (a :: b, h2)
       end) (n_ch n) h in
  (length h1, h1 ++ [cell_of n l]).
Fixpoint plant_all (l : list node) (h : heap) : list addr * heap :=
  match l with
  | [] => ([], h)
  | x :: r => let '(a, h1) := plant x h in let '(b, h2) := plant_all r h1 in (a :: b, h2)
  end.
(** The tree under an address; [None]: dangling, or deeper than the fuel. *)
Fixpoint dig (fuel : nat) (h : heap) (a : addr) : option node :=
  match fuel with
  | O => None
  | S f =>
      match nth_error h a with
      | None => None
      | Some c =>
          let fix go (l : list addr) : option (list node) :=
            match l with
            | [] => Some []
            | x :: r => match dig f h x, go r with Some y, Some z => Some (y :: z) | _, _ => None end
            end in
          match go (c_ch c) with
          | Some l => Some (Node (c_type c) (c_pos c) (c_bool c) (c_int c) (c_dec c) (c_str c) (c_low c) l)
          | None => None
          end
      end
  end.

(** ** Outside of the model *)
Record outside := mkOut
  { o_env : Functions.fenv;                   (* libm, rand(), the text of a double *)
    o_read : str -> option (list Z);          (* the content of a file *)
    o_checks : Selector.checks;               (* the validation scripts on selectors *)
    o_metrics : str -> bool; o_slash : str -> bool }.
Definition o_libm (o : outside) : libm := Functions.f_libm (o_env o).
Definition o_text (o : outside) (quotes : bool) (h : heap) (a : addr) : str :=
  match NodeText.node_text (o_libm o) (Functions.f_precision (o_env o)) (Functions.f_show (o_env o)) (S (length h)) quotes false h a with
  | Some t => t | None => []
  end.

(** ** Lexer and parser (parser::stylesheet on a stream) *)
Definition read_sheet (o : outside) (input : list Z) (g : heap * list msg) : outcome (heap * list msg) addr :=
  match Lexer.lex_all (o_libm o) (Lexer.new_lexer input (new_position 1 1)) with
  | Ret toks s =>
      let m := snd g ++ rev (Lexer.l_log s) in
      match Parser.parse Parser.EStylesheet (Parser.enough toks) (Parser.mkPS toks (Lexer.l_pos s) m) with
      | Ret n ps => let '(a, h) := plant n (fst g) in Ret a (h, Parser.ps_msgs ps)
      | Throw e ps => Throw e (fst g, Parser.ps_msgs ps)
      | Undef ps => Undef (fst g, Parser.ps_msgs ps)
      | NoFuel => NoFuel
      end
  | Throw e s => Throw e (fst g, snd g ++ rev (Lexer.l_log s))
  | Undef s => Undef (fst g, snd g ++ rev (Lexer.l_log s))
  | NoFuel => NoFuel
  end.
Definition load_sheet (o : outside) (file : str) (g : heap * list msg) : outcome (heap * list msg) (option addr) :=
  match o_read o file with
  | None => Ret None g
  | Some input =>
      match read_sheet o input g with
      | Ret a g => Ret (Some a) g | Throw e g => Throw e g | Undef g => Undef g | NoFuel => NoFuel
      end
  end.

(** ** parse_selector on shared nodes

    The last child, a '\{', keeps its variables: it is put back as it is. *)
Definition the_block (p : position) : node := mk OPEN_CURLYBRACKET p.
Definition sep_code (t : ntype) : Z := separator_code t.
Fixpoint split_last {A} (l : list A) : option (list A * A) :=
  match l with
  | [] => None
  | [x] => Some ([], x)
  | x :: r => match split_last r with Some (y, z) => Some (x :: y, z) | None => None end
  end.
Fixpoint dig_all (h : heap) (l : list addr) : option (list node) :=
  match l with
  | [] => Some []
  | a :: r => match dig (S (length h)) h a, dig_all h r with Some x, Some y => Some (x :: y) | _, _ => None end
  end.
Definition selector_pass (o : outside) (x : ctx) (n : addr) : C bool := fun s =>
  match nth_error (k_heap s) n with
  | None => Undef s
  | Some c =>
      match split_last (c_ch c) with
      | None => Throw XChildRange s
      | Some (front, last) =>
          match dig_all (k_heap s) front with
          | None => Undef s
          | Some l =>
              let tree := set_ch (mk (c_type c) (c_pos c)) (l ++ [the_block (c_pos c)]) in
              match Selector.parse_selector sep_code (o_checks o) tree (Parser.mkPS [] (c_pos c) (k_msgs s)) with
              | Ret (Some t) ps =>
                  let '(args, h) := plant_all (removelast (n_ch t)) (k_heap s) in
                  Ret true (mkK (put h n (with_ch c (args ++ [last]))) (Parser.ps_msgs ps) (k_paths s))
              | Ret None ps => Ret false (mkK (k_heap s) (Parser.ps_msgs ps) (k_paths s))
              | Throw e ps => Throw e (mkK (k_heap s) (Parser.ps_msgs ps) (k_paths s))
              | Undef ps => Undef (mkK (k_heap s) (Parser.ps_msgs ps) (k_paths s))
              | NoFuel => NoFuel
              end
          end
      end
  end.

(** ** compile(true) (compiler.cpp:534-580)

    Returns [f_return_result] (get_result). *)
Definition passes (k : rules) (fuel : nat) (x : ctx) : C (option addr) :=
  let root := x_root x in
  mark_selectors fuel root ;;;
  replace_variables (r_world k) fuel x root ;;;
  r <- run k fuel Compile x None root ;;
  remove_empty_rules fuel x root ;;;
  expand_nested_components fuel x root ;;;
  ret r.

(** ** Functions of expressions

    A computation of the compiler inside an expression. *)
Definition in_expr (paths : list str) {A} (m : C A) : Expr.E A := fun s =>
  let back (k : kst) := Expr.with_msgs (Expr.with_heap s (k_heap k)) (k_msgs k) in
  match m (mkK (Expr.e_heap s) (Expr.e_msgs s) paths) with
  | Ret a k => Ret a (back k) | Throw e k => Throw e (back k) | Undef k => Undef (back k) | NoFuel => NoFuel
  end.
(** get_variable with [global_only] (compiler.cpp:185-215). *)
Definition handler_variable (x : ctx) (name : str) (global : bool) : C (option addr) :=
  if global then lift (get_variable (x_root x) name) else state_get_variable x name.

(** The arguments of a user function (compiler.cpp:265-345): [false] when the
    function is returned as is. *)
Fixpoint user_arguments (fuel : nat) (root func val : addr) (args : list addr) (inputs : list addr) : C bool :=
  match args with
  | [] => ret true
  | arg :: rest =>
      b <- is_a arg ARG ;;
      if negb b then throw XLogic
      else
        e <- lift (child_empty arg) ;;
        if e : bool then throw XLogic
        else
          name <- lift (get_child arg 0) ;;
          v <- is_a name VARIABLE ;;
          if negb v then ret false
          else
            match inputs with
            | [] =>
                z <- lift (size arg) ;;
                p <- pos_of arg ;;
                if 1 <? z then
                  d <- lift (clone fuel arg) ;;
                  lift (remove_child_at d 0) ;;;
                  z <- lift (size d) ;;
                  value <- (if z =? 1 then lift (get_child d 0)
                            else l <- lift (new_node LIST p) ;; lift (take_over_children_of l d) ;;; ret l) ;;
                  set_parameter root name value p ;;;
                  user_arguments fuel root func val rest []
                else
                  vp <- pos_of val ;;
                  report vp "missing function variable when calling a function." ;;; ret false
            | param :: more =>
                b <- is_a param ARG ;;
                if negb b then throw XLogic
                else
                  z <- lift (size param) ;;
                  p <- pos_of param ;;
                  value <- (if z =? 1 then lift (get_child param 0)
                            else l <- lift (new_node LIST p) ;; lift (take_over_children_of l param) ;;; ret l) ;;
                  q <- pos_of value ;;
                  copy <- lift (clone fuel value) ;;
                  set_parameter root name copy q ;;;
                  user_arguments fuel root func val rest more
            end
  end.
(** execute_user_function (compiler.cpp:217-353); [compile] runs a new compiler
    on a root. *)
Fixpoint add_clones (fuel : nat) (root : addr) (l : list addr) : C unit :=
  match l with [] => ret tt | a :: r => c <- lift (clone fuel a) ;; lift (add_child root c) ;;; add_clones fuel root r end.
Definition user_function (compile : ctx -> C (option addr)) (fuel : nat) (x : ctx) (func : addr) : C (option addr) :=
  name <- lift (get_string func) ;;
  v <- state_get_variable x name ;;
  match v with
  | None => ret (Some func)
  | Some value =>
      l <- is_a value LIST ;;
      z <- (if l : bool then lift (size value) else ret 0) ;;
      if negb (z =? 2) then throw XLogic
      else
        var <- lift (get_child value 0) ;;
        val <- lift (get_child value 1) ;;
        f <- is_a var FUNCTION ;;
        if negb f then ret (Some func)
        else
          p <- pos_of val ;;
          root <- lift (new_node LIST p) ;;
          b <- is_a val OPEN_CURLYBRACKET ;;
          if negb b then throw XLogic
          else
            lift (copy_variable fuel root (x_root x)) ;;;
            c <- lift (load val) ;;
            add_clones fuel root (c_ch c) ;;;
            vc <- lift (load var) ;;
            fc <- lift (load func) ;;
            ok <- user_arguments fuel root func val (c_ch vc) (c_ch fc) ;;
            if ok : bool then compile (mkX root [] (x_quiet x)) else ret (Some func)
  end.

(** What the rules need, for given functions of expressions. *)
Definition world_of (o : outside) (fn : ctx -> Expr.functions) : world :=
  mkW (o_libm o) fn (fun f => match o_read o f with Some _ => true | None => false end) (load_sheet o) (o_text o false).
Definition rules_of (o : outside) (fn : ctx -> Expr.functions) : rules :=
  mkR (world_of o fn) (selector_pass o) (o_metrics o) (o_slash o).

(** A function runs on the object of the call, whose current token is [cur];
    it does not look at the rest of that object. *)
Definition in_call {A} (cur : option addr) (n : addr) (m : Expr.E A) : C A := fun s =>
  let back (e : Expr.est) := mkK (Expr.e_heap e) (Expr.e_msgs e) (k_paths s) in
  match m (Expr.mkE (k_heap s) (k_msgs s) n 0 (-1) cur [] false) with
  | Ret a e => Ret a (back e) | Throw q e => Throw q (back e)
  | Undef e => Undef (back e) | NoFuel => NoFuel
  end.
(** The call of a function (expr_unary.cpp:154-177, internal_functions.cpp:
    1866-2222); [fuel] bounds the depth of the calls. *)
Fixpoint functions_of (o : outside) (paths : list str) (fuel : nat) (x : ctx) : Expr.functions :=
  fun cur func g =>
    match fuel with
    | O => NoFuel
    | S f =>
        let fn := functions_of o paths f in
        let env :=
          let e := o_env o in
          Functions.mkFE (Functions.f_libm e) (Functions.f_acos e) (Functions.f_asin e) (Functions.f_atan e)
            (Functions.f_cos e) (Functions.f_sin e) (Functions.f_tan e) (Functions.f_log e) (Functions.f_rand e)
            (Functions.f_precision e) (Functions.f_show e) (fun a h => o_text o true h a)
            (fun name global => in_expr paths (handler_variable x name global))
            (fun a => in_expr paths (user_function (passes (rules_of o fn) f) f x a)) in
        let m : C (option addr) :=
          argify func ;;;
          name <- lift (get_string func) ;;
          (if named name ["calc"; "expression"] then ret tt
           else with_expr func (compile_args (o_libm o) (fn x) f false func)) ;;;
          r <- in_call cur func (Functions.execute env 0 func) ;;
          ret (fst r) in
        match m (mkK (fst g) (snd g) paths) with
        | Ret r k => Ret r (k_heap k, k_msgs k)
        | Throw e k => Throw e (k_heap k, k_msgs k)
        | Undef k => Undef (k_heap k, k_msgs k)
        | NoFuel => NoFuel
        end
    end.

(** ** The whole

    What the command line tool does with a text (tools/csspp.cpp:484-610),
    without the header and the footer: parse; stop on errors; compile; stop on
    errors; output. [None]: it stopped. *)
Definition has_error (m : list msg) : bool := existsb is_error m.
Definition default_paths : list str := [default_path].
Definition translate (o : outside) (fuel : nat) (mode : Assembler.mode) (input : list Z) : outcome (list msg) (option str) :=
  match read_sheet o input ([], []) with
  | Throw e g => Throw e (snd g) | Undef g => Undef (snd g) | NoFuel => NoFuel
  | Ret root (h, m) =>
      if has_error m then Ret None m
      else
        match passes (rules_of o (functions_of o default_paths fuel)) fuel (mkX root [] false) (mkK h m default_paths) with
        | Throw e s => Throw e (k_msgs s) | Undef s => Undef (k_msgs s) | NoFuel => NoFuel
        | Ret _ s =>
            if has_error (k_msgs s) then Ret None (k_msgs s)
            else
              match Assembler.output (k_heap s) (o_libm o) (Functions.f_precision (o_env o)) mode fuel root (Assembler.mkO [] false (k_msgs s)) with
              | Throw e t => Throw e (Assembler.o_msgs t) | Undef t => Undef (Assembler.o_msgs t) | NoFuel => NoFuel
              | Ret _ t => Ret (Some (Assembler.o_text t)) (Assembler.o_msgs t)
              end
        end
  end.

(** The validation scripts of the distribution for declarations
    (scripts/validation/has-font-metrics.scss:19-22, slash-separator.scss:19-22). *)
Definition scripts_metrics (field : str) : bool := str_eqb field (zs "font").
Definition scripts_slash (field : str) : bool := str_eqb field (zs "border-radius").
