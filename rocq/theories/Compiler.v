(** * The compiler: variables, control flow, nested rules (csspp/compiler.cpp)

    Nodes live in the heap of NodeHeap.v. What compile() does to declarations,
    selectors and at-rules between the replacement of the variables and the
    removal of empty rules is in Compile.v (compiler.cpp:618-1625) and
    Selector.v (2966-3722); the passes put together are in Pipeline.v. Not
    modelled: the execution of the validation scripts, the header and the
    footer. *)

From Coq Require Import String ZArith List Bool Floats.SpecFloat.
From Verif Require Import Base NodeHeap.
From Verif Require Parser Expr.
Import ListNotations.
Open Scope string_scope. Open Scope list_scope. Open Scope Z_scope.

(** The nodes, the messages sent so far and the search paths ([f_paths]). *)
Record kst := mkK { k_heap : heap; k_msgs : list msg; k_paths : list str }.

Definition C (A : Type) := kst -> outcome kst A.
Definition ret {A} (x : A) : C A := fun s => Ret x s.
Definition throw {A} (e : exn) : C A := fun s => Throw e s.
Definition nofuel {A} : C A := fun _ => NoFuel.
Definition bind {A B} (m : C A) (f : A -> C B) : C B :=
  fun s => match m s with
           | Ret a s' => f a s' | Throw e s' => Throw e s'
           | Undef s' => Undef s' | NoFuel => NoFuel
           end.
Notation "x <- m ;; k" := (bind m (fun x => k)) (at level 70, m at next level, right associativity).
Notation "m ;;; k" := (bind m (fun _ => k)) (at level 70, right associativity).
Definition lift {A} (m : act A) : C A :=
  fun s => match m (k_heap s) with
           | Ret a h => Ret a (mkK h (k_msgs s) (k_paths s)) | Throw e h => Throw e (mkK h (k_msgs s) (k_paths s))
           | Undef h => Undef (mkK h (k_msgs s) (k_paths s)) | NoFuel => NoFuel
           end.
(** [error::instance() << pos << text << level]; the variable parts of the
    texts (names, numbers) are left out. *)
Definition say (l : level) (p : position) (text : string) : C unit :=
  fun s => Ret tt (mkK (k_heap s) (k_msgs s ++ [mkMsg l p text]) (k_paths s)).
Definition report := say LError.

Definition type_of (a : addr) : C ntype := c <- lift (load a) ;; ret (c_type c).
Definition pos_of (a : addr) : C position := c <- lift (load a) ;; ret (c_pos c).
Definition is_a (a : addr) (t : ntype) : C bool := k <- type_of a ;; ret (ntype_eqb k t).
Definition child_is (a : addr) (i : Z) (t : ntype) : C bool := c <- lift (get_child a i) ;; is_a c t.

(** The root ([f_root]), the stack of parents ([f_parents], the last one
    first) and [f_empty_on_undefined_variable]. *)
Record ctx := mkX { x_root : addr; x_parents : list addr; x_quiet : bool }.
(** safe_parents_t (compiler.cpp:65-81): the parent is popped on return and on
    exceptions alike, so the stack is an argument. *)
Definition push (x : ctx) (n : addr) : ctx := mkX (x_root x) (n :: x_parents x) (x_quiet x).
(** get_previous_parent (compiler.cpp:144-153). *)
Definition previous_parent (x : ctx) : C addr :=
  match x_parents x with _ :: p :: _ => ret p | _ => throw XLogic end.

(** What is outside of the model: libm, the functions of the expressions, the
    files that can be read, their parsing (the new nodes and messages and the
    tree, [None] when the file cannot be opened) and node::to_string. *)
Record world := mkW
  { w_libm : libm;
    w_functions : ctx -> Expr.functions;
    w_access : str -> bool;
    w_load : str -> heap * list msg -> outcome (heap * list msg) (option addr);
    w_text : heap -> addr -> str }.

(** ** Variables

    The innermost parent which is a '\{' marked for variables. *)
Fixpoint find_scope (ps : list addr) : C (option addr) :=
  match ps with
  | [] => ret None
  | s :: r =>
      b <- is_a s OPEN_CURLYBRACKET ;;
      if b : bool then
        v <- lift (get_boolean s) ;; if v : bool then ret (Some s) else find_scope r
      else find_scope r
  end.
(** compiler_state_t::set_variable (compiler.cpp:155-183). *)
Definition state_set_variable (x : ctx) (name value : addr) (global : bool) : C unit :=
  k <- lift (get_string name) ;;
  p <- pos_of value ;;
  v <- lift (new_node LIST p) ;;
  lift (add_child v name) ;;;
  lift (add_child v value) ;;;
  s <- (if global then ret None else find_scope (x_parents x)) ;;
  lift (set_variable (match s with Some a => a | None => x_root x end) k v).
(** compiler_state_t::get_variable (compiler.cpp:185-215). *)
Fixpoint lookup_parents (ps : list addr) (k : str) : C (option addr) :=
  match ps with
  | [] => ret None
  | s :: r =>
      b <- is_a s OPEN_CURLYBRACKET ;;
      if b : bool then
        v <- lift (get_boolean s) ;;
        if v : bool then
          o <- lift (get_variable s k) ;;
          match o with Some a => ret (Some a) | None => lookup_parents r k end
        else lookup_parents r k
      else lookup_parents r k
  end.
Definition state_get_variable (x : ctx) (k : str) : C (option addr) :=
  o <- lookup_parents (x_parents x) k ;;
  match o with Some a => ret (Some a) | None => lift (get_variable (x_root x) k) end.

(** ** Files

    compiler_state_t::find_file (compiler.cpp:373-411). *)
Definition default_path : str := zs "/usr/lib/csspp/scripts".
Fixpoint first_file (w : world) (paths : list str) (name : str) : str :=
  match paths with
  | [] => []
  | p :: r =>
      let full := match p with [] => name | _ => p ++ zs "/" ++ name end in
      if w_access w full then full else first_file w r name
  end.
Definition find_file (w : world) (name : str) : C str := fun s =>
  match name with
  | [] => Ret [] s
  | c :: _ =>
      if c =? 47 then Ret (if w_access w name then name else []) s
      else
        let paths := match k_paths s with [] => [default_path] | l => l end in
        Ret (first_file w paths name) (mkK (k_heap s) (k_msgs s) paths)
  end.

(** [s.substr(s.size() - 5)], for strings of five bytes at least. *)
Definition last5 (s : str) : str := skipn (length s - 5) s.
Definition dot_scss : str := zs ".scss".
(** The search of set_validation_script (compiler.cpp:731-740): substr() throws
    std::out_of_range for a shorter name. *)
Definition find_validation (w : world) (name : str) : C str :=
  f <- find_file w name ;;
  match f with
  | [] =>
      if Z.of_nat (length name) <? 5 then throw XChildRange
      else if str_eqb (last5 name) dot_scss then ret []
      else find_file w (name ++ dot_scss)
  | _ => ret f
  end.
(** The search of replace_import (compiler.cpp:1711-1719). *)
Definition find_import (w : world) (name : str) : C str :=
  f <- find_file w name ;;
  match f with
  | [] =>
      if (5 <? Z.of_nat (length name)) && negb (str_eqb (last5 name) dot_scss)
      then find_file w (name ++ dot_scss) else ret []
  | _ => ret f
  end.

(** ** Comments

    [s.find(c, from)]. *)
Fixpoint find_from (c : Z) (s : str) (from : nat) : option nat :=
  match s, from with
  | [], _ => None
  | x :: r, O => if x =? c then Some O else option_map S (find_from c r O)
  | _ :: r, S f => option_map S (find_from c r f)
  end.
(** [s.substr(i, n)]. *)
Definition sub (s : str) (i n : nat) : str := firstn n (skipn i s).

(** replace_variables_in_comment (compiler.cpp:2864-2964). [from] is
    [pos + 1], where the next '\{' is searched. *)
Fixpoint comment_loop (w : world) (x : ctx) (p : position) (fuel from : nat) (comment : str) : C str :=
  match fuel with
  | O => nofuel
  | S f =>
      match find_from 123 comment from with
      | None => ret comment
      | Some pos =>
          let go_on := comment_loop w x p f (S pos) comment in
          if (pos + 2 <? length comment)%nat && (nth (pos + 1) comment 0 =? 36) then
            let start_var := if (0 <? pos)%nat && (nth (pos - 1) comment 0 =? 35) then (pos - 1)%nat else pos in
            match find_from 125 comment (start_var + 2) with
            | None => go_on
            | Some end_var =>
                let full_name := sub comment (pos + 2) (end_var - (pos + 2)) in
                let '(name, is_function) :=
                  match find_from 40 full_name 0 with
                  | Some i => (firstn i full_name, true)
                  | None => (full_name, false)
                  end in
                v <- state_get_variable x name ;;
                match v with
                | None =>
                    (if x_quiet x then ret tt else say LWarning p "variable, used in a comment, is not set.") ;;;
                    go_on
                | Some content =>
                    l <- is_a content LIST ;;
                    n <- (if l : bool then lift (size content) else ret 0) ;;
                    if negb (n =? 2) then throw XLogic
                    else
                      var <- lift (get_child content 0) ;;
                      t <- type_of var ;;
                      if ntype_eqb t FUNCTION || ntype_eqb t VARIABLE_FUNCTION then
                        say LWarning p "variable is a function which is not supported in a comment." ;;; go_on
                      else
                        (if is_function : bool then say LWarning p "variable is not a function, yet you referenced it as such." else ret tt) ;;;
                        val <- lift (get_child content 1) ;;
                        fun s =>
                          let value := w_text w (k_heap s) val in
                          comment_loop w x p f (start_var + length value)
                            (firstn start_var comment ++ value ++ skipn (end_var + 1) comment) s
                end
            end
          else go_on
      end
  end.
Definition replace_variables_in_comment (w : world) (x : ctx) (n : addr) : C unit :=
  c <- lift (get_string n) ;;
  p <- pos_of n ;;
  r <- comment_loop w x p (S (length c)) 0 c ;;
  lift (set_string n r).

(** ** Marking the blocks that hold variables

    mark_selectors (compiler.cpp:1867-1913). Marking does not change the
    lists of children, so the loop is on the list read at the start. *)
Definition child_nodes (l : list addr) : C (list node) :=
  fun s => Ret (map (fun a => match nth_error (k_heap s) a with
                              | Some c => mk (c_type c) (c_pos c)
                              | None => mk UNKNOWN (mkPos 1 1 1)
                              end) l) s.
(** parser::is_variable_set on a node. *)
Definition is_variable_set (n : addr) (with_block : bool) : C bool :=
  c <- lift (load n) ;;
  l <- child_nodes (c_ch c) ;;
  match Parser.is_variable_set l with_block with Some b => ret b | None => throw XChildRange end.
Fixpoint each (f : addr -> C unit) (l : list addr) : C unit :=
  match l with [] => ret tt | a :: r => f a ;;; each f r end.
Fixpoint mark_selectors (fuel : nat) (n : addr) : C unit :=
  match fuel with
  | O => nofuel
  | S f =>
      t <- type_of n ;;
      match t with
      | AT_KEYWORD | COMPONENT_VALUE | DECLARATION | LIST | OPEN_CURLYBRACKET =>
          e <- lift (child_empty n) ;;
          (if e : bool then ret tt
           else
             v <- is_variable_set n true ;;
             if v : bool then ret tt
             else
               l <- lift (get_last_child n) ;;
               b <- is_a l OPEN_CURLYBRACKET ;;
               if b : bool then lift (set_boolean l true) else ret tt) ;;;
          c <- lift (load n) ;;
          each (mark_selectors f) (c_ch c)
      | _ => ret tt
      end
  end.

(** ** Arguments

    parser::argify (parser.cpp:789-870) on shared nodes. The integer of an ARG
    is the number of the separator in node_type_t (node.h:41-110): COMMA is 14
    and DIVIDE is 19. *)
Definition comma_code : Z := 14.
Definition divide_code : Z := 19.
Definition separator_code (sep : ntype) : Z := match sep with DIVIDE => divide_code | _ => comma_code end.
Definition new_arg (sep : ntype) (p : position) : C addr :=
  a <- lift (new_node ARG p) ;; lift (set_integer a (separator_code sep)) ;;; ret a.
Fixpoint drop_spaces (fuel : nat) (a : addr) : C unit :=
  match fuel with
  | O => nofuel
  | S f =>
      e <- lift (child_empty a) ;;
      if e : bool then ret tt
      else
        l <- lift (get_last_child a) ;;
        b <- is_a l WHITESPACE ;;
        if b : bool then lift (remove_child a l) ;;; drop_spaces f a else ret tt
  end.
Fixpoint argify_loop (sep : ntype) (n : addr) (p : position) (l : list addr) (arg : addr) : C bool :=
  match l with
  | [] => ret true
  | c :: r =>
      t <- type_of c ;;
      if ntype_eqb t OPEN_CURLYBRACKET then
        match r with [] => lift (add_child n c) ;;; ret true | _ => throw XLogic end
      else if ntype_eqb t sep then
        k <- lift (load arg) ;;
        drop_spaces (S (length (c_ch k))) arg ;;;
        e <- lift (child_empty arg) ;;
        if e : bool then
          z <- lift (size n) ;;
          report p (if z =? 1 then "dangling comma at the beginning of a list of arguments or selectors."
                    else "two commas in a row are invalid in a list of arguments or selectors.") ;;;
          ret false
        else
          d <- (match r with [] => ret true | y :: _ => is_a y OPEN_CURLYBRACKET end) ;;
          if d : bool then
            report p "dangling comma at the end of a list of arguments or selectors." ;;; ret false
          else
            a <- new_arg sep p ;; lift (add_child n a) ;;; argify_loop sep n p r a
      else if ntype_eqb t WHITESPACE then
        e <- lift (child_empty arg) ;;
        (if e : bool then ret tt else lift (add_child arg c)) ;;; argify_loop sep n p r arg
      else lift (add_child arg c) ;;; argify_loop sep n p r arg
  end.
(** The separator is COMMA or DIVIDE: the callers pass no other one. *)
Definition argify_by (sep : ntype) (n : addr) : C bool :=
  z <- lift (size n) ;;
  first <- (if z =? 0 then ret true else child_is n 0 ARG) ;;
  if first : bool then ret true
  else
    p <- pos_of n ;;
    temp <- lift (new_node LIST p) ;;
    lift (take_over_children_of temp n) ;;;
    a <- new_arg sep p ;;
    lift (add_child n a) ;;;
    c <- lift (load temp) ;;
    argify_loop sep n p (c_ch c) a.
Definition argify : addr -> C bool := argify_by COMMA.

(** prepare_function_arguments (compiler.cpp:2491-2562). *)
Fixpoint prepare_loop (l : list addr) (optional : bool) : C unit :=
  match l with
  | [] => ret tt
  | arg :: r =>
      b <- is_a arg ARG ;;
      if negb b then throw XLogic
      else
        e <- lift (child_empty arg) ;;
        if e : bool then throw XLogic
        else
          p <- pos_of arg ;;
          v <- child_is arg 0 VARIABLE ;;
          if negb v then
            report p "function declarations expect variables for each of their arguments, not this type." ;;; prepare_loop r optional
          else
            z <- lift (size arg) ;;
            if 1 <? z then
              w <- child_is arg 1 WHITESPACE ;;
              (if w : bool then lift (remove_child_at arg 1) else ret tt) ;;;
              z1 <- lift (size arg) ;;
              c <- (if 1 <? z1 then child_is arg 1 COLON else ret false) ;;
              if c : bool then
                lift (remove_child_at arg 1) ;;;
                z2 <- lift (size arg) ;;
                w2 <- (if 1 <? z2 then child_is arg 1 WHITESPACE else ret false) ;;
                (if w2 : bool then lift (remove_child_at arg 1) else ret tt) ;;;
                prepare_loop r true
              else
                report p "function declarations expect variable with optional parameters to use a ':' after the variable name and before the optional value." ;;;
                prepare_loop r optional
            else
              (if optional then report p "function declarations with optional parameters must make all parameters optional from the first one that is given an optional value up to the end of the list of arguments." else ret tt) ;;;
              prepare_loop r optional
  end.
Definition prepare_function_arguments (var : addr) : C unit :=
  ok <- argify var ;;
  if ok : bool then c <- lift (load var) ;; prepare_loop (c_ch c) false else ret tt.

(** ** Setting variables

    The loop on the flags of set_variable (compiler.cpp:2409-2438): from the
    last child to the first one; returns global, set_if_unset and whether a
    flag was not at the end. *)
Fixpoint flags_loop (n : addr) (pos : nat) (global unset late : bool) : C (bool * bool * bool) :=
  match pos with
  | O => ret (global, unset, late)
  | S k =>
      child <- lift (get_child n (Z.of_nat k)) ;;
      b <- is_a child EXCLAMATION ;;
      if negb b then flags_loop n k global unset late
      else
        s <- lift (get_string child) ;;
        let g := str_eqb s (zs "global") in
        let d := str_eqb s (zs "default") in
        if g || d then
          lift (remove_child_at n (Z.of_nat k)) ;;;
          z <- lift (size n) ;;
          flags_loop n k (global || g) (unset || (negb g && d)) (late || negb (Z.of_nat k =? z))
        else flags_loop n k global unset late
  end.
(** compiler::set_variable (compiler.cpp:2370-2489). *)
Definition compiler_set_variable (x : ctx) (n : addr) : C unit :=
  p <- previous_parent x ;;
  lift (remove_child p n) ;;;
  var <- lift (get_child n 0) ;;
  lift (remove_child_at n 0) ;;;
  w <- child_is n 0 WHITESPACE ;;
  (if w : bool then lift (remove_child_at n 0) else ret tt) ;;;
  c <- child_is n 0 COLON ;;
  if negb c then throw XLogic
  else
    lift (remove_child_at n 0) ;;;
    e <- lift (child_empty n) ;;
    w2 <- (if e : bool then ret false else child_is n 0 WHITESPACE) ;;
    (if w2 : bool then lift (remove_child_at n 0) else ret tt) ;;;
    z <- lift (size n) ;;
    r <- flags_loop n (Z.to_nat z) false false false ;;
    let '(global, unset, late) := r in
    np <- pos_of n ;;
    (if late : bool then say LWarning np "A special flag must only appear at the end of a declaration." else ret tt) ;;;
    k <- lift (get_string var) ;;
    known <- (if unset : bool then state_get_variable x k else ret None) ;;
    match known with
    | Some _ => ret tt
    | None =>
        z <- lift (size n) ;;
        list <- (if z =? 1 then lift (get_child n 0)
                 else l <- lift (new_node LIST np) ;; lift (take_over_children_of l n) ;;; ret l) ;;
        lt <- type_of list ;;
        null <- (if ntype_eqb lt IDENTIFIER then s <- lift (get_string list) ;; ret (str_eqb s (zs "null")) else ret false) ;;
        list <- (if null : bool then lp <- pos_of list ;; lift (new_node NULL_TOKEN lp) else ret list) ;;
        f <- is_a var VARIABLE_FUNCTION ;;
        (if f : bool then prepare_function_arguments var else ret tt) ;;;
        state_set_variable x var list global
    end.
(** handle_mixin (compiler.cpp:1805-1865). *)
Definition handle_mixin (x : ctx) (n : addr) : C unit :=
  p <- pos_of n ;;
  z <- lift (size n) ;;
  if negb (z =? 2) then report p "a @mixin definition expects exactly two parameters: an identifier or function and a {}-block."
  else
    block <- lift (get_child n 1) ;;
    b <- is_a block OPEN_CURLYBRACKET ;;
    if negb b then report p "a @mixin definition expects a {}-block as its second parameter."
    else
      name <- lift (get_child n 0) ;;
      t <- type_of name ;;
      match t with
      | VARIABLE | VARIABLE_FUNCTION => report p "a @mixin must use an IDENTIFIER or FUNCTION and no a VARIABLE or VARIABLE_FUNCTION."
      | IDENTIFIER => state_set_variable x name block true
      | FUNCTION => prepare_function_arguments name ;;; state_set_variable x name block true
      | _ => report p "a @mixin expects either an IDENTIFIER or a FUNCTION as its first parameter."
      end.

(** ** Using variables

    Insert clones of a list of nodes from a position. *)
Fixpoint insert_clones (fuel : nat) (parent : addr) (i : Z) (l : list addr) : C unit :=
  match l with
  | [] => ret tt
  | a :: r => c <- lift (clone fuel a) ;; lift (insert_child parent i c) ;;; insert_clones fuel parent (i + 1) r
  end.
(** The same without clones. *)
Fixpoint insert_all (parent : addr) (i : Z) (l : list addr) : C unit :=
  match l with
  | [] => ret tt
  | a :: r => lift (insert_child parent i a) ;;; insert_all parent (i + 1) r
  end.
(** The insertion of the value (compiler.cpp:2242-2367). The list of children
    of [val] is read once: the parent is not in the value. *)
Definition insert_value (fuel : nat) (parent val : addr) (idx : Z) : C unit :=
  t <- type_of val ;;
  match t with
  | LIST | OPEN_CURLYBRACKET | OPEN_PARENTHESIS | OPEN_SQUAREBRACKET =>
      c <- lift (load val) ;;
      single <- (match t, c_ch c with
                 | LIST, [a] | OPEN_CURLYBRACKET, [a] =>
                     v <- is_a a COMPONENT_VALUE ;; q <- is_a parent COMPONENT_VALUE ;; ret (v && q)
                 | _, _ => ret false
                 end) ;;
      if single : bool then
        match c_ch c with
        | a :: _ => k <- lift (load a) ;; insert_clones fuel parent idx (c_ch k)
        | [] => ret tt
        end
      else insert_clones fuel parent idx (c_ch c)
  | NULL_TOKEN | WHITESPACE => ret tt
  | _ => c <- lift (clone fuel val) ;; lift (insert_child parent idx c)
  end.

(** A parameter: the variable and its value in a LIST, set in the new root. *)
Definition set_parameter (root arg_name value : addr) (p : position) : C unit :=
  v <- lift (new_node LIST p) ;;
  lift (add_child v arg_name) ;;; lift (add_child v value) ;;;
  k <- lift (get_string arg_name) ;;
  lift (set_variable root k v).
(** The parameters of a function (compiler.cpp:2132-2214): [true] when all are
    set, [false] when the caller has to return. *)
Fixpoint parameters_loop (fuel : nat) (root n : addr) (args inputs : list addr) : C bool :=
  match args with
  | [] => ret true
  | arg :: r =>
      b <- is_a arg ARG ;;
      if negb b then throw XLogic
      else
        e <- lift (child_empty arg) ;;
        if e : bool then throw XLogic
        else
          arg_name <- lift (get_child arg 0) ;;
          v <- is_a arg_name VARIABLE ;;
          if negb v then ret false
          else
            match inputs with
            | [] =>
                z <- lift (size arg) ;;
                if 1 <? z then
                  ap <- pos_of arg ;;
                  d <- lift (clone fuel arg) ;;
                  lift (remove_child_at d 0) ;;;
                  dz <- lift (size d) ;;
                  d <- (if dz =? 1 then lift (get_child d 0)
                        else l <- lift (new_node LIST ap) ;; lift (take_over_children_of l d) ;;; ret l) ;;
                  set_parameter root arg_name d ap ;;;
                  parameters_loop fuel root n r []
                else
                  np <- pos_of n ;;
                  report np "missing function variable when calling a function or using @include." ;;; ret false
            | u :: inputs' =>
                ub <- is_a u ARG ;;
                if negb ub then throw XLogic
                else
                  up <- pos_of u ;;
                  uz <- lift (size u) ;;
                  u <- (if uz =? 1 then lift (get_child u 0)
                        else l <- lift (new_node LIST up) ;; lift (take_over_children_of l u) ;;; ret l) ;;
                  vp <- pos_of u ;;
                  uc <- lift (clone fuel u) ;;
                  set_parameter root arg_name uc vp ;;;
                  parameters_loop fuel root n r inputs'
            end
  end.

(** replace_variable (compiler.cpp:2082-2368); [self] is replace_variables. *)
Definition replace_variable (fuel : nat) (self : ctx -> addr -> C unit) (x : ctx) (parent n : addr) (idx : Z) : C unit :=
  k <- lift (get_string n) ;;
  np <- pos_of n ;;
  nt <- type_of n ;;
  value <- state_get_variable x k ;;
  match value with
  | None => if x_quiet x then ret tt else report np "variable is not set."
  | Some value =>
      l <- is_a value LIST ;;
      z <- (if l : bool then lift (size value) else ret 0) ;;
      if negb (z =? 2) then throw XLogic
      else
        var <- lift (get_child value 0) ;;
        val <- lift (get_child value 1) ;;
        vt <- type_of var ;;
        let call := ntype_eqb nt VARIABLE_FUNCTION || ntype_eqb nt FUNCTION in
        if ntype_eqb vt FUNCTION || ntype_eqb vt VARIABLE_FUNCTION then
          if negb call then report np "variable is not a function and it cannot be referenced as such."
          else
            argify n ;;;
            vp <- pos_of val ;;
            root <- lift (new_node LIST vp) ;;
            c <- lift (clone fuel val) ;;
            lift (add_child root c) ;;;
            vc <- lift (load var) ;;
            nc <- lift (load n) ;;
            ok <- parameters_loop fuel root n (c_ch vc) (c_ch nc) ;;
            if negb ok then ret tt
            else
              mark_selectors fuel root ;;;
              self (mkX root [] (x_quiet x)) root ;;;
              rc <- lift (load root) ;;
              one <- (match c_ch rc with [a] => is_a a OPEN_CURLYBRACKET | _ => ret false end) ;;
              insert_value fuel parent
                (if one : bool then match c_ch rc with a :: _ => a | [] => root end else root) idx
        else if call then report np "variable is a function and it can only be referenced with a function."
        else insert_value fuel parent val idx
  end.

(** ** At-keywords

    at_keyword_expression (compiler.cpp:2672-2683). *)
Definition with_expr {A} (n : addr) (m : Expr.E A) : C A := fun s =>
  let back (e : Expr.est) := mkK (Expr.e_heap e) (Expr.e_msgs e) (k_paths s) in
  match m (Expr.mkE (k_heap s) (k_msgs s) n 0 (-1) None [] false) with
  | Ret a e => Ret a (back e) | Throw q e => Throw q (back e)
  | Undef e => Undef (back e) | NoFuel => NoFuel
  end.
Definition at_keyword_expression (w : world) (fuel : nat) (x : ctx) (n : addr) : C (option addr) :=
  e <- lift (child_empty n) ;;
  block <- (if e : bool then ret true else child_is n 0 OPEN_CURLYBRACKET) ;;
  if block : bool then ret None
  else with_expr n (Expr.compile (w_libm w) (w_functions w x) fuel).
(** expression::boolean. *)
Definition truth (n a : addr) : C bool := with_expr n (Expr.boolean a).

(** The marks of an @else (compiler.cpp:59-61): undefined (0), false so far,
    executed. *)
Definition false_so_far : Z := 1.
Definition executed : Z := 2.

(** [next->is(AT_KEYWORD) && next->get_string() == "else"]. *)
Definition is_else (n : addr) : C bool :=
  b <- is_a n AT_KEYWORD ;;
  if b : bool then s <- lift (get_string n) ;; ret (str_eqb s (zs "else")) else ret false.
Definition next_of (parent : addr) (idx : Z) : C (option addr) :=
  z <- lift (size parent) ;;
  if idx <? z then a <- lift (get_child parent idx) ;; ret (Some a) else ret None.

(** replace_if (compiler.cpp:2685-2734). *)
Definition replace_if (w : world) (fuel : nat) (x : ctx) (parent n : addr) (idx : Z) : C unit :=
  next <- next_of parent idx ;;
  (match next with
   | Some a => e <- is_else a ;; if e : bool then lift (set_integer a executed) else ret tt
   | None => ret tt
   end) ;;;
  expr <- at_keyword_expression w fuel x n ;;
  z <- lift (size n) ;;
  p <- pos_of n ;;
  match expr with
  | None => report p "@if is expected to have exactly 2 parameters: an expression and a block."
  | Some e =>
      if negb (z =? 2) then report p "@if is expected to have exactly 2 parameters: an expression and a block."
      else
        r <- truth n e ;;
        if r : bool then
          block <- lift (get_child n 1) ;;
          lift (size block) ;;;
          c <- lift (load block) ;; insert_all parent idx (c_ch c)
        else match next with
             | Some a => lift (set_integer a false_so_far)
             | None => ret tt
             end
  end.

(** replace_else (compiler.cpp:2736-2862). *)
Definition replace_else (w : world) (fuel : nat) (x : ctx) (parent n : addr) (idx : Z) : C unit :=
  p <- pos_of n ;;
  candidate <- next_of parent idx ;;
  next <- (match candidate with
           | Some a => e <- is_else a ;; ret (if e : bool then Some a else None)
           | None => ret None
           end) ;;
  z0 <- lift (size n) ;;
  stop <- (match next with
           | None => ret false
           | Some a =>
               if z0 =? 1 then
                 report p "'@else { ... }' cannot follow another '@else { ... }'. Maybe you are missing an 'if expr'?" ;;; ret true
               else lift (set_integer a executed) ;;; ret false
           end) ;;
  if stop : bool then ret tt
  else
    c0 <- lift (get_child n 0) ;;
    t0 <- type_of c0 ;;
    else_if <- (if ntype_eqb t0 IDENTIFIER then s <- lift (get_string c0) ;; ret (str_eqb s (zs "if")) else ret false) ;;
    expr <- (if else_if : bool then
               lift (remove_child_at n 0) ;;;
               e <- lift (child_empty n) ;;
               ws <- (if e : bool then ret false else child_is n 0 WHITESPACE) ;;
               (if ws : bool then lift (remove_child_at n 0) else ret tt) ;;;
               z <- lift (size n) ;;
               if z =? 1 then
                 report p "'@else if ...' is missing an expression or a block." ;;; ret (None, true)
               else e <- at_keyword_expression w fuel x n ;; ret (e, false)
             else ret (None, false)) ;;
    let '(expr, stop) := expr in
    if stop : bool then ret tt
    else
      status <- lift (get_integer n) ;;
      if status =? 0 then
        report p "a standalone @else is not legal, it has to be preceeded by an @if ... or @else if ..."
      else
        let r := status =? false_so_far in
        z <- lift (size n) ;;
        res <- (if negb (z =? 1) then
                  match expr with
                  | None => report p "'@else { ... }' is expected to have 1 parameter, '@else if ... { ... }' is expected to have 2 parameters." ;;; ret None
                  | Some e =>
                      if negb (z =? 2) then
                        report p "'@else { ... }' is expected to have 1 parameter, '@else if ... { ... }' is expected to have 2 parameters." ;;; ret None
                      else if r then b <- truth n e ;; ret (Some b) else ret (Some false)
                  end
                else ret (Some r)) ;;
        match res with
        | None => ret tt
        | Some r =>
            (if r : bool then
               block <- lift (get_child n (if z =? 1 then 0 else 1)) ;;
               lift (size block) ;;;
               c <- lift (load block) ;; insert_all parent idx (c_ch c)
             else ret tt) ;;;
            match next with
            | Some a => lift (set_integer a (if r then executed else status))
            | None => ret tt
            end
        end.

(** [s.substr(0, n) == t]. *)
Definition has_prefix (t s : str) : bool := str_eqb (firstn (length t) s) t.
Definition add_slash (s : str) : str := match s with c :: _ => if c =? 47 then s else 47 :: s | [] => [47] end.
Fixpoint before_nul (s : str) : str := match s with c :: r => if c =? 0 then [] else c :: before_nul r | [] => [] end.
Definition is_letter (c : Z) : bool := ((97 <=? c) && (c <=? 122)) || ((65 <=? c) && (c <=? 90)).
(** The name of the file of an @import (compiler.cpp:1652-1708); [None]: not
    a supported URI. *)
Definition import_name (url : bool) (s : str) : option str :=
  if url then
    if has_prefix (zs "file://") s then Some (add_slash (skipn 7 s)) else None
  else match find_from 58 s 0 with
       | Some pos =>
           if str_eqb (sub s pos 3) (zs "://") then
             let protocol := firstn pos s in
             (* the loop stops at the first NUL *)
             if forallb is_letter (before_nul protocol) then
               if str_eqb protocol (zs "file") then Some (add_slash (skipn 7 s)) else None
             else Some s
           else Some s
       | None => Some s
       end.
Definition errors_in (l : list msg) : nat := length (filter is_error l).
(** replace_import (compiler.cpp:1629-1803); returns the new index. *)
Definition replace_import (w : world) (fuel : nat) (x : ctx) (parent n : addr) (idx : Z) : C Z :=
  expr <- at_keyword_expression w fuel x n ;;
  match expr with
  | None => ret (idx + 1)
  | Some e =>
      t <- type_of e ;;
      if negb (ntype_eqb t STRING || ntype_eqb t URL) then ret (idx + 1)
      else
        s <- lift (get_string e) ;;
        match import_name (ntype_eqb t URL) s with
        | None => ret (idx + 1)
        | Some name =>
            file <- find_import w name ;;
            match file with
            | [] =>
                p <- pos_of e ;;
                (match name with
                 | [] => report p "@import with an empty name is not valid."
                 | _ => say LInfo p "@import left alone by the CSS Preprocessor, no matching file found."
                 end) ;;;
                ret (idx + 1)
            | _ =>
                lift (remove_child_at parent idx) ;;;
                fun s =>
                  match w_load w file (k_heap s, k_msgs s) with
                  | Ret r (h, m) =>
                      let s' := mkK h m (k_paths s) in
                      match r with
                      | None => (report (mkPos 1 1 1) "script could not be opened." ;;; ret idx) s'
                      | Some l =>
                          ((if (errors_in m =? errors_in (k_msgs s))%nat
                            then c <- lift (load l) ;; insert_all parent idx (c_ch c)
                            else ret tt) ;;; ret idx) s'
                      end
                  | Throw q (h, m) => Throw q (mkK h m (k_paths s))
                  | Undef (h, m) => Undef (mkK h m (k_paths s))
                  | NoFuel => NoFuel
                  end
            end
        end
  end.

(** replace_at_keyword (compiler.cpp:2564-2670); returns the new index. *)
Definition replace_at_keyword (w : world) (fuel : nat) (self : ctx -> addr -> C unit) (x : ctx) (parent n : addr) (idx : Z) : C Z :=
  at_ <- lift (get_string n) ;;
  (if str_eqb at_ (zs "mixin") then ret tt else self x n) ;;;
  if str_eqb at_ (zs "import") then replace_import w fuel x parent n idx
  else if str_eqb at_ (zs "mixin") then lift (remove_child_at parent idx) ;;; handle_mixin x n ;;; ret idx
  else if str_eqb at_ (zs "if") then lift (remove_child_at parent idx) ;;; replace_if w fuel x parent n idx ;;; ret idx
  else if str_eqb at_ (zs "else") then lift (remove_child_at parent idx) ;;; replace_else w fuel x parent n idx ;;; ret idx
  else if str_eqb at_ (zs "include") then
    lift (remove_child_at parent idx) ;;;
    p <- pos_of n ;;
    e <- lift (child_empty n) ;;
    if e : bool then
      report p "@include is expected to be followed by an IDENTIFIER or a FUNCTION naming the variable/mixin to include." ;;; ret idx
    else
      id <- lift (get_child n 0) ;;
      t <- type_of id ;;
      (if ntype_eqb t IDENTIFIER || ntype_eqb t FUNCTION then replace_variable fuel self x parent id idx
       else report p "@include is expected to be followed by an IDENTIFIER or a FUNCTION naming the variable/mixin to include.") ;;;
      ret idx
  else
    (if existsb (str_eqb at_) [zs "error"; zs "warning"; zs "message"; zs "info"; zs "debug"]
     then at_keyword_expression w fuel x n ;;; ret tt else ret tt) ;;;
    ret (idx + 1).

(** [if(idx < n->size() && child == n->get_child(idx)) ++idx]. *)
Definition step_over (n child : addr) (idx : Z) : C Z :=
  z <- lift (size n) ;;
  if idx <? z then c <- lift (get_child n idx) ;; ret (if Nat.eqb child c then idx + 1 else idx)
  else ret idx.

(** The loop of replace_variables (compiler.cpp:2001-2059). *)
Fixpoint variables_loop (w : world) (self : ctx -> addr -> C unit) (x : ctx) (n : addr) (fuel : nat) (idx : Z) : C unit :=
  match fuel with
  | O => nofuel
  | S f =>
      z <- lift (size n) ;;
      if z <=? idx then ret tt
      else
        child <- lift (get_child n idx) ;;
        t <- type_of child ;;
        match t with
        | VARIABLE =>
            lift (remove_child_at n idx) ;;; replace_variable f self x n child idx ;;;
            variables_loop w self x n f idx
        | VARIABLE_FUNCTION =>
            self x child ;;; lift (remove_child_at n idx) ;;; replace_variable f self x n child idx ;;;
            variables_loop w self x n f idx
        | ARG | COMMENT | COMPONENT_VALUE | DECLARATION | FUNCTION | LIST | OPEN_CURLYBRACKET
        | OPEN_PARENTHESIS | OPEN_SQUAREBRACKET =>
            self x child ;;; i <- step_over n child idx ;; variables_loop w self x n f i
        | AT_KEYWORD => i <- replace_at_keyword w f self x n child idx ;; variables_loop w self x n f i
        | _ => variables_loop w self x n f (idx + 1)
        end
  end.
(** replace_variables (compiler.cpp:1962-2080); [fuel] bounds the depth of the
    calls and the length of the loops. *)
Fixpoint replace_variables (w : world) (fuel : nat) (x0 : ctx) (n : addr) : C unit :=
  match fuel with
  | O => nofuel
  | S f =>
      let x := push x0 n in
      let children :=
        t <- type_of n ;;
        set <- (if ntype_eqb t COMPONENT_VALUE then is_variable_set n false else ret false) ;;
        first <- (if set : bool then
                    v <- child_is n 0 VARIABLE_FUNCTION ;; if v : bool then lift (size n) else ret 1
                  else ret 0) ;;
        variables_loop w (replace_variables w f) x n f first ;;;
        if set : bool then compiler_set_variable x n else ret tt in
      t <- type_of n ;;
      match t with
      | LIST =>
          e <- lift (child_empty n) ;;
          if e : bool then p <- previous_parent x ;; lift (remove_child p n) else children
      | AT_KEYWORD | ARG | COMPONENT_VALUE | DECLARATION | FUNCTION | OPEN_CURLYBRACKET
      | OPEN_PARENTHESIS | OPEN_SQUAREBRACKET | VARIABLE_FUNCTION => children
      | COMMENT => replace_variables_in_comment w x n
      | _ => ret tt
      end
  end.

(** ** Empty rules

    remove_empty_rules (compiler.cpp:1915-1960). *)
Fixpoint step_loop (f : addr -> C unit) (n : addr) (fuel : nat) (idx : Z) : C unit :=
  match fuel with
  | O => nofuel
  | S k =>
      z <- lift (size n) ;;
      if z <=? idx then ret tt
      else
        child <- lift (get_child n idx) ;;
        f child ;;;
        i <- step_over n child idx ;;
        step_loop f n k i
  end.
(** [!n->empty() && n->get_last_child()->is('\{') && n->get_last_child()->empty()]. *)
Definition is_empty_rule (n : addr) : C bool :=
  e <- lift (child_empty n) ;;
  if e : bool then ret false
  else
    l <- lift (get_last_child n) ;;
    b <- is_a l OPEN_CURLYBRACKET ;;
    if b : bool then lift (child_empty l) else ret false.
Fixpoint remove_empty_rules (fuel : nat) (x0 : ctx) (n : addr) : C unit :=
  match fuel with
  | O => nofuel
  | S f =>
      let x := push x0 n in
      let children := step_loop (remove_empty_rules f x) n f 0 in
      t <- type_of n ;;
      match t with
      | COMPONENT_VALUE =>
          e <- is_empty_rule n ;;
          if e : bool then p <- previous_parent x ;; lift (remove_child p n) else children
      | AT_KEYWORD | DECLARATION | LIST | OPEN_CURLYBRACKET => children
      | _ => ret tt
      end
  end.

(** ** Nested rules and declarations

    The loops of the three functions below; [f] also updates a value (the
    variable passed by reference). *)
Fixpoint ref_loop (f : addr -> addr -> C addr) (n : addr) (fuel : nat) (idx : Z) (v : addr) : C addr :=
  match fuel with
  | O => nofuel
  | S k =>
      z <- lift (size n) ;;
      if z <=? idx then ret v
      else
        child <- lift (get_child n idx) ;;
        v' <- f v child ;;
        i <- step_over n child idx ;;
        ref_loop f n k i v'
  end.
(** [parent->insert_child(parent->child_position(last) + 1, n)]. *)
Definition insert_after (parent last n : addr) : C unit :=
  p <- lift (child_position parent last) ;; lift (insert_child parent (u64 (p + 1)) n).

(** expand_nested_declarations (compiler.cpp:4077-4172); returns the new
    [root]. *)
Fixpoint expand_declarations (fuel : nat) (x0 : ctx) (name : str) (parent root n : addr) : C addr :=
  match fuel with
  | O => nofuel
  | S f =>
      let x := push x0 n in
      t <- type_of n ;;
      match t with
      | DECLARATION =>
          s <- lift (get_string n) ;;
          let sub_name := (if str_eqb name (zs "-csspp-null") then [] else name ++ zs "-") ++ s in
          p <- previous_parent x ;;
          lift (remove_child p n) ;;;
          insert_after parent root n ;;;
          lift (set_string n sub_name) ;;;
          ref_loop (fun r c => expand_declarations f x sub_name parent r c) n f 0 n
      | AT_KEYWORD => throw XLogic
      | LIST | OPEN_CURLYBRACKET =>
          r <- ref_loop (fun r c => expand_declarations f x name parent r c) n f 0 root ;;
          e <- lift (child_empty n) ;;
          (if e : bool then p <- previous_parent x ;; lift (remove_child p n) else ret tt) ;;;
          ret r
      | COMPONENT_VALUE =>
          p <- pos_of n ;; report p "a nested declaration cannot include a rule." ;;; ret root
      | _ => ret root
      end
  end.
(** The DECLARATION case of expand_nested_components and expand_nested_rules
    (compiler.cpp:3886-3904, 4028-4044): every child starts from the
    declaration itself. *)
Definition expand_declaration (fuel : nat) (x : ctx) (n : addr) : C unit :=
  step_loop (fun c =>
    s <- lift (get_string n) ;; p <- previous_parent x ;;
    expand_declarations fuel x s p n c ;;; ret tt) n fuel 0.

(** The selectors of a nested rule (compiler.cpp:3965-4008): the ARG nodes at
    the start of [n] go to a LIST, then for each ARG of the outer rule a copy
    followed by the inner ones is inserted in [n]. *)
Fixpoint take_args (fuel : nat) (n list : addr) : C unit :=
  match fuel with
  | O => nofuel
  | S f =>
      e <- lift (child_empty n) ;;
      if e : bool then ret tt
      else
        c <- lift (get_child n 0) ;;
        b <- is_a c ARG ;;
        if b : bool then lift (remove_child_at n 0) ;;; lift (add_child list c) ;;; take_args f n list else ret tt
  end.
(** The items of one inner selector. *)
Fixpoint append_items (fuel : nat) (copy : addr) (items : list addr) (first : bool) : C unit :=
  match items with
  | [] => ret tt
  | item :: r =>
      b <- is_a item REFERENCE ;;
      (if b : bool then ret tt
       else
         (if first then p <- pos_of copy ;; w <- lift (new_node WHITESPACE p) ;; lift (add_child copy w) else ret tt) ;;;
         c <- lift (clone fuel item) ;; lift (add_child copy c)) ;;;
      append_items fuel copy r false
  end.
Fixpoint append_args (fuel : nat) (copy : addr) (args : list addr) : C unit :=
  match args with
  | [] => ret tt
  | a :: r => lift (size a) ;;; k <- lift (load a) ;; append_items fuel copy (c_ch k) true ;;; append_args fuel copy r
  end.
Fixpoint outer_loop (fuel : nat) (n inner : addr) (idx : Z) (outer : list addr) : C unit :=
  match outer with
  | [] => ret tt
  | c :: r =>
      b <- is_a c ARG ;;
      if b : bool then
        copy <- lift (clone fuel c) ;;
        k <- lift (load inner) ;;
        append_args fuel copy (c_ch k) ;;;
        lift (insert_child n idx copy) ;;;
        outer_loop fuel n inner (idx + 1) r
      else ret tt
  end.
Definition prepend_selectors (fuel : nat) (root n : addr) : C unit :=
  p <- pos_of n ;;
  list <- lift (new_node LIST p) ;;
  take_args fuel n list ;;;
  lift (size root) ;;;
  k <- lift (load root) ;;
  outer_loop fuel n list 0 (c_ch k).

(** expand_nested_components (compiler.cpp:3861-3927) when [rules] is [None],
    expand_nested_rules (compiler.cpp:3929-4075) with the parent and root
    otherwise; [last] is passed by reference. *)
Fixpoint expand (fuel : nat) (x0 : ctx) (rules : option (addr * addr)) (last n : addr) : C addr :=
  match fuel with
  | O => nofuel
  | S f =>
      let x := push x0 n in
      t <- type_of n ;;
      match rules with
      | None =>
          match t with
          | COMPONENT_VALUE =>
              z <- lift (size n) ;;
              (if z =? 0 then ret tt
               else
                 p <- previous_parent x ;;
                 ref_loop (fun l c => expand f x (Some (p, n)) l c) n f 0 n ;;; ret tt) ;;;
              ret last
          | DECLARATION => expand_declaration f x n ;;; ret last
          | LIST | AT_KEYWORD | OPEN_CURLYBRACKET =>
              step_loop (fun c => expand f x None last c ;;; ret tt) n f 0 ;;; ret last
          | _ => ret last
          end
      | Some (parent, root) =>
          match t with
          | COMPONENT_VALUE =>
              p <- previous_parent x ;;
              lift (remove_child p n) ;;;
              insert_after parent last n ;;;
              prepend_selectors f root n ;;;
              ref_loop (fun l c => expand f x (Some (parent, n)) l c) n f 0 n
          | DECLARATION =>
              expand_declaration f x n ;;;
              e <- lift (child_empty n) ;;
              (if e : bool then p <- previous_parent x ;; lift (remove_child p n) else ret tt) ;;;
              ret last
          | AT_KEYWORD =>
              step_loop (fun c => expand f x None last c ;;; ret tt) n f 0 ;;; ret last
          | LIST | OPEN_CURLYBRACKET => ref_loop (fun l c => expand f x (Some (parent, root)) l c) n f 0 last
          | _ => ret last
          end
      end
  end.
Definition expand_nested_components (fuel : nat) (x : ctx) (n : addr) : C unit :=
  expand fuel x None n n ;;; ret tt.
