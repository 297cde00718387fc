(** * The compiler: rules, declarations and at-rules (csspp/compiler.cpp:618-1625)

    The passes before (variables, control flow) and after (empty rules, nested
    rules) are in Compiler.v, whose notations and states are used here. Not
    modelled: which type of node is named inside a message. *)

From Coq Require Import String Ascii ZArith List Bool Floats.SpecFloat.
From Verif Require Import Base NodeHeap.
From Verif Require Parser Expr Selector FloatBits.
From Verif Require Import Compiler.
Import ListNotations.
Open Scope string_scope. Open Scope list_scope. Open Scope Z_scope.

(** ** Lists of expressions (expr_unary.cpp:38-108) *)

(** [error::instance() << pos << text << ERROR_WARNING] inside an expression. *)
Definition expr_warn (p : position) (text : string) : Expr.E unit :=
  fun s => Ret tt (Expr.with_msgs s (Expr.e_msgs s ++ [mkMsg LWarning p text])).
Definition late_flag : string := "A special flag must only appear at the end of a declaration.".
(** A "!flag" (expr_unary.cpp:67-89): taken out of the list, set on [parent]. *)
Definition take_flag (parent : addr) : Expr.E unit :=
  Expr.bind Expr.cur (fun a =>
  Expr.bind Expr.end_of_nodes (fun last =>
  Expr.bind (if last : bool then Expr.ret tt else Expr.bind (Expr.pos_of a) (fun p => expr_warn p late_flag)) (fun _ =>
  Expr.bind (fun s => Expr.lift (remove_child (Expr.e_node s) a) s) (fun _ =>
  Expr.bind Expr.get_pos (fun p =>
  Expr.bind (if 0 <? p then Expr.set_pos (p - 1) else Expr.ret tt) (fun _ =>
  Expr.bind (Expr.string_of a) (fun name =>
  Expr.lift (set_flag parent name true)))))))).
(** The loop of compile_list (expr_unary.cpp:63-105). *)
Fixpoint list_loop (fuel : nat) (cond : Expr.E (option addr)) (parent : addr) : Expr.E unit :=
  match fuel with
  | O => fun _ => NoFuel
  | S f =>
      Expr.bind (Expr.cur_is EXCLAMATION) (fun flag =>
      Expr.bind (if flag : bool then take_flag parent
                 else Expr.bind cond (fun r => Expr.bind (Expr.replace_with_result r) (fun _ => Expr.ret tt))) (fun _ =>
      Expr.bind Expr.end_of_nodes (fun e =>
      if e : bool then Expr.ret tt
      else
        Expr.bind Expr.next (fun _ =>
        Expr.bind (Expr.cur_is WHITESPACE) (fun ws =>
        if ws : bool then
          Expr.bind Expr.end_of_nodes (fun e2 =>
          if e2 : bool then Expr.ret tt
          else Expr.bind Expr.mark_start (fun _ => Expr.bind Expr.next (fun _ => list_loop f cond parent)))
        else list_loop f cond parent)))))
  end.
(** expression::compile_list; its result is not used by any caller. *)
Definition compile_list (lm : libm) (fn : Expr.functions) (fuel : nat) (parent : addr) : Expr.E unit :=
  Expr.bind Expr.mark_start (fun _ => Expr.bind Expr.next (fun _ => list_loop fuel (Expr.conditional lm fn fuel) parent)).
(** expression::compile_args (expr_unary.cpp:38-53). *)
Fixpoint args_loop (lm : libm) (fn : Expr.functions) (fuel : nat) (font : bool) (n : addr) (i : Z) (k : nat) : Expr.E unit :=
  match k with
  | O => Expr.ret tt
  | S k =>
      Expr.bind (Expr.lift (get_child n i)) (fun a =>
      Expr.bind (Expr.in_new a font (compile_list lm fn fuel n)) (fun _ => args_loop lm fn fuel font n (i + 1) k))
  end.
Definition compile_args (lm : libm) (fn : Expr.functions) (fuel : nat) (font : bool) (n : addr) : Expr.E unit :=
  Expr.bind (Expr.lift (child_empty n)) (fun e =>
  if e : bool then Expr.ret tt
  else
    Expr.bind (Expr.lift (get_last_child n)) (fun l =>
    Expr.bind (Expr.type_of l) (fun t =>
    Expr.bind (Expr.lift (size n)) (fun z =>
    args_loop lm fn fuel font n 0 (Z.to_nat (z - (if ntype_eqb t OPEN_CURLYBRACKET then 1 else 0))))))).

(** ** What is outside of this file

    The parser of selectors (Selector.v, on trees of nodes; see Pipeline.v) and
    the answers of the validation scripts "validation/has-font-metrics" and
    "validation/slash-separator" for a field name (run with [check_only]: their
    messages are dropped). *)
Record rules := mkR
  { r_world : world;
    r_selector : ctx -> addr -> C bool;
    r_metrics : str -> bool;
    r_slash : str -> bool }.

(** [std::string] to the text of a message. *)
Definition text_of (s : str) : string := fold_right (fun c r => String (ascii_of_nat (Z.to_nat c)) r) EmptyString s.

(** Number of children of a type (compiler.cpp:734-742). *)
Fixpoint count_type (t : ntype) (l : list addr) : C Z :=
  match l with
  | [] => ret 0
  | a :: r => b <- is_a a t ;; k <- count_type t r ;; ret (if b : bool then k + 1 else k)
  end.
(** parser::is_nested_declaration on a node. *)
Definition is_nested_declaration (n : addr) : C bool :=
  c <- lift (load n) ;;
  l <- child_nodes (c_ch c) ;;
  match Parser.is_nested_declaration l with Some b => ret b | None => throw XChildRange end.

(** A loop which goes to the next child when the current one is still there
    (step_over); [f] also carries [f_return_result]; with [stop] the loop
    stops once it is set. *)
Fixpoint result_loop (stop : bool) (f : option addr -> addr -> C (option addr)) (n : addr) (fuel : nat) (idx : Z) (r : option addr) : C (option addr) :=
  match fuel with
  | O => nofuel
  | S k =>
      z <- lift (size n) ;;
      if (z <=? idx) || (stop && match r with Some _ => true | None => false end) then ret r
      else
        child <- lift (get_child n idx) ;;
        r1 <- f r child ;;
        i <- step_over n child idx ;;
        result_loop stop f n k i r1
  end.

(** ** Declarations (compiler.cpp:886-1098) *)

Definition missing_colon : string := "somehow a declaration list is missing a field name or ':'.".
Definition missing_fields : string := "somehow a declaration list is missing fields, this happens if you used an invalid variable.".
Definition no_trick : string := "the '[*|.|!]<field-name>: ...' syntax is not allowed in csspp, we offer other ways to control field names per browser and do not allow such tricks.".
Definition no_hash_trick : string := "the '#<field-name>: ...' syntax is not allowed in csspp, we offer other ways to control field names per browser and do not allow such tricks.".
Definition expected_identifier : string := "expected an identifier to start a declaration value; got another token instead.".
Definition expected_colon : string := "expected a ':' after the identifier of this declaration value; got another token instead.".
Definition ie_filter : string := "the alpha(), chroma() and similar functions of the filter field are Internet Explorer specific extensions which are not supported across browsers.".

(** The name of the field (compiler.cpp:914-949): [None] after an error. *)
Definition field_name (n : addr) : C (option addr) :=
  id <- lift (get_child n 0) ;;
  t <- type_of id ;;
  if ntype_eqb t IDENTIFIER then ret (Some id)
  else
    p <- pos_of id ;;
    trick <- (if ntype_eqb t MULTIPLY || ntype_eqb t PERIOD then child_is n 1 IDENTIFIER else ret false) ;;
    if trick : bool then
      lift (remove_child_at n 0) ;;;
      id <- lift (get_child n 0) ;;
      p <- pos_of id ;;
      say LWarning p no_trick ;;; ret (Some id)
    else if ntype_eqb t HASH || ntype_eqb t EXCLAMATION then say LWarning p no_hash_trick ;;; ret (Some id)
    else report p expected_identifier ;;; ret None.
(** From the name to the declaration node (compiler.cpp:951-1018): white space
    and colon removed, the values moved under a new DECLARATION; [None] after
    an error. *)
Fixpoint move_values (n d : addr) (k : nat) : C unit :=
  match k with
  | O => ret tt
  | S k => a <- lift (get_child n 1) ;; lift (add_child d a) ;;; lift (remove_child_at n 1) ;;; move_values n d k
  end.
Definition new_declaration (n id : addr) : C (option addr) :=
  next <- lift (get_child n 1) ;;
  w <- is_a next WHITESPACE ;;
  next <- (if w : bool then lift (remove_child_at n 1) ;;; lift (get_child n 1) else ret next) ;;
  p <- pos_of n ;;
  c <- is_a next COLON ;;
  if negb c then report p expected_colon ;;; ret None
  else
    lift (remove_child_at n 1) ;;;
    z <- lift (size n) ;;
    if z <? 2 then report p missing_fields ;;; ret None
    else
      w <- child_is n 1 WHITESPACE ;;
      (if w : bool then lift (remove_child_at n 1) else ret tt) ;;;
      z <- lift (size n) ;;
      if z <? 2 then report p missing_fields ;;; ret None
      else
        d <- lift (new_node DECLARATION p) ;;
        name <- lift (get_string id) ;;
        lift (set_string d name) ;;;
        move_values n d (Z.to_nat (z - 1)) ;;;
        ret (Some d).
(** The sub-fields: a declaration is compiled as a list of expressions unless
    it starts with '\{' or has a LIST or a COMPONENT_VALUE (compiler.cpp:1036-1058). *)
Fixpoint has_sub_fields (l : list addr) : C bool :=
  match l with
  | [] => ret false
  | a :: r => t <- type_of a ;; b <- has_sub_fields r ;; ret (ntype_eqb t LIST || ntype_eqb t COMPONENT_VALUE || b)
  end.
(** [ignore] (compiler.cpp:1065-1072). *)
Definition is_ie_filter (t : ntype) (word field : str) : bool :=
  (existsb (str_eqb field) [zs "filter"; zs "-filter"]) &&
  (   (ntype_eqb t FUNCTION && existsb (str_eqb word) [zs "alpha"; zs "chroma"; zs "gray"; zs "opacity"])
   || (ntype_eqb t IDENTIFIER && str_eqb word (zs "progid"))).
(** The values as expressions (compiler.cpp:1032-1097). *)
Definition compile_expressions (k : rules) (fuel : nat) (x : ctx) (d : addr) : C unit :=
  e <- lift (child_empty d) ;;
  block <- (if e : bool then ret true else child_is d 0 OPEN_CURLYBRACKET) ;;
  c <- lift (load d) ;;
  sub <- (if block : bool then ret true else has_sub_fields (c_ch c)) ;;
  if sub : bool then ret tt
  else
    child <- lift (get_child d 0) ;;
    t <- type_of child ;;
    word <- (if ntype_eqb t FUNCTION || ntype_eqb t IDENTIFIER then lift (get_string child) else ret []) ;;
    field <- lift (get_string d) ;;
    if is_ie_filter t word field then p <- pos_of child ;; say LWarning p ie_filter
    else
      argify_by (if r_slash k field then DIVIDE else COMMA) d ;;;
      with_expr d (compile_args (w_libm (r_world k)) (w_functions (r_world k) x) fuel (r_metrics k field) d).

(** compile_declaration (compiler.cpp:886-1098); [values] is
    compile_declaration_values. *)
Definition compile_declaration (k : rules) (fuel : nat) (values : ctx -> option addr -> addr -> C (option addr))
    (x : ctx) (r : option addr) (n : addr) : C (option addr) :=
  t <- type_of n ;;
  if ntype_eqb t DECLARATION then ret r
  else
    z <- lift (size n) ;;
    p <- pos_of n ;;
    if z <? 2 then report p missing_colon ;;; ret r
    else
      id <- field_name n ;;
      match id with
      | None => ret r
      | Some id =>
          d <- new_declaration n id ;;
          match d with
          | None => ret r
          | Some d =>
              if negb (ntype_eqb t COMPONENT_VALUE) then throw XLogic
              else
                parent <- previous_parent x ;;
                lift (replace_child parent n d) ;;;
                compile_expressions k fuel (push x d) d ;;;
                values (push x d) r d
          end
      end.

(** ** At-keywords *)

(** [std::isspace] and [std::tolower] in the C locale, on a byte. *)
Definition is_space (c : Z) : bool := (c =? 32) || ((9 <=? c) && (c <=? 13)).
Fixpoint trim_front (s : str) : str := match s with c :: r => if is_space c then trim_front r else s | [] => [] end.
Definition trim (s : str) : str := rev (trim_front (rev (trim_front s))).
Definition lower (c : Z) : Z := if (65 <=? c) && (c <=? 90) then c + 32 else c.
Definition one_string : string := "the @charset is expected to be followed by exactly one string.".
Definition only_utf8 : string := "we only support @charset ""utf-8"";, any other encoding is refused.".
(** @charset (compiler.cpp:1224-1266). *)
Definition at_charset (parent n : addr) : C unit :=
  lift (remove_child parent n) ;;;
  p <- pos_of n ;;
  z <- lift (size n) ;;
  one <- (if negb (z =? 1) then ret false else child_is n 0 STRING) ;;
  if negb one then report p one_string
  else
    a <- lift (get_child n 0) ;;
    s <- lift (get_string a) ;;
    if str_eqb (map lower (trim s)) (zs "utf-8") then ret tt else report p only_utf8.

(** [expr] (compiler.cpp:1178). *)
Definition first_expression (n : addr) : C (option addr) :=
  e <- lift (child_empty n) ;;
  if e : bool then ret None
  else b <- child_is n 0 OPEN_CURLYBRACKET ;; if b : bool then ret None else a <- lift (get_child n 0) ;; ret (Some a).
(** @error, @warning, @info, @message, @debug (compiler.cpp:1180-1222). *)
Definition at_message (w : world) (l : level) (default : string) (parent n : addr) (expr : option addr) : C unit :=
  lift (remove_child parent n) ;;;
  p <- pos_of n ;;
  fun s => say l p (match expr with Some e => text_of (w_text w (k_heap s) e) | None => default end) s.

(** @keyframes (compiler.cpp:1387-1622): the position of a frame. *)
Definition frames_expected : string := "@keyframes is expected to be followed by an identifier or a percent number and a '{'.".
Definition one_f64 : f64 := f64_of_Z 1.
Definition frame_position (p : position) (a : addr) : C (option f64) :=
  t <- type_of a ;;
  if ntype_eqb t IDENTIFIER then
    l <- lift (get_string a) ;;
    if str_eqb l (zs "from") then ret (Some (S754_zero false))
    else if str_eqb l (zs "to") then ret (Some one_f64)
    else report p "@keyframes position can be ""from"" or ""to"", other identifiers are not supported." ;;; ret None
  else if ntype_eqb t PERCENT then
    v <- lift (get_decimal_number a) ;;
    if SFltb v (S754_zero false) || SFltb one_f64 v then
      report p "@keyframes position must be a percentage between 0% and 100%." ;;; ret None
    else ret (Some v)
  else
    report p "@keyframes positions must either be ""from"" or ""to"" or a percent number between 0% and 100%." ;;; ret None.
(** The list of declarations of a frame (compiler.cpp:1489-1541): [None] after
    an error. *)
Definition frame_content (p : position) (q : position) (cv : addr) : C (option (addr * addr)) :=
  b <- is_a cv COMPONENT_VALUE ;;
  if negb b then report p "@keyframes is only expecting component values as child entries." ;;; ret None
  else
    z <- lift (size cv) ;;
    if negb (z =? 2) then report p frames_expected ;;; ret None
    else
      comps <- lift (get_child cv 1) ;;
      b <- is_a comps OPEN_CURLYBRACKET ;;
      if negb b then report p frames_expected ;;; ret None
      else
        z <- lift (size comps) ;;
        if negb (z =? 1) then report p frames_expected ;;; ret None
        else
          l <- lift (get_child comps 0) ;;
          t <- type_of l ;;
          if ntype_eqb t COMPONENT_VALUE then
            sub <- lift (new_node LIST q) ;; lift (add_child sub l) ;;;
            a <- lift (get_child cv 0) ;; ret (Some (sub, a))
          else if ntype_eqb t LIST then a <- lift (get_child cv 0) ;; ret (Some (l, a))
          else report p "@keyframes is expected to be followed by an identifier or a percent number and a list of component values '{' ... '}'." ;;; ret None.
(** The loop on the frames; [compile] is compile(). [false] after an error. *)
Fixpoint frames_loop (compile : option addr -> addr -> C (option addr)) (p q : position) (l : addr) (positions : list addr) (r : option addr)
    : C (bool * option addr) :=
  match positions with
  | [] => ret (true, r)
  | cv :: rest =>
      c <- frame_content p q cv ;;
      match c with
      | None => ret (false, r)
      | Some (content, a) =>
          v <- frame_position p a ;;
          match v with
          | None => ret (false, r)
          | Some v =>
              fp <- pos_of a ;;
              frame <- lift (new_node FRAME fp) ;;
              lift (set_decimal_number frame v) ;;;
              lift (take_over_children_of frame content) ;;;
              lift (add_child l frame) ;;;
              r <- compile r frame ;;
              frames_loop compile p q l rest r
          end
      end
  end.
Definition keyframes_expected : string := "@keyframes must be followed by an identifier and '{' ... '}'.".
(** The children of the block are read before the loop: compile() only changes
    the frames, which are not among them. *)
Definition at_keyframes (compile : option addr -> addr -> C (option addr)) (r : option addr) (n : addr) : C (option addr) :=
  p <- pos_of n ;;
  z <- lift (size n) ;;
  if negb (z =? 2) then report p keyframes_expected ;;; ret r
  else
    id <- lift (get_child n 0) ;;
    b <- is_a id IDENTIFIER ;;
    if negb b then report p "@keyframes must first be followed by an identifier." ;;; ret r
    else
      block <- lift (get_child n 1) ;;
      b <- is_a block OPEN_CURLYBRACKET ;;
      if negb b then report p keyframes_expected ;;; ret r
      else
        q <- pos_of block ;;
        l <- lift (new_node LIST q) ;;
        c <- lift (load block) ;;
        o <- frames_loop compile p q l (c_ch c) r ;;
        let '(ok, r) := o in
        if ok : bool then lift (take_over_children_of n l) ;;; lift (insert_child n 0 id) ;;; ret r
        else ret r.

(** @document, @media, @supports (compiler.cpp:1268-1310). *)
Definition at_block (value at_ : ctx -> option addr -> addr -> C (option addr)) (fuel : nat) (x : ctx) (r : option addr) (n : addr) : C (option addr) :=
  e <- lift (child_empty n) ;;
  if e : bool then ret r
  else
    last <- lift (get_last_child n) ;;
    b <- is_a last OPEN_CURLYBRACKET ;;
    if negb b then ret r
    else
      z <- lift (size n) ;;
      (if 1 <? z then argify n ;;; ret tt else ret tt) ;;;
      let x := push x last in
      result_loop false (fun r child =>
        a <- is_a child AT_KEYWORD ;;
        if a : bool then at_ (push x child) r child else value (push x child) r child) last fuel 0 r.
(** @font-face, @page, @viewport (compiler.cpp:1312-1358). *)
Definition at_fields (value : ctx -> option addr -> addr -> C (option addr)) (fuel : nat) (x : ctx) (r : option addr) (n : addr) : C (option addr) :=
  e <- lift (child_empty n) ;;
  if e : bool then ret r
  else
    last <- lift (get_last_child n) ;;
    b <- is_a last OPEN_CURLYBRACKET ;;
    if negb b then ret r
    else
      z <- lift (size last) ;;
      if z =? 0 then ret r
      else
        first <- lift (get_child last 0) ;;
        b <- is_a first LIST ;;
        let l := if b : bool then first else last in
        let x := push (push x last) l in
        (fix go (f : nat) (idx : Z) (r : option addr) : C (option addr) :=
           match f with
           | O => nofuel
           | S f =>
               z <- lift (size l) ;;
               if z <=? idx then ret r
               else
                 child <- lift (get_child l idx) ;;
                 v <- is_a child COMPONENT_VALUE ;;
                 if v : bool then r <- value (push x child) r child ;; i <- step_over l child idx ;; go f i r
                 else go f (idx + 1) r
           end) fuel 0 r.
(** @return (compiler.cpp:1360-1385). *)
Definition at_return (k : rules) (fuel : nat) (x : ctx) (r : option addr) (n : addr) (expr : option addr) : C (option addr) :=
  p <- pos_of n ;;
  match expr with
  | None => report p "@return must be followed by a valid expression." ;;; ret r
  | Some _ =>
      v <- with_expr n (Expr.compile (w_libm (r_world k)) (w_functions (r_world k) x) fuel) ;;
      match v with
      | Some v => ret (Some v)
      | None => a <- lift (new_node NULL_TOKEN p) ;; ret (Some a)
      end
  end.
(** compile_at_keyword (compiler.cpp:1172-1625). *)
Definition named (s : str) (l : list string) : bool := existsb (fun w => str_eqb s (zs w)) l.
Definition compile_at_keyword (k : rules) (fuel : nat) (compile value at_ : ctx -> option addr -> addr -> C (option addr))
    (x : ctx) (r : option addr) (n : addr) : C (option addr) :=
  name <- lift (get_string n) ;;
  parent <- previous_parent x ;;
  expr <- first_expression n ;;
  let message l default := at_message (r_world k) l default parent n expr ;;; ret r in
  if str_eqb name (zs "error") then message LError "@error reached"
  else if str_eqb name (zs "warning") then message LWarning "@warning reached"
  else if named name ["info"; "message"] then message LInfo "@message reached"
  else if str_eqb name (zs "debug") then message LDebug "@debug reached"
  else if str_eqb name (zs "charset") then at_charset parent n ;;; ret r
  else if named name ["document"; "media"; "supports"] then at_block value at_ fuel x r n
  else if named name ["font-face"; "page"; "viewport"; "-ms-viewport"] then at_fields value fuel x r n
  else if str_eqb name (zs "return") then at_return k fuel x r n expr
  else if named name ["keyframes"; "-o-keyframes"; "-webkit-keyframes"] then at_keyframes (compile x) r n
  else ret r.

(** ** Rules *)

(** compile_qualified_rule (compiler.cpp:817-884). *)
Definition compile_qualified_rule (k : rules) (fuel : nat) (value : ctx -> option addr -> addr -> C (option addr))
    (x : ctx) (r : option addr) (n : addr) : C (option addr) :=
  z <- lift (size n) ;;
  p <- pos_of n ;;
  if z <=? 1 then report p "a qualified rule without selectors is not valid." ;;; ret r
  else
    ok <- r_selector k x n ;;
    if negb ok then ret r
    else
      block <- lift (get_last_child n) ;;
      e <- lift (child_empty block) ;;
      if e : bool then ret r
      else
        let x := push x block in
        result_loop false (fun r child =>
          let x := push x child in
          t <- type_of child ;;
          if ntype_eqb t LIST then
            result_loop false (fun r item => value (push x item) r item) child fuel 0 r
          else if ntype_eqb t COMPONENT_VALUE then value x r child
          else ret r) block fuel 0 r.

(** compile_component_value (compiler.cpp:673-815). *)
Definition compile_component_value (k : rules) (fuel : nat) (at_ values value : ctx -> option addr -> addr -> C (option addr))
    (x : ctx) (r : option addr) (n : addr) : C (option addr) :=
  t <- type_of n ;;
  if ntype_eqb t DECLARATION then ret r
  else
    e <- lift (child_empty n) ;;
    if e : bool then ret r
    else
      first <- lift (get_child n 0) ;;
      ft <- type_of first ;;
      if ntype_eqb ft COMMENT then
        parent <- previous_parent x ;;
        pos <- lift (child_position parent n) ;;
        lift (remove_child_at parent pos) ;;;
        lift (insert_child parent pos first) ;;; ret r
      else if ntype_eqb ft ARG then throw XLogic
      else
        c <- lift (load n) ;;
        let max := Z.of_nat (length (c_ch c)) in
        count <- count_type COMPONENT_VALUE (c_ch c) ;;
        if count =? max then
          parent <- previous_parent x ;;
          pos <- lift (child_position parent n) ;;
          lift (remove_child_at parent pos) ;;;
          insert_all parent pos (c_ch c) ;;; ret r
        else if negb (count =? 0) then throw XLogic
        else if ntype_eqb ft AT_KEYWORD then
          r <- at_ (push x first) r first ;;
          e <- lift (child_empty n) ;;
          (if e : bool then parent <- previous_parent x ;; lift (remove_child parent n) else ret tt) ;;;
          ret r
        else
          v <- is_variable_set n true ;;
          if v : bool then throw XLogic
          else
            d <- is_nested_declaration n ;;
            if d : bool then compile_declaration k fuel values x r n
            else
              last <- lift (get_last_child n) ;;
              b <- is_a last OPEN_CURLYBRACKET ;;
              if b : bool then compile_qualified_rule k fuel value x r n
              else
                v <- is_variable_set n false ;;
                if v : bool then throw XLogic
                else compile_declaration k fuel values x r n.

(** compile_declaration_values (compiler.cpp:1100-1170): [self] is itself. The
    children are read again at each step: [i < declaration->size()]. *)
Fixpoint values_loop (values value : ctx -> option addr -> addr -> C (option addr)) (x : ctx) (fuel : nat) (d : addr) (i : Z) (r : option addr) : C (option addr) :=
  match fuel with
  | O => nofuel
  | S f =>
      z <- lift (size d) ;;
      if z <=? i then ret r
      else
        item <- lift (get_child d i) ;;
        let xi := push x item in
        t <- type_of item ;;
        r <- (match t with
              | LIST => values xi r item
              | OPEN_CURLYBRACKET =>
                  result_loop false (fun r comp =>
                    let xc := push xi comp in
                    k <- type_of comp ;;
                    if ntype_eqb k LIST then values xc r comp
                    else if ntype_eqb k COMPONENT_VALUE then value xc r comp
                    else if ntype_eqb k DECLARATION then ret r
                    else throw XLogic) item f 0 r
              | COMPONENT_VALUE => value xi r item
              | _ => ret r
              end) ;;
        values_loop values value x f d (i + 1) r
  end.

(** ** compile (compiler.cpp:618-671) and the functions it calls

    The stack of parents holds the node itself first, as after the
    safe_parents_t of the caller. [fuel] bounds the depth of the calls and the
    length of the loops. *)
Inductive job := Compile | Value | Values | At.
Fixpoint run (k : rules) (fuel : nat) (j : job) (x : ctx) (r : option addr) (n : addr) : C (option addr) :=
  match fuel with
  | O => nofuel
  | S f =>
      let value := run k f Value in
      let values := run k f Values in
      let at_ := run k f At in
      match j with
      | Compile =>
          let x := push x n in
          t <- type_of n ;;
          match t with
          | LIST | FRAME => result_loop true (fun r child => run k f Compile x r child) n f 0 r
          | DECLARATION | COMMENT => ret r
          | COMPONENT_VALUE => value x r n
          | AT_KEYWORD => at_ x r n
          | _ => throw XLogic
          end
      | Value => compile_component_value k f at_ values value x r n
      | Values => values_loop values value x f n 0 r
      | At => compile_at_keyword k f (run k f Compile) value at_ x r n
      end
  end.
