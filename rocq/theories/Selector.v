(** * Selectors (csspp/compiler.cpp:2966-3722)

    Nodes are trees, as in Parser.v: argify just moved every child under an ARG
    node of its own and nothing else refers to them. A position in a list of
    children is a pair: the children before it and the children from it on
    ([pos] is the length of the first list). When the answer is false the tree
    as it was left is not modelled: the caller forgets the rule
    (compiler.cpp:837-841). The name of a node type inside a message is left
    out of its text. *)

From Coq Require Import String ZArith List Bool.
From Verif Require Import Base NthChild Parser.
Import ListNotations.
Open Scope string_scope. Open Scope list_scope. Open Scope Z_scope.

(** The validation scripts (scripts/validation/...scss). *)
Inductive script := PseudoClasses | PseudoNthFunctions | PseudoFunctions | PseudoElements | Languages | Countries.

(** What is not modelled here: the messages sent by a validation script when
    it runs on a name, and node::to_string. A script that is not found, or that
    throws, is not modelled. *)
Record checks := mkChecks {
  k_run : script -> str -> list msg;
  k_text : node -> str }.

(** Children before and from the current position. *)
Definition cursor : Type := list node * list node.

(** [error::instance() << pos << text << ERROR_ERROR; return false]. *)
Definition refuse {A} (p : position) (text : string) : P (option A) := report p text ;;; ret None.
Definition emit (l : list msg) : P unit := fun s => Ret tt (mkPS (ps_toks s) (ps_eof s) (ps_msgs s ++ l)).
(** run_validation (compiler.cpp:3818-3857): error_happened_t counts errors;
    with [check_only] the messages are thrown away. *)
Definition passes (l : list msg) : bool := negb (existsb is_error l).
Definition run_validation (k : checks) (sc : script) (name : str) (check_only : bool) : P bool :=
  let l := k_run k sc name in
  (if check_only then ret tt else emit l) ;;; ret (passes l).

(** The operators of an attribute selector (compiler.cpp:3014-3020). *)
Definition attribute_operator (n : node) : bool :=
  is n EQUAL || is n NOT_EQUAL || is n INCLUDE_MATCH || is n PREFIX_MATCH || is n SUFFIX_MATCH
  || is n SUBSTRING_MATCH || is n DASH_MATCH.
(** compiler.cpp:3049-3052 *)
Definition attribute_value (n : node) : bool :=
  is n IDENTIFIER || is n STRING || is n INTEGER || is n DECIMAL_NUMBER.

Definition expects_identifier : string := "an attribute selector expects to first find an identifier.".
Definition expects_more : string :=
  "the attribute selector is expected to be an IDENTIFIER optionally followed by an operator and a value.".

(** selector_attribute_check (compiler.cpp:2966-3112): [n] is the '[' at the
    position, [rest] what follows it. *)
Definition attribute_check (done : list node) (n : node) (rest : list node) : P (option cursor) :=
  let p := n_pos n in
  match n_ch n with
  | [] => fail XChildRange                                          (* get_child(0) *)
  | _ =>
    match drop_front1 (n_ch n) with
    | [] => refuse p expects_more
    | name :: r =>
      if negb (is name IDENTIFIER) then refuse p expects_identifier
      else
        match drop_front1 r with
        | [] => ret (Some (done ++ [set_ch n [name]], rest))
        | op :: r =>
          if negb (attribute_operator op) then
            refuse p "expected attribute operator missing, supported operators are '=', '!=', '~=', '^=', '$=', '*=', and '|='."
          else
            match drop_front1 r with
            | [] => refuse p expects_more
            | v :: r =>
              if negb (attribute_value v) then
                refuse p "attribute selector value must be an identifier, a string, an integer, or a decimal number."
              else
                match r with
                | _ :: _ => refuse p "attribute selector cannot be followed by more than one value, missing quotes?"
                | [] =>
                    if is op NOT_EQUAL then
                      ret (Some (done ++ [mk COLON p;
                                          set_ch (set_str (mk FUNCTION p) (zs "not")) [set_ch n [name; mk EQUAL p; v]]], rest))
                    else ret (Some (done ++ [set_ch n [name; op; v]], rest))
                end
            end
        end
    end
  end.

(** std::string::find('-') and the two substr() (compiler.cpp:3287-3300): the
    text before the first dash, and the text between it and the next one (empty
    if there is no dash). *)
Fixpoint before_dash (s : str) : str :=
  match s with [] => [] | c :: r => if c =? 45 then [] else c :: before_dash r end.
Fixpoint after_dash (s : str) : str :=
  match s with [] => [] | c :: r => if c =? 45 then r else after_dash r end.

(** The parameter of lang() (compiler.cpp:3272-3331). *)
Definition lang_check (k : checks) (f : node) : P bool :=
  match n_ch f with
  | [x] =>
      if is x IDENTIFIER then
        ok <- run_validation k Languages (before_dash (n_str x)) false ;;
        if ok then
          match before_dash (after_dash (n_str x)) with
          | [] => ret true
          | country => run_validation k Countries country false
          end
        else ret false
      else report (n_pos x) "a lang() function selector expects an identifier as its parameter." ;;; ret false
  | _ => report (n_pos f) "a lang() function selector must have exactly one identifier as its parameter." ;;; ret false
  end.

(** ':' FUNCTION in a simple term (compiler.cpp:3217-3334): [f] is the
    function, [p] the position of the list; the new function. *)
Definition pseudo_function (k : checks) (p : position) (f : node) : P (option node) :=
  nth_fun <- run_validation k PseudoNthFunctions (n_str f) true ;;
  if nth_fun then
    match nth_parse (nth_make 0 0) (concat (map (k_text k) (n_ch f))) with
    | None => fun s => Undef s
    | Some (true, n) => ret (Some (set_ch f [set_int (mk AN_PLUS_B (n_pos f)) (nth_value n)]))
    | Some (false, n) => refuse (n_pos f) (NthChild.nth_error n)
    end
  else
    ok <- run_validation k PseudoFunctions (n_str f) false ;;
    if negb ok then ret None
    else if str_eqb (n_str f) (zs "not") then refuse p "the :not() selector does not accept an inner :not()."
    else if str_eqb (n_str f) (zs "lang") then
      l <- lang_check k f ;;
      ret (if l then Some f else None)
    else ret (Some f).

Definition is_name (n : node) : bool := is n IDENTIFIER || is n MULTIPLY.
Definition is_combinator (n : node) : bool := is n GREATER_THAN || is n ADD || is n PRECEDED.

(** selector_simple_term (compiler.cpp:3114-3396); [p] is the position of the
    list. *)
Definition simple_term (k : checks) (p : position) (c : cursor) : P (option cursor) :=
  let '(done, todo) := c in
  match todo with
  | [] => fail XLogic
  | t :: r =>
    match n_type t with
    | HASH => ret (Some (done ++ [t], r))
    | IDENTIFIER | MULTIPLY =>
        match r with
        | [] => ret (Some (done ++ [t], r))
        | u :: r' =>
            if is u SCOPE then
              match r' with
              | [] => refuse p "the scope operator (|) requires a right hand side identifier or '*'."
              | v :: r'' =>
                  if is_name v then ret (Some (done ++ [t; u; v], r''))
                  else refuse p "the right hand side of a scope operator (|) must be an identifier or '*'."
              end
            else if is t MULTIPLY && (is u OPEN_SQUAREBRACKET || is u PERIOD) then ret (Some (done, r))
            else ret (Some (done ++ [t], r))
        end
    | SCOPE =>
        match r with
        | [] => refuse p "a scope selector (|) must be followed by an identifier or '*'."
        | v :: r' =>
            if is_name v then ret (Some (done ++ [t; v], r'))
            else refuse p "the right hand side of a scope operator (|) must be an identifier or '*'."
        end
    | COLON =>
        match r with
        | [] => refuse p "a selector list cannot end with a standalone ':'."
        | u :: r' =>
            match n_type u with
            | IDENTIFIER =>
                ok <- run_validation k PseudoClasses (n_str u) false ;;
                ret (if ok then Some (done ++ [t; u], r') else None)
            | FUNCTION =>
                f <- pseudo_function k p u ;;
                ret (match f with Some f => Some (done ++ [t; f], r') | None => None end)
            | _ => refuse p "a ':' selector must be followed by an identifier or a function."
            end
        end
    | PERIOD =>
        match r with
        | [] => refuse p "a selector list cannot end with a standalone '.'."
        | u :: r' =>
            if is u IDENTIFIER then ret (Some (done ++ [t; u], r'))
            else refuse p "a class selector (after a period: '.') must be an identifier."
        end
    | OPEN_SQUAREBRACKET => attribute_check done t r
    | GREATER_THAN | ADD | PRECEDED => refuse p "found token, which cannot be used to start a selector expression."
    | FUNCTION =>
        refuse p "found function, which may be a valid selector token but only if immediately preceeded by one ':' (simple term)."
    | _ => refuse p "found token, which is not a valid selector token (simple term)."
    end
  end.

(** selector_term (compiler.cpp:3398-3559). *)
Definition selector_term (k : checks) (p : position) (c : cursor) : P (option cursor) :=
  let '(done, todo) := c in
  match todo with
  | [] => fail XLogic
  | t :: r =>
    match n_type t with
    | PLACEHOLDER => ret (Some (done ++ [t], r))
    | REFERENCE =>
        match done with
        | [] => ret (Some (done ++ [t], r))
        | _ => refuse p "a selector reference (&) can only appear as the very first item in a list of selectors."
        end
    | COLON =>
        match r with
        | [] => refuse p "a selector list cannot end with a standalone ':'."
        | u :: r' =>
            match n_type u with
            | IDENTIFIER => simple_term k p c
            | FUNCTION =>
                if str_eqb (n_str u) (zs "not") then
                  x <- simple_term k (n_pos u) ([], n_ch u) ;;
                  match x with
                  | None => ret None
                  | Some (inner, []) => ret (Some (done ++ [t; set_ch u inner], r'))
                  | Some (_, _ :: _) => refuse (n_pos u) "the :not() function accepts at most one simple term."
                  end
                else simple_term k p c
            | COLON =>
                match r' with
                | [] => refuse p "a selector list cannot end with a '::' without an identifier after it."
                | v :: r'' =>
                    if is v IDENTIFIER then
                      ok <- run_validation k PseudoElements (n_str v) false ;;
                      if negb ok then ret None
                      else match r'' with
                           | [] => ret (Some (done ++ [t; u; v], []))
                           | _ :: _ => refuse p "a pseudo element name (defined after a '::' in a list of selectors) must be defined as the last element in the list of selectors."
                           end
                    else refuse p "a pseudo element name (defined after a '::' in a list of selectors) must be defined using an identifier."
                end
            | _ => refuse p "a ':' selector must be followed by an identifier or a function."
            end
        end
    | HASH | IDENTIFIER | MULTIPLY | OPEN_SQUAREBRACKET | PERIOD | SCOPE => simple_term k p c
    | GREATER_THAN | ADD | PRECEDED => refuse p "found token, which cannot be used to start a selector expression."
    | FUNCTION =>
        refuse p "found function, which may be a valid selector token but only if immediately preceeded by one ':' (term)."
    | _ => refuse p "found token, which is not a valid selector token (term)."
    end
  end.

(** The part of selector_list between two terms (compiler.cpp:3576-3634): skips
    one white space, goes over a binary operator without the white space round
    it. In the first branch the white space is before the position. *)
Definition skip_separator (p : position) (c : cursor) : P (option cursor) :=
  let '(done, todo) := c in
  let operator (done : list node) (op : node) (r : list node) : P (option cursor) :=
    match r with
    | [] => refuse p "found token, which is expected to be followed by another selector term."
    | u :: r' =>
        if is_ws u then match r' with [] => fail XLogic | _ => ret (Some (done ++ [op], r')) end
        else ret (Some (done ++ [op], r))
    end in
  match todo with
  | [] => fail XLogic
  | t :: r =>
      if is_ws t then
        match r with
        | [] => fail XLogic
        | u :: r' => if is_combinator u then operator done u r' else ret (Some (done ++ [t], r))
        end
      else if is_combinator t then operator done t r
      else ret (Some c)
  end.

(** selector_list (compiler.cpp:3561-3641). *)
Fixpoint selector_loop (fuel : nat) (k : checks) (p : position) (c : cursor) : P (option (list node)) :=
  match fuel with
  | O => fun _ => NoFuel
  | S fuel =>
      x <- selector_term k p c ;;
      match x with
      | None => ret None
      | Some (done, []) => ret (Some done)
      | Some c =>
          y <- skip_separator p c ;;
          match y with None => ret None | Some c => selector_loop fuel k p c end
      end
  end.
Definition selector_list (k : checks) (n : node) : P (option node) :=
  x <- selector_loop (S (length (n_ch n))) k (n_pos n) ([], n_ch n) ;;
  ret (match x with Some l => Some (set_ch n l) | None => None end).

(** The identifiers of a selector (compiler.cpp:3670-3707): [seen] is the map.
    Returns it with whether one of them is repeated. *)
Definition known (seen : list str) (s : str) : bool := existsb (str_eqb s) seen.
Fixpoint hashes (p : position) (l : list node) (seen : list str) (err : bool) : P (list str * bool) :=
  match l with
  | [] => ret (seen, err)
  | x :: r =>
      if is x HASH then
        if known seen (n_str x) then report p "found # twice in selector" ;;; hashes p r seen true
        else hashes p r (n_str x :: seen) err
      else hashes p r seen err
  end.
Definition check_hashes (arg : node) : P unit :=
  x <- hashes (n_pos arg) (n_ch arg) [] false ;;
  if negb (snd x) && Nat.ltb 1 (length (fst x)) then
    emit [mkMsg LInfo (n_pos arg) "found multiple #id entries, note that in most cases, assuming your HTML is proper (identifiers are not repeated) then only the last #id is necessary."]
  else ret tt.

(** The loop of parse_selector (compiler.cpp:3650-3719). *)
Fixpoint selectors (k : checks) (l : list node) (acc : list node) : P (option (list node)) :=
  match l with
  | [] => ret (Some acc)
  | arg :: r =>
      if is arg OPEN_CURLYBRACKET then ret (Some (acc ++ arg :: r))
      else if negb (is arg ARG) then fail XLogic
      else
        x <- selector_list k arg ;;
        match x with
        | None => ret None
        | Some arg => check_hashes arg ;;; selectors k r (acc ++ [arg])
        end
  end.
(** parse_selector (compiler.cpp:3643-3722): the rule with its selectors parsed. *)
Definition parse_selector (code : ntype -> Z) (k : checks) (n : node) : P (option node) :=
  a <- argify code n COMMA ;;
  if negb (fst a) then ret None
  else
    x <- selectors k (n_ch (snd a)) [] ;;
    ret (match x with Some l => Some (set_ch (snd a) l) | None => None end).
