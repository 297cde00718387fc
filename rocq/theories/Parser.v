(** * The parser (csspp/parser.cpp)

    The parser reads tokens one at a time; here the tokens are a list given in
    advance (what the lexer returns does not depend on the parser). Once the
    list is exhausted every further token is EOF_TOKEN. The list may itself
    hold EOF_TOKEN tokens, since the lexer may return EOF before the end of a
    malformed input and tokens after it.

    Nodes are trees: in the parser each node has one owner, so the sharing of
    NodeHeap.v is not needed here. *)

From Coq Require Import String ZArith List Bool.
From Coq Require Import Floats.SpecFloat.
From Verif Require Import Base.
Import ListNotations.
Open Scope string_scope. Open Scope list_scope. Open Scope Z_scope.

(** Tokens to come (the first one is [f_last_token]), position given to the
    EOF token, messages sent so far. *)
Record pstate := mkPS { ps_toks : list node; ps_eof : position; ps_msgs : list msg }.

Definition P (A : Type) := pstate -> outcome pstate A.
Definition ret {A} (x : A) : P A := fun s => Ret x s.
Definition fail {A} (e : exn) : P A := fun s => Throw e s.
Definition bind {A B} (m : P A) (f : A -> P B) : P B :=
  fun s => match m s with
           | Ret a s' => f a s' | Throw e s' => Throw e s'
           | Undef s' => Undef s' | NoFuel => NoFuel
           end.
Notation "x <- m ;; k" := (bind m (fun x => k)) (at level 70, m at next level, right associativity).
Notation "m ;;; k" := (bind m (fun _ => k)) (at level 70, right associativity).

(** [f_last_token]. *)
Definition last_token : P node :=
  fun s => Ret (match ps_toks s with [] => mk EOF_TOKEN (ps_eof s) | t :: _ => t end) s.
(** parser::next_token (parser.cpp:99-104). *)
Definition next_token : P node :=
  fun s => last_token (mkPS (tl (ps_toks s)) (ps_eof s) (ps_msgs s)).
(** [error::instance() << pos << text << ERROR_ERROR]. *)
Definition report (p : position) (text : string) : P unit :=
  fun s => Ret tt (mkPS (ps_toks s) (ps_eof s) (ps_msgs s ++ [mkMsg LError p text])).

Definition lastn (l : list node) : option node := match rev l with [] => None | x :: _ => Some x end.
Definition is_ws (n : node) : bool := is n WHITESPACE.
(** node::add_child on the list of children (node.cpp:593-610). *)
Definition add_ch (l : list node) (x : node) : list node :=
  if is x EOF_TOKEN then l
  else if is_ws x then
    match lastn l with
    | Some b => if is_ws b then l else l ++ [x]
    | None => l ++ [x]
    end
  else l ++ [x].

(** [while(!list->empty() && list->get_child(0)->is(WHITESPACE)) list->remove_child(0)]. *)
Fixpoint drop_front (l : list node) : list node :=
  match l with [] => [] | x :: r => if is_ws x then drop_front r else l end.
(** The same from the back. *)
Definition drop_back (l : list node) : list node := rev (drop_front (rev l)).
(** One removal only. *)
Definition drop_front1 (l : list node) : list node :=
  match l with [] => [] | x :: r => if is_ws x then r else l end.
Definition drop_back1 (l : list node) : list node := rev (drop_front1 (rev l)).

(** [n->get_child(i)->is(t)]: [None] when get_child throws. *)
Definition child_is (l : list node) (i : nat) (t : ntype) : option bool :=
  match nth_error l i with Some x => Some (is x t) | None => None end.
Definition obind {A B} (o : option A) (f : A -> option B) : option B :=
  match o with Some x => f x | None => None end.

(** parser::is_variable_set (parser.cpp:667-701), on the children; [None]: an
    exception. *)
Definition is_variable_set (l : list node) (with_block : bool) : option bool :=
  if Nat.ltb (length l) 3 then Some false
  else
    obind (child_is l 0 VARIABLE) (fun v =>
    obind (if v then Some true else child_is l 0 VARIABLE_FUNCTION) (fun ok =>
    if negb ok then Some false
    else
      obind (child_is l 1 WHITESPACE) (fun w =>
      let pos := if w then 2%nat else 1%nat in
      obind (child_is l pos COLON) (fun c =>
      if negb c then Some false
      else if negb with_block then Some true
      else
        let pos := S pos in
        obind (if Nat.ltb pos (length l) then child_is l pos WHITESPACE else Some false) (fun w2 =>
        let pos := if w2 then S pos else pos in
        if Nat.ltb pos (length l) then child_is l pos OPEN_CURLYBRACKET else Some false))))).

(** The loop of is_nested_declaration (parser.cpp:745-786) from a position. *)
Fixpoint nested_loop (l : list node) : option bool :=
  match l with
  | [] => None (* get_child() out of range *)
  | x :: r =>
      match n_type x with
      | COLON | PLACEHOLDER | PRECEDED | REFERENCE | SCOPE => Some false
      | ADD | COMMA | GREATER_THAN | HASH | IDENTIFIER | MULTIPLY | OPEN_SQUAREBRACKET
      | OPEN_CURLYBRACKET | PERIOD | WHITESPACE =>
          match r with [] => Some false | _ => nested_loop r end
      | _ => Some true
      end
  end.
(** parser::is_nested_declaration (parser.cpp:703-787). *)
Definition is_nested_declaration (l : list node) : option bool :=
  if Nat.ltb (length l) 3 then Some false
  else
    obind (child_is l 0 IDENTIFIER) (fun i =>
    if negb i then Some false
    else
    obind (match lastn l with Some x => Some (is x OPEN_CURLYBRACKET) | None => None end) (fun b =>
    if negb b then Some false
    else
    obind (child_is l 1 WHITESPACE) (fun w =>
    let pos := if w then 2%nat else 1%nat in
    obind (child_is l pos COLON) (fun c =>
    if negb c then Some false
    else
      let pos := S pos in
      if Nat.leb (length l) pos then Some false
      else
        obind (child_is l pos WHITESPACE) (fun w2 =>
        obind (child_is l pos OPEN_CURLYBRACKET) (fun o =>
        if w2 || o then Some true
        else
          obind (child_is l pos FUNCTION) (fun f =>
          let pos := if f then S pos else pos in
          if f && Nat.leb (length l) pos then Some false
          else nested_loop (skipn pos l)))))))).

Definition lift {A} (o : option A) : P A := match o with Some x => ret x | None => fail XChildRange end.

(** The final part of component_value_list (parser.cpp:540-560): trim the
    current COMPONENT_VALUE, drop it when empty, and return a single child
    instead of the LIST. [rp]/[cp]: positions of the LIST and of the current
    COMPONENT_VALUE, [don]/[cur]: finished COMPONENT_VALUEs, children of the
    current one. *)
Definition cv_finish (rp cp : position) (don cur : list node) : node :=
  let cur := drop_back1 (drop_front1 cur) in
  let all := match cur with [] => don | _ => don ++ [set_ch (mk COMPONENT_VALUE cp) cur] end in
  match all with
  | [x] => x
  | _ => set_ch (mk LIST rp) all
  end.

(** [while(f_last_token->is(WHITESPACE)) next_token()]. *)
Definition skip_spaces : P unit :=
  fun s => Ret tt (mkPS (drop_front (ps_toks s)) (ps_eof s) (ps_msgs s)).
(** [if(f_last_token->is(WHITESPACE)) next_token()]. *)
Definition skip_space : P node :=
  n <- last_token ;; if is_ws n then next_token else ret n.

(** Flags of component_value_list (parser.cpp:57-58): return on a semicolon,
    return on a variable. *)
Record cflags := mkFlags { on_semi : bool; on_var : bool }.
Definition stops (fl : cflags) (t : ntype) : bool :=
  match t with
  | EOF_TOKEN | CLOSE_PARENTHESIS | CLOSE_SQUAREBRACKET | CLOSE_CURLYBRACKET | CDO | CDC => true
  | SEMICOLON => on_semi fl
  | _ => false
  end.

(** parser::component_value_list, the loop (parser.cpp:375-538), at_rule
    (parser.cpp:207-237), component_value (562-588), block (590-615) and
    block_list (617-665). [fuel] bounds the number of nested calls and
    iterations. *)
Fixpoint cv_loop (fuel : nat) (fl : cflags) (rp cp : position) (don cur : list node) : P node :=
  match fuel with
  | O => fun _ => NoFuel
  | S f =>
      n <- last_token ;;
      if stops fl (n_type n) then ret (cv_finish rp cp don cur)
      else match n_type n with
      | AT_KEYWORD =>
          a <- at_rule f n ;; cv_loop f fl rp cp don (add_ch cur a)
      | SEMICOLON =>
          next_token ;;;
          let cur := drop_back (drop_front cur) in
          v <- (if on_var fl then lift (is_variable_set cur false) else ret false) ;;
          if v : bool then ret (cv_finish rp cp don cur)
          else match cur with
               | [] => cv_loop f fl rp cp don []
               | _ => cv_loop f fl rp (n_pos n) (don ++ [set_ch (mk COMPONENT_VALUE cp) cur]) []
               end
      | EXCLAMATION =>
          e0 <- next_token ;;
          e <- (if is_ws e0 then next_token else ret e0) ;;
          if is e IDENTIFIER then
            let cur := drop_back1 cur in
            next_token ;;; skip_space ;;;
            cv_loop f fl rp cp don (add_ch cur (set_str n (n_str e)))
          else
            report (n_pos e) "A '!' must be followed by an identifier." ;;;
            cv_loop f fl rp cp don cur
      | OPEN_CURLYBRACKET =>
          b <- component_value f n ;;
          let cur := drop_front (add_ch (drop_back1 cur) b) in
          v <- lift (is_variable_set cur true) ;;
          d <- (if v : bool then ret false else lift (is_nested_declaration cur)) ;;
          if negb v && negb d then ret (cv_finish rp cp don cur)
          else
            skip_spaces ;;;
            t <- last_token ;;
            (if is t SEMICOLON then ret tt
             else match cur with
                  | [] => fail XChildRange
                  | x :: _ => report (n_pos x) "Variable set to a block and a nested property block must end with a semicolon (;) after said block."
                  end) ;;;
            cv_loop f fl rp cp don cur
      | OPEN_SQUAREBRACKET | OPEN_PARENTHESIS =>
          b <- component_value f n ;; cv_loop f fl rp cp don (add_ch (drop_back1 cur) b)
      | _ =>
          b <- component_value f n ;; cv_loop f fl rp cp don (add_ch cur b)
      end
  end
with at_rule (fuel : nat) (at_keyword : node) : P node :=
  match fuel with
  | O => fun _ => NoFuel
  | S f =>
      t <- next_token ;;
      n <- cv_loop f (mkFlags true false) (n_pos t) (n_pos t) [] [] ;;
      match lastn (n_ch n) with
      | None =>
          report (n_pos at_keyword) "At '@' command cannot be empty (missing expression or block) unless ended by a semicolon (;)." ;;;
          ret at_keyword
      | Some lst =>
          k <- last_token ;;
          (if is k SEMICOLON then next_token ;;; ret tt
           else if is lst OPEN_CURLYBRACKET then ret tt
           else report (n_pos at_keyword) "At '@' command must end with a block or a ';'.") ;;;
          ret (set_ch at_keyword (n_ch n))
      end
  end
with component_value (fuel : nat) (n : node) : P node :=
  match fuel with
  | O => fun _ => NoFuel
  | S f =>
      match n_type n with
      | OPEN_CURLYBRACKET => next_token ;;; block_list f n
      | OPEN_SQUAREBRACKET => block f n CLOSE_SQUAREBRACKET
      | OPEN_PARENTHESIS | FUNCTION | VARIABLE_FUNCTION => block f n CLOSE_PARENTHESIS
      | _ => next_token ;;; ret n
      end
  end
with block (fuel : nat) (b : node) (closing : ntype) : P node :=
  match fuel with
  | O => fun _ => NoFuel
  | S f =>
      t <- next_token ;;
      c <- cv_loop f (mkFlags false false) (n_pos t) (n_pos t) [] [] ;;
      k <- skip_space ;;
      (if is k closing then next_token ;;; ret tt
       else report (n_pos b) "Block expected to end with another token.") ;;;
      ret (set_ch b (n_ch c))
  end
with block_list (fuel : nat) (b : node) : P node :=
  match fuel with
  | O => fun _ => NoFuel
  | S f =>
      t <- last_token ;;
      c <- cv_loop f (mkFlags false false) (n_pos t) (n_pos t) [] [] ;;
      let b := set_ch b (add_ch (n_ch b) c) in
      k <- last_token ;;
      (match n_type k with
       | WHITESPACE | CDO | CDC => next_token ;;; ret tt
       | CLOSE_PARENTHESIS | CLOSE_SQUAREBRACKET =>
           report (n_pos b) "Block expected to end with CLOSE_CURLYBRACKET." ;;; next_token ;;; ret tt
       | _ => ret tt
       end) ;;;
      k2 <- last_token ;;
      match n_type k2 with
      | CLOSE_CURLYBRACKET => next_token ;;; ret b
      | EOF_TOKEN =>
          report (n_pos b) "Block expected to end with CLOSE_CURLYBRACKET." ;;; next_token ;;; ret b
      | _ => block_list f b
      end
  end.

(** parser::component_value_list (parser.cpp:369-374). *)
Definition component_value_list (fuel : nat) (fl : cflags) : P node :=
  t <- last_token ;; cv_loop fuel fl (n_pos t) (n_pos t) [] [].

(** parser::qualified_rule (parser.cpp:239-283). *)
Definition qualified_rule (fuel : nat) : P node :=
  n <- last_token ;;
  if is n EOF_TOKEN then ret n
  else if is n SEMICOLON then
    next_token ;;;
    report (n_pos n) "A qualified rule cannot end a { ... } block with a ';'." ;;;
    ret (mk EOF_TOKEN (n_pos n))
  else
    r <- component_value_list fuel (mkFlags false true) ;;
    match lastn (n_ch r) with
    | None => report (n_pos n) "A qualified rule cannot be empty; you are missing a { ... } block." ;;; ret r
    | Some lst =>
        v <- lift (is_variable_set (n_ch r) false) ;;
        (if (v : bool) || is lst OPEN_CURLYBRACKET then ret tt
         else report (n_pos n) "A qualified rule must end with a { ... } block.") ;;;
        ret r
    end.

Definition closer (t : ntype) : bool :=
  match t with CLOSE_CURLYBRACKET | CLOSE_SQUAREBRACKET | CLOSE_PARENTHESIS => true | _ => false end.

(** parser::stylesheet (parser.cpp:106-156); [acc]: children of the result. *)
Fixpoint stylesheet_loop (fuel : nat) (acc : list node) : P (list node) :=
  match fuel with
  | O => fun _ => NoFuel
  | S f =>
      n <- last_token ;;
      if is n EOF_TOKEN then ret acc
      else if is n CDO || is n CDC || is_ws n then next_token ;;; stylesheet_loop f acc
      else if closer (n_type n) then report (n_pos n) "Unexpected closing block." ;;; ret acc
      else if is n COMMENT then next_token ;;; stylesheet_loop f (add_ch acc n)
      else if is n AT_KEYWORD then a <- at_rule f n ;; stylesheet_loop f (add_ch acc a)
      else r <- qualified_rule f ;; stylesheet_loop f (add_ch acc r)
  end.
Definition stylesheet (fuel : nat) : P node :=
  t <- last_token ;; l <- stylesheet_loop fuel [] ;; ret (set_ch (mk LIST (n_pos t)) l).

(** parser::rule (parser.cpp:171-205). *)
Definition rule (fuel : nat) : P node :=
  n <- last_token ;;
  if is n CDO || is n CDC then
    report (n_pos n) "HTML comment delimiters (<!-- and -->) are not allowed in this CSS document." ;;;
    ret (mk EOF_TOKEN (n_pos n))
  else if closer (n_type n) then
    report (n_pos n) "Unexpected closing block." ;;; ret (mk EOF_TOKEN (n_pos n))
  else
    n <- (if is_ws n then next_token else ret n) ;;
    if is n AT_KEYWORD then at_rule fuel n else qualified_rule fuel.

(** parser::rule_list (parser.cpp:158-169). *)
Fixpoint rule_list_loop (fuel : nat) (acc : list node) : P (list node) :=
  match fuel with
  | O => fun _ => NoFuel
  | S f =>
      n <- last_token ;;
      if is n EOF_TOKEN then ret acc
      else
        q <- rule f ;;
        if is q EOF_TOKEN then ret (add_ch acc q)
        else rule_list_loop f (add_ch acc q)
  end.
Definition rule_list (fuel : nat) : P node :=
  t <- last_token ;; l <- rule_list_loop fuel [] ;; ret (set_ch (mk LIST (n_pos t)) l).

(** parser::declaration (parser.cpp:335-367). *)
Definition declaration (fuel : nat) (identifier : node) : P node :=
  next_token ;;;
  n <- skip_space ;;
  (if is n COLON then next_token ;;; ret tt
   else report (n_pos n) "':' missing in your declaration.") ;;;
  c <- component_value_list fuel (mkFlags true false) ;;
  ret (set_ch (set_str (mk DECLARATION (n_pos identifier)) (n_str identifier)) [c]).

(** parser::declaration_list (parser.cpp:285-333). *)
Fixpoint declaration_loop (fuel : nat) (acc : list node) : P (list node) :=
  match fuel with
  | O => fun _ => NoFuel
  | S f =>
      n <- skip_space ;;
      if is n IDENTIFIER then
        d <- declaration f n ;;
        k <- last_token ;;
        if is k SEMICOLON then next_token ;;; declaration_loop f (add_ch acc d)
        else skip_space ;;; ret (add_ch acc d)
      else if is n AT_KEYWORD then a <- at_rule f n ;; declaration_loop f (add_ch acc a)
      else ret acc
  end.
Definition declaration_list (fuel : nat) : P node :=
  t <- last_token ;;
  l <- declaration_loop fuel [] ;;
  k <- last_token ;;
  (if is k EOF_TOKEN then ret tt
   else report (n_pos k) "the end of the stream was not reached in this declaration.") ;;;
  ret (set_ch (mk LIST (n_pos t)) l).

(** The public entry points (parser.cpp:68-97). *)
Inductive entry := EStylesheet | ERuleList | ERule | EDeclarationList | EValueList | EValue.
Definition parse (e : entry) (fuel : nat) : P node :=
  match e with
  | EStylesheet => stylesheet fuel
  | ERuleList => rule_list fuel
  | ERule => rule fuel
  | EDeclarationList => declaration_list fuel
  | EValueList => component_value_list fuel (mkFlags true false)
  | EValue => n <- last_token ;; component_value fuel n
  end.

(** The state of a new parser on a list of tokens. *)
Definition start (toks : list node) (eof : position) : pstate := mkPS toks eof [].
(** Enough fuel for a list of tokens (see c25). *)
Definition enough (toks : list node) : nat := (4 * length toks + 8)%nat.

(** ** argify (parser.cpp:789-870)

    The separator is COMMA or DIVIDE. [ARG] nodes carry the separator as an
    integer; the number of a node type is abstract here: [code]. *)
Section Argify.
  Variable code : ntype -> Z.
  Definition new_arg (sep : ntype) (p : position) (l : list node) : node :=
    set_ch (set_int (mk ARG p) (code sep)) l.

  (** The loop over the children (parser.cpp:815-866). [args]: finished
      arguments, [arg]: children of the current one; [p]: position of the node.
      Returns success, and the new children of the node. *)
  Fixpoint argify_loop (sep : ntype) (p : position) (l : list node) (args : list node) (arg : list node)
    : P (bool * list node) :=
    match l with
    | [] => ret (true, args ++ [new_arg sep p arg])
    | x :: r =>
        if is x OPEN_CURLYBRACKET then
          match r with
          | [] => ret (true, args ++ [new_arg sep p arg; x])
          | _ => fail XLogic
          end
        else if is x sep then
          let arg := drop_back arg in
          match arg with
          | [] =>
              report p (match args with
                        | [] => "dangling comma at the beginning of a list of arguments or selectors."
                        | _ => "two commas in a row are invalid in a list of arguments or selectors."
                        end) ;;;
              ret (false, args ++ [new_arg sep p []])
          | _ =>
              let dangling := match r with [] => true | y :: _ => is y OPEN_CURLYBRACKET end in
              if dangling then
                report p "dangling comma at the end of a list of arguments or selectors." ;;;
                ret (false, args ++ [new_arg sep p arg])
              else argify_loop sep p r (args ++ [new_arg sep p arg]) []
          end
        else if negb (is_ws x) || match arg with [] => false | _ => true end then
          argify_loop sep p r args (add_ch arg x)
        else argify_loop sep p r args arg
    end.

  Definition argify (n : node) (sep : ntype) : P (bool * node) :=
    match sep with
    | COMMA | DIVIDE =>
        match n_ch n with
        | [] => ret (true, n)
        | x :: _ =>
            if is x ARG then ret (true, n)
            else r <- argify_loop sep (n_pos n) (n_ch n) [] [] ;; ret (fst r, set_ch n (snd r))
        end
    | _ => fail XLogic
    end.
End Argify.
