(** * Expressions as trees: what the precedence of the operators means *)

From Coq Require Import String ZArith List Bool Floats.SpecFloat.
From Verif Require Import Base NodeHeap Color Expr.
Import ListNotations.
Open Scope string_scope. Open Scope list_scope. Open Scope Z_scope.

(** The binary operators, and how tightly they bind. *)
Inductive binop := OOr | OAnd | OEq (o : eqop) | ORel (o : relop) | OAdd (subtract : bool) | OMul (o : mulop) | OPow.
Definition level_of (o : binop) : nat :=
  match o with OOr => 1 | OAnd => 2 | OEq _ => 3 | ORel _ => 4 | OAdd _ => 5 | OMul _ => 6 | OPow => 7 end.
(** How the operators are written. *)
Definition op_of (c : cell) : option binop :=
  match c_type c with
  | COLUMN => Some OOr
  | AND => Some OAnd
  | EQUAL => Some (OEq Equal) | NOT_EQUAL => Some (OEq NotEqual)
  | INCLUDE_MATCH => Some (OEq (Match Include)) | PREFIX_MATCH => Some (OEq (Match Prefix))
  | SUFFIX_MATCH => Some (OEq (Match Suffix)) | SUBSTRING_MATCH => Some (OEq (Match Substring))
  | DASH_MATCH => Some (OEq (Match Dash))
  | LESS_THAN => Some (ORel Less) | LESS_EQUAL => Some (ORel LessEq)
  | GREATER_THAN => Some (ORel Greater) | GREATER_EQUAL => Some (ORel GreaterEq)
  | ADD => Some (OAdd false) | SUBTRACT => Some (OAdd true)
  | MULTIPLY => Some (OMul Mul) | DIVIDE => Some (OMul Div) | MODULO => Some (OMul Mod)
  | POWER => Some OPow
  | IDENTIFIER =>
      if str_eqb (c_str c) (zs "or") then Some OOr
      else if str_eqb (c_str c) (zs "and") then Some OAnd
      else if str_eqb (c_str c) (zs "not-equal") then Some (OEq NotEqual)
      else if str_eqb (c_str c) (zs "mul") then Some (OMul Mul)
      else if str_eqb (c_str c) (zs "div") then Some (OMul Div)
      else if str_eqb (c_str c) (zs "mod") then Some (OMul Mod)
      else if str_eqb (c_str c) (zs "pow") then Some OPow
      else None
  | _ => None
  end.
(** What the operators compute (the properties C33 to C38 say what these
    functions do). *)
Definition operation (lm : libm) (o : binop) (p : position) (l r : addr) : E (option addr) :=
  match o with
  | OOr => apply_logical orb tt p l r
  | OAnd => apply_logical andb tt p l r
  | OEq o => apply_equality o p l r
  | ORel o => apply_relation o p l r
  | OAdd subtract => add l r subtract
  | OMul o => multiply o l r
  | OPow => apply_power lm l r
  end.

(** An expression.  The addresses are those of the tokens. *)
Inductive tree :=
  | Atom (a : addr)
  | Group (a : addr) (x : tree)                        (* ( x ) *)
  | Neg (t : addr) (x : tree)                          (* - x *)
  | Pos (t : addr) (x : tree)                          (* + x *)
  | Bin (o : binop) (t : addr) (l r : tree)            (* l o r *)
  | Cond (q c : addr) (x y z : tree).                  (* x ? y : z *)

(** The tokens from left to right; a group is a single node. *)
Fixpoint flatten (t : tree) : list addr :=
  match t with
  | Atom a | Group a _ => [a]
  | Neg t x | Pos t x => t :: flatten x
  | Bin _ t l r => flatten l ++ t :: flatten r
  | Cond q c x y z => flatten x ++ q :: flatten y ++ c :: flatten z
  end.

(** The value of an operand: an identifier stands for a constant, a colour or a
    variable, [#abc] is a colour; the others are themselves.  Then move to the
    next token. *)
Definition operand (a : addr) : E (option addr) :=
  t <- type_of a ;;
  match t with
  | IDENTIFIER => next ;;; word a
  | HASH =>
      s <- string_of a ;; p <- pos_of a ;;
      match set_named s false with
      | None => report p "the color is not valid." ;;; next ;;; ret None
      | Some k => r <- new_color p k ;; next ;;; ret r
      end
  | _ => next ;;; ret (Some a)
  end.
(** Go on with the value if there is one. *)
Definition with_value (m : E (option addr)) (f : addr -> E (option addr)) : E (option addr) :=
  v <- m ;; match v with Some x => f x | None => ret None end.
(** Evaluate for nothing: the messages are dropped. Nothing is said if there is an error. *)
Definition skipped (m : E (option addr)) : E unit :=
  fun s => match m s with
           | Ret (Some _) s' => Ret tt (with_msgs s' (e_msgs s))
           | Ret None _ | NoFuel => NoFuel
           | Throw e s' => Throw e (with_msgs s' (e_msgs s))
           | Undef s' => Undef (with_msgs s' (e_msgs s))
           end.
(** The value of a tree, operands first, from left to right. *)
Fixpoint value_of (lm : libm) (t : tree) : E (option addr) :=
  match t with
  | Atom a => operand a
  | Group a x => next ;;; in_new a false (next ;;; value_of lm x)
  | Neg _ x => next ;;; with_value (value_of lm x) negate
  | Pos _ x => next ;;; value_of lm x
  | Bin o _ l r =>
      with_value (value_of lm l) (fun a =>
        p <- cur_pos ;; next ;;;
        with_value (value_of lm r) (fun b => operation lm o p a b))
  | Cond _ _ x y z =>
      with_value (value_of lm x) (fun a =>
        b <- boolean a ;; next ;;;
        if b : bool then with_value (value_of lm y) (fun v => next ;;; skipped (value_of lm z) ;;; ret (Some v))
        else skipped (value_of lm y) ;;; next ;;; value_of lm z)
  end.

(** The tokens among nodes separated by white space. *)
Inductive spaced (h : heap) : list addr -> list addr -> Prop :=
  | spaced_nil : spaced h [] []
  | spaced_ws a c l ts : nth_error h a = Some c -> c_type c = WHITESPACE -> spaced h l ts -> spaced h (a :: l) ts
  | spaced_token a c l ts : nth_error h a = Some c -> c_type c <> WHITESPACE -> spaced h l ts -> spaced h (a :: l) (a :: ts).
Definition no_leading_space (h : heap) (l : list addr) : Prop :=
  match l with [] => True | a :: _ => forall c, nth_error h a = Some c -> c_type c <> WHITESPACE end.

Definition operand_type (t : ntype) : bool :=
  match t with
  | ARRAY | BOOLEAN | COLOR | DECIMAL_NUMBER | EXCLAMATION | INTEGER | MAP | NULL_TOKEN | PERCENT | STRING
  | UNICODE_RANGE | URL | HASH | IDENTIFIER => true
  | _ => false
  end.
(** The tokens are those of the tree. *)
Fixpoint tokens_of (h : heap) (t : tree) : Prop :=
  match t with
  | Atom a => exists c, nth_error h a = Some c /\ operand_type (c_type c) = true
  | Group a x =>
      (exists c, nth_error h a = Some c /\ c_type c = OPEN_PARENTHESIS /\ spaced h (c_ch c) (flatten x) /\ no_leading_space h (c_ch c))
      /\ tokens_of h x
  | Neg t x => (exists c, nth_error h t = Some c /\ c_type c = SUBTRACT) /\ tokens_of h x
  | Pos t x => (exists c, nth_error h t = Some c /\ c_type c = ADD) /\ tokens_of h x
  | Bin o t l r => (exists c, nth_error h t = Some c /\ op_of c = Some o) /\ tokens_of h l /\ tokens_of h r
  | Cond q c x y z =>
      (exists k, nth_error h q = Some k /\ c_type k = CONDITIONAL) /\ (exists k, nth_error h c = Some k /\ c_type k = COLON)
      /\ tokens_of h x /\ tokens_of h y /\ tokens_of h z
  end.

(** How tightly the root of a tree binds: 0 for ?:, up to 9. *)
Definition rank (t : tree) : nat :=
  match t with Cond _ _ _ _ _ => 0 | Bin o _ _ _ => level_of o | Neg _ _ | Pos _ _ => 8 | Atom _ | Group _ _ => 9 end.
(** The trees that need no parentheses: an operand does not bind less tightly
    than the operator; the operators of one level associate to the left; ** does
    not associate, - and + apply to a whole x ** y; the ?: operator
    associates to the right. *)
Fixpoint proper (t : tree) : Prop :=
  match t with
  | Atom _ => True
  | Group _ x => proper x
  | Neg _ x | Pos _ x => (7 <= rank x)%nat /\ proper x
  | Bin OPow _ l r => rank l = 9%nat /\ (8 <= rank r)%nat /\ proper l /\ proper r
  | Bin o _ l r => (level_of o <= rank l)%nat /\ (level_of o < rank r)%nat /\ proper l /\ proper r
  | Cond _ _ x y z => (1 <= rank x)%nat /\ proper x /\ proper y /\ proper z
  end.
Fixpoint tree_size (t : tree) : nat :=
  match t with
  | Atom _ => 1
  | Group _ x | Neg _ x | Pos _ x => S (tree_size x)
  | Bin _ _ l r => S (tree_size l + tree_size r)
  | Cond _ _ x y z => S (tree_size x + tree_size y + tree_size z)
  end.

(** A node that ends an expression: the end of the tokens, or anything but an
    operator, [?], [\[] or [.]. *)
Definition ends (h : heap) (rest : list addr) : Prop :=
  match rest with
  | [] => True
  | a :: _ => exists c, nth_error h a = Some c /\ op_of c = None
      /\ c_type c <> CONDITIONAL /\ c_type c <> OPEN_SQUAREBRACKET /\ c_type c <> PERIOD
  end.
(** [expression e(n)]. *)
Definition start (n : addr) (h : heap) (m : list msg) : est := mkE h m n 0 (-1) None [] false.
(** Read the first token, then evaluate. *)
Definition evaluation (lm : libm) (t : tree) : E (option addr) := mark_start ;;; next ;;; value_of lm t.

(** ** Which sequences of tokens are expressions: any tree at all, but ** is not
    associative: its operands are a single operand (a group, if need be), or
    for the right one a signed operand. *)
Fixpoint signed (t : tree) : Prop :=
  match t with
  | Atom _ | Group _ _ => True
  | Neg _ x | Pos _ x => signed x
  | Bin o _ _ _ => o = OPow
  | Cond _ _ _ _ _ => False
  end.
Fixpoint powers_apart (t : tree) : Prop :=
  match t with
  | Atom _ => True
  | Group _ x | Neg _ x | Pos _ x => powers_apart x
  | Bin o _ l r => (o = OPow -> rank l = 9%nat /\ (8 <= rank r)%nat /\ signed r) /\ powers_apart l /\ powers_apart r
  | Cond _ _ x y z => powers_apart x /\ powers_apart y /\ powers_apart z
  end.

(** ** The usual meaning of an expression of plain integers and booleans *)
Inductive value := VInt (z : Z) | VBool (b : bool).
Definition truth_of (v : value) : bool := match v with VInt z => negb (z =? 0) | VBool b => b end.
(** false is less than true *)
Definition order (v w : value) : option comparison :=
  match v, w with
  | VInt a, VInt b => Some (a ?= b)
  | VBool a, VBool b => Some (match a, b with false, true => Lt | true, false => Gt | _, _ => Eq end)
  | _, _ => None
  end.
(** An integer has 64 bits. *)
Definition in_range (z : Z) : bool := (-9223372036854775808 <=? z) && (z <=? 9223372036854775807).
Definition integer (z : Z) : option value := if in_range z then Some (VInt z) else None.
Definition test (f : comparison -> bool) (v w : value) : option value := option_map (fun c => VBool (f c)) (order v w).
Definition compute (o : binop) (v w : value) : option value :=
  match o, v, w with
  | OOr, _, _ => Some (VBool (truth_of v || truth_of w))
  | OAnd, _, _ => Some (VBool (truth_of v && truth_of w))
  | OEq Equal, _, _ => test (fun c => match c with Eq => true | _ => false end) v w
  | OEq NotEqual, _, _ => test (fun c => match c with Eq => false | _ => true end) v w
  | ORel Less, _, _ => test (fun c => match c with Lt => true | _ => false end) v w
  | ORel LessEq, _, _ => test (fun c => match c with Gt => false | _ => true end) v w
  | ORel Greater, _, _ => test (fun c => match c with Gt => true | _ => false end) v w
  | ORel GreaterEq, _, _ => test (fun c => match c with Lt => false | _ => true end) v w
  | OAdd false, VInt a, VInt b => integer (a + b)
  | OAdd true, VInt a, VInt b => integer (a - b)
  | OMul Mul, VInt a, VInt b => integer (a * b)
  | OMul Div, VInt a, VInt b => if b =? 0 then None else integer (Z.quot a b)         (* towards zero *)
  | OMul Mod, VInt a, VInt b => if (b =? 0) || negb (in_range (Z.quot a b)) then None else integer (Z.rem a b)
  | _, _, _ => None
  end.
Definition constant (c : cell) : option value :=
  match c_type c, c_str c with
  | INTEGER, [] => integer (c_int c)
  | BOOLEAN, _ => Some (VBool (c_bool c))
  | IDENTIFIER, s => if str_eqb s (zs "true") then Some (VBool true) else if str_eqb s (zs "false") then Some (VBool false) else None
  | _, _ => None
  end.
(** The value of the tree; none if it is not such an expression, overflows or divides by zero. *)
Fixpoint meaning (h : heap) (t : tree) : option value :=
  match t with
  | Atom a => match nth_error h a with Some c => constant c | None => None end
  | Group _ x | Pos _ x => meaning h x
  | Neg _ _ => None
  | Bin o _ l r => match meaning h l, meaning h r with Some v, Some w => compute o v w | _, _ => None end
  | Cond _ _ x y z => match meaning h x, meaning h y, meaning h z with Some v, Some a, Some b => Some (if truth_of v then a else b) | _, _, _ => None end
  end.
(** The nodes that represent the values. *)
Definition represents (c : cell) (v : value) : Prop :=
  match v with
  | VInt z => c_type c = INTEGER /\ c_int c = z /\ c_str c = []
  | VBool b => c_type c = BOOLEAN /\ c_bool c = b
  end.
