(** * What scoping of variables means

    A history is a sequence of block entries, block exits, assignments
    [$k: value !flags] and reads. The reference semantics keeps one table of
    values per open block and one for the style sheet. *)

From Coq Require Import String ZArith List Bool Floats.SpecFloat.
From Verif Require Import Base NodeHeap Compiler.
Import ListNotations.
Open Scope string_scope. Open Scope list_scope. Open Scope Z_scope.

(** A token: its type and its text. A value is a list of tokens. *)
Definition token := (ntype * str)%type.
Definition value := list token.

(** What may be written after the colon: tokens and the two flags. *)
Inductive item := Tok (t : token) | Global | Default.
Inductive event :=
  | Enter (scope : bool)          (* open a block, whether or not it holds variables *)
  | Exit
  | Assign (k : str) (before after : bool) (l : list item)   (* [before], [after]: white space around the ':' *)
  | Read (k : str).

Definition tokens_of (l : list item) : value := flat_map (fun i => match i with Tok t => [t] | _ => [] end) l.
Definition is_global (i : item) : bool := match i with Global => true | _ => false end.
Definition is_default (i : item) : bool := match i with Default => true | _ => false end.
(** The identifier null alone is the null value. *)
Definition value_of (v : value) : value :=
  match v with
  | [(IDENTIFIER, s)] => if str_eqb s (zs "null") then [(NULL_TOKEN, [])] else v
  | _ => v
  end.
(** Tokens without children, not flags, the value not starting with white space. *)
Definition token_ok (t : token) : Prop :=
  has_children (fst t) = false /\ fst t <> EXCLAMATION /\ fst t <> EOF_TOKEN.
Definition event_ok (e : event) : Prop :=
  match e with
  | Assign _ _ _ l =>
      Forall token_ok (tokens_of l)
      /\ match tokens_of l with (t, _) :: _ => t <> WHITESPACE | [] => True end
  | _ => True
  end.

(** ** Reference semantics *)
Definition env := str -> option value.
Definition empty_env : env := fun _ => None.
Definition update (e : env) (k : str) (v : value) : env := fun k' => if str_eqb k' k then Some v else e k'.
(** The open blocks, innermost first ([None]: not a scope), and the sheet. *)
Record scopes := mkScopes { blocks : list (option env); sheet : env }.
Fixpoint find_in (l : list (option env)) (k : str) : option value :=
  match l with
  | [] => None
  | None :: r => find_in r k
  | Some e :: r => match e k with Some v => Some v | None => find_in r k end
  end.
Definition find_value (s : scopes) (k : str) : option value :=
  match find_in (blocks s) k with Some v => Some v | None => sheet s k end.
(** Set in the innermost scope; [None] when no block is a scope. *)
Fixpoint set_in (l : list (option env)) (k : str) (v : value) : option (list (option env)) :=
  match l with
  | [] => None
  | None :: r => option_map (cons None) (set_in r k v)
  | Some e :: r => Some (Some (update e k v) :: r)
  end.
Definition set_local (s : scopes) (k : str) (v : value) : scopes :=
  match set_in (blocks s) k v with
  | Some l => mkScopes l (sheet s)
  | None => mkScopes (blocks s) (update (sheet s) k v)
  end.
Definition assign (s : scopes) (k : str) (l : list item) : scopes :=
  let v := value_of (tokens_of l) in
  if existsb is_default l && match find_value s k with Some _ => true | None => false end then s
  else if existsb is_global l then mkScopes (blocks s) (update (sheet s) k v)
  else set_local s k v.
(** The results of the reads, in order. *)
Fixpoint reads (s : scopes) (l : list event) : list (option value) :=
  match l with
  | [] => []
  | Enter b :: r => reads (mkScopes ((if b then Some empty_env else None) :: blocks s) (sheet s)) r
  | Exit :: r => reads (mkScopes (tl (blocks s)) (sheet s)) r
  | Assign k _ _ i :: r => reads (assign s k i) r
  | Read k :: r => find_value s k :: reads s r
  end.

(** ** The same history on the compiler

    The tree of a statement [$k: ...], as built by the parser. *)
Definition p0 : position := mkPos 1 1 1.
Definition leaf (t : token) : cell := mkCell (fst t) p0 false 0 (S754_zero false) (snd t) [] [] [] [].
Definition item_node (i : item) : cell :=
  leaf match i with Tok t => t | Global => (EXCLAMATION, zs "global") | Default => (EXCLAMATION, zs "default") end.
Definition space (b : bool) : list cell := if b then [leaf (WHITESPACE, [])] else [].
Definition statement_nodes (k : str) (before after : bool) (l : list item) : list cell :=
  leaf (VARIABLE, k) :: space before ++ leaf (COLON, []) :: space after ++ map item_node l.
Definition node_with (t : ntype) (ch : list addr) : cell := mkCell t p0 false 0 (S754_zero false) [] [] ch [] [].

Definition value_read (v : addr) : C value :=
  b <- lift (get_child v 1) ;;
  c <- lift (load b) ;;
  if ntype_eqb (c_type c) LIST then
    fun s => Ret (map (fun a => match nth_error (k_heap s) a with Some k => (c_type k, c_str k) | None => (UNKNOWN, []) end) (c_ch c)) s
  else ret [(c_type c, c_str c)].

(** An assignment is the last statement of the current block (the head of the
    stack) and is processed as replace_variables does (compiler.cpp:2064-2067). *)
Definition do_assign (x : ctx) (k : str) (before after : bool) (l : list item) : C unit := fun s =>
  let h := k_heap s in
  let nodes := statement_nodes k before after l in
  let n := (length h + length nodes)%nat in
  let h1 := h ++ nodes ++ [node_with COMPONENT_VALUE (seq (length h) (length nodes))] in
  match x_parents x with
  | [] => Undef s
  | b :: _ => (lift (add_child b n) ;;; compiler_set_variable (push x n) n) (mkK h1 (k_msgs s) (k_paths s))
  end.
Definition pop (x : ctx) : ctx :=
  match x_parents x with
  | _ :: (p :: r) => mkX (x_root x) (p :: r) (x_quiet x)
  | _ => x
  end.
Fixpoint history (x : ctx) (l : list event) : C (list (option value)) :=
  match l with
  | [] => ret []
  | Enter b :: r => a <- lift (new_node OPEN_CURLYBRACKET p0) ;; lift (set_boolean a b) ;;; history (push x a) r
  | Exit :: r => history (pop x) r
  | Assign k before after i :: r => do_assign x k before after i ;;; history x r
  | Read k :: r =>
      o <- state_get_variable x k ;;
      v <- (match o with Some a => w <- value_read a ;; ret (Some w) | None => ret None end) ;;
      rs <- history x r ;; ret (v :: rs)
  end.
(** A style sheet with nothing in it. *)
Definition new_sheet : kst := mkK [node_with LIST []] [] [].
Definition at_sheet (quiet : bool) : ctx := mkX 0%nat [0%nat] quiet.
