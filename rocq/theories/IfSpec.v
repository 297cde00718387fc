(** * What it means for a tree to need no preprocessing, and an @if chain *)

From Coq Require Import String ZArith List Bool Arith Floats.SpecFloat.
From Verif Require Import Base NodeHeap NodeProofs Compiler.
Import ListNotations.
Open Scope string_scope. Open Scope list_scope. Open Scope Z_scope.

(** Tokens without children which are neither variables nor comments. *)
Definition simple_type (t : ntype) : bool :=
  match t with
  | LIST | AT_KEYWORD | ARG | COMPONENT_VALUE | DECLARATION | FUNCTION | OPEN_CURLYBRACKET
  | OPEN_PARENTHESIS | OPEN_SQUAREBRACKET | VARIABLE_FUNCTION | COMMENT | VARIABLE => false
  | _ => true
  end.
Definition group_type (t : ntype) : bool :=
  match t with
  | LIST | ARG | COMPONENT_VALUE | DECLARATION | FUNCTION | OPEN_CURLYBRACKET
  | OPEN_PARENTHESIS | OPEN_SQUAREBRACKET => true
  | _ => false
  end.
(** The at-keywords that the preprocessor acts upon. *)
Definition special_names : list str :=
  map zs ["import"; "mixin"; "if"; "else"; "include"; "error"; "warning"; "message"; "info"; "debug"].
(** No reference to a variable: a '\{' is not followed by a '$'. *)
Definition no_reference (s : str) : Prop := forall i, nth i s 0 = 123 -> nth (S i) s 0 <> 36.

(** A tree of depth and width below [d], with no variable, no special
    at-keyword, no reference in a comment and no empty LIST, and which does
    not contain any of the nodes [D]. *)
Inductive settled (D : list addr) (h : heap) : nat -> addr -> Prop :=
  | settled_simple d a c : ~ In a D -> nth_error h a = Some c -> simple_type (c_type c) = true -> settled D h d a
  | settled_comment d a c : ~ In a D -> nth_error h a = Some c -> c_type c = COMMENT -> no_reference (c_str c) -> settled D h (S d) a
  | settled_group d a c : ~ In a D -> nth_error h a = Some c ->
      group_type (c_type c) = true \/ (c_type c = AT_KEYWORD /\ ~ In (c_str c) special_names) ->
      (c_type c = LIST -> c_ch c <> []) -> (length (c_ch c) < d)%nat ->
      Forall (settled D h d) (c_ch c) -> settled D h (S d) a.

(** ** Chains

    A branch: its at-keyword node, the tokens of its condition and its block. *)
Record branch := mkBranch { b_node : addr; b_tokens : list addr; b_block : addr; b_truth : bool }.

(** The condition gives a truth value wherever the tokens [T] of the condition are
    those of [h0]; the evaluation adds nodes, may report, and leaves the value
    in place of the tokens. *)
Definition evaluates (w : world) (x : ctx) (F0 : nat) (h0 : heap) (T : list addr) (b : branch) : Prop :=
  forall fuel h m ps c, (F0 <= fuel)%nat ->
    nth_error h (b_node b) = Some c -> c_type c = AT_KEYWORD -> c_ch c = b_tokens b ++ [b_block b] ->
    (forall a, In a T -> nth_error h a = nth_error h0 a) ->
    exists e h' m' m'' c', at_keyword_expression w fuel x (b_node b) (mkK h m ps) = Ret (Some e) (mkK h' m' ps)
      /\ keeps [b_node b] h h'
      /\ nth_error h' (b_node b) = Some c' /\ c_type c' = AT_KEYWORD /\ c_pos c' = c_pos c /\ c_int c' = c_int c /\ c_ch c' = [e; b_block b]
      /\ truth (b_node b) e (mkK h' m' ps) = Ret (b_truth b) (mkK h' m'' ps).

(** The statements of a block. *)
Definition statements (h : heap) (a : addr) : list addr := match nth_error h a with Some c => c_ch c | None => [] end.
(** The block to be kept: the one of the first true condition, else [final]. *)
Fixpoint chosen (l : list branch) (final : option addr) : option addr :=
  match l with
  | [] => final
  | b :: r => if b_truth b then Some (b_block b) else chosen r final
  end.
Definition kept_statements (h : heap) (o : option addr) : list addr := match o with Some a => statements h a | None => [] end.

(** A block of statements: none is white space. *)
Definition block_ok (h : heap) (a : addr) : Prop :=
  exists k, nth_error h a = Some k /\ c_type k = OPEN_CURLYBRACKET
    /\ Forall (fun y => exists c, nth_error h y = Some c /\ c_type c <> WHITESPACE /\ c_type c <> EOF_TOKEN) (c_ch k).
(** The nodes of the branches: [@if tokens block], [@else if tokens block]
    with optional white space after the if, and [@else block]. *)
Definition if_node (D : list addr) (h : heap) (d : nat) (b : branch) : Prop :=
  exists c, nth_error h (b_node b) = Some c /\ c_type c = AT_KEYWORD /\ c_str c = zs "if" /\ c_ch c = b_tokens b ++ [b_block b] /\ (length (c_ch c) < d)%nat
    /\ b_tokens b <> [] /\ Forall (settled D h d) (c_ch c) /\ block_ok h (b_block b).
Definition else_if_node (D : list addr) (h : heap) (d : nat) (b : branch) : Prop :=
  exists c i ws k, nth_error h (b_node b) = Some c /\ c_type c = AT_KEYWORD /\ c_str c = zs "else"
    /\ c_ch c = i :: ws ++ b_tokens b ++ [b_block b] /\ (length (c_ch c) < d)%nat /\ b_tokens b <> []
    /\ nth_error h i = Some k /\ c_type k = IDENTIFIER /\ c_str k = zs "if"
    /\ (ws = [] \/ exists s ks, ws = [s] /\ nth_error h s = Some ks /\ c_type ks = WHITESPACE)
    /\ (forall t kt, hd_error (b_tokens b) = Some t -> nth_error h t = Some kt -> c_type kt <> WHITESPACE)
    /\ Forall (settled D h d) (c_ch c) /\ block_ok h (b_block b).
Definition else_node (D : list addr) (h : heap) (d : nat) (n blk : addr) : Prop :=
  exists c, nth_error h n = Some c /\ c_type c = AT_KEYWORD /\ c_str c = zs "else" /\ c_ch c = [blk] /\ (1 < d)%nat
    /\ Forall (settled D h d) (c_ch c) /\ block_ok h blk.
