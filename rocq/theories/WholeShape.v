(** * Shapes: nodes without their positions

    The nodes of a style sheet (WholeSpec.v) whatever its layout (LaySpec.v), as
    tokens, as parsed and as compiled. *)

From Coq Require Import String ZArith List Bool.
From Verif Require Import Base NodeHeap Trees WholeSpec LaySpec VarSpec.
Import ListNotations.
Open Scope string_scope. Open Scope list_scope. Open Scope Z_scope.

Inductive shape := Shape (t : ntype) (s : str) (i : Z) (flags : list str) (l : list shape).
Fixpoint node_shape (n : node) : shape :=
  match n with Node t _ _ i _ s _ l => Shape t s i [] (map node_shape l) end.
Fixpoint tree_shape (t : tree) : shape :=
  match t with Tree _ c l => Shape (c_type c) (c_str c) (c_int c) (c_flags c) (map tree_shape l) end.
Definition leaf (t : ntype) (s : str) (i : Z) : shape := Shape t s i [] [].
Definition sign (t : ntype) : shape := leaf t [] 0.
Definition inner (t : ntype) (l : list shape) : shape := Shape t [] 0 [] l.
Definition sh_type (s : shape) : ntype := match s with Shape t _ _ _ _ => t end.
Definition sh_str (s : shape) : str := match s with Shape _ x _ _ _ => x end.
Definition sh_kids (s : shape) : list shape := match s with Shape _ _ _ _ l => l end.

Fixpoint glue {A} (sep : list A) (l : list (list A)) : list A :=
  match l with
  | [] => []
  | [x] => x
  | x :: r => x ++ sep ++ glue sep r
  end.

(** ** Tokens *)
Definition blanks : lang shape := either (this []) (this [sign WHITESPACE]).
Definition spaced (t : ntype) : lang shape := blanks # this [sign t] # blanks.
Definition value_leaf (v : value) : shape :=
  match v with Word w => leaf IDENTIFIER w 0 | Size n u => leaf INTEGER u n | Var w => leaf VARIABLE (variable_key w) 0 end.
Definition group_leaves (g : list value) : list shape := glue [sign WHITESPACE] (map (fun v => [value_leaf v]) g).
Definition groups_leaves (l : list (list value)) : lang shape := between (spaced COMMA) (map (fun g => this (group_leaves g)) l).
Definition decl_head (d : decl) : lang shape :=
  this [leaf IDENTIFIER (d_name d) 0] # spaced COLON # groups_leaves (d_groups d).
Definition decl_tokens (d : decl) : lang shape :=
  decl_head d # (if d_important d then spaced EXCLAMATION # this [leaf IDENTIFIER (zs "important") 0] else this []).
Definition mark_leaves (m : mark) : list shape :=
  match m with Class w => [sign PERIOD; leaf IDENTIFIER w 0] | Id w => [leaf HASH w 0] end.
Definition compound_leaves (k : compound) : list shape :=
  match k_name k with Some w => [leaf IDENTIFIER w 0] | None => [] end ++ flat_map mark_leaves (k_marks k).
Definition link_type (l : link) : ntype := match l with Inside => WHITESPACE | Child => GREATER_THAN | Sibling => PRECEDED end.
Definition link_leaves (l : link) : lang shape := match l with Inside => this [sign WHITESPACE] | _ => spaced (link_type l) end.
Definition complex_lay (s : complex) : lang shape :=
  this (compound_leaves (s_first s)) # each (map (fun x => link_leaves (fst x) # this (compound_leaves (snd x))) (s_more s)).
Definition selector_lay (r : rule) : lang shape := between (spaced COMMA) (map complex_lay (r_selectors r)).
Definition rule_tokens (r : rule) : lang shape :=
  selector_lay r # spaced OPEN_CURLYBRACKET # between (spaced SEMICOLON) (map decl_tokens (r_decls r))
  # either (this []) (blanks # this [sign SEMICOLON]) # blanks # this [sign CLOSE_CURLYBRACKET].
Definition statement_tokens (s : statement) : lang shape :=
  match s with
  | Set_to w g => this [leaf VARIABLE (variable_key w) 0] # spaced COLON # this (group_leaves g) # blanks # this [sign SEMICOLON]
  | Style r => rule_tokens r
  end.
Definition script_tokens (l : list statement) : lang shape := blanks # each (map (fun s => statement_tokens s # blanks) l).

(** ** As parsed *)
Definition flag_leaves (d : decl) : list shape := if d_important d then [leaf EXCLAMATION (zs "important") 0] else [].
Definition decl_nodes (d : decl) : lang shape := decl_head d # this (flag_leaves d).
Definition decl_shape (d : decl) (s : shape) : Prop := exists l, decl_nodes d l /\ s = inner COMPONENT_VALUE l.
Definition listed (l : list shape) : shape := match l with [x] => x | _ => inner LIST l end.
Definition rule_shape (r : rule) (s : shape) : Prop :=
  exists sel ds, selector_lay r sel /\ Forall2 decl_shape (r_decls r) ds /\ s = inner COMPONENT_VALUE (sel ++ [inner OPEN_CURLYBRACKET [listed ds]]).
Definition statement_shape (x : statement) (s : shape) : Prop :=
  match x with
  | Set_to w g => exists b, spaced COLON b /\ s = inner COMPONENT_VALUE (leaf VARIABLE (variable_key w) 0 :: b ++ group_leaves g)
  | Style r => rule_shape r s
  end.
Definition script_shape (l : list statement) (s : shape) : Prop := exists rs, Forall2 statement_shape l rs /\ s = inner LIST rs.
Definition sheet_shape (l : list rule) (s : shape) : Prop := exists rs, Forall2 rule_shape l rs /\ s = inner LIST rs.

(** ** As compiled *)
Definition complex_leaves (s : complex) : list shape :=
  compound_leaves (s_first s) ++ flat_map (fun x => sign (link_type (fst x)) :: compound_leaves (snd x)) (s_more s).
Definition arg_shape (l : list shape) : shape := Shape ARG [] 14 [] l.
Definition done_decl (d : decl) : shape :=
  Shape DECLARATION (d_name d) 0 (if d_important d then [zs "important"] else []) (map (fun g => arg_shape (group_leaves g)) (d_groups d)).
Definition done_rule (r : rule) : shape :=
  inner COMPONENT_VALUE (map (fun s => arg_shape (complex_leaves s)) (r_selectors r)
    ++ [inner OPEN_CURLYBRACKET (match r_decls r with [d] => [done_decl d] | l => [inner LIST (map done_decl l)] end)]).
Definition done_sheet (l : list rule) : shape := inner LIST (map done_rule l).
