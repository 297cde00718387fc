(** * Lists of values: what the right side of a declaration says *)

From Coq Require Import String ZArith List Bool Floats.SpecFloat.
From Verif Require Import Base NodeHeap Color FloatBits Expr ExprRun PrecSpec.
Import ListNotations.
Open Scope string_scope. Open Scope list_scope. Open Scope Z_scope.

(** A node that is its own value: a number, a string, a word which is neither a
    constant nor the name of a colour, ... *)
Definition plain_operand (c : cell) : bool :=
  match c_type c with
  | ARRAY | BOOLEAN | COLOR | DECIMAL_NUMBER | INTEGER | MAP | NULL_TOKEN | PERCENT | STRING | UNICODE_RANGE | URL => true
  | IDENTIFIER =>
      negb (str_eqb (c_str c) (zs "null") || str_eqb (c_str c) (zs "true") || str_eqb (c_str c) (zs "false"))
      && match set_named (c_str c) true with None => true | Some _ => false end
  | _ => false
  end.
(** [#abc] or the name of a colour. *)
Definition colour_of (c : cell) : option color :=
  match c_type c with
  | HASH => set_named (c_str c) false
  | IDENTIFIER => set_named (c_str c) true
  | _ => None
  end.
(** [d], at [r], is the value of the expression [t] of the nodes [h]: itself,
    a colour, or the result of a computation on integers and booleans. A node
    which is its own value always stands for itself. *)
Definition computed (h : heap) (t : tree) : Prop := forall a c, t = Atom a -> nth_error h a = Some c -> plain_operand c = false.
Definition stands_for (h : heap) (t : tree) (r : addr) (d : cell) : Prop :=
  (t = Atom r /\ nth_error h r = Some d /\ plain_operand d = true)
  \/ (exists a c k, t = Atom a /\ nth_error h a = Some c /\ colour_of c = Some k /\ d = with_color (blank COLOR (c_pos c)) k)
  \/ (exists v, meaning h t = Some v /\ represents d v /\ computed h t).
(** An expression that has such a value. [font]: [12px/14px] is not a division
    inside the field "font", which is left out here. *)
Definition simple (h : heap) (font : bool) (t : tree) : Prop :=
  (exists a c, t = Atom a /\ nth_error h a = Some c /\ plain_operand c = true)
  \/ (exists a c k, t = Atom a /\ nth_error h a = Some c /\ colour_of c = Some k)
  \/ (font = false /\ exists v, meaning h t = Some v).

(** One expression of a list: the tree, its nodes and the space after it. *)
Record entry := mkEntry { e_tree : tree; e_nodes : list addr; e_gap : list addr }.
Definition is_space_node (h : heap) (w : addr) : Prop := exists c, nth_error h w = Some c /\ c_type c = WHITESPACE.
Definition entry_ok (h : heap) (font : bool) (e : entry) : Prop :=
  spaced h (e_nodes e) (flatten (e_tree e)) /\ no_leading_space h (e_nodes e) /\ no_leading_space h (rev (e_nodes e))
  /\ tokens_of h (e_tree e) /\ proper (e_tree e) /\ simple h font (e_tree e)
  /\ (e_gap e = [] \/ exists w, e_gap e = [w] /\ is_space_node h w).
(** The nodes of the list, and those of the list of the values [rs]. *)
Definition row (es : list entry) : list addr := flat_map (fun e => e_nodes e ++ e_gap e) es.
Fixpoint results (es : list entry) (rs : list addr) : list addr :=
  match es, rs with
  | e :: es, r :: rs => r :: e_gap e ++ results es rs
  | _, _ => []
  end.
Definition row_tokens (es : list entry) : list addr := flat_map (fun e => flatten (e_tree e)) es.
(** The flag at the end, as in "!important". *)
Definition flag_ok (h : heap) (fl : list addr) : Prop :=
  fl = [] \/ exists a c, fl = [a] /\ nth_error h a = Some c /\ c_type c = EXCLAMATION.
(** Each expression ends where the next one starts; no space at the very end. *)
Fixpoint chained (h : heap) (es : list entry) (fl : list addr) : Prop :=
  match es with
  | [] => True
  | e :: es' => ends h (row_tokens es' ++ fl) /\ (es' = [] -> fl = [] -> e_gap e = []) /\ chained h es' fl
  end.
Definition list_ok (h : heap) (font : bool) (es : list entry) (fl : list addr) : Prop :=
  Forall (entry_ok h font) es /\ chained h es fl /\ flag_ok h fl /\ es <> [].
(** What the flags of the declaration become. *)
Definition flagged (h : heap) (fl : list addr) (k : cell) : cell :=
  match fl with
  | a :: _ => match nth_error h a with
              | Some c => with_flags k (if flag_mem (c_str c) (c_flags k) then c_flags k else c_flags k ++ [c_str c])
              | None => k
              end
  | [] => k
  end.
