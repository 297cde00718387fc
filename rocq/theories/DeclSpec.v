(** * Nested declarations: what is meant (C47)

    [font: \{ family: a; size: b \}] stands for [font-family: a; font-size: b]. *)

From Coq Require Import String ZArith List Bool Floats.SpecFloat.
From Verif Require Import Base NodeHeap Trees.
Import ListNotations.
Open Scope string_scope. Open Scope list_scope. Open Scope Z_scope.

(** What the name of a declaration adds to those nested in it. *)
Definition prefix (name : str) : str := if str_eqb name (zs "-csspp-null") then [] else name ++ zs "-".

(** What remains of a child of a declaration when the nested declarations are
    taken out: blocks which become empty disappear. *)
Fixpoint stay (t : tree) : list tree :=
  match t with
  | Tree a c l =>
      match c_type c with
      | DECLARATION => []
      | LIST | OPEN_CURLYBRACKET => match flat_map stay l with [] => [] | r => [Tree a c r] end
      | _ => [t]
      end
  end.
(** The declarations nested in a child of the declaration [name], in order, each followed
    by those nested in it. *)
Fixpoint moved (name : str) (t : tree) : list tree :=
  match t with
  | Tree a c l =>
      match c_type c with
      | DECLARATION =>
          let full := prefix name ++ c_str c in
          Tree a (with_str c full) (flat_map stay l) :: flat_map (moved full) l
      | LIST | OPEN_CURLYBRACKET => flat_map (moved name) l
      | _ => []
      end
  end.
(** A declaration becomes itself, with its own value only, then those nested in it. *)
Definition declared (t : tree) : list tree :=
  match t with Tree a c l => Tree a c (flat_map stay l) :: flat_map (moved (c_str c)) l end.

(** No rule and no at-keyword among the nested declarations. *)
Inductive only_declarations : tree -> Prop :=
  | only_node a c l : c_type c <> AT_KEYWORD -> c_type c <> COMPONENT_VALUE ->
      (In (c_type c) [DECLARATION; LIST; OPEN_CURLYBRACKET] -> Forall only_declarations l) -> only_declarations (Tree a c l).
(** Tokens of a value. *)
Definition value_token (t : tree) : Prop := ~ In (kind t) [DECLARATION; LIST; OPEN_CURLYBRACKET].
(** A declaration has one block at most. *)
Definition one_block (t : tree) : Prop :=
  exists l r, Forall value_token l /\ Forall value_token r /\ (kids t = l ++ r \/ exists b, kids t = l ++ b :: r).
