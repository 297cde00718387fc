(** * Specification for the parser: tokens, the text of a tree, balanced brackets *)

From Coq Require Import ZArith List Bool.
From Coq Require Import Floats.SpecFloat.
From Verif Require Import Base NodeHeap.
Import ListNotations.
Open Scope Z_scope.

(** What a token says: its type and the fields that its type has (NodeHeap.v
    gives the table of node.cpp). The name that follows an exclamation mark is
    a token of its own. *)
Record tview := mkView { v_type : ntype; v_str : str; v_int : Z; v_dec : f64; v_bool : bool }.
Definition view (n : node) : tview :=
  let t := n_type n in
  mkView t (if has_str t && negb (ntype_eqb t EXCLAMATION) then n_str n else [])
         (if has_int t then n_int n else 0)
         (if has_dec t then n_dec n else S754_zero false)
         (if has_bool t then n_bool n else false).
Definition bare (t : ntype) : tview := mkView t [] 0 (S754_zero false) false.
Definition named (t : ntype) (s : str) : tview := mkView t s 0 (S754_zero false) false.

(** White space, semicolons and HTML comment delimiters are not kept. *)
Definition insignificant (t : ntype) : bool :=
  match t with WHITESPACE | SEMICOLON | CDO | CDC => true | _ => false end.
Definition significant_tokens (l : list node) : list tview :=
  flat_map (fun n => if insignificant (n_type n) then [] else [view n]) l.

(** The bracket that closes a token. *)
Definition closes (t : ntype) : option ntype :=
  match t with
  | OPEN_CURLYBRACKET => Some CLOSE_CURLYBRACKET
  | OPEN_SQUAREBRACKET => Some CLOSE_SQUAREBRACKET
  | OPEN_PARENTHESIS | FUNCTION | VARIABLE_FUNCTION => Some CLOSE_PARENTHESIS
  | _ => None
  end.

(** The tokens that a tree stands for, in order. *)
Fixpoint tokens_of (n : node) : list tview :=
  let kids := flat_map tokens_of (n_ch n) in
  match n_type n with
  | LIST | COMPONENT_VALUE => kids
  | WHITESPACE => []
  | DECLARATION => named IDENTIFIER (n_str n) :: bare COLON :: kids
  | EXCLAMATION => [view n; named IDENTIFIER (n_str n)]
  | AT_KEYWORD => view n :: kids
  | t => match closes t with
         | Some c => view n :: kids ++ [bare c]
         | None => [view n]
         end
  end.

(** A token: not a composite node, no children. *)
Definition token (n : node) : Prop :=
  n_ch n = [] /\ n_type n <> LIST /\ n_type n <> COMPONENT_VALUE /\ n_type n <> DECLARATION.

(** Balanced brackets: [stack] is the list of closing brackets expected. *)
Definition closing (t : ntype) : bool :=
  match t with CLOSE_CURLYBRACKET | CLOSE_SQUAREBRACKET | CLOSE_PARENTHESIS => true | _ => false end.
Fixpoint balanced_from (stack : list ntype) (l : list ntype) : bool :=
  match l with
  | [] => match stack with [] => true | _ => false end
  | t :: r =>
      match closes t with
      | Some c => balanced_from (c :: stack) r
      | None =>
          if closing t then
            match stack with
            | c :: st => ntype_eqb c t && balanced_from st r
            | [] => false
            end
          else balanced_from stack r
      end
  end.
Definition balanced (l : list node) : bool := balanced_from [] (map n_type l).
