(** * Output modes: specification (C48) *)

From Coq Require Import String ZArith List Bool.
From Verif Require Import Base.
Import ListNotations.
Open Scope string_scope. Open Scope list_scope. Open Scope Z_scope.

(** What a style sheet is made of, in order: texts printed as they are (words,
    numbers, strings, and the operators which never have white space around),
    operators, names of declarations, comments, ends of blocks. *)
Inductive piece :=
  | Word (t : str)
  | Op (t : str)
  | Name (t : str)
  | Comment (t : str)
  | Close.

(** The operators around which white space is free. *)
Definition operators : list str :=
  map zs ["+"; "|="; "="; ">"; "~="; "~"; "^="; "*="; "$="; ","; ":"; ";"; "!"; "{"; "}"; "("; ")"].
Definition legal (p : piece) : Prop :=
  match p with
  | Op t => In t operators
  | Comment t => t = [] \/ exists r, t = zs "/*" ++ r
  | _ => True
  end.

Definition white (w : str) : Prop := Forall (fun c => c = 32 \/ c = 10) w.
(** [spells ps t]: [t] is made of the pieces [ps], with white space around the
    operators, before names and comments, and around the end of a block, which
    may have a semicolon. *)
Inductive spells : list piece -> str -> Prop :=
  | sp_nil : spells [] []
  | sp_word t r u : spells r u -> spells (Word t :: r) (t ++ u)
  | sp_op t r u w1 w2 : white w1 -> white w2 -> spells r u -> spells (Op t :: r) (w1 ++ t ++ w2 ++ u)
  | sp_name t r u w : white w -> spells r u -> spells (Name t :: r) (w ++ t ++ u)
  | sp_comment t r u w : white w -> spells r u -> spells (Comment t :: r) (w ++ t ++ u)
  | sp_close (semi : bool) r u w1 w2 : white w1 -> white w2 -> spells r u ->
      spells (Close :: r) ((if semi then [59] else []) ++ w1 ++ [125] ++ w2 ++ u).

(** A text without its white space, nor its semicolons before a closing curly
    bracket. *)
Fixpoint drop_semicolons (t : str) : str :=
  match t with
  | [] => []
  | c :: r =>
      let r' := drop_semicolons r in
      if (c =? 59) && (match r' with d :: _ => d =? 125 | [] => false end) then r' else c :: r'
  end.
Definition bare_text (t : str) : str := drop_semicolons (filter (fun c => negb ((c =? 32) || (c =? 10))) t).
