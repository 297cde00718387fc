(** * Comments: what is meant (C52)

    Texts of comments, as lists of characters, independently of the lexer and of
    the assembler. *)

From Coq Require Import String ZArith List Bool.
From Verif Require Import Base TextSpec.
Import ListNotations.
Open Scope string_scope. Open Scope list_scope. Open Scope Z_scope.

(** [w] is somewhere in [t]. *)
Definition has (w t : list Z) : Prop := exists a b, t = a ++ w ++ b.
(** [u] is [t] without the white space at both ends; it is not empty. *)
Definition trims (t u : list Z) : Prop :=
  exists a b, t = a ++ u ++ b /\ Forall blank a /\ Forall blank b /\ u <> [] /\ ~ blank (first u) /\ ~ blank (last u 0).

(** [/* ... */] *)
Definition c_comment (body : list Z) : list Z := zs "/*" ++ body ++ zs "*/".

(** [// ...], followed with the lines [ls] which also start with [//]. *)
Definition cpp_comment (l : list Z) (ls : list (list Z)) : list Z :=
  zs "//" ++ l ++ concat (map (fun m => 10 :: zs "//" ++ m) ls).
(** What follows is not one more line: the end, or an end of line and something else. *)
Definition no_more_lines (rest : list Z) : Prop :=
  rest = [] \/ exists r, rest = 10 :: r /\ ~ (exists q, r = zs "//" ++ q).
(** Spaces and tabs are removed before the first line, and one before each of the
    other lines. *)
Fixpoint unindent (l : list Z) : list Z :=
  match l with [] => [] | c :: r => if (c =? 32) || (c =? 9) then unindent r else l end.
Definition unindent1 (l : list Z) : list Z :=
  match l with [] => [] | c :: r => if (c =? 32) || (c =? 9) then r else l end.
Definition cpp_body (l : list Z) (ls : list (list Z)) : list Z :=
  unindent l ++ concat (map (fun m => 10 :: unindent1 m) ls).

(** A text (the bytes of an output) which is one CSS comment, and an end of line: what comes between the
    marks does not have the closing mark. *)
Definition one_comment (t : list Z) : Prop :=
  exists body, t = zs "/*" ++ body ++ zs "*/" ++ [10] /\ ~ has (zs "*/") body.
