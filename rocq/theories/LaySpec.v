(** * The same style sheets, written by hand

    WholeSpec.v gives the compressed text of a style sheet. Here: all the texts
    which differ from it by white space only, and by a ';' after the last
    declaration of a rule. *)

From Coq Require Import String ZArith List Bool.
From Verif Require Import Base WholeSpec.
Import ListNotations.
Open Scope string_scope. Open Scope list_scope. Open Scope Z_scope.

(** ** Languages *)
Definition lang (A : Type) : Type := list A -> Prop.
Definition this {A} (s : list A) : lang A := fun t => t = s.
Definition and_then {A} (P Q : lang A) : lang A := fun t => exists a b, t = a ++ b /\ P a /\ Q b.
Definition either {A} (P Q : lang A) : lang A := fun t => P t \/ Q t.
Infix "#" := and_then (at level 60, right associativity).
(** One word of each language, with words of [sep] between them. *)
Fixpoint between {A} (sep : lang A) (l : list (lang A)) : lang A :=
  match l with
  | [] => this []
  | [P] => P
  | P :: r => P # sep # between sep r
  end.
Fixpoint each {A} (l : list (lang A)) : lang A :=
  match l with [] => this [] | P :: r => P # each r end.

(** ** White space: spaces, tabulations, ends of lines and of pages *)
Definition blank (c : Z) : Prop := c = 32 \/ c = 9 \/ c = 10 \/ c = 12 \/ c = 13.
Definition gap : lang Z := Forall blank.
Definition space : lang Z := fun t => gap t /\ t <> [].
Definition around (s : string) : lang Z := gap # this (zs s) # gap.

(** ** Style sheets *)
Definition group_laid (g : list value) : lang Z := between space (map (fun v => this (value_text v)) g).
Definition decl_laid (d : decl) : lang Z :=
  this (d_name d) # around ":" # between (around ",") (map group_laid (d_groups d))
  # (if d_important d then around "!" # this (zs "important") else this []).
Definition link_laid (l : link) : lang Z :=
  match l with Inside => space | Child => around ">" | Sibling => around "~" end.
Definition complex_laid (s : complex) : lang Z :=
  this (compound_text (s_first s)) # each (map (fun x => link_laid (fst x) # this (compound_text (snd x))) (s_more s)).
Definition rule_laid (r : rule) : lang Z :=
  between (around ",") (map complex_laid (r_selectors r))
  # around "{" # between (around ";") (map decl_laid (r_decls r))
  # either (this []) (gap # this (zs ";")) # gap # this (zs "}").
Definition sheet_laid (l : list rule) : lang Z := gap # each (map (fun r => rule_laid r # gap) l).
