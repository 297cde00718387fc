(** * The four styles of output

    The text of a style sheet (WholeSpec.v) in each of the styles of csspp:
    --style compact, compressed, expanded and tidy. *)

From Coq Require Import String ZArith List Bool.
From Verif Require Import Base WholeSpec.
From Verif Require Import Assembler.
Import ListNotations.
Open Scope string_scope. Open Scope list_scope. Open Scope Z_scope.

Definition line : str := [10].
Definition by_style (m : mode) (compact compressed expanded tidy : str) : str :=
  match m with COMPACT => compact | COMPRESSED => compressed | EXPANDED => expanded | TIDY => tidy end.
Definition s_comma (m : mode) : str := by_style m (zs ", ") (zs ",") (zs ", ") (zs ",").
Definition s_colon (m : mode) : str := by_style m (zs ": ") (zs ":") (zs ": ") (zs ":").
Definition s_bang (m : mode) : str := by_style m (zs " !") (zs "!") (zs " !") (zs "!").
Definition s_child (m : mode) : str := by_style m (zs " > ") (zs ">") (zs " > ") (zs ">").
Definition s_sibling (m : mode) : str := by_style m (zs " ~ ") (zs "~") (zs " ~ ") (zs "~").
Definition s_indent (m : mode) : str := by_style m [] [] (zs "  ") [].
Definition s_semi (m : mode) : str := by_style m (zs "; ") (zs ";") (zs ";" ++ line) (zs ";").
Definition s_open (m : mode) : str := by_style m (zs " { ") (zs "{") (line ++ zs "{" ++ line) (zs "{").
Definition s_close (m : mode) : str := by_style m (zs " }" ++ line) (zs "}") (zs ";" ++ line ++ zs "}" ++ line) (zs "}" ++ line).

Definition decl_styled (m : mode) (d : decl) : str :=
  s_indent m ++ d_name d ++ s_colon m ++ joined (s_comma m) (map group_text (d_groups d)) ++ (if d_important d then s_bang m ++ zs "important" else []).
Definition link_styled (m : mode) (l : link) : str :=
  match l with Inside => zs " " | Child => s_child m | Sibling => s_sibling m end.
Definition complex_styled (m : mode) (s : complex) : str :=
  compound_text (s_first s) ++ flat_map (fun x => link_styled m (fst x) ++ compound_text (snd x)) (s_more s).
Definition rule_styled (m : mode) (r : rule) : str :=
  joined (s_comma m) (map (complex_styled m) (r_selectors r)) ++ s_open m ++ joined (s_semi m) (map (decl_styled m) (r_decls r)) ++ s_close m.
Definition sheet_styled (m : mode) (l : list rule) : str := flat_map (rule_styled m) l.
