(** * Style sheets that are already compressed CSS

    A description of a style sheet and its text. Nothing here knows about the
    lexer, the parser, the compiler or the assembler. *)

From Coq Require Import String ZArith List Bool.
From Verif Require Import Base.
From Verif Require Color DecText.
Import ListNotations.
Open Scope string_scope. Open Scope list_scope. Open Scope Z_scope.

Definition small (c : Z) : Prop := 97 <= c <= 122.
Definition numeral (c : Z) : Prop := 48 <= c <= 57.
(** A name: a small letter, then small letters, digits and dashes. *)
Definition word (w : str) : Prop :=
  match w with
  | c :: r => small c /\ Forall (fun c => small c \/ numeral c \/ c = 45) r
  | [] => False
  end.

(** A name of a variable may also have underscores. *)
Definition variable_name (w : str) : Prop :=
  match w with
  | c :: r => small c /\ Forall (fun c => small c \/ numeral c \/ c = 45 \/ c = 95) r
  | [] => False
  end.
(** '-' and '_' are the same in such a name. *)
Definition variable_key (w : str) : str := map (fun c => if c =? 45 then 95 else c) w.

(** ** Values: a word or a whole number with a unit

    A variable is a value of the scripts only (VarSpec.v), not of CSS. *)
Inductive value := Word (w : str) | Size (n : Z) (unit : str) | Var (w : str).
(** Words with a meaning of their own in expressions. *)
Definition reserved : list str :=
  map zs ["null"; "true"; "false"; "and"; "or"; "not-equal"; "mul"; "div"; "mod"; "pow"].
Definition is_colour (w : str) : bool := match Color.set_named w true with Some _ => true | None => false end.
Definition value_ok (v : value) : Prop :=
  match v with
  | Word w => word w /\ ~ In w reserved /\ is_colour w = false
  | Size n u => 0 <= n < 9223372036854775808 /\ Forall small u
  | Var _ => False
  end.
(** A value of a script. *)
Definition script_value (v : value) : Prop := match v with Var w => variable_name w | _ => value_ok v end.
Definition value_text (v : value) : str :=
  match v with Word w => w | Size n u => DecText.int_text n ++ u | Var w => zs "$" ++ w end.

(** [l] with [sep] between its elements. *)
Fixpoint joined (sep : str) (l : list str) : str :=
  match l with
  | [] => []
  | [x] => x
  | x :: r => x ++ sep ++ joined sep r
  end.

(** ** Declarations: values separated by spaces, in groups separated by commas *)
Record decl := mkDecl { d_name : str; d_groups : list (list value); d_important : bool }.
Definition decl_with (ok : value -> Prop) (d : decl) : Prop :=
  word (d_name d) /\ d_name d <> zs "filter" /\ d_groups d <> []
  /\ Forall (fun g => g <> [] /\ Forall ok g) (d_groups d).
Definition decl_ok : decl -> Prop := decl_with value_ok.
Definition group_text (g : list value) : str := joined (zs " ") (map value_text g).
Definition decl_text (d : decl) : str :=
  d_name d ++ zs ":" ++ joined (zs ",") (map group_text (d_groups d))
  ++ (if d_important d then zs "!important" else []).

(** ** Selectors *)
Inductive mark := Class (w : str) | Id (w : str).
Record compound := mkCompound { k_name : option str; k_marks : list mark }.
Inductive link := Inside | Child | Sibling.
Record complex := mkComplex { s_first : compound; s_more : list (link * compound) }.
Definition mark_ok (x : mark) : Prop := match x with Class w | Id w => word w end.
Definition compound_ok (k : compound) : Prop :=
  match k_name k with Some w => word w | None => k_marks k <> [] end /\ Forall mark_ok (k_marks k).
Definition mark_id (x : mark) : list str := match x with Id w => [w] | Class _ => [] end.
Definition compounds (s : complex) : list compound := s_first s :: map snd (s_more s).
(** At most one identifier: the compiler has a remark about several of them. *)
Definition complex_ok (s : complex) : Prop :=
  Forall compound_ok (compounds s)
  /\ (length (flat_map (fun k => flat_map mark_id (k_marks k)) (compounds s)) <= 1)%nat.
Definition mark_text (x : mark) : str := match x with Class w => zs "." ++ w | Id w => zs "#" ++ w end.
Definition compound_text (k : compound) : str :=
  match k_name k with Some w => w | None => [] end ++ flat_map mark_text (k_marks k).
Definition link_text (l : link) : str := match l with Inside => zs " " | Child => zs ">" | Sibling => zs "~" end.
Definition complex_text (s : complex) : str :=
  compound_text (s_first s) ++ flat_map (fun x => link_text (fst x) ++ compound_text (snd x)) (s_more s).

(** ** Rules and style sheets *)
Record rule := mkRule { r_selectors : list complex; r_decls : list decl }.
Definition rule_with (ok : value -> Prop) (r : rule) : Prop :=
  r_selectors r <> [] /\ Forall complex_ok (r_selectors r) /\ r_decls r <> [] /\ Forall (decl_with ok) (r_decls r).
Definition rule_ok : rule -> Prop := rule_with value_ok.
Definition rule_text (r : rule) : str :=
  joined (zs ",") (map complex_text (r_selectors r)) ++ zs "{" ++ joined (zs ";") (map decl_text (r_decls r)) ++ zs "}".
Definition sheet_text (l : list rule) : str := flat_map rule_text l.
