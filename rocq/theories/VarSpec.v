(** * Style sheets with variables

    A script is a list of statements: a variable set to some values, or a rule of
    WholeSpec.v in whose values variables may be used. Here: its text, its
    layouts, and the same script with the values of the variables. Nothing here
    knows about the lexer, the parser, the compiler or the assembler. *)

From Coq Require Import String ZArith List Bool.
From Verif Require Import Base WholeSpec LaySpec.
Import ListNotations.
Open Scope string_scope. Open Scope list_scope. Open Scope Z_scope.

Inductive statement := Set_to (name : str) (g : list value) | Style (r : rule).
Definition statement_ok (s : statement) : Prop :=
  match s with
  | Set_to w g => variable_name w /\ g <> [] /\ Forall script_value g
  | Style r => rule_with script_value r
  end.

(** ** Text and layouts *)
Definition statement_text (s : statement) : str :=
  match s with
  | Set_to w g => zs "$" ++ w ++ zs ":" ++ group_text g ++ zs ";"
  | Style r => rule_text r
  end.
Definition script_text (l : list statement) : str := flat_map statement_text l.
Definition statement_laid (s : statement) : lang Z :=
  match s with
  | Set_to w g => this (zs "$" ++ w) # around ":" # group_laid g # gap # this (zs ";")
  | Style r => rule_laid r
  end.
Definition script_laid (l : list statement) : lang Z := gap # each (map (fun s => statement_laid s # gap) l).

(** ** The values of the variables: those of the last statement which set them *)
Definition env := str -> option (list value).
Definition unset : env := fun _ => None.
Definition set_to (e : env) (w : str) (g : list value) : env :=
  fun x => if str_eqb (variable_key x) (variable_key w) then Some g else e x.
Fixpoint all {A B} (f : A -> option B) (l : list A) : option (list B) :=
  match l with
  | [] => Some []
  | x :: r => match f x, all f r with Some y, Some z => Some (y :: z) | _, _ => None end
  end.
(** [None]: a variable is not set. *)
Definition value_in (e : env) (v : value) : option (list value) :=
  match v with Var w => e w | _ => Some [v] end.
Definition group_in (e : env) (g : list value) : option (list value) := option_map (@concat value) (all (value_in e) g).
Definition decl_in (e : env) (d : decl) : option decl :=
  option_map (fun gs => mkDecl (d_name d) gs (d_important d)) (all (group_in e) (d_groups d)).
Definition rule_in (e : env) (r : rule) : option rule := option_map (mkRule (r_selectors r)) (all (decl_in e) (r_decls r)).
(** The script with each variable replaced by its value. *)
Fixpoint resolve (e : env) (l : list statement) : option (list statement) :=
  match l with
  | [] => Some []
  | Set_to w g :: r =>
      match group_in e g with
      | Some v => option_map (cons (Set_to w v)) (resolve (set_to e w v) r)
      | None => None
      end
  | Style x :: r =>
      match rule_in e x with
      | Some y => option_map (cons (Style y)) (resolve e r)
      | None => None
      end
  end.
(** Its rules. *)
Fixpoint styles (l : list statement) : list rule :=
  match l with [] => [] | Set_to _ _ :: r => styles r | Style x :: r => x :: styles r end.
