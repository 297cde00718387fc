(** * Specification of argument lists: segments between separators *)

From Coq Require Import ZArith List Bool.
From Verif Require Import Base.
Import ListNotations.

Definition space (n : node) : bool := ntype_eqb (n_type n) WHITESPACE.
(** The segments of a list between the separators (one more than there are
    separators). *)
Fixpoint segments (sep : ntype) (l : list node) : list (list node) :=
  match l with
  | [] => [[]]
  | x :: r =>
      if ntype_eqb (n_type x) sep then [] :: segments sep r
      else match segments sep r with
           | s :: t => (x :: s) :: t
           | [] => [[x]]
           end
  end.
(** Only white space. *)
Definition blank (l : list node) : bool := forallb space l.
Fixpoint trim_left (l : list node) : list node :=
  match l with [] => [] | x :: r => if space x then trim_left r else l end.
Definition trim (l : list node) : list node := rev (trim_left (rev (trim_left l))).
(** What node::add_child guarantees of any list of children: no EOF_TOKEN and
    no two white spaces in a row. *)
Fixpoint child_list (l : list node) : bool :=
  match l with
  | [] => true
  | x :: r => negb (ntype_eqb (n_type x) EOF_TOKEN)
              && negb (space x && match r with y :: _ => space y | [] => false end)
              && child_list r
  end.
