(** * The An+B grammar

    The texts accepted in :nth-child() and similar selectors, as documented at
    the top of nth_child.cpp except that the form without the constant ("2n")
    is not part of it. *)

From Coq Require Import ZArith List.
From Verif Require Import Base TextSpec.
Import ListNotations.
Open Scope Z_scope.

Definition spaces (l : list Z) : Prop := Forall (fun c => c = 32) l.
(** [c] is the upper case letter [up] or the same letter in lower case. *)
Definition letter (up c : Z) : Prop := c = up \/ c = up + 32.
Definition digits (l : list Z) : Prop := l <> [] /\ Forall digit l.

(** An optional sign, and a mandatory one. *)
Inductive opt_sign : list Z -> Z -> Prop :=
| os_none : opt_sign [] 1
| os_plus : opt_sign [43] 1
| os_minus : opt_sign [45] (-1).
Inductive must_sign : list Z -> Z -> Prop :=
| ms_plus : must_sign [43] 1
| ms_minus : must_sign [45] (-1).

(** [nth_text l a b]: the text [l] is an expression for An+B. *)
Inductive nth_text : list Z -> Z -> Z -> Prop :=
| nt_odd s1 o d1 d2 s2 : spaces s1 -> spaces s2 -> letter 79 o -> letter 68 d1 -> letter 68 d2 ->
    nth_text (s1 ++ [o; d1; d2] ++ s2) 2 1
| nt_even s1 e1 v e2 n s2 : spaces s1 -> spaces s2 -> letter 69 e1 -> letter 86 v -> letter 69 e2 -> letter 78 n ->
    nth_text (s1 ++ [e1; v; e2; n] ++ s2) 2 0
| nt_b s1 sg k s2 ds s3 : spaces s1 -> opt_sign sg k -> spaces s2 -> digits ds -> spaces s3 ->
    nth_text (s1 ++ sg ++ s2 ++ ds ++ s3) 0 (decimal ds * k)
| nt_ab s1 sg k s2 ds s3 n s4 sg' k' s5 ds' s6 :
    spaces s1 -> opt_sign sg k -> spaces s2 -> digits ds -> spaces s3 -> letter 78 n ->
    spaces s4 -> must_sign sg' k' -> spaces s5 -> digits ds' -> spaces s6 ->
    nth_text (s1 ++ sg ++ s2 ++ ds ++ s3 ++ [n] ++ s4 ++ sg' ++ s5 ++ ds' ++ s6)
             (decimal ds * k) (decimal ds' * k').
