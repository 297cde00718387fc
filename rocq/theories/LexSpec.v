(** * What it means to use the lexer

    Vocabulary of the statements about the lexer: byte strings, sequences of
    calls to next_token, number of characters not read yet. *)

From Coq Require Import ZArith List Bool.
From Verif Require Import Base Utf8Spec Lexer.
Import ListNotations.
Open Scope Z_scope.

Definition bytes (l : list Z) : Prop := Forall (fun b => 0 <= b < 256) l.

(** [calls lm s toks s'] : starting from [s], successive calls to
    [next_token] returned the tokens [toks] and left the lexer in [s']. *)
Inductive calls (lm : libm) : lexst -> list node -> lexst -> Prop :=
| calls_none s : calls lm s [] s
| calls_next s toks s1 n s2 :
    calls lm s toks s1 -> next_token lm s1 = Ret n s2 -> calls lm s (toks ++ [n]) s2.

(** A lexer that was created on [input] and asked for any number of tokens. *)
Definition reachable (lm : libm) (input : list Z) (p : position) (s : lexst) : Prop :=
  exists toks, calls lm (new_lexer input p) toks s.

(** Bytes and pushed back characters which are still to be read. *)
Definition remaining (s : lexst) : nat := length (l_in s) + length (l_unget s).

(** Number of errors reported so far. *)
Definition error_count (s : lexst) : nat := length (filter is_error (l_log s)).

(** Successive calls to ungetc, then to getc. *)
Fixpoint unget_all (cs : list Z) : M unit :=
  match cs with
  | [] => ret tt
  | c :: r => ungetc c ;;; unget_all r
  end.
Fixpoint get_many (n : nat) : M (list Z) :=
  match n with
  | O => ret []
  | S k => c <- getc ;; r <- get_many k ;; ret (c :: r)
  end.

(** Reading the characters one by one from [s] gives the text [v], then EOF. *)
Definition will_read (s : lexst) (v : list Z) : Prop :=
  exists s', get_many (length v) s = Ret v s' /\ getc s' = Ret (-1) s'.

(** [next_token] on [input] returns the token [tok] without any message and
    leaves exactly the characters [rest] (with line terminators normalized, as
    always) to be read. *)
Definition reads_token (lm : libm) (input : list Z) (p : position) (tok : node) (rest : list Z) : Prop :=
  exists s', next_token lm (new_lexer input p) = Ret tok s'
             /\ l_log s' = [] /\ will_read s' (normalize rest).
