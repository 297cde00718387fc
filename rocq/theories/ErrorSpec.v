(** * What the error log must count and show *)

From Coq Require Import ZArith List Bool.
From Verif Require Import Base ErrorLog.
Import ListNotations.

(** The options in force, and how the calls change them. *)
Record opts := mkOpts { o_as_errors : bool; o_hide : bool; o_debug : bool; o_verbose : bool }.
Definition opts_after (o : opts) (c : ecall) : opts :=
  match c with
  | CAsErrors b => mkOpts b (o_hide o) (o_debug o) (o_verbose o)
  | CHide b => mkOpts (o_as_errors o) b (o_debug o) (o_verbose o)
  | CShowDebug b => mkOpts (o_as_errors o) (o_hide o) b (o_verbose o)
  | CVerbose b => mkOpts (o_as_errors o) (o_hide o) (o_debug o) b
  | _ => o
  end.

(** The messages of a sequence of calls, each with the options in force. *)
Fixpoint messages (o : opts) (l : list ecall) : list (opts * emode) :=
  match l with
  | [] => []
  | CMode m :: r => (o, m) :: messages o r
  | c :: r => messages (opts_after o c) r
  end.

Definition is_error (x : opts * emode) : bool :=
  match snd x with
  | EError | EFatal => true
  | EWarning => o_as_errors (fst x)
  | _ => false
  end.
Definition is_warning (x : opts * emode) : bool :=
  match snd x with
  | EWarning => negb (o_as_errors (fst x)) && negb (o_hide (fst x))
  | _ => false
  end.
Definition is_shown (x : opts * emode) : bool :=
  match snd x with
  | EError | EFatal => true
  | EWarning => o_as_errors (fst x) || negb (o_hide (fst x))
  | EInfo => negb (o_hide (fst x))
  | EDebug => o_debug (fst x) && negb (o_hide (fst x))
  | EDec | EHex => false
  end.

(** How many messages satisfy [f]. *)
Definition how_many (f : opts * emode -> bool) (l : list (opts * emode)) : Z := Z.of_nat (length (filter f l)).

(** The messages that a program sends outside its counter guards, the options
    at the end and whether it ends with an exception. *)
Fixpoint outside (o : opts) (p : eprog) : list (opts * emode) * opts * bool :=
  match p with
  | PDone => ([], o, false)
  | PThrow => ([], o, true)
  | PCall c r =>
      let '(l, o', t) := outside (opts_after o c) r in
      (match c with CMode m => [(o, m)] | _ => [] end ++ l, o', t)
  | PSafe b r =>
      let '(_, o1, t1) := outside o b in
      if t1 then ([], o1, true) else outside o1 r
  | PStream _ b r =>
      let '(l1, o1, t1) := outside o b in
      if t1 then (l1, o1, true) else let '(l2, o2, t2) := outside o1 r in (l1 ++ l2, o2, t2)
  end.
