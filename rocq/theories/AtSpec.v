(** * At-rules that compile() takes away: what they mean *)

From Coq Require Import String ZArith List Bool.
From Verif Require Import Base NodeHeap.
From Verif Require Import Compile.
Import ListNotations.
Open Scope string_scope. Open Scope list_scope. Open Scope Z_scope.

(** The rules that write a message: name, level and the message when there is
    none in the rule. *)
Inductive speaks : str -> level -> string -> Prop :=
| speaks_error : speaks (zs "error") LError "@error reached"
| speaks_warning : speaks (zs "warning") LWarning "@warning reached"
| speaks_info : speaks (zs "info") LInfo "@message reached"
| speaks_message : speaks (zs "message") LInfo "@message reached"
| speaks_debug : speaks (zs "debug") LDebug "@debug reached".
(** What follows the name of the rule: nothing, a block or a value. *)
Inductive follows (h : heap) (c : cell) : option addr -> Prop :=
| follows_nothing : c_ch c = [] -> follows h c None
| follows_block b l k : c_ch c = b :: l -> nth_error h b = Some k -> c_type k = OPEN_CURLYBRACKET -> follows h c None
| follows_value e l k : c_ch c = e :: l -> nth_error h e = Some k -> c_type k <> OPEN_CURLYBRACKET -> follows h c (Some e).
(** The first [n] is gone. *)
Definition without (n : addr) (l l' : list addr) : Prop := exists a b, l = a ++ n :: b /\ ~ In n a /\ l' = a ++ b.

(** The encoding: utf-8 in any case, between white space. *)
Definition blank_byte (c : Z) : Prop := c = 32 \/ 9 <= c <= 13.
(** [d] is the lower case letter [c], or its upper case. *)
Definition same_letter (c d : Z) : Prop := d = c \/ (97 <= c <= 122 /\ d = c - 32).
Definition utf8_name (s : str) : Prop :=
  exists a t b, s = a ++ t ++ b /\ Forall blank_byte a /\ Forall blank_byte b /\ Forall2 same_letter (zs "utf-8") t.
(** [n] is a rule with one string, this one. *)
Definition one_string_is (h : heap) (c : cell) (s : str) : Prop :=
  exists a k, c_ch c = [a] /\ nth_error h a = Some k /\ c_type k = STRING /\ c_str k = s.

(** The messages of a list of such rules; [text] is the text of a node, which
    must only depend on nodes other than lists. *)
Definition says (text : heap -> addr -> str) (h : heap) (n : addr) (g : level * position * string) : Prop :=
  exists c o default, nth_error h n = Some c /\ c_type c = AT_KEYWORD /\ speaks (c_str c) (fst (fst g)) default /\ follows h c o
    /\ c_pos c = snd (fst g) /\ forall h', (forall b k', nth_error h b = Some k' -> c_type k' <> LIST -> nth_error h' b = Some k') ->
         snd g = match o with Some e => text_of (text h' e) | None => default end.
Definition to_msg (g : level * position * string) : msg := mkMsg (fst (fst g)) (snd (fst g)) (snd g).
