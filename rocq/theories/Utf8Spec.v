(** * UTF-8 and line terminators, specified on their own

    Nothing here refers to the model of the code: these are the definitions a
    reader can check against the Unicode standard (table 3-6). *)

From Coq Require Import ZArith List Bool.
Import ListNotations.
Open Scope Z_scope.

(** Unicode scalar values. *)
Definition scalar (c : Z) : Prop := 0 <= c < 55296 \/ 57344 <= c < 1114112.
(** Non-characters excluded by csspp: U+xxFFFE and U+xxFFFF. *)
Definition nonchar (c : Z) : Prop := c mod 65536 = 65534 \/ c mod 65536 = 65535.

(** The UTF-8 encoding form. *)
Definition utf8 (c : Z) : list Z :=
  if c <? 128 then [c]
  else if c <? 2048 then [192 + c / 64; 128 + c mod 64]
  else if c <? 65536 then [224 + c / 4096; 128 + c / 64 mod 64; 128 + c mod 64]
  else [240 + c / 262144; 128 + c / 4096 mod 64; 128 + c / 64 mod 64; 128 + c mod 64].

Definition utf8s (l : list Z) : list Z := flat_map utf8 l.

(** A text without the NUL and U+FFFD characters (the lexer turns the former
    into the latter, which it uses as an error marker). *)
Definition clean_char (c : Z) : Prop := scalar c /\ c <> 0 /\ c <> 65533.
Definition clean_text (bytes : list Z) : Prop :=
  exists l, Forall clean_char l /\ bytes = utf8s l.

(** Number of line terminators in a text: LF, CR, and CR LF as one. *)
Fixpoint terminators (l : list Z) : Z :=
  match l with
  | [] => 0
  | c :: r =>
      if c =? 10 then 1 + terminators r
      else if c =? 13 then
        match r with
        | d :: _ => if d =? 10 then terminators r else 1 + terminators r
        | [] => 1
        end
      else terminators r
  end.
(** Number of form feeds. *)
Fixpoint form_feeds (l : list Z) : Z :=
  match l with
  | [] => 0
  | c :: r => (if c =? 12 then 1 else 0) + form_feeds r
  end.
(** Number of line terminators after the last form feed, if there is one. *)
Fixpoint since_form_feed (l : list Z) : option Z :=
  match l with
  | [] => None
  | c :: r =>
      match since_form_feed r with
      | Some n => Some n
      | None => if c =? 12 then Some (terminators r) else None
      end
  end.

(** Text as seen by the tokenizer: line terminators and form feeds are one LF
    (CSS syntax, "preprocessing the input stream"). *)
Fixpoint normalize (l : list Z) : list Z :=
  match l with
  | [] => []
  | c :: r =>
      if c =? 13 then
        match r with
        | d :: _ => if d =? 10 then normalize r else 10 :: normalize r
        | [] => [10]
        end
      else if c =? 12 then 10 :: normalize r
      else c :: normalize r
  end.

(** Position (page, line, total line) reached after reading a text from a
    given position: line terminators count lines, a form feed starts a new page
    whose first line is 1. *)
Definition page_after (page : Z) (text : list Z) : Z := page + form_feeds text.
Definition line_after (line : Z) (text : list Z) : Z :=
  match since_form_feed text with
  | Some n => 1 + n
  | None => line + terminators text
  end.
Definition total_after (total : Z) (text : list Z) : Z := total + terminators text.

(** The cut between two texts is not in the middle of a CR LF. *)
Definition no_crlf_split (a b : list Z) : Prop :=
  ~ (exists a' b', a = a' ++ [13] /\ b = 10 :: b').
