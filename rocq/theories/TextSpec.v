(** * Vocabulary of the round trip properties

    Characters and texts, independently of the lexer. *)

From Coq Require Import ZArith List Bool.
From Verif Require Import Base Utf8Spec.
Import ListNotations.
Open Scope Z_scope.

Definition digit (c : Z) : Prop := 48 <= c <= 57.
Definition hex_char (c : Z) : Prop := digit c \/ 65 <= c <= 70 \/ 97 <= c <= 102.
Definition ascii_letter (c : Z) : Prop := 65 <= c <= 90 \/ 97 <= c <= 122.
(** Characters of names: letters, digits, - and _, and all that is not ASCII. *)
Definition name_char (c : Z) : Prop := ascii_letter c \/ digit c \/ c = 45 \/ c = 95 \/ 128 <= c.
(** Variable names. *)
Definition variable_char (c : Z) : Prop := ascii_letter c \/ digit c \/ c = 45 \/ c = 95.
Definition blank (c : Z) : Prop := c = 32 \/ c = 9 \/ c = 10.
Definition lower_char (c : Z) : Z := if (65 <=? c) && (c <=? 90) then c + 32 else c.

(** Characters that can be written in a CSS text: Unicode scalar values other
    than NUL, the replacement character and non-characters. *)
Definition writable (c : Z) : Prop := scalar c /\ c <> 0 /\ ~ nonchar c /\ c <> 65533.
(** The same without the line terminators LF, FF and CR. *)
Definition inline (c : Z) : Prop := writable c /\ c <> 10 /\ c <> 12 /\ c <> 13.

(** First character of a text; -1 for an empty text. *)
Definition first (l : list Z) : Z := match l with [] => -1 | c :: _ => c end.
Definition after (l : list Z) : list Z := match l with [] => [] | _ :: r => r end.

(** Value of a string of decimal digits. *)
Definition decimal (ds : list Z) : Z := fold_left (fun a d => 10 * a + (d - 48)) ds 0.

(** [rest] does not continue a name. *)
Definition ends_name (rest : list Z) : Prop := ~ name_char (first rest) /\ first rest <> 92.

(** Operators of one character, with their token. *)
Definition operators : list (Z * ntype) :=
  [ (61, EQUAL); (44, COMMA); (58, COLON); (59, SEMICOLON); (33, EXCLAMATION); (63, CONDITIONAL);
    (62, GREATER_THAN); (40, OPEN_PARENTHESIS); (41, CLOSE_PARENTHESIS); (91, OPEN_SQUAREBRACKET);
    (93, CLOSE_SQUAREBRACKET); (123, OPEN_CURLYBRACKET); (125, CLOSE_CURLYBRACKET); (46, PERIOD);
    (38, REFERENCE); (60, LESS_THAN); (43, ADD); (45, SUBTRACT); (36, DOLLAR); (126, PRECEDED);
    (42, MULTIPLY); (124, SCOPE); (47, DIVIDE) ].

(** Operators of two to four characters. *)
Definition long_operators : list (list Z * ntype) :=
  [ ([58; 61], ASSIGNMENT); ([33; 61], NOT_EQUAL); ([62; 61], GREATER_EQUAL); ([38; 38], AND);
    ([60; 33; 45; 45], CDO); ([60; 61], LESS_EQUAL); ([45; 45; 62], CDC); ([94; 61], PREFIX_MATCH);
    ([36; 61], SUFFIX_MATCH); ([126; 61], INCLUDE_MATCH); ([42; 61], SUBSTRING_MATCH); ([42; 42], POWER);
    ([124; 124], COLUMN); ([124; 61], DASH_MATCH) ].

(** The character [c] followed by the text [v] starts a longer token. *)
Definition starts_longer (c : Z) (v : list Z) : Prop :=
  let n := first v in
  let m := first (after v) in
  (In c [61; 58; 33; 62; 60; 36; 126; 42; 124] /\ n = 61)         (* == := != >= <= $= ~= *= |= *)
  \/ (In c [46; 43; 45] /\ digit n)                                (* .5 +5 -5 *)
  \/ (In c [43; 45] /\ n = 46 /\ digit m)                          (* +.5 -.5 *)
  \/ (In c [38; 42; 124] /\ n = c)                                 (* && ** || *)
  \/ (c = 60 /\ n = 33 /\ m = 45 /\ first (after (after v)) = 45)  (* <!-- *)
  \/ (c = 45 /\ n = 45 /\ m = 62)                                  (* --> *)
  \/ (c = 45 /\ n <> 45 /\ (name_char n \/ n = 92))                (* -name *)
  \/ (c = 36 /\ variable_char n)                                   (* $name *)
  \/ (c = 47 /\ (n = 42 \/ n = 47)).                               (* comments *)

(** The unit [u], written after the digits of a number and followed by [rest],
    is complete and is not an exponent. *)
Definition unit_between (u rest : list Z) : Prop :=
  Forall name_char u /\ Forall writable u /\ ends_name rest /\ u <> [45]
  /\ match u with
     | [] => first rest <> 46 /\ first rest <> 37
     | c :: t => ~ digit c /\
         (c = 101 \/ c = 69 -> ~ digit (first (t ++ rest)) /\ first (t ++ rest) <> 43 /\ first (t ++ rest) <> 45)
     end.

(** The name [l] is well separated from [rest]. *)
Definition name_ends (l rest : list Z) : Prop :=
  ends_name rest /\ first rest <> 40
  /\ (l = [117] \/ l = [85] -> first rest <> 43)      (* u+ and U+ start a unicode range *)
  /\ (forall d, l = [d] -> digit d -> ~ blank (first rest)).

(** Characters that make the assembler quote a URL. *)
Definition quoted_in_url (c : Z) : Prop :=
  c = 40 \/ c = 41 \/ c = 39 \/ c = 34 \/ c = 8 \/ c = 11 \/ 14 <= c <= 31 \/ c = 127.
