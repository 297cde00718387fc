(** * Escape sequences

    The text of a string or of an identifier is a list of pieces; each one
    stands for one character (https://www.w3.org/TR/css-syntax-3/#consume-escaped-code-point). *)

From Coq Require Import ZArith List Bool.
From Verif Require Import Base Utf8Spec TextSpec.
Import ListNotations.
Open Scope Z_scope.

Inductive piece :=
| Plain (c : Z)                                  (* the character itself *)
| Quoted (c : Z)                                 (* \ and a character which is not an hexadecimal digit *)
| Code (ds : list Z) (space : list Z).           (* \, hexadecimal digits and perhaps a white space *)

Definition hex_digit (d : Z) : Z := if d <=? 57 then d - 48 else if d <=? 70 then d - 55 else d - 87.
Definition hex_number (ds : list Z) : Z := fold_left (fun a d => 16 * a + hex_digit d) ds 0.

Definition source (p : piece) : list Z :=
  match p with
  | Plain c => [c]
  | Quoted c => [92; c]
  | Code ds sp => 92 :: ds ++ sp
  end.
Definition sources (l : list piece) : list Z := flat_map source l.
Definition meaning (p : piece) : Z :=
  match p with Plain c | Quoted c => c | Code ds _ => hex_number ds end.

(** The piece is written properly when followed by the character [next] (-1 at
    the end): a code has one to six digits; it ends with a white space, after the
    sixth digit, or before a character which is neither a digit nor a white
    space. [plain] are the characters that stand for themselves. *)
Definition proper (plain : Z -> Prop) (p : piece) (next : Z) : Prop :=
  match p with
  | Plain c => inline c /\ c <> 92 /\ plain c
  | Quoted c => inline c /\ ~ hex_char c
  | Code ds sp =>
      (1 <= length ds <= 6)%nat /\ Forall hex_char ds /\ writable (hex_number ds)
      /\ ((sp = [] /\ (length ds = 6%nat \/ (~ hex_char next /\ ~ blank next)))
          \/ ((length ds < 6)%nat /\ (sp = [32] \/ sp = [9])))
  end.
Fixpoint well_written (plain : Z -> Prop) (l : list piece) (after : list Z) : Prop :=
  match l with
  | [] => True
  | p :: r => proper plain p (first (sources r ++ after)) /\ well_written plain r after
  end.

(** A name: the first piece is a letter, an underscore, a character which is
    not ASCII, or an escape sequence. *)
Definition starts_name (l : list piece) : Prop :=
  match l with [] => False | Plain c :: _ => ascii_letter c \/ c = 95 \/ 128 <= c | _ => True end.
