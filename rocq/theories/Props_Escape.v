(** * C56: escape sequences stand for their character

    https://www.w3.org/TR/css-syntax-3/#consume-escaped-code-point *)

From Coq Require Import String ZArith List Bool Lia ZifyBool.
From Verif Require Import Base Utf8 Utf8Spec Lexer LexSpec Utf8Proofs LexerWp View OutText
  TextSpec RoundIdent Ops Props_Lexer Props_Round EscapeSpec RoundEscape.
Import ListNotations.
Open Scope string_scope. Open Scope list_scope. Open Scope Z_scope.
Ltac Zify.zify_post_hook ::= idtac.

(** A string, between double or single quotes, is read as one STRING token whose
    text is made of the characters its pieces stand for; the rest of the text is
    left to be read, and nothing is reported. *)
Theorem c56_strings : forall lm q l rest p,
  q = 34 \/ q = 39 -> well_written (fun c => c <> q) l (q :: normalize rest) -> Forall clean_char rest ->
  exists tok, reads_token lm (utf8s (q :: sources l ++ [q]) ++ utf8s rest) p tok rest
    /\ n_type tok = STRING /\ n_str tok = utf8s (map meaning l).
Proof.
  intros lm q l rest p Hq Hl Hr.
  destruct (string_pieces_back lm q l rest p Hq Hl Hr) as (s' & E & K & L).
  eexists. split; [exists s'; split; [exact E|]; split; [exact L|now apply holds_will_read]|].
  split; reflexivity.
Qed.
Print Assumptions c56_strings.

(** The same of identifiers. [(] would make it a function, [u+] may start a
    range of characters. *)
Theorem c56_identifiers : forall lm l rest p,
  starts_name l -> well_written name_char l (normalize rest) -> Forall clean_char rest ->
  ends_name (normalize rest) -> first (normalize rest) <> 40 -> first (normalize rest) <> 43 ->
  exists tok, reads_token lm (utf8s (sources l) ++ utf8s rest) p tok rest
    /\ n_type tok = IDENTIFIER /\ n_str tok = utf8s (map meaning l)
    /\ n_low tok = utf8s (map lower_char (map meaning l)).
Proof.
  intros lm l rest p Hs Hl Hr He H40 H43.
  destruct (ident_pieces_back lm l rest p Hs Hl Hr (ends_name_ends _ He)) as (s' & E & K & L).
  - now rewrite <- first_hd.
  - now rewrite <- first_hd.
  - exists (ident_tok (map meaning l) p). split; [exists s'; split; [exact E|]; split; [exact L|now apply holds_will_read]|].
    split; [reflexivity|]. split; reflexivity.
Qed.
Print Assumptions c56_identifiers.

(** The string made of \000041b\e9 and an escaped quote; \31 2x\! is the identifier 12x!. *)
Example c56_ex :
  let a := [Code (zs "000041") []; Plain 98; Code (zs "e9") [32]; Quoted 34] in
  let b := [Code (zs "31") [32]; Plain 50; Plain 120; Quoted 33] in
  (well_written (fun c => c <> 34) a (34 :: zs ";") /\ sources a = zs "\000041b\e9 \" ++ [34] /\ map meaning a = [65; 98; 233; 34])
  /\ (starts_name b /\ well_written name_char b (zs " {") /\ sources b = zs "\31 2x\!" /\ map meaning b = zs "12x!").
Proof.
  assert (W : forall c, 0 < c < 55296 -> writable c).
  { intros c H. unfold writable, scalar, nonchar. rewrite Z.mod_small by lia. lia. }
  assert (I : forall c, 32 <= c < 55296 -> inline c).
  { intros c H. split; [apply W; lia|lia]. }
  cbv zeta. split; split.
  - split; [|split; [|split; [|split; [|exact Logic.I]]]].
    + split; [cbn; lia|]. split; [repeat (constructor; [vm_compute; intuition discriminate|]); constructor|]. split; [apply W; vm_compute; now split|].
      left. split; [reflexivity|]. left. reflexivity.
    + split; [apply I; lia|]. lia.
    + split; [cbn; lia|]. split; [repeat (constructor; [vm_compute; intuition discriminate|]); constructor|]. split; [apply W; vm_compute; now split|].
      right. split; [cbn; lia|]. now left.
    + split; [apply I; lia|]. unfold hex_char, digit. lia.
  - split; reflexivity.
  - exact Logic.I.
  - split; [|split; reflexivity]. split; [|split; [|split; [|split; [|exact Logic.I]]]].
    + split; [cbn; lia|]. split; [repeat (constructor; [vm_compute; intuition discriminate|]); constructor|]. split; [apply W; vm_compute; now split|].
      right. split; [cbn; lia|]. now left.
    + split; [apply I; lia|]. unfold name_char, ascii_letter, digit. lia.
    + split; [apply I; lia|]. unfold name_char, ascii_letter, digit. lia.
    + split; [apply I; lia|]. unfold hex_char, digit. lia.
Qed.

(** A white space after six digits is part of the escape sequence in CSS; it is
    kept here: "\000041 b" gives "A b" instead of "Ab". *)
Theorem c56_six_digits_space_refuted : exists tok s',
  next_token some_libm (new_lexer ([34] ++ zs "\000041 b" ++ [34]) (new_position 1 1)) = Ret tok s'
  /\ n_type tok = STRING /\ n_str tok = zs "A b" /\ l_log s' = [].
Proof. eexists _, _. split; [vm_compute; reflexivity|]. split; [reflexivity|]. split; reflexivity. Qed.
Print Assumptions c56_six_digits_space_refuted.

(** An escaped newline in a string stands for nothing in CSS; the newline is
    kept here. *)
Theorem c56_newline_refuted : exists tok s',
  next_token some_libm (new_lexer [34; 97; 92; 10; 98; 34] (new_position 1 1)) = Ret tok s'
  /\ n_type tok = STRING /\ n_str tok = [97; 10; 98] /\ l_log s' = [].
Proof. eexists _, _. split; [vm_compute; reflexivity|]. split; [reflexivity|]. split; reflexivity. Qed.
Print Assumptions c56_newline_refuted.

(** An escaped U+FFFD disappears. *)
Theorem c56_replacement_refuted : exists tok s',
  next_token some_libm (new_lexer ([34] ++ zs "a\fffd b" ++ [34]) (new_position 1 1)) = Ret tok s'
  /\ n_type tok = STRING /\ n_str tok = zs "ab" /\ l_log s' = [].
Proof. eexists _, _. split; [vm_compute; reflexivity|]. split; [reflexivity|]. split; reflexivity. Qed.
Print Assumptions c56_replacement_refuted.
