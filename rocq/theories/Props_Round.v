(** * Properties C08 to C14: what is written can be read back *)

From Coq Require Import String ZArith List Bool Lia ZifyBool.
From Verif Require Import Base Utf8 Utf8Spec UnicodeRange Lexer LexSpec Utf8Proofs UrangeProofs LexerWp View OutText
  TextSpec RoundString RoundUrl RoundIdent RoundInt RoundRange Ops Props_Lexer.
Import ListNotations.
Open Scope string_scope. Open Scope list_scope. Open Scope Z_scope.
Ltac Zify.zify_post_hook ::= idtac.

(** ** From the proofs to the vocabulary of the statements *)
Lemma holds_will_read s v : holds s v -> will_read s v.
Proof.
  revert s. induction v as [|c v IH]; intros s H.
  - exists s. split; [reflexivity|]. destruct H as (l & Hl & Hi & Hv & Hu).
    symmetry in Hv. apply app_eq_nil in Hv. destruct Hv as [Hv Hn].
    assert (l = []).
    { destruct l as [|c l]; [reflexivity|]. exfalso. cbn [normalize] in Hn.
      clear Hl Hi. revert c Hn. induction l as [|d l IH]; intros c Hn.
      - destruct (c =? 13); [discriminate|]. destruct (c =? 12); discriminate.
      - destruct (c =? 13).
        + destruct (d =? 10); [|discriminate]. cbn [normalize] in Hn. now apply IH in Hn.
        + destruct (c =? 12); discriminate. }
    subst l. unfold getc. rewrite Hv, Hi. reflexivity.
  - destruct (runs_getc (l_start s) (dep s) (c :: v) s H (le_n _) eq_refl) as (s1 & E & K & _).
    destruct (IH s1 K) as (s2 & E2 & E3). exists s2. split; [|assumption].
    cbn [length get_many]. unfold bind, ret. cbn [hd] in E. rewrite E, E2. reflexivity.
Qed.

Lemma first_hd l : first l = hd (-1) l. Proof. destruct l; reflexivity. Qed.
Lemma after_tl l : after l = tl l. Proof. destruct l; reflexivity. Qed.

Lemma digit_is c : is_digit c = true <-> digit c. Proof. unfold digit. chars. Qed.
Lemma digit_not c : is_digit c = false <-> ~ digit c. Proof. unfold digit. chars. Qed.
Lemma name_is c : is_identifier c = true <-> name_char c.
Proof. unfold name_char, ascii_letter, digit. chars. Qed.
Lemma name_not c : is_identifier c = false <-> ~ name_char c.
Proof. unfold name_char, ascii_letter, digit. chars. Qed.
Lemma hex_not c : is_hex c = false <-> ~ hex_char c.
Proof. unfold hex_char, digit. chars. Qed.
Lemma variable_is c : is_variable c = true <-> variable_char c.
Proof. unfold variable_char, ascii_letter, digit. chars. Qed.
Lemma blank_not c : is_space c = false <-> ~ blank c. Proof. unfold blank. chars. Qed.
Lemma lower_is c : lower_char c = tolower c. Proof. reflexivity. Qed.

Lemma inline_text l : Forall inline l -> Forall textc l.
Proof. apply Forall_impl. unfold inline, writable, textc, encodable. tauto. Qed.

Lemma ends_name_ends rest : ends_name rest -> ends_ident rest.
Proof.
  unfold ends_name, ends_ident. destruct rest; [auto|]. cbn [first]. rewrite <- name_not. auto.
Qed.

Lemma inline_small c : 31 < c < 55296 -> inline c.
Proof.
  intro H. unfold inline, writable, scalar, nonchar. rewrite Z.mod_small by lia. lia.
Qed.
Ltac inlines := repeat (apply Forall_cons; [apply inline_small; lia|]); apply Forall_nil.

(** ** C08 *)

(** Every string of decimal digits (leading zeroes included) whose value is at
    most 2^63-1, with or without a sign, with or without a unit. The flag of
    the token says whether there was a sign. *)
Theorem c08_integers : forall lm sign ds u rest p,
  (sign = [] \/ sign = [43] \/ sign = [45]) ->
  ds <> [] -> Forall digit ds -> decimal ds <= 9223372036854775807 ->
  unit_between u (normalize rest) -> Forall clean_char rest ->
  exists tok, reads_token lm (sign ++ ds ++ utf8s u ++ utf8s rest) p tok rest
    /\ n_type tok = INTEGER
    /\ n_int tok = (if list_eq_dec Z.eq_dec sign [45] then - decimal ds else decimal ds)
    /\ n_str tok = utf8s (map lower_char u).
Proof.
  intros lm sign ds u rest p Hsg Hn Hds Hmax (U1 & U2 & U3 & U4 & U5) Hr.
  set (sg := match sign with [] => 0 | c :: _ => c end).
  assert (Hs : sign = sign_text sg) by (destruct Hsg as [->|[->| ->]]; reflexivity).
  destruct (int_back lm sg ds u rest p) as (s' & E & K & L); auto.
  - destruct Hsg as [->|[->| ->]]; cbn; auto.
  - revert Hds. apply Forall_impl. intro. apply digit_is.
  - unfold dec_value. fold (decimal ds). lia.
  - intro Hin. rewrite Forall_forall in U2. destruct (U2 _ Hin) as (_ & _ & _ & C). now apply C.
  - unfold unit_ok. split; [|split; [|split]]; auto.
    + apply Forall_forall. intros c Hc. rewrite Forall_forall in U1, U2.
      specialize (U1 c Hc). specialize (U2 c Hc). unfold writable in U2. unfold encodable.
      rewrite name_is. tauto.
    + now apply ends_name_ends.
    + destruct u as [|c t]; rewrite <- first_hd; [assumption|]. destruct U5 as [U5 U6].
      split; [now apply digit_not|]. intro Hc. cbv zeta. specialize (U6 Hc). rewrite digit_not. assumption.
  - eexists. split; [|split; [|split]].
    + rewrite Hs. exists s'. split; [exact E|]. split; [exact L|]. now apply holds_will_read.
    + reflexivity.
    + cbn [int_tok set_int set_str set_bool n_int mk].
      change (dec_value 0 ds) with (decimal ds).
      destruct (list_eq_dec Z.eq_dec sign [45]) as [D|D].
      * subst sg sign. change (sign_val 45) with (-1). lia.
      * destruct Hsg as [->|[->| ->]]; subst sg; [change (sign_val 0) with 1|change (sign_val 43) with 1|congruence]; lia.
    + reflexivity.
Qed.
Print Assumptions c08_integers.

Example c08_ex : decimal (zs "9223372036854775807") = 9223372036854775807
  /\ unit_between (zs "em") (zs ";") /\ unit_between [] (zs " ").
Proof.
  split; [reflexivity|]. unfold unit_between, ends_name, name_char, ascii_letter, digit.
  cbn. repeat split; repeat constructor; try lia; try discriminate;
    unfold writable, scalar, nonchar; change (101 mod 65536) with 101; change (109 mod 65536) with 109; lia.
Qed.

(** 2^63 is reported and, when negated, is undefined behaviour. *)
Theorem c08_too_large_refuted : exists s' m,
  next_token some_libm (new_lexer (zs "9223372036854775808") (new_position 1 1)) = Ret m s'
  /\ n_int m = -9223372036854775808 /\ error_count s' = 1%nat.
Proof. eexists _, _. split; [vm_compute; reflexivity|]. split; reflexivity. Qed.
Print Assumptions c08_too_large_refuted.

(** ** C09 *)
Theorem c09_identifiers_partial : forall lm l rest p,
  l <> [] -> Forall inline l -> Forall clean_char rest -> name_ends l (normalize rest) ->
  exists text tok, escape_id (utf8s l) = Some text
    /\ reads_token lm (text ++ utf8s rest) p tok rest
    /\ n_type tok = IDENTIFIER /\ n_str tok = utf8s l /\ n_low tok = utf8s (map lower_char l).
Proof.
  intros lm l rest p Hn Hl Hr (N1 & N2 & N3 & N4).
  destruct (ident_back lm l rest p Hn (inline_text l Hl) Hr) as (text & s' & E & F & K & L).
  - pose proof (ends_name_ends _ N1) as N5.
    unfold separated. destruct (normalize rest) as [|n v]; [exact I|]. cbn [first] in *. destruct N5 as [N5 N6].
    repeat split; auto. intro Hd. apply blank_not.
    destruct l as [|d [|x l]]; try contradiction. apply (N4 d); [reflexivity|]. now apply digit_is.
  - exists text, (ident_tok l p). repeat split; auto. exists s'. split; [exact F|]. split; [exact L|].
    now apply holds_will_read.
Qed.
Print Assumptions c09_identifiers_partial.

Example c09_ex : Forall inline [51; 33; 233; 97] /\ name_ends [51; 33; 233; 97] (zs " {")
  /\ escape_id (utf8s [51; 33; 233; 97]) = Some (zs "\33\!" ++ [195; 169; 97]).
Proof.
  split; [|split; [|reflexivity]].
  - inlines.
  - unfold name_ends, ends_name, name_char, ascii_letter, digit, blank. cbn.
    repeat split; try lia; intros; discriminate.
Qed.

(** A one digit identifier followed by white space: the escape swallows the
    white space and the next identifier is glued to it. *)
Theorem c09_digit_space_refuted : exists text tok s',
  escape_id (zs "5") = Some text
  /\ next_token some_libm (new_lexer (text ++ zs " b") (new_position 1 1)) = Ret tok s'
  /\ n_type tok = IDENTIFIER /\ n_str tok = zs "5b".
Proof. eexists _, _, _. split; [reflexivity|]. split; [vm_compute; reflexivity|]. split; reflexivity. Qed.
Print Assumptions c09_digit_space_refuted.

(** An identifier with a line feed (written "\a " in a source). *)
Theorem c09_newline_refuted : exists text tok s',
  escape_id [97; 10; 98] = Some text
  /\ next_token some_libm (new_lexer text (new_position 1 1)) = Ret tok s'
  /\ n_str tok = zs "a" /\ error_count s' = 1%nat.
Proof. eexists _, _, _. split; [reflexivity|]. split; [vm_compute; reflexivity|]. split; reflexivity. Qed.
Print Assumptions c09_newline_refuted.

(** ** C10 *)
Theorem c10_strings_partial : forall lm l rest p,
  Forall inline l -> ~ In 92 l -> Forall clean_char rest ->
  exists tok, reads_token lm (output_string (utf8s l) ++ utf8s rest) p tok rest
    /\ n_type tok = STRING /\ n_str tok = utf8s l.
Proof.
  intros lm l rest p Hl H92 Hr.
  destruct (string_back lm l rest p (inline_text l Hl) H92 Hr) as (s' & E & K & L).
  eexists. split; [exists s'; split; [exact E|]; split; [exact L|now apply holds_will_read]|].
  split; reflexivity.
Qed.
Print Assumptions c10_strings_partial.

Example c10_ex : Forall inline [39; 34; 34; 233] /\ ~ In 92 [39; 34; 34; 233]
  /\ output_string (utf8s [39; 34; 34; 233]) = [39; 92; 39; 34; 34; 195; 169; 39].
Proof.
  split; [|split; [cbn; lia|reflexivity]].
  inlines.
Qed.

(** A backslash is written as is: "a\b" is read back as a, U+000B. *)
Theorem c10_backslash_refuted : exists tok s',
  next_token some_libm (new_lexer (output_string [97; 92; 98]) (new_position 1 1)) = Ret tok s'
  /\ n_type tok = STRING /\ n_str tok = [97; 11].
Proof. eexists _, _. split; [vm_compute; reflexivity|]. split; reflexivity. Qed.
Print Assumptions c10_backslash_refuted.

(** A line feed makes an unterminated string. *)
Theorem c10_newline_refuted : exists tok s',
  next_token some_libm (new_lexer (output_string [97; 10; 98]) (new_position 1 1)) = Ret tok s'
  /\ n_str tok = [97] /\ error_count s' = 1%nat.
Proof. eexists _, _. split; [vm_compute; reflexivity|]. split; reflexivity. Qed.
Print Assumptions c10_newline_refuted.

(** ** C11 *)

(** Without any character that needs quotes; blanks are the exception. *)
Theorem c11_direct_partial : forall lm spaces l rest p,
  l <> [] -> Forall inline l -> Forall (fun c => ~ quoted_in_url c) l -> ~ In 32 l -> ~ In 9 l ->
  Forall clean_char rest ->
  exists tok, reads_token lm (output_url spaces (utf8s l) ++ utf8s rest) p tok rest
    /\ n_type tok = URL /\ n_str tok = utf8s l.
Proof.
  intros lm spaces l rest p Hn Hl Hq H32 H9 Hr.
  assert (Hd : Forall direct_char l).
  { apply inline_text in Hl. rewrite Forall_forall in *. intros c Hc. split; [now apply Hl|].
    split; [now apply Hq|]. split; intros ->; auto. }
  destruct (url_direct_back lm spaces l rest p Hn Hd Hr) as (s' & E & K & L).
  eexists. split; [exists s'; split; [exact E|]; split; [exact L|now apply holds_will_read]|].
  split; reflexivity.
Qed.
Print Assumptions c11_direct_partial.

(** With a character that needs quotes; a backslash is the exception. *)
Theorem c11_quoted_partial : forall lm spaces l rest p,
  Forall inline l -> Exists quoted_in_url l -> ~ In 92 l -> Forall clean_char rest ->
  exists tok, reads_token lm (output_url spaces (utf8s l) ++ utf8s rest) p tok rest
    /\ n_type tok = URL /\ n_str tok = utf8s l.
Proof.
  intros lm spaces l rest p Hl Hq H92 Hr.
  destruct (url_quoted_back lm spaces l rest p (inline_text l Hl) Hq H92 Hr) as (s' & E & K & L).
  eexists. split; [exists s'; split; [exact E|]; split; [exact L|now apply holds_will_read]|].
  split; reflexivity.
Qed.
Print Assumptions c11_quoted_partial.

Example c11_ex : Forall inline (zs "a/b.png?x=\2") /\ Exists quoted_in_url (zs "a (1).png")
  /\ output_url false (zs "a/b.png?x=\2") = zs "url(a/b.png?x=\2)"
  /\ output_url true (zs "a (1).png") = zs "url( " ++ [34] ++ zs "a (1).png" ++ [34] ++ zs " )".
Proof.
  split; [|split; [|split; reflexivity]].
  - vm_compute zs; inlines.
  - apply Exists_exists. exists 40. split; [cbn; tauto|unfold quoted_in_url; lia].
Qed.

(** The empty URL: "url()" swallows the text that follows. *)
Theorem c11_empty_refuted : exists tok s',
  next_token some_libm (new_lexer (output_url false [] ++ zs ";b{c:d}") (new_position 1 1)) = Ret tok s'
  /\ n_type tok = URL /\ n_str tok = zs ");b{c:d}".
Proof. eexists _, _. split; [vm_compute; reflexivity|]. split; reflexivity. Qed.
Print Assumptions c11_empty_refuted.

(** A URL with a space is not quoted. *)
Theorem c11_space_refuted : exists tok s',
  next_token some_libm (new_lexer (output_url false (zs "a b")) (new_position 1 1)) = Ret tok s'
  /\ n_str tok = zs "a" /\ error_count s' = 1%nat.
Proof. eexists _, _. split; [vm_compute; reflexivity|]. split; reflexivity. Qed.
Print Assumptions c11_space_refuted.

(** ** C12 *)
Theorem c12_operators_partial : forall lm c t rest p,
  In (c, t) operators -> Forall clean_char rest -> ~ starts_longer c (normalize rest) ->
  exists tok, reads_token lm (c :: utf8s rest) p tok rest /\ n_type tok = t.
Proof.
  intros lm c t rest p Hin Hr Hl.
  destruct (operator_back lm c t rest p Hin Hr) as (s' & E & K & L).
  - intro H. apply Hl. revert H. unfold longer, starts_longer. cbv zeta.
    change after with (@tl Z). change first with (@hd Z (-1)). pose proof (digit_is (hd (-1) (normalize rest))).
    pose proof (digit_is (hd (-1) (tl (normalize rest)))). pose proof (name_is (hd (-1) (normalize rest))).
    pose proof (variable_is (hd (-1) (normalize rest))).
    intro Hx. repeat (destruct Hx as [Hx|Hx]; [left; tauto|right]). tauto.
  - eexists. split; [exists s'; split; [exact E|]; split; [exact L|now apply holds_will_read]|reflexivity].
Qed.
Print Assumptions c12_operators_partial.

Theorem c12_long_operators : forall lm a t rest p,
  In (a, t) long_operators -> Forall clean_char rest ->
  exists tok, reads_token lm (a ++ utf8s rest) p tok rest /\ n_type tok = t.
Proof.
  intros lm a t rest p Hin Hr.
  destruct (long_operator_back lm a t rest p Hin Hr) as (s' & E & K & L).
  eexists. split; [exists s'; split; [exact E|]; split; [exact L|now apply holds_will_read]|reflexivity].
Qed.
Print Assumptions c12_long_operators.

Example c12_ex : In (45, SUBTRACT) operators /\ ~ starts_longer 45 (zs "-x") /\ starts_longer 45 (zs "->").
Proof.
  split; [cbn; tauto|]. unfold starts_longer, name_char, variable_char, ascii_letter, digit. cbn. lia.
Qed.

(** The modulo operator is the exception: it drops the next character. *)
Theorem c12_modulo_refuted : exists tok s',
  next_token some_libm (new_lexer (zs "%3;") (new_position 1 1)) = Ret tok s'
  /\ n_type tok = MODULO /\ l_log s' = [] /\ will_read s' (zs ";").
Proof.
  eexists _, _. split; [vm_compute; reflexivity|]. split; [reflexivity|]. split; [reflexivity|].
  eexists. split; vm_compute; reflexivity.
Qed.
Print Assumptions c12_modulo_refuted.

(** ** C13 *)
Theorem c13_bounds : forall s e r, 0 <= s < 2147483648 -> 0 <= e < 2147483648 ->
  ur_make s e = Some r -> ur_start r = s /\ ur_end r = e /\ ur_of_value r = Some r.
Proof.
  intros s e r Hs He H. unfold ur_make, ur_of_value in *.
  destruct (verify_range (start_end_to_range s e)) eqn:V; [|discriminate]. injection H as <-.
  unfold ur_start, ur_end. rewrite pack_start, pack_end, V by lia. auto.
Qed.
Print Assumptions c13_bounds.

Theorem c13_accepted : forall s e, 0 <= s < 2147483648 -> 0 <= e < 2147483648 ->
  (exists r, ur_make s e = Some r) <-> s <= e /\ s <= 1114111 /\ e <= 2097151.
Proof.
  intros s e Hs He. unfold ur_make, ur_of_value, verify_range. rewrite pack_start, pack_end by lia.
  destruct ((s <? 1114112) && (e <? 2097152) && (s <=? e)) eqn:E; split; intro H; [lia|eauto| |lia].
  destruct H; discriminate.
Qed.
Print Assumptions c13_accepted.

Theorem c13_rebuild : forall r, 0 <= r < 18446744073709551616 -> ur_of_value r = Some r ->
  0 <= ur_start r -> ur_make (ur_start r) (ur_end r) = Some r.
Proof.
  intros r Hr H Hs. unfold ur_make. replace (start_end_to_range (ur_start r) (ur_end r)) with r; [assumption|].
  unfold ur_of_value, verify_range in H. destruct (_ && _) eqn:E in H; [|discriminate].
  unfold ur_start, ur_end in *. rewrite pack_nonneg by lia.
  rewrite range_to_start_eq, range_to_end_eq in *. unfold to_i32 in *.
  Z.to_euclidean_division_equations. lia.
Qed.
Print Assumptions c13_rebuild.

Example c13_ex : exists r, ur_make 1024 1279 = Some r /\ ur_start r = 1024 /\ ur_end r = 1279
  /\ ur_to_string r = Some (zs "4??").
Proof. eexists. split; [vm_compute; reflexivity|]. repeat split; vm_compute; reflexivity. Qed.

(** Negative bounds are accepted and not stored faithfully. *)
Theorem c13_negative_refuted : exists r, ur_make (-1) 5 = Some r /\ ur_start r = -1 /\ ur_end r = -1.
Proof. eexists. split; [vm_compute; reflexivity|]. split; vm_compute; reflexivity. Qed.
Print Assumptions c13_negative_refuted.

(** ** C14 *)

(** All the ranges of valid characters, and the ranges accepted by the lexer
    that extend beyond them (masks). [rest] does not continue the range. *)
Theorem c14_ranges_partial : forall lm s e r rest p,
  0 <= s <= e -> e <= 1114111 \/ (s = 0 /\ e <= 2097151) \/ (s = 1048576 /\ e = 2097151) ->
  ur_make s e = Some r ->
  Forall clean_char rest ->
  (let n := first (normalize rest) in ~ hex_char n /\ n <> 63 /\ n <> 45) ->
  exists text tok r', ur_to_string r = Some text
    /\ reads_token lm (zs "U+" ++ text ++ utf8s rest) p tok rest
    /\ n_type tok = UNICODE_RANGE /\ ur_of_value (n_int tok) = Some r'
    /\ forall c, 0 <= c <= 1114111 -> (ur_start r' <= c <= ur_end r' <-> s <= c <= e).
Proof.
  intros lm s e r rest p Hs He Hr Hc Hend. cbv zeta in Hend. rewrite first_hd, <- hex_not in Hend.
  rewrite ur_make_ok in Hr by lia. injection Hr as <-.
  assert (Ht : exists t, ur_to_string (start_end_to_range s e) = Some t).
  { destruct (ur_text s e _ Hs ltac:(lia) ltac:(lia) eq_refl)
      as [(_ & _ & H)|[(_ & _ & H)|[(_ & l & q & H & _)|(_ & _ & H)]]]; eauto. }
  destruct Ht as (t & Ht).
  destruct (range_back lm t s e rest p Hs ltac:(lia) ltac:(lia) Ht Hc Hend)
    as (s1 & e1 & s' & (A1 & A2) & B & E & K & L).
  assert (Hm : ur_make s1 e1 = Some (e1 * 4294967296 + s1)) by (rewrite ur_make_ok, pack_nonneg by lia; reflexivity).
  destruct (c13_bounds s1 e1 _ ltac:(lia) ltac:(lia) Hm) as (C1 & C2 & C3).
  exists t, (range_tok s1 e1 p), (e1 * 4294967296 + s1). split; [assumption|].
  split; [exists s'; split; [exact E|]; split; [exact L|now apply holds_will_read]|].
  split; [reflexivity|]. split; [exact C3|]. rewrite C1, C2. intros c Hcc. lia.
Qed.
Print Assumptions c14_ranges_partial.

Example c14_ex : exists r, ur_make 1024 1279 = Some r /\ ur_to_string r = Some (zs "4??").
Proof. exists (1279 * 4294967296 + 1024). split; [vm_compute; reflexivity|vm_compute; reflexivity]. Qed.

(** A range that ends beyond U+10FFFF and is not a mask cannot be read back. *)
Theorem c14_beyond_refuted : exists r text tok s',
  ur_make 1048592 2097151 = Some r /\ ur_to_string r = Some text
  /\ next_token some_libm (new_lexer (zs "U+" ++ text) (new_position 1 1)) = Ret tok s'
  /\ error_count s' = 1%nat.
Proof.
  eexists _, _, _, _. split; [vm_compute; reflexivity|]. split; [vm_compute; reflexivity|].
  split; [vm_compute; reflexivity|vm_compute; reflexivity].
Qed.
Print Assumptions c14_beyond_refuted.
