(** * Properties C01 to C07: characters and tokens *)

From Coq Require Import String ZArith List Bool Lia.
From Verif Require Import Base Utf8 Utf8Spec Lexer LexSpec Utf8Proofs LexerWp Utf8Stream LexFacts.
Import ListNotations.
Open Scope string_scope. Open Scope list_scope. Open Scope Z_scope.

(** A libm for the examples (nothing is assumed about it). *)
Definition some_libm : libm := mkLibm (fun x _ => x).

(** ** C01 *)

(** Decoding what the encoder produced gives back the character, for every
    [int32_t]. *)
Theorem c01_decode_encode : forall c b,
  -2147483648 <= c < 2147483648 -> wctomb c = inr b -> mbtowc b = inr c.
Proof. exact decode_encode. Qed.
Print Assumptions c01_decode_encode.

Example c01_decode_encode_ex : wctomb 8364 = inr [226; 130; 172] /\ mbtowc [226; 130; 172] = inr 8364.
Proof. split; reflexivity. Qed.

(** A stream of encoded characters is read back character by character, without
    any message (CR and FF are line terminators, see C06). *)
Theorem c01_stream : forall l s,
  Forall (fun c => 0 < c < 1114112 /\ c <> 12 /\ c <> 13) l -> l_unget s = [] -> l_in s = utf8s l ->
  exists s', get_many (length l) s = Ret l s' /\ l_in s' = [] /\ l_log s' = l_log s.
Proof. exact read_stream. Qed.
Print Assumptions c01_stream.

Example c01_stream_ex : utf8s [97; 8364; 128512] = [97; 226; 130; 172; 240; 159; 152; 128].
Proof. reflexivity. Qed.

(** ** C02 *)
Theorem c02_encoder_accepts : forall c,
  scalar c -> c <> 0 -> ~ nonchar c -> wctomb c = inr (utf8 c).
Proof. exact wctomb_valid. Qed.
Print Assumptions c02_encoder_accepts.

Theorem c02_encoder_refuses : forall c,
  -2147483648 <= c < 2147483648 -> c <> 0 -> ~ (scalar c /\ ~ nonchar c) ->
  exists message, wctomb c = inl message.
Proof. exact wctomb_invalid. Qed.
Print Assumptions c02_encoder_refuses.

(** The NUL character gives an empty string and no message. *)
Theorem c02_encoder_nul : wctomb 0 = inr [].
Proof. exact wctomb_zero. Qed.
Print Assumptions c02_encoder_nul.

(** One error message, and nothing produced, when the encoder refuses. *)
Theorem c02_one_error : forall c s,
  -2147483648 <= c < 2147483648 -> c <> 0 -> ~ (scalar c /\ ~ nonchar c) ->
  exists m s', wctomb_m c s = Ret [] s' /\ l_log s' = m :: l_log s /\ is_error m = true.
Proof. exact wctomb_m_refuses. Qed.
Print Assumptions c02_one_error.

Example c02_ex : scalar 233 /\ ~ nonchar 233 /\ wctomb 233 = inr [195; 169]
  /\ ~ scalar 55296 /\ nonchar 65534 /\ nonchar 1114111.
Proof.
  assert (wctomb 233 = inr [195; 169]) by reflexivity.
  unfold scalar, nonchar. change (233 mod 65536) with 233. change (65534 mod 65536) with 65534.
  change (1114111 mod 65536) with 65535. intuition lia.
Qed.

(** ** C03 *)

(** A client which reads tokens until EOF always stops: it gets at most one
    token per byte, or an exception, or undefined behaviour (after an error
    was reported). [NoFuel], the outcome of a loop that would not stop, is
    impossible. *)
Theorem c03_lexing_terminates : forall lm input p, bytes input ->
  match lex_all lm (new_lexer input p) with
  | Ret toks s' => (length toks <= length input)%nat
                   /\ Forall (fun n => is n EOF_TOKEN = false) toks
                   /\ (remaining s' = 0%nat \/ (0 < error_count s')%nat)
  | Throw e _ => e = XUngetRange \/ e = XIdentStart
  | Undef s' => (0 < error_count s')%nat
  | NoFuel => False
  end.
Proof. exact lex_all_outcome. Qed.
Print Assumptions c03_lexing_terminates.

(** Each call stops, and consumes something unless it returns EOF. EOF before
    the end of the input is only returned after an error was reported by the
    same call. *)
Theorem c03_each_call : forall lm input p s, bytes input -> reachable lm input p s ->
  match next_token lm s with
  | Ret n s' => (if is n EOF_TOKEN then remaining s' = 0%nat \/ (error_count s < error_count s')%nat
                 else (remaining s' < remaining s)%nat)
                /\ (length (l_unget s') <= 3)%nat
                /\ exists new, l_log s' = new ++ l_log s
  | Throw e _ => e = XUngetRange \/ e = XIdentStart
  | Undef s' => (error_count s < error_count s')%nat
  | NoFuel => False
  end.
Proof. exact next_token_outcome. Qed.
Print Assumptions c03_each_call.

(** At most one token per byte in any history of calls. *)
Theorem c03_tokens_bounded : forall lm input p toks s, bytes input ->
  calls lm (new_lexer input p) toks s ->
  (length (filter (fun n => negb (is n EOF_TOKEN)) toks) + remaining s <= length input)%nat.
Proof. exact tokens_bounded. Qed.
Print Assumptions c03_tokens_bounded.

Example c03_ex : exists toks s',
  lex_all some_libm (new_lexer (zs "a:hover{color:#f00}/* x */ <!-- ") (new_position 1 1)) = Ret toks s'
  /\ map n_type toks = [IDENTIFIER; COLON; IDENTIFIER; OPEN_CURLYBRACKET; IDENTIFIER; COLON; HASH;
                        CLOSE_CURLYBRACKET; WHITESPACE; CDO; WHITESPACE]
  /\ l_log s' = [].
Proof. eexists _, _. split; [vm_compute; reflexivity|]. split; reflexivity. Qed.

(** ** C04 *)
Theorem c04_no_push_back_overflow : forall lm input p s, bytes input -> reachable lm input p s ->
  (length (l_unget s) <= 3)%nat /\ (forall s', next_token lm s <> Throw XUngetSpace s').
Proof. exact no_overflow. Qed.
Print Assumptions c04_no_push_back_overflow.

(** The three characters are used: "<!-" followed by anything but "-". *)
Example c04_ex : exists n s',
  next_token some_libm (new_lexer (zs "<!-x") (new_position 1 1)) = Ret n s'
  /\ n_type n = LESS_THAN /\ l_unget s' = zs "!-x".
Proof. eexists _, _. split; [vm_compute; reflexivity|]. split; reflexivity. Qed.

(** ** C05 *)

(** True of well formed texts without NUL and U+FFFD. The only other way out is
    undefined behaviour, which follows a reported error (a number too large). *)
Theorem c05_no_exception_partial : forall lm input p s,
  bytes input -> clean_text input -> reachable lm input p s ->
  match next_token lm s with
  | Ret _ _ => True
  | Undef s' => (error_count s < error_count s')%nat
  | _ => False
  end.
Proof. exact next_token_clean. Qed.
Print Assumptions c05_no_exception_partial.

Example c05_clean_ex : clean_text (zs "p{content:'x'}" ++ [195; 169]).
Proof. exact clean_example. Qed.

(** In general it is false: "-" followed by a NUL and a space, and "+" followed
    by a code beyond U+10FFFF, raise internal exceptions. *)
Theorem c05_exception_refuted :
  exists input, bytes input /\ exists s',
    next_token some_libm (new_lexer input (new_position 1 1)) = Throw XIdentStart s'.
Proof. exact throws_ident_start. Qed.
Print Assumptions c05_exception_refuted.

Theorem c05_exception2_refuted :
  exists input, bytes input /\ exists s',
    next_token some_libm (new_lexer input (new_position 1 1)) = Throw XUngetRange s'.
Proof. exact throws_unget_range. Qed.
Print Assumptions c05_exception2_refuted.

(** Undefined behaviour (signed overflow) does happen. *)
Theorem c05_undefined_refuted :
  exists input, bytes input /\ clean_text input /\ exists s',
    next_token some_libm (new_lexer input (new_position 1 1)) = Undef s'.
Proof. exact undef_number. Qed.
Print Assumptions c05_undefined_refuted.

(** ** C06 *)
Theorem c06_line_counting : forall lm input p s,
  bytes input -> clean_text input -> reachable lm input p s ->
  exists read, input = read ++ l_in s /\ no_crlf_split read (l_in s)
    /\ p_page (l_pos s) = page_after (p_page p) read
    /\ p_line (l_pos s) = line_after (p_line p) read
    /\ p_total (l_pos s) = total_after (p_total p) read.
Proof. exact position_reached. Qed.
Print Assumptions c06_line_counting.

Example c06_ex : terminators [97; 13; 10; 98; 13; 10; 10; 12; 99; 10] = 4
  /\ line_after 1 [97; 13; 10; 98; 13; 10; 10; 12; 99; 10] = 2
  /\ page_after 1 [97; 13; 10; 98; 13; 10; 10; 12; 99; 10] = 2.
Proof. repeat split. Qed.

(** On arbitrary bytes, the over-long encoding of LF is counted as a line
    although it is neither a LF nor a CR. *)
Theorem c06_overlong_refuted :
  exists input s', bytes input /\ terminators input = 0 /\
    next_token some_libm (new_lexer input (new_position 1 1)) = Ret (mk WHITESPACE (new_position 1 1)) s'
    /\ p_line (l_pos s') = 2.
Proof. exact overlong_newline. Qed.
Print Assumptions c06_overlong_refuted.

(** ** C07 *)
Theorem c07_push_back : forall cs s, Forall (fun c => 1 <= c <= 1114111 /\ c <> 65533) cs ->
  (length (l_unget s) + length cs <= 16)%nat ->
  exists s1, unget_all cs s = Ret tt s1
    /\ get_many (length cs) s1 = Ret (rev cs) s /\ l_in s1 = l_in s.
Proof. exact unget_get. Qed.
Print Assumptions c07_push_back.

Example c07_ex : exists s1,
  unget_all [97; 8364] (new_lexer (zs "z") (new_position 1 1)) = Ret tt s1 /\
  get_many 3 s1 = Ret [8364; 97; 122] (new_lexer [] (new_position 1 1)).
Proof. eexists. split; vm_compute; reflexivity. Qed.
