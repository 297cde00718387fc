(** * Facts about the lexer used by the property theorems *)

From Coq Require Import String ZArith List Bool Lia Arith ZifyBool.
From Verif Require Import Base Utf8 Utf8Spec UnicodeRange Lexer LexSpec Utf8Proofs
  LexerWp LexerTac LexerTotal LexerNum LexerNum2 LexerDispatch LexerMain LineProofs.
Import ListNotations.
Open Scope Z_scope.
Ltac Zify.zify_post_hook ::= idtac.

Lemma new_valid input p clean : bytes input -> (clean = true -> clean_text input) ->
  valid clean (new_lexer input p).
Proof. intros Hb Hc. split; [exact Hb|]. split; [constructor|exact Hc]. Qed.

(** Invariant of the lexer between tokens. *)
Lemma calls_inv lm clean s toks s' : valid clean s -> (dep s <= 3)%nat -> calls lm s toks s' ->
  okst clean s s' /\ (dep s' <= 3)%nat
  /\ (mu s' + length (filter (fun n => negb (is n EOF_TOKEN)) toks) <= mu s)%nat.
Proof.
  intros Hv Hd. induction 1 as [s|s toks s1 n s2 Hc IH E].
  - split; [now apply okst_refl|]. split; [lia|]. cbn. lia.
  - destruct (IH Hv Hd) as (K & D & Hm). pose proof (ok_valid _ _ _ K) as V.
    pose proof (wp_next_token clean lm (errs s1) s1 V D (le_n _)) as W.
    unfold wp in W. rewrite E in W. destruct W as (K2 & D2 & _ & Hm2 & Hp2).
    split; [eapply okst_trans; eauto|]. split; [exact D2|].
    rewrite filter_app, app_length. cbn [filter].
    destruct (is n EOF_TOKEN); cbn [negb length]; [lia|]. specialize (Hp2 eq_refl). lia.
Qed.

Lemma reach_facts lm input p s : bytes input -> reachable lm input p s ->
  valid false s /\ (dep s <= 3)%nat /\ (mu s <= length input)%nat.
Proof.
  intros Hb [toks Hc].
  destruct (calls_inv lm false _ _ _ (new_valid input p false Hb ltac:(discriminate)) ltac:(cbn; lia) Hc)
    as (K & D & Hm).
  split; [exact (ok_valid _ _ _ K)|]. split; [exact D|]. unfold mu at 2 in Hm. cbn in Hm. lia.
Qed.

Lemma reach_facts_clean lm input p s : bytes input -> clean_text input -> reachable lm input p s ->
  valid true s /\ (dep s <= 3)%nat.
Proof.
  intros Hb Ht [toks Hc].
  destruct (calls_inv lm true _ _ _ (new_valid input p true Hb (fun _ => Ht)) ltac:(cbn; lia) Hc)
    as (K & D & Hm).
  split; [exact (ok_valid _ _ _ K)|exact D].
Qed.

Lemma next_token_outcome lm input p s : bytes input -> reachable lm input p s ->
  match next_token lm s with
  | Ret n s' => (if is n EOF_TOKEN then remaining s' = 0%nat \/ (error_count s < error_count s')%nat
                 else (remaining s' < remaining s)%nat)
                /\ (length (l_unget s') <= 3)%nat
                /\ exists new, l_log s' = new ++ l_log s
  | Throw e _ => e = XUngetRange \/ e = XIdentStart
  | Undef s' => (error_count s < error_count s')%nat
  | NoFuel => False
  end.
Proof.
  intros Hb Hr. destruct (reach_facts _ _ _ _ Hb Hr) as (V & D & _).
  pose proof (wp_next_token false lm (errs s) s V D (le_n _)) as W. unfold wp in W.
  destruct (next_token lm s) as [n s'|e s'|s'|]; auto.
  - destruct W as (K & D2 & He & Hm & Hp). split; [|split; [exact D2|]].
    + destruct (is n EOF_TOKEN); [now apply He|now apply Hp].
    + eapply reach_log. exact (ok_R _ _ _ K).
  - destruct W as [_ W]. exact W.
Qed.

Lemma next_token_clean lm input p s : bytes input -> clean_text input -> reachable lm input p s ->
  match next_token lm s with
  | Ret _ _ => True
  | Undef s' => (error_count s < error_count s')%nat
  | _ => False
  end.
Proof.
  intros Hb Ht Hr. destruct (reach_facts_clean _ _ _ _ Hb Ht Hr) as (V & D).
  pose proof (wp_next_token true lm (errs s) s V D (le_n _)) as W. unfold wp in W.
  destruct (next_token lm s) as [n s'|e s'|s'|]; auto. destruct W as [W _]. discriminate.
Qed.

Lemma tokens_bounded lm input p toks s : bytes input ->
  calls lm (new_lexer input p) toks s ->
  (length (filter (fun n => negb (is n EOF_TOKEN)) toks) + remaining s <= length input)%nat.
Proof.
  intros Hb Hc.
  destruct (calls_inv lm false _ _ _ (new_valid input p false Hb ltac:(discriminate)) ltac:(cbn; lia) Hc)
    as (K & D & Hm).
  unfold mu at 2 in Hm. cbn in Hm. unfold remaining, mu in *. lia.
Qed.

Lemma lex_all_outcome lm input p : bytes input ->
  match lex_all lm (new_lexer input p) with
  | Ret toks s' => (length toks <= length input)%nat
                   /\ Forall (fun n => is n EOF_TOKEN = false) toks
                   /\ (remaining s' = 0%nat \/ (0 < error_count s')%nat)
  | Throw e _ => e = XUngetRange \/ e = XIdentStart
  | Undef s' => (0 < error_count s')%nat
  | NoFuel => False
  end.
Proof.
  intro Hb. unfold lex_all, with_fuel.
  assert (Hf : (mu (new_lexer input p) < fuel_of (new_lexer input p))%nat) by (unfold mu, fuel_of; cbn; lia).
  pose proof (wp_lex_all_loop false lm (fuel_of (new_lexer input p)) 0 (new_lexer input p)
    (new_valid input p false Hb ltac:(discriminate)) Hf ltac:(cbn; lia) ltac:(cbn; lia)) as W.
  unfold wp in W. destruct (lex_all_loop lm _ _) as [toks s'|e s'|s'|]; auto.
  - destruct W as (_ & _ & Hl & Hn & He). split; [|split; [exact Hn|]].
    + unfold mu in Hl. cbn in Hl. lia.
    + destruct He; auto.
  - now destruct W as [_ W].
Qed.

Lemma position_reached lm input p s : bytes input -> clean_text input -> reachable lm input p s ->
  exists read, input = read ++ l_in s /\ no_crlf_split read (l_in s)
    /\ p_page (l_pos s) = page_after (p_page p) read
    /\ p_line (l_pos s) = line_after (p_line p) read
    /\ p_total (l_pos s) = total_after (p_total p) read.
Proof.
  intros Hb Ht [toks Hc].
  destruct (calls_inv lm true _ _ _ (new_valid input p true Hb (fun _ => Ht)) ltac:(cbn; lia) Hc) as (K & _).
  destruct (reach_eaten _ _ (ok_R _ _ _ K)) as (r & E & Hn & C). exists r. cbn in E, C. auto.
Qed.

Lemma unget_get cs : forall s, Forall (fun c => 1 <= c <= 1114111 /\ c <> 65533) cs ->
  (length (l_unget s) + length cs <= 16)%nat ->
  exists s1, unget_all cs s = Ret tt s1
    /\ get_many (length cs) s1 = Ret (rev cs) s /\ l_in s1 = l_in s.
Proof.
  assert (G : forall cs s, Forall (fun c => 1 <= c <= 1114111 /\ c <> 65533) cs ->
    (length (l_unget s) + length cs <= 16)%nat ->
    unget_all cs s = Ret tt (mkLex (l_in s) (rev cs ++ l_unget s) (l_pos s) (l_start s) (l_log s))).
  { induction cs0 as [|c cs0 IH]; intros s Hf Hl; [now destruct s|].
    inversion Hf as [|? ? Hc Hf']; subst. cbn [unget_all]. unfold bind, ungetc, set_unget.
    replace ((c =? -1) || (c =? 65533))%bool with false by lia.
    replace ((c <? 0) || (1114111 <? c))%bool with false by lia.
    cbn [length] in Hl. replace (16 <=? length (l_unget s))%nat with false by (symmetry; apply Nat.leb_gt; lia).
    rewrite IH; [|assumption|cbn [l_unget length]; lia]. cbn. rewrite <- app_assoc. reflexivity. }
  assert (G2 : forall us s v, Forall (fun c => 1 <= c <= 1114111 /\ c <> 65533) us ->
    l_unget s = us ++ v ->
    get_many (length us) s = Ret us (mkLex (l_in s) v (l_pos s) (l_start s) (l_log s))).
  { induction us as [|u us IH]; intros s v Hf Hu; cbn [length get_many].
    - cbn in Hu. rewrite <- Hu. now destruct s.
    - inversion Hf as [|? ? Hc Hf']; subst. unfold bind, getc. rewrite Hu. cbn [app].
      unfold bind, set_unget, ret. replace (u =? 0) with false by lia.
      erewrite IH; [|assumption|reflexivity]. reflexivity. }
  intros s Hf Hl. eexists. split; [now apply G|]. split; [|reflexivity].
  rewrite <- (rev_length cs). erewrite G2; [|now apply Forall_rev|reflexivity]. now destruct s.
Qed.

Lemma wctomb_m_refuses c s :
  -2147483648 <= c < 2147483648 -> c <> 0 -> ~ (scalar c /\ ~ nonchar c) ->
  exists m s', wctomb_m c s = Ret [] s' /\ l_log s' = m :: l_log s /\ is_error m = true.
Proof.
  intros Hr Hz Hn. destruct (wctomb_invalid c Hr Hz Hn) as [t Ht].
  unfold wctomb_m. rewrite Ht. eexists _, _. split; [reflexivity|]. split; reflexivity.
Qed.

Lemma no_overflow lm input p s : bytes input -> reachable lm input p s ->
  (length (l_unget s) <= 3)%nat /\ (forall s', next_token lm s <> Throw XUngetSpace s').
Proof.
  intros Hb Hr. pose proof (next_token_outcome lm input p s Hb Hr) as H.
  destruct (reach_facts _ _ _ _ Hb Hr) as (_ & D & _). split; [exact D|].
  intros s' E. rewrite E in H. destruct H; discriminate.
Qed.

Ltac bytes_tac := unfold bytes; repeat (constructor; [lia|]); constructor.

Lemma ascii_clean l : Forall (fun c => 0 < c < 128) l -> utf8s l = l.
Proof.
  induction l as [|c l IH]; intro H; [reflexivity|]. inversion H; subst.
  rewrite utf8s_cons, utf8_ascii, IH by (assumption || lia). reflexivity.
Qed.

Lemma clean_example : clean_text (zs "p{content:'x'}" ++ [195; 169]).
Proof.
  exists (zs "p{content:'x'}" ++ [233]). split; [|reflexivity].
  repeat (constructor; [unfold clean_char, scalar; cbn; lia|]). constructor.
Qed.

Lemma throws_ident_start : exists input, bytes input /\ exists s',
    next_token (mkLibm (fun x _ => x)) (new_lexer input (new_position 1 1)) = Throw XIdentStart s'.
Proof. exists [45; 0; 32]. split; [bytes_tac|]. eexists. vm_compute. reflexivity. Qed.

Lemma throws_unget_range : exists input, bytes input /\ exists s',
    next_token (mkLibm (fun x _ => x)) (new_lexer input (new_position 1 1)) = Throw XUngetRange s'.
Proof. exists [43; 247; 191; 191; 191]. split; [bytes_tac|]. eexists. vm_compute. reflexivity. Qed.

Lemma undef_number : exists input, bytes input /\ clean_text input /\ exists s',
    next_token (mkLibm (fun x _ => x)) (new_lexer input (new_position 1 1)) = Undef s'.
Proof.
  exists (zs "-9223372036854775808").
  assert (H : Forall (fun c => 0 < c < 128) (zs "-9223372036854775808")).
  { repeat (constructor; [cbn; lia|]). constructor. }
  split; [eapply Forall_impl; [|exact H]; cbn; intros; lia|]. split.
  - exists (zs "-9223372036854775808"). split; [|now rewrite ascii_clean].
    eapply Forall_impl; [|exact H]. unfold clean_char, scalar. cbn. intros; lia.
  - eexists. vm_compute. reflexivity.
Qed.

Lemma overlong_newline : exists input s', bytes input /\ terminators input = 0 /\
    next_token (mkLibm (fun x _ => x)) (new_lexer input (new_position 1 1)) = Ret (mk WHITESPACE (new_position 1 1)) s'
    /\ p_line (l_pos s') = 2.
Proof. exists [192; 138]. eexists. split; [bytes_tac|]. split; [reflexivity|]. split; vm_compute; reflexivity. Qed.
