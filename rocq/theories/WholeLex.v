(** * The lexer on a compressed style sheet *)

From Coq Require Import String ZArith List Bool Lia Arith ZifyBool.
From Verif Require Import Base Utf8 Utf8Spec UnicodeRange Lexer LexSpec Utf8Proofs LexerWp Utf8Stream View OutText RoundString RoundUrl RoundIdent RoundInt RoundHash TextSpec Ops DecText.
From Verif Require Import WholeSpec WholeShape LaySpec.
Import ListNotations.
Open Scope string_scope. Open Scope list_scope. Open Scope Z_scope.
Ltac Zify.zify_post_hook ::= idtac.

(** One token, the number of pushed back characters being below [S d]. *)
Lemma next_runs lm d v node_of d' v' :
  (forall st, runs st d (tl v) (dispatch lm (hd (-1) v)) (Some (node_of st)) d' v') ->
  forall s, View.holds s v -> (dep s <= S d)%nat ->
  exists s', next_token lm s = Ret (node_of (l_pos s)) s' /\ View.holds s' v'
             /\ (dep s' <= d')%nat /\ l_log s' = l_log s.
Proof.
  intros H s Hv Hd. unfold next_token, with_fuel, fuel_of. cbn [token_loop].
  unfold bind at 1. unfold mark_start.
  set (s0 := mkLex (l_in s) (l_unget s) (l_pos s) (l_pos s) (l_log s)).
  assert (H0 : View.holds s0 v).
  { destruct Hv as (l & P1 & P2 & P3 & P4). exists l. auto. }
  destruct (runs_getc (l_pos s) (S d) v s0 H0 Hd eq_refl) as (s1 & E1 & K1 & D1 & S1 & L1).
  destruct (H (l_pos s) s1 K1 D1 S1) as (s2 & E2 & K2 & D2 & S2 & L2).
  exists s2. unfold bind at 1. rewrite E1. unfold bind at 1. rewrite E2. unfold ret.
  repeat split; auto. rewrite L2, L1. reflexivity.
Qed.

Lemma next_runs_at lm d v d' v' s : View.holds s v -> (dep s <= S d)%nat -> forall P : node -> Prop,
  (exists n, P n /\ runs (l_pos s) d (tl v) (dispatch lm (hd (-1) v)) (Some n) d' v') ->
  exists n s', next_token lm s = Ret n s' /\ P n /\ View.holds s' v' /\ (dep s' <= d')%nat /\ l_log s' = l_log s.
Proof.
  intros Hv Hd P (n & Pn & H). unfold next_token, with_fuel, fuel_of. cbn [token_loop].
  unfold bind at 1. unfold mark_start.
  set (s0 := mkLex (l_in s) (l_unget s) (l_pos s) (l_pos s) (l_log s)).
  assert (H0 : View.holds s0 v).
  { destruct Hv as (l & P1 & P2 & P3 & P4). exists l. auto. }
  destruct (runs_getc (l_pos s) (S d) v s0 H0 Hd eq_refl) as (s1 & E1 & K1 & D1 & S1 & L1).
  destruct (H s1 K1 D1 S1) as (s2 & E2 & K2 & D2 & S2 & L2).
  exists n, s2. unfold bind at 1. rewrite E1. unfold bind at 1. rewrite E2. unfold ret.
  repeat split; auto. rewrite L2, L1. reflexivity.
Qed.

(** ** Pieces of text that are tokens *)
Inductive piece := PW (w : str) | PN (n : Z) (u : str) | PH (w : str) | PO (c : Z) (t : ntype) | PG (s : str) | PV (w : str).
Definition signs : list (Z * ntype) :=
  [(58, COLON); (59, SEMICOLON); (44, COMMA); (33, EXCLAMATION); (123, OPEN_CURLYBRACKET); (125, CLOSE_CURLYBRACKET);
   (46, PERIOD); (62, GREATER_THAN); (126, PRECEDED)].
Definition piece_ok (p : piece) : Prop :=
  match p with
  | PW w | PH w => word w
  | PN n u => 0 <= n < 9223372036854775808 /\ Forall small u
  | PO c t => In (c, t) signs
  | PG s => space s
  | PV w => variable_name w
  end.
Definition piece_text (p : piece) : str :=
  match p with PW w => w | PN n u => int_text n ++ u | PH w => 35 :: w | PO c _ => [c] | PG s => s | PV w => 36 :: w end.
Definition piece_shape (p : piece) : shape :=
  match p with PW w => leaf IDENTIFIER w 0 | PN n u => leaf INTEGER u n | PH w => leaf HASH w 0 | PO _ t => sign t | PG _ => sign WHITESPACE | PV w => leaf VARIABLE (variable_key w) 0 end.
(** What may follow. *)
Definition fits (p : piece) (c : Z) : Prop :=
  match p with
  | PW _ | PH _ | PV _ => blank c \/ In c [58; 59; 44; 33; 123; 125; 46; 62; 126; 35]
  | PN _ _ => blank c \/ In c [33; 44; 59; 125]
  | PO _ _ => c <> 61 /\ (p = PO 46 PERIOD -> small c)
  | PG _ => ~ blank c
  end.
Definition texts (l : list piece) : str := flat_map piece_text l.
Fixpoint chain (l : list piece) (c : Z) : Prop :=
  match l with [] => True | p :: r => fits p (hd c (texts r)) /\ chain r c end.

Lemma hd_app (a b : str) c : hd c (a ++ b) = hd (hd c b) a. Proof. destruct a; reflexivity. Qed.
Lemma texts_app a b : texts (a ++ b) = texts a ++ texts b. Proof. apply flat_map_app. Qed.
Lemma chain_app a b c : chain (a ++ b) c <-> chain a (hd c (texts b)) /\ chain b c.
Proof.
  induction a as [|p a IH]; cbn [app chain]; [tauto|]. rewrite IH, texts_app, hd_app. tauto.
Qed.

Lemma word_ascii w : word w -> Forall (fun c => 0 < c < 128) w.
Proof. destruct w as [|c w]; [constructor|]. intros (A & B). unfold small in A. constructor; [lia|]. revert B. apply Forall_impl. unfold small, numeral. lia. Qed.
Lemma variable_ascii w : variable_name w -> Forall (fun c => 0 < c < 128) w.
Proof. destruct w as [|c w]; [constructor|]. intros (A & B). unfold small in A. constructor; [lia|]. revert B. apply Forall_impl. unfold small, numeral. lia. Qed.
Lemma int_text_digits n : 0 <= n < 9223372036854775808 -> Forall digit (int_text n) /\ decimal (int_text n) = n /\ int_text n <> [].
Proof.
  intro H. unfold int_text. replace (n <? 0) with false by lia. destruct (nat_text_spec n) as (A & B & C & _); [lia|]. auto.
Qed.
Lemma piece_ascii p : piece_ok p -> Forall (fun c => 0 < c < 128) (piece_text p).
Proof.
  destruct p as [w|n u|w|c t|s|w]; cbn [piece_ok piece_text]; [..|intros (H & _); revert H; apply Forall_impl; unfold blank; lia|intro H; constructor; [lia|now apply variable_ascii]].
  - apply word_ascii.
  - intros (A & B). apply Forall_app. split; [|revert B; apply Forall_impl; unfold small; lia]. destruct (int_text_digits n A) as (D & _). revert D. apply Forall_impl. unfold digit. lia.
  - intro H. constructor; [lia|now apply word_ascii].
  - intro H. constructor; [|constructor]. unfold signs in H. cbn [In] in H.
    repeat match type of H with _ \/ _ => destruct H as [H|H] end; [..|contradiction]; injection H as <- _; lia.
Qed.
Lemma ascii_okc l : Forall (fun c => 0 < c < 128) l -> Forall okc l.
Proof. apply Forall_impl. unfold okc. lia. Qed.
Lemma texts_ascii l : Forall piece_ok l -> Forall (fun c => 0 < c < 128) (texts l).
Proof. induction 1 as [|p l H F IH]; [constructor|]. cbn [texts flat_map]. apply Forall_app. split; [now apply piece_ascii|exact IH]. Qed.

Lemma runs_sign st lm c t v : In (c, t) signs -> Forall okc v -> fits (PO c t) (hd (-1) v) ->
  runs st 3 v (dispatch lm c) (Some (mk t st)) 3 v.
Proof.
  intros H Hv (F1 & F3). unfold signs in H. cbn [In] in H.
  repeat match type of H with _ \/ _ => destruct H as [H|H] end; [..|contradiction]; apply pair_equal_spec in H; destruct H as [<- <-]; unfold dispatch, some, eq_or; repeat head.
  all: try solve [rb; [apply runs_new_node|]; eapply runs_weaken; [apply runs_ret|lia]].
  all: try solve [rb; [rb; [apply runs_getc|no; rb; [apply runs_unget_hd; [cbn; lia|assumption]|]; apply runs_new_node]|eapply runs_weaken; [apply runs_ret|cbn; lia]]].
  - (* . *) rb; [apply runs_getc|]. rb; [apply runs_unget_hd; [cbn; lia|assumption]|]. assert (is_digit (hd (-1) v) = false) as -> by (specialize (F3 eq_refl); unfold small in F3; chars). rb; [apply runs_new_node|]. eapply runs_weaken; [apply runs_ret|cbn; lia].
Qed.

Definition tidy_gap (p : piece) : Prop := match p with PG s => Forall (fun c => c <> 12 /\ c <> 13) s | _ => True end.
Lemma runs_spaces st v : Forall okc v -> ~ blank (hd (-1) v) -> forall r k, Forall (fun c => c = 32 \/ c = 9 \/ c = 10) r -> (length (r ++ v) + 1 < k)%nat ->
  runs st 3 (r ++ v) (skip_spaces k) (hd (-1) v) 2 (tl v).
Proof.
  intros Hv N r. induction r as [|c r IH]; intros k Hr Hk; (destruct k as [|k]; [lia|]); cbn [skip_spaces app]; (rb; [apply runs_getc|]).
  - assert (is_space (hd (-1) v) = false) as -> by (unfold blank in N; chars). apply runs_ret.
  - inversion Hr as [|? ? Hc Hr']; subst. cbn [hd tl]. assert (is_space c = true) as -> by chars. eapply runs_le; [apply IH; [exact Hr'|cbn [app length] in Hk; lia]|cbn; lia|lia].
Qed.
Lemma runs_gap st lm s v : space s -> tidy_gap (PG s) -> Forall okc v -> ~ blank (hd (-1) v) ->
  runs st 3 (tl (s ++ v)) (dispatch lm (hd (-1) (s ++ v))) (Some (mk WHITESPACE st)) 3 v.
Proof.
  intros (B & N) T Hv F. destruct s as [|c r]; [congruence|]. cbn [app hd tl].
  assert (Q : Forall (fun c => c = 32 \/ c = 9 \/ c = 10) (c :: r)).
  { cbn [tidy_gap] in T. apply Forall_forall. intros x I. unfold gap in B. rewrite Forall_forall in B, T. specialize (B x I). specialize (T x I). unfold blank in B. lia. }
  inversion Q as [|? ? Qc Qr]; subst.
  assert (E : dispatch lm c = some whitespace) by (destruct Qc as [-> |[-> | ->]]; reflexivity). rewrite E. unfold some, whitespace.
  rb; [|eapply runs_weaken; [apply runs_ret|]; exact (le_n 3)].
  rb; [apply runs_with_fuel; intros k Hk; apply runs_spaces; assumption|]. rb; [apply runs_unget_hd; [cbn; lia|assumption]|apply runs_new_node].
Qed.

Lemma word_plain first w : Forall (fun c => small c \/ numeral c \/ c = 45) w -> (first = true -> match w with c :: _ => small c | [] => True end) ->
  escape_chars first w = w.
Proof.
  intro H. revert first. induction H as [|c w Hc H IH]; intros first F; [reflexivity|]. cbn [escape_chars]. unfold esc1.
  assert (is_identifier c = true) as -> by (unfold small, numeral in Hc; chars).
  rewrite (IH false) by discriminate.
  destruct first; cbn [andb negb orb]; [|reflexivity].
  specialize (F eq_refl). cbn in F. assert (is_start_identifier c = true) as -> by (unfold small in F; chars). reflexivity.
Qed.
Lemma word_escape w : word w -> escape_chars true w = w.
Proof. destruct w as [|c w]; [reflexivity|]. intros (A & B). apply word_plain; [constructor; auto|auto]. Qed.
Lemma word_text w : word w -> Forall textc w.
Proof. destruct w as [|c w]; [constructor|]. intros (A & B). constructor; [apply textc_ascii; unfold small in A; lia|]. revert B. apply Forall_impl. unfold small, numeral. intros. apply textc_ascii. lia. Qed.
Lemma word_hash w : word w -> Forall (fun c => is_hash_character c = true /\ 0 < c < 128) w.
Proof. destruct w as [|c w]; [constructor|]. intros (A & B). constructor; [unfold small in A; split; [chars|lia]|]. revert B. apply Forall_impl. unfold small, numeral. intros. split; [chars|lia]. Qed.

Lemma runs_var_loop st : forall w v c acc k, Forall (fun c => small c \/ numeral c \/ c = 45 \/ c = 95) (c :: w) -> Forall okc v -> is_variable (hd (-1) v) = false -> (length (w ++ v) + 1 < k)%nat ->
  runs st 2 (w ++ v) (var_loop k c acc) (acc ++ variable_key (c :: w), hd (-1) v) 1 (tl v).
Proof.
  induction w as [|x w IH]; intros v c acc k Hc Hv N Hk; (destruct k as [|k]; [lia|]); cbn [var_loop app]; inversion Hc as [|? ? H1 H2]; subst.
  all: assert (E : tolower (if c =? 45 then 95 else c) = if c =? 45 then 95 else c) by (unfold small, numeral, tolower in *; destruct (c =? 45) eqn:Q; [reflexivity|]; replace (is_upper c) with false by chars; reflexivity).
  all: rewrite E; assert (B : 0 < (if c =? 45 then 95 else c) < 128) by (unfold small, numeral in *; destruct (c =? 45); lia).
  all: rb; [apply runs_ascii; exact B|]; rb; [apply runs_getc|].
  - rewrite N. apply runs_ret.
  - cbn [hd tl]. inversion H2 as [|? ? H3 _]; subst. assert (is_variable x = true) as -> by (unfold small, numeral in H3; chars).
    eapply runs_le; [replace (acc ++ variable_key (c :: x :: w)) with ((acc ++ [if c =? 45 then 95 else c]) ++ variable_key (x :: w)) by (rewrite <- app_assoc; reflexivity); apply IH; [exact H2|exact Hv|exact N|cbn [app length] in Hk; lia]|cbn; lia|lia].
Qed.
Lemma runs_variable st lm w v : variable_name w -> Forall okc v -> is_variable (hd (-1) v) = false -> hd (-1) v <> 40 ->
  runs st 3 (w ++ v) (dispatch lm 36) (Some (set_str (mk VARIABLE st) (variable_key w))) 3 v.
Proof.
  intros H Hv N1 N2. destruct w as [|c w]; [contradiction|]. destruct H as (Hc & Hw). unfold dispatch, some. repeat head.
  rb; [apply runs_getc|]. cbn [app hd tl]. assert (c =? 61 = false) as -> by (unfold small in Hc; lia). assert (is_variable c = true) as -> by (unfold small in Hc; chars).
  unfold variable. rb; [|eapply runs_weaken; [apply runs_ret|]; exact (le_n 3)].
  rb; [apply runs_with_fuel; intros k Hk; apply (runs_var_loop st w v c []); [constructor; auto|exact Hv|exact N1|exact Hk]|]. cbn [app].
  assert (hd (-1) v =? 40 = false) as -> by lia. rb; [apply runs_unget_hd; [cbn; lia|assumption]|]. rb; [apply runs_new_node|]. eapply runs_weaken; [apply runs_ret|cbn; lia].
Qed.

Definition follow : list Z := [-1; 58; 59; 44; 33; 123; 125; 46; 62; 126; 32; 35].

Lemma piece_runs lm p v st : piece_ok p -> tidy_gap p -> Forall okc v -> fits p (hd (-1) v) ->
  exists n, node_shape n = piece_shape p /\ is n EOF_TOKEN = false
    /\ let w := piece_text p ++ v in
       runs st (match p with PO _ _ | PG _ | PV _ => 3 | _ => 2 end) (tl w) (dispatch lm (hd (-1) w)) (Some n)
         (match p with PN _ _ => 4 | _ => 3 end) v.
Proof.
  intros H Tg Hv F. destruct p as [w|n u|w|c t|s|w]; cbn [piece_ok piece_text piece_shape fits] in *; [..|exists (mk WHITESPACE st); split; [reflexivity|]; split; [reflexivity|]; now apply runs_gap|]; unfold blank in F; [..|exists (set_str (mk VARIABLE st) (variable_key w)); split; [reflexivity|]; split; [reflexivity|]; cbn [app tl hd]; apply runs_variable;
    [exact H|exact Hv|cbn [In] in F; repeat match type of F with _ \/ _ => destruct F as [F|F] end; [..|contradiction]; first [rewrite F|rewrite <- F]; reflexivity|cbn [In] in F; lia]].
  - destruct w as [|c w]; [contradiction|]. exists (ident_tok (c :: w) st). split; [|split; [reflexivity|]].
    + unfold ident_tok. rewrite utf8s_ascii by (pose proof (word_ascii _ H) as A; revert A; apply Forall_impl; intros; lia). reflexivity.
    + pose proof (runs_identifier st lm c w v (word_text _ H)) as R. rewrite word_escape in R by exact H. apply R; [|exact Hv].
      destruct v as [|x v]; [exact I|]. cbn [separated hd In] in *. destruct H as (Hc & _). unfold small in Hc.
      assert (K : is_identifier x = false /\ x <> 92 /\ x <> 40 /\ x <> 43) by (repeat match type of F with _ \/ _ => destruct F as [F|F] end; [..|contradiction]; subst x; repeat split; try lia; reflexivity).
      destruct K as (K1 & K2 & K3 & K4). repeat split; auto.
      destruct w; [|contradiction]. intro. exfalso. chars.
  - destruct H as (Hn & Hu). exists (int_tok u n false st). split; [|split; [reflexivity|]].
    + unfold int_tok. cbn. unfold leaf. f_equal.
      replace (map tolower u) with u; [apply utf8s_ascii; revert Hu; apply Forall_impl; unfold small; lia|].
      clear - Hu. induction Hu as [|c u H Hu IH]; [reflexivity|]. cbn [map]. rewrite <- IH. f_equal. unfold tolower, small in *. assert (is_upper c = false) as -> by chars. reflexivity.
    + destruct (int_text_digits n Hn) as (D & V & N). destruct (int_text n) as [|d0 ds] eqn:E; [congruence|].
      assert (D' : Forall (fun c => is_digit c = true) (d0 :: ds)) by (revert D; apply Forall_impl; unfold digit; intros; chars).
      assert (V' : dec_value 0 (d0 :: ds) = n) by exact V.
      pose proof (runs_int_dispatch st lm 0 d0 ds u v (or_introl eq_refl) D') as R.
      rewrite V' in R. change (sign_val 0) with 1 in R. rewrite Z.mul_1_r in R. change (negb (0 =? 0)) with false in R.
      change (sign_text 0) with (@nil Z) in R. cbn [app] in R. cbn [app]. rewrite <- app_assoc. apply R; [|exact Hv| |lia].
      * assert (K : v <> [] /\ (is_identifier (hd (-1) v) = false /\ hd (-1) v <> 92) /\ (hd (-1) v <> 46 /\ hd (-1) v <> 37) /\ is_digit (hd (-1) v) = false /\ hd (-1) v <> 43 /\ hd (-1) v <> 45).
        { destruct v as [|x v]; [cbn in F; intuition discriminate|]. split; [discriminate|]. cbn [hd In] in *. repeat match type of F with _ \/ _ => destruct F as [F|F] end; [..|contradiction]; subst x; repeat split; try lia; reflexivity. }
        destruct K as (K0 & K1 & K2 & K3 & K4 & K5). unfold unit_ok. split; [|split; [|split]].
        -- revert Hu. apply Forall_impl. unfold small. intros a Ha. split; [apply encodable_ascii; lia|chars].
        -- destruct v; [congruence|exact K1].
        -- intros ->. inversion Hu as [|? ? Hx]. unfold small in Hx. lia.
        -- destruct u as [|x u]; [exact K2|]. inversion Hu as [|? ? Hx Hu']; subst. unfold small in Hx. split; [chars|]. intros _. cbv zeta.
           destruct u as [|y u]; [cbn [app]; auto|]. inversion Hu' as [|? ? Hy _]; subst. unfold small in Hy. cbn [app hd]. repeat split; [chars|lia|lia].
      * revert Hu. apply Forall_impl. unfold small, okc. lia.
  - exists (hash_tok w st). split; [reflexivity|]. split; [reflexivity|]. cbn [app tl hd]. apply runs_hash.
    + intros ->. contradiction.
    + now apply word_hash.
    + exact Hv.
    + cbn [In] in F. repeat match type of F with _ \/ _ => destruct F as [F|F] end; [..|contradiction]; first [rewrite F|rewrite <- F]; reflexivity.
    + cbn [In] in F. lia.
  - exists (mk t st). split; [reflexivity|]. split; [|cbn [app tl hd]; now apply runs_sign].
    unfold signs in H. cbn [In] in H.
    repeat match type of H with _ \/ _ => destruct H as [H|H] end; [..|contradiction]; apply pair_equal_spec in H; destruct H as [<- <-]; reflexivity.
Qed.

Lemma word_first w : word w -> small (hd (-1) w).
Proof. destruct w; [contradiction|]. now intros (A & _). Qed.
Lemma after_number n u q r : piece_ok q -> fits (PN n u) (hd (-1) (texts (q :: r))) -> (exists c t, q = PO c t) \/ exists s, q = PG s.
Proof.
  intros H F. destruct q as [w|m w|w|c t|s|w]; [| | |eauto|eauto|]; exfalso; cbn [texts flat_map piece_text piece_ok] in *; cbn [fits] in F; unfold blank in F.
  - pose proof (word_first w H) as K. destruct w as [|c w]; [contradiction|]. cbn in K, F. unfold small in K. lia.
  - destruct H as (H & _). destruct (int_text_digits m H) as (D & _ & N). destruct (int_text m) as [|c l]; [congruence|]. inversion D as [|? ? Hc _]; subst. unfold digit in Hc. cbn in F. lia.
  - cbn in F. lia.
  - cbn in F. lia.
Qed.

Definition deep (p : piece) : Prop := match p with PO _ _ | PG _ | PV _ => True | _ => False end.
Theorem lexed lm l : Forall piece_ok l -> Forall tidy_gap l -> chain l (-1) -> forall f s, View.holds s (texts l) ->
  (dep s <= 3)%nat \/ ((dep s <= 4)%nat /\ exists p r, l = p :: r /\ deep p) -> (length l < f)%nat ->
  exists toks s', lex_all_loop lm f s = Ret toks s' /\ map node_shape toks = map piece_shape l /\ l_log s' = l_log s.
Proof.
  induction l as [|p l IH]; intros Ok Tg Ch f s Hs Hd Hf; (destruct f as [|f]; [cbn in Hf; lia|]); cbn [lex_all_loop].
  - destruct Hd as [Hd|(_ & c & r & E & _)]; [|discriminate].
    destruct (next_runs lm 2 [] (fun st => mk EOF_TOKEN st) 2 []) with (s := s) as (s' & E & _ & _ & L); [|exact Hs|exact Hd|].
    + intro st. cbn [hd tl]. unfold dispatch. change (-1 =? -1) with true. cbv iota. unfold some. rb; [apply runs_new_node|apply runs_ret].
    + exists [], s'. unfold bind. rewrite E. change (is (mk EOF_TOKEN (l_pos s)) EOF_TOKEN) with true. cbv iota. repeat split; auto.
  - inversion Ok as [|? ? Op Ol]; subst. inversion Tg as [|? ? Tp Tl]; subst. destruct Ch as (F & Ch). cbn [texts flat_map] in Hs. fold (texts l) in Hs.
    assert (Hv : Forall okc (texts l)) by (apply ascii_okc; now apply texts_ascii).
    set (dd := match p with PO _ _ | PG _ | PV _ => 3%nat | _ => 2%nat end) in *.
    assert (HD : (dep s <= S dd)%nat).
    { subst dd. destruct Hd as [Hd|(Hd & q & r & E & Dq)]; [destruct p; lia|]. injection E as -> _. destruct q; try contradiction Dq; exact Hd. }
    assert (exists n s', next_token lm s = Ret n s' /\ node_shape n = piece_shape p /\ is n EOF_TOKEN = false /\ View.holds s' (texts l) /\ (dep s' <= match p with PN _ _ => 4 | _ => 3 end)%nat /\ l_log s' = l_log s) as (n & s' & E & Sh & Ne & Hs' & Hd' & L).
    { destruct (next_runs_at lm dd (piece_text p ++ texts l) (match p with PN _ _ => 4 | _ => 3 end)%nat (texts l) s Hs HD) with (P := fun n => node_shape n = piece_shape p /\ is n EOF_TOKEN = false) as (n' & s' & E & (P1 & P2) & Q); [|eauto 10].
      destruct (piece_runs lm p (texts l) (l_pos s) Op Tp Hv F) as (n' & Sh' & Ne' & R'). cbv zeta in R'. eauto. }
    destruct (IH Ol Tl Ch f s' Hs') as (toks & s2 & E2 & M2 & L2).
    + destruct p; try (left; exact Hd'). right. split; [exact Hd'|].
      destruct l as [|q l]; [cbn in F; unfold blank in F; cbn in F; exfalso; lia|]. inversion Ol; subst. destruct (after_number _ _ q l ltac:(assumption) F) as [(c & t & ->)|(z & ->)]; eexists _, _; (split; [reflexivity|exact I]).
    + cbn [length] in Hf. lia.
    + exists (n :: toks), s2. unfold bind at 1. rewrite E. rewrite Ne. unfold bind. rewrite E2. unfold ret. cbn [map]. rewrite Sh, M2. split; [reflexivity|]. split; [reflexivity|congruence].
Qed.

