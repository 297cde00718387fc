(** * Reading integers *)

From Coq Require Import String ZArith List Bool Lia Arith ZifyBool Floats.SpecFloat.
From Verif Require Import Base Utf8 Utf8Spec UnicodeRange Lexer LexSpec Utf8Proofs LexerWp Utf8Stream View OutText RoundString RoundUrl RoundIdent.
Import ListNotations.
Open Scope string_scope. Open Scope list_scope. Open Scope Z_scope.
Ltac Zify.zify_post_hook ::= idtac.

(** Value of a string of decimal digits read after the number [i]. *)
Definition dec_value (i : Z) (ds : list Z) : Z := fold_left (fun a d => 10 * a + (d - 48)) ds i.

Lemma dec_value_ge ds : forall i, 0 <= i -> Forall (fun d => is_digit d = true) ds -> i <= dec_value i ds.
Proof.
  induction ds as [|d ds IH]; intros i Hi H; [cbn; lia|]. inversion H; subst. cbn [dec_value fold_left].
  assert (48 <= d <= 57) by chars.
  assert (10 * i + (d - 48) <= dec_value (10 * i + (d - 48)) ds) by (apply IH; [lia|assumption]).
  unfold dec_value in *. lia.
Qed.

Lemma u64_small x : 0 <= x < 18446744073709551616 -> u64 x = x.
Proof. intro H. unfold u64. apply Z.mod_small. lia. Qed.
Lemma wrap64_small x : 0 <= x < 9223372036854775808 -> wrap64 x = x.
Proof.
  intro H. unfold wrap64. rewrite ?Z.mod_small by lia. try reflexivity; lia.
Qed.

Lemma runs_int_loop st v : is_digit (hd (-1) v) = false -> forall ds d f i,
  Forall (fun c => is_digit c = true) ds -> 0 <= i -> dec_value i ds < 9223372036854775808 ->
  (length ds < f)%nat ->
  runs st d (ds ++ v) (int_loop f i) (hd (-1) v, dec_value i ds) d (tl v).
Proof.
  intros Hv. induction ds as [|c ds IH]; intros d f i Hds Hi Hmax Hf.
  - destruct f as [|f]; [cbn in Hf; lia|]. cbn [app int_loop]. rb; [apply runs_getc|]. rewrite Hv. cbn [negb].
    eapply runs_weaken; [apply runs_ret|lia].
  - destruct f as [|f]; [cbn in Hf; lia|]. inversion Hds as [|? ? Hc Hds']; subst.
    cbn [length] in Hf. cbn [app int_loop]. rget. rewrite Hc. cbn [negb].
    assert (Hcv : 48 <= c <= 57) by (clear - Hc; chars).
    change (dec_value i (c :: ds)) with (dec_value (10 * i + (c - 48)) ds) in *.
    pose proof (dec_value_ge ds (10 * i + (c - 48)) ltac:(lia) Hds').
    assert (E : u64 (u64 i * 10 + c - 48) = 10 * i + (c - 48)).
    { rewrite (u64_small i) by lia. rewrite u64_small; lia. }
    rewrite E. cbv zeta. replace (9223372036854775808 <=? 10 * i + (c - 48)) with false by lia.
    rb; [apply runs_ret|]. rewrite wrap64_small by lia.
    eapply runs_strengthen; [apply IH; auto; lia|lia].
Qed.

Lemma runs_dim_loop st v : ends_ident v -> Forall okc v -> forall t c d f dim,
  Forall (fun c => encodable c /\ is_identifier c = true) (c :: t) -> (length t + 1 < f)%nat -> (d < 16)%nat ->
  runs st d (t ++ v) (dim_loop f c dim) (dim ++ utf8s (map tolower (c :: t)), 0) (S d) v.
Proof.
  intros Hv Hk. pose proof (ends_hd v Hv) as (Hv1 & Hv2).
  induction t as [|x t IH]; intros c d f dim Ht Hf Hd; inversion Ht as [|? ? (He & Hi) Ht']; subst.
  - destruct f as [|[|f]]; [cbn in Hf; lia|cbn in Hf; lia|]. cbn [app].
    cbn [dim_loop]. no. rewrite Hi. cbn [negb].
    rb; [apply runs_wctomb; now apply encodable_tolower|]. rb; [apply runs_getc|].
    no. rewrite Hv1. cbn [negb]. rb; [apply runs_unget_hd; [lia|assumption]|].
    cbn [map]. rewrite utf8s_cons. change (utf8s []) with (@nil Z). rewrite app_nil_r.
    eapply runs_weaken; [apply runs_ret|lia].
  - destruct f as [|f]; [cbn in Hf; lia|]. cbn [length] in Hf. cbn [app dim_loop]. no. rewrite Hi. cbn [negb].
    rb; [apply runs_wctomb; now apply encodable_tolower|]. rget.
    replace (dim ++ utf8s (map tolower (c :: x :: t))) with ((dim ++ utf8 (tolower c)) ++ utf8s (map tolower (x :: t)))
      by (rewrite <- app_assoc; reflexivity).
    eapply runs_le; [apply (IH x d)| |]; auto; lia.
Qed.

(** The unit [u] after the digits, followed by [v], cannot be taken for
    something else. *)
Definition unit_ok (u v : list Z) : Prop :=
  Forall (fun c => encodable c /\ is_identifier c = true) u
  /\ ends_ident v
  /\ u <> [45]
  /\ match u with
     | [] => hd (-1) v <> 46 /\ hd (-1) v <> 37
     | c :: t => is_digit c = false /\
                 (c = 101 \/ c = 69 ->
                  let n := hd (-1) (t ++ v) in is_digit n = false /\ n <> 43 /\ n <> 45)
     end.

Definition int_tok (u : list Z) (i : Z) (sign : bool) (p : position) : node :=
  set_bool (set_str (set_int (mk INTEGER p) i) (utf8s (map tolower u))) sign.

Lemma sign_head sg : (if sg =? 45 then -1 else 1) = -1 \/ (if sg =? 45 then -1 else 1) = 1.
Proof. destruct (sg =? 45); auto. Qed.

Lemma dim_not_dash u : Forall (fun c => encodable c /\ is_identifier c = true) u -> u <> [45] ->
  str_eqb (utf8s (map tolower u)) [45] = false.
Proof.
  intros Hu Hn. apply not_true_iff_false. intro E. apply str_eqb_spec in E.
  destruct u as [|c u]; [discriminate|]. cbn [map] in E. rewrite utf8s_cons in E.
  inversion Hu as [|? ? (He & Hi) Hu']; subst.
  destruct (utf8_nonempty (tolower c)) as (b & r & Eb). rewrite Eb in E. cbn [app] in E.
  apply cons_inj in E. destruct E as [E1 E2]. apply app_eq_nil in E2. destruct E2 as [E2 E3].
  destruct u as [|x u]; [|exfalso; revert E3; apply utf8s_not_nil].
  apply Hn. f_equal. unfold encodable, scalar in He.
  assert (tolower c = 45).
  { destruct (Z.lt_ge_cases (tolower c) 128) as [L|G].
    - rewrite utf8_ascii in Eb by (unfold tolower in *; destruct (is_upper c); lia). apply cons_inj in Eb. lia.
    - assert (128 <= b < 256); [|lia]. apply (utf8_bytes_high (tolower c)); [|rewrite Eb; now left].
      split; [lia|]. unfold tolower in *. destruct (is_upper c) eqn:Eu; [chars|lia]. }
  unfold tolower in *. destruct (is_upper c) eqn:Eu; [chars|assumption].
Qed.

Definition sign_val (sg : Z) : Z := if sg =? 45 then -1 else 1.

Lemma runs_exponent st u v : unit_ok u v -> Forall okc v -> Forall okc u ->
  runs st 2 (tl (u ++ v)) (lex_exponent (hd (-1) (u ++ v))) (hd (-1) (u ++ v), 0) 3 (tl (u ++ v)).
Proof.
  intros (H1 & H2 & H3 & H4) Hv Hu. unfold lex_exponent. destruct u as [|c t]; cbn [app hd tl] in *.
  - apply ends_hd in H2. no. eapply runs_weaken; [apply runs_ret|lia].
  - destruct ((c =? 101) || (c =? 69)) eqn:E; [|eapply runs_weaken; [apply runs_ret|lia]].
    destruct H4 as [_ H4]. specialize (H4 ltac:(lia)). cbv zeta in H4. destruct H4 as (H5 & H6 & H7).
    rb; [apply runs_getc|]. rb; [no; apply runs_ret|]. rewrite H5.
    rb; [apply runs_unget_hd; [cbn; lia|]|].
    + apply Forall_app. inversion Hu. auto.
    + eapply runs_weaken; [apply runs_ret|cbn; lia].
Qed.

(** The number, after its sign. *)
Lemma runs_number st lm c0 d0 ds u v w :
  (c0 = 43 \/ c0 = 45) /\ w = d0 :: ds ++ u ++ v \/ c0 = d0 /\ w = ds ++ u ++ v ->
  Forall (fun c => is_digit c = true) (d0 :: ds) -> unit_ok u v -> Forall okc v -> Forall okc u ->
  dec_value 0 (d0 :: ds) < 9223372036854775808 ->
  runs st 2 w (number lm c0)
    (int_tok u (dec_value 0 (d0 :: ds) * sign_val c0) ((c0 =? 45) || (c0 =? 43)) st) 4 v.
Proof.
  intros Hw Hds Hu Hv Hku Hmax. inversion Hds as [|? ? Hd0 Hds']; subst.
  assert (H09 : 48 <= d0 <= 57) by (clear - Hd0; chars).
  unfold number. cbv zeta. set (sg := (c0 =? 45) || (c0 =? 43)). fold (sign_val c0).
  eapply (runs_bind st 2 w _ d0 2 (ds ++ u ++ v)).
  { destruct Hw as [(Hc & ->)|(-> & ->)]; unfold sg.
    - yes. eapply runs_weaken; [apply runs_getc_cons|cbn; lia].
    - no. apply runs_ret. }
  rewrite Hd0.
  assert (Hval : dec_value (d0 - 48) ds = dec_value 0 (d0 :: ds)) by reflexivity.
  assert (Hhd : is_digit (hd (-1) (u ++ v)) = false).
  { destruct Hu as (H1 & H2 & _ & H4). destruct u as [|c t]; cbn [app hd].
    - apply ends_hd in H2. chars.
    - apply H4. }
  rb.
  { apply runs_with_fuel. intros k Hk. apply runs_int_loop; auto; [lia|].
    rewrite app_length in Hk. lia. }
  cbv beta iota. rewrite Hval.
  assert (0 <= dec_value 0 (d0 :: ds)) by (rewrite <- Hval; pose proof (dec_value_ge ds (d0 - 48) ltac:(lia) Hds'); lia).
  clear Hval. set (i := dec_value 0 (d0 :: ds)) in *. clearbody i.
  assert (H46 : hd (-1) (u ++ v) <> 46).
  { destruct Hu as (H1 & H2 & _ & H4). destruct u as [|c t]; cbn [app hd]; [apply H4|].
    inversion H1 as [|? ? (_ & Hi) _]; subst. clear - Hi. intros ->. discriminate. }
  replace (hd (-1) (u ++ v) =? 46) with false by lia.
  rb; [apply runs_ret|]. cbv beta iota.
  rb; [apply runs_exponent; assumption|]. cbv beta iota.
  eapply (runs_bind st 3 _ _ (utf8s (map tolower u), match u with [] => hd (-1) v | _ => 0 end, f_1) 4 v).
  { destruct Hu as (H1 & H2 & H3 & H4). destruct u as [|c t]; cbn [app hd tl].
    - pose proof (ends_hd _ H2) as (H5 & H6). rewrite H5. cbn [orb].
      replace (hd (-1) v =? 92) with false by lia. replace (hd (-1) v =? 37) with false by (destruct H4; lia).
      rb; [apply runs_unget_hd; [lia|assumption]|]. apply runs_ret.
    - inversion H1 as [|? ? (He & Hi) H1']; subst. rewrite Hi. cbn [orb].
      rb. { apply runs_with_fuel. intros k Hk. apply runs_dim_loop; auto; [|lia].
            rewrite app_length in Hk. lia. }
      cbv beta iota. cbn [app]. rewrite dim_not_dash by assumption. apply runs_ret. }
  cbv beta iota. change (SFeqb f_1 f_1) with true. change (negb (0 =? 0) || negb true) with false. cbv iota.
  assert (Hi64 : int64_ok (i * sign_val c0) = true).
  { unfold int64_ok, sign_val. destruct (c0 =? 45); lia. }
  rewrite Hi64. cbn [negb]. rb; [apply runs_new_node|]. apply runs_ret.
Qed.

Definition sign_text (sg : Z) : list Z := if sg =? 0 then [] else [sg].

Lemma runs_int_dispatch st lm sg d0 ds u v : sg = 0 \/ sg = 43 \/ sg = 45 ->
  Forall (fun c => is_digit c = true) (d0 :: ds) -> unit_ok u v -> Forall okc v -> Forall okc u ->
  dec_value 0 (d0 :: ds) < 9223372036854775808 ->
  let w := sign_text sg ++ d0 :: ds ++ u ++ v in
  runs st 2 (tl w) (dispatch lm (hd (-1) w))
    (Some (int_tok u (dec_value 0 (d0 :: ds) * sign_val sg) (negb (sg =? 0)) st)) 4 v.
Proof.
  intros Hsg Hds Hu Hv Hku Hmax w. subst w. inversion Hds as [|? ? Hd0 Hds']; subst.
  assert (H09 : 48 <= d0 <= 57) by (clear - Hd0; chars).
  destruct Hsg as [->|Hsg].
  - change (sign_text 0) with (@nil Z). cbn [app hd tl]. unfold dispatch.
    do 30 (no || idtac). rewrite Hd0. rb; [apply (runs_number st lm d0 d0 ds u v); auto|].
    replace (sign_val d0) with 1 by (unfold sign_val; replace (d0 =? 45) with false by lia; reflexivity).
    replace ((d0 =? 45) || (d0 =? 43)) with false by lia. apply runs_ret.
  - unfold sign_text. replace (sg =? 0) with false by lia. cbn [app hd tl].
    assert (Hn : runs st 2 (d0 :: ds ++ u ++ v) (number lm sg)
       (int_tok u (dec_value 0 (d0 :: ds) * sign_val sg) true st) 4 v).
    { replace true with ((sg =? 45) || (sg =? 43)) by lia. apply (runs_number st lm sg d0 ds u v); solve [auto | left; split; [lia|reflexivity]]. }
    unfold dispatch. destruct Hsg as [->| ->].
    + do 16 (no || idtac). change (43 =? 43) with true. cbv iota.
      rget. rewrite Hd0. rb; [apply runs_ungetc; [unfold okc; lia|cbn; lia]|].
      cbn [pred]. rb; [exact Hn|apply runs_ret].
    + do 17 (no || idtac). change (45 =? 45) with true. cbv iota.
      rget. rewrite Hd0. rb; [apply runs_ungetc; [unfold okc; lia|cbn; lia]|].
      cbn [pred]. rb; [exact Hn|apply runs_ret].
Qed.

Lemma digit_text ds : Forall (fun c => is_digit c = true) ds -> Forall textc ds.
Proof. apply Forall_impl. intros c H. apply textc_ascii. chars. Qed.

Lemma unit_text u : Forall (fun c => encodable c /\ is_identifier c = true) u -> ~ In 65533 u -> Forall textc u.
Proof.
  intros H Hn. apply Forall_forall. intros c Hc. rewrite Forall_forall in H. destruct (H c Hc) as (He & Hi).
  split; [assumption|]. split; [intros ->; auto|]. chars.
Qed.

Lemma int_back lm sg ds u rest p : sg = 0 \/ sg = 43 \/ sg = 45 ->
  ds <> [] -> Forall (fun c => is_digit c = true) ds -> dec_value 0 ds < 9223372036854775808 ->
  ~ In 65533 u -> unit_ok u (normalize rest) -> Forall clean_char rest ->
  exists s', next_token lm (new_lexer (sign_text sg ++ ds ++ utf8s u ++ utf8s rest) p)
             = Ret (int_tok u (dec_value 0 ds * sign_val sg) (negb (sg =? 0)) p) s'
             /\ holds s' (normalize rest) /\ l_log s' = [].
Proof.
  intros Hsg Hn Hds Hmax H65 Hu Hr. set (a := sign_text sg ++ ds ++ u).
  assert (Htu : Forall textc u) by (apply unit_text; [apply Hu|assumption]).
  assert (Ha : Forall textc a).
  { unfold a. repeat (apply Forall_app; split); auto using digit_text.
    unfold sign_text. destruct (sg =? 0) eqn:E; constructor; [apply textc_ascii; lia|constructor]. }
  pose proof (holds_text a rest p Ha Hr) as H0.
  assert (Ea : utf8s a ++ utf8s rest = sign_text sg ++ ds ++ utf8s u ++ utf8s rest).
  { unfold a. rewrite !utf8s_app, (utf8s_ascii (sign_text sg)), (utf8s_ascii ds), <- !app_assoc; [reflexivity| |].
    - revert Hds. apply Forall_impl. intros c Hc. chars.
    - unfold sign_text. destruct (sg =? 0); repeat constructor; lia. }
  rewrite Ea in H0. unfold a in H0. rewrite <- !app_assoc in H0.
  destruct ds as [|d0 ds]; [congruence|].
  edestruct (next_token_runs' lm _ _ (int_tok u (dec_value 0 (d0 :: ds) * sign_val sg) (negb (sg =? 0))) 4 (normalize rest) H0)
    as (s' & E & K & _ & L); [cbn; lia| |].
  - intro st. apply runs_int_dispatch; auto; [now apply normalize_ok|].
    revert Htu. apply Forall_impl. apply textc_okc.
  - exists s'. repeat split; auto.
Qed.
