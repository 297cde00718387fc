(** * C56: escape sequences stand for their character *)

From Coq Require Import String ZArith List Bool Lia ZifyBool.
From Verif Require Import Base Utf8 Utf8Spec UnicodeRange Lexer LexSpec Utf8Proofs UrangeProofs LexerWp View OutText
  TextSpec RoundString RoundUrl RoundIdent RoundInt RoundRange Ops Props_Lexer Props_Round EscapeSpec.
Import ListNotations.
Open Scope string_scope. Open Scope list_scope. Open Scope Z_scope.
Ltac Zify.zify_post_hook ::= idtac.

Lemma hex_is c : is_hex c = true <-> hex_char c.
Proof.
  pose proof (hex_not c) as H. unfold hex_char, digit in *. destruct (is_hex c) eqn:E; [|split; [discriminate|tauto]].
  split; [intros _|reflexivity]. clear H. unfold is_hex, is_digit in E. lia.
Qed.
Lemma hex_digit_bounds c : hex_char c -> 0 <= hex_digit c < 16.
Proof. unfold hex_char, digit, hex_digit. destruct (c <=? 57) eqn:E; [lia|]. destruct (c <=? 70) eqn:E2; lia. Qed.
Lemma runs_hex_to_dec st d v c : hex_char c -> runs st d v (hex_to_dec c) (hex_digit c) d v.
Proof.
  intro H. unfold hex_to_dec, hex_char, digit in *. unfold hex_digit.
  destruct (c <=? 57) eqn:E1; [yes; apply runs_ret|]. no.
  destruct (c <=? 70) eqn:E2.
  - yes. replace (c - 65 + 10) with (c - 55) by lia. apply runs_ret.
  - no. yes. replace (c - 97 + 10) with (c - 87) by lia. apply runs_ret.
Qed.
Lemma hex_fold_ge ds : forall a, 0 <= a -> Forall hex_char ds -> a <= fold_left (fun a d => 16 * a + hex_digit d) ds a.
Proof.
  induction ds as [|d ds IH]; intros a Ha H; [cbn; lia|]. inversion H as [|? ? Hd Hs]; subst. cbn [fold_left].
  pose proof (hex_digit_bounds d Hd). specialize (IH (16 * a + hex_digit d)). assert (0 <= 16 * a + hex_digit d) by lia.
  specialize (IH H1 Hs). lia.
Qed.

Lemma runs_escape_hex st v : forall ds k wc d sp, 0 <= wc -> Forall hex_char ds -> (length ds <= k)%nat ->
  let n := fold_left (fun a d => 16 * a + hex_digit d) ds wc in
  0 < n < 1114112 -> Forall okc v ->
  (sp = [] /\ (length ds = k \/ (~ hex_char (hd (-1) v) /\ ~ blank (hd (-1) v)))) \/ ((length ds < k)%nat /\ (sp = [32] \/ sp = [9])) ->
  (d <= 2)%nat -> runs st d (ds ++ sp ++ v) (escape_hex k wc) n 2 v.
Proof.
  induction ds as [|h ds IH]; intros k wc d sp Hwc Hds Hk n Hn Hv Hsp Hd.
  - cbn in n. subst n. assert (F : forall d, (d <= 2)%nat -> runs st d v (if wc =? 0 then err "escape character '\\0' is not acceptable in CSS." ;;; ret 65533 else ret wc) wc 2 v).
    { intros d0 Hd0. no. eapply runs_weaken; [apply runs_ret|exact Hd0]. }
    destruct k as [|k]; cbn [escape_hex].
    + destruct Hsp as [[-> _]|[H _]]; [|cbn in H; lia]. cbn [app]. now apply F.
    + destruct Hsp as [[-> H]|[_ H]].
      * cbn [app]. destruct H as [H|[H1 H2]]; [discriminate|].
        rb; [apply runs_getc|]. apply hex_not in H1. rewrite H1. cbn [negb]. apply blank_not in H2. rewrite H2.
        rb; [apply runs_unget_hd; [lia|assumption]|]. apply F. lia.
      * destruct H as [-> | ->]; cbn [app]; rget; yes; (rb; [yes; apply runs_ret|]); apply F; lia.
  - inversion Hds as [|? ? Hh Hs]; subst. destruct k as [|k]; [cbn in Hk; lia|]. cbn [escape_hex app].
    rget. apply hex_is in Hh. rewrite Hh. cbn [negb]. apply hex_is in Hh. rb; [now apply runs_hex_to_dec|]. cbv zeta.
    pose proof (hex_digit_bounds h Hh) as Hb. cbn [fold_left] in n.
    assert (G : 16 * wc + hex_digit h <= n) by (apply hex_fold_ge; [lia|assumption]).
    replace (wc * 16 + hex_digit h) with (16 * wc + hex_digit h) by lia. no.
    apply IH; auto; try lia.
    + cbn in Hk. lia.
    + cbn [length] in Hsp. destruct Hsp as [[-> H]|[H1 H2]]; [left; split; [reflexivity|]|right; split; [lia|assumption]].
      destruct H as [H|H]; [left; lia|right; assumption].
Qed.

Lemma writable_text c : writable c -> encodable c /\ c <> 65533 /\ 0 < c < 1114112.
Proof. unfold writable, encodable, scalar. intros (A & B & C & D). repeat split; auto; try tauto; lia. Qed.

(** The whole escape sequence; [v] is what follows. *)
Lemma runs_escape plain st p v d : proper plain p (hd (-1) v) -> (forall c, p <> Plain c) -> Forall okc v -> (d <= 2)%nat ->
  exists b, source p = 92 :: b /\ b <> [] /\ hd (-1) (b ++ v) <> 10 /\ hd (-1) (b ++ v) <> -1 /\ hd (-1) (b ++ v) <> 65533
    /\ okc (hd (-1) (b ++ v)) /\ runs st d (b ++ v) escape (meaning p) 2 v.
Proof.
  intros H Np Hv Hd. destruct p as [c|c|ds sp]; [now destruct (Np c)| |].
  - destruct H as [Hi Hh]. exists [c]. assert (T : textc c) by (assert (F : Forall textc [c]) by (apply inline_text; now constructor); now inversion F).
    pose proof (textc_range c T) as R. destruct T as (T1 & T2 & T3 & T4 & T5).
    split; [reflexivity|]. split; [discriminate|]. cbn [app hd]. repeat (split; [assumption || lia|]). split; [unfold okc; lia|].
    eapply runs_weaken; [apply runs_escape_plain; [unfold textc; auto|now apply hex_not]|lia].
  - destruct H as (Hl & Hx & Hw & Hs). destruct ds as [|h ds]; [cbn in Hl; lia|]. inversion Hx as [|? ? Hh Hx']; subst.
    pose proof Hh as Hh2. unfold hex_char, digit in Hh2. exists ((h :: ds) ++ sp).
    split; [reflexivity|]. split; [discriminate|]. cbn [app hd]. repeat (split; [lia|]). split; [unfold okc; lia|].
    unfold escape. rget. do 3 no. apply hex_is in Hh. rewrite Hh. apply hex_is in Hh. rb; [now apply runs_hex_to_dec|].
    rewrite <- app_assoc. cbn [meaning]. unfold hex_number. cbn [fold_left]. rewrite Z.mul_0_r, Z.add_0_l.
    destruct (writable_text _ Hw) as (W1 & W2 & W3). unfold hex_number in W3. cbn [fold_left] in W3. rewrite Z.mul_0_r, Z.add_0_l in W3.
    pose proof (hex_digit_bounds h Hh). cbn [length] in Hl, Hs. 
    apply runs_escape_hex; auto; try lia.
    destruct Hs as [[-> Hs]|[Hs1 Hs2]]; [left; split; [reflexivity|]|right; split; [lia|assumption]].
    destruct Hs as [Hs|Hs]; [left; lia|right; assumption].
Qed.

Lemma proper_source plain p n : proper plain p n -> Forall textc (source p).
Proof.
  intro H. assert (T92 : textc 92) by (apply textc_ascii; lia). destruct p as [c|c|ds sp]; cbn [source].
  - destruct H as [H _]. apply inline_text. now constructor.
  - destruct H as [H _]. constructor; [assumption|]. apply inline_text. now constructor.
  - destruct H as (_ & H & _ & S). constructor; [assumption|]. apply Forall_app. split.
    + revert H. apply Forall_impl. intros a A. apply textc_ascii. unfold hex_char, digit in A. lia.
    + destruct S as [[-> _]|[_ [-> | ->]]]; [constructor| |]; (constructor; [|constructor]); [apply textc_ascii; lia|].
      unfold textc. split; [apply encodable_ascii; lia|lia].
Qed.
Lemma sources_text plain l after : well_written plain l after -> Forall textc (sources l).
Proof.
  induction l as [|p r IH]; intro H; [constructor|]. cbn [sources flat_map]. destruct H as [H1 H2]. apply Forall_app.
  split; [eapply proper_source; exact H1|now apply IH].
Qed.
Lemma well_okc plain l v : well_written plain l v -> Forall okc v -> Forall okc (sources l ++ v).
Proof.
  intros H Hv. apply Forall_app. split; [|assumption]. apply sources_text in H. revert H. apply Forall_impl. apply textc_okc.
Qed.
Lemma meaning_ok plain p n : proper plain p n -> encodable (meaning p) /\ meaning p <> 65533 /\ 0 < meaning p.
Proof.
  destruct p as [c|c|ds sp]; cbn [proper meaning].
  - intros [H _]. assert (F : Forall textc [c]) by (apply inline_text; now constructor). inversion F as [|? ? T _]; subst.
    pose proof (textc_range c T). destruct T as (T1 & T2 & _). split; [assumption|]. split; [assumption|lia].
  - intros [H _]. assert (F : Forall textc [c]) by (apply inline_text; now constructor). inversion F as [|? ? T _]; subst.
    pose proof (textc_range c T). destruct T as (T1 & T2 & _). split; [assumption|]. split; [assumption|lia].
  - intros (_ & _ & H & _). destruct (writable_text _ H) as (A & B & C). split; [assumption|]. split; [assumption|lia].
Qed.

(** ** Strings *)
Lemma runs_string_pieces st q v : (q = 34 \/ q = 39) -> Forall okc v -> forall l f acc,
  well_written (fun c => c <> q) l (q :: v) -> (length (sources l ++ q :: v) < f)%nat ->
  runs st 2 (sources l ++ q :: v) (string_loop f q acc) (acc ++ utf8s (map meaning l)) 2 v.
Proof.
  intros Hq Hv. assert (Hqv : Forall okc (q :: v)) by (constructor; [unfold okc; lia|assumption]).
  induction l as [|p l IH]; intros f acc Hl Hf.
  - destruct f as [|f]; [cbn in Hf; lia|]. cbn [sources flat_map app string_loop map].
    rget. do 2 no. yes. cbn. rewrite app_nil_r. eapply runs_weaken; [apply runs_ret|cbn; lia].
  - destruct Hl as [Hp Hl]. rewrite first_hd in Hp. change (sources (p :: l)) with (source p ++ sources l) in *. rewrite <- app_assoc in *. cbn [map].
    destruct (meaning_ok _ _ _ Hp) as (M1 & M2 & M3). pose proof (well_okc _ _ _ Hl Hqv) as Hk.
    replace (acc ++ utf8s (meaning p :: map meaning l)) with ((acc ++ utf8 (meaning p)) ++ utf8s (map meaning l)) by (rewrite <- app_assoc; reflexivity).
    destruct f as [|f]; [lia|]. cbn [string_loop].
    assert (NP : (exists c, p = Plain c) \/ (forall c, p <> Plain c)).
    { destruct p; [left; eauto|right; discriminate|right; discriminate]. }
    destruct NP as [(c & ->)|Np].
    + destruct Hp as (Hi & H92 & Hpl). cbn [source app meaning] in *.
      assert (T : textc c) by (assert (F : Forall textc [c]) by (apply inline_text; now constructor); now inversion F).
      pose proof (textc_range c T). destruct T as (T1 & T2 & T3 & T4 & T5).
      rget. do 3 no. rb; [no; apply runs_ret|]. yes. rb; [apply runs_wctomb; assumption|].
      eapply runs_strengthen; [apply IH; [assumption|cbn [length] in Hf; lia]|cbn; lia].
    + destruct (runs_escape _ st p _ 2 Hp Np Hk ltac:(lia)) as (b & Eb & Nb & B1 & B2 & B3 & B4 & R).
      rewrite Eb in *. cbn [app] in *. rget. do 3 no. rb.
      { yes. rb; [apply runs_getc|]. do 3 no.
        rb; [apply runs_ungetc; [assumption|cbn; lia]|]. cbn [pred].
        replace (hd (-1) (b ++ sources l ++ q :: v) :: tl (b ++ sources l ++ q :: v)) with (b ++ sources l ++ q :: v)
          by (destruct b; [contradiction|reflexivity]).
        eapply runs_strengthen; [exact R|lia]. }
      yes. rb; [apply runs_wctomb; assumption|].
      eapply runs_strengthen; [apply IH; [assumption|cbn [length] in Hf; rewrite app_length in Hf; lia]|cbn; lia].
Qed.

Lemma string_pieces_back lm q l rest p : (q = 34 \/ q = 39) -> well_written (fun c => c <> q) l (q :: normalize rest) -> Forall clean_char rest ->
  exists s', next_token lm (new_lexer (utf8s (q :: sources l ++ [q]) ++ utf8s rest) p) = Ret (set_str (mk STRING p) (utf8s (map meaning l))) s'
    /\ holds s' (normalize rest) /\ l_log s' = [].
Proof.
  intros Hq Hl Hr. assert (Htq : textc q) by (apply textc_ascii; lia).
  assert (Ha : Forall textc (q :: sources l ++ [q])).
  { constructor; [assumption|]. apply Forall_app. split; [eapply sources_text; exact Hl|]. now constructor. }
  pose proof (holds_text _ rest p Ha Hr) as H0.
  edestruct (next_token_runs' lm _ _ (fun p => set_str (mk STRING p) (utf8s (map meaning l))) 2 (normalize rest) H0) as (s' & E & K & _ & L); [cbn; lia| |eauto].
  intro st. cbn [app hd tl]. rewrite <- app_assoc. cbn [app]. unfold dispatch. do 26 (no || idtac). yes.
  rb. { unfold lex_string. apply runs_with_fuel. intros k Hk. apply runs_string_pieces; [assumption|now apply normalize_ok|assumption|lia]. }
  rb; [apply runs_new_node|]. apply runs_ret.
Qed.

(** ** Identifiers *)
Lemma runs_ident_pieces st v : ends_ident v -> Forall okc v -> forall l d f id low,
  well_written name_char l v -> (length (sources l) < f)%nat -> (d <= 2)%nat ->
  runs st d (sources l ++ v) (ident_loop f id low) (id ++ utf8s (map meaning l), low ++ utf8s (map tolower (map meaning l)), hd (-1) v) 2 (tl v).
Proof.
  intros Hv Hk. apply ends_hd in Hv. destruct Hv as [Hv1 Hv2].
  induction l as [|p l IH]; intros d f id low Hl Hf Hd.
  - destruct f as [|f]; [cbn in Hf; lia|]. cbn [sources flat_map app ident_loop].
    rb; [apply runs_getc|]. no. rewrite Hv1. cbn [negb]. cbn. rewrite !app_nil_r.
    eapply runs_weaken; [apply runs_ret|lia].
  - destruct Hl as [Hp Hl]. rewrite first_hd in Hp. change (sources (p :: l)) with (source p ++ sources l) in *. rewrite <- app_assoc. rewrite app_length in Hf.
    destruct (meaning_ok _ _ _ Hp) as (M1 & M2 & M3). pose proof (well_okc _ _ _ Hl Hk) as Hk'. cbn [map].
    replace (id ++ utf8s (meaning p :: map meaning l)) with ((id ++ utf8 (meaning p)) ++ utf8s (map meaning l)) by (rewrite <- app_assoc; reflexivity).
    replace (low ++ utf8s (tolower (meaning p) :: map tolower (map meaning l))) with ((low ++ utf8 (tolower (meaning p))) ++ utf8s (map tolower (map meaning l)))
      by (rewrite <- app_assoc; reflexivity).
    destruct f as [|f]; [lia|]. cbn [ident_loop].
    assert (NP : (exists c, p = Plain c) \/ (forall c, p <> Plain c)).
    { destruct p; [left; eauto|right; discriminate|right; discriminate]. }
    destruct NP as [(c & ->)|Np].
    + destruct Hp as (Hi & H92 & Hpl). cbn [source app meaning length] in *. apply name_is in Hpl.
      rget. no. rewrite Hpl. cbn [negb].
      rb; [apply runs_wctomb; assumption|]. rb; [apply runs_wctomb; now apply encodable_tolower|].
      apply IH; [assumption|lia|lia].
    + destruct (runs_escape _ st p _ (pred d) Hp Np Hk' ltac:(lia)) as (b & Eb & Nb & B1 & B2 & B3 & B4 & R).
      rewrite Eb in *. cbn [app length] in *. rget. yes. rb; [exact R|]. replace (meaning p =? 65533) with false by lia.
      rb; [apply runs_wctomb; assumption|]. rb; [apply runs_wctomb; now apply encodable_tolower|].
      apply IH; [assumption|lia|lia].
Qed.

Lemma ident_pieces_back lm l rest p : starts_name l -> well_written name_char l (normalize rest) -> Forall clean_char rest ->
  ends_ident (normalize rest) -> hd (-1) (normalize rest) <> 40 -> hd (-1) (normalize rest) <> 43 ->
  exists s', next_token lm (new_lexer (utf8s (sources l) ++ utf8s rest) p) = Ret (ident_tok (map meaning l) p) s'
    /\ holds s' (normalize rest) /\ l_log s' = [].
Proof.
  intros Hst Hl Hr Hend H40 H43. pose proof (holds_text _ rest p (sources_text _ _ _ Hl) Hr) as H0.
  pose proof (normalize_ok rest Hr) as Hv. set (v := normalize rest) in *. clearbody v.
  edestruct (next_token_runs' lm _ _ (ident_tok (map meaning l)) 3 v H0) as (s' & E & K & _ & L); [cbn; lia| |eauto].
  intro st. destruct l as [|x l]; [contradiction|]. destruct Hl as [Hp Hl]. rewrite first_hd in Hp.
  change (sources (x :: l)) with (source x ++ sources l) in *. rewrite <- app_assoc. cbn [map].
  destruct (meaning_ok _ _ _ Hp) as (M1 & M2 & M3). pose proof (well_okc _ _ _ Hl Hv) as Hk.
  assert (Hrest : runs st 2 (sources l ++ v)
    (b <- wctomb_m (meaning x) ;; low <- wctomb_m (tolower (meaning x)) ;;
     r <- with_fuel (fun f => ident_loop f ([] ++ b) ([] ++ low)) ;;
     (let '(id, low, c) := r in ident_finish IDENTIFIER id low c)) (ident_tok (meaning x :: map meaning l) st) 3 v).
  { rb; [apply runs_wctomb; assumption|]. rb; [apply runs_wctomb; now apply encodable_tolower|].
    rb. { apply runs_with_fuel. intros k Hk2. apply runs_ident_pieces; auto. rewrite app_length in Hk2. lia. }
    cbv beta iota. cbn [app]. exact (runs_ident_finish st (meaning x) (map meaning l) v Hv H40). }
  assert (NP : (exists c, x = Plain c) \/ (forall c, x <> Plain c)).
  { destruct x; [left; eauto|right; discriminate|right; discriminate]. }
  destruct NP as [(c & ->)|Np].
  - cbn [source app meaning hd tl] in *. cbn [starts_name] in Hst. unfold ascii_letter in Hst.
    assert (Es : is_start_identifier c = true).
    { clear - Hst M2. unfold is_start_identifier, is_upper, is_lower. lia. }
    
    assert (Hid : runs st 2 (sources l ++ v) (identifier c) (ident_tok (c :: map meaning l) st) 3 v).
    { unfold identifier. cbv zeta. replace (c =? 37) with false by lia.
      replace (c =? 64) with false by lia. cbn [orb].
      rb; [apply runs_ret|]. replace (c =? 45) with false by lia.
      rb; [apply runs_ret|]. cbv beta iota. no. rewrite Es. exact Hrest. }
    unfold dispatch. rewrite Es.
    destruct ((c =? 117) || (c =? 85)) eqn:Eu.
    + do 32 (no || idtac). cbv iota. rb; [apply runs_getc|].
      assert (N43 : hd (-1) (sources l ++ v) <> 43).
      { destruct l as [|y l]; [exact H43|]. destruct Hl as [Hy _]. destruct y as [c2|c2|ds sp]; cbn [sources flat_map source app hd]; [|lia|lia].
        destruct Hy as (_ & _ & Hy). unfold name_char, ascii_letter, digit in Hy. lia. }
      no. rb; [apply runs_unget_hd; [cbn; lia|assumption]|]. rb; [exact Hid|apply runs_ret].
    + do 33 (no || idtac). rb; [exact Hid|apply runs_ret].
  - destruct (runs_escape _ st x _ 2 Hp Np Hk ltac:(lia)) as (b & Eb & Nb & B1 & B2 & B3 & B4 & R).
    rewrite Eb. cbn [app hd tl]. unfold dispatch. do 30 (no || idtac). yes. no.
    eapply (runs_bind st _ _ _ (ident_tok (meaning x :: map meaning l) st) 3 v);
      [|change (is (ident_tok (meaning x :: map meaning l) st) EOF_TOKEN) with false; apply runs_ret].
    unfold identifier. cbv zeta. change (92 =? 37) with false. change (92 =? 64) with false. cbn [orb].
    rb; [apply runs_ret|]. change (92 =? 45) with false.
    rb; [apply runs_ret|]. cbv beta iota. yes. rb; [exact R|]. replace (meaning x =? 65533) with false by lia. exact Hrest.
Qed.
