(** * Reading back identifiers *)

From Coq Require Import String ZArith List Bool Lia Arith ZifyBool.
From Verif Require Import Base Utf8 Utf8Spec UnicodeRange Lexer LexSpec Utf8Proofs LexerWp Utf8Stream View OutText RoundString RoundUrl.
Import ListNotations.
Open Scope string_scope. Open Scope list_scope. Open Scope Z_scope.
Ltac Zify.zify_post_hook ::= idtac.

(** Escaping characters instead of bytes. *)
Definition sep (r : list Z) : list Z :=
  match r with n :: _ => if is_hex n then [32] else [] | [] => [] end.
Definition esc1 (first : bool) (c : Z) (r : list Z) : list Z :=
  if (first && is_start_identifier c) || (negb first && is_identifier c) then [c]
  else 92 :: (if is_digit c then 51 :: c :: sep r else [c]).
Fixpoint escape_chars (first : bool) (l : list Z) : list Z :=
  match l with
  | [] => []
  | c :: r => esc1 first c r ++ escape_chars false r
  end.

Lemma take_bytes_app a b : take_bytes (length a) (a ++ b) = Some (a, b).
Proof. induction a as [|x a IH]; [reflexivity|]. cbn. now rewrite IH. Qed.

Lemma utf8_head c b r : 0 < c < 1114112 -> utf8 c = b :: r -> mb_len b = length (utf8 c).
Proof.
  intros H E. unfold utf8 in *. unfold mb_len.
  assert (64 <= c / 64 \/ c < 4096) by (destruct (Z.lt_ge_cases c 4096); [auto|left]; apply Z.div_le_lower_bound; lia).
  destruct (c <? 128) eqn:E1.
  - injection E as <- _. replace (240 <=? c) with false by lia. replace (224 <=? c) with false by lia.
    replace (192 <=? c) with false by lia. reflexivity.
  - destruct (c <? 2048) eqn:E2; [|destruct (c <? 65536) eqn:E3]; apply cons_inj in E; destruct E as [Hb Hr]; subst b;
    cbn [length].
    + assert (0 <= c / 64 < 32) by (split; [apply Z.div_pos|apply Z.div_lt_upper_bound]; lia).
      replace (240 <=? 192 + c / 64) with false by lia. replace (224 <=? 192 + c / 64) with false by lia.
      replace (192 <=? 192 + c / 64) with true by lia. reflexivity.
    + assert (0 <= c / 4096 < 16) by (split; [apply Z.div_pos|apply Z.div_lt_upper_bound]; lia).
      replace (240 <=? 224 + c / 4096) with false by lia.
      replace (224 <=? 224 + c / 4096) with true by lia. reflexivity.
    + assert (0 <= c / 262144) by (apply Z.div_pos; lia).
      replace (240 <=? 240 + c / 262144) with true by lia. reflexivity.
Qed.

Lemma mbtowc_utf8 c : encodable c -> mbtowc (utf8 c) = inr c.
Proof.
  intros (H1 & H2 & H3). apply decode_encode; [unfold scalar in H1; lia|].
  now apply wctomb_valid.
Qed.

Lemma sep_utf8s r : Forall textc r ->
  (match utf8s r with n :: _ => if is_hex n then [32] else [] | [] => [] end) = sep r.
Proof.
  intro H. destruct r as [|c r]; [reflexivity|]. inversion H as [|? ? Hc Hr]; subst.
  pose proof (textc_range c Hc) as Hg. rewrite utf8s_cons. cbn [sep].
  destruct (Z.lt_ge_cases c 128).
  - rewrite utf8_ascii by lia. reflexivity.
  - destruct (utf8_nonempty c) as (b & t & E). rewrite E. cbn [app].
    assert (128 <= b < 256) by (apply (utf8_bytes_high c); [lia|rewrite E; now left]).
    replace (is_hex b) with false by (symmetry; chars).
    replace (is_hex c) with false by (symmetry; chars). reflexivity.
Qed.

Lemma escape_loop_utf8s l : forall fuel first, Forall textc l -> (length l < fuel)%nat ->
  escape_loop fuel first (utf8s l) = Some (utf8s (escape_chars first l)).
Proof.
  induction l as [|c l IH]; intros fuel first Hl Hf; (destruct fuel as [|f]; [cbn in Hf; lia|]).
  - reflexivity.
  - inversion Hl as [|? ? Hc Hl']; subst. pose proof (textc_range c Hc) as Hr.
    assert (Hs := sep_utf8s l Hl').
    cbn [escape_loop escape_chars]. rewrite utf8s_app. rewrite utf8s_cons.
    destruct (utf8_nonempty c) as (b & t & E). rewrite E at 1. cbn [app].
    rewrite (utf8_head c b t) by (assumption || lia). rewrite take_bytes_app.
    destruct Hc as (He & _). rewrite mbtowc_utf8 by assumption.
    cbn [length] in Hf. rewrite IH by (assumption || lia).
    f_equal. f_equal. unfold esc1.
    destruct ((first && is_start_identifier c) || (negb first && is_identifier c)).
    + rewrite utf8s_cons. change (utf8s []) with (@nil Z). now rewrite app_nil_r.
    + rewrite utf8s_cons, (utf8_ascii 92) by lia. cbn [app]. f_equal.
      destruct (is_digit c) eqn:Ed.
      * rewrite !utf8s_cons, (utf8_ascii 51), (utf8_ascii c) by (lia || chars). cbn [app]. f_equal. f_equal.
        rewrite Hs. symmetry. apply utf8s_ascii. unfold sep. destruct l as [|n l]; [constructor|].
        destruct (is_hex n); repeat constructor; lia.
      * rewrite utf8s_cons. change (utf8s []) with (@nil Z). now rewrite app_nil_r.
Qed.

Lemma escape_id_utf8s l : Forall textc l ->
  escape_id (utf8s l) = Some (utf8s (escape_chars true l)).
Proof.
  intro H. unfold escape_id. rewrite c_str_plain by now apply utf8s_nonzero, textc_nz.
  apply escape_loop_utf8s; [assumption|]. pose proof (utf8s_length l). lia.
Qed.

Lemma encodable_tolower c : encodable c -> encodable (tolower c).
Proof.
  intro H. unfold tolower. destruct (is_upper c) eqn:E; [|assumption].
  apply encodable_ascii. chars.
Qed.

Definition ends_ident (v : list Z) : Prop :=
  match v with [] => True | c :: _ => is_identifier c = false /\ c <> 92 end.

Lemma ends_hd v : ends_ident v -> is_identifier (hd (-1) v) = false /\ hd (-1) v <> 92.
Proof. destruct v; cbn; [split; [reflexivity|lia]|auto]. Qed.

Lemma runs_ident_loop st v : ends_ident v -> forall l d f id low, Forall textc l ->
  (length l < f)%nat -> (d < 3)%nat ->
  runs st d (escape_chars false l ++ v) (ident_loop f id low)
    (id ++ utf8s l, low ++ utf8s (map tolower l), hd (-1) v) d (tl v).
Proof.
  intros Hv. apply ends_hd in Hv. destruct Hv as [Hv1 Hv2].
  induction l as [|c l IH]; intros d f id low Hl Hf Hd.
  - destruct f as [|f]; [cbn in Hf; lia|]. cbn [escape_chars app ident_loop].
    rb; [apply runs_getc|]. no. rewrite Hv1. cbn [negb]. cbn. rewrite !app_nil_r.
    eapply runs_weaken; [apply runs_ret|lia].
  - destruct f as [|f]; [cbn in Hf; lia|]. inversion Hl as [|? ? Hc Hl']; subst.
    pose proof (textc_range c Hc) as Hr. assert (He : encodable c) by apply Hc.
    cbn [escape_chars map]. rewrite <- app_assoc.
    replace (id ++ utf8s (c :: l)) with ((id ++ utf8 c) ++ utf8s l) by (rewrite <- app_assoc; reflexivity).
    replace (low ++ utf8s (tolower c :: map tolower l)) with ((low ++ utf8 (tolower c)) ++ utf8s (map tolower l))
      by (rewrite <- app_assoc; reflexivity).
    cbn [length] in Hf. unfold esc1. cbn [andb negb orb]. destruct (is_identifier c) eqn:Ei.
    + cbn [app ident_loop]. rget. no. rewrite Ei. cbn [negb].
      rb; [apply runs_wctomb; assumption|]. rb; [apply runs_wctomb; now apply encodable_tolower|].
      eapply runs_le; [apply (IH d)| |]; auto; lia.
    + replace (is_digit c) with false by (symmetry; chars). cbn [app ident_loop]. rget. yes.
      rb; [apply runs_escape_plain; [assumption|chars]|].
      replace (c =? 65533) with false by (destruct Hc; lia).
      rb; [apply runs_wctomb; assumption|]. rb; [apply runs_wctomb; now apply encodable_tolower|].
      eapply runs_le; [apply (IH d)| |]; auto; lia.
Qed.

(** The identifier is well separated from what follows. *)
Definition separated (l v : list Z) : Prop :=
  match v with
  | [] => True
  | n :: _ => is_identifier n = false /\ n <> 92 /\ n <> 40
              /\ (l = [117] \/ l = [85] -> n <> 43)
              /\ (match l with [c] => is_digit c = true | _ => False end -> is_space n = false)
  end.

Definition ident_tok (l : list Z) (p : position) : node :=
  set_low (set_str (mk IDENTIFIER p) (utf8s l)) (utf8s (map tolower l)).

Lemma utf8s_not_nil c l : utf8s (c :: l) <> [].
Proof. rewrite utf8s_cons. destruct (utf8_nonempty c) as (b & r & ->). discriminate. Qed.

Lemma runs_ident_finish st c l v : Forall okc v -> hd (-1) v <> 40 ->
  runs st 2 (tl v) (ident_finish IDENTIFIER (utf8s (c :: l)) (utf8s (map tolower (c :: l))) (hd (-1) v))
    (ident_tok (c :: l) st) 3 v.
Proof.
  intros Hv H40. unfold ident_finish. pose proof (utf8s_not_nil c l).
  destruct (utf8s (c :: l)) as [|b r] eqn:E; [congruence|]. rewrite <- E.
  replace (hd (-1) v =? 40) with false by lia. cbn [andb].
  rb; [apply runs_unget_hd; [lia|assumption]|]. rb; [apply runs_new_node|]. apply runs_ret.
Qed.

Lemma runs_rest st c l v : ends_ident v -> Forall okc v -> hd (-1) v <> 40 -> Forall textc (c :: l) ->
  runs st 2 (escape_chars false l ++ v)
    (b <- wctomb_m c ;; low <- wctomb_m (tolower c) ;;
     r <- with_fuel (fun f => ident_loop f ([] ++ b) ([] ++ low)) ;;
     (let '(id, low, c) := r in ident_finish IDENTIFIER id low c))
    (ident_tok (c :: l) st) 3 v.
Proof.
  intros Hv Hk H40 Hl. inversion Hl as [|? ? Hc Hl']; subst.
  assert (He : encodable c) by apply Hc.
  rb; [apply runs_wctomb; assumption|]. rb; [apply runs_wctomb; now apply encodable_tolower|].
  rb.
  { apply runs_with_fuel. intros k Hk2. apply runs_ident_loop; auto.
    assert (length l <= length (escape_chars false l))%nat; [|rewrite app_length in Hk2; lia].
    clear. induction l as [|c l IH]; [auto|]. cbn [escape_chars]. rewrite app_length.
    unfold esc1. destruct (_ || _); cbn [length]; lia. }
  cbv beta iota. cbn [app]. exact (runs_ident_finish st c l v Hk H40).
Qed.

Lemma ends_separated l v : separated l v -> ends_ident v /\ hd (-1) v <> 40.
Proof. destruct v; cbn; [split; [auto|lia]|tauto]. Qed.

Lemma is_space_start c : is_start_identifier c = true -> is_space c = false.
Proof. intro. chars. Qed.

Lemma escape_chars_hd l v : separated [] v \/ l <> [] -> Forall textc l ->
  let h := hd (-1) (escape_chars false l ++ v) in
  (l = [] /\ h = hd (-1) v) \/ (exists n r, l = n :: r /\ is_identifier n = true /\ h = n) \/ h = 92.
Proof.
  intros _ _. destruct l as [|n r]; [left; auto|right]. cbn [escape_chars]. unfold esc1. cbn [andb negb orb].
  destruct (is_identifier n) eqn:E; [left; eauto|right; reflexivity].
Qed.

(** Escape of a digit. *)
Lemma runs_escape_digit st c l v : is_digit c = true -> Forall textc l -> separated (c :: l) v -> Forall okc v ->
  Forall okc (escape_chars false l ++ v) ->
  runs st 2 (51 :: c :: sep l ++ escape_chars false l ++ v) escape c 2 (escape_chars false l ++ v).
Proof.
  intros Hd Hl Hs Hv Hk. unfold escape. rget. do 3 no. yes.
  rb; [unfold hex_to_dec; yes; apply runs_ret|]. change (51 - 48) with 3. cbn [escape_hex].
  rget. replace (is_hex c) with true by (symmetry; chars). cbn [negb].
  rb; [unfold hex_to_dec; rewrite Hd; apply runs_ret|].
  replace (3 * 16 + (c - 48)) with c by lia. no.
  assert (Hx : is_hex (hd (-1) (sep l ++ escape_chars false l ++ v)) = false
               /\ (is_space (hd (-1) (sep l ++ escape_chars false l ++ v)) = true <-> sep l = [32])
               /\ (sep l = [] \/ sep l = [32])).
  { destruct l as [|n r].
    - cbn [sep escape_chars app]. destruct v as [|x v]; [repeat split; auto; discriminate|].
      cbn [hd]. destruct Hs as (H1 & H2 & H3 & H4 & H5). rewrite H5 by (cbn; auto).
      split; [chars|]. split; [split; discriminate|auto].
    - cbn [sep]. destruct (is_hex n) eqn:En; [repeat split; auto|].
      cbn [app escape_chars]. unfold esc1. cbn [andb negb orb].
      destruct (is_identifier n) eqn:Ei; cbn [app hd]; (split; [assumption || reflexivity|]);
      (split; [split; [intro; exfalso; chars|discriminate]|auto]). }
  destruct Hx as (Hx1 & Hx2 & Hx3).
  rb; [apply runs_getc|]. rewrite Hx1. cbn [negb]. destruct Hx3 as [Hx3|Hx3]; rewrite Hx3 in *; cbn [app hd tl] in *.
  - replace (is_space (hd (-1) (escape_chars false l ++ v))) with false.
    2:{ symmetry. apply not_true_iff_false. rewrite Hx2. discriminate. }
    rb; [apply runs_unget_hd; [cbn; lia|assumption]|]. no.
    eapply runs_weaken; [apply runs_ret|cbn; lia].
  - rb; [apply runs_ret|]. no. eapply runs_weaken; [apply runs_ret|cbn; lia].
Qed.

Lemma escape_chars_text first l : Forall textc l -> Forall textc (escape_chars first l).
Proof.
  revert first. induction l as [|c l IH]; intros first H; [constructor|]. inversion H; subst.
  cbn [escape_chars]. apply Forall_app. split; [|now apply IH]. unfold esc1.
  destruct (_ || _); [auto|]. constructor; [apply textc_ascii; lia|].
  destruct (is_digit c); [|auto].
  constructor; [apply textc_ascii; lia|]. constructor; [assumption|].
  unfold sep. destruct l as [|n l]; [constructor|]. destruct (is_hex n); constructor; [apply textc_ascii; lia|constructor].
Qed.

Lemma textc_okc c : textc c -> okc c.
Proof. unfold textc, encodable, scalar, okc. lia. Qed.

(** The whole identifier. *)
Lemma runs_identifier st lm c l v : Forall textc (c :: l) -> separated (c :: l) v -> Forall okc v ->
  let w := escape_chars true (c :: l) ++ v in
  runs st 2 (tl w) (dispatch lm (hd (-1) w)) (Some (ident_tok (c :: l) st)) 3 v.
Proof.
  intros Hl Hs Hv w. destruct (ends_separated _ _ Hs) as (Hend & H40).
  inversion Hl as [|? ? Hc Hl']; subst. pose proof (textc_range c Hc) as Hr.
  assert (Hk : Forall okc (escape_chars false l ++ v)).
  { apply Forall_app. split; [|assumption].
    apply (Forall_impl okc textc_okc (escape_chars_text false l Hl')). }
  subst w. cbn [escape_chars]. unfold esc1. cbn [andb negb orb]. rewrite orb_false_r.
  pose proof (runs_rest st c l v Hend Hv H40 Hl) as Hrest.
  destruct (is_start_identifier c) eqn:Es.
  - cbn [app hd tl].
    assert (Hid : runs st 2 (escape_chars false l ++ v) (identifier c) (ident_tok (c :: l) st) 3 v).
    { unfold identifier. cbv zeta. replace (c =? 37) with false by (symmetry; chars).
      replace (c =? 64) with false by (symmetry; chars). cbn [orb].
      rb; [apply runs_ret|]. replace (c =? 45) with false by (symmetry; chars).
      rb; [apply runs_ret|]. cbv beta iota. no. rewrite Es. exact Hrest. }
    unfold dispatch. destruct (is_identifier c) eqn:Ei; [|exfalso; chars].
    destruct ((c =? 117) || (c =? 85)) eqn:Eu.
    + do 32 (no || idtac). cbv iota.
      rb; [apply runs_getc|].
      assert (H43 : hd (-1) (escape_chars false l ++ v) <> 43).
      { destruct l as [|n r].
        - cbn [escape_chars app]. destruct v as [|x v]; [cbn; lia|]. cbn [hd]. apply Hs.
          destruct (c =? 117) eqn:E1; [left|right]; f_equal; lia.
        - cbn [escape_chars]. unfold esc1. cbn [andb negb orb].
          destruct (is_identifier n) eqn:En; cbn [app hd]; [chars|lia]. }
      no. rb; [apply runs_unget_hd; [cbn; lia|assumption]|].
      rb; [exact Hid|apply runs_ret].
    + do 33 (no || idtac). rewrite Es. rb; [exact Hid|apply runs_ret].
  - rewrite <- !app_assoc. cbn [app hd tl]. unfold dispatch. do 30 (no || idtac). yes. no.
    eapply (runs_bind st _ _ _ (ident_tok (c :: l) st) 3 v);
      [|change (is (ident_tok (c :: l) st) EOF_TOKEN) with false; apply runs_ret].
    unfold identifier. cbv zeta. change (92 =? 37) with false. change (92 =? 64) with false. cbn [orb].
    rb; [apply runs_ret|]. change (92 =? 45) with false. cbv iota.
    rb; [apply runs_ret|]. cbv beta iota. change (92 =? 92) with true. cbv iota.
    assert (Hesc : runs st 2 ((if is_digit c then 51 :: c :: sep l else [c]) ++ escape_chars false l ++ v)
                     escape c 2 (escape_chars false l ++ v)).
    { destruct (is_digit c) eqn:Ed.
      - cbn [app]. now apply runs_escape_digit.
      - cbn [app]. eapply runs_weaken; [apply runs_escape_plain; [assumption|chars]|cbn; lia]. }
    rb; [exact Hesc|]. replace (c =? 65533) with false by (destruct Hc; lia). exact Hrest.
Qed.

Lemma ident_back lm l rest p : l <> [] -> Forall textc l -> Forall clean_char rest ->
  separated l (normalize rest) ->
  exists text s', escape_id (utf8s l) = Some text
    /\ next_token lm (new_lexer (text ++ utf8s rest) p) = Ret (ident_tok l p) s'
    /\ holds s' (normalize rest) /\ l_log s' = [].
Proof.
  intros Hn Hl Hr Hs. rewrite escape_id_utf8s by assumption.
  destruct l as [|c l]; [congruence|].
  pose proof (holds_text _ rest p (escape_chars_text true (c :: l) Hl) Hr) as H0.
  eexists. edestruct (next_token_runs' lm _ _ (ident_tok (c :: l)) 3 (normalize rest) H0)
    as (s' & E & K & _ & L); [cbn; lia| |].
  - intro st. apply runs_identifier; auto. now apply normalize_ok.
  - exists s'. repeat split; auto.
Qed.
