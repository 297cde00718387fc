(** * Reading back unicode ranges *)

From Coq Require Import String ZArith List Bool Lia Arith ZifyBool.
From Verif Require Import Base Utf8 Utf8Spec UnicodeRange Lexer LexSpec Utf8Proofs UrangeProofs LexerWp Utf8Stream View OutText RoundString RoundUrl RoundIdent.
Import ListNotations.
Open Scope string_scope. Open Scope list_scope. Open Scope Z_scope.
Ltac Zify.zify_post_hook ::= idtac.

(** Value of a hexadecimal digit in lower case. *)
Definition hexv (c : Z) : Z := if c <? 58 then c - 48 else c - 87.
Definition lhex (c : Z) : Prop := 48 <= c <= 57 \/ 97 <= c <= 102.
Definition hexval (i : Z) (l : list Z) : Z := fold_left (fun a c => a * 16 + hexv c) l i.

Lemma hexval_app i a b : hexval i (a ++ b) = hexval (hexval i a) b.
Proof. apply fold_left_app. Qed.

Lemma hexval_shift l : forall i, hexval i l = i * 16 ^ Z.of_nat (length l) + hexval 0 l.
Proof.
  induction l as [|c l IH]; intro i; [cbn; lia|]. cbn [hexval fold_left length].
  fold (hexval (i * 16 + hexv c) l). fold (hexval (0 * 16 + hexv c) l).
  rewrite IH, (IH (0 * 16 + hexv c)). rewrite Nat2Z.inj_succ, Z.pow_succ_r by lia. ring.
Qed.

Lemma lhex_range c : lhex c -> 0 <= hexv c < 16.
Proof. unfold lhex, hexv. intro. destruct (c <? 58) eqn:E; lia. Qed.

Lemma hexval_range l : Forall lhex l -> 0 <= hexval 0 l < 16 ^ Z.of_nat (length l).
Proof.
  induction l as [|c l IH]; intro H; [cbn; lia|]. inversion H as [|? ? Hc Hl]; subst.
  specialize (IH Hl). apply lhex_range in Hc. cbn [hexval fold_left length].
  fold (hexval (0 * 16 + hexv c) l). rewrite hexval_shift.
  rewrite Nat2Z.inj_succ, Z.pow_succ_r by lia. nia.
Qed.

Lemma hex_digit_lhex d : 0 <= d < 16 -> lhex (hex_digit d) /\ hexv (hex_digit d) = d.
Proof.
  unfold hex_digit, lhex, hexv. intro H. destruct (d <? 10) eqn:E.
  - replace (48 + d <? 58) with true by lia. lia.
  - replace (87 + d <? 58) with false by lia. lia.
Qed.

Lemma hex_print_aux_spec k : forall v acc, 0 <= v < 16 ^ Z.of_nat k -> (0 < k)%nat -> Forall lhex acc ->
  exists h, hex_print_aux k v acc = h ++ acc /\ Forall lhex h /\ hexval 0 h = v /\ (1 <= length h <= k)%nat
            /\ (forall m, v < 16 ^ Z.of_nat m -> (1 <= m)%nat -> (length h <= m)%nat).
Proof.
  induction k as [|k IH]; intros v acc Hv Hk Hacc; [lia|]. cbn [hex_print_aux].
  assert (Hm : 0 <= v mod 16 < 16) by (apply Z.mod_pos_bound; lia).
  destruct (hex_digit_lhex (v mod 16) Hm) as [H1 H2].
  rewrite Nat2Z.inj_succ, Z.pow_succ_r in Hv by lia.
  destruct (v / 16 =? 0) eqn:E.
  - exists [hex_digit (v mod 16)]. split; [reflexivity|]. split; [now constructor|].
    split; [|split; [cbn; lia|cbn; lia]]. cbn [hexval fold_left]. rewrite H2.
    Z.to_euclidean_division_equations. lia.
  - assert (Hd : 0 <= v / 16 < 16 ^ Z.of_nat k) by (split; [apply Z.div_pos; lia|apply Z.div_lt_upper_bound; lia]).
    assert (0 < k)%nat. { destruct k; [|lia]. cbn in Hd. lia. }
    destruct (IH (v / 16) (hex_digit (v mod 16) :: acc) Hd ltac:(lia) ltac:(now constructor))
      as (h & E1 & E2 & E3 & E4 & E5).
    exists (h ++ [hex_digit (v mod 16)]). rewrite <- app_assoc. split; [exact E1|].
    split; [apply Forall_app; split; [assumption|now constructor]|].
    rewrite hexval_app, E3, app_length. cbn [hexval fold_left length]. rewrite H2.
    split; [Z.to_euclidean_division_equations; lia|]. split; [lia|].
    intros m Hm1 Hm2. destruct m as [|m]; [lia|].
    assert (Hvm : v / 16 < 16 ^ Z.of_nat m).
    { apply Z.div_lt_upper_bound; [lia|]. rewrite Nat2Z.inj_succ, Z.pow_succ_r in Hm1 by lia. lia. }
    destruct m as [|m].
    + cbn in Hvm. exfalso. assert (v / 16 <> 0) by lia. lia.
    + specialize (E5 (S m) Hvm ltac:(lia)). lia.
Qed.

Lemma hex_print_spec v : 0 <= v < 16777216 ->
  Forall lhex (hex_print v) /\ hexval 0 (hex_print v) = v /\ (1 <= length (hex_print v) <= 6)%nat.
Proof.
  intro H. unfold hex_print. rewrite Z.mod_small by lia.
  destruct (hex_print_aux_spec 8 v [] ltac:(cbn; lia) ltac:(lia) ltac:(constructor)) as (h & E1 & E2 & E3 & E4 & E5).
  rewrite E1, app_nil_r. split; [assumption|]. split; [assumption|]. split; [lia|]. apply E5; [cbn; lia|lia].
Qed.

Lemma hexval_zeros k : hexval 0 (repeat 48 k) = 0.
Proof. induction k; [reflexivity|]. cbn. exact IHk. Qed.

Lemma hex_fill6_spec v : 0 <= v < 16777216 ->
  Forall lhex (hex_fill6 v) /\ hexval 0 (hex_fill6 v) = v /\ length (hex_fill6 v) = 6%nat.
Proof.
  intro H. unfold hex_fill6. cbv zeta. destruct (hex_print_spec v H) as (H1 & H2 & H3).
  split; [|split].
  - apply Forall_app. split; [|assumption]. apply Forall_forall. intros x Hx. apply repeat_spec in Hx.
    subst. unfold lhex. lia.
  - rewrite hexval_app, hexval_zeros. assumption.
  - rewrite app_length, repeat_length. lia.
Qed.

Lemma mask_len_spec a : forall b, length a = length b ->
  let q := mask_len a b in
  (q <= length a)%nat /\ firstn q a = repeat 48 q /\ firstn q b = repeat 102 q.
Proof.
  induction a as [|x a IH]; intros [|y b] H; try discriminate; [cbn; auto|].
  cbn [mask_len]. destruct ((x =? 48) && (y =? 102)) eqn:E; [|cbn; repeat split; lia].
  destruct (IH b ltac:(cbn in H; lia)) as (H1 & H2 & H3). cbn. repeat split; [lia| |]; f_equal; auto; lia.
Qed.

Lemma firstn_rev_skipn {A} (l : list A) q : (q <= length l)%nat ->
  rev (firstn q (rev l)) = skipn (length l - q) l.
Proof. intro H. rewrite firstn_rev. rewrite rev_involutive. reflexivity. Qed.

Lemma rev_repeat {A} (x : A) k : rev (repeat x k) = repeat x k.
Proof.
  induction k as [|k IH]; [reflexivity|]. cbn. rewrite IH. clear IH.
  induction k as [|k IH]; [reflexivity|]. cbn. now rewrite IH.
Qed.

Lemma mask_tail a b : length a = 6%nat -> length b = 6%nat ->
  let q := mask_len (rev a) (rev b) in
  (q <= 6)%nat /\ skipn (6 - q) a = repeat 48 q /\ skipn (6 - q) b = repeat 102 q.
Proof.
  intros Ha Hb q. destruct (mask_len_spec (rev a) (rev b)) as (H1 & H2 & H3); [now rewrite !rev_length, Ha, Hb|].
  fold q in H1, H2, H3. rewrite rev_length, Ha in H1. split; [assumption|].
  rewrite <- Ha at 1. rewrite <- Hb. rewrite <- !firstn_rev_skipn by lia.
  rewrite H2, H3, !rev_repeat. auto.
Qed.

Lemma hexval_fs q : forall i, hexval i (repeat 102 q) = (i + 1) * 16 ^ Z.of_nat q - 1.
Proof.
  induction q as [|q IH]; intro i; [cbn; lia|]. cbn [repeat hexval fold_left].
  fold (hexval (i * 16 + hexv 102) (repeat 102 q)). rewrite IH. change (hexv 102) with 15.
  rewrite Nat2Z.inj_succ, Z.pow_succ_r by lia. ring.
Qed.

Lemma strip_spec a q : exists k a', a = repeat 48 k ++ a' /\ strip_zeroes (a ++ repeat 63 q) = a' ++ repeat 63 q.
Proof.
  induction a as [|c a IH].
  - exists O, []. split; [reflexivity|]. destruct q; reflexivity.
  - cbn [app strip_zeroes]. destruct (c =? 48) eqn:E.
    + destruct IH as (k & a' & -> & IH). exists (S k), a'. split; [cbn; f_equal; lia|assumption].
    + exists O, (c :: a). auto.
Qed.

(** The text of a range: a mask or bounds. *)
Lemma ur_text s e r : 0 <= s <= e -> e <= 1114111 \/ s = 0 \/ (s = 1048576 /\ e = 2097151) -> e < 2097152 ->
  r = start_end_to_range s e ->
  (s = 0 /\ 1114111 <= e /\ ur_to_string r = Some (repeat 63 6)) \/
  (s = e /\ e <= 1114111 /\ ur_to_string r = Some (hex_print s)) \/
  (s < e /\ exists l q, ur_to_string r = Some (l ++ repeat 63 q) /\ Forall lhex l /\ (length l + q <= 6)%nat
                /\ (0 < q)%nat /\ s = hexval 0 l * 16 ^ Z.of_nat q /\ e = (hexval 0 l + 1) * 16 ^ Z.of_nat q - 1) \/
  (s < e /\ e <= 1114111 /\ ur_to_string r = Some (hex_print s ++ [45] ++ hex_print e)).
Proof.
  intros Hs He He2 ->. unfold ur_to_string. rewrite pack_start, pack_end by lia. cbv zeta.
  destruct ((s =? 0) && (1114111 <=? e)) eqn:E0; [left; repeat split; lia|right].
  destruct (s =? e) eqn:E1; [left; repeat split; lia|right].
  destruct (hex_fill6_spec s ltac:(lia)) as (Fs1 & Fs2 & Fs3).
  destruct (hex_fill6_spec e ltac:(lia)) as (Fe1 & Fe2 & Fe3).
  rewrite Fs3, Fe3. cbn [Nat.eqb andb negb].
  destruct (mask_tail _ _ Fs3 Fe3) as (Q1 & Q2 & Q3).
  set (q := mask_len (rev (hex_fill6 s)) (rev (hex_fill6 e))) in *.
  destruct (str_eqb (firstn (6 - q) (hex_fill6 s)) (firstn (6 - q) (hex_fill6 e))) eqn:E2.
  - left. split; [lia|]. apply str_eqb_spec in E2.
    destruct (strip_spec (firstn (6 - q) (hex_fill6 s)) q) as (k & a' & S1 & S2).
    exists a', q. split; [now rewrite S2|].
    assert (Ds := firstn_skipn (6 - q) (hex_fill6 s)). assert (De := firstn_skipn (6 - q) (hex_fill6 e)).
    rewrite Q2, S1 in Ds. rewrite Q3, <- E2, S1 in De.
    assert (L : length (firstn (6 - q) (hex_fill6 s)) = (6 - q)%nat) by (rewrite firstn_length; lia).
    rewrite S1, app_length, repeat_length in L.
    assert (Vs : s = hexval 0 a' * 16 ^ Z.of_nat q).
    { rewrite <- Fs2, <- Ds, !hexval_app, hexval_zeros, hexval_shift, hexval_zeros, repeat_length. lia. }
    assert (Ve : e = (hexval 0 a' + 1) * 16 ^ Z.of_nat q - 1).
    { rewrite <- Fe2, <- De, !hexval_app, hexval_zeros, hexval_fs. reflexivity. }
    split.
    { rewrite <- Ds in Fs1. apply Forall_app in Fs1. destruct Fs1 as [Fs1 _]. apply Forall_app in Fs1. tauto. }
    split; [lia|]. split; [|auto].
    destruct q as [|q]; [|lia]. cbn in Vs, Ve. lia.
  - right. split; [lia|]. split; [|reflexivity].
    destruct He as [He|[He|(-> & ->)]]; [assumption| |exfalso; revert E2; vm_compute; discriminate].
    subst s. lia.
Qed.

(** ** The lexer *)
Lemma lhex_hex c : lhex c -> is_hex c = true.
Proof. unfold lhex. intro. chars. Qed.

Lemma runs_hex st d v c : lhex c -> runs st d v (hex_to_dec c) (hexv c) d v.
Proof.
  unfold lhex. intro H. unfold hex_to_dec, hexv. destruct (c <? 58) eqn:E.
  - yes. apply runs_ret.
  - no. no. yes. replace (c - 87) with (c - 97 + 10) by lia. apply runs_ret.
Qed.

Lemma runs_ur_digits st w a v' l : forall k s0 e0,
  Forall lhex l ->
  runs st 2 (tl w) (ur_loop k (hd (-1) w) (hexval s0 l) e0 false) a 2 v' ->
  runs st 2 (tl (l ++ w)) (ur_loop (length l + k) (hd (-1) (l ++ w)) s0 e0 false) a 2 v'.
Proof.
  induction l as [|c l IH]; intros k s0 e0 Hl H; [exact H|].
  inversion Hl as [|? ? Hc Hl']; subst. cbn [length Nat.add ur_loop app hd tl].
  rewrite (lhex_hex c Hc). cbn [andb negb orb]. unfold lhex in Hc. replace (c =? 63) with false by lia.
  rb; [apply runs_hex; assumption|]. rb; [apply runs_getc|].
  eapply runs_strengthen; [apply IH; assumption|cbn; lia].
Qed.

Lemma runs_ur_marks st w a v' q : forall k s0 e0 e1 mask, (0 < q)%nat -> e0 = (if mask : bool then e1 else s0) ->
  runs st 2 (tl w) (ur_loop k (hd (-1) w) (s0 * 16 ^ Z.of_nat q) ((e0 + 1) * 16 ^ Z.of_nat q - 1) true) a 2 v' ->
  runs st 2 (tl (repeat 63 q ++ w)) (ur_loop (q + k) (hd (-1) (repeat 63 q ++ w)) s0 e1 mask) a 2 v'.
Proof.
  induction q as [|q IH]; intros k s0 e0 e1 mask Hq He H; [lia|].
  cbn [repeat app hd tl Nat.add ur_loop]. change (63 =? 63) with true. rewrite orb_true_r. cbv zeta.
  rb; [apply runs_getc|]. rewrite <- He.
  destruct q as [|q].
  - cbn [repeat app Nat.add]. replace (s0 * 16) with (s0 * 16 ^ Z.of_nat 1) by (cbn; lia).
    replace (e0 * 16 + 15) with ((e0 + 1) * 16 ^ Z.of_nat 1 - 1) by (cbn; lia).
    eapply runs_strengthen; [exact H|cbn; lia].
  - eapply runs_strengthen; [eapply (IH k (s0 * 16) (e0 * 16 + 15) (e0 * 16 + 15) true); [lia|reflexivity|]|cbn; lia].
    rewrite (Nat2Z.inj_succ (S q)), Z.pow_succ_r in H by lia.
    replace (s0 * 16 * 16 ^ Z.of_nat (S q)) with (s0 * (16 * 16 ^ Z.of_nat (S q))) by ring.
    replace ((e0 * 16 + 15 + 1) * 16 ^ Z.of_nat (S q)) with ((e0 + 1) * (16 * 16 ^ Z.of_nat (S q))) by ring.
    exact H.
Qed.

Lemma runs_ur_stop st v k s0 e0 mask : is_hex (hd (-1) v) = false -> hd (-1) v <> 63 ->
  runs st 2 (tl v) (ur_loop k (hd (-1) v) s0 e0 mask) (s0, e0, mask, hd (-1) v) 2 (tl v).
Proof.
  intros H1 H2. destruct k as [|k]; [apply runs_ret|]. cbn [ur_loop]. rewrite H1. cbn [andb orb].
  replace (hd (-1) v =? 63) with false by lia. apply runs_ret.
Qed.

Lemma runs_ur_end st v l : is_hex (hd (-1) v) = false -> forall k e0, Forall lhex l -> (length l <= k)%nat ->
  runs st 2 (tl (l ++ v)) (ur_end_loop k (hd (-1) (l ++ v)) e0) (hexval e0 l, hd (-1) v) 2 (tl v).
Proof.
  intro Hv. induction l as [|c l IH]; intros k e0 Hl Hk.
  - destruct k as [|k]; [apply runs_ret|]. cbn [app ur_end_loop]. rewrite Hv. apply runs_ret.
  - inversion Hl as [|? ? Hc Hl']; subst. destruct k as [|k]; [cbn in Hk; lia|].
    cbn [app hd tl ur_end_loop]. rewrite (lhex_hex c Hc).
    rb; [apply runs_hex; assumption|]. rb; [apply runs_getc|].
    eapply runs_strengthen; [apply IH; [assumption|cbn in Hk; lia]|cbn; lia].
Qed.

(** What follows the range. *)
Definition ends_range (v : list Z) : Prop :=
  let n := hd (-1) v in is_hex n = false /\ n <> 63 /\ n <> 45.

Definition range_tok (s e : Z) (p : position) : node :=
  set_int (mk UNICODE_RANGE p) (e * 4294967296 + s).

Lemma runs_range_tail st v s e : Forall okc v -> 0 <= s <= e -> s < 1114112 -> e < 2097152 ->
  runs st 2 (tl v)
   (if e <? s then
        err "unicode range cannot have a start character larger than the end character." ;;;
        new_node UNICODE_RANGE
      else
        ungetc (hd (-1) v) ;;;
        n <- new_node UNICODE_RANGE ;;
        match ur_make s e with
        | Some v => ret (set_int n (wrap64 v))
        | None => throw XOverflow
        end) (range_tok s e st) 3 v.
Proof.
  intros Hv H1 H2 H3. no. rb; [apply runs_unget_hd; [lia|assumption]|]. rb; [apply runs_new_node|].
  rewrite ur_make_ok, pack_nonneg by lia. unfold range_tok.
  assert (E : wrap64 (e * 4294967296 + s) = e * 4294967296 + s).
  { unfold wrap64. rewrite Z.mod_small; lia. }
  rewrite E. apply runs_ret.
Qed.

(** [s1], [e1] are the bounds read for [s], [e]. *)
Definition same_valid (s e s1 e1 : Z) : Prop := s1 = s /\ (e1 = e \/ 1114111 <= e /\ 1114111 <= e1).

Lemma runs_unicode_range t s e v : 0 <= s <= e ->
  e <= 1114111 \/ s = 0 \/ (s = 1048576 /\ e = 2097151) -> e < 2097152 ->
  ur_to_string (start_end_to_range s e) = Some t -> Forall okc v -> ends_range v ->
  exists s1 e1, same_valid s e s1 e1 /\ s1 <= e1 < 2097152 /\
    forall st, runs st 2 (tl (t ++ v)) (unicode_range (hd (-1) (t ++ v))) (range_tok s1 e1 st) 3 v.
Proof.
  intros Hs He He2 Ht Hv Hend. unfold ends_range in Hend. cbv zeta in Hend. destruct Hend as (D1 & D2 & D3).
  destruct (ur_text s e _ Hs He He2 eq_refl) as [(H1 & H2 & H3)|[(H1 & H2 & H3)|[(H1 & l & q & H3 & H4 & H5 & H6 & H7 & H8)|(H1 & H2 & H3)]]];
  rewrite H3 in Ht; injection Ht as <-.
  - exists 0, 2097151. split; [unfold same_valid; lia|]. split; [lia|]. intro st. unfold unicode_range.
    rb. { apply (runs_ur_marks st v _ _ 6 0 0 0 0 false); [lia|reflexivity|]. apply runs_ur_stop; assumption. }
    change ((0 + 1) * 16 ^ Z.of_nat 6 - 1) with 16777215. cbv beta iota zeta.
    change (0 * 16 ^ Z.of_nat 6) with 0.
    rb. { rb; [no; apply runs_ret|]. cbn [Z.ltb]. apply runs_ret. }
    cbv beta iota. change (2097151 <? 16777215) with true. cbv iota. apply runs_range_tail; auto; lia.
  - exists s, e. split; [unfold same_valid; lia|]. split; [lia|]. intro st. unfold unicode_range.
    destruct (hex_print_spec s ltac:(lia)) as (P1 & P2 & P3).
    rb. { replace 6%nat with (length (hex_print s) + (6 - length (hex_print s)))%nat by lia.
          apply runs_ur_digits; [assumption|]. apply runs_ur_stop; assumption. }
    cbv beta iota zeta. rewrite P2.
    rb. { rb; [no; apply runs_ret|]. cbv beta iota. no. apply runs_ret. }
    cbv beta iota. rewrite <- H1. apply runs_range_tail; auto; lia.
  - exists s, e. split; [unfold same_valid; lia|]. split; [lia|]. intro st. unfold unicode_range.
    rewrite <- app_assoc.
    rb. { replace 6%nat with (length l + (q + (6 - length l - q)))%nat by lia.
          apply runs_ur_digits; [assumption|].
          apply (runs_ur_marks st v _ _ q _ (hexval 0 l) (hexval 0 l)); [assumption|reflexivity|].
          apply runs_ur_stop; assumption. }
    cbv beta iota zeta. rewrite <- H7, <- H8.
    rb. { rb; [no; apply runs_ret|]. apply runs_ret. }
    cbv beta iota. replace (2097151 <? e) with false by lia. apply runs_range_tail; auto; lia.
  - exists s, e. split; [unfold same_valid; lia|]. split; [lia|]. intro st. unfold unicode_range.
    destruct (hex_print_spec s ltac:(lia)) as (P1 & P2 & P3).
    destruct (hex_print_spec e ltac:(lia)) as (P4 & P5 & P6).
    rewrite <- !app_assoc.
    rb. { replace 6%nat with (length (hex_print s) + (6 - length (hex_print s)))%nat by lia.
          apply runs_ur_digits; [assumption|]. apply runs_ur_stop; cbn; [reflexivity|lia]. }
    cbv beta iota zeta. rewrite P2. cbn [app hd tl].
    rb. { rb; [yes; (rb; [apply runs_getc|]); eapply runs_strengthen; [apply runs_ur_end; [assumption|assumption|lia]|cbn; lia]|].
          cbv beta iota. rewrite P5. no. apply runs_ret. }
    cbv beta iota. apply runs_range_tail; auto; lia.
Qed.

Lemma range_back lm t s e rest p : 0 <= s <= e ->
  e <= 1114111 \/ s = 0 \/ (s = 1048576 /\ e = 2097151) -> e < 2097152 ->
  ur_to_string (start_end_to_range s e) = Some t -> Forall clean_char rest -> ends_range (normalize rest) ->
  exists s1 e1 s', same_valid s e s1 e1 /\ s1 <= e1 < 2097152 /\
    next_token lm (new_lexer (zs "U+" ++ t ++ utf8s rest) p) = Ret (range_tok s1 e1 p) s'
    /\ holds s' (normalize rest) /\ l_log s' = [].
Proof.
  intros Hs He He2 Ht Hr Hend.
  assert (Hr' := normalize_ok rest Hr).
  assert (Htc : Forall (fun c => lhex c \/ c = 63 \/ c = 45) t /\ is_hex (hd (-1) (t ++ normalize rest)) || (hd (-1) (t ++ normalize rest) =? 63) = true).
  { assert (Hx : forall l, Forall lhex l -> Forall (fun c => lhex c \/ c = 63 \/ c = 45) l)
      by (intro l; apply Forall_impl; tauto).
    destruct (ur_text s e _ Hs He He2 eq_refl) as [(H1 & H2 & H3)|[(H1 & H2 & H3)|[(H1 & l & q & H3 & H4 & H5 & H6 & H7 & H8)|(H1 & H2 & H3)]]];
    rewrite H3 in Ht; injection Ht as <-.
    - split; [|reflexivity]. apply Forall_forall. intros x Hx2. apply (repeat_spec 6 63) in Hx2. auto.
    - destruct (hex_print_spec s ltac:(lia)) as (P1 & P2 & P3). split; [auto|].
      destruct (hex_print s) as [|c l] eqn:Eh; [cbn in P3; lia|]. cbn [app hd]. inversion P1; subst.
      now rewrite lhex_hex.
    - split.
      + apply Forall_app. split; [auto|]. apply Forall_forall. intros x Hx2. apply repeat_spec in Hx2. auto.
      + destruct l as [|c l]; [destruct q; [lia|reflexivity]|]. inversion H4; subst. cbn [app hd]. now rewrite lhex_hex.
    - destruct (hex_print_spec s ltac:(lia)) as (P1 & P2 & P3).
      destruct (hex_print_spec e ltac:(lia)) as (P4 & P5 & P6). split.
      + apply Forall_app. split; [auto|]. constructor; [auto|auto].
      + destruct (hex_print s) as [|c l] eqn:Eh; [cbn in P3; lia|]. cbn [app hd]. inversion P1; subst.
        now rewrite lhex_hex. }
  destruct Htc as (Htc & Hhd).
  assert (Htt : Forall textc t).
  { revert Htc. apply Forall_impl. intros c Hc. apply textc_ascii. unfold lhex in Hc. lia. }
  assert (Hut : utf8s t = t).
  { apply utf8s_ascii. revert Htc. apply Forall_impl. intros c Hc. unfold lhex in Hc. lia. }
  assert (H0 := holds_text ([85; 43] ++ t) rest p ltac:(apply Forall_app; split; [repeat (apply Forall_cons; [apply textc_ascii; lia|]); constructor|assumption]) Hr).
  rewrite utf8s_app, Hut, <- !app_assoc in H0. change (utf8s [85; 43]) with (zs "U+") in H0.
  cbn [app] in H0.
  destruct (runs_unicode_range t s e (normalize rest) Hs He He2 Ht Hr' Hend) as (s1 & e1 & A & B & C).
  edestruct (next_token_runs' lm _ _ (range_tok s1 e1) 3 (normalize rest) H0) as (s' & E & K & _ & L); [cbn; lia| |].
  - intro st. cbn [hd tl]. unfold dispatch. do 31 (no || idtac).
    match goal with |- runs _ _ _ (if ?b then _ else _) _ _ _ => change b with true; cbv iota end.
    rget. change (43 =? 43) with true. cbv iota. rb; [apply runs_getc|]. rewrite Hhd.
    rb; [|apply runs_ret]. eapply runs_strengthen; [apply C|cbn; lia].
  - exists s1, e1, s'. repeat split; auto; try apply B; try apply A.
Qed.
