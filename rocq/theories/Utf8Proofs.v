(** * Proofs about the UTF-8 conversions *)

From Coq Require Import String ZArith List Bool Lia.
From Verif Require Import Base Utf8 Utf8Spec UnicodeRange Lexer.
Import ListNotations.
Open Scope Z_scope.

Ltac Zify.zify_post_hook ::= Z.div_mod_to_equations.

Lemma lor_shift a n b : 0 <= n -> 0 <= b < 2 ^ n -> Z.lor (a * 2 ^ n) b = a * 2 ^ n + b.
Proof.
  intros Hn Hb.
  assert (Hl : Z.land (a * 2 ^ n) b = 0).
  { apply Z.bits_inj'. intros i Hi. rewrite Z.land_spec, Z.bits_0.
    destruct (Z.lt_ge_cases i n) as [L|G].
    - rewrite Z.mul_pow2_bits_low by lia. reflexivity.
    - destruct (Z.eq_dec b 0) as [->|Nz]; [rewrite Z.bits_0; apply andb_false_r|].
      rewrite (Z.bits_above_log2 b i); [apply andb_false_r|lia|].
      apply Z.log2_lt_pow2; [lia|].
      apply Z.lt_le_trans with (2 ^ n); [lia|]. apply Z.pow_le_mono_r; lia. }
  rewrite <- Z.lxor_lor by exact Hl. symmetry. apply Z.add_nocarry_lxor. exact Hl.
Qed.

Lemma lor_shift_l k n b : 0 <= n -> 0 <= b < 2 ^ n -> k mod 2 ^ n = 0 -> Z.lor b k = k + b.
Proof.
  intros Hn Hb Hk. rewrite Z.lor_comm.
  assert (Hp : 0 < 2 ^ n) by (apply Z.pow_pos_nonneg; lia).
  assert (Hd : k = (k / 2 ^ n) * 2 ^ n) by (rewrite Z.mul_comm; now apply Z.div_exact; [apply Z.neq_sym, Z.lt_neq|]).
  rewrite Hd. now rewrite lor_shift.
Qed.

Lemma lor128 b : 0 <= b < 64 -> Z.lor b 128 = 128 + b.
Proof. intro. apply (lor_shift_l 128 6); lia. Qed.
Lemma lor192 b : 0 <= b < 64 -> Z.lor b 192 = 192 + b.
Proof. intro. apply (lor_shift_l 192 6); lia. Qed.
Lemma lor224 b : 0 <= b < 32 -> Z.lor b 224 = 224 + b.
Proof. intro. apply (lor_shift_l 224 5); lia. Qed.
Lemma lor240 b : 0 <= b < 16 -> Z.lor b 240 = 240 + b.
Proof. intro. apply (lor_shift_l 240 4); lia. Qed.
Lemma land63 b : Z.land b 63 = b mod 64.
Proof. apply (Z.land_ones b 6). lia. Qed.
Lemma land31 b : Z.land b 31 = b mod 32.
Proof. apply (Z.land_ones b 5). lia. Qed.
Lemma land15 b : Z.land b 15 = b mod 16.
Proof. apply (Z.land_ones b 4). lia. Qed.
Lemma land7 b : Z.land b 7 = b mod 8.
Proof. apply (Z.land_ones b 3). lia. Qed.
Lemma land65535 b : Z.land b 65535 = b mod 65536.
Proof. apply (Z.land_ones b 16). lia. Qed.
Lemma follow_add wc c : 0 <= c < 64 -> Z.lor (Z.shiftl wc 6) c = wc * 64 + c.
Proof. intro. rewrite Z.shiftl_mul_pow2 by lia. apply (lor_shift wc 6); lia. Qed.

Ltac b2p :=
  repeat match goal with
  | H : (_ && _)%bool = true |- _ => apply andb_true_iff in H; destruct H
  | H : (_ || _)%bool = false |- _ => apply orb_false_iff in H; destruct H
  | H : (_ =? _) = true |- _ => apply Z.eqb_eq in H
  | H : (_ =? _) = false |- _ => apply Z.eqb_neq in H
  | H : (_ <? _) = true |- _ => apply Z.ltb_lt in H
  | H : (_ <? _) = false |- _ => apply Z.ltb_ge in H
  | H : (_ <=? _) = true |- _ => apply Z.leb_le in H
  | H : (_ <=? _) = false |- _ => apply Z.leb_gt in H
  | H : negb _ = true |- _ => apply negb_true_iff in H
  | H : negb _ = false |- _ => apply negb_false_iff in H
  end.

Ltac casel := repeat match goal with
  | |- context [?a <? ?b] => let E := fresh "E" in destruct (a <? b) eqn:E; b2p
  | |- context [?a <=? ?b] => let E := fresh "E" in destruct (a <=? b) eqn:E; b2p
  | |- context [?a =? ?b] => let E := fresh "E" in destruct (a =? b) eqn:E; b2p
  end.

(** The encoder is the standard one on the characters it accepts. *)
Lemma wctomb_valid c :
  scalar c -> c <> 0 -> ~ nonchar c -> wctomb c = inr (utf8 c).
Proof.
  intros Hs Hz Hn. unfold scalar, nonchar in *.
  assert (Hc : 0 < c < 1114112) by lia.
  unfold wctomb, utf8. rewrite Z.mod_small by lia.
  rewrite !land65535.
  destruct (c <? 128) eqn:E1; b2p.
  { destruct (c =? 0) eqn:E; b2p; [lia|reflexivity]. }
  destruct (c <? 2048) eqn:E2; b2p.
  { rewrite Z.shiftr_div_pow2, land63 by lia. change (2 ^ 6) with 64.
    rewrite lor192, lor128 by lia. f_equal. }
  destruct (c <? 65536) eqn:E3; b2p.
  { destruct ((55296 <=? c) && (c <=? 57343))%bool eqn:E4; b2p; [lia|].
    destruct ((c =? 65534) || (c =? 65535))%bool eqn:E5.
    { exfalso. apply orb_true_iff in E5. destruct E5; b2p; subst; apply Hn; lia. }
    rewrite !Z.shiftr_div_pow2, !land63 by lia. change (2 ^ 12) with 4096. change (2 ^ 6) with 64.
    rewrite lor224, !lor128 by lia. reflexivity. }
  destruct (c <? 1114112) eqn:E4; b2p; [|lia].
  destruct ((c mod 65536 =? 65534) || (c mod 65536 =? 65535))%bool eqn:E5.
  { exfalso. apply orb_true_iff in E5. destruct E5; b2p; apply Hn; lia. }
  rewrite !Z.shiftr_div_pow2, !land63 by lia.
  change (2 ^ 18) with 262144. change (2 ^ 12) with 4096. change (2 ^ 6) with 64.
  rewrite lor240, !lor128 by lia. reflexivity.
Qed.

Lemma wctomb_zero : wctomb 0 = inr [].
Proof. reflexivity. Qed.

(** ... and it reports an error on all the other 32 bit values. *)
Lemma wctomb_invalid c :
  -2147483648 <= c < 2147483648 -> c <> 0 -> ~ (scalar c /\ ~ nonchar c) ->
  exists t, wctomb c = inl t.
Proof.
  intros Hr Hz Hn. unfold scalar, nonchar in *. unfold wctomb.
  rewrite !land65535.
  destruct (c mod 4294967296 <? 128) eqn:E1; b2p; [exfalso; apply Hn; lia|].
  destruct (c mod 4294967296 <? 2048) eqn:E2; b2p; [exfalso; apply Hn; lia|].
  destruct (c mod 4294967296 <? 65536) eqn:E3; b2p.
  { destruct ((55296 <=? c) && (c <=? 57343))%bool eqn:E4; b2p; [eauto|].
    destruct ((c =? 65534) || (c =? 65535))%bool eqn:E5; [eauto|]. b2p.
    apply andb_false_iff in E4. exfalso. apply Hn. destruct E4; b2p; lia. }
  destruct (c mod 4294967296 <? 1114112) eqn:E4; b2p; [|eauto].
  destruct ((c mod 65536 =? 65534) || (c mod 65536 =? 65535))%bool eqn:E5; [eauto|].
  b2p. exfalso. apply Hn. lia.
Qed.

(** The decoder inverts the standard encoding. *)
Lemma mbtowc_utf8 c : 0 <= c < 2097152 -> mbtowc (utf8 c) = inr c.
Proof.
  intro Hc. unfold utf8.
  destruct (c <? 128) eqn:E1; [unfold mbtowc; now rewrite E1|].
  destruct (c <? 2048) eqn:E2; [|destruct (c <? 65536) eqn:E3]; b2p; unfold mbtowc.
  - replace (192 + c / 64 <? 128) with false by (symmetry; apply Z.ltb_ge; lia).
    replace (240 <=? 192 + c / 64) with false by (symmetry; apply Z.leb_gt; lia).
    replace (224 <=? 192 + c / 64) with false by (symmetry; apply Z.leb_gt; lia).
    replace (192 <=? 192 + c / 64) with true by (symmetry; apply Z.leb_le; lia).
    cbn [mb_follow]. rewrite !land63, land31.
    replace (128 + c mod 64 =? 0) with false by (symmetry; apply Z.eqb_neq; lia).
    replace (128 + c mod 64 <? 128) with false by (symmetry; apply Z.ltb_ge; lia).
    replace (191 <? 128 + c mod 64) with false by (symmetry; apply Z.ltb_ge; lia).
    cbn [orb]. rewrite follow_add by lia. f_equal. lia.
  - replace (224 + c / 4096 <? 128) with false by (symmetry; apply Z.ltb_ge; lia).
    replace (240 <=? 224 + c / 4096) with false by (symmetry; apply Z.leb_gt; lia).
    replace (224 <=? 224 + c / 4096) with true by (symmetry; apply Z.leb_le; lia).
    cbn [mb_follow]. rewrite !land63, land15.
    replace (128 + c mod 64 =? 0) with false by (symmetry; apply Z.eqb_neq; lia).
    replace (128 + c mod 64 <? 128) with false by (symmetry; apply Z.ltb_ge; lia).
    replace (191 <? 128 + c mod 64) with false by (symmetry; apply Z.ltb_ge; lia).
    replace (128 + c / 64 mod 64 =? 0) with false by (symmetry; apply Z.eqb_neq; lia).
    replace (128 + c / 64 mod 64 <? 128) with false by (symmetry; apply Z.ltb_ge; lia).
    replace (191 <? 128 + c / 64 mod 64) with false by (symmetry; apply Z.ltb_ge; lia).
    cbn [orb]. rewrite !follow_add by lia. f_equal. lia.
  - replace (240 + c / 262144 <? 128) with false by (symmetry; apply Z.ltb_ge; lia).
    replace (240 <=? 240 + c / 262144) with true by (symmetry; apply Z.leb_le; lia).
    replace (248 <=? 240 + c / 262144) with false by (symmetry; apply Z.leb_gt; lia).
    cbn [mb_follow]. rewrite !land63, land7.
    replace (128 + c mod 64 =? 0) with false by (symmetry; apply Z.eqb_neq; lia).
    replace (128 + c mod 64 <? 128) with false by (symmetry; apply Z.ltb_ge; lia).
    replace (191 <? 128 + c mod 64) with false by (symmetry; apply Z.ltb_ge; lia).
    replace (128 + c / 64 mod 64 =? 0) with false by (symmetry; apply Z.eqb_neq; lia).
    replace (128 + c / 64 mod 64 <? 128) with false by (symmetry; apply Z.ltb_ge; lia).
    replace (191 <? 128 + c / 64 mod 64) with false by (symmetry; apply Z.ltb_ge; lia).
    replace (128 + c / 4096 mod 64 =? 0) with false by (symmetry; apply Z.eqb_neq; lia).
    replace (128 + c / 4096 mod 64 <? 128) with false by (symmetry; apply Z.ltb_ge; lia).
    replace (191 <? 128 + c / 4096 mod 64) with false by (symmetry; apply Z.ltb_ge; lia).
    cbn [orb]. rewrite !follow_add by lia. f_equal. lia.
Qed.

(** Shape of an encoding: a lead byte and follow bytes. *)
Lemma utf8_shape c : 128 <= c < 1114112 ->
  exists b mb, utf8 c = b :: mb /\ 192 <= b < 248 /\ forallb is_follow mb = true
               /\ (length mb < 7)%nat.
Proof.
  intro Hc. unfold utf8.
  destruct (c <? 128) eqn:E1; b2p; [lia|].
  destruct (c <? 2048) eqn:E2; [|destruct (c <? 65536) eqn:E3]; b2p;
    eexists _, _; (split; [reflexivity|]); (split; [lia|]);
    (split; [|cbn; lia]); cbn [forallb]; unfold is_follow;
    repeat (apply andb_true_iff; split); try apply Z.leb_le; try lia; reflexivity.
Qed.

Lemma utf8_ascii c : c < 128 -> utf8 c = [c].
Proof. intro H. unfold utf8. apply Z.ltb_lt in H. now rewrite H. Qed.

Lemma utf8_nonempty c : exists b r, utf8 c = b :: r.
Proof.
  unfold utf8. destruct (c <? 128), (c <? 2048), (c <? 65536); eauto.
Qed.

(** Head byte of an encoding is never a follow byte. *)
Lemma utf8_head_not_follow c b r : 0 <= c < 1114112 -> utf8 c = b :: r -> is_follow b = false.
Proof.
  intros Hc. unfold utf8, is_follow.
  destruct (c <? 128) eqn:E1; [|destruct (c <? 2048) eqn:E2; [|destruct (c <? 65536) eqn:E3]];
    intro H; b2p; apply cons_inj in H; destruct H as [<- _]; apply andb_false_iff; rewrite !Z.leb_gt; lia.
Qed.

Lemma take_follow_app k mb rest :
  forallb is_follow mb = true -> (length mb < k)%nat ->
  (match rest with b :: _ => is_follow b = false | [] => True end) ->
  take_follow k (mb ++ rest) = (mb, rest).
Proof.
  revert k. induction mb as [|x mb IH]; intros k Hf Hk Hr.
  - destruct k; [cbn in Hk; lia|]. destruct rest as [|b r]; [reflexivity|].
    cbn [app take_follow]. now rewrite Hr.
  - destruct k; [cbn in Hk; lia|]. cbn [forallb] in Hf. apply andb_true_iff in Hf.
    destruct Hf as [H1 H2]. cbn [app take_follow]. rewrite H1.
    rewrite IH; [reflexivity|exact H2| cbn in Hk; lia |exact Hr].
Qed.
