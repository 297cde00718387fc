(** * Properties of colours (C29 to C31, C53) *)

From Coq Require Import String ZArith List Bool Lia Arith ZifyBool Floats.SpecFloat Reals Lra.
From Verif Require Import Base Utf8 Utf8Spec UnicodeRange Lexer LexSpec Utf8Proofs LexerWp View OutText
  TextSpec RoundString RoundUrl RoundIdent RoundHash DecText DecFmt Color ColorSpec ColorProofs F32Facts ColorFloat Props_Lexer Props_Round.
Import ListNotations.
Open Scope string_scope. Open Scope list_scope. Open Scope Z_scope.
Ltac Zify.zify_post_hook ::= idtac.

(** The four bytes of a colour, as a user sees them. *)
Definition shows (c : color) (v : Z * Z * Z * Z) : Prop := get_bytes c = Some v.

(** ** C30 Colour components survive storage *)
Definition all_bytes : list Z := map Z.of_nat (seq 0 256).
Lemma bytes_ok : forallb (fun v => match to_byte (component v) with Some w => w =? v | None => false end) all_bytes = true.
Proof. vm_compute. reflexivity. Qed.
Theorem c30_byte_survives : forall v, 0 <= v <= 255 -> to_byte (component v) = Some v.
Proof.
  intros v H. pose proof bytes_ok as B. rewrite forallb_forall in B.
  assert (I : In v all_bytes) by (unfold all_bytes; apply in_map_iff; exists (Z.to_nat v); rewrite in_seq; lia).
  specialize (B v I). destruct (to_byte (component v)) as [w|]; [|discriminate]. f_equal. lia.
Qed.
Theorem c30_color_survives : forall r g b a, 0 <= r <= 255 -> 0 <= g <= 255 -> 0 <= b <= 255 -> 0 <= a <= 255 ->
  shows (set_color r g b a) (r, g, b, a).
Proof. intros. unfold shows, get_bytes, set_color. cbn. rewrite !c30_byte_survives by assumption. reflexivity. Qed.
(** Every 32 bit colour value. *)
Theorem c30_word_survives : forall w, 0 <= w < 4294967296 -> get_color (set_rgba w) = Some w.
Proof.
  intros w H. unfold get_color, set_rgba.
  rewrite c30_color_survives; try (pose proof (Z.mod_pos_bound w 256); pose proof (Z.mod_pos_bound (w / 256) 256);
    pose proof (Z.mod_pos_bound (w / 65536) 256); pose proof (Z.mod_pos_bound (w / 16777216) 256); lia).
  f_equal. Z.to_euclidean_division_equations. lia.
Qed.
(** Any float which is a number gives a byte. *)
Theorem c30_in_range : forall x, f32_valid x -> x <> S754_nan -> exists v, to_byte x = Some v /\ 0 <= v <= 255.
Proof.
  intros x V N. destruct x as [s|s| |s m e] eqn:E; [| |congruence|].
  - exists 0. split; [destruct s; reflexivity|lia].
  - destruct s; [exists 0|exists 255]; (split; [reflexivity|lia]).
  - rewrite <- E in *. assert (F : f32_finite x) by (rewrite E; exact I).
    destruct (Rle_lt_dec 1 (f32_R x)) as [L|L]; [exists 255; split; [now apply byte_high|lia]|].
    destruct (Rle_lt_dec (f32_R x) 0) as [L0|L0]; [exists 0; split; [now apply byte_low|lia]|].
    destruct (byte_mid x V F) as [A B]; [lra|]. eexists. split; [exact A|exact B].
Qed.
(** The byte is the nearest one: a component between 0 and 1 is 255 times that
    number, rounded. *)
Theorem c30_nearest : forall x v, f32_valid x -> f32_finite x -> (0 <= f32_R x <= 1)%R -> to_byte x = Some v ->
  (Rabs (IZR v - 255 * f32_R x) <= / 2 + powerRZ 2 (-15))%R.
Proof.
  intros x v V F R H. assert (P : (0 < powerRZ 2 (-15))%R) by (apply powerRZ_lt; lra).
  destruct (Rle_lt_dec 1 (f32_R x)) as [L|L].
  { rewrite (byte_high x V F L) in H. inversion H. replace (f32_R x) with 1%R by lra. rewrite Rabs_pos_eq; lra. }
  destruct (Rle_lt_dec (f32_R x) 0) as [L0|L0].
  { rewrite (byte_low x V F L0) in H. inversion H. replace (f32_R x) with 0%R by lra. rewrite Rabs_pos_eq; lra. }
  destruct (byte_mid x V F) as [A B]; [lra|]. rewrite A in H. inversion H.
  pose proof (scaled_near (f32_R x)) as S1. specialize (S1 ltac:(lra)).
  pose proof (Flocq.Core.Raux.Zfloor_lb (scaled (f32_R x))) as S2. pose proof (Flocq.Core.Raux.Zfloor_ub (scaled (f32_R x))) as S3.
  apply Flocq.Core.Raux.Rabs_le_inv in S1. apply Rabs_le. lra.
Qed.
(** The conversion is monotone. *)
Theorem c30_monotone : forall x y v w, f32_valid x -> f32_finite x -> f32_valid y -> f32_finite y ->
  (f32_R x <= f32_R y)%R -> to_byte x = Some v -> to_byte y = Some w -> v <= w.
Proof.
  intros x y v w Vx Fx Vy Fy L Hv Hw.
  destruct (c30_in_range x Vx) as (v1 & E1 & R1); [intro X; rewrite X in Fx; exact Fx|].
  destruct (c30_in_range y Vy) as (w1 & E2 & R2); [intro X; rewrite X in Fy; exact Fy|].
  rewrite Hv in E1. rewrite Hw in E2. inversion E1. inversion E2. subst v1 w1.
  destruct (Rle_lt_dec 1 (f32_R y)) as [Ly|Ly]; [rewrite (byte_high y) in Hw by auto; inversion Hw; lia|].
  destruct (Rle_lt_dec (f32_R x) 0) as [Lx|Lx]; [rewrite (byte_low x) in Hv by auto; inversion Hv; lia|].
  destruct (byte_mid x) as [A _]; auto; [lra|]. destruct (byte_mid y) as [B _]; auto; [lra|].
  rewrite A in Hv. rewrite B in Hw. inversion Hv. inversion Hw. apply Flocq.Core.Raux.Zfloor_le. now apply scaled_le.
Qed.
(** Integers out of the range 0..255 are clamped. *)
Theorem c30_integers_clamped : forall v, - 2 ^ 63 <= v < 2 ^ 64 -> to_byte (component v) = Some (Z.max 0 (Z.min 255 v)).
Proof.
  intros v H. destruct (Z.le_gt_cases 0 v) as [L|L]; [destruct (Z.le_gt_cases v 255) as [K|K]|].
  - rewrite c30_byte_survives by lia. f_equal. lia.
  - replace (Z.max 0 (Z.min 255 v)) with 255 by lia.
    destruct (f32_of_Z_spec v) as (A & B & C); [apply rnd32_small; rewrite <- abs_IZR; apply IZR_le; lia|].
    destruct (small_int 255) as (V255 & F255 & R255); [lia|].
    assert (G : (255 <= f32_R (f32_of_Z v))%R) by (rewrite C, <- (generic_int 255) by (cbn; lia); apply rnd32_le; apply IZR_le; lia).
    assert (U : (f32_R (f32_of_Z v) <= IZR (2 ^ 64))%R).
    { rewrite C. rewrite (pow2R 64) by lia. rewrite <- (rnd32_pow 64) by lia. apply rnd32_le. rewrite <- (pow2R 64) by lia. apply IZR_le. lia. }
    assert (D1 : (1 <= f32_R (f32_of_Z v) / 255)%R) by lra.
    destruct (f32_div_spec (f32_of_Z v) (f32_of_Z 255)) as (X & Y & W); auto.
    + rewrite R255. lra.
    + apply rnd32_small. rewrite R255, Rabs_pos_eq by lra. lra.
    + apply byte_high; auto. unfold component. rewrite W, R255. rewrite <- (generic_int 1) by (cbn; lia). now apply rnd32_le.
  - replace (Z.max 0 (Z.min 255 v)) with 0 by lia.
    assert (V0 : (IZR v <= -1)%R) by (apply IZR_le; lia). assert (V1 : (IZR (- 2 ^ 63) <= IZR v)%R) by (apply IZR_le; lia).
    assert (E63 : (IZR (- 2 ^ 63) = - IZR (2 ^ 63))%R) by apply opp_IZR.
    assert (E64 : (IZR (2 ^ 63) <= IZR (2 ^ 64))%R) by (apply IZR_le; lia).
    destruct (f32_of_Z_spec v) as (A & B & C); [apply rnd32_small; apply Rabs_le; lra|].
    destruct (small_int 255) as (V255 & F255 & R255); [lia|].
    assert (G : (f32_R (f32_of_Z v) <= 0)%R) by (rewrite C, <- rnd32_0; apply rnd32_le; lra).
    assert (U : (- IZR (2 ^ 63) <= f32_R (f32_of_Z v))%R).
    { rewrite C. rewrite (pow2R 63) by lia. rewrite <- (rnd32_pow 63), <- rnd32_opp by lia. apply rnd32_le. rewrite <- (pow2R 63) by lia. lra. }
    destruct (f32_div_spec (f32_of_Z v) (f32_of_Z 255)) as (X & Y & W); auto.
    + rewrite R255. lra.
    + apply rnd32_small. rewrite R255. apply Rabs_le. lra.
    + apply byte_low; auto. unfold component. rewrite W, R255. rewrite <- rnd32_0. apply rnd32_le. lra.
Qed.
(** A component that is not a number has no byte: the conversion is undefined
    behaviour. [black / 0] makes such components (see c34). *)
Theorem c30_nan_refuted : to_byte S754_nan = None /\ f32_div (component 0) (f32_of_Z 0) = S754_nan.
Proof. split; vm_compute; reflexivity. Qed.
Example c30_ex : f32_valid (component 128) /\ f32_finite (component 128) /\ to_byte (component 128) = Some 128
  /\ to_byte (component (-7)) = Some 0 /\ to_byte (component 300) = Some 255.
Proof. split; [reflexivity|]. split; [exact I|]. split; [|split]; vm_compute; reflexivity. Qed.

(** ** C29 Named colours *)
Lemma css_bytes name r g b a : css_meaning name (r, g, b, a) -> 0 <= r <= 255 /\ 0 <= g <= 255 /\ 0 <= b <= 255 /\ 0 <= a <= 255.
Proof.
  intro H. apply table_css in H.
  assert (B : forallb (fun x => let '(r, g, b, a) := fst x in (0 <=? r) && (r <=? 255) && (0 <=? g) && (g <=? 255) && (0 <=? b) && (b <=? 255) && (0 <=? a) && (a <=? 255)) color_names = true) by (vm_compute; reflexivity).
  rewrite forallb_forall in B. specialize (B _ H). cbn in B. lia.
Qed.
Lemma named_shows name v : find_name name = Some v -> forall only, exists c, set_named name only = Some c /\ shows c v.
Proof.
  intros H only. unfold set_named. rewrite H. destruct v as [[[r g] b] a]. eexists. split; [reflexivity|].
  apply find_name_spec, table_css in H. apply css_bytes in H. apply c30_color_survives; lia.
Qed.
(** A name is accepted exactly when it is a name of CSS, and it gives the
    tabulated colour. *)
Theorem c29_names_partial : forall name v, (exists c, set_named name true = Some c /\ shows c v) <-> css_meaning name v.
Proof.
  intros name v. rewrite <- table_css, <- find_name_spec. split.
  - intros (c & H & K). unfold set_named in H. destruct (find_name name) as [w|] eqn:E; [|discriminate].
    destruct (named_shows name w E true) as (c' & H' & K'). unfold set_named in H'. rewrite E in H'. rewrite H in H'. inversion H'. subst c'.
    unfold shows in *. congruence.
  - intro H. now apply named_shows.
Qed.
Theorem c29_refused : forall name, set_named name true = None <-> (forall v, ~ css_meaning name v).
Proof.
  intro name. split.
  - intros H v K. apply c29_names_partial in K. destruct K as (c & K & _). congruence.
  - intro H. unfold set_named. destruct (find_name name) as [v|] eqn:E; [|reflexivity]. exfalso. apply (H v). now apply table_css, find_name_spec.
Qed.
(** A hash is accepted when it is a name of CSS or 3 or 6 hexadecimal digits. *)
Lemma hex_meaning_shows name v : hex_meaning name v -> find_name name = None -> exists c, set_named name false = Some c /\ shows c v.
Proof.
  intros H N. unfold set_named. rewrite N.
  assert (HV : forall c x, In (c, x) hex_digits -> is_hex c = true /\ hex_value c = x /\ 0 <= x <= 15).
  { intros c x I. pose proof (proj1 (hex_digit_spec c x) I) as [A B]. split; [exact A|]. split; [now symmetry|].
    assert (Q : forallb (fun p => (0 <=? snd p) && (snd p <=? 15)) hex_digits = true) by (vm_compute; reflexivity).
    rewrite forallb_forall in Q. specialize (Q _ I). cbn [snd] in Q. lia. }
  destruct H as [a b c x y z Ha Hb Hc|a b c d e f x y z t u v Ha Hb Hc Hd He Hf].
  - destruct (HV _ _ Ha) as (A1 & A2 & A3). destruct (HV _ _ Hb) as (B1 & B2 & B3). destruct (HV _ _ Hc) as (C1 & C2 & C3).
    rewrite A1, B1, C1, A2, B2, C2. cbn [andb]. eexists. split; [reflexivity|].
    replace (16 * x + x) with (x * 17) by lia. replace (16 * y + y) with (y * 17) by lia. replace (16 * z + z) with (z * 17) by lia.
    apply c30_color_survives; lia.
  - destruct (HV _ _ Ha) as (A1 & A2 & A3). destruct (HV _ _ Hb) as (B1 & B2 & B3). destruct (HV _ _ Hc) as (C1 & C2 & C3).
    destruct (HV _ _ Hd) as (D1 & D2 & D3). destruct (HV _ _ He) as (E1 & E2 & E3). destruct (HV _ _ Hf) as (F1 & F2 & F3).
    rewrite A1, B1, C1, D1, E1, F1, A2, B2, C2, D2, E2, F2. cbn [andb]. eexists. split; [reflexivity|].
    replace (16 * x + y) with (x * 16 + y) by lia. replace (16 * z + t) with (z * 16 + t) by lia. replace (16 * u + v) with (u * 16 + v) by lia.
    apply c30_color_survives; lia.
Qed.
Lemma names_not_hex : forallb (fun x => negb (forallb is_hex (snd x))) color_names = true.
Proof. vm_compute. reflexivity. Qed.
Lemma hex_not_name name v : hex_meaning name v -> find_name name = None.
Proof.
  intro H. destruct (find_name name) as [w|] eqn:E; [|reflexivity]. exfalso. apply find_name_spec in E.
  pose proof names_not_hex as B. rewrite forallb_forall in B. specialize (B _ E). cbn [snd] in B.
  assert (K : forallb is_hex name = true); [|rewrite K in B; discriminate].
  destruct H; repeat match goal with H : In _ hex_digits |- _ => apply hex_digit_spec in H; destruct H as [H _] end;
  cbn [forallb]; repeat match goal with H : is_hex _ = true |- _ => rewrite H; clear H end; reflexivity.
Qed.
Theorem c29_hash : forall name v, (exists c, set_named name false = Some c /\ shows c v) <-> css_meaning name v \/ hex_meaning name v.
Proof.
  intros name v. split.
  - intros (c & H & K). destruct (find_name name) as [w|] eqn:E.
    + left. destruct (named_shows name w E false) as (c' & H' & K'). rewrite H in H'. inversion H'. subst c'.
      apply table_css, find_name_spec. unfold shows in *. congruence.
    + right. pose proof H as H0. unfold set_named in H. rewrite E in H.
      assert (Done : forall u, hex_meaning name u -> hex_meaning name v).
      { intros u Hu. destruct (hex_meaning_shows name u Hu E) as (c' & H' & K'). rewrite H0 in H'. inversion H'. subst c'. unfold shows in *.
        rewrite K in K'. inversion K'. now subst. }
      destruct name as [|a [|b [|c0 [|d [|e [|f [|g r]]]]]]]; try discriminate.
      * destruct (is_hex a && is_hex b && is_hex c0) eqn:X; [|discriminate]. repeat (apply andb_true_iff in X; destruct X as [X ?]).
        apply (Done (16 * hex_value a + hex_value a, 16 * hex_value b + hex_value b, 16 * hex_value c0 + hex_value c0, 255)).
        constructor; apply hex_digit_spec; auto.
      * destruct (is_hex a && is_hex b && is_hex c0 && is_hex d && is_hex e && is_hex f) eqn:X; [|discriminate]. repeat (apply andb_true_iff in X; destruct X as [X ?]).
        apply (Done (16 * hex_value a + hex_value b, 16 * hex_value c0 + hex_value d, 16 * hex_value e + hex_value f, 255)).
        constructor; apply hex_digit_spec; auto.
  - intros [H|H].
    + apply table_css, find_name_spec in H. now apply named_shows.
    + apply hex_meaning_shows; [exact H|]. eapply hex_not_name; eauto.
Qed.
(** The letter case matters, although it does not in CSS. *)
Theorem c29_letter_case_refuted : css_meaning (zs "red") (255, 0, 0, 255) /\ set_named (zs "Red") true = None
  /\ exists tok s', next_token some_libm (new_lexer (zs "Red;") (new_position 1 1)) = Ret tok s' /\ token_color tok = None.
Proof.
  split; [|split; [vm_compute; reflexivity|]].
  - apply table_css, find_name_spec. vm_compute. reflexivity.
  - eexists _, _. split; [vm_compute; reflexivity|]. vm_compute. reflexivity.
Qed.
(** #red is accepted. *)
Theorem c29_hash_name_refuted : exists tok s' c, next_token some_libm (new_lexer (zs "#red;") (new_position 1 1)) = Ret tok s'
  /\ n_type tok = HASH /\ token_color tok = Some c /\ shows c (255, 0, 0, 255).
Proof.
  eexists _, _, _. split; [vm_compute; reflexivity|]. split; [reflexivity|]. split; [vm_compute; reflexivity|]. vm_compute. reflexivity.
Qed.
Example c29_ex : css_meaning (zs "tomato") (255, 99, 71, 255) /\ hex_meaning (zs "fA0") (255, 170, 0, 255).
Proof.
  split.
  - apply table_css, find_name_spec. vm_compute. reflexivity.
  - change (zs "fA0") with [102; 65; 48]. apply (hex_short 102 65 48 15 10 0); cbn; tauto.
Qed.

(** ** C31 Solid colour output can be read back *)
Lemma to_byte_range x v : to_byte x = Some v -> 0 <= v <= 255.
Proof.
  unfold to_byte. destruct (SFleb _ x); [intro H; inversion H; lia|]. destruct (SFleb x _); [intro H; inversion H; lia|].
  destruct (sf_trunc _) as [w|]; [|discriminate]. destruct ((0 <=? w) && (w <=? 255)) eqn:E; [|discriminate]. intro H; inversion H; lia.
Qed.
Lemma shows_range c r g b a : shows c (r, g, b, a) -> 0 <= r <= 255 /\ 0 <= g <= 255 /\ 0 <= b <= 255 /\ 0 <= a <= 255.
Proof.
  unfold shows, get_bytes. destruct (to_byte (c_red c)) eqn:R; [|discriminate]. destruct (to_byte (c_green c)) eqn:G; [|discriminate].
  destruct (to_byte (c_blue c)) eqn:B; [|discriminate]. destruct (to_byte (c_alpha c)) eqn:A; [|discriminate].
  intro H. inversion H. subst. repeat split; eapply to_byte_range; eauto.
Qed.
Definition named_ok (x : (Z * Z * Z) * string) : bool :=
  let '((r, g, b), n) := x in
  forallb (fun c => (97 <=? c) && (c <=? 122)) (zs n) && (3 <=? length (zs n))%nat
  && match escape_id (zs n) with Some t => str_eqb t (zs n) | None => false end
  && match token_color (ident_tok (zs n) (new_position 1 1)) with
     | Some c => match get_bytes c with Some (r', g', b', a') => (r' =? r) && (g' =? g) && (b' =? b) && (a' =? 255) | None => false end
     | None => false end.
Lemma short_ok : forallb named_ok short_names = true.
Proof. vm_compute. reflexivity. Qed.
Lemma short_name_in l r g b n : short_name l r g b = Some n -> In ((r, g, b), n) l.
Proof.
  induction l as [|[[[r0 g0] b0] m] l IH]; [discriminate|]. cbn [short_name].
  destruct ((r =? r0) && (g =? g0) && (b =? b0)) eqn:E.
  - intro H. inversion H. subst. left. repeat f_equal; lia.
  - intro H. right. auto.
Qed.
Lemma hex_char_ok v : 0 <= v <= 15 -> is_hash_character (Color.hex_char v) = true /\ 0 < Color.hex_char v < 128
  /\ is_hex (Color.hex_char v) = true /\ hex_value (Color.hex_char v) = v.
Proof.
  intro H. unfold Color.hex_char, is_hash_character, is_hex, hex_value, is_digit, is_upper, is_lower.
  destruct (v <? 10) eqn:E.
  - replace (48 <=? 48 + v) with true by lia. replace (48 + v <=? 57) with true by lia. cbn [andb orb]. repeat split; lia.
  - replace (97 + v - 10 <=? 57) with false by lia. rewrite andb_false_r. replace (97 + v - 10 <=? 70) with false by lia. rewrite !andb_false_r. cbn [andb orb].
    repeat split; lia.
Qed.
Lemma hash_reads lm l rest p v : l <> [] -> Forall (fun c => is_hash_character c = true /\ 0 < c < 128) l -> Forall clean_char rest ->
  ends_name (normalize rest) -> hex_meaning l v ->
  exists tok c', reads_token lm (35 :: l ++ utf8s rest) p tok rest /\ token_color tok = Some c' /\ shows c' v.
Proof.
  intros Hn Hl Hr [E1 E2] Hv. rewrite first_hd in E1, E2. rewrite <- name_not in E1.
  destruct (hash_back lm l rest p Hn Hl Hr) as (s' & E & K & L); [|exact E2|].
  - unfold is_hash_character. unfold is_identifier in E1. chars.
  - destruct (hex_meaning_shows l v Hv (hex_not_name l v Hv)) as (c' & A & B).
    exists (hash_tok l p), c'. split; [|split; [exact A|exact B]]. exists s'. split; [exact E|]. split; [exact L|now apply holds_will_read].
Qed.
(** The text of any colour whose alpha byte is 255, written before a text that
    does not continue a name, is read as one token, and that token stands for
    the same red, green, blue and alpha bytes in an expression. *)
Theorem c31_read_back : forall lm c r g b rest p, shows c (r, g, b, 255) ->
  Forall clean_char rest -> ends_name (normalize rest) -> first (normalize rest) <> 40 ->
  exists text tok c', to_string lm c = Some text /\ reads_token lm (text ++ utf8s rest) p tok rest
    /\ token_color tok = Some c' /\ shows c' (r, g, b, 255).
Proof.
  intros lm c r g b rest p Hc Hr He Hp. pose proof (shows_range _ _ _ _ _ Hc) as (R & G & B & _).
  unfold to_string. rewrite Hc. change (255 =? 255) with true. cbv iota. unfold solid_text.
  destruct (short_name short_names r g b) as [n|] eqn:N.
  - apply short_name_in in N. pose proof short_ok as K. rewrite forallb_forall in K. specialize (K _ N). unfold named_ok in K.
    apply andb_true_iff in K. destruct K as [K K4]. apply andb_true_iff in K. destruct K as [K K3]. apply andb_true_iff in K. destruct K as [K1 K2].
    assert (A : Forall (fun c => 97 <= c <= 122) (zs n)).
    { rewrite Forall_forall. rewrite forallb_forall in K1. intros x Hx. specialize (K1 x Hx). lia. }
    assert (U : utf8s (zs n) = zs n) by (apply utf8s_ascii; revert A; apply Forall_impl; intros; lia).
    destruct (ident_back lm (zs n) rest p) as (t & s' & E & F & K & L); auto.
    + intro Z0. rewrite Z0 in K2. discriminate.
    + apply inline_text. revert A. apply Forall_impl. intros x Hx. apply inline_small. lia.
    + unfold separated. pose proof (ends_name_ends _ He) as N5. destruct (normalize rest) as [|m v]; [exact I|]. cbn [first] in *. destruct N5 as [N5 N6].
      repeat split; auto.
      * intros [Q|Q]; rewrite Q in K2; discriminate.
      * intro Q. exfalso. destruct (zs n) as [|x [|y w]]; [discriminate|discriminate|contradiction].
    + rewrite U in E. rewrite E in K3.
      destruct (token_color (ident_tok (zs n) (new_position 1 1))) as [c'|] eqn:T; [|discriminate].
      exists (zs n), (ident_tok (zs n) p), c'. split; [reflexivity|]. split; [|split].
      * assert (TE : t = zs n) by (apply str_eqb_spec; exact K3). rewrite TE in F. exists s'. split; [exact F|]. split; [exact L|now apply holds_will_read].
      * exact T.
      * unfold shows. destruct (get_bytes c') as [[[[r' g'] b'] a']|]; [|discriminate]. f_equal. repeat f_equal; lia.
  - assert (D : forall x, 0 <= x <= 255 -> 0 <= x / 16 <= 15 /\ 0 <= x mod 16 <= 15 /\ x = 16 * (x / 16) + x mod 16).
    { intros x Hx. Z.to_euclidean_division_equations. lia. }
    destruct (D r R) as (r1 & r2 & r3), (D g G) as (g1 & g2 & g3), (D b B) as (b1 & b2 & b3).
    assert (HD : forall v, 0 <= v <= 15 -> In (Color.hex_char v, v) hex_digits).
    { intros v Hv. apply hex_digit_spec. destruct (hex_char_ok v Hv) as (_ & _ & A & A'). auto. }
    assert (HO : forall v, 0 <= v <= 15 -> is_hash_character (Color.hex_char v) = true /\ 0 < Color.hex_char v < 128).
    { intros v Hv. destruct (hex_char_ok v Hv) as (A & A' & _). auto. }
    destruct ((r / 16 =? r mod 16) && (g / 16 =? g mod 16) && (b / 16 =? b mod 16)) eqn:Short.
    + edestruct (hash_reads lm [Color.hex_char (r mod 16); Color.hex_char (g mod 16); Color.hex_char (b mod 16)] rest p (r, g, b, 255)) as (tok & c' & Q1 & Q2 & Q3); auto.
      * discriminate.
      * replace (r, g, b, 255) with (16 * (r mod 16) + r mod 16, 16 * (g mod 16) + g mod 16, 16 * (b mod 16) + b mod 16, 255) by (repeat f_equal; lia).
        constructor; auto.
      * eexists _, tok, c'. split; [reflexivity|]. auto.
    + edestruct (hash_reads lm (hex2 r ++ hex2 g ++ hex2 b) rest p (r, g, b, 255)) as (tok & c' & Q1 & Q2 & Q3); auto.
      * discriminate.
      * unfold hex2. cbn [app]. auto 10.
      * replace (r, g, b, 255) with (16 * (r / 16) + r mod 16, 16 * (g / 16) + g mod 16, 16 * (b / 16) + b mod 16, 255) by (repeat f_equal; lia).
        unfold hex2. cbn [app]. constructor; auto.
      * eexists _, tok, c'. split; [reflexivity|]. auto.
Qed.
Example c31_ex : shows (set_color 171 205 239 255) (171, 205, 239, 255)
  /\ to_string some_libm (set_color 171 205 239 255) = Some (zs "#abcdef")
  /\ to_string some_libm (set_color 192 192 192 255) = Some (zs "silver")
  /\ to_string some_libm (set_color 17 34 51 255) = Some (zs "#123").
Proof. repeat split; vm_compute; reflexivity. Qed.

(** ** C53 A colour stored in a node is unchanged *)
Lemma bounded_cases m e : SpecFloat.bounded 24 128 m e = true ->
  Z.pos m < 16777216 /\ -149 <= e <= 104 /\ (Z.pos m < 8388608 -> e = -149).
Proof.
  unfold SpecFloat.bounded, SpecFloat.canonical_mantissa, SpecFloat.fexp, SpecFloat.emin. intro H. apply andb_true_iff in H. destruct H as [H1 H2].
  apply Zeq_bool_eq in H1. apply Zle_bool_imp_le in H2. rewrite Digits.Zpos_digits2_pos in H1.
  pose proof (Digits.Zdigits_correct Zaux.radix2 (Z.pos m)) as [D1 D2]. rewrite Z.abs_eq in D1, D2 by lia.
  change (Zaux.radix_val Zaux.radix2) with 2 in D1, D2. set (d := Digits.Zdigits Zaux.radix2 (Z.pos m)) in *.
  assert (E1 : d <= 24) by lia.
  assert (P : 2 ^ d <= 2 ^ 24) by (apply Z.pow_le_mono_r; lia).
  split; [change (2 ^ 24) with 16777216 in P; lia|]. split; [lia|]. intro L.
  destruct (Z_lt_le_dec d 24) as [Q|Q]; [lia|]. exfalso.
  assert (P2 : 2 ^ 23 <= 2 ^ (d - 1)) by (apply Z.pow_le_mono_r; lia). change (2 ^ 23) with 8388608 in P2. lia.
Qed.
Lemma bits_range x : f32_valid x -> 0 <= f32_bits x < 4294967296.
Proof.
  intro V. destruct x as [s|s| |s m e]; [destruct s; cbn; lia|destruct s; cbn; lia|cbn; lia|].
  apply bounded_cases in V. unfold f32_bits. destruct (Z.pos m <? 8388608) eqn:E; destruct s; lia.
Qed.
Lemma bits_back x : f32_valid x -> bits_f32 (f32_bits x) = x.
Proof.
  intro V. destruct x as [s|s| |s m e]; [destruct s; reflexivity|destruct s; reflexivity|reflexivity|].
  apply bounded_cases in V. destruct V as (V1 & V2 & V3). unfold f32_bits.
  assert (K : forall k x f, (k = 0 \/ k = 1) -> 0 <= x < 255 -> 0 <= f < 8388608 ->
    bits_f32 (k * 2147483648 + (x * 8388608 + f)) =
    if x =? 0 then (match f with Z.pos m => S754_finite (k =? 1) m (-149) | _ => S754_zero (k =? 1) end)
    else match f + 8388608 with Z.pos m => S754_finite (k =? 1) m (x - 150) | _ => S754_zero (k =? 1) end).
  { intros k x f Hk Hx Hf. unfold bits_f32.
    replace ((k * 2147483648 + (x * 8388608 + f)) / 8388608 mod 256) with x.
    2:{ replace (k * 2147483648 + (x * 8388608 + f)) with (f + (k * 256 + x) * 8388608) by lia.
        rewrite Z.div_add by lia. rewrite Z.div_small by lia. cbn [Z.add]. replace (0 + (k * 256 + x)) with (x + k * 256) by lia.
        rewrite Z.mod_add by lia. symmetry. apply Z.mod_small. lia. }
    replace ((k * 2147483648 + (x * 8388608 + f)) mod 8388608) with f.
    2:{ replace (k * 2147483648 + (x * 8388608 + f)) with (f + (k * 256 + x) * 8388608) by lia.
        rewrite Z.mod_add by lia. symmetry. apply Z.mod_small. lia. }
    replace (x =? 255) with false by lia.
    replace (2147483648 <=? k * 2147483648 + (x * 8388608 + f)) with (k =? 1) by lia. reflexivity. }
  destruct (Z.pos m <? 8388608) eqn:E.
  - rewrite V3 by lia. specialize (K (if s then 1 else 0) 0 (Z.pos m)).
    destruct s.
    + change (2147483648 + Z.pos m) with (1 * 2147483648 + (0 * 8388608 + Z.pos m)). rewrite (K (ltac:(auto)) (ltac:(lia)) (ltac:(lia))). reflexivity.
    + change (0 + Z.pos m) with (0 * 2147483648 + (0 * 8388608 + Z.pos m)). rewrite (K (ltac:(auto)) (ltac:(lia)) (ltac:(lia))). reflexivity.
  - specialize (K (if s then 1 else 0) (e + 150) (Z.pos m - 8388608)).
    destruct s;
      [replace (2147483648 + ((e + 150) * 8388608 + (Z.pos m - 8388608))) with (1 * 2147483648 + ((e + 150) * 8388608 + (Z.pos m - 8388608))) by lia
      |replace (0 + ((e + 150) * 8388608 + (Z.pos m - 8388608))) with (0 * 2147483648 + ((e + 150) * 8388608 + (Z.pos m - 8388608))) by lia];
      rewrite (K (ltac:(auto)) (ltac:(lia)) (ltac:(lia)));
      (replace (e + 150 =? 0) with false by lia; replace (Z.pos m - 8388608 + 8388608) with (Z.pos m) by lia;
       replace (e + 150 - 150) with e by lia; reflexivity).
Qed.
Lemma u64_wrap v : 0 <= v < 18446744073709551616 -> u64 (wrap64 v) = v.
Proof.
  intro H. unfold u64, wrap64. Z.to_euclidean_division_equations. lia.
Qed.
Lemma pack_low a b : 0 <= a < 4294967296 -> 0 <= b < 4294967296 -> low32 (pack2 a b) = a /\ high32 (pack2 a b) = b /\ 0 <= pack2 a b < 18446744073709551616.
Proof.
  intros Ha Hb. unfold low32, high32, pack2. replace (a + 4294967296 * b) with (a + b * 4294967296) by lia.
  rewrite Z.mod_add by lia. rewrite Z.div_add by lia. rewrite Z.mod_small by lia. rewrite Z.div_small by lia.
  rewrite Z.mod_small by lia. lia.
Qed.
(** Any four floats, infinities and NaN included, are read back. *)
Theorem c53_stored : forall r g b a, f32_valid r -> f32_valid g -> f32_valid b -> f32_valid a ->
  load_color (store_color (mkColor r g b a)) = mkColor r g b a.
Proof.
  intros r g b a R G B A. unfold load_color, store_color. cbn [fst snd c_red c_green c_blue c_alpha].
  destruct (pack_low (f32_bits r) (f32_bits g) (bits_range r R) (bits_range g G)) as (P1 & P2 & P3).
  destruct (pack_low (f32_bits b) (f32_bits a) (bits_range b B) (bits_range a A)) as (Q1 & Q2 & Q3).
  rewrite u64_wrap by exact P3. rewrite P1, P2, Q1, Q2. rewrite !bits_back by assumption. reflexivity.
Qed.
Example c53_ex : f32_valid (component 77) /\ f32_valid (f32_div (f32_of_Z 1) (f32_of_Z 0)) /\ f32_valid S754_nan
  /\ fst (store_color (set_color 255 128 0 255)) = 4539769716993949696.
Proof. repeat split; vm_compute; reflexivity. Qed.
