(** * Properties C15 to C17: An+B expressions *)

From Coq Require Import String ZArith List Bool Lia ZifyBool.
From Verif Require Import Base UnicodeRange UrangeProofs TextSpec DecText NthChild NthSpec NthProofs.
Import ListNotations.
Open Scope string_scope. Open Scope list_scope. Open Scope Z_scope.
Ltac Zify.zify_post_hook ::= idtac.

(** ** C15 *)
Lemma land_low z : Z.land z 4294967295 = z mod 4294967296.
Proof. change 4294967295 with (Z.ones 32). rewrite Z.land_ones by lia. reflexivity. Qed.

Lemma lor_halves lo hi : 0 <= lo < 4294967296 -> Z.lor lo (hi * 4294967296) = lo + hi * 4294967296.
Proof. intro H. rewrite Z.lor_comm, lor_shift by lia. lia. Qed.

Lemma nth_value_eq a b e : nth_value (mkNth a b e) = wrap64 (a mod 4294967296 + (b mod 4294967296) * 4294967296).
Proof.
  unfold nth_value. cbn [nth_a nth_b]. rewrite !land_low, Z.shiftl_0_r.
  rewrite Z.shiftl_mul_pow2 by lia. change (2 ^ 32) with 4294967296.
  assert (Ha : 0 <= a mod 4294967296 < 4294967296) by (apply Z.mod_pos_bound; lia).
  assert (Hb : 0 <= b mod 4294967296 < 4294967296) by (apply Z.mod_pos_bound; lia).
  set (x := a mod 4294967296) in *. set (y := b mod 4294967296) in *. clearbody x y.
  assert (Hx : wrap64 x = x) by (unfold wrap64; rewrite Z.mod_small by lia; lia).
  assert (Hy : exists y', wrap64 (y * 4294967296) = y' * 4294967296 /\ -2147483648 <= y' < 2147483648
                          /\ (y' = y \/ y' = y - 4294967296)).
  { unfold wrap64. destruct (Z.ltb_spec y 2147483648).
    - exists y. rewrite Z.mod_small by lia. split; [lia|split; [lia|now left]].
    - exists (y - 4294967296). replace (y * 4294967296 + 9223372036854775808)
        with ((y * 4294967296 - 9223372036854775808) + 1 * 18446744073709551616) by lia.
      rewrite Z.mod_add, Z.mod_small by lia. split; [lia|split; [lia|now right]]. }
  destruct Hy as (y' & Ey & Hy' & D). rewrite Hx, Ey, lor_halves by lia. unfold wrap64.
  destruct D as [->| ->].
  - rewrite Z.mod_small by lia. lia.
  - replace (x + y * 4294967296 + 9223372036854775808)
      with ((x + (y - 4294967296) * 4294967296 + 9223372036854775808) + 1 * 18446744073709551616) by lia.
    rewrite Z.mod_add, Z.mod_small by lia. lia.
Qed.

(** The coefficients are given back... *)
Theorem c15_coefficients : forall a b, -2147483648 <= a < 2147483648 -> -2147483648 <= b < 2147483648 ->
  let n := nth_of_value (nth_value (nth_make a b)) in nth_a n = a /\ nth_b n = b.
Proof.
  intros a b Ha Hb. cbn zeta. unfold nth_make. rewrite nth_value_eq.
  unfold nth_of_value, nth_a, nth_b. rewrite Z.shiftr_0_r, Z.shiftr_div_pow2 by lia. change (2 ^ 32) with 4294967296.
  unfold wrap64, to_i32. Z.to_euclidean_division_equations. lia.
Qed.
Print Assumptions c15_coefficients.

(** ... and so is the packed value. *)
Theorem c15_value : forall v, -9223372036854775808 <= v < 9223372036854775808 -> nth_value (nth_of_value v) = v.
Proof.
  intros v Hv. unfold nth_of_value. rewrite nth_value_eq, Z.shiftr_0_r, Z.shiftr_div_pow2 by lia.
  change (2 ^ 32) with 4294967296. unfold wrap64, to_i32. Z.to_euclidean_division_equations. lia.
Qed.
Print Assumptions c15_value.

(** Setting one coefficient of a packed value does not change the other one. *)
Theorem c15_setters : forall v x, -9223372036854775808 <= v < 9223372036854775808 -> -2147483648 <= x < 2147483648 ->
  let n := nth_of_value v in
  let na := nth_of_value (nth_value (nth_set_a n x)) in
  let nb := nth_of_value (nth_value (nth_set_b n x)) in
  nth_a na = x /\ nth_b na = nth_b n /\ nth_b nb = x /\ nth_a nb = nth_a n.
Proof.
  intros v x Hv Hx. cbn zeta.
  assert (H : forall n, nth_of_value (nth_value n) = nth_of_value (nth_value (nth_make (nth_a n) (nth_b n)))) by (intros []; reflexivity).
  assert (Hi : forall z, -2147483648 <= to_i32 z < 2147483648).
  { intro z. unfold to_i32. Z.to_euclidean_division_equations. lia. }
  rewrite (H (nth_set_a _ _)), (H (nth_set_b _ _)). cbn [nth_set_a nth_set_b nth_a nth_b].
  destruct (c15_coefficients x (nth_b (nth_of_value v)) Hx (Hi _)) as [A B].
  destruct (c15_coefficients (nth_a (nth_of_value v)) x (Hi _) Hx) as [C D]. auto.
Qed.
Print Assumptions c15_setters.

Example c15_nontrivial : nth_value (nth_make 2 (-1)) = -4294967294 /\ nth_value (nth_make (-3) 7) = 34359738365.
Proof. split; vm_compute; reflexivity. Qed.

(** ** C16 *)
Lemma text_start t : Forall byte_ok t -> inv (mkNin 0 t) /\ eff (mkNin 0 t) = map nchar t.
Proof. intro H. split; [split; [exact H|cbn; lia]|reflexivity]. Qed.

Lemma token_int_text i sp ds w : inv i -> eff i = sp ++ ds ++ w -> spaces sp -> digits ds -> ~ digit (first w) ->
  decimal ds <= max_value -> exists i', ni_token i = Some (NInteger, decimal ds, i') /\ inv i' /\ eff i' = w.
Proof. intros Hi He Hs Hd Hw Hm. apply token_run; auto. rewrite He. now constructor. Qed.

Definition ascii (c : Z) : Prop := 0 < c < 128.
Lemma spaces_ascii l : spaces l -> Forall ascii l.
Proof. apply Forall_impl. unfold ascii. lia. Qed.
Lemma digits_ascii l : digits l -> Forall ascii l.
Proof. intros [_ H]. revert H. apply Forall_impl. unfold ascii, digit. lia. Qed.
Lemma sign_ascii l k : opt_sign l k -> Forall ascii l.
Proof. destruct 1; repeat constructor; lia. Qed.
Lemma msign_ascii l k : must_sign l k -> Forall ascii l.
Proof. destruct 1; repeat constructor; lia. Qed.
Lemma letter_ascii u c : 65 <= u <= 90 -> letter u c -> ascii c.
Proof. unfold letter, ascii. lia. Qed.

Lemma nth_text_ascii t a b : nth_text t a b -> Forall ascii t.
Proof.
  destruct 1; rewrite ?Forall_app; repeat split;
    eauto using spaces_ascii, digits_ascii, sign_ascii, msign_ascii;
    repeat (apply Forall_cons; [eapply letter_ascii; [|eassumption]; lia|]); apply Forall_nil.
Qed.

Lemma map_nchar t : Forall ascii t -> map nchar t = t.
Proof.
  induction 1 as [|c t Hc Ht IH]; [reflexivity|]. cbn [map]. rewrite IH. f_equal.
  unfold nchar, ascii in *. destruct (128 <=? c) eqn:?; lia.
Qed.
Lemma map_nchar_back t : Forall byte_ok t -> Forall ascii (map nchar t) -> map nchar t = t.
Proof.
  intros H. rewrite Forall_map. intro A. apply map_nchar. revert H A. rewrite !Forall_forall. intros H A x Hx.
  specialize (H x Hx). specialize (A x Hx). unfold nchar, ascii, byte_ok in *. destruct (128 <=? x) eqn:?; lia.
Qed.

Lemma first_app_spaces sp l : spaces sp -> ~ digit (first l) -> ~ digit (first (sp ++ l)).
Proof. destruct 1 as [|c sp ->]; [auto|cbn]. unfold digit. lia. Qed.
Lemma first_spaces sp : spaces sp -> ~ digit (first sp).
Proof. destruct 1 as [|c sp ->]; cbn; unfold digit; lia. Qed.

Ltac tok H := let j := fresh "j" in let E := fresh "E" in let I := fresh "I" in let F := fresh "F" in
  destruct H as (j & E & I & F); rewrite E; cbv beta iota zeta.

(** The signed number at the start. *)
Definition signed_at (i : nin) (v k : Z) (i' : nin) : Prop :=
  (ni_token i = Some (NInteger, v, i') /\ k = 1)
  \/ (exists v0 j, ni_token i = Some (NPlus, v0, j) /\ ni_token j = Some (NInteger, v, i') /\ k = 1)
  \/ exists v0 j, ni_token i = Some (NMinus, v0, j) /\ ni_token j = Some (NInteger, v, i') /\ k = -1.

Lemma signed_run i s1 sg k s2 ds w : inv i -> eff i = s1 ++ sg ++ s2 ++ ds ++ w -> spaces s1 -> opt_sign sg k -> spaces s2 ->
  digits ds -> ~ digit (first w) -> decimal ds <= max_value ->
  exists i', signed_at i (decimal ds) k i' /\ inv i' /\ eff i' = w.
Proof.
  intros Hi He H1 Hs H2 Hd Hw Hm. destruct Hs; cbn [app] in He.
  - destruct (token_int_text i (s1 ++ s2) ds w Hi) as (j & E & I & F); auto.
    + now rewrite <- app_assoc.
    + apply Forall_app. auto.
    + exists j. split; [left; auto|auto].
  - destruct (token_run i NPlus 0 (s2 ++ ds ++ w) Hi) as (j & E & I & F); [|unfold max_value; lia|].
    + rewrite He. apply (tr_plus s1 (s2 ++ ds ++ w)). assumption.
    + destruct (token_int_text j s2 ds w I F) as (j2 & E2 & I2 & F2); auto.
      exists j2. split; [right; left; eauto|auto].
  - destruct (token_run i NMinus 0 (s2 ++ ds ++ w) Hi) as (j & E & I & F); [|unfold max_value; lia|].
    + rewrite He. apply (tr_minus s1 (s2 ++ ds ++ w)). assumption.
    + destruct (token_int_text j s2 ds w I F) as (j2 & E2 & I2 & F2); auto.
      exists j2. split; [right; right; eauto|auto].
Qed.

Lemma i32_small z : -2147483648 <= z < 2147483648 -> to_i32 z = z.
Proof. intro H. unfold to_i32. rewrite Z.mod_small by lia. lia. Qed.

(** Every text of the grammar is accepted, with the coefficients written,
    whatever the object contained before. *)
Theorem c16_accepted : forall n t a b, nth_text t a b ->
  -2147483648 <= a < 2147483648 -> -2147483648 <= b < 2147483648 ->
  nth_parse n t = Some (true, mkNth a b "").
Proof.
  intros n t a b H Ha Hb.
  assert (Hasc := nth_text_ascii _ _ _ H).
  assert (Hb0 : Forall byte_ok t) by (revert Hasc; apply Forall_impl; unfold ascii, byte_ok; lia).
  destruct (text_start t Hb0) as [Hi He]. rewrite (map_nchar t Hasc) in He.
  unfold nth_parse. set (i := mkNin 0 t) in *. clearbody i.
  destruct H as [s1 o d1 d2 s2 H1 H2 Ho Hd1 Hd2|s1 e1 v e2 nn s2 H1 H2 He1 Hv He2 Hn
                |s1 sg k s2 ds s3 H1 Hs H2 Hd H3|s1 sg k s2 ds s3 nn s4 sg' k' s5 ds' s6 H1 Hs H2 Hd H3 Hn H4 Hs' H5 Hd' H6].
  - destruct (token_run i NOdd 0 s2 Hi) as (j & E & I & F);
      [rewrite He; apply (tr_odd s1 o d1 d2 s2); auto|unfold max_value; lia|]. rewrite E.
    destruct (token_run j NEof 0 [] I) as (j2 & E2 & _); [rewrite F; now constructor|unfold max_value; lia|].
    rewrite E2. reflexivity.
  - destruct (token_run i NEven 0 s2 Hi) as (j & E & I & F);
      [rewrite He; apply (tr_even s1 e1 v e2 nn s2); auto|unfold max_value; lia|]. rewrite E.
    destruct (token_run j NEof 0 [] I) as (j2 & E2 & _); [rewrite F; now constructor|unfold max_value; lia|].
    rewrite E2. reflexivity.
  - assert (Hm : decimal ds <= max_value) by (unfold max_value; destruct Hs; lia).
    destruct (signed_run i s1 sg k s2 ds s3 Hi He) as (j & S & I & F); auto using first_spaces.
    destruct (token_run j NEof 0 [] I) as (j2 & E2 & _); [rewrite F; now constructor|unfold max_value; lia|].
    destruct S as [(E & ->)|[(v1 & j1 & E & E1 & ->)|(v1 & j1 & E & E1 & ->)]]; rewrite E; rewrite ?E1, E2, !i32_small by lia;
      reflexivity.
  - assert (Hm : decimal ds <= max_value) by (unfold max_value; destruct Hs; lia).
    assert (Hm' : decimal ds' <= max_value) by (unfold max_value; destruct Hs'; lia).
    assert (Hnd : ~ digit (first (s3 ++ [nn] ++ s4 ++ sg' ++ s5 ++ ds' ++ s6)))
      by (apply first_app_spaces; [assumption|cbn; unfold letter, digit in *; lia]).
    destruct (signed_run i s1 sg k s2 ds _ Hi He) as (j & S & I & F); auto.
    destruct (token_run j NN 0 (s4 ++ sg' ++ s5 ++ ds' ++ s6) I) as (j2 & E2 & I2 & F2);
      [rewrite F; now apply (tr_n s3 nn)|unfold max_value; lia|].
    assert (Hsecond : exists t0 v0 j3, ni_token j2 = Some (t0, v0, j3)
      /\ match t0 with NPlus => Some 1 | NMinus => Some (-1) | _ => None end = Some k'
      /\ inv j3 /\ eff j3 = s5 ++ ds' ++ s6).
    { destruct Hs'.
      - destruct (token_run j2 NPlus 0 (s5 ++ ds' ++ s6) I2) as (j3 & E3 & I3 & F3);
          [rewrite F2; now apply (tr_plus s4)|unfold max_value; lia|]. exists NPlus, 0, j3. auto.
      - destruct (token_run j2 NMinus 0 (s5 ++ ds' ++ s6) I2) as (j3 & E3 & I3 & F3);
          [rewrite F2; now apply (tr_minus s4)|unfold max_value; lia|]. exists NMinus, 0, j3. auto. }
    destruct Hsecond as (t0 & v0 & j3 & E3 & Ek & I3 & F3).
    destruct (token_int_text j3 s5 ds' s6 I3 F3) as (j4 & E4 & I4 & F4); auto using first_spaces.
    destruct (token_run j4 NEof 0 [] I4) as (j5 & E5 & _); [rewrite F4; now constructor|unfold max_value; lia|].
    destruct S as [(E & ->)|[(v1 & j1 & E & E1 & ->)|(v1 & j1 & E & E1 & ->)]]; rewrite E; rewrite ?E1, E2, E3, Ek, E4, E5, !i32_small by lia;
      reflexivity.
Qed.
Print Assumptions c16_accepted.

Lemma tok_eof v l l' : tok_rel NEof v l l' -> spaces l /\ l' = [].
Proof. intro H. inversion H; subst; auto. Qed.
Lemma tok_int v l l' : tok_rel NInteger v l l' ->
  exists sp ds, l = sp ++ ds ++ l' /\ spaces sp /\ digits ds /\ v = decimal ds.
Proof. intro H. inversion H; subst. eauto 8. Qed.
Lemma tok_n v l l' : tok_rel NN v l l' -> exists sp c, l = sp ++ [c] ++ l' /\ spaces sp /\ letter 78 c.
Proof. intro H. inversion H; subst. eauto 8. Qed.
Lemma tok_plus v l l' : tok_rel NPlus v l l' -> exists sp, l = sp ++ [43] ++ l' /\ spaces sp.
Proof. intro H. inversion H; subst. eauto 8. Qed.
Lemma tok_minus v l l' : tok_rel NMinus v l l' -> exists sp, l = sp ++ [45] ++ l' /\ spaces sp.
Proof. intro H. inversion H; subst. eauto 8. Qed.

Lemma token_eff i t v i' : inv i -> ni_token i = Some (t, v, i') -> t <> NUnknown ->
  inv i' /\ tok_rel t v (eff i) (eff i').
Proof. intros Hi H N. destruct (token_inv i t v i' Hi H) as [I [?|?]]; [contradiction|auto]. Qed.

Definition parse_rest (n : nth) (t : ntok) (v k : Z) (i : nin) : option (bool * nth) :=
  let fail n msg := Some (false, mkNth (nth_a n) (nth_b n) msg) in
  let ok a b := Some (true, mkNth (to_i32 a) (to_i32 b) "") in
  match t with
  | NInteger =>
      match ni_token i with
      | None => None
      | Some (NEof, _, _) => ok 0 (v * k)
      | Some (NN, _, i) =>
          match ni_token i with
          | None => None
          | Some (t, _, i) =>
              match match t with NPlus => Some 1 | NMinus => Some (-1) | _ => None end with
              | None => fail n "A sign (+ or -) is expected between the 'An' and the 'B' parts in 'An+B'."
              | Some k2 =>
                  match ni_token i with
                  | None => None
                  | Some (NInteger, v2, i) =>
                      match ni_token i with
                      | None => None
                      | Some (NEof, _, _) => ok (v * k) (v2 * k2)
                      | Some _ =>
                          fail (nth_make (to_i32 (v * k)) (to_i32 (v2 * k2)))
                            "An 'An+B' expression cannot be followed by anything else."
                      end
                  | Some _ => fail n "The value B must be a valid integer in 'An+B'."
                  end
              end
          end
      | Some _ => fail n "The first number has to be followed by the 'n' character."
      end
  | _ => fail n "In an An+B expression, we expect an optional signed followed by a number or 'even' or 'odd'."
  end.

Lemma parse_rest_inv n t v k i m : inv i -> parse_rest n t v k i = Some (true, m) ->
  t = NInteger /\
  ((spaces (eff i) /\ m = mkNth (to_i32 0) (to_i32 (v * k)) "")
   \/ exists s3 c s4 sg k2 s5 ds s6, eff i = s3 ++ [c] ++ s4 ++ sg ++ s5 ++ ds ++ s6 /\ spaces s3 /\ letter 78 c /\ spaces s4
        /\ must_sign sg k2 /\ spaces s5 /\ digits ds /\ spaces s6
        /\ m = mkNth (to_i32 (v * k)) (to_i32 (decimal ds * k2)) "").
Proof.
  intros Hi H. unfold parse_rest in H. destruct t; try discriminate. split; [reflexivity|].
  destruct (ni_token i) as [[[t1 v1] i1]|] eqn:E1; [|discriminate].
  destruct t1; try discriminate.
  - injection H as <-. apply token_eff in E1; [|assumption|discriminate]. left. split; [|reflexivity].
    destruct E1 as [_ E1]. now apply tok_eof in E1.
  - apply token_eff in E1; [|assumption|discriminate]. destruct E1 as [I1 T1]. apply tok_n in T1.
    destruct T1 as (s3 & c & F1 & S3 & Hc). right.
    destruct (ni_token i1) as [[[t2 v2] i2]|] eqn:E2; [|discriminate].
    assert (K : exists k2 s4 sg, match t2 with NPlus => Some 1 | NMinus => Some (-1) | _ => None end = Some k2
      /\ inv i2 /\ eff i1 = s4 ++ sg ++ eff i2 /\ spaces s4 /\ must_sign sg k2).
    { destruct t2; try discriminate; apply token_eff in E2; try assumption; try discriminate; destruct E2 as [I2 T2].
      - apply tok_plus in T2. destruct T2 as (s4 & F2 & S4). exists 1, s4, [43].
        do 4 (split; [auto|]). constructor.
      - apply tok_minus in T2. destruct T2 as (s4 & F2 & S4). exists (-1), s4, [45].
        do 4 (split; [auto|]). constructor. }
    destruct K as (k2 & s4 & sg & Ek & I2 & F2 & S4 & Hsg). rewrite Ek in H.
    destruct (ni_token i2) as [[[t3 v3] i3]|] eqn:E3; [|discriminate].
    destruct t3; try discriminate.
    apply token_eff in E3; [|assumption|discriminate]. destruct E3 as [I3 T3]. apply tok_int in T3.
    destruct T3 as (s5 & ds & F3 & S5 & Hd & ->).
    destruct (ni_token i3) as [[[t4 v4] i4]|] eqn:E4; [|discriminate].
    destruct t4; try discriminate. injection H as <-.
    apply token_eff in E4; [|assumption|discriminate]. destruct E4 as [_ T4]. apply tok_eof in T4.
    exists s3, c, s4, sg, k2, s5, ds, (eff i3). rewrite F1, F2, F3. repeat (split; [auto; fail|]). 
    repeat (split; [assumption|]). split; [apply T4|reflexivity].
Qed.

(** Nothing else is accepted: an accepted text (without NUL and 0xFF bytes) is
    one of the grammar. The coefficients are truncated to 32 bits. *)
Theorem c16_only_partial : forall n t m, Forall (fun c => 0 < c < 255) t -> nth_parse n t = Some (true, m) ->
  exists a b, nth_text t a b /\ nth_a m = to_i32 a /\ nth_b m = to_i32 b /\ nth_error m = "".
Proof.
  intros n t m Hb H. destruct (text_start t Hb) as [Hi He].
  assert (G : exists a b, nth_text (map nchar t) a b /\ nth_a m = to_i32 a /\ nth_b m = to_i32 b /\ nth_error m = "").
  2: { destruct G as (a & b & G & R). exists a, b. split; [|exact R].
       rewrite (map_nchar_back t Hb) in G; [assumption|]. eapply nth_text_ascii; eassumption. }
  rewrite <- He. clear He. unfold nth_parse in H. set (i := mkNin 0 t) in *. clearbody i. clear Hb t.
  destruct (ni_token i) as [[[t1 v1] i1]|] eqn:E1; [|discriminate].
  assert (Hsigned : forall s1 sg k t2 v2 i2, inv i2 -> spaces s1 -> opt_sign sg k ->
    (t2 = NInteger -> exists s2 ds, eff i = s1 ++ sg ++ s2 ++ ds ++ eff i2 /\ spaces s2 /\ digits ds /\ v2 = decimal ds) ->
    parse_rest n t2 v2 k i2 = Some (true, m) ->
    exists a b, nth_text (eff i) a b /\ nth_a m = to_i32 a /\ nth_b m = to_i32 b /\ nth_error m = "").
  { intros s1 sg k t2 v2 i2 I2 S1 Hsg Ht P. destruct (parse_rest_inv _ _ _ _ _ _ I2 P) as [Et R].
    destruct (Ht Et) as (s2 & ds & F & S2 & Hd & ->). rewrite F.
    destruct R as [(S3 & ->)|(s3 & c & s4 & sg2 & k2 & s5 & ds2 & s6 & F2 & S3 & Hc & S4 & Hs2 & S5 & Hd2 & S6 & ->)].
    - exists 0, (decimal ds * k). split; [now constructor|]. auto.
    - exists (decimal ds * k), (decimal ds2 * k2). rewrite F2. split; [now constructor|]. auto. }
  destruct t1; try discriminate.
  - apply token_eff in E1; [|assumption|discriminate]. destruct E1 as [I1 T1].
    destruct (ni_token i1) as [[[t2 v2] i2]|] eqn:E2; [|discriminate]. destruct t2; try discriminate.
    injection H as <-. apply token_eff in E2; [|assumption|discriminate]. destruct E2 as [_ T2]. apply tok_eof in T2.
    exists 2, 1. split; [|auto]. inversion T1; subst. constructor; auto. apply T2.
  - apply token_eff in E1; [|assumption|discriminate]. destruct E1 as [I1 T1].
    destruct (ni_token i1) as [[[t2 v2] i2]|] eqn:E2; [|discriminate]. destruct t2; try discriminate.
    injection H as <-. apply token_eff in E2; [|assumption|discriminate]. destruct E2 as [_ T2]. apply tok_eof in T2.
    exists 2, 0. split; [|auto]. inversion T1; subst. constructor; auto. apply T2.
  - apply token_eff in E1; [|assumption|discriminate]. destruct E1 as [I1 T1]. apply tok_int in T1.
    destruct T1 as (s1 & ds & F & S1 & Hd & ->).
    apply (Hsigned s1 [] 1 NInteger (decimal ds) i1 I1 S1 os_none); [|exact H].
    intros _. exists [], ds. split; [exact F|]. split; [constructor|auto].
  - apply token_eff in E1; [|assumption|discriminate]. destruct E1 as [I1 T1]. apply tok_plus in T1.
    destruct T1 as (s1 & F & S1). destruct (ni_token i1) as [[[t2 v2] i2]|] eqn:E2; [|discriminate].
    assert (I2 : inv i2) by (destruct (token_inv i1 t2 v2 i2 I1 E2); assumption).
    apply (Hsigned s1 [43] 1 t2 v2 i2 I2 S1 os_plus); [|exact H].
    intros ->. apply token_eff in E2; [|assumption|discriminate]. destruct E2 as [_ T2]. apply tok_int in T2.
    destruct T2 as (s2 & ds & F2 & S2 & Hd & ->). exists s2, ds. rewrite F, F2. auto.
  - apply token_eff in E1; [|assumption|discriminate]. destruct E1 as [I1 T1]. apply tok_minus in T1.
    destruct T1 as (s1 & F & S1). destruct (ni_token i1) as [[[t2 v2] i2]|] eqn:E2; [|discriminate].
    assert (I2 : inv i2) by (destruct (token_inv i1 t2 v2 i2 I1 E2); assumption).
    apply (Hsigned s1 [45] (-1) t2 v2 i2 I2 S1 os_minus); [|exact H].
    intros ->. apply token_eff in E2; [|assumption|discriminate]. destruct E2 as [_ T2]. apply tok_int in T2.
    destruct T2 as (s2 & ds & F2 & S2 & Hd & ->). exists s2, ds. rewrite F, F2. auto.
Qed.
Print Assumptions c16_only_partial.

(** A refusal always comes with a message, an acceptance never does. *)
Theorem c16_message : forall n t ok m, nth_parse n t = Some (ok, m) -> (nth_error m = "" <-> ok = true).
Proof.
  intros n t ok m H.
  assert (D : (ok = true /\ nth_error m = "") \/ (ok = false /\ nth_error m <> "")).
  2: destruct D as [[-> ->]|[-> D]]; [tauto|split; [contradiction|discriminate]].
  unfold nth_parse in H.
  repeat first
   [ discriminate
   | injection H as <- <-; cbn; first [left; split; reflexivity|right; split; [reflexivity|discriminate]]
   | match type of H with context [match ?x with Some _ => _ | None => _ end] => is_var x; destruct x end
   | match type of H with context [match ?x with NEof => _ | _ => _ end] => is_var x; destruct x end
   | match type of H with context [ni_token ?i] => destruct (ni_token i) as [[[? ?] ?]|] end ].
Qed.
Print Assumptions c16_message.

(** The only undefined behaviour is the overflow of a huge number. *)
Definition huge_in (l : list Z) : Prop :=
  exists p ds s, l = p ++ ds ++ s /\ Forall digit ds /\ decimal ds > max_value.

Lemma huge_app p l : huge_in l -> huge_in (p ++ l).
Proof. intros (q & ds & s & -> & H). exists (p ++ q), ds, s. now rewrite <- app_assoc. Qed.

Lemma digits_none f : forall v c i, inv i -> ni_unget i = 0 -> digit c -> 0 <= v -> (length (eff i) < f)%nat ->
  ni_digits f v c i = None ->
  exists ds w, eff i = ds ++ w /\ Forall digit ds /\ fold_left (fun a d => 10 * a + (d - 48)) (c :: ds) v > max_value.
Proof.
  induction f as [|f IH]; intros v c i Hi Hu Hc Hv Hf H; [lia|]. cbn [ni_digits] in H. unfold digit in Hc.
  destruct (int64_ok (v * 10) && int64_ok (v * 10 + c)) eqn:Eo; cbn [negb] in H.
  - destruct (getc_spec i Hi) as (i1 & E1 & I1 & U1 & F1 & _). rewrite E1 in H.
    destruct ((first (eff i) <? 48) || (57 <? first (eff i))) eqn:E; [discriminate|].
    destruct (eff i) as [|d l] eqn:Ee; [cbn in E; lia|]. cbn [first after] in *.
    destruct (IH (v * 10 + c - 48) d i1 I1 U1) as (ds & w & D1 & D2 & D3); auto.
    + unfold digit. lia.
    + lia.
    + rewrite F1. cbn in Hf. lia.
    + exists (d :: ds), w. rewrite F1 in D1. rewrite D1. split; [reflexivity|].
      split; [constructor; [unfold digit; lia|assumption]|]. cbn [fold_left] in *.
      replace (10 * v + (c - 48)) with (v * 10 + c - 48) by lia. exact D3.
  - exists [], (eff i). split; [reflexivity|]. split; [constructor|]. cbn [fold_left].
    unfold int64_ok in Eo. unfold max_value. lia.
Qed.

Lemma token_none i : inv i -> ni_token i = None -> huge_in (eff i).
Proof.
  intros Hi H. unfold ni_token in H.
  destruct (spaces_split (eff i)) as (sp & w & Es & Hs & Hw).
  assert (Hlen : (length sp < length (ni_rest i) + 2)%nat).
  { pose proof (eff_length i) as L. rewrite Es, app_length in L. lia. }
  destruct (skip_run (length (ni_rest i) + 2) i sp w Hi Es Hs Hw Hlen) as (i1 & E1 & I1 & U1 & F1 & L1).
  rewrite E1 in H. destruct (first w =? -1) eqn:E0; [discriminate|].
  destruct ((48 <=? first w) && (first w <=? 57)) eqn:Ed.
  - destruct (ni_digits _ 0 (first w) i1) as [[r j]|] eqn:En; [discriminate|].
    destruct w as [|c w]; [cbn in E0; lia|]. cbn [first after] in *.
    destruct (digits_none (length (ni_rest i) + 2) 0 c i1 I1 U1 ltac:(unfold digit; lia) ltac:(lia)
      ltac:(pose proof (eff_length i1); lia) En) as (ds & w' & D1 & D2 & D3).
    exists sp, (c :: ds), w'. rewrite Es, <- F1, D1. split; [reflexivity|].
    split; [constructor; [unfold digit; lia|assumption]|exact D3].
  - exfalso. repeat first [discriminate
      | match type of H with context [if ?b then _ else _] => destruct b end
      | match type of H with context [ni_getc ?i] => destruct (ni_getc i) end ].
Qed.

Lemma token_huge i t v i' : inv i -> ni_token i = Some (t, v, i') -> t <> NUnknown ->
  inv i' /\ (huge_in (eff i') -> huge_in (eff i)).
Proof.
  intros Hi H N. destruct (token_eff i t v i' Hi H N) as [I R]. split; [exact I|].
  remember (eff i) as l. remember (eff i') as l'. clear - R.
  destruct R; intro Hh; try (apply huge_app; try apply huge_app; assumption).
  exfalso. destruct Hh as (p & ds & s & E & _ & D). symmetry in E. apply app_eq_nil in E. destruct E as [_ E].
  apply app_eq_nil in E. destruct E as [-> _]. unfold max_value, decimal in D. cbn in D. lia.
Qed.

Lemma parse_rest_none n t v k i : inv i -> parse_rest n t v k i = None -> huge_in (eff i).
Proof.
  intros Hi H. unfold parse_rest in H. destruct t; try discriminate.
  destruct (ni_token i) as [[[t1 v1] i1]|] eqn:E1; [|now apply token_none].
  destruct t1; try discriminate.
  destruct (token_huge i _ _ _ Hi E1 ltac:(discriminate)) as [I1 K1]. apply K1. clear K1.
  destruct (ni_token i1) as [[[t2 v2] i2]|] eqn:E2; [|now apply token_none].
  assert (N2 : t2 <> NUnknown) by (intros ->; discriminate).
  destruct (token_huge i1 _ _ _ I1 E2 N2) as [I2 K2]. apply K2. clear K2.
  destruct (match t2 with NPlus => Some 1 | NMinus => Some (-1) | _ => None end); [|discriminate].
  destruct (ni_token i2) as [[[t3 v3] i3]|] eqn:E3; [|now apply token_none].
  destruct t3; try discriminate.
  destruct (token_huge i2 _ _ _ I2 E3 ltac:(discriminate)) as [I3 K3]. apply K3. clear K3.
  destruct (ni_token i3) as [[[t4 v4] i4]|] eqn:E4; [|now apply token_none].
  destruct t4; discriminate.
Qed.

Theorem c16_overflow_only : forall n t, Forall (fun c => 0 < c < 255) t -> nth_parse n t = None ->
  exists p ds s, map nchar t = p ++ ds ++ s /\ Forall digit ds /\ decimal ds > 9223372036854775759.
Proof.
  intros n t Hb H. destruct (text_start t Hb) as [Hi He]. rewrite <- He. clear He.
  change (huge_in (eff (mkNin 0 t))). unfold nth_parse in H. set (i := mkNin 0 t) in *. clearbody i.
  destruct (ni_token i) as [[[t1 v1] i1]|] eqn:E1; [|now apply token_none].
  destruct t1; try discriminate;
    destruct (token_huge i _ _ _ Hi E1 ltac:(discriminate)) as [I1 K1]; apply K1; clear K1.
  - destruct (ni_token i1) as [[[t2 v2] i2]|] eqn:E2; [destruct t2; discriminate|now apply token_none].
  - destruct (ni_token i1) as [[[t2 v2] i2]|] eqn:E2; [destruct t2; discriminate|now apply token_none].
  - exact (parse_rest_none n NInteger v1 1 i1 I1 H).
  - destruct (ni_token i1) as [[[t2 v2] i2]|] eqn:E2; [|now apply token_none].
    assert (N2 : t2 <> NUnknown) by (intros ->; discriminate).
    destruct (token_huge i1 _ _ _ I1 E2 N2) as [I2 K2]. apply K2. exact (parse_rest_none n t2 v2 1 i2 I2 H).
  - destruct (ni_token i1) as [[[t2 v2] i2]|] eqn:E2; [|now apply token_none].
    assert (N2 : t2 <> NUnknown) by (intros ->; discriminate).
    destruct (token_huge i1 _ _ _ I1 E2 N2) as [I2 K2]. apply K2. exact (parse_rest_none n t2 v2 (-1) i2 I2 H).
Qed.
Print Assumptions c16_overflow_only.

(** Without the restrictions the claim is false: a byte 0xFF is taken for the
    end of the text, and coefficients of more than 32 bits are truncated. *)
Theorem c16_only_refuted :
  nth_parse (nth_make 0 1) (zs "5" ++ [255] ++ zs "garbage") = Some (true, mkNth 0 5 "")
  /\ nth_parse (nth_make 0 1) (zs "4294967297") = Some (true, mkNth 0 1 "")
  /\ nth_parse (nth_make 0 1) (zs "9223372036854775807") = None.
Proof. split; [vm_compute; reflexivity|split; vm_compute; reflexivity]. Qed.
Print Assumptions c16_only_refuted.

Example c16_nontrivial :
  nth_text (zs " -12 N + 5 ") (-12) 5 /\ nth_parse (nth_make 0 1) (zs " -12 N + 5 ") = Some (true, mkNth (-12) 5 "").
Proof.
  split; [|vm_compute; reflexivity].
  apply (nt_ab (zs " ") [45] (-1) [] (zs "12") (zs " ") 78 (zs " ") [43] 1 (zs " ") (zs "5") (zs " "));
    first [constructor; fail|now left|now repeat constructor|split; [discriminate|]];
    repeat (apply Forall_cons; [cbn; unfold digit; lia|]); constructor.
Qed.

(** ** C17 *)
Lemma int_text_spec v : -2147483648 <= v < 2147483648 ->
  exists sg ds k, int_text v = sg ++ ds /\ (k = 1 /\ sg = [] \/ k = -1 /\ sg = [45]) /\ digits ds /\ decimal ds * k = v
    /\ (0 <= v -> sg = []) /\ (v < 0 -> sg = [45]).
Proof.
  intro H. unfold int_text. destruct (v <? 0) eqn:E.
  - destruct (nat_text_spec (- v)) as (D1 & D2 & D3 & _); [lia|].
    exists [45], (nat_text (- v)), (-1). split; [reflexivity|]. split; [auto|]. split; [split; assumption|].
    split; [lia|]. split; [lia|auto].
  - destruct (nat_text_spec v) as (D1 & D2 & D3 & _); [lia|].
    exists [], (nat_text v), 1. split; [reflexivity|]. split; [auto|]. split; [split; assumption|].
    split; [lia|]. split; [auto|lia].
Qed.

Theorem c17_roundtrip_partial : forall n a b e, -2147483648 <= a < 2147483648 -> -2147483648 <= b < 2147483648 ->
  (a <> 0 -> b <> 0) -> nth_parse n (nth_to_string (mkNth a b e)) = Some (true, mkNth a b "").
Proof.
  intros n a b e Ha Hb Hab. apply c16_accepted; [|assumption|assumption].
  unfold nth_to_string. cbn [nth_a nth_b].
  destruct ((a =? 2) && (b =? 0)) eqn:E1; [lia|].
  destruct ((a =? 2) && (b =? 1)) eqn:E2.
  { replace a with 2 by lia. replace b with 1 by lia.
    apply (nt_odd [] 111 100 100 []); first [now right|constructor]. }
  destruct (a =? 0) eqn:E3.
  { destruct (int_text_spec b Hb) as (sg & ds & k & -> & K & Hd & Hv & _).
    replace a with 0 by lia. rewrite <- Hv.
    replace (sg ++ ds) with ([] ++ sg ++ [] ++ ds ++ []) by (cbn; now rewrite app_nil_r).
    apply nt_b; try constructor; try apply Hd. destruct K as [[-> ->]|[-> ->]]; constructor. }
  destruct (b =? 0) eqn:E4; [lia|].
  destruct (int_text_spec a Ha) as (sg & ds & k & -> & K & Hd & Hv & _).
  destruct (int_text_spec b Hb) as (sg' & ds' & k' & -> & K' & Hd' & Hv' & P & N).
  rewrite <- Hv, <- Hv'.
  replace ((sg ++ ds) ++ zs "n" ++ (if 0 <=? decimal ds' * k' then zs "+" else []) ++ sg' ++ ds')
    with ([] ++ sg ++ [] ++ ds ++ [] ++ [110] ++ [] ++ ((if 0 <=? b then [43] else []) ++ sg') ++ [] ++ ds' ++ []).
  2: { rewrite Hv'. cbn [app]. rewrite app_nil_r, <- !app_assoc. reflexivity. }
  apply nt_ab; [constructor| |constructor|exact Hd|constructor|now right|constructor| |constructor|exact Hd'|constructor].
  - destruct K as [[-> ->]|[-> ->]]; constructor.
  - destruct (0 <=? b) eqn:Eb.
    + rewrite P by lia. destruct K' as [[-> ->]|[-> ->]]; [constructor|]. specialize (P ltac:(lia)). discriminate.
    + rewrite N by lia. destruct K' as [[-> ->]|[-> ->]]; [|constructor]. specialize (N ltac:(lia)). discriminate.
Qed.
Print Assumptions c17_roundtrip_partial.

(** The form of a multiple without a constant is refused by the parser, for
    every coefficient. *)
Theorem c17_roundtrip_refuted : forall n a e, -2147483648 <= a < 2147483648 -> a <> 0 ->
  exists m, nth_parse n (nth_to_string (mkNth a 0 e)) = Some (false, m).
Proof.
  intros n a e Ha Hn.
  assert (G : nth_to_string (mkNth a 0 e) = int_text a ++ zs "n").
  { unfold nth_to_string. cbn [nth_a nth_b]. change (0 =? 0) with true. change (0 =? 1) with false.
    rewrite andb_false_r, andb_true_r. replace (a =? 0) with false by lia.
    destruct (a =? 2) eqn:E; [replace a with 2 by lia; reflexivity|reflexivity]. }
  rewrite G. destruct (int_text_spec a Ha) as (sg & ds & k & -> & K & Hd & Hv & _).
  assert (Hm : decimal ds <= max_value) by (unfold max_value; destruct K as [[-> _]|[-> _]]; lia).
  assert (Hs : opt_sign sg k) by (destruct K as [[-> ->]|[-> ->]]; constructor).
  assert (Hasc : Forall ascii ((sg ++ ds) ++ zs "n")).
  { rewrite !Forall_app. repeat split; eauto using sign_ascii, digits_ascii. constructor; [unfold ascii; cbn; lia|constructor]. }
  assert (Hb0 : Forall byte_ok ((sg ++ ds) ++ zs "n")) by (revert Hasc; apply Forall_impl; unfold ascii, byte_ok; lia).
  destruct (text_start _ Hb0) as [Hi He]. rewrite (map_nchar _ Hasc) in He.
  unfold nth_parse. set (i := mkNin 0 _) in *. clearbody i. rewrite <- app_assoc in He.
  destruct (signed_run i [] sg k [] ds (zs "n") Hi He) as (j & S & I & F); auto; try constructor; try apply Hd.
  { cbn. unfold digit. lia. }
  destruct (token_run j NN 0 [] I) as (j2 & E2 & I2 & F2);
    [rewrite F; apply (tr_n [] 110 []); [constructor|now right]|unfold max_value; lia|].
  destruct (token_run j2 NEof 0 [] I2) as (j3 & E3 & _); [rewrite F2; apply (tr_eof []); constructor|unfold max_value; lia|].
  destruct S as [(E & ->)|[(v1 & j1 & E & E1 & ->)|(v1 & j1 & E & E1 & ->)]]; rewrite E; rewrite ?E1, E2, E3; eauto.
Qed.
Print Assumptions c17_roundtrip_refuted.

Example c17_nontrivial : nth_to_string (nth_make (-3) 7) = zs "-3n+7" /\ nth_to_string (nth_make 4 (-2)) = zs "4n-2"
  /\ nth_to_string (nth_make 2 1) = zs "odd" /\ nth_to_string (nth_make 0 (-12)) = zs "-12".
Proof. repeat split; vm_compute; reflexivity. Qed.
