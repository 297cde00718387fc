(** * Printing decimal numbers: proofs *)

From Coq Require Import String ZArith List Bool Lia ZifyBool Floats.SpecFloat.
From Verif Require Import Base TextSpec DecText DecFmt DecSpec.
Import ListNotations.
Open Scope string_scope. Open Scope list_scope. Open Scope Z_scope.
Ltac Zify.zify_post_hook ::= idtac.

(** ** Digits *)
Lemma pow10_pos n : 0 <= n -> 0 < 10 ^ n. Proof. intro. apply Z.pow_pos_nonneg; lia. Qed.

Lemma pad_spec k : forall v acc, 0 <= v < 10 ^ Z.of_nat k ->
  exists h, pad k v acc = h ++ acc /\ Forall digit h /\ length h = k /\ decimal h = v.
Proof.
  induction k as [|k IH]; intros v acc Hv.
  - exists []. cbn in *. repeat split; auto. lia.
  - rewrite Nat2Z.inj_succ, Z.pow_succ_r in Hv by lia. cbn [pad].
    assert (Hm : 0 <= v mod 10 < 10) by (apply Z.mod_pos_bound; lia).
    assert (Hdm : v = 10 * (v / 10) + v mod 10) by (apply Z.div_mod; lia).
    destruct (IH (v / 10) ((48 + v mod 10) :: acc)) as (h & E & D & L & V).
    { split; [apply Z.div_pos; lia|apply Z.div_lt_upper_bound; lia]. }
    exists (h ++ [48 + v mod 10]). rewrite <- app_assoc. split; [exact E|].
    split; [apply Forall_app; split; [assumption|constructor; [unfold digit; lia|constructor]]|].
    split; [rewrite app_length; cbn; lia|]. rewrite decimal_app, V. unfold decimal. cbn [fold_left length].
    change (10 ^ Z.of_nat 1) with 10. lia.
Qed.

Lemma decimal_nonneg l : Forall digit l -> 0 <= decimal l < 10 ^ Z.of_nat (length l).
Proof.
  induction l as [|c l IH] using rev_ind; [cbn; lia|]. rewrite Forall_app. intros [H1 H2].
  inversion H2 as [|? ? Hc _]; subst. unfold digit in Hc. specialize (IH H1).
  rewrite decimal_app, app_length. cbn [length]. rewrite Nat2Z.inj_add, Z.pow_add_r by lia.
  change (10 ^ Z.of_nat 1) with 10. unfold decimal at 2 4. cbn [fold_left]. lia.
Qed.

(** floor(0.l * 10^p) *)
Definition frac (p : Z) (l : list Z) : Z := decimal l * 10 ^ p / 10 ^ Z.of_nat (length l).

Lemma frac_zero p l : 0 <= p -> frac p (l ++ [48]) = frac p l.
Proof.
  intro Hp. unfold frac. rewrite decimal_app, app_length. cbn [length]. unfold decimal at 2. cbn [fold_left].
  rewrite Nat2Z.inj_add, Z.pow_add_r by lia. change (10 ^ Z.of_nat 1) with 10.
  replace ((decimal l * 10 + (10 * 0 + (48 - 48))) * 10 ^ p) with (decimal l * 10 ^ p * 10) by lia.
  apply Z.div_mul_cancel_r; [|lia]. pose proof (pow10_pos (Z.of_nat (length l)) ltac:(lia)). lia.
Qed.

Lemma strip_app l : exists k, l = strip l ++ repeat 48 k.
Proof.
  induction l as [|c l [k IH]]; [exists O; reflexivity|]. cbn [strip].
  destruct (strip l) as [|x r] eqn:E.
  - destruct (c =? 48) eqn:Ec.
    + exists (S k). cbn in *. rewrite <- IH. f_equal. lia.
    + exists k. cbn in *. now rewrite <- IH.
  - exists k. cbn in *. now rewrite IH at 1.
Qed.
Lemma strip_last l : last (strip l) 0 <> 48.
Proof.
  induction l as [|c l IH]; [cbn; lia|]. cbn [strip]. destruct (strip l) as [|x r] eqn:E.
  - destruct (c =? 48) eqn:Ec; cbn; lia.
  - exact IH.
Qed.
Lemma strip_nop l : last l 0 <> 48 -> strip l = l.
Proof.
  induction l as [|c l IH]; intro H; [reflexivity|]. cbn [strip]. destruct l as [|d l].
  - cbn in *. destruct (c =? 48) eqn:E; [lia|reflexivity].
  - rewrite IH by exact H. reflexivity.
Qed.
Lemma Forall_strip (P : Z -> Prop) l : Forall P l -> Forall P (strip l).
Proof. destruct (strip_app l) as [k E]. rewrite E at 1. rewrite Forall_app. tauto. Qed.
Lemma strip_length l : (length (strip l) <= length l)%nat.
Proof. destruct (strip_app l) as [k E]. rewrite E at 2. rewrite app_length. lia. Qed.

Lemma frac_zeros p l k : 0 <= p -> frac p (l ++ repeat 48 k) = frac p l.
Proof.
  intro Hp. induction k as [|k IH]; [now rewrite app_nil_r|].
  replace (repeat 48 (S k)) with (repeat 48 k ++ [48]) by (symmetry; apply repeat_cons).
  now rewrite app_assoc, frac_zero.
Qed.
Lemma frac_strip p l : 0 <= p -> frac p (strip l) = frac p l.
Proof. intro Hp. destruct (strip_app l) as [k E]. rewrite E at 2. now rewrite frac_zeros. Qed.

Lemma frac_firstn p l : Forall digit l -> frac (Z.of_nat p) (firstn p l) = frac (Z.of_nat p) l.
Proof.
  intro H. destruct (Nat.le_gt_cases (length l) p) as [L|L]; [now rewrite firstn_all2 by lia|].
  assert (E : l = firstn p l ++ skipn p l) by (symmetry; apply firstn_skipn).
  assert (L1 : length (firstn p l) = p) by (apply firstn_length_le; lia).
  set (a := firstn p l) in *. set (b := skipn p l) in *. rewrite E. clearbody a b. subst l.
  apply Forall_app in H. destruct H as [Ha Hb]. unfold frac. rewrite decimal_app, app_length, L1.
  pose proof (decimal_nonneg b Hb). pose proof (pow10_pos (Z.of_nat p) ltac:(lia)).
  pose proof (pow10_pos (Z.of_nat (length b)) ltac:(lia)).
  rewrite Nat2Z.inj_add, Z.pow_add_r by lia. rewrite Z.div_mul by lia.
  rewrite (Z.mul_comm (10 ^ Z.of_nat p)), Z.div_mul_cancel_r by lia.
  rewrite Z.div_add_l by lia. rewrite Z.div_small by lia. lia.
Qed.

Lemma frac_short p l : Z.of_nat (length l) <= p -> frac p l = decimal l * 10 ^ (p - Z.of_nat (length l)).
Proof.
  intro H. unfold frac. replace p with ((p - Z.of_nat (length l)) + Z.of_nat (length l)) at 1 by lia.
  rewrite Z.pow_add_r by lia. rewrite Z.mul_assoc. apply Z.div_mul.
  pose proof (pow10_pos (Z.of_nat (length l)) ltac:(lia)). lia.
Qed.

(** ** Trimming the text *)
Lemma find_char_app c a b : ~ In c a -> find_char c (a ++ c :: b) = Some (length a).
Proof.
  induction a as [|x a IH]; intro H; cbn [app find_char length].
  - now rewrite Z.eqb_refl.
  - replace (x =? c) with false by (symmetry; apply Z.eqb_neq; intros ->; apply H; now left).
    rewrite IH; [reflexivity|]. intro. apply H. now right.
Qed.
Lemma find_char_none c a : ~ In c a -> find_char c a = None.
Proof.
  induction a as [|x a IH]; intro H; cbn [find_char]; [reflexivity|].
  replace (x =? c) with false by (symmetry; apply Z.eqb_neq; intros ->; apply H; now left).
  rewrite IH; [reflexivity|]. intro. apply H. now right.
Qed.
Lemma strip_point a l : strip (a ++ 46 :: l) = a ++ 46 :: strip l.
Proof.
  induction a as [|x a IH]; cbn [app strip].
  - destruct (strip l) as [|y r] eqn:E; [reflexivity|reflexivity].
  - rewrite IH. destruct (a ++ 46 :: strip l) eqn:E; [|reflexivity]. destruct a; discriminate.
Qed.
Lemma drop_point a : drop_last_if 46 (a ++ [46]) = a.
Proof.
  induction a as [|x a IH]; [reflexivity|]. cbn [app drop_last_if]. destruct (a ++ [46]) eqn:E; [destruct a; discriminate|].
  now rewrite IH.
Qed.
Lemma drop_point_nop a : last a 0 <> 46 -> drop_last_if 46 a = a.
Proof.
  induction a as [|x a IH]; intro H; [reflexivity|]. cbn [drop_last_if]. destruct a as [|y a].
  - cbn in *. destruct (x =? 46) eqn:E; [lia|reflexivity].
  - now rewrite IH.
Qed.
Lemma last_app_cons (a : list Z) x r d : last (a ++ x :: r) d = last (x :: r) d.
Proof. induction a as [|y a IH]; [reflexivity|]. cbn [app]. rewrite <- IH. cbn. destruct (a ++ x :: r) eqn:E; [destruct a; discriminate|reflexivity]. Qed.
Lemma last_digit l : Forall digit l -> l <> [] -> digit (last l 0).
Proof.
  induction l as [|c l IH]; [congruence|]. intros H _. inversion H as [|? ? Hc Hl]; subst. destruct l; [assumption|].
  apply IH; [assumption|discriminate].
Qed.

Definition sgn (s : bool) : str := if s then [45] else [].

(** The text after the points of the algorithm that deal with the fraction. *)
Lemma trim_fraction p s ip sf : Forall digit ip -> Forall digit sf -> last sf 0 <> 48 ->
  let out := sgn s ++ with_point ip sf in
  match find_char 46 out with
  | None => out
  | Some e =>
      let n := (e + p + 1)%nat in
      let out := if (n <? length out)%nat then firstn n out else out in
      drop_last_if 46 (strip out)
  end = sgn s ++ with_point ip (strip (firstn p sf)).
Proof.
  intros Hi Hs Hl. cbn zeta.
  assert (Hn : ~ In 46 (sgn s ++ ip)).
  { rewrite in_app_iff. intros [C|C]; [destruct s; cbn in C; lia|].
    rewrite Forall_forall in Hi. specialize (Hi _ C). unfold digit in Hi. lia. }
  destruct sf as [|c sf]; cbn [with_point].
  - rewrite find_char_none by exact Hn. now rewrite firstn_nil.
  - set (f := c :: sf) in *. replace (sgn s ++ ip ++ 46 :: f) with ((sgn s ++ ip) ++ 46 :: f) by now rewrite <- app_assoc.
    rewrite find_char_app by exact Hn.
    set (a := sgn s ++ ip) in *.
    assert (E : (if (length a + p + 1 <? length (a ++ 46%Z :: f))%nat then firstn (length a + p + 1) (a ++ 46 :: f) else a ++ 46 :: f)
                = a ++ 46 :: firstn p f).
    { rewrite app_length. cbn [length]. destruct (Nat.ltb_spec (length a + p + 1) (length a + S (length f))).
      - rewrite firstn_app. rewrite firstn_all2 by lia. f_equal.
        replace (length a + p + 1 - length a)%nat with (S p) by lia. reflexivity.
      - rewrite (firstn_all2 f) by lia. reflexivity. }
    rewrite E, strip_point.
    assert (Hd : Forall digit (strip (firstn p f))).
    { apply Forall_strip. rewrite <- (firstn_skipn p f) in Hs. apply Forall_app in Hs. apply Hs. }
    destruct (strip (firstn p f)) as [|y r] eqn:E2.
    + rewrite drop_point. reflexivity.
    + rewrite drop_point_nop.
      * subst a. rewrite <- app_assoc. reflexivity.
      * rewrite last_app_cons. change (last (46 :: y :: r) 0) with (last (y :: r) 0).
        pose proof (last_digit (y :: r) Hd ltac:(discriminate)) as D. unfold digit in D. lia.
Qed.

Lemma decimal_zero_cons ip : Forall digit ip -> ip = [48] \/ first ip <> 48 /\ ip <> [] -> decimal ip = 0 -> ip = [48].
Proof.
  intros H [->|[N1 N2]] Hz; [reflexivity|]. destruct ip as [|c l]; [congruence|]. exfalso. cbn [first] in N1.
  inversion H as [|? ? Hc Hl]; subst. unfold digit in Hc.
  change (c :: l) with ([c] ++ l) in Hz. rewrite decimal_app in Hz. unfold decimal at 1 in Hz. cbn [fold_left] in Hz.
  pose proof (decimal_nonneg l Hl). pose proof (pow10_pos (Z.of_nat (length l)) ltac:(lia)). nia.
Qed.

Lemma trim_spec p short s ip sf : Forall digit ip -> ip = [48] \/ first ip <> 48 /\ ip <> [] ->
  Forall digit sf -> last sf 0 <> 48 -> 0 <= p ->
  canonical short p s (decimal ip * 10 ^ p + frac p sf) (trim_text p short (sgn s ++ with_point ip sf)).
Proof.
  intros Hi Hz Hs Hl Hp. pose proof (trim_fraction (Z.to_nat p) s ip sf Hi Hs Hl) as T.
  unfold trim_text. cbv beta zeta in T |- *. rewrite T. clear T.
  set (fp := strip (firstn (Z.to_nat p) sf)).
  assert (Hf : Forall digit (firstn (Z.to_nat p) sf)).
  { rewrite <- (firstn_skipn (Z.to_nat p) sf) in Hs. apply Forall_app in Hs. apply Hs. }
  assert (Hfp : Forall digit fp) by (apply Forall_strip; exact Hf).
  assert (Hlen : Z.of_nat (length fp) <= p).
  { pose proof (strip_length (firstn (Z.to_nat p) sf)) as L1. pose proof (firstn_le_length (Z.to_nat p) sf) as L2. subst fp. lia. }
  assert (Hlast : last fp 0 <> 48) by apply strip_last.
  assert (Hq : frac p sf = decimal fp * 10 ^ (p - Z.of_nat (length fp))).
  { rewrite <- frac_short by exact Hlen. subst fp. rewrite frac_strip by lia.
    pose proof (frac_firstn (Z.to_nat p) sf Hs) as F. rewrite Z2Nat.id in F by lia. congruence. }
  rewrite Hq. clearbody fp. clear Hf Hs Hl Hq sf.
  pose proof (pow10_pos p Hp) as P1. pose proof (pow10_pos (p - Z.of_nat (length fp)) ltac:(lia)) as P2.
  pose proof (decimal_nonneg ip Hi) as N1. pose proof (decimal_nonneg fp Hfp) as N2.
  assert (Hfz : fp <> [] -> decimal fp <> 0).
  { intros Hne E. destruct (exists_last Hne) as (l & c & Efp). subst fp. rewrite last_last in Hlast.
    rewrite decimal_app in E. apply Forall_app in Hfp. destruct Hfp as [D1 D2]. inversion D2 as [|? ? D3 _]; subst.
    pose proof (decimal_nonneg l D1). unfold decimal at 2 in E. cbn [fold_left length] in E. unfold digit in D3.
    change (10 ^ Z.of_nat 1) with 10 in E. lia. }
  set (q := decimal ip * 10 ^ p + decimal fp * 10 ^ (p - Z.of_nat (length fp))).
  assert (Hq0 : q = 0 <-> ip = [48] /\ fp = []).
  { split.
    - intro E. assert (decimal ip = 0) by nia. assert (decimal fp = 0) by nia.
      split; [now apply decimal_zero_cons|]. destruct fp; [reflexivity|]. exfalso. now apply Hfz.
    - intros [-> ->]. subst q. cbn [length] in *. unfold decimal. cbn [fold_left]. lia. }
  assert (Hsg : q <> 0 -> (if s && negb (q =? 0) then [45] else []) = sgn s).
  { intro N. replace (q =? 0) with false by lia. cbn. rewrite andb_true_r. reflexivity. }
  destruct fp as [|c fp]; cbn [with_point].
  - (* no fraction *)
    assert (R : (if short then remove_zero (sgn s ++ ip) else sgn s ++ ip) = sgn s ++ ip).
    { destruct short; [|reflexivity]. unfold remove_zero.
      assert (Hd : Forall (fun x => x <> 46) (sgn s ++ ip)).
      { apply Forall_app. split; [destruct s; repeat constructor; cbn; lia|]. revert Hi. apply Forall_impl. unfold digit. lia. }
      destruct (sgn s ++ ip) as [|x [|y [|z r]]]; try reflexivity.
      inversion Hd as [|? ? Dx Hd1]; subst. inversion Hd1 as [|? ? Dy Hd2]; subst. inversion Hd2 as [|? ? Dz _]; subst.
      replace (y =? 46) with false by lia. replace (z =? 46) with false by lia. rewrite !andb_false_r. destruct r; reflexivity. }
    rewrite R. exists ip, [].
    split; [|split; [assumption|split; [constructor|split; [cbn; lia|split; [cbn; lia|split; [reflexivity|]]]]]].
    + rewrite app_nil_r. destruct (Z.eq_dec q 0) as [E|N].
      * rewrite E. change (0 =? 0) with true. cbn [negb]. rewrite andb_false_r. cbn [app].
        destruct (proj1 Hq0 E) as [-> _]. destruct s; reflexivity.
      * rewrite Hsg by exact N.
        assert (sgn s ++ ip <> [45; 48]).
        { intro C. apply N. apply Hq0. split; [|reflexivity]. destruct s; cbn in C; [congruence|].
          subst ip. inversion Hi as [|? ? D _]; subst. unfold digit in D. lia. }
        set (w := sgn s ++ ip) in *. clearbody w. unfold no_minus_zero.
        destruct w as [|x [|y [|z w]]]; try reflexivity.
        destruct ((x =? 45) && (y =? 48)) eqn:Exy; [|reflexivity]. exfalso. apply H. f_equal; [lia|f_equal; lia].
    + destruct short; cbn [negb andb]; exact Hz.
  - (* a fraction *)
    assert (Nq : q <> 0) by (intro C; apply Hq0 in C; destruct C; discriminate).
    set (f := c :: fp) in *.
    assert (Hd : forall w, length w <> 2%nat -> no_minus_zero w = w).
    { intros w L. destruct w as [|x [|y [|z w]]]; try reflexivity. cbn in L. lia. }
    assert (Hlf : (1 <= length f)%nat) by (subst f; cbn; lia).
    assert (Hc : digit c) by (inversion Hfp; assumption).
    destruct short.
    + destruct Hz as [->|[Z1 Z2]].
      * exists [], f.
        assert (E : remove_zero (sgn s ++ [48] ++ 46 :: f) = sgn s ++ 46 :: f) by (subst f; destruct s; reflexivity).
        rewrite E. split; [|split; [constructor|split; [assumption|split; [assumption|split; [assumption|split; [|cbn; lia]]]]]].
        -- rewrite Hsg by exact Nq. subst f. destruct s; cbn [sgn app].
           ++ rewrite Hd; [reflexivity|]. cbn. lia.
           ++ destruct fp; reflexivity.
        -- subst q. unfold decimal at 1 3. cbn [fold_left]. lia.
      * exists ip, f.
        assert (E : remove_zero (sgn s ++ ip ++ 46 :: f) = sgn s ++ ip ++ 46 :: f).
        { destruct ip as [|a l]; [congruence|]. cbn [first] in Z1. inversion Hi as [|? ? Da Hl]; subst. unfold digit in Da.
          destruct s; cbn [sgn app]; unfold remove_zero.
          - destruct (l ++ 46 :: f) as [|y r] eqn:El; [destruct l; discriminate|].
            replace (a =? 48) with false by lia. rewrite andb_false_r. destruct r; reflexivity.
          - destruct (l ++ 46 :: f) as [|y [|z r]] eqn:El; try reflexivity.
            replace (a =? 48) with false by lia. replace (a =? 45) with false by lia. cbn [andb]. destruct r; reflexivity. }
        rewrite E. split; [|split; [assumption|split; [assumption|split; [assumption|split; [assumption|split; [reflexivity|exact Z1]]]]]].
        rewrite Hsg by exact Nq. subst f. rewrite Hd; [reflexivity|]. rewrite !app_length. cbn [length].
        destruct ip; [congruence|]. cbn. lia.
    + exists ip, f.
      split; [|split; [assumption|split; [assumption|split; [assumption|split; [assumption|split; [reflexivity|exact Hz]]]]]].
      rewrite Hsg by exact Nq. subst f. rewrite Hd; [reflexivity|]. rewrite !app_length. cbn [length].
      destruct ip as [|a l]; [destruct Hz as [?|[_ ?]]; congruence|]. cbn. lia.
Qed.

(** ** The text of a double *)
Lemma all_digits_spec v : 0 <= v < 10 ^ 1200 ->
  Forall digit (all_digits v) /\ decimal (all_digits v) = v /\ all_digits v <> []
  /\ (all_digits v = [48] \/ first (all_digits v) <> 48 /\ all_digits v <> []).
Proof.
  intro H. unfold all_digits. destruct (dec_digits_spec 1200 v []) as (h & E1 & E2 & E3 & E4 & E5 & E6).
  - replace (Z.of_nat 1200) with 1200 by reflexivity. exact H.
  - lia.
  - rewrite E1, app_nil_r. repeat split; auto. destruct (Z.eq_dec v 0); [left; auto|right; auto].
Qed.

Lemma decimal_text_spec n k : 0 < n < 10 ^ 1200 -> 10 ^ Z.of_nat k <= n * 10 ^ 4 ->
  exists ip sf, decimal_text n k = with_point ip sf /\ Forall digit ip /\ (ip = [48] \/ first ip <> 48 /\ ip <> [])
    /\ Forall digit sf /\ last sf 0 <> 48
    /\ forall p, 0 <= p -> decimal ip * 10 ^ p + frac p sf = n * 10 ^ p / 10 ^ Z.of_nat k.
Proof.
  intros Hn Hk. unfold decimal_text.
  pose proof (pow10_pos (Z.of_nat k) ltac:(lia)) as Pk.
  destruct (all_digits_spec n ltac:(lia)) as (D1 & D2 & D3 & D4).
  assert (Hx : Z.of_nat (length (all_digits n)) - 1 - Z.of_nat k <? -4 = false).
  { apply Z.ltb_ge. pose proof (decimal_nonneg _ D1) as Hd. rewrite D2 in Hd.
    assert (10 ^ Z.of_nat k < 10 ^ (Z.of_nat (length (all_digits n)) + 4)) by (rewrite Z.pow_add_r by lia; lia).
    assert (Z.of_nat k < Z.of_nat (length (all_digits n)) + 4); [|lia].
    apply (Z.pow_lt_mono_r_iff 10); lia. }
  rewrite Hx. clear Hx D1 D2 D3 D4.
  set (ip := all_digits (n / 10 ^ Z.of_nat k)).
  assert (Hi : 0 <= n / 10 ^ Z.of_nat k < 10 ^ 1200).
  { split; [apply Z.div_pos; lia|]. apply Z.div_lt_upper_bound; [lia|]. nia. }
  destruct (all_digits_spec _ Hi) as (D1 & D2 & D3 & D4). fold ip in D1, D2, D3, D4.
  destruct (pad_spec k (n mod 10 ^ Z.of_nat k) []) as (h & E & H1 & H2 & H3); [apply Z.mod_pos_bound; lia|].
  rewrite E, app_nil_r. exists ip, (strip h).
  split; [reflexivity|]. split; [exact D1|]. split; [exact D4|]. split; [now apply Forall_strip|].
  split; [apply strip_last|]. intros p Hp. rewrite frac_strip, D2 by lia. unfold frac. rewrite H2, H3.
  rewrite <- Z.div_add_l by lia. f_equal.
  rewrite (Z.div_mod n (10 ^ Z.of_nat k)) at 3 by lia. ring.
Qed.

Lemma double_text_spec s m e : Z.pos m < 2 ^ 53 -> -1074 <= e <= 971 -> (e < 0 -> 2 ^ (- e) <= Z.pos m * 10 ^ 4) ->
  exists ip sf, double_text (S754_finite s m e) = sgn s ++ with_point ip sf /\ Forall digit ip
    /\ (ip = [48] \/ first ip <> 48 /\ ip <> []) /\ Forall digit sf /\ last sf 0 <> 48
    /\ forall p, 0 <= p -> decimal ip * 10 ^ p + frac p sf = scaled (Z.pos m) e p.
Proof.
  intros Hm He Hbig. cbn [double_text]. unfold scaled.
  change (if s then zs "-" else []) with (sgn s).
  destruct (0 <=? e) eqn:E.
  - assert (B1 : 0 < 2 ^ e) by (apply Z.pow_pos_nonneg; lia).
    assert (B2 : 2 ^ e <= 2 ^ 971) by (apply Z.pow_le_mono_r; lia).
    assert (B : 0 < Z.pos m * 2 ^ e < 10 ^ 1200).
    { split; [lia|]. assert (Z.pos m * 2 ^ e <= 2 ^ 53 * 2 ^ 971) by nia.
      assert (2 ^ 53 * 2 ^ 971 < 10 ^ 1200) by (vm_compute; reflexivity). lia. }
    destruct (decimal_text_spec (Z.pos m * 2 ^ e) 0 B) as (ip & sf & E1 & R).
    { change (10 ^ Z.of_nat 0) with 1. lia. }
    exists ip, sf. rewrite E1. split; [reflexivity|]. destruct R as (R1 & R2 & R3 & R4 & R5).
    repeat (split; [assumption|]). intros p Hp. rewrite R5 by exact Hp. change (10 ^ Z.of_nat 0) with 1. apply Z.div_1_r.
  - assert (B1 : 0 < 5 ^ (- e)) by (apply Z.pow_pos_nonneg; lia).
    assert (B2 : 5 ^ (- e) <= 5 ^ 1074) by (apply Z.pow_le_mono_r; lia).
    assert (B : 0 < Z.pos m * 5 ^ (- e) < 10 ^ 1200).
    { split; [lia|]. assert (Z.pos m * 5 ^ (- e) <= 2 ^ 53 * 5 ^ 1074) by nia.
      assert (2 ^ 53 * 5 ^ 1074 < 10 ^ 1200) by (vm_compute; reflexivity). lia. }
    assert (Hten : 10 ^ Z.of_nat (Z.to_nat (- e)) = 2 ^ (- e) * 5 ^ (- e)).
    { rewrite Z2Nat.id by lia. change 10 with (2 * 5). apply Z.pow_mul_l. }
    destruct (decimal_text_spec (Z.pos m * 5 ^ (- e)) (Z.to_nat (- e)) B) as (ip & sf & E1 & R).
    { rewrite Hten. specialize (Hbig ltac:(lia)). nia. }
    exists ip, sf. rewrite E1. split; [reflexivity|]. destruct R as (R1 & R2 & R3 & R4 & R5).
    repeat (split; [assumption|]). intros p Hp. rewrite R5 by exact Hp. rewrite Hten.
    replace (Z.pos m * 5 ^ (- e) * 10 ^ p) with (Z.pos m * 10 ^ p * 5 ^ (- e)) by ring.
    apply Z.div_mul_cancel_r; [|lia].
    assert (0 < 2 ^ (- e)) by (apply Z.pow_pos_nonneg; lia). lia.
Qed.
