(** * Properties C20 and C50: printing decimal numbers, precision *)

From Coq Require Import String ZArith List Bool Lia ZifyBool Reals Lra Floats.SpecFloat.
From Verif Require Import Base TextSpec DecText DecFmt DecSpec DecProofs FloatFacts.
Import ListNotations.
Open Scope string_scope. Open Scope list_scope. Open Scope Z_scope.
Ltac Zify.zify_post_hook ::= idtac.

(** ** C20 *)

(** The powers of ten are exact (they all are representable, and so they are
    with the usual implementations). *)
Definition exact_pow (lm : libm) (p : Z) : Prop := lm_pow lm (f64_of_Z 10) (f64_of_Z p) = f64_of_Z (10 ^ p).

Definition half_of (p : Z) : f64 := f64_div f_half (f64_of_Z (10 ^ p)).

Definition half_check (p : Z) : bool :=
  match half_of p with
  | S754_finite false m e =>
      (e <? 0) && SpecFloat.valid_binary 53 1024 (half_of p)
      && (2 ^ 53 * Z.abs (2 * Z.pos m * 10 ^ p - 2 ^ (- e)) <=? 2 ^ (- e))
      && ((3 <? p) || (2 ^ (- e) <=? Z.pos m * 10 ^ 4))
  | _ => false
  end.

Lemma half_facts p : 0 <= p <= 10 -> exists m e, half_of p = S754_finite false m e /\ e < 0 /\ f64_valid (half_of p)
  /\ 2 ^ 53 * Z.abs (2 * Z.pos m * 10 ^ p - 2 ^ (- e)) <= 2 ^ (- e) /\ (p <= 3 -> 2 ^ (- e) <= Z.pos m * 10 ^ 4).
Proof.
  intro Hp. assert (C : half_check p = true).
  { assert (D : p = 0 \/ p = 1 \/ p = 2 \/ p = 3 \/ p = 4 \/ p = 5 \/ p = 6 \/ p = 7 \/ p = 8 \/ p = 9 \/ p = 10) by lia.
    repeat (destruct D as [->|D]; [vm_compute; reflexivity|]). subst p. vm_compute. reflexivity. }
  unfold half_check in C. destruct (half_of p) as [| | |s m e] eqn:E; try discriminate. destruct s; [discriminate|].
  apply andb_prop in C. destruct C as [C C4]. apply andb_prop in C. destruct C as [C C3]. apply andb_prop in C. destruct C as [C1 C2].
  exists m, e. split; [reflexivity|]. split; [lia|]. split; [exact C2|]. split; [lia|]. intro. lia.
Qed.

Lemma powerRZ2_IZR e : 0 <= e -> powerRZ 2 e = IZR (2 ^ e).
Proof.
  intro H. rewrite <- bpow_powerRZ. symmetry. apply (Flocq.Core.Raux.IZR_Zpower (Zaux.Build_radix 2 eq_refl)). exact H.
Qed.
Lemma powerRZ2_neg e : (powerRZ 2 (- e) = / powerRZ 2 e)%R.
Proof. apply powerRZ_neg'. Qed.
Lemma powerRZ2_pos e : (0 < powerRZ 2 e)%R.
Proof. apply powerRZ_lt. lra. Qed.

(** [scaled] is the integer part. *)
Lemma scaled_floor m e p : 0 <= p ->
  (IZR (scaled m e p) <= IZR m * powerRZ 2 e * IZR (10 ^ p) < IZR (scaled m e p) + 1)%R.
Proof.
  intro Hp. unfold scaled. destruct (0 <=? e) eqn:E.
  - rewrite powerRZ2_IZR by lia. rewrite <- !mult_IZR. lra.
  - assert (P : 0 < 2 ^ (- e)) by (apply Z.pow_pos_nonneg; lia).
    pose proof (Z.mul_div_le (m * 10 ^ p) _ P) as L1. pose proof (Z.mul_succ_div_gt (m * 10 ^ p) _ P) as L2.
    set (q := m * 10 ^ p / 2 ^ (- e)) in *.
    replace (powerRZ 2 e) with (/ IZR (2 ^ (- e)))%R
      by (rewrite <- powerRZ2_IZR by lia; rewrite powerRZ2_neg; apply Rinv_inv).
    apply IZR_lt in P. apply IZR_le in L1. apply IZR_lt in L2. rewrite !mult_IZR in *. rewrite succ_IZR in L2.
    set (d := IZR (2 ^ (- e))) in *. set (t := (IZR m * IZR (10 ^ p))%R) in *.
    replace (IZR m * / d * IZR (10 ^ p))%R with (t / d)%R by (unfold t, Rdiv; ring).
    split.
    + apply (Rmult_le_reg_r d); [exact P|]. unfold Rdiv. rewrite Rmult_assoc, Rinv_l by lra. lra.
    + apply (Rmult_lt_reg_r d); [exact P|]. unfold Rdiv. rewrite Rmult_assoc, Rinv_l by lra. lra.
Qed.

Section one_number.
Variables (p : Z) (d : f64).
Hypothesis Hp : 0 <= p <= 10.
Hypothesis Vd : f64_valid d.
Hypothesis Fd : f64_finite d.
Hypothesis Bd : (Rabs (f64_R d) <= powerRZ 2 1000)%R.

Let a := Rabs (f64_R d).
Let h := f64_R (half_of p).
Let t := IZR (10 ^ p).
Let X := rnd (a + h).

Lemma t_pos : (1 <= t)%R.
Proof. unfold t. apply IZR_le. assert (0 < 10 ^ p) by (apply Z.pow_pos_nonneg; lia). lia. Qed.
Lemma t_small : (t <= 10000000000)%R.
Proof. unfold t. apply IZR_le. change 10000000000 with (10 ^ 10). apply Z.pow_le_mono_r; lia. Qed.

Lemma h_near : (Rabs (h * t - / 2) <= powerRZ 2 (-54))%R.
Proof.
  destruct (half_facts p Hp) as (m & e & E & He & _ & H1 & _). unfold h, t. rewrite E. cbn [f64_R].
  set (k := 2 ^ (- e)) in *. assert (Pk : 0 < k) by (apply Z.pow_pos_nonneg; lia).
  assert (Ek : powerRZ 2 e = (/ IZR k)%R) by (unfold k; rewrite <- powerRZ2_IZR by lia; rewrite powerRZ2_neg; symmetry; apply Rinv_inv).
  rewrite Ek. apply IZR_le in H1. apply IZR_lt in Pk. rewrite mult_IZR, abs_IZR, minus_IZR, !mult_IZR in H1.
  change (powerRZ 2 (-54)) with (powerRZ 2 (- (54))). rewrite powerRZ2_neg, powerRZ2_IZR by lia.
  set (w := (IZR (Z.pos m) * IZR (10 ^ p))%R).
  replace (1 * IZR (Z.pos m) * / IZR k * IZR (10 ^ p) - / 2)%R with ((2 * w - IZR k) * / (2 * IZR k))%R
    by (unfold w; field; lra).
  rewrite Rabs_mult, (Rabs_right (/ (2 * IZR k))) by (apply Rle_ge, Rlt_le, Rinv_0_lt_compat; lra).
  replace (2 * IZR (Z.pos m) * IZR (10 ^ p))%R with (2 * w)%R in H1 by (unfold w; ring).
  change (2 ^ 54) with (2 * 2 ^ 53). rewrite mult_IZR.
  assert (P53 : (0 < IZR (2 ^ 53))%R) by (apply IZR_lt; reflexivity).
  set (z := IZR (2 ^ 53)) in *. set (v := Rabs (2 * w - IZR k)) in *.
  apply (Rmult_le_reg_r (2 * IZR k)); [lra|]. rewrite Rmult_assoc, Rinv_l by lra.
  replace (/ (2 * z) * (2 * IZR k))%R with (/ z * IZR k)%R by (field; lra).
  apply (Rmult_le_reg_l z); [lra|].
  replace (z * (/ z * IZR k))%R with (IZR k) by (field; lra). lra.
Qed.

Lemma tiny : (powerRZ 2 (-54) = / 18014398509481984 /\ powerRZ 2 (-53) = / 9007199254740992 /\ powerRZ 2 (-52) = / 4503599627370496)%R.
Proof.
  change (-54) with (- (54)). change (-53) with (- (53)). change (-52) with (- (52)).
  rewrite !powerRZ2_neg, !powerRZ2_IZR by lia. repeat split; f_equal.
Qed.

Lemma h_range : (/ 4 * / t <= h <= 1)%R.
Proof.
  pose proof h_near as N. pose proof t_pos as T. destruct tiny as [T54 _]. rewrite T54 in N.
  apply Flocq.Core.Raux.Rabs_le_inv in N. assert (Q : (/ 4 <= h * t <= 1)%R) by lra.
  assert (It : (0 < / t)%R) by (apply Rinv_0_lt_compat; lra). split.
  - apply (Rmult_le_reg_r t); [lra|]. rewrite Rmult_assoc, Rinv_l by lra. lra.
  - assert (h <= h * t \/ h < 0)%R by (destruct (Rle_or_lt 0 h); [left; nra|right; lra]). lra.
Qed.

Lemma a_pos : (0 <= a)%R. Proof. apply Rabs_pos. Qed.
Lemma h_big : (/ 100000000000 <= h)%R.
Proof.
  pose proof h_range as H. pose proof t_small as T. pose proof t_pos as T1.
  assert (/ 10000000000 <= / t)%R by (apply Rinv_le_contravar; lra). lra.
Qed.

Lemma X_error : (Rabs (X - (a + h)) <= powerRZ 2 (-53) * (a + h))%R.
Proof.
  pose proof a_pos. pose proof h_big.
  rewrite <- (Rabs_right (a + h)) at 2 by lra. apply rnd_error. rewrite Rabs_right by lra.
  apply Rle_trans with (/ 100000000000)%R; [|lra].
  apply Rle_trans with (powerRZ 2 (-40)).
  - rewrite <- !bpow_powerRZ. apply Flocq.Core.Raux.bpow_le. lia.
  - change (-40) with (- (40)). rewrite powerRZ2_neg, powerRZ2_IZR by lia.
    apply Rinv_le_contravar; [lra|]. apply IZR_le. vm_compute. discriminate.
Qed.

Lemma X_ge : (h <= X /\ a <= X)%R.
Proof.
  pose proof a_pos. pose proof h_big. split.
  - destruct (half_facts p Hp) as (m & e & E & He & V & _). unfold h at 1. rewrite <- (rnd_exact _ V). apply rnd_le. unfold h. lra.
  - assert (Va : rnd a = a).
    { unfold a. destruct (Rle_or_lt 0 (f64_R d)).
      - rewrite Rabs_right by lra. now apply rnd_exact.
      - rewrite Rabs_left by lra. rewrite rnd_opp. f_equal. now apply rnd_exact. }
    rewrite <- Va at 1. apply rnd_le. lra.
Qed.

Lemma X_lt : (Rabs X < powerRZ 2 1024)%R.
Proof.
  pose proof X_error as E. pose proof a_pos. pose proof h_range. pose proof h_big. pose proof X_ge.
  destruct tiny as (_ & T & _). rewrite T in E. apply Flocq.Core.Raux.Rabs_le_inv in E. rewrite Rabs_right by lra.
  fold a in Bd. assert (B : (X <= 2 * powerRZ 2 1000 + 2)%R) by lra.
  apply Rle_lt_trans with (1 := B).
  assert (P1 : (1 <= powerRZ 2 1000)%R).
  { rewrite powerRZ2_IZR by lia. apply IZR_le. vm_compute. discriminate. }
  replace (powerRZ 2 1024) with (powerRZ 2 24 * powerRZ 2 1000)%R by (rewrite <- powerRZ_add by lra; reflexivity).
  assert (P2 : (4 < powerRZ 2 24)%R) by (rewrite powerRZ2_IZR by lia; apply IZR_lt; reflexivity). nra.
Qed.

Lemma X_scaled : (Rabs (X * t - a * t - / 2) <= powerRZ 2 (-52) * (a * t + 1))%R.
Proof.
  pose proof X_error as E. pose proof h_near as N. pose proof t_pos as T. pose proof a_pos as A.
  destruct tiny as (T1 & T2 & T3). rewrite T1 in N. rewrite T2 in E. rewrite T3.
  apply Flocq.Core.Raux.Rabs_le_inv in E, N. apply Rabs_le.
  assert (E1 : (- (/ 9007199254740992 * (a + h) * t) <= (X - (a + h)) * t <= / 9007199254740992 * (a + h) * t)%R) by (split; nra).
  assert (Q : (h * t <= 1)%R) by lra.
  replace (X * t - a * t - / 2)%R with ((X - (a + h)) * t + (h * t - / 2))%R by ring.
  replace (/ 9007199254740992 * (a + h) * t)%R with (/ 9007199254740992 * (a * t + h * t))%R in E1 by ring.
  assert (0 <= a * t)%R by nra. split; lra.
Qed.

Lemma rounded_value lm : exact_pow lm p ->
  exists m e, rounded lm p d = S754_finite (SFltb d (S754_zero false)) m e
    /\ f64_valid (S754_finite (SFltb d (S754_zero false)) m e) /\ X = (IZR (Z.pos m) * powerRZ 2 e)%R.
Proof.
  intro L. unfold rounded. rewrite L. fold (half_of p).
  destruct (half_facts p Hp) as (mh & eh & Eh & _ & Vh & _).
  assert (Fh : f64_finite (half_of p)) by (rewrite Eh; exact I).
  pose proof X_lt as B. pose proof X_ge as [G _]. pose proof h_big as G2.
  assert (Pos : forall x, f64_valid x -> f64_finite x -> f64_R x = X ->
    exists m e, x = S754_finite false m e /\ f64_valid x /\ X = (IZR (Z.pos m) * powerRZ 2 e)%R).
  { intros x V F R. destruct x as [s|s| |s m e]; cbn in F; try contradiction; cbn [f64_R] in R; [lra|].
    pose proof (powerRZ2_pos e) as P. assert (0 < IZR (Z.pos m))%R by (apply IZR_lt; lia).
    destruct s; [exfalso; nra|]. exists m, e. split; [reflexivity|]. split; [exact V|]. lra. }
  assert (Neg : forall x, f64_valid x -> f64_finite x -> f64_R x = (- X)%R ->
    exists m e, x = S754_finite true m e /\ f64_valid x /\ X = (IZR (Z.pos m) * powerRZ 2 e)%R).
  { intros x V F R. destruct x as [s|s| |s m e]; cbn in F; try contradiction; cbn [f64_R] in R; [lra|].
    pose proof (powerRZ2_pos e) as P. assert (0 < IZR (Z.pos m))%R by (apply IZR_lt; lia).
    destruct s; [|exfalso; nra]. exists m, e. split; [reflexivity|]. split; [exact V|]. lra. }
  destruct d as [s|s| |s m e] eqn:Ed; cbn in Fd; try contradiction.
  - (* zero *)
    assert (Ea : a = 0%R) by (unfold a; cbn; apply Rabs_R0).
    assert (Ex : X = rnd (f64_R (S754_zero s) + f64_R (half_of p))) by (unfold X; rewrite Ea; reflexivity).
    rewrite Ex in B. destruct (f64_add_spec _ _ Vd Fd Vh Fh B) as (V & F & R). rewrite <- Ex in R.
    destruct (Pos _ V F R) as (m & e & E1 & E2 & E3). exists m, e. change (SFleb (S754_zero false) (S754_zero s)) with true.
    cbn [SFltb SFcompare]. rewrite <- E1. auto.
  - assert (P := powerRZ2_pos e). assert (0 < IZR (Z.pos m))%R by (apply IZR_lt; lia).
    destruct s.
    + assert (Ea : a = (- f64_R (S754_finite true m e))%R) by (unfold a; apply Rabs_left; cbn [f64_R]; nra).
      assert (Ex : (rnd (f64_R (S754_finite true m e) - f64_R (half_of p)) = - X)%R).
      { unfold X. rewrite <- rnd_opp, Ea. f_equal. unfold h. ring. }
      assert (B' : (Rabs (rnd (f64_R (S754_finite true m e) - f64_R (half_of p))) < powerRZ 2 1024)%R) by (rewrite Ex, Rabs_Ropp; exact B).
      destruct (f64_sub_spec _ _ Vd Fd Vh Fh B') as (V & F & R). rewrite Ex in R.
      destruct (Neg _ V F R) as (m' & e' & E1 & E2 & E3). exists m', e'.
      change (SFleb (S754_zero false) (S754_finite true m e)) with false. cbn [SFltb SFcompare]. rewrite <- E1. auto.
    + assert (Ea : a = f64_R (S754_finite false m e)) by (unfold a; apply Rabs_right; cbn [f64_R]; nra).
      assert (Ex : X = rnd (f64_R (S754_finite false m e) + f64_R (half_of p))) by (unfold X; rewrite Ea; reflexivity).
      rewrite Ex in B. destruct (f64_add_spec _ _ Vd Fd Vh Fh B) as (V & F & R). rewrite <- Ex in R.
      destruct (Pos _ V F R) as (m' & e' & E1 & E2 & E3). exists m', e'.
      change (SFleb (S754_zero false) (S754_finite false m e)) with true. cbn [SFltb SFcompare]. rewrite <- E1. auto.
Qed.
End one_number.

(** The text printed for [d] is the canonical notation of q / 10^p where q is
    the integer nearest to |d| * 10^p, up to the rounding of the additions of
    doubles. This holds with up to 3 digits, and with 4 to 10 digits when
    |d| >= 0.0001. *)
Theorem c20_printed_partial : forall lm p d short, 0 <= p <= 10 -> exact_pow lm p ->
  f64_valid d -> f64_finite d -> (Rabs (f64_R d) <= powerRZ 2 1000)%R ->
  p <= 3 \/ (1 / 10000 <= Rabs (f64_R d))%R ->
  exists q, canonical short p (SFltb d (S754_zero false)) q (decimal_number_to_string lm p d short)
    /\ (Rabs (IZR q - Rabs (f64_R d) * IZR (10 ^ p)) <= 1 / 2 + powerRZ 2 (-52) * (Rabs (f64_R d) * IZR (10 ^ p) + 1))%R.
Proof.
  intros lm p d short Hp L V F B Hbig.
  destruct (rounded_value p d Hp V F B lm L) as (m & e & E & Vx & Ex).
  destruct (f64_valid_bounds _ _ _ Vx) as [Bm Be].
  pose proof (X_scaled p d Hp) as S. pose proof (X_ge p d Hp V) as [G1 G2].
  set (X := rnd (Rabs (f64_R d) + f64_R (half_of p))) in *.
  assert (Hx : e < 0 -> 2 ^ (- e) <= Z.pos m * 10 ^ 4).
  { intro He. assert (GX : (/ 10000 <= X)%R).
    { destruct Hbig as [H3|H3]; [|lra].
      destruct (half_facts p Hp) as (mh & eh & Eh & Hneg & _ & _ & Hh). specialize (Hh H3).
      rewrite Eh in G1. cbn [f64_R] in G1.
      assert (Ek : powerRZ 2 eh = (/ IZR (2 ^ (- eh)))%R) by (rewrite <- powerRZ2_IZR by lia; rewrite powerRZ2_neg; symmetry; apply Rinv_inv).
      rewrite Ek in G1. apply IZR_le in Hh. rewrite mult_IZR in Hh. change (IZR (10 ^ 4)) with 10000%R in Hh.
      assert (P : (0 < IZR (2 ^ (- eh)))%R) by (apply IZR_lt, Z.pow_pos_nonneg; lia).
      apply Rle_trans with (2 := G1). apply (Rmult_le_reg_r (IZR (2 ^ (- eh)))); [exact P|].
      rewrite Rmult_1_l, Rmult_assoc, Rinv_l by lra. lra. }
    rewrite Ex in GX.
    assert (Ek : powerRZ 2 e = (/ IZR (2 ^ (- e)))%R) by (rewrite <- powerRZ2_IZR by lia; rewrite powerRZ2_neg; symmetry; apply Rinv_inv).
    rewrite Ek in GX. assert (P : (0 < IZR (2 ^ (- e)))%R) by (apply IZR_lt, Z.pow_pos_nonneg; lia).
    apply le_IZR. rewrite mult_IZR. change (IZR (10 ^ 4)) with 10000%R.
    apply (Rmult_le_compat_r (IZR (2 ^ (- e)))) in GX; [|lra]. rewrite Rmult_assoc, Rinv_l in GX by lra. lra. }
  destruct (double_text_spec (SFltb d (S754_zero false)) m e Bm Be Hx) as (ip & sf & T & I1 & I2 & I3 & I4 & I5).
  exists (scaled (Z.pos m) e p). split.
  - unfold decimal_number_to_string. rewrite E, T, <- I5 by lia. apply trim_spec; auto. lia.
  - pose proof (scaled_floor (Z.pos m) e p ltac:(lia)) as SF. rewrite <- Ex in SF.
    apply Flocq.Core.Raux.Rabs_le_inv in S. apply Rabs_le. lra.
Qed.
Print Assumptions c20_printed_partial.

(** With 4 digits or more the claim is false: zero is printed as 5 or as
    4.999... (0.5 / 10^p is printed in scientific notation and its exponent is
    lost). *)
Theorem c20_zero_refuted : forall lm p, 4 <= p <= 10 -> exact_pow lm p ->
  let out := decimal_number_to_string lm p (S754_zero false) true in
  (p = 4 -> out = zs "5") /\ (first out = 52 \/ first out = 53).
Proof.
  intros lm p Hp L. cbv zeta. unfold decimal_number_to_string, rounded. rewrite L. fold (half_of p).
  assert (D : p = 4 \/ p = 5 \/ p = 6 \/ p = 7 \/ p = 8 \/ p = 9 \/ p = 10) by lia. clear L Hp.
  destruct D as [->|[->|[->|[->|[->|[->| ->]]]]]]; (split; [intro; try lia; vm_compute; reflexivity|]);
    first [left; vm_compute; reflexivity|right; vm_compute; reflexivity].
Qed.
Print Assumptions c20_zero_refuted.

Definition libm10 : libm := mkLibm (fun _ y => f64_of_Z (10 ^ match y with
  | S754_finite false m e => if 0 <=? e then Z.pos m * 2 ^ e else Z.pos m / 2 ^ (- e) | _ => 0 end)).
Example c20_nontrivial :
  exact_pow libm10 3 /\ decimal_number_to_string libm10 3 (f64_div (f64_of_Z (-2)) (f64_of_Z 3)) true = zs "-.667"
  /\ decimal_number_to_string libm10 3 (f64_div (f64_of_Z (-2)) (f64_of_Z 30000)) true = zs "0"
  /\ decimal_number_to_string libm10 3 (f64_div (f64_of_Z 5) (f64_of_Z 2)) false = zs "2.5"
  /\ f64_valid (f64_div (f64_of_Z (-2)) (f64_of_Z 3)).
Proof. repeat split; vm_compute; reflexivity. Qed.

(** ** C50 *)

(** Whatever a program does, the precision stays in the range. *)
Theorem c50_range : forall q g, 0 <= g <= 10 -> 0 <= fst (pprog_run g q) <= 10.
Proof.
  assert (S : forall p g', set_precision p = Some g' -> 0 <= g' <= 10).
  { intros p g' H. unfold set_precision in H. destruct (_ || _) eqn:E; [discriminate|]. injection H as <-. lia. }
  assert (R : forall o c, 0 <= c <= 10 -> 0 <= restore_precision o c <= 10).
  { intros o c Hc. unfold restore_precision. destruct (set_precision o) eqn:E; [eauto|lia]. }
  induction q as [|p r IH|b IHb r IHr|p b IHb r IHr|]; intros g Hg; cbn [pprog_run]; auto.
  - destruct (set_precision p) eqn:E; [apply IH; eauto|exact Hg].
  - specialize (IHb g Hg). destruct (pprog_run g b) as [g1 t]. cbn [fst] in IHb. destruct t; [apply R; exact IHb|].
    apply IHr, R, IHb.
  - destruct (set_precision p) as [g'|] eqn:E; [|exact Hg]. specialize (IHb g' (S _ _ E)).
    destruct (pprog_run g' b) as [g1 t]. cbn [fst] in IHb. destruct t; [apply R; exact IHb|]. apply IHr, R, IHb.
Qed.
Print Assumptions c50_range.

(** A value out of range is refused and changes nothing; others are set. *)
Theorem c50_set : forall g p, pprog_run g (QSet p QDone) = if (0 <=? p) && (p <=? 10) then (p, false) else (g, true).
Proof.
  intros g p. cbn. unfold set_precision. destruct ((p <? 0) || (10 <? p)) eqn:E.
  - replace ((0 <=? p) && (p <=? 10)) with false by lia. reflexivity.
  - replace ((0 <=? p) && (p <=? 10)) with true by lia. reflexivity.
Qed.
Print Assumptions c50_set.

(** A guard restores the precision, also when an exception goes through it or
    is raised by its constructor. *)
Theorem c50_guard : forall g body p, 0 <= g <= 10 ->
  fst (pprog_run g (QGuard body QDone)) = g /\ fst (pprog_run g (QGuardSet p body QDone)) = g.
Proof.
  intros g body p Hg.
  assert (R : forall c, restore_precision g c = g).
  { intro c. unfold restore_precision, set_precision. replace ((g <? 0) || (10 <? g)) with false by lia. reflexivity. }
  split; cbn [pprog_run].
  - destruct (pprog_run g body) as [g1 []]; apply R.
  - destruct (set_precision p) as [g'|]; [|reflexivity]. destruct (pprog_run g' body) as [g1 []]; apply R.
Qed.
Print Assumptions c50_guard.

Example c50_nontrivial :
  pprog_run precision_start (QGuardSet 5 (QSet 7 (QGuard (QSet 2 QThrow) QDone)) (QSet 1 QDone)) = (3, true)
  /\ pprog_run precision_start (QSet 6 (QGuardSet 11 QDone QDone)) = (6, true).
Proof. split; reflexivity. Qed.
