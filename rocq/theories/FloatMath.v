(** * Integer parts, comparisons, absolute values and square roots of doubles *)

From Coq Require Import ZArith Bool Reals Lra Lia Floats.SpecFloat.
From Flocq Require Import Core BinarySingleNaN.
From Verif Require Import Base Color FloatFacts Expr Functions.
Open Scope Z_scope.
Ltac Zify.zify_post_hook ::= idtac.

#[local] Instance Hprec53' : FLX.Prec_gt_0 53. Proof. reflexivity. Qed.
#[local] Instance Hmax53' : Prec_lt_emax 53 1024. Proof. reflexivity. Qed.

Lemma pow2_bpow e : 0 <= e -> IZR (2 ^ e) = powerRZ 2 e.
Proof. intro H. rewrite <- bpow_powerRZ. exact (IZR_Zpower radix2 e H). Qed.

(** Conversions of integers. *)
Lemma f64_of_Z_spec v : (Rabs (rnd (IZR v)) < powerRZ 2 1024)%R ->
  f64_valid (f64_of_Z v) /\ f64_finite (f64_of_Z v) /\ f64_R (f64_of_Z v) = rnd (IZR v).
Proof.
  intro B. unfold f64_of_Z. rewrite binary_normalize_equiv.
  pose proof (binary_normalize_correct 53 1024 Hprec53 Hmax53 mode_NE v 0 false) as H.
  rewrite <- bpow_powerRZ in B. unfold rnd in B. cbn [round_mode] in H.
  change (SpecFloat.fexp 53 1024) with (FLT_exp (-1074) 53) in H.
  assert (F : F2R (Float radix2 v 0) = IZR v) by (unfold F2R; cbn [Defs.Fnum Defs.Fexp bpow]; lra).
  rewrite F in H. rewrite Rlt_bool_true in H by exact B.
  destruct H as (H1 & H2 & _). split; [apply B2SF_valid|]. split; [now apply B2SF_finite|].
  rewrite B2SF_R, H1. reflexivity.
Qed.
Lemma rnd_Z v : Z.abs v <= 2 ^ 53 -> rnd (IZR v) = IZR v.
Proof.
  intro H. unfold rnd. apply round_generic; [apply _|].
  destruct (Z.eq_dec (Z.abs v) (2 ^ 53)) as [E|E].
  - assert (X : v = 2 ^ 53 \/ v = - 2 ^ 53) by lia.
    assert (G : generic_format radix2 (FLT_exp (-1074) 53) (IZR (2 ^ 53))).
    { rewrite pow2_bpow by lia. rewrite <- bpow_powerRZ. apply generic_format_bpow. unfold FLT_exp. lia. }
    destruct X as [->| ->]; [exact G|]. rewrite opp_IZR. apply generic_format_opp. exact G.
  - apply generic_format_FLT. apply (FLT_spec _ _ _ _ (Float radix2 v 0)); cbn [Defs.Fnum Defs.Fexp].
    + unfold F2R. cbn. lra.
    + change (Z.pow_pos 2 53) with (2 ^ 53). change (radix_val radix2 ^ 53) with (2 ^ 53). lia.
    + lia.
Qed.
Lemma pow53_lt : (IZR (2 ^ 53) < powerRZ 2 1024)%R.
Proof. rewrite pow2_bpow by lia. rewrite <- !bpow_powerRZ. apply bpow_lt. lia. Qed.
Lemma f64_of_Z_exact v : Z.abs v <= 2 ^ 53 -> f64_valid (f64_of_Z v) /\ f64_finite (f64_of_Z v) /\ f64_R (f64_of_Z v) = IZR v.
Proof.
  intro H. assert (X : forall r, rnd (IZR v) = r -> f64_R (f64_of_Z v) = rnd (IZR v) -> f64_R (f64_of_Z v) = r) by congruence.
  destruct (f64_of_Z_spec v) as (A & B & C); [|split; [exact A|split; [exact B|exact (X _ (rnd_Z v H) C)]]]. rewrite (rnd_Z v H).
  eapply Rle_lt_trans; [|exact pow53_lt]. rewrite <- abs_IZR. apply IZR_le. exact H.
Qed.
Lemma rnd_bound v : Z.abs v <= 2 ^ 63 -> (Rabs (rnd (IZR v)) < powerRZ 2 1024)%R.
Proof.
  intro H. assert (G : rnd (IZR (2 ^ 63)) = IZR (2 ^ 63)).
  { unfold rnd. apply round_generic; [apply _|]. rewrite pow2_bpow by lia. rewrite <- bpow_powerRZ. apply generic_format_bpow. unfold FLT_exp. lia. }
  eapply Rle_lt_trans with (IZR (2 ^ 63)).
  - rewrite <- G. apply Rabs_le. rewrite <- rnd_opp, <- opp_IZR. split; apply rnd_le; apply IZR_le; lia.
  - rewrite pow2_bpow by lia. rewrite <- !bpow_powerRZ. apply bpow_lt. lia.
Qed.

(** Comparisons. *)
Lemma f64_ltb_spec x y : f64_valid x -> f64_finite x -> f64_valid y -> f64_finite y ->
  SFltb x y = true <-> (f64_R x < f64_R y)%R.
Proof.
  intros Vx Fx Vy Fy. destruct (f64_lift x Vx) as (a & <- & Ra & Fa). destruct (f64_lift y Vy) as (b & <- & Rb & Fb).
  pose proof (Bltb_correct 53 1024 a b (Fa Fx) (Fb Fy)) as H. unfold Bltb in H. rewrite H, <- Ra, <- Rb.
  destruct (Rlt_bool_spec (B2R a) (B2R b)); split; intro; try discriminate; try reflexivity; lra.
Qed.
Lemma f64_leb_spec x y : f64_valid x -> f64_finite x -> f64_valid y -> f64_finite y ->
  SFleb x y = true <-> (f64_R x <= f64_R y)%R.
Proof.
  intros Vx Fx Vy Fy. destruct (f64_lift x Vx) as (a & <- & Ra & Fa). destruct (f64_lift y Vy) as (b & <- & Rb & Fb).
  pose proof (Bleb_correct 53 1024 a b (Fa Fx) (Fb Fy)) as H. unfold Bleb in H. rewrite H, <- Ra, <- Rb.
  destruct (Rle_bool_spec (B2R a) (B2R b)); split; intro; try discriminate; try reflexivity; lra.
Qed.

(** Absolute values. *)
Lemma f64_abs_spec x : f64_R (SFabs x) = Rabs (f64_R x).
Proof.
  destruct x as [s|s| |s m e]; cbn [SFabs f64_R]; try (now rewrite Rabs_R0).
  assert (Pm : (0 < IZR (Z.pos m))%R) by (now apply IZR_lt). assert (Pe : (0 < powerRZ 2 e)%R) by (apply powerRZ_lt; lra).
  assert (P : (0 < IZR (Z.pos m) * powerRZ 2 e)%R) by (now apply Rmult_lt_0_compat).
  destruct s; [rewrite Rabs_left by lra; lra|rewrite Rabs_right by lra; lra].
Qed.
Lemma f64_abs_valid x : f64_valid x -> f64_valid (SFabs x).
Proof. destruct x; auto. Qed.
Lemma f64_abs_finite x : f64_finite x -> f64_finite (SFabs x).
Proof. destruct x; auto. Qed.

(** Square roots. *)
Lemma f64_sqrt_equiv (x : bf) : SFsqrt 53 1024 (B2SF x) = B2SF (Bsqrt mode_NE x).
Proof.
  case x as [sx|sx| |sx mx ex Bx]; try reflexivity; [now case sx|]. destruct sx; [reflexivity|].
  cbn [B2SF SFsqrt Bsqrt]. rewrite B2SF_SF2B.
  set (melz := SFsqrt_core_binary _ _ _ _). case melz as [[mz ez] lz]. apply binary_round_aux_equiv.
Qed.
Lemma f64_sqrt_spec x : f64_valid x -> f64_finite x -> (0 <= f64_R x)%R ->
  f64_valid (SFsqrt 53 1024 x) /\ f64_finite (SFsqrt 53 1024 x) /\ f64_R (SFsqrt 53 1024 x) = rnd (sqrt (f64_R x)).
Proof.
  intros V F P. destruct (f64_lift x V) as (a & <- & Ra & Fa). rewrite f64_sqrt_equiv.
  pose proof (Bsqrt_correct 53 1024 _ _ mode_NE a) as (H1 & H2 & _). split; [apply B2SF_valid|]. split.
  - apply B2SF_finite. rewrite H2. specialize (Fa F). destruct a as [sa|sa| |sa m e B]; try reflexivity; try discriminate.
    destruct sa; [|reflexivity]. exfalso. rewrite B2SF_R in P. cbn [B2R] in P. unfold F2R in P. cbn [Defs.Fnum Defs.Fexp cond_Zopp] in P.
    assert (0 < bpow radix2 e)%R by apply bpow_gt_0. assert (X : (IZR (- Z.pos m) < 0)%R) by (now apply IZR_lt). nra.
  - rewrite !B2SF_R, H1. reflexivity.
Qed.

(** Integer parts. *)
Lemma magnitude m e : e < 0 -> let d := 2 ^ (- e) in
  (IZR (Z.pos m) * powerRZ 2 e)%R = (IZR (Z.pos m / d) + IZR (Z.pos m mod d) / IZR d)%R /\ (0 < IZR d)%R /\ 0 < d.
Proof.
  intros L d. assert (D : 0 < d) by (apply Z.pow_pos_nonneg; lia). assert (D' : (0 < IZR d)%R) by (now apply IZR_lt).
  split; [|auto].
  assert (X : powerRZ 2 e = (/ IZR d)%R).
  { apply (Rmult_eq_reg_r (IZR d)); [|lra]. unfold d. rewrite pow2_bpow by lia. rewrite <- powerRZ_add by lra.
    replace (e + - e) with 0 by lia. cbn [powerRZ]. rewrite <- pow2_bpow by lia. field. fold d. lra. }
  rewrite X. rewrite (Z.div_mod (Z.pos m) d) at 1 by lia. rewrite plus_IZR, mult_IZR. field. lra.
Qed.
(** What [to_integral] gives: an integer and how far it is. *)
Lemma integral_spec up x : f64_valid x -> f64_finite x ->
  f64_valid (to_integral up x) /\ f64_finite (to_integral up x) /\
  ((exists n, f64_R x = IZR n /\ f64_R (to_integral up x) = IZR n)
   \/ exists (s : bool) (q : Z) (f one r : Z), 0 <= q /\ 0 < r < one /\ f64_R x = ((if s then -1 else 1) * (IZR q + IZR r / IZR one))%R
        /\ f64_R (to_integral up x) = IZR ((if s then -1 else 1) * (if up s r one then q + 1 else q))).
Proof.
  intros V F. destruct x as [s|s| |s m e]; try contradiction.
  - cbn [to_integral]. split; [exact V|]. split; [exact F|]. left. exists 0. split; reflexivity.
  - destruct (f64_valid_bounds s m e V) as (Bm & Be). cbn [to_integral].
    destruct (Z.leb_spec 0 e) as [L|L].
    + split; [exact V|]. split; [exact F|]. left. exists ((if s then -1 else 1) * Z.pos m * 2 ^ e).
      assert (f64_R (S754_finite s m e) = IZR ((if s then -1 else 1) * Z.pos m * 2 ^ e)) as ->.
      { cbn [f64_R]. rewrite !mult_IZR, pow2_bpow by lia. destruct s; reflexivity. }
      split; reflexivity.
    + destruct (magnitude m e L) as (X & D' & D). set (d := 2 ^ (- e)) in *.
      pose proof (Z.mod_pos_bound (Z.pos m) d D) as Br.
      assert (Bq : 0 <= Z.pos m / d < 2 ^ 53).
      { split; [apply Z.div_pos; lia|]. apply Z.div_lt_upper_bound; [lia|]. nia. }
      assert (G : forall v, 0 <= v <= 2 ^ 53 -> let y := if v =? 0 then S754_zero s else f64_of_Z (if s then - v else v) in
                 f64_valid y /\ f64_finite y /\ f64_R y = IZR ((if s then -1 else 1) * v)).
      { intros v Bv y. unfold y. destruct (Z.eqb_spec v 0) as [->|N].
        - split; [reflexivity|]. split; [exact I|]. cbn. rewrite Z.mul_0_r. reflexivity.
        - destruct (f64_of_Z_exact (if s then - v else v)) as (A & B & C); [destruct s; lia|]. split; [exact A|]. split; [exact B|].
          rewrite C. f_equal. destruct s; lia. }
      assert (R : f64_R (S754_finite s m e) = ((if s then -1 else 1) * (IZR (Z.pos m / d) + IZR (Z.pos m mod d) / IZR d))%R).
      { cbn [f64_R]. rewrite <- X. destruct s; lra. }
      destruct (Z.eqb_spec (Z.pos m mod d) 0) as [Z0|N0]; cbn [negb andb].
      * destruct (G (Z.pos m / d)) as (A & B & C); [lia|]. split; [exact A|]. split; [exact B|]. left. exists ((if s then -1 else 1) * (Z.pos m / d)).
        split; [|exact C]. rewrite R, Z0, mult_IZR. unfold Rdiv. rewrite Rmult_0_l, Rplus_0_r. destruct s; reflexivity.
      * destruct (G (if up s (Z.pos m mod d) d then Z.pos m / d + 1 else Z.pos m / d)) as (A & B & C); [destruct (up _ _ _); lia|].
        split; [exact A|]. split; [exact B|]. right. exists s, (Z.pos m / d), 0, d, (Z.pos m mod d).
        split; [lia|]. split; [lia|]. split; [exact R|exact C].
Qed.
Lemma fraction r one : 0 < r < one -> (0 < IZR r / IZR one < 1)%R.
Proof.
  intros (A & B). assert (X : (0 < IZR r)%R) by (now apply IZR_lt). assert (Y : (IZR r < IZR one)%R) by (now apply IZR_lt).
  split; [apply Rdiv_lt_0_compat; lra|]. apply (Rmult_lt_reg_r (IZR one)); [lra|]. unfold Rdiv. rewrite Rmult_assoc, Rinv_l by lra. lra.
Qed.
Lemma fraction_half r one : 0 < r < one -> ((one <=? 2 * r) = true <-> (/ 2 <= IZR r / IZR one)%R).
Proof.
  intros (A & B). assert (X : (0 < IZR r)%R) by (now apply IZR_lt). assert (Y : (IZR r < IZR one)%R) by (now apply IZR_lt).
  rewrite Z.leb_le. split.
  - intro H. apply IZR_le in H. rewrite mult_IZR in H. apply (Rmult_le_reg_r (IZR one)); [lra|]. unfold Rdiv. rewrite Rmult_assoc, Rinv_l by lra. lra.
  - intro H. apply le_IZR. rewrite mult_IZR. apply (Rmult_le_compat_r (IZR one)) in H; [|lra]. unfold Rdiv in H. rewrite Rmult_assoc, Rinv_l in H by lra. lra.
Qed.

Lemma ceil_spec x : f64_valid x -> f64_finite x -> f64_valid (f64_ceil x) /\ f64_finite (f64_ceil x) /\
  exists n, f64_R (f64_ceil x) = IZR n /\ (IZR n - 1 < f64_R x <= IZR n)%R.
Proof.
  intros V F. destruct (integral_spec (fun s _ _ => negb s) x V F) as (A & B & C). split; [exact A|]. split; [exact B|].
  destruct C as [(n & E1 & E2)|(s & q & _ & d & r & Q & R & E1 & E2)].
  - exists n. split; [exact E2|]. rewrite E1. lra.
  - eexists. split; [exact E2|]. rewrite E1. pose proof (fraction r d R). rewrite mult_IZR. destruct s; cbn [negb]; rewrite ?plus_IZR; lra.
Qed.
Lemma floor_spec x : f64_valid x -> f64_finite x -> f64_valid (f64_floor x) /\ f64_finite (f64_floor x) /\
  exists n, f64_R (f64_floor x) = IZR n /\ (IZR n <= f64_R x < IZR n + 1)%R.
Proof.
  intros V F. destruct (integral_spec (fun s _ _ => s) x V F) as (A & B & C). split; [exact A|]. split; [exact B|].
  destruct C as [(n & E1 & E2)|(s & q & _ & d & r & Q & R & E1 & E2)].
  - exists n. split; [exact E2|]. rewrite E1. lra.
  - eexists. split; [exact E2|]. rewrite E1. pose proof (fraction r d R). rewrite mult_IZR. destruct s; rewrite ?plus_IZR; lra.
Qed.
Lemma round_spec x : f64_valid x -> f64_finite x -> f64_valid (f64_round x) /\ f64_finite (f64_round x) /\
  exists n, f64_R (f64_round x) = IZR n /\
    ((0 <= f64_R x)%R -> (IZR n - / 2 <= f64_R x < IZR n + / 2)%R) /\ ((f64_R x < 0)%R -> (IZR n - / 2 < f64_R x <= IZR n + / 2)%R).
Proof.
  intros V F. destruct (integral_spec (fun _ r one => one <=? 2 * r) x V F) as (A & B & C). split; [exact A|]. split; [exact B|].
  destruct C as [(n & E1 & E2)|(s & q & _ & d & r & Q & R & E1 & E2)].
  - exists n. split; [exact E2|]. rewrite E1. lra.
  - eexists. split; [exact E2|]. rewrite E1. pose proof (fraction r d R). pose proof (fraction_half r d R) as H'.
    assert (Q' : (0 <= IZR q)%R) by (now apply IZR_le).
    rewrite mult_IZR. destruct (d <=? 2 * r).
    + pose proof (proj1 H' eq_refl). rewrite plus_IZR. destruct s; lra.
    + assert (IZR r / IZR d < / 2)%R by (destruct (Rlt_dec (IZR r / IZR d) (/ 2)) as [L|L]; [exact L|exfalso; assert (false = true) by (apply H'; lra); discriminate]).
      destruct s; lra.
Qed.

(** Conversion to an integer: towards zero. *)
Lemma sf_trunc_spec x : f64_finite x -> exists v, sf_trunc x = Some v /\ (Rabs (IZR v) <= Rabs (f64_R x) < Rabs (IZR v) + 1)%R
  /\ (0 <= IZR v * f64_R x)%R.
Proof.
  intro F. destruct x as [s|s| |s m e]; try contradiction; cbn [sf_trunc].
  - exists 0. split; [reflexivity|]. cbn [f64_R]. rewrite !Rabs_R0. lra.
  - eexists. split; [reflexivity|].
    assert (Pm : (0 < IZR (Z.pos m))%R) by (now apply IZR_lt). assert (Pe : (0 < powerRZ 2 e)%R) by (apply powerRZ_lt; lra).
    assert (P : (0 < IZR (Z.pos m) * powerRZ 2 e)%R) by (now apply Rmult_lt_0_compat).
    set (v := if 0 <=? e then Z.pos m * 2 ^ e else Z.pos m / 2 ^ (- e)).
    assert (X : (0 <= IZR v)%R /\ (IZR v <= IZR (Z.pos m) * powerRZ 2 e < IZR v + 1)%R).
    { unfold v. destruct (Z.leb_spec 0 e) as [L|L].
      - rewrite mult_IZR, pow2_bpow by lia. lra.
      - destruct (magnitude m e L) as (X & D' & D). rewrite X. set (d := 2 ^ (- e)) in *.
        pose proof (Z.mod_pos_bound (Z.pos m) d D) as Br. assert (Q : (0 <= IZR (Z.pos m / d))%R) by (apply IZR_le, Z.div_pos; lia).
        split; [exact Q|]. destruct (Z.eq_dec (Z.pos m mod d) 0) as [E|E]; [rewrite E; unfold Rdiv; lra|]. pose proof (fraction (Z.pos m mod d) d ltac:(lia)). lra. }
    assert (Y : Rabs (f64_R (S754_finite s m e)) = (IZR (Z.pos m) * powerRZ 2 e)%R).
    { rewrite <- f64_abs_spec. cbn [SFabs f64_R]. lra. }
    assert (W : Rabs (IZR (if s then - v else v)) = IZR v).
    { destruct s; [rewrite opp_IZR, Rabs_Ropp|]; apply Rabs_right; lra. }
    rewrite W, Y. split; [lra|]. cbn [f64_R]. destruct s; [rewrite opp_IZR|]; nra.
Qed.
