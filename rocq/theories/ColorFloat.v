(** * Colour components: conversions between bytes and floats *)

From Coq Require Import ZArith List Bool Reals Lra Lia Floats.SpecFloat.
From Flocq Require Import Core BinarySingleNaN.
From Verif Require Import Base Color F32Facts.
Open Scope Z_scope.

Lemma f32_leb_spec x y : f32_valid x -> f32_finite x -> f32_valid y -> f32_finite y ->
  SFleb x y = true <-> (f32_R x <= f32_R y)%R.
Proof.
  intros Vx Fx Vy Fy. destruct (f32_lift x Vx) as (a & <- & Ra & Fa). destruct (f32_lift y Vy) as (b & <- & Rb & Fb).
  pose proof (Bleb_correct 24 128 a b (Fa Fx) (Fb Fy)) as H. unfold Bleb in H. rewrite H, Ra, Rb.
  destruct (Rle_bool_spec (f32_R (B2SF a)) (f32_R (B2SF b))) as [L|L]; split; intro K; try lra; try reflexivity; discriminate.
Qed.

Lemma f32_of_Z_spec v : (Rabs (rnd32 (IZR v)) < powerRZ 2 128)%R ->
  f32_valid (f32_of_Z v) /\ f32_finite (f32_of_Z v) /\ f32_R (f32_of_Z v) = rnd32 (IZR v).
Proof.
  intro B. unfold f32_of_Z. rewrite binary_normalize_equiv.
  pose proof (binary_normalize_correct 24 128 Hprec24 Hmax24 mode_NE v 0 false) as H. cbv zeta in H.
  assert (E : F2R (Float radix2 v 0) = IZR v) by (unfold F2R; cbn; lra). rewrite E in H. cbn [round_mode] in H.
  change (SpecFloat.fexp 24 128) with (FLT_exp (-149) 24) in H. rewrite <- bpow_powerRZ' in B. unfold rnd32 in B.
  rewrite Rlt_bool_true in H by exact B. destruct H as (H1 & H2 & _).
  split; [apply B2SF_valid|]. split; [now apply B2SF_finite|]. rewrite B2SF_R, H1. reflexivity.
Qed.
Lemma generic_int v : Z.abs v <= 2 ^ 24 -> rnd32 (IZR v) = IZR v.
Proof.
  intro H. unfold rnd32. apply round_generic; [apply _|]. apply generic_format_FLT.
  destruct (Z.eq_dec (Z.abs v) (2 ^ 24)) as [E|E].
  - assert (K : v = 2 * (v / 2)) by (assert (K : v = 2 ^ 24 \/ v = - 2 ^ 24) by lia; destruct K as [-> | ->]; reflexivity).
    apply (FLT_spec _ _ _ _ (Float radix2 (v / 2) 1)).
    + rewrite K at 1. unfold F2R. cbn [Fnum Fexp]. rewrite mult_IZR. change (bpow radix2 1) with 2%R. lra.
    + cbn. change (Z.pow_pos 2 24) with (2 ^ 24). lia.
    + cbn. lia.
  - apply (FLT_spec _ _ _ _ (Float radix2 v 0)).
    + unfold F2R. cbn. lra.
    + cbn. change (Z.pow_pos 2 24) with (2 ^ 24). lia.
    + cbn. lia.
Qed.
Lemma pow2R e : 0 <= e -> IZR (2 ^ e) = bpow radix2 e.
Proof. intro H. exact (IZR_Zpower radix2 e H). Qed.
Lemma big128 r : (Rabs r <= IZR (2 ^ 64))%R -> (Rabs r < powerRZ 2 128)%R.
Proof.
  intro H. eapply Rle_lt_trans; [exact H|]. rewrite <- bpow_powerRZ'. rewrite (pow2R 64) by lia.
  apply bpow_lt. lia.
Qed.
Lemma rnd32_pow e : -149 <= e -> rnd32 (bpow radix2 e) = bpow radix2 e.
Proof. intro H. unfold rnd32. apply round_generic; [apply _|]. apply generic_format_bpow. unfold FLT_exp. lia. Qed.
Lemma rnd32_small r : (Rabs r <= IZR (2 ^ 64))%R -> (Rabs (rnd32 r) < powerRZ 2 128)%R.
Proof.
  intro H. apply big128. rewrite (pow2R 64) in * by lia. apply Rabs_le. apply Raux.Rabs_le_inv in H.
  rewrite <- (rnd32_pow 64) by lia. rewrite <- rnd32_opp. split; apply rnd32_le; lra.
Qed.
Lemma small_int v : 0 <= v <= 2 ^ 24 -> f32_valid (f32_of_Z v) /\ f32_finite (f32_of_Z v) /\ f32_R (f32_of_Z v) = IZR v.
Proof.
  intro H. destruct (f32_of_Z_spec v) as (A & B & C).
  - apply rnd32_small. rewrite <- abs_IZR. apply IZR_le. lia.
  - rewrite generic_int in C by lia. auto.
Qed.
Lemma half_spec : f32_valid f32_half /\ f32_finite f32_half /\ f32_R f32_half = (/ 2)%R.
Proof. 
  split; [reflexivity|]. split; [exact I|].
  assert (E : f32_half = S754_finite false 8388608 (-24)) by (vm_compute; reflexivity). rewrite E. cbn [f32_R].
  replace (IZR 8388608) with (powerRZ 2 23); [|rewrite <- bpow_powerRZ', <- pow2R by lia; reflexivity].
  rewrite Rmult_1_l, <- powerRZ_add by lra. change (23 + -24) with (-1). cbn [powerRZ]. change (Pos.to_nat 1) with 1%nat. rewrite pow_1. reflexivity.
Qed.

(** The integer part of a non negative number. *)
Lemma trunc_spec x : f32_finite x -> (0 <= f32_R x)%R -> sf_trunc x = Some (Zfloor (f32_R x)).
Proof.
  intros F P. destruct x as [s|s| |s m e]; try contradiction; cbn [sf_trunc].
  - cbn. now rewrite (Zfloor_IZR 0).
  - assert (Pm : (0 < IZR (Z.pos m))%R) by (now apply IZR_lt). assert (Pe : (0 < powerRZ 2 e)%R) by (apply powerRZ_lt; lra).
    destruct s.
    + exfalso. cbn [f32_R] in P. assert (0 < IZR (Z.pos m) * powerRZ 2 e)%R by (now apply Rmult_lt_0_compat). lra.
    + f_equal. cbn [f32_R]. rewrite Rmult_1_l. symmetry. apply Zfloor_imp. rewrite plus_IZR.
      destruct (Z.leb_spec 0 e) as [L|L].
      * assert (E : IZR (Z.pos m * 2 ^ e) = (IZR (Z.pos m) * powerRZ 2 e)%R).
        { rewrite mult_IZR. rewrite pow2R by lia. now rewrite bpow_powerRZ'. }
        rewrite E. lra.
      * assert (D : 0 < 2 ^ (- e)) by (apply Z.pow_pos_nonneg; lia).
        assert (E : (powerRZ 2 e * IZR (2 ^ (- e)) = 1)%R).
        { rewrite pow2R by lia. rewrite bpow_powerRZ', <- powerRZ_add by lra. replace (e + - e) with 0 by lia. reflexivity. }
        pose proof (Z.div_mod (Z.pos m) (2 ^ (- e)) ltac:(lia)) as M. pose proof (Z.mod_pos_bound (Z.pos m) (2 ^ (- e)) D) as B.
        set (q := Z.pos m / 2 ^ (- e)) in *. set (d := 2 ^ (- e)) in *.
        assert (D' : (0 < IZR d)%R) by (now apply IZR_lt).
        assert (Q1 : (IZR q * IZR d <= IZR (Z.pos m))%R) by (rewrite <- mult_IZR; apply IZR_le; nia).
        assert (Q2 : (IZR (Z.pos m) < (IZR q + 1) * IZR d)%R) by (rewrite <- plus_IZR, <- mult_IZR; apply IZR_lt; nia).
        assert (X : powerRZ 2 e = (/ IZR d)%R) by (apply (Rmult_eq_reg_r (IZR d)); [rewrite E; field; lra|lra]).
        rewrite X. split.
        -- apply (Rmult_le_reg_r (IZR d)); [exact D'|]. rewrite Rmult_assoc, Rinv_l, Rmult_1_r by lra. exact Q1.
        -- apply (Rmult_lt_reg_r (IZR d)); [exact D'|]. rewrite Rmult_assoc, Rinv_l, Rmult_1_r by lra. exact Q2.
Qed.

Definition scaled (r : R) : R := rnd32 (rnd32 (r * 255) + / 2).
Lemma rnd32_0 : rnd32 0 = 0%R.
Proof. apply round_0. apply _. Qed.
Lemma rnd32_half : rnd32 (/ 2) = (/ 2)%R.
Proof. change (/ 2)%R with (bpow radix2 (-1)). apply rnd32_pow. lia. Qed.
Lemma rnd32_255h : rnd32 (255 + / 2) = (255 + / 2)%R.
Proof.
  unfold rnd32. apply round_generic; [apply _|]. apply generic_format_FLT. apply (FLT_spec _ _ _ _ (Float radix2 511 (-1))).
  - unfold F2R. cbn [Fnum Fexp]. change (bpow radix2 (-1)) with (/ 2)%R. lra.
  - cbn. lia.
  - cbn. lia.
Qed.
Lemma scaled_le r1 r2 : (r1 <= r2)%R -> (scaled r1 <= scaled r2)%R.
Proof. intro H. unfold scaled. apply rnd32_le. apply Rplus_le_compat_r. apply rnd32_le. lra. Qed.
Lemma scaled_0 : scaled 0 = (/ 2)%R.
Proof. unfold scaled. rewrite Rmult_0_l, rnd32_0, Rplus_0_l. apply rnd32_half. Qed.
Lemma scaled_1 : scaled 1 = (255 + / 2)%R.
Proof. unfold scaled. rewrite Rmult_1_l, (generic_int 255) by (cbn; lia). apply rnd32_255h. Qed.
Lemma scaled_bounds r : (0 <= r <= 1)%R -> (/ 2 <= scaled r <= 255 + / 2)%R.
Proof. intros [A B]. pose proof scaled_0. pose proof scaled_1. pose proof (scaled_le _ _ A). pose proof (scaled_le _ _ B). lra. Qed.

Lemma byte_mid x : f32_valid x -> f32_finite x -> (0 < f32_R x < 1)%R ->
  to_byte x = Some (Zfloor (scaled (f32_R x))) /\ 0 <= Zfloor (scaled (f32_R x)) <= 255.
Proof.
  intros V F R. destruct (small_int 1) as (V1 & F1 & R1); [lia|]. destruct (small_int 0) as (V0 & F0 & R0); [lia|].
  destruct (small_int 255) as (V255 & F255 & R255); [lia|]. destruct half_spec as (Vh & Fh & Rh).
  assert (B : 0 <= Zfloor (scaled (f32_R x)) <= 255).
  { destruct (scaled_bounds (f32_R x)) as [B1 B2]; [lra|]. split.
    - apply (Zfloor_lub 0). lra.
    - apply Z.lt_succ_r. apply lt_IZR. rewrite succ_IZR. eapply Rle_lt_trans; [apply Zfloor_lb|]. lra. }
  split; [|exact B]. unfold to_byte.
  assert (L1 : SFleb (f32_of_Z 1) x = false).
  { destruct (SFleb (f32_of_Z 1) x) eqn:E; auto. apply f32_leb_spec in E; auto. lra. }
  assert (L2 : SFleb x (f32_of_Z 0) = false).
  { destruct (SFleb x (f32_of_Z 0)) eqn:E; auto. apply f32_leb_spec in E; auto. lra. }
  rewrite L1, L2.
  assert (H1 : (0 <= f32_R x * f32_R (f32_of_Z 255) <= 255)%R) by (rewrite R255; lra).
  destruct (f32_mul_spec x (f32_of_Z 255) V F V255 F255) as (Vm & Fm & Rm).
  { apply rnd32_small. rewrite Rabs_pos_eq by lra. eapply Rle_trans; [apply H1|]. apply IZR_le. lia. }
  assert (H2 : (0 <= f32_R (f32_mul x (f32_of_Z 255)) <= 255)%R).
  { rewrite Rm. rewrite <- rnd32_0 at 1. rewrite <- (generic_int 255) by (cbn; lia). split; apply rnd32_le; lra. }
  destruct (f32_add_spec (f32_mul x (f32_of_Z 255)) f32_half Vm Fm Vh Fh) as (Va & Fa & Rad).
  { apply rnd32_small. rewrite Rh, Rabs_pos_eq by lra. apply Rle_trans with 256%R; [lra|]. apply IZR_le. lia. }
  assert (E : f32_R (f32_add (f32_mul x (f32_of_Z 255)) f32_half) = scaled (f32_R x)).
  { rewrite Rad, Rm, Rh, R255. reflexivity. }
  rewrite trunc_spec; [|exact Fa|rewrite E; destruct (scaled_bounds (f32_R x)); lra]. rewrite E.
  destruct (Z.leb_spec 0 (Zfloor (scaled (f32_R x)))); [|lia]. destruct (Z.leb_spec (Zfloor (scaled (f32_R x))) 255); [|lia]. reflexivity.
Qed.
Lemma byte_high x : f32_valid x -> f32_finite x -> (1 <= f32_R x)%R -> to_byte x = Some 255.
Proof.
  intros V F R. destruct (small_int 1) as (V1 & F1 & R1); [lia|]. unfold to_byte.
  assert (E : SFleb (f32_of_Z 1) x = true) by (apply f32_leb_spec; auto; lra). now rewrite E.
Qed.
Lemma byte_low x : f32_valid x -> f32_finite x -> (f32_R x <= 0)%R -> to_byte x = Some 0.
Proof.
  intros V F R. destruct (small_int 1) as (V1 & F1 & R1); [lia|]. destruct (small_int 0) as (V0 & F0 & R0); [lia|]. unfold to_byte.
  assert (E1 : SFleb (f32_of_Z 1) x = false).
  { destruct (SFleb (f32_of_Z 1) x) eqn:E; auto. apply f32_leb_spec in E; auto. lra. }
  assert (E : SFleb x (f32_of_Z 0) = true) by (apply f32_leb_spec; auto; lra). now rewrite E1, E.
Qed.

Lemma pow_double e : powerRZ 2 (1 + e) = (2 * powerRZ 2 e)%R.
Proof. rewrite powerRZ_add by lra. f_equal. cbn [powerRZ]. change (Pos.to_nat 1) with 1%nat. apply pow_1. Qed.
Lemma rnd32_abs r : (Rabs r <= 256)%R -> (Rabs (rnd32 r - r) <= powerRZ 2 (-16))%R.
Proof.
  intro H. destruct (Rle_lt_dec (powerRZ 2 (-126)) (Rabs r)) as [L|L].
  - eapply Rle_trans; [apply rnd32_error, L|]. replace (powerRZ 2 (-16)) with (powerRZ 2 (-24) * 256)%R.
    + apply Rmult_le_compat_l; [apply powerRZ_le; lra|exact H].
    + replace 256%R with (powerRZ 2 8) by (rewrite <- bpow_powerRZ', <- pow2R by lia; reflexivity). rewrite <- powerRZ_add by lra. reflexivity.
  - assert (A : (Rabs (rnd32 r) <= powerRZ 2 (-126))%R).
    { apply Rabs_le. rewrite <- bpow_powerRZ' in *. assert (L' := Rlt_le _ _ L). apply Raux.Rabs_le_inv in L'.
      rewrite <- (rnd32_pow (-126)) by lia. rewrite <- rnd32_opp. split; apply rnd32_le; lra. }
    eapply Rle_trans; [apply Rabs_triang|]. rewrite Rabs_Ropp.
    apply Rle_trans with (2 * powerRZ 2 (-126))%R; [lra|].
    replace (2 * powerRZ 2 (-126))%R with (powerRZ 2 (-125)).
    + rewrite <- !bpow_powerRZ'. apply bpow_le. lia.
    + apply (pow_double (-126)).
Qed.
Lemma scaled_near r : (0 <= r <= 1)%R -> (Rabs (scaled r - (255 * r + / 2)) <= powerRZ 2 (-15))%R.
Proof.
  intro H. pose proof (rnd32_abs (r * 255)) as A. pose proof (rnd32_abs (rnd32 (r * 255) + / 2)) as B.
  assert (C : (0 <= rnd32 (r * 255) <= 255)%R).
  { pose proof rnd32_0 as Z0. pose proof (generic_int 255 ltac:(cbn; lia)) as Z1.
    pose proof (rnd32_le 0 (r * 255) ltac:(lra)). pose proof (rnd32_le (r * 255) 255 ltac:(lra)). lra. }
  specialize (A ltac:(rewrite Rabs_pos_eq; lra)). specialize (B ltac:(rewrite Rabs_pos_eq; lra)). unfold scaled.
  assert (E : powerRZ 2 (-15) = (2 * powerRZ 2 (-16))%R) by apply (pow_double (-16)).
  rewrite E. apply Raux.Rabs_le_inv in A, B. apply Rabs_le. lra.
Qed.
