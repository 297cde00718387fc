(** * Facts about single precision arithmetic

    Coq's SpecFloat functions are what Flocq proves correct. Flocq is used for
    proofs only, never in a definition of the model. *)

From Coq Require Import ZArith Bool Reals Lra Lia Floats.SpecFloat.
From Flocq Require Import Core BinarySingleNaN Relative.
From Verif Require Import Base Color.
Open Scope Z_scope.

#[local] Instance Hprec24 : FLX.Prec_gt_0 24. Proof. reflexivity. Qed.
#[local] Instance Hmax24 : Prec_lt_emax 24 128. Proof. reflexivity. Qed.
Notation bf32 := (binary_float 24 128).

(** A representable value. *)
Definition f32_valid (x : f32) : Prop := SpecFloat.valid_binary 24 128 x = true.
(** The real number that a float stands for (0 when there is none). *)
Definition f32_R (x : f32) : R :=
  match x with
  | S754_finite s m e => ((if s then -1 else 1) * IZR (Z.pos m) * powerRZ 2 e)%R
  | _ => 0%R
  end.
Definition f32_finite (x : f32) : Prop :=
  match x with S754_zero _ | S754_finite _ _ _ => True | _ => False end.

Lemma bpow_powerRZ' e : bpow radix2 e = powerRZ 2 e.
Proof. rewrite bpow_powerRZ. reflexivity. Qed.

Lemma f32_R_SF2R x : f32_R x = SF2R radix2 x.
Proof.
  destruct x as [s|s| |s m e]; try reflexivity. cbn [f32_R SF2R]. unfold F2R. cbn [Defs.Fnum Defs.Fexp].
  rewrite bpow_powerRZ'. destruct s; cbn [cond_Zopp]; [|lra]. rewrite opp_IZR. lra.
Qed.

Lemma f32_lift x : f32_valid x -> exists b : bf32, B2SF b = x /\ B2R b = f32_R x
  /\ (f32_finite x -> is_finite b = true).
Proof.
  intro H. exists (SF2B x H). split; [apply B2SF_SF2B|]. split.
  - rewrite B2R_SF2B. symmetry. apply f32_R_SF2R.
  - intro F. rewrite is_finite_SF2B. destruct x; try reflexivity; contradiction.
Qed.

Lemma B2SF_valid (b : bf32) : f32_valid (B2SF b).
Proof. apply valid_binary_B2SF. Qed.
Lemma B2SF_R (b : bf32) : f32_R (B2SF b) = B2R b.
Proof. rewrite f32_R_SF2R. destruct b; reflexivity. Qed.
Lemma B2SF_finite (b : bf32) : is_finite b = true -> f32_finite (B2SF b).
Proof. destruct b; cbn; auto; discriminate. Qed.

Lemma round_nearest_even_equiv s m l : round_nearest_even m l = choice_mode mode_NE s m l.
Proof.
  case l; [reflexivity|intro c]. case c; [|reflexivity..].
  now simpl; unfold Round.cond_incr; case Z.even.
Qed.
Lemma binary_round_aux_equiv sx mx ex lx :
  SpecFloat.binary_round_aux 24 128 sx mx ex lx = BinarySingleNaN.binary_round_aux 24 128 mode_NE sx mx ex lx.
Proof.
  unfold SpecFloat.binary_round_aux, BinarySingleNaN.binary_round_aux. set (mrse' := shr_fexp _ _ _).
  case mrse'; intros mrs' e'; simpl. now rewrite (round_nearest_even_equiv sx).
Qed.
Lemma binary_round_equiv s m e :
  SpecFloat.binary_round 24 128 s m e = BinarySingleNaN.binary_round 24 128 mode_NE s m e.
Proof.
  unfold SpecFloat.binary_round, BinarySingleNaN.binary_round, shl_align_fexp.
  set (mez := shl_align _ _ _); case mez as [mz ez]. apply binary_round_aux_equiv.
Qed.
Lemma binary_normalize_equiv m e szero :
  SpecFloat.binary_normalize 24 128 m e szero = B2SF (BinarySingleNaN.binary_normalize 24 128 Hprec24 Hmax24 mode_NE m e szero).
Proof.
  case m as [|p|p].
  - now simpl.
  - simpl; rewrite B2SF_SF2B; apply binary_round_equiv.
  - simpl; rewrite B2SF_SF2B; apply binary_round_equiv.
Qed.

Lemma f32_add_equiv (x y : bf32) : f32_add (B2SF x) (B2SF y) = B2SF (Bplus mode_NE x y).
Proof.
  unfold f32_add. case x as [sx|sx| |sx mx ex Bx]; case y as [sy|sy| |sy my ey By];
    [now (trivial || simpl; case Bool.eqb).. |]. apply binary_normalize_equiv.
Qed.
Lemma f32_mul_equiv (x y : bf32) : f32_mul (B2SF x) (B2SF y) = B2SF (Bmult mode_NE x y).
Proof.
  unfold f32_mul. case x as [sx|sx| |sx mx ex Bx]; case y as [sy|sy| |sy my ey By]; [now trivial..|].
  simpl. rewrite B2SF_SF2B. apply binary_round_aux_equiv.
Qed.
Lemma f32_div_equiv (x y : bf32) : f32_div (B2SF x) (B2SF y) = B2SF (Bdiv mode_NE x y).
Proof.
  unfold f32_div. case x as [sx|sx| |sx mx ex Bx]; case y as [sy|sy| |sy my ey By];
    [now (trivial || simpl; case Bool.eqb).. |]. simpl. rewrite B2SF_SF2B.
  set (melz := SFdiv_core_binary _ _ _ _ _ _). case melz as [[mz ez] lz]. apply binary_round_aux_equiv.
Qed.

(** Rounding to the nearest float. *)
Definition rnd32 (r : R) : R := round radix2 (FLT_exp (-149) 24) ZnearestE r.

Lemma rnd32_le x y : (x <= y)%R -> (rnd32 x <= rnd32 y)%R.
Proof. apply round_le; apply _. Qed.
Lemma rnd32_exact x : f32_valid x -> rnd32 (f32_R x) = f32_R x.
Proof.
  intro H. destruct (f32_lift x H) as (b & E & R & _). rewrite <- R. apply round_generic; [apply _|].
  apply (generic_format_B2R 24 128 b).
Qed.
Lemma rnd32_opp x : rnd32 (- x) = (- rnd32 x)%R.
Proof. apply round_NE_opp. Qed.
Lemma rnd32_error x : (powerRZ 2 (-126) <= Rabs x)%R -> (Rabs (rnd32 x - x) <= powerRZ 2 (-24) * Rabs x)%R.
Proof.
  intro H. rewrite <- bpow_powerRZ' in H. unfold rnd32.
  pose proof (relative_error_N_FLT radix2 (-149) 24 ltac:(reflexivity) (fun n => negb (Z.even n)) x H) as E.
  change (-24 + 1) with (-23) in E. rewrite bpow_powerRZ' in E.
  replace (powerRZ 2 (-24))%R with (/ 2 * powerRZ 2 (-23))%R; [exact E|].
  change (-24) with (-1 + -23). rewrite powerRZ_add by lra. f_equal. cbn [powerRZ]. change (Pos.to_nat 1) with 1%nat. now rewrite pow_1.
Qed.

(** Addition and subtraction when the result is not too large. *)
Lemma f32_add_spec x y : f32_valid x -> f32_finite x -> f32_valid y -> f32_finite y ->
  (Rabs (rnd32 (f32_R x + f32_R y)) < powerRZ 2 128)%R ->
  f32_valid (f32_add x y) /\ f32_finite (f32_add x y) /\ f32_R (f32_add x y) = rnd32 (f32_R x + f32_R y).
Proof.
  intros Vx Fx Vy Fy B. destruct (f32_lift x Vx) as (a & <- & Ra & Fa). destruct (f32_lift y Vy) as (b & <- & Rb & Fb).
  rewrite f32_add_equiv. pose proof (Bplus_correct 24 128 _ _ mode_NE a b (Fa Fx) (Fb Fy)) as H.
  rewrite <- Ra, <- Rb, <- bpow_powerRZ' in B. unfold rnd32 in B. cbn [round_mode] in H.
  change (SpecFloat.fexp 24 128) with (FLT_exp (-149) 24) in H. rewrite Rlt_bool_true in H by exact B.
  destruct H as (H1 & H2 & _). split; [apply B2SF_valid|]. split; [now apply B2SF_finite|].
  rewrite B2SF_R, H1, Ra, Rb. reflexivity.
Qed.
Lemma f32_mul_spec x y : f32_valid x -> f32_finite x -> f32_valid y -> f32_finite y ->
  (Rabs (rnd32 (f32_R x * f32_R y)) < powerRZ 2 128)%R ->
  f32_valid (f32_mul x y) /\ f32_finite (f32_mul x y) /\ f32_R (f32_mul x y) = rnd32 (f32_R x * f32_R y).
Proof.
  intros Vx Fx Vy Fy B. destruct (f32_lift x Vx) as (a & <- & Ra & Fa). destruct (f32_lift y Vy) as (b & <- & Rb & Fb).
  rewrite f32_mul_equiv. pose proof (Bmult_correct 24 128 _ _ mode_NE a b) as H.
  rewrite <- Ra, <- Rb, <- bpow_powerRZ' in B. unfold rnd32 in B. cbn [round_mode] in H.
  change (SpecFloat.fexp 24 128) with (FLT_exp (-149) 24) in H. rewrite Rlt_bool_true in H by exact B.
  destruct H as (H1 & H2 & _). split; [apply B2SF_valid|]. split; [apply B2SF_finite; rewrite H2, (Fa Fx), (Fb Fy); reflexivity|].
  rewrite B2SF_R, H1, Ra, Rb. reflexivity.
Qed.
Lemma f32_div_spec x y : f32_valid x -> f32_finite x -> f32_valid y -> f32_R y <> 0%R ->
  (Rabs (rnd32 (f32_R x / f32_R y)) < powerRZ 2 128)%R ->
  f32_valid (f32_div x y) /\ f32_finite (f32_div x y) /\ f32_R (f32_div x y) = rnd32 (f32_R x / f32_R y).
Proof.
  intros Vx Fx Vy Ny B. destruct (f32_lift x Vx) as (a & <- & Ra & Fa). destruct (f32_lift y Vy) as (b & <- & Rb & Fb).
  rewrite f32_div_equiv. rewrite <- Rb in Ny. pose proof (Bdiv_correct 24 128 _ _ mode_NE a b Ny) as H.
  rewrite <- Ra, <- Rb, <- bpow_powerRZ' in B. unfold rnd32 in B. cbn [round_mode] in H.
  change (SpecFloat.fexp 24 128) with (FLT_exp (-149) 24) in H. rewrite Rlt_bool_true in H by exact B.
  destruct H as (H1 & H2 & _). split; [apply B2SF_valid|]. split; [apply B2SF_finite; rewrite H2; auto|].
  rewrite B2SF_R, H1, Ra, Rb. reflexivity.
Qed.

(** A valid finite number that is not zero has its mantissa and its exponent
    in the range of the format. *)
Lemma f32_valid_bounds s m e : f32_valid (S754_finite s m e) -> Z.pos m < 2 ^ 24 /\ -149 <= e <= 104.
Proof.
  intro H. unfold f32_valid in H. cbn in H. unfold SpecFloat.bounded in H. apply andb_prop in H. destruct H as [H1 H2].
  apply Z.leb_le in H2. unfold SpecFloat.canonical_mantissa in H1. apply Zeq_bool_eq in H1.
  unfold SpecFloat.fexp, SpecFloat.emin in H1. change (128 - 24) with 104 in H2.
  assert (D : Z.pos (SpecFloat.digits2_pos m) <= 24) by lia. split; [|lia].
  rewrite Digits.Zpos_digits2_pos in D. 
  apply (Digits.Zpower_gt_Zdigits radix2 24 (Z.pos m)) in D. exact D.
Qed.
