(** * Facts about double precision arithmetic

    Coq's SpecFloat functions are what Flocq proves correct. Flocq is used for
    proofs only, never in a definition of the model. *)

From Coq Require Import ZArith Bool Reals Lra Lia Floats.SpecFloat.
From Flocq Require Import Core BinarySingleNaN Relative.
From Verif Require Import Base.
Open Scope Z_scope.

#[local] Instance Hprec53 : FLX.Prec_gt_0 53. Proof. reflexivity. Qed.
#[local] Instance Hmax53 : Prec_lt_emax 53 1024. Proof. reflexivity. Qed.
Notation bf := (binary_float 53 1024).

(** A representable value. *)
Definition f64_valid (x : f64) : Prop := SpecFloat.valid_binary 53 1024 x = true.
(** The real number that a double stands for (0 when there is none). *)
Definition f64_R (x : f64) : R :=
  match x with
  | S754_finite s m e => ((if s then -1 else 1) * IZR (Z.pos m) * powerRZ 2 e)%R
  | _ => 0%R
  end.
Definition f64_finite (x : f64) : Prop :=
  match x with S754_zero _ | S754_finite _ _ _ => True | _ => False end.

Lemma bpow_powerRZ e : bpow radix2 e = powerRZ 2 e.
Proof. rewrite bpow_powerRZ. reflexivity. Qed.

Lemma f64_R_SF2R x : f64_R x = SF2R radix2 x.
Proof.
  destruct x as [s|s| |s m e]; try reflexivity. cbn [f64_R SF2R]. unfold F2R. cbn [Defs.Fnum Defs.Fexp].
  rewrite bpow_powerRZ. destruct s; cbn [cond_Zopp]; [|lra]. rewrite opp_IZR. lra.
Qed.

Lemma f64_lift x : f64_valid x -> exists b : bf, B2SF b = x /\ B2R b = f64_R x
  /\ (f64_finite x -> is_finite b = true).
Proof.
  intro H. exists (SF2B x H). split; [apply B2SF_SF2B|]. split.
  - rewrite B2R_SF2B. symmetry. apply f64_R_SF2R.
  - intro F. rewrite is_finite_SF2B. destruct x; try reflexivity; contradiction.
Qed.

Lemma B2SF_valid (b : bf) : f64_valid (B2SF b).
Proof. apply valid_binary_B2SF. Qed.
Lemma B2SF_R (b : bf) : f64_R (B2SF b) = B2R b.
Proof. rewrite f64_R_SF2R. destruct b; reflexivity. Qed.
Lemma B2SF_finite (b : bf) : is_finite b = true -> f64_finite (B2SF b).
Proof. destruct b; cbn; auto; discriminate. Qed.

Lemma round_nearest_even_equiv s m l : round_nearest_even m l = choice_mode mode_NE s m l.
Proof.
  case l; [reflexivity|intro c]. case c; [|reflexivity..].
  now simpl; unfold Round.cond_incr; case Z.even.
Qed.
Lemma binary_round_aux_equiv sx mx ex lx :
  SpecFloat.binary_round_aux 53 1024 sx mx ex lx = BinarySingleNaN.binary_round_aux 53 1024 mode_NE sx mx ex lx.
Proof.
  unfold SpecFloat.binary_round_aux, BinarySingleNaN.binary_round_aux. set (mrse' := shr_fexp _ _ _).
  case mrse'; intros mrs' e'; simpl. now rewrite (round_nearest_even_equiv sx).
Qed.
Lemma binary_round_equiv s m e :
  SpecFloat.binary_round 53 1024 s m e = BinarySingleNaN.binary_round 53 1024 mode_NE s m e.
Proof.
  unfold SpecFloat.binary_round, BinarySingleNaN.binary_round, shl_align_fexp.
  set (mez := shl_align _ _ _); case mez as [mz ez]. apply binary_round_aux_equiv.
Qed.
Lemma binary_normalize_equiv m e szero :
  SpecFloat.binary_normalize 53 1024 m e szero = B2SF (BinarySingleNaN.binary_normalize 53 1024 Hprec53 Hmax53 mode_NE m e szero).
Proof.
  case m as [|p|p].
  - now simpl.
  - simpl; rewrite B2SF_SF2B; apply binary_round_equiv.
  - simpl; rewrite B2SF_SF2B; apply binary_round_equiv.
Qed.

Lemma f64_add_equiv (x y : bf) : f64_add (B2SF x) (B2SF y) = B2SF (Bplus mode_NE x y).
Proof.
  unfold f64_add. case x as [sx|sx| |sx mx ex Bx]; case y as [sy|sy| |sy my ey By];
    [now (trivial || simpl; case Bool.eqb).. |]. apply binary_normalize_equiv.
Qed.
Lemma f64_sub_equiv (x y : bf) : f64_sub (B2SF x) (B2SF y) = B2SF (Bminus mode_NE x y).
Proof.
  unfold f64_sub. case x as [sx|sx| |sx mx ex Bx]; case y as [sy|sy| |sy my ey By];
    [now (trivial || simpl; case Bool.eqb).. |]. simpl. unfold Zminus. rewrite <- cond_Zopp_negb. apply binary_normalize_equiv.
Qed.
Lemma f64_mul_equiv (x y : bf) : f64_mul (B2SF x) (B2SF y) = B2SF (Bmult mode_NE x y).
Proof.
  unfold f64_mul. case x as [sx|sx| |sx mx ex Bx]; case y as [sy|sy| |sy my ey By]; [now trivial..|].
  simpl. rewrite B2SF_SF2B. apply binary_round_aux_equiv.
Qed.
Lemma f64_div_equiv (x y : bf) : f64_div (B2SF x) (B2SF y) = B2SF (Bdiv mode_NE x y).
Proof.
  unfold f64_div. case x as [sx|sx| |sx mx ex Bx]; case y as [sy|sy| |sy my ey By];
    [now (trivial || simpl; case Bool.eqb).. |]. simpl. rewrite B2SF_SF2B.
  set (melz := SFdiv_core_binary _ _ _ _ _ _). case melz as [[mz ez] lz]. apply binary_round_aux_equiv.
Qed.

(** Rounding to the nearest double. *)
Definition rnd (r : R) : R := round radix2 (FLT_exp (-1074) 53) ZnearestE r.

Lemma rnd_le x y : (x <= y)%R -> (rnd x <= rnd y)%R.
Proof. apply round_le; apply _. Qed.
Lemma rnd_exact x : f64_valid x -> rnd (f64_R x) = f64_R x.
Proof.
  intro H. destruct (f64_lift x H) as (b & E & R & _). rewrite <- R. apply round_generic; [apply _|].
  apply (generic_format_B2R 53 1024 b).
Qed.
Lemma rnd_opp x : rnd (- x) = (- rnd x)%R.
Proof. apply round_NE_opp. Qed.
Lemma rnd_error x : (powerRZ 2 (-1022) <= Rabs x)%R -> (Rabs (rnd x - x) <= powerRZ 2 (-53) * Rabs x)%R.
Proof.
  intro H. rewrite <- bpow_powerRZ in H. unfold rnd.
  pose proof (relative_error_N_FLT radix2 (-1074) 53 ltac:(reflexivity) (fun n => negb (Z.even n)) x H) as E.
  change (-53 + 1) with (-52) in E. rewrite bpow_powerRZ in E.
  replace (powerRZ 2 (-53))%R with (/ 2 * powerRZ 2 (-52))%R; [exact E|].
  change (-53) with (-1 + -52). rewrite powerRZ_add by lra. f_equal. cbn [powerRZ]. change (Pos.to_nat 1) with 1%nat. now rewrite pow_1.
Qed.

(** Addition and subtraction when the result is not too large. *)
Lemma f64_add_spec x y : f64_valid x -> f64_finite x -> f64_valid y -> f64_finite y ->
  (Rabs (rnd (f64_R x + f64_R y)) < powerRZ 2 1024)%R ->
  f64_valid (f64_add x y) /\ f64_finite (f64_add x y) /\ f64_R (f64_add x y) = rnd (f64_R x + f64_R y).
Proof.
  intros Vx Fx Vy Fy B. destruct (f64_lift x Vx) as (a & <- & Ra & Fa). destruct (f64_lift y Vy) as (b & <- & Rb & Fb).
  rewrite f64_add_equiv. pose proof (Bplus_correct 53 1024 _ _ mode_NE a b (Fa Fx) (Fb Fy)) as H.
  rewrite <- Ra, <- Rb, <- bpow_powerRZ in B. unfold rnd in B. cbn [round_mode] in H.
  change (SpecFloat.fexp 53 1024) with (FLT_exp (-1074) 53) in H. rewrite Rlt_bool_true in H by exact B.
  destruct H as (H1 & H2 & _). split; [apply B2SF_valid|]. split; [now apply B2SF_finite|].
  rewrite B2SF_R, H1, Ra, Rb. reflexivity.
Qed.
Lemma f64_sub_spec x y : f64_valid x -> f64_finite x -> f64_valid y -> f64_finite y ->
  (Rabs (rnd (f64_R x - f64_R y)) < powerRZ 2 1024)%R ->
  f64_valid (f64_sub x y) /\ f64_finite (f64_sub x y) /\ f64_R (f64_sub x y) = rnd (f64_R x - f64_R y).
Proof.
  intros Vx Fx Vy Fy B. destruct (f64_lift x Vx) as (a & <- & Ra & Fa). destruct (f64_lift y Vy) as (b & <- & Rb & Fb).
  rewrite f64_sub_equiv. pose proof (Bminus_correct 53 1024 _ _ mode_NE a b (Fa Fx) (Fb Fy)) as H.
  rewrite <- Ra, <- Rb, <- bpow_powerRZ in B. unfold rnd in B. cbn [round_mode] in H.
  change (SpecFloat.fexp 53 1024) with (FLT_exp (-1074) 53) in H. rewrite Rlt_bool_true in H by exact B.
  destruct H as (H1 & H2 & _). split; [apply B2SF_valid|]. split; [now apply B2SF_finite|].
  rewrite B2SF_R, H1, Ra, Rb. reflexivity.
Qed.
Lemma f64_mul_spec x y : f64_valid x -> f64_finite x -> f64_valid y -> f64_finite y ->
  (Rabs (rnd (f64_R x * f64_R y)) < powerRZ 2 1024)%R ->
  f64_valid (f64_mul x y) /\ f64_finite (f64_mul x y) /\ f64_R (f64_mul x y) = rnd (f64_R x * f64_R y).
Proof.
  intros Vx Fx Vy Fy B. destruct (f64_lift x Vx) as (a & <- & Ra & Fa). destruct (f64_lift y Vy) as (b & <- & Rb & Fb).
  rewrite f64_mul_equiv. pose proof (Bmult_correct 53 1024 _ _ mode_NE a b) as H.
  rewrite <- Ra, <- Rb, <- bpow_powerRZ in B. unfold rnd in B. cbn [round_mode] in H.
  change (SpecFloat.fexp 53 1024) with (FLT_exp (-1074) 53) in H. rewrite Rlt_bool_true in H by exact B.
  destruct H as (H1 & H2 & _). split; [apply B2SF_valid|]. split; [apply B2SF_finite; rewrite H2, (Fa Fx), (Fb Fy); reflexivity|].
  rewrite B2SF_R, H1, Ra, Rb. reflexivity.
Qed.
Lemma f64_div_spec x y : f64_valid x -> f64_finite x -> f64_valid y -> f64_R y <> 0%R ->
  (Rabs (rnd (f64_R x / f64_R y)) < powerRZ 2 1024)%R ->
  f64_valid (f64_div x y) /\ f64_finite (f64_div x y) /\ f64_R (f64_div x y) = rnd (f64_R x / f64_R y).
Proof.
  intros Vx Fx Vy Ny B. destruct (f64_lift x Vx) as (a & <- & Ra & Fa). destruct (f64_lift y Vy) as (b & <- & Rb & Fb).
  rewrite f64_div_equiv. rewrite <- Rb in Ny. pose proof (Bdiv_correct 53 1024 _ _ mode_NE a b Ny) as H.
  rewrite <- Ra, <- Rb, <- bpow_powerRZ in B. unfold rnd in B. cbn [round_mode] in H.
  change (SpecFloat.fexp 53 1024) with (FLT_exp (-1074) 53) in H. rewrite Rlt_bool_true in H by exact B.
  destruct H as (H1 & H2 & _). split; [apply B2SF_valid|]. split; [apply B2SF_finite; rewrite H2; auto|].
  rewrite B2SF_R, H1, Ra, Rb. reflexivity.
Qed.

(** A valid finite number that is not zero has its mantissa and its exponent
    in the range of the format. *)
Lemma f64_valid_bounds s m e : f64_valid (S754_finite s m e) -> Z.pos m < 2 ^ 53 /\ -1074 <= e <= 971.
Proof.
  intro H. unfold f64_valid in H. cbn in H. unfold SpecFloat.bounded in H. apply andb_prop in H. destruct H as [H1 H2].
  apply Z.leb_le in H2. unfold SpecFloat.canonical_mantissa in H1. apply Zeq_bool_eq in H1.
  unfold SpecFloat.fexp, SpecFloat.emin in H1. change (1024 - 53) with 971 in H2.
  assert (D : Z.pos (SpecFloat.digits2_pos m) <= 53) by lia. split; [|lia].
  rewrite Digits.Zpos_digits2_pos in D. 
  apply (Digits.Zpower_gt_Zdigits radix2 53 (Z.pos m)) in D. exact D.
Qed.
