(** * Unicode ranges: packing and bounds *)

From Coq Require Import ZArith List Bool Lia ZifyBool.
From Verif Require Import Base UnicodeRange.
Import ListNotations.
Open Scope Z_scope.

Lemma lor_shift a b : 0 <= b < 4294967296 -> Z.lor (a * 4294967296) b = a * 4294967296 + b.
Proof.
  intro H. change 4294967296 with (2 ^ 32). rewrite <- Z.shiftl_mul_pow2 by lia.
  symmetry. rewrite <- Z.lxor_lor.
  - apply Z.add_nocarry_lxor. apply Z.bits_inj'. intros n Hn.
    rewrite Z.land_spec, Z.bits_0. destruct (Z.lt_ge_cases n 32).
    + rewrite Z.shiftl_spec_low by lia. reflexivity.
    + rewrite andb_comm. replace (Z.testbit b n) with false; [reflexivity|].
      symmetry. destruct (Z.eq_dec b 0) as [->|]; [apply Z.bits_0|].
      apply Z.bits_above_log2; [lia|]. assert (Z.log2 b < 32) by (apply Z.log2_lt_pow2; lia). lia.
  - apply Z.bits_inj'. intros n Hn.
    rewrite Z.land_spec, Z.bits_0. destruct (Z.lt_ge_cases n 32).
    + rewrite Z.shiftl_spec_low by lia. reflexivity.
    + rewrite andb_comm. replace (Z.testbit b n) with false; [reflexivity|].
      symmetry. destruct (Z.eq_dec b 0) as [->|]; [apply Z.bits_0|].
      apply Z.bits_above_log2; [lia|]. assert (Z.log2 b < 32) by (apply Z.log2_lt_pow2; lia). lia.
Qed.

Lemma land32 a : Z.land a 4294967295 = a mod 4294967296.
Proof. change 4294967295 with (Z.ones 32). rewrite Z.land_ones by lia. reflexivity. Qed.

Lemma range_to_start_eq r : range_to_start r = to_i32 r.
Proof.
  unfold range_to_start, to_i32. rewrite land32.
  f_equal. Z.to_euclidean_division_equations. lia.
Qed.

Lemma range_to_end_eq r : range_to_end r = to_i32 (r / 4294967296).
Proof.
  unfold range_to_end. rewrite land32, Z.shiftr_div_pow2 by lia.
  change (2 ^ 32) with 4294967296. unfold to_i32.
  f_equal. Z.to_euclidean_division_equations. lia.
Qed.

Lemma pack_nonneg s e : 0 <= s < 4294967296 -> 0 <= e < 4294967296 ->
  start_end_to_range s e = e * 4294967296 + s.
Proof.
  intros Hs He. unfold start_end_to_range. rewrite Z.shiftl_mul_pow2 by lia.
  change (2 ^ 32) with 4294967296. unfold u64.
  rewrite (Z.mod_small e) by lia. rewrite (Z.mod_small s) by lia.
  rewrite Z.mod_small by lia. now apply lor_shift.
Qed.

Lemma pack_start s e : 0 <= s < 2147483648 -> 0 <= e < 2147483648 ->
  range_to_start (start_end_to_range s e) = s.
Proof.
  intros Hs He. rewrite pack_nonneg, range_to_start_eq by lia. unfold to_i32.
  Z.to_euclidean_division_equations. lia.
Qed.

Lemma pack_end s e : 0 <= s < 2147483648 -> 0 <= e < 2147483648 ->
  range_to_end (start_end_to_range s e) = e.
Proof.
  intros Hs He. rewrite pack_nonneg, range_to_end_eq by lia.
  rewrite Z.add_comm, Z.div_add by lia. rewrite Z.div_small by lia. unfold to_i32.
  Z.to_euclidean_division_equations. lia.
Qed.

Lemma ur_make_ok s e : 0 <= s -> s <= e -> s < 1114112 -> e < 2097152 ->
  ur_make s e = Some (start_end_to_range s e).
Proof.
  intros. unfold ur_make, ur_of_value, verify_range. rewrite pack_start, pack_end by lia.
  replace (s <? 1114112) with true by lia. replace (e <? 2097152) with true by lia.
  now replace (s <=? e) with true by lia.
Qed.
