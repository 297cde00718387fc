(** * The double pi of math.h is within half a unit of the last place of pi *)

From Coq Require Import Reals Lra ZArith Lia Machin.
Open Scope R_scope.
(** The double pi of the code (M_PI of math.h). *)
Definition pi64 : R := (IZR 7074237752028440 * powerRZ 2 (-51))%R.
(** Machin's series of the standard library, as fractions. *)
Lemma term (n : nat) : tg_alt PI_2_3_7_tg n = (-1)^n * (2 * ((/3)^(2*n+1) / IZR (Z.of_nat (2*n+1))) + (/7)^(2*n+1) / IZR (Z.of_nat (2*n+1))).
Proof. unfold tg_alt, PI_2_3_7_tg, Ratan_seq. rewrite INR_IZR_INZ. reflexivity. Qed.
Lemma frac (n : nat) : (2 * ((/3)^(2*n+1) / IZR (Z.of_nat (2*n+1))) + (/7)^(2*n+1) / IZR (Z.of_nat (2*n+1)))
  = IZR (2 * 7 ^ Z.of_nat (2*n+1) + 3 ^ Z.of_nat (2*n+1)) / IZR (21 ^ Z.of_nat (2*n+1) * Z.of_nat (2*n+1)).
Proof.
  set (m := (2*n+1)%nat). assert (M : IZR (Z.of_nat m) <> 0) by (apply not_0_IZR; unfold m; lia).
  rewrite plus_IZR, !mult_IZR, <- !pow_IZR. replace 21 with (3 * 7) by lra. rewrite Rpow_mult_distr, !pow_inv.
  field. repeat split; [exact M| |]; apply pow_nonzero; lra.
Qed.
Fixpoint part (n : nat) : Z * Z :=
  let t (n : nat) := ((if Nat.even n then 1 else -1) * (2 * 7 ^ Z.of_nat (2*n+1) + 3 ^ Z.of_nat (2*n+1)), 21 ^ Z.of_nat (2*n+1) * Z.of_nat (2*n+1))%Z in
  match n with
  | O => t O
  | S m => let '(a, b) := part m in let '(c, d) := t (S m) in (a * d + c * b, b * d)%Z
  end.
Lemma sign n : (-1)^n = IZR (if Nat.even n then 1 else -1).
Proof. induction n as [|n IH]; [reflexivity|]. rewrite Nat.even_succ, <- Nat.negb_even. cbn [pow]. rewrite IH. destruct (Nat.even n); cbn; lra. Qed.
Lemma part_sum n : (0 < snd (part n))%Z /\ sum_f_R0 (tg_alt PI_2_3_7_tg) n = IZR (fst (part n)) / IZR (snd (part n)).
Proof.
  assert (P : forall n, (0 < 21 ^ Z.of_nat (2*n+1) * Z.of_nat (2*n+1))%Z) by (intro k; apply Z.mul_pos_pos; [apply Z.pow_pos_nonneg; lia|lia]).
  induction n as [|n (IP & IS)].
  - split; [exact (P O)|]. cbn [sum_f_R0]. rewrite term, frac, sign. unfold part, fst, snd. change (if Nat.even 0 then 1 else -1)%Z with 1%Z. rewrite Z.mul_1_l, Rmult_1_l. reflexivity.
  - cbn [sum_f_R0 part]. rewrite IS, term, frac, sign. destruct (part n) as (a, b). cbn [fst snd] in *. specialize (P (S n)).
    set (c := (2 * 7 ^ Z.of_nat (2 * S n + 1) + 3 ^ Z.of_nat (2 * S n + 1))%Z) in *. set (d := (21 ^ Z.of_nat (2 * S n + 1) * Z.of_nat (2 * S n + 1))%Z) in *.
    clearbody c d. set (g := if Nat.even (S n) then 1%Z else (-1)%Z). clearbody g. cbv zeta. cbn [fst snd]. split; [now apply Z.mul_pos_pos|].
    rewrite plus_IZR, !mult_IZR. assert (IZR b <> 0) by (apply not_0_IZR; lia). assert (IZR d <> 0) by (apply not_0_IZR; lia). field. split; assumption.
Qed.
Lemma frac_le a b c d : (0 < b)%Z -> (0 < d)%Z -> (a * d <= c * b)%Z -> IZR a / IZR b <= IZR c / IZR d.
Proof.
  intros B D L. apply IZR_lt in B. apply IZR_lt in D. apply IZR_le in L. rewrite !mult_IZR in L.
  apply (Rmult_le_reg_r (IZR b * IZR d)); [now apply Rmult_lt_0_compat|]. unfold Rdiv.
  replace (IZR a * / IZR b * (IZR b * IZR d)) with (IZR a * IZR d) by (field; lra). replace (IZR c * / IZR d * (IZR b * IZR d)) with (IZR c * IZR b) by (field; lra). exact L.
Qed.
Lemma pi_near : Rabs (pi64 - PI) <= / 4503599627370496.
Proof.
  pose proof (PI_2_3_7_ineq 9) as (A & B).
  assert (E : pi64 = 7074237752028440 / 2251799813685248).
  { unfold pi64. change (powerRZ 2 (-51)) with (/ 2 ^ 51). unfold Rdiv. f_equal. f_equal. rewrite pow_IZR. reflexivity. }
  rewrite E. clear E.
  change (S (2 * 9)) with 19%nat in A. change (2*9)%nat with 18%nat in B.
  rewrite (proj2 (part_sum 19)) in A. rewrite (proj2 (part_sum 18)) in B.
  assert (LA : IZR 31415926535897930 / IZR 40000000000000000 <= IZR (fst (part 19)) / IZR (snd (part 19))).
  { apply frac_le; [reflexivity|exact (proj1 (part_sum 19))|apply Z.leb_le; vm_compute; reflexivity]. }
  assert (LB : IZR (fst (part 18)) / IZR (snd (part 18)) <= IZR 31415926535897933 / IZR 40000000000000000).
  { apply frac_le; [exact (proj1 (part_sum 18))|reflexivity|apply Z.leb_le; vm_compute; reflexivity]. }
  pose proof (Rle_trans _ _ _ LA A) as L1. pose proof (Rle_trans _ _ _ B LB) as L2. clear A B LA LB.
  apply Rabs_le. split; lra.
Qed.
