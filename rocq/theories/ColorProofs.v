(** * Proofs about colours: the table of names, hexadecimal digits, bytes *)

From Coq Require Import String ZArith List Bool Lia Arith Floats.SpecFloat ZifyBool.
From Verif Require Import Base DecText DecFmt Lexer Color ColorSpec.
Import ListNotations.
Open Scope string_scope. Open Scope list_scope. Open Scope Z_scope.

(** ** Order of strings *)
Lemma str_lt_irrefl a : str_lt a a = false.
Proof. induction a as [|x a IH]; cbn; auto. rewrite IH, Z.eqb_refl, Z.ltb_irrefl. reflexivity. Qed.
Lemma str_lt_trans a : forall b c, str_lt a b = true -> str_lt b c = true -> str_lt a c = true.
Proof.
  induction a as [|x a IH]; intros [|y b] [|z c] H K; cbn in *; try discriminate; auto.
  apply orb_true_iff in H, K. rewrite !andb_true_iff in H, K. apply orb_true_iff. rewrite andb_true_iff.
  destruct H as [H|[H1 H2]], K as [K|[K1 K2]]; try (left; lia).
  right. split; [lia|]. eapply IH; eauto.
Qed.
Lemma str_lt_total a : forall b, a <> b -> str_lt a b = false -> str_lt b a = true.
Proof.
  induction a as [|x a IH]; intros [|y b] N H; cbn in *; try discriminate; auto; try contradiction.
  apply orb_false_iff in H. destruct H as [H1 H2]. apply orb_true_iff. rewrite andb_true_iff.
  destruct (Z.eqb_spec x y) as [->|D]; [|left; lia]. right. split; [apply Z.eqb_refl|].
  apply IH; [congruence|]. rewrite andb_true_l in H2. exact H2.
Qed.

(** ** The binary search *)
Section Search.
Variable tbl : list ((Z * Z * Z * Z) * str).
Fixpoint ascending (l : list ((Z * Z * Z * Z) * str)) : bool :=
  match l with
  | x :: ((y :: _) as r) => str_lt (snd x) (snd y) && ascending r
  | _ => true
  end.
Lemma ascending_cons x l : ascending (x :: l) = true -> ascending l = true /\ Forall (fun y => str_lt (snd x) (snd y) = true) l.
Proof.
  revert x. induction l as [|y l IH]; intros x H; [auto|]. change (ascending (x :: y :: l)) with (str_lt (snd x) (snd y) && ascending (y :: l)) in H.
  apply andb_true_iff in H. destruct H as [H1 H2]. split; [exact H2|]. constructor; [exact H1|].
  destruct (IH y H2) as [_ F]. rewrite Forall_forall in *. intros z Z. eapply str_lt_trans; eauto.
Qed.
Lemma ascending_nth l d : ascending l = true -> forall i j, (i < j < length l)%nat -> str_lt (snd (nth i l d)) (snd (nth j l d)) = true.
Proof.
  induction l as [|x l IH]; intros H i j L; [cbn in L; lia|]. destruct (ascending_cons x l H) as [A F].
  destruct j as [|j]; [lia|]. destruct i as [|i]; cbn in *.
  - rewrite Forall_forall in F. apply F. apply nth_In. lia.
  - apply IH; [exact A|lia].
Qed.
End Search.

Lemma table_ascending : ascending color_names = true.
Proof. vm_compute. reflexivity. Qed.

Notation entry k := (nth k color_names ((0, 0, 0, 0), [])).

Lemma search_sound f name : forall i j v, (j <= length color_names)%nat -> search f name i j = Some v ->
  exists k, (k < length color_names)%nat /\ entry k = (v, name).
Proof.
  induction f as [|f IH]; intros i j v L H; [discriminate|]. cbn [search] in H. destruct (Nat.ltb_spec i j) as [Lij|Lij]; [|discriminate].
  set (p := ((j - i) / 2 + i)%nat) in *. assert (P : (p < j)%nat) by (unfold p; pose proof (Nat.div_lt (j - i) 2 ltac:(lia) ltac:(lia)); lia).
  destruct (entry p) as [w n] eqn:E. destruct (str_eqb n name) eqn:Q.
  - apply str_eqb_spec in Q. exists p. split; [lia|]. rewrite E. congruence.
  - destruct (str_lt n name); (eapply IH; [|exact H]); lia.
Qed.
Lemma search_complete f name : forall i j k v, (j - i < f)%nat -> (i <= k < j)%nat -> (j <= length color_names)%nat ->
  entry k = (v, name) -> search f name i j = Some v.
Proof.
  induction f as [|f IH]; intros i j k v F K L E; [lia|]. cbn [search].
  destruct (Nat.ltb_spec i j) as [Lij|Lij]; [|lia].
  set (p := ((j - i) / 2 + i)%nat). assert (P : (i <= p < j)%nat) by (unfold p; pose proof (Nat.div_lt (j - i) 2 ltac:(lia) ltac:(lia)); lia).
  assert (As : forall a b, (a < b < length color_names)%nat -> str_lt (snd (entry a)) (snd (entry b)) = true) by (apply ascending_nth, table_ascending).
  destruct (entry p) as [w n] eqn:Ep. destruct (str_eqb n name) eqn:Q.
  - apply str_eqb_spec in Q. subst n. destruct (lt_eq_lt_dec p k) as [[D|D]|D].
    + specialize (As p k ltac:(lia)). rewrite Ep, E in As. cbn in As. rewrite str_lt_irrefl in As. discriminate.
    + subst p. rewrite D, E in Ep. congruence.
    + specialize (As k p ltac:(lia)). rewrite Ep, E in As. cbn in As. rewrite str_lt_irrefl in As. discriminate.
  - apply str_eqb_neq in Q. destruct (str_lt n name) eqn:Lt.
    + destruct (lt_eq_lt_dec p k) as [[D|D]|D].
      * apply (IH (p + 1)%nat j k v); auto; lia.
      * rewrite <- D, Ep in E. congruence.
      * specialize (As k p ltac:(lia)). rewrite Ep, E in As. cbn in As.
        pose proof (str_lt_trans _ _ _ As Lt) as X. rewrite str_lt_irrefl in X. discriminate.
    + destruct (lt_eq_lt_dec p k) as [[D|D]|D].
      * specialize (As p k ltac:(lia)). rewrite Ep, E in As. cbn in As. congruence.
      * rewrite <- D, Ep in E. congruence.
      * apply (IH i p k v); auto; lia.
Qed.
Lemma find_name_spec name v : find_name name = Some v <-> In (v, name) color_names.
Proof.
  unfold find_name. split; intro H.
  - destruct (search_sound _ _ _ _ _ (le_n _) H) as (k & L & E). rewrite <- E. now apply nth_In.
  - destruct (In_nth _ _ ((0, 0, 0, 0), []) H) as (k & L & E). generalize dependent k. intros k L E.
    apply (search_complete _ name 0%nat (length color_names) k v); [lia|split; [lia|exact L]|apply le_n|exact E].
Qed.

(** ** The table against the one of CSS *)
Definition same_entry (v : Z * Z * Z * Z) (c : Z) : bool :=
  let '(r, g, b, a) := v in (r =? c / 65536) && (g =? c / 256 mod 256) && (b =? c mod 256) && (a =? 255).
Definition row_ok (x : (Z * Z * Z * Z) * str) : bool :=
  existsb (fun y => str_eqb (snd x) (zs (fst y)) && same_entry (fst x) (snd y)) css_colors
  || (str_eqb (snd x) (zs "transparent") && let '(r, g, b, a) := fst x in (r =? 0) && (g =? 0) && (b =? 0) && (a =? 0)).
Definition css_ok (y : string * Z) : bool :=
  existsb (fun x => str_eqb (snd x) (zs (fst y)) && same_entry (fst x) (snd y)) color_names.
Lemma same_entry_spec v c : same_entry v c = true -> v = (c / 65536, c / 256 mod 256, c mod 256, 255).
Proof. destruct v as [[[r g] b] a]. cbn. intro H. repeat (apply andb_true_iff in H; destruct H as [H ?]). f_equal; [f_equal; [f_equal|]|]; lia. Qed.
Lemma rows_ok : forallb row_ok color_names = true.
Proof. vm_compute. reflexivity. Qed.
Lemma css_all_ok : forallb css_ok css_colors = true.
Proof. vm_compute. reflexivity. Qed.
Lemma transparent_row : In ((0, 0, 0, 0), zs "transparent") color_names.
Proof. apply find_name_spec. vm_compute. reflexivity. Qed.

Lemma table_css v name : In (v, name) color_names <-> css_meaning name v.
Proof.
  split; intro H.
  - pose proof rows_ok as R. rewrite forallb_forall in R. specialize (R _ H). unfold row_ok in R. apply orb_true_iff in R. destruct R as [R|R].
    + apply existsb_exists in R. destruct R as ([n c] & I & R). apply andb_true_iff in R. destruct R as [R1 R2]. cbn [fst snd] in *.
      apply str_eqb_spec in R1. apply same_entry_spec in R2. left. exists n, c. auto.
    + apply andb_true_iff in R. destruct R as [R1 R2]. cbn [fst snd] in *. apply str_eqb_spec in R1. right. split; [exact R1|].
      destruct v as [[[r g] b] a]. repeat (apply andb_true_iff in R2; destruct R2 as [R2 ?]). f_equal; [f_equal; [f_equal|]|]; lia.
  - destruct H as [(n & c & I & -> & ->)|[-> ->]]; [|apply transparent_row].
    pose proof css_all_ok as R. rewrite forallb_forall in R. specialize (R _ I). unfold css_ok in R. apply existsb_exists in R.
    destruct R as ([v name] & J & R). apply andb_true_iff in R. destruct R as [R1 R2]. cbn [fst snd] in *.
    apply str_eqb_spec in R1. apply same_entry_spec in R2. subst. exact J.
Qed.

(** ** Hexadecimal digits *)
Lemma hex_digit_spec a x : In (a, x) hex_digits <-> is_hex a = true /\ x = hex_value a.
Proof.
  split.
  - intro H. cbn in H. repeat (destruct H as [H|H]; [inversion H; subst; vm_compute; auto|]). contradiction.
  - intros [H ->]. unfold is_hex, is_digit in H. unfold hex_value, is_digit.
    assert (D : 48 <= a <= 57 \/ 65 <= a <= 70 \/ 97 <= a <= 102) by lia.
    assert (C : exists k, (k < 22)%nat /\ a = fst (nth k hex_digits (0, 0))).
    { destruct D as [D|[D|D]]; [exists (Z.to_nat (a - 48))|exists (Z.to_nat (a - 65 + 16))|exists (Z.to_nat (a - 97 + 10))]; split; try lia.
      - assert (E : exists n, (n < 10)%nat /\ a = 48 + Z.of_nat n) by (exists (Z.to_nat (a - 48)); lia).
        destruct E as (n & Ln & ->). replace (Z.to_nat (48 + Z.of_nat n - 48)) with n by lia. do 10 (destruct n as [|n]; [reflexivity|]). lia.
      - assert (E : exists n, (n < 6)%nat /\ a = 65 + Z.of_nat n) by (exists (Z.to_nat (a - 65)); lia).
        destruct E as (n & Ln & ->). replace (Z.to_nat (65 + Z.of_nat n - 65 + 16)) with (16 + n)%nat by lia. do 6 (destruct n as [|n]; [reflexivity|]). lia.
      - assert (E : exists n, (n < 6)%nat /\ a = 97 + Z.of_nat n) by (exists (Z.to_nat (a - 97)); lia).
        destruct E as (n & Ln & ->). replace (Z.to_nat (97 + Z.of_nat n - 97 + 10)) with (10 + n)%nat by lia. do 6 (destruct n as [|n]; [reflexivity|]). lia. }
    destruct C as (k & Lk & ->). do 22 (destruct k as [|k]; [vm_compute; tauto|]). lia.
Qed.
