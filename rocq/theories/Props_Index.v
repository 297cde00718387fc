(** * Overflow of integers and indexing (C35, C39) *)

From Coq Require Import String ZArith List Bool Lia Arith ZifyBool Floats.SpecFloat.
From Verif Require Import Base NodeHeap Color FloatBits Dim DimSpec DimProofs Expr ExprSpec ExprRun Props_Mul Props_Str.
Import ListNotations.
Open Scope string_scope. Open Scope list_scope. Open Scope Z_scope.
Ltac Zify.zify_post_hook ::= idtac.

(** ** C35 Integer arithmetic *)
(** The operation has an undefined behaviour in C++. *)
Definition undefined {A} (m : E A) (s : est) : Prop := exists s', m s = Undef s'.
Lemma fits_no v : ~ fits64 v -> int64_ok v = false.
Proof. unfold fits64, int64_ok. lia. Qed.
Lemma fits_dec v : fits64 v \/ ~ fits64 v.
Proof. unfold fits64. lia. Qed.

(** For each operator on integers: undefined exactly when the mathematical
    result does not fit. Addition and subtraction: *)
Theorem c35_add : forall s a b ca cb x y u (sub : bool),
  node_at s a ca -> node_at s b cb -> int_node ca x u -> int_node cb y u ->
  (undefined (add a b sub) s <-> ~ fits64 (if sub then x - y else x + y)).
Proof.
  intros s a b ca cb x y u sub Ha Hb (Ta & Va & Ua) (Tb & Vb & Ub). subst x y u. set (v := if sub then c_int ca - c_int cb else c_int ca + c_int cb).
  assert (K : add a b sub s = bind (int64 v) (fun x => lift (set_integer (new_addr s) x) ;;; ret (Some (new_addr s))) (fresh s (with_str (blank INTEGER (c_pos ca)) (c_str ca)))).
  { unfold add. steps. rewrite Ta, Tb. unfold add_types. cbv iota. steps. unfold add_numbers. steps. rewrite Ub, str_eqb_refl. cbn [negb]. steps.
    change (ntype_eqb INTEGER PERCENT) with false. cbv iota. steps. reflexivity. }
  unfold undefined. rewrite K. unfold int64. destruct (fits_dec v) as [F|F].
  - rewrite (fits_ok _ F). steps. split; [intros (s' & H); discriminate|contradiction].
  - rewrite (fits_no _ F). split; [auto|]. intros _. eexists. reflexivity.
Qed.
(** Multiplication, division and modulo, whatever the units. *)
Theorem c35_multiply : forall s a b ca cb x y u w o,
  node_at s a ca -> node_at s b cb -> int_node ca x u -> int_node cb y w -> e_font s = false -> (o = Mod -> u = w) ->
  (undefined (multiply o a b) s <->
   match o with Mul => ~ fits64 (x * y) | Div | Mod => y <> 0 /\ ~ fits64 (Z.quot x y) end).
Proof.
  intros s a b ca cb x y u w o Ha Hb Na Nb Fo Hu.
  destruct (numbers_mul s a b ca cb (inl x) (inl y) u w o Ha Hb (number_int _ _ _ Na) (number_int _ _ _ Nb)) as (t & v & K & Sa & Sb & Pa & Pb & Pt & St & El & Er & -> & ->).
  unfold undefined. rewrite K. unfold mul_numbers. rewrite Fo. cbn [andb]. steps. rewrite Pa, Pb, Pt. steps. rewrite El, Er.
  destruct o; cbn [is_mul negb].
  - destruct (dim_product u false w) as (d & e). steps.
    destruct (report_dims_run (c_pos ca) e (fresh s (blank INTEGER (c_pos ca)))) as (k & R). rewrite (b_ret _ _ _ _ _ R).
    rewrite fresh_msgs. cbn [e_msgs fresh with_heap].
    rewrite <- (new_addr_msgs s (e_msgs s ++ k)). set (s1 := with_msgs s (e_msgs s ++ k)). steps. cbn [negb]. cbv iota.
    unfold int64. destruct (fits_dec (x * y)) as [F|F].
    + rewrite (fits_ok _ F). steps. split; [intros (s' & H); discriminate|contradiction].
    + rewrite (fits_no _ F). split; [auto|]. intros _. eexists. reflexivity.
  - destruct (dim_product u true w) as (d & e). steps.
    destruct (report_dims_run (c_pos ca) e (fresh s (blank INTEGER (c_pos ca)))) as (k & R). rewrite (b_ret _ _ _ _ _ R).
    rewrite fresh_msgs. cbn [e_msgs fresh with_heap].
    rewrite <- (new_addr_msgs s (e_msgs s ++ k)). set (s1 := with_msgs s (e_msgs s ++ k)). steps. cbn [negb]. cbv iota.
    destruct (Z.eqb_spec y 0) as [Y|Y].
    + split; [intros (s' & H); discriminate|tauto].
    + unfold int64. destruct (fits_dec (Z.quot x y)) as [F|F].
      * rewrite (fits_ok _ F). steps. split; [intros (s' & H); discriminate|tauto].
      * rewrite (fits_no _ F). split; [auto|]. intros _. eexists. reflexivity.
  - rewrite (Hu eq_refl), str_eqb_refl. steps. cbn [negb]. cbv iota.
    destruct (Z.eqb_spec y 0) as [Y|Y].
    + split; [intros (s' & H); discriminate|tauto].
    + unfold int64. destruct (fits_dec (Z.quot x y)) as [F|F].
      * rewrite (fits_ok _ F). steps. split; [intros (s' & H); discriminate|tauto].
      * rewrite (fits_no _ F). split; [auto|]. intros _. eexists. reflexivity.
Qed.
(** The only quotient of two 64 bit integers which does not fit. *)
Theorem c35_quotient : forall x y, fits64 x -> fits64 y -> y <> 0 -> (~ fits64 (Z.quot x y) <-> x = -9223372036854775808 /\ y = -1).
Proof.
  unfold fits64. intros x y Hx Hy N. destruct (Z.eq_dec y (-1)) as [->|Y].
  - replace (Z.quot x (-1)) with (- x) by (change (-1) with (- (1)); rewrite Z.quot_opp_r by lia; now rewrite Z.quot_1_r). lia.
  - split; [|lia]. intro H. exfalso. apply H. pose proof (Z.quot_abs x y N) as Q.
    destruct (Z.eq_dec y 1) as [->|Y1]; [rewrite Z.quot_1_r in *; lia|].
    assert (Z.abs x ÷ Z.abs y <= Z.abs x ÷ 2) by (apply Z.quot_le_compat_l; lia).
    assert (Z.abs x ÷ 2 <= 9223372036854775808 ÷ 2) by (apply Z.quot_le_mono; lia). change (9223372036854775808 ÷ 2) with 4611686018427387904 in *. lia.
Qed.
(** Unary minus. *)
Theorem c35_minus : forall s a ca x u, node_at s a ca -> int_node ca x u ->
  (undefined (negate a) s <-> ~ fits64 (- x)).
Proof.
  intros s a ca x u Ha (Ta & Va & Ua). subst. unfold undefined, negate. steps. rewrite Ta. cbv iota. steps. unfold int64.
  destruct (fits_dec (- c_int ca)) as [F|F].
  - rewrite (fits_ok _ F). steps. rewrite (b_ret _ _ _ _ _ (run_set_integer s a ca Ha _ ltac:(rewrite Ta; reflexivity))).
    split; [intros (s' & H); discriminate|contradiction].
  - rewrite (fits_no _ F). split; [auto|]. intros _. eexists. reflexivity.
Qed.
(** So the property fails: these expressions are undefined. *)
Definition is_undefined (o : outcome est (option addr)) : bool := match o with Undef _ => true | _ => false end.
Definition imax : Z := 9223372036854775807.
Theorem c35_overflow_refuted :
  is_undefined (evaluate libm0 [num imax ""; plain ADD; num 1 ""]) = true
  /\ is_undefined (evaluate libm0 [num imax "px"; plain MULTIPLY; num 2 ""]) = true
  /\ is_undefined (evaluate libm0 [num (- imax - 1) ""; plain DIVIDE; num (-1) ""]) = true
  /\ is_undefined (evaluate libm0 [num (- imax - 1) ""; plain MODULO; num (-1) ""]) = true
  /\ is_undefined (evaluate libm0 [plain SUBTRACT; num (- imax - 1) ""]) = true.
Proof. repeat split; vm_compute; reflexivity. Qed.
(** The integer power goes through double: undefined when the value of pow()
    does not fit; so it is for 10 ** 30, for any function pow() right there. *)
Theorem c35_power : forall lm s a b ca cb x y u,
  node_at s a ca -> node_at s b cb -> int_node ca x u -> int_node cb y [] ->
  int_of_f64 (lm_pow lm (f64_of_Z x) (f64_of_Z y)) = None -> undefined (apply_power lm a b) s.
Proof.
  intros lm s a b ca cb x y u Ha Hb (Ta & Va & Ua) (Tb & Vb & Ub) H. eexists. unfold apply_power. steps. rewrite Ta, Tb.
  change (ntype_eqb INTEGER INTEGER) with true. cbn [orb]. steps. rewrite Ub. change (negb (str_eqb [] [])) with false. cbv iota.
  unfold power_value. steps. rewrite Va, Vb. unfold to_int64. rewrite H. reflexivity.
Qed.
Theorem c35_power_refuted : forall lm, lm_pow lm (f64_of_Z 10) (f64_of_Z 30) = f64_of_Z (10 ^ 30) ->
  undefined (apply_power lm 1%nat 2%nat) (example [num 10 ""; num 30 ""]).
Proof.
  intros lm H. apply (c35_power lm _ _ _ (num 10 "") (num 30 "") 10 30 []); try reflexivity; try (repeat split; reflexivity).
  rewrite H. vm_compute. reflexivity.
Qed.

(** ** C39 Indexing *)
Lemma sizes_small (c : cell) : 0 <= Z.of_nat (length (c_ch c)). Proof. lia. Qed.
Lemma run_child_s s a c i x : node_at s a c -> has_children (c_type c) = true -> nth_error (c_ch c) i = Some x ->
  lift (get_child a (Z.of_nat i)) s = Ret x s.
Proof.
  intros H T N. apply (run_child s a c H); [exact T| |rewrite Nat2Z.id; exact N].
  assert (i < length (c_ch c))%nat by (apply nth_error_Some; rewrite N; discriminate). lia.
Qed.
(** [array\[i\]] for an array (or a list) of n items (n < 2^63, as in any
    memory): item i counted from 1, or from the end when i is negative; any
    other index is refused. *)
Definition index_node (c : cell) (i : Z) : Prop := exists u, int_node c i u /\ fits64 i.
Definition sequence (c : cell) : Prop := (c_type c = ARRAY \/ c_type c = LIST) /\ Z.of_nat (length (c_ch c)) <= 9223372036854775807.
Lemma sequence_run s a b ca cb i : node_at s a ca -> node_at s b cb -> sequence ca -> index_node cb i ->
  let n := Z.of_nat (length (c_ch ca)) in
  index_integer a b s = (let k := if i <? 0 then wrap64 (u64 (n + i)) else i - 1 in
    if n <=? u64 k then p <- cur_pos ;; refuse p "index is out of range." else v <- lift (get_child a (u64 k)) ;; ret (Some v)) s.
Proof.
  intros Ha Hb (T & Hn) (u & (Tb & Vb & Ub) & Hi) n. unfold index_integer. steps.
  replace (ntype_eqb (c_type ca) ARRAY || ntype_eqb (c_type ca) LIST) with true by (destruct T as [T|T]; rewrite T; reflexivity).
  steps. rewrite (b_ret _ _ _ _ _ (run_size s a ca Ha ltac:(destruct T as [T|T]; rewrite T; reflexivity))). rewrite Vb. reflexivity.
Qed.
Lemma seq_children ca : sequence ca -> has_children (c_type ca) = true.
Proof. intros ([T|T] & _); rewrite T; reflexivity. Qed.
Theorem c39_item : forall s a b ca cb i x,
  node_at s a ca -> node_at s b cb -> sequence ca -> index_node cb i ->
  (1 <= i /\ nth_error (c_ch ca) (Z.to_nat (i - 1)) = Some x) \/
  (i < 0 /\ - Z.of_nat (length (c_ch ca)) <= i /\ nth_error (c_ch ca) (Z.to_nat (Z.of_nat (length (c_ch ca)) + i)) = Some x) ->
  index_integer a b s = Ret (Some x) s.
Proof.
  intros s a b ca cb i x Ha Hb Sa Ib H. rewrite (sequence_run s a b ca cb i Ha Hb Sa Ib). destruct Sa as (T & Hn). destruct Ib as (u & (Tb & Vb & Ub) & Hi). unfold fits64 in Hi. cbv zeta.
  set (n := Z.of_nat (length (c_ch ca))) in *.
  assert (L : forall k, nth_error (c_ch ca) k = Some x -> Z.of_nat k < n).
  { intros k Hk. assert (k < length (c_ch ca))%nat by (apply nth_error_Some; rewrite Hk; discriminate). lia. }
  assert (C : has_children (c_type ca) = true) by (destruct T as [T|T]; rewrite T; reflexivity).
  destruct H as [(H1 & H2)|(H1 & H2 & H3)].
  - specialize (L _ H2). replace (i <? 0) with false by lia. unfold u64. rewrite Z.mod_small by lia. replace (n <=? i - 1) with false by lia.
    pose proof (run_child_s s a ca (Z.to_nat (i - 1)) x Ha C H2) as R. rewrite Z2Nat.id in R by lia.
    rewrite (b_ret _ _ _ _ _ R). reflexivity.
  - specialize (L _ H3). replace (i <? 0) with true by lia. unfold u64, wrap64.
    rewrite (Z.mod_small (n + i)) by lia. rewrite (Z.mod_small (n + i + 9223372036854775808)) by lia. replace (n + i + 9223372036854775808 - 9223372036854775808) with (n + i) by lia.
    rewrite Z.mod_small by lia. replace (n <=? n + i) with false by lia.
    pose proof (run_child_s s a ca (Z.to_nat (n + i)) x Ha C H3) as R. rewrite Z2Nat.id in R by lia.
    rewrite (b_ret _ _ _ _ _ R). reflexivity.
Qed.
Theorem c39_out_of_range : forall s a b ca cb i,
  node_at s a ca -> node_at s b cb -> current_ok s -> sequence ca -> index_node cb i ->
  i = 0 \/ Z.of_nat (length (c_ch ca)) < i \/ i < - Z.of_nat (length (c_ch ca)) ->
  refuses (index_integer a b) s.
Proof.
  intros s a b ca cb i Ha Hb Hc Sa Ib H. destruct (run_cur_pos s Hc) as (p & Hp).
  eapply refuses_here. rewrite (sequence_run s a b ca cb i Ha Hb Sa Ib). destruct Sa as (T & Hn). destruct Ib as (u & (Tb & Vb & Ub) & Hi). unfold fits64 in Hi. cbv zeta.
  set (n := Z.of_nat (length (c_ch ca))) in *. assert (0 <= n) by lia.
  match goal with |- (if ?t then _ else _) s = _ => replace t with true end.
  - rewrite (b_ret _ _ _ _ _ Hp). reflexivity.
  - symmetry. apply Z.leb_le. destruct (Z.ltb_spec i 0) as [I|I].
    + assert (Hu : u64 (n + i) = n + i + 18446744073709551616).
      { unfold u64. symmetry. apply (Z.mod_unique_pos _ _ (-1)); lia. }
      rewrite Hu. unfold wrap64.
      assert (Hw : (n + i + 18446744073709551616 + 9223372036854775808) mod 18446744073709551616 = n + i + 9223372036854775808).
      { symmetry. apply (Z.mod_unique_pos _ _ 1); lia. }
      rewrite Hw. replace (n + i + 9223372036854775808 - 9223372036854775808) with (n + i) by lia. rewrite Hu. lia.
    + destruct (Z.eq_dec i 0) as [->|N].
      * unfold u64. change ((0 - 1) mod 18446744073709551616) with 18446744073709551615. lia.
      * unfold u64. rewrite Z.mod_small by lia. lia.
Qed.
(** [map\[i\]]: the value of the i-th pair, in the same way. *)
Definition map_node (c : cell) (l : list (addr * addr)) : Prop :=
  c_type c = MAP /\ c_ch c = flat_map (fun kv => [fst kv; snd kv]) l /\ Z.of_nat (length l) <= 1152921504606846976.
Lemma pairs_length l : length (flat_map (fun kv : addr * addr => [fst kv; snd kv]) l) = (2 * length l)%nat.
Proof. induction l; cbn [flat_map length app]; lia. Qed.
Lemma pairs_nth l : forall i k v, nth_error l i = Some (k, v) ->
  nth_error (flat_map (fun kv : addr * addr => [fst kv; snd kv]) l) (2 * i) = Some k /\
  nth_error (flat_map (fun kv : addr * addr => [fst kv; snd kv]) l) (2 * i + 1) = Some v.
Proof.
  induction l as [|(a & b) l IH]; intros i k v H; [destruct i; discriminate|]. destruct i as [|i].
  - inversion H; subst. split; reflexivity.
  - replace (2 * S i)%nat with (S (S (2 * i))) by lia. replace (S (S (2 * i)) + 1)%nat with (S (S (2 * i + 1))) by lia. exact (IH i k v H).
Qed.
Lemma map_run s a b ca cb i l : node_at s a ca -> node_at s b cb -> map_node ca l -> index_node cb i ->
  let m := Z.of_nat (length l) in
  index_integer a b s = (let k := if i <? 0 then wrap64 (u64 (m + i)) else i - 1 in
    k <- int64 (k * 2) ;; k <- int64 (k + 1) ;;
    if 2 * m <=? u64 k then p <- cur_pos ;; refuse p "index is out of range." else v <- lift (get_child a (u64 k)) ;; ret (Some v)) s.
Proof.
  intros Ha Hb (T & Hl & Hn) (u & (Tb & Vb & Ub) & Hi) m. unfold index_integer. steps. rewrite T.
  change (ntype_eqb MAP ARRAY || ntype_eqb MAP LIST) with false. change (ntype_eqb MAP MAP) with true. cbv iota. steps.
  rewrite Vb, Hl, pairs_length.
  replace (Z.of_nat (2 * length l)) with (2 * m) by lia.
  replace (2 * m / 2) with m by (rewrite Z.mul_comm, Z.div_mul; lia). reflexivity.
Qed.
Theorem c39_map_value : forall s a b ca cb i l k v,
  node_at s a ca -> node_at s b cb -> map_node ca l -> index_node cb i ->
  (1 <= i /\ nth_error l (Z.to_nat (i - 1)) = Some (k, v)) \/
  (i < 0 /\ - Z.of_nat (length l) <= i /\ nth_error l (Z.to_nat (Z.of_nat (length l) + i)) = Some (k, v)) ->
  index_integer a b s = Ret (Some v) s.
Proof.
  intros s a b ca cb i l k v Ha Hb Ma Ib H. rewrite (map_run s a b ca cb i l Ha Hb Ma Ib).
  destruct Ma as (T & Hl & Hn). destruct Ib as (u & (Tb & Vb & Ub) & Hi). unfold fits64 in Hi. cbv zeta.
  set (m := Z.of_nat (length l)) in *.
  assert (C : has_children (c_type ca) = true) by (rewrite T; reflexivity).
  assert (K : exists j, nth_error l j = Some (k, v) /\ Z.of_nat j < m /\ (if i <? 0 then wrap64 (u64 (m + i)) else i - 1) = Z.of_nat j).
  { destruct H as [(H1 & H2)|(H1 & H2 & H3)].
    - exists (Z.to_nat (i - 1)). split; [exact H2|]. assert (Z.to_nat (i - 1) < length l)%nat by (apply nth_error_Some; rewrite H2; discriminate).
      split; [lia|]. replace (i <? 0) with false by lia. lia.
    - exists (Z.to_nat (m + i)). split; [exact H3|]. split; [lia|]. replace (i <? 0) with true by lia. unfold u64, wrap64.
      rewrite (Z.mod_small (m + i)) by lia. rewrite Z.mod_small by lia. lia. }
  destruct K as (j & N & L & ->). unfold int64. replace (int64_ok (Z.of_nat j * 2)) with true by (unfold int64_ok; lia). rewrite bind_ret.
  replace (int64_ok (Z.of_nat j * 2 + 1)) with true by (unfold int64_ok; lia). rewrite bind_ret.
  unfold u64. rewrite Z.mod_small by lia. replace (2 * m <=? Z.of_nat j * 2 + 1) with false by lia.
  destruct (pairs_nth _ _ _ _ N) as (_ & N2). rewrite <- Hl in N2.
  pose proof (run_child_s s a ca (2 * j + 1) v Ha C N2) as R. replace (Z.of_nat (2 * j + 1)) with (Z.of_nat j * 2 + 1) in R by lia.
  rewrite (b_ret _ _ _ _ _ R). reflexivity.
Qed.
(** An index out of range is refused when it is not too far from zero... *)
Theorem c39_map_out_of_range_partial : forall s a b ca cb i l,
  node_at s a ca -> node_at s b cb -> current_ok s -> map_node ca l -> index_node cb i ->
  i = 0 \/ Z.of_nat (length l) < i \/ i < - Z.of_nat (length l) ->
  -4611686018427387904 <= i <= 4611686018427387904 ->
  refuses (index_integer a b) s.
Proof.
  intros s a b ca cb i l Ha Hb Hc Ma Ib H B. destruct (run_cur_pos s Hc) as (p & Hp).
  eapply refuses_here. rewrite (map_run s a b ca cb i l Ha Hb Ma Ib).
  destruct Ma as (T & Hl & Hn). destruct Ib as (u & (Tb & Vb & Ub) & Hi). unfold fits64 in Hi. cbv zeta.
  set (m := Z.of_nat (length l)) in *. assert (0 <= m) by lia.
  assert (K : exists k, (if i <? 0 then wrap64 (u64 (m + i)) else i - 1) = k /\ -4611686018427387904 <= k < 4611686018427387904 /\ (k < 0 \/ m <= k)).
  { destruct (Z.ltb_spec i 0) as [I|I]; [|exists (i - 1); lia]. exists (m + i). split; [|lia].
    assert (Hu : u64 (m + i) = m + i + 18446744073709551616) by (unfold u64; symmetry; apply (Z.mod_unique_pos _ _ (-1)); lia).
    rewrite Hu. unfold wrap64.
    assert (Hw : (m + i + 18446744073709551616 + 9223372036854775808) mod 18446744073709551616 = m + i + 9223372036854775808)
      by (symmetry; apply (Z.mod_unique_pos _ _ 1); lia).
    rewrite Hw. lia. }
  destruct K as (k & -> & K1 & K2). unfold int64. replace (int64_ok (k * 2)) with true by (unfold int64_ok; lia). rewrite bind_ret.
  replace (int64_ok (k * 2 + 1)) with true by (unfold int64_ok; lia). rewrite bind_ret.
  match goal with |- (if ?t then _ else _) s = _ => replace t with true end.
  - rewrite (b_ret _ _ _ _ _ Hp). reflexivity.
  - symmetry. apply Z.leb_le. unfold u64. destruct K2 as [K2|K2].
    + assert (Hu : (k * 2 + 1) mod 18446744073709551616 = k * 2 + 1 + 18446744073709551616) by (symmetry; apply (Z.mod_unique_pos _ _ (-1)); lia). rewrite Hu. lia.
    + rewrite Z.mod_small by lia. lia.
Qed.
(** ... and is otherwise undefined (the index is multiplied by two). *)
Theorem c39_map_refuted : forall s a b ca cb i l,
  node_at s a ca -> node_at s b cb -> map_node ca l -> index_node cb i ->
  4611686018427387904 < i -> undefined (index_integer a b) s.
Proof.
  intros s a b ca cb i l Ha Hb Ma Ib H. unfold undefined. rewrite (map_run s a b ca cb i l Ha Hb Ma Ib).
  cbv zeta. replace (i <? 0) with false by lia. unfold int64. replace (int64_ok ((i - 1) * 2)) with false by (unfold int64_ok; lia). eexists. reflexivity.
Qed.
(** [map.name]: the value of the first pair with that name, or an error. *)
Inductive finds (s : est) (name : str) : list (addr * addr) -> option addr -> Prop :=
| finds_none : finds s name [] None
| finds_here : forall k v l c, node_at s k c -> c_type c = IDENTIFIER -> c_str c = name -> finds s name ((k, v) :: l) (Some v)
| finds_later : forall k v l c r, node_at s k c -> c_type c = IDENTIFIER -> c_str c <> name -> finds s name l r -> finds s name ((k, v) :: l) r.
Lemma field_loop_run s m name cm (all : list (addr * addr)) : node_at s m cm -> map_node cm all ->
  forall l r, finds s name l r -> forall pre fuel, all = pre ++ l -> (length l < fuel)%nat ->
  field_loop fuel m name (Z.of_nat (2 * length pre)) (Z.of_nat (2 * length all)) s = Ret r s.
Proof.
  intros Hm (T & Hl & Hn) l r F. induction F as [|k v l c Hk Tk Vk|k v l c r Hk Tk Vk F IH]; intros pre fuel E L; (destruct fuel as [|fuel]; [lia|]); cbn [field_loop].
  - rewrite app_nil_r in E. subst. rewrite Z.ltb_irrefl. reflexivity.
  - assert (N : nth_error all (length pre) = Some (k, v)) by (subst all; rewrite nth_error_app2, Nat.sub_diag by lia; reflexivity).
    assert (length all = (length pre + S (length l))%nat) by (subst all; rewrite app_length; reflexivity).
    replace (Z.of_nat (2 * length pre) <? Z.of_nat (2 * length all)) with true by lia.
    destruct (pairs_nth _ _ _ _ N) as (N1 & N2). rewrite <- Hl in N1, N2.
    pose proof (run_child_s s m cm _ k Hm ltac:(rewrite T; reflexivity) N1) as R1.
    pose proof (run_child_s s m cm _ v Hm ltac:(rewrite T; reflexivity) N2) as R2.
    replace (Z.of_nat (2 * length pre + 1)) with (Z.of_nat (2 * length pre) + 1) in R2 by lia.
    rewrite (b_ret _ _ _ _ _ R1). steps. rewrite Tk. change (negb (ntype_eqb IDENTIFIER IDENTIFIER)) with false. cbv iota. steps.
    rewrite Vk, str_eqb_refl. rewrite (b_ret _ _ _ _ _ R2). reflexivity.
  - assert (N : nth_error all (length pre) = Some (k, v)) by (subst all; rewrite nth_error_app2, Nat.sub_diag by lia; reflexivity).
    assert (length all = (length pre + S (length l))%nat) by (subst all; rewrite app_length; reflexivity).
    replace (Z.of_nat (2 * length pre) <? Z.of_nat (2 * length all)) with true by lia.
    destruct (pairs_nth _ _ _ _ N) as (N1 & N2). rewrite <- Hl in N1, N2.
    pose proof (run_child_s s m cm _ k Hm ltac:(rewrite T; reflexivity) N1) as R1.
    rewrite (b_ret _ _ _ _ _ R1). steps. rewrite Tk. change (negb (ntype_eqb IDENTIFIER IDENTIFIER)) with false. cbv iota. steps.
    replace (str_eqb (c_str c) name) with false by (symmetry; now apply str_eqb_neq).
    replace (Z.of_nat (2 * length pre) + 2) with (Z.of_nat (2 * length (pre ++ [(k, v)]))) by (rewrite app_length; cbn [length]; lia).
    apply IH; [subst all; rewrite <- app_assoc; reflexivity|cbn [length] in L; lia].
Qed.
Theorem c39_field : forall s m x cm cx l name r,
  node_at s m cm -> node_at s x cx -> map_node cm l -> current_ok s ->
  c_type cx = IDENTIFIER \/ c_type cx = STRING -> c_str cx = name -> finds s name l r ->
  match r with Some v => field m x s = Ret (Some v) s | None => refuses (field m x) s end.
Proof.
  intros s m x cm cx l name r Hm Hx Mm Hc Tx Vx F. pose proof Mm as (T & Hl & Hn). destruct (run_cur_pos s Hc) as (p & Hp).
  assert (K : field m x s = bind (ret r) (fun v => match v with Some x => ret (Some x) | None => p <- cur_pos ;; refuse p "'map[name]' is not set." end) s).
  { unfold field. steps. rewrite T. change (ntype_eqb MAP MAP) with true. cbv iota.
    rewrite (b_ret _ _ _ _ _ (run_string s x cx Hx ltac:(destruct Tx as [Tx|Tx]; rewrite Tx; reflexivity))). rewrite Vx.
    rewrite (b_ret _ _ _ _ _ (run_size s m cm Hm ltac:(rewrite T; reflexivity))). rewrite Hl, pairs_length.
    replace (Z.of_nat (2 * length l) mod 2) with 0 by (replace (Z.of_nat (2 * length l)) with (Z.of_nat (length l) * 2) by lia; now rewrite Z.mod_mul).
    change (0 =? 1) with false. cbv iota.
    pose proof (field_loop_run s m name cm l Hm Mm l r F [] (S (Z.to_nat (Z.of_nat (2 * length l)))) eq_refl ltac:(lia)) as R.
    change (Z.of_nat (2 * length (@nil (addr * addr)))) with 0 in R. rewrite (b_ret _ _ _ _ _ R). reflexivity. }
  rewrite bind_ret in K. destruct r as [v|]; [exact K|]. eapply refuses_here. rewrite K. rewrite (b_ret _ _ _ _ _ Hp). reflexivity.
Qed.
Example c39_ex :
  let s := mkE [with_ch (plain ARRAY) [1%nat; 2%nat; 1%nat]; num 2 ""; num (-3) ""; with_ch (plain MAP) [4%nat; 1%nat; 5%nat; 2%nat]; ident "a"; ident "b"] [] 0%nat 0 0 (Some 0%nat) [] false in
  index_integer 0%nat 1%nat s = Ret (Some 2%nat) s /\ index_integer 0%nat 2%nat s = Ret (Some 1%nat) s
  /\ index_integer 3%nat 1%nat s = Ret (Some 2%nat) s /\ field 3%nat 5%nat s = Ret (Some 2%nat) s.
Proof.
  intro s. split.
  { apply (c39_item s 0%nat 1%nat _ _ 2 2%nat eq_refl eq_refl); [split; [left; reflexivity|cbn; lia]|exists []; repeat split; cbn; lia|].
    left. split; [lia|reflexivity]. }
  split.
  { apply (c39_item s 0%nat 2%nat _ _ (-3) 1%nat eq_refl eq_refl); [split; [left; reflexivity|cbn; lia]|exists []; repeat split; cbn; lia|].
    right. split; [lia|]. split; [cbn; lia|reflexivity]. }
  split.
  { apply (c39_map_value s 3%nat 1%nat _ _ 2 [(4%nat, 1%nat); (5%nat, 2%nat)] 5%nat 2%nat eq_refl eq_refl); [repeat split; cbn; lia|exists []; repeat split; cbn; lia|].
    left. split; [lia|reflexivity]. }
  refine (c39_field s 3%nat 5%nat _ _ [(4%nat, 1%nat); (5%nat, 2%nat)] (zs "b") (Some 2%nat) eq_refl eq_refl _ _ _ eq_refl _).
  - repeat split; cbn; lia.
  - eexists _, _. split; reflexivity.
  - left. reflexivity.
  - eapply finds_later; [reflexivity|reflexivity|discriminate|]. eapply finds_here; reflexivity.
Qed.
