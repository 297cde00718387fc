(** * Strings, ranges and counter-examples of multiplication (C32, C34, C40, C41) *)

From Coq Require Import String ZArith List Bool Lia Arith ZifyBool Floats.SpecFloat.
From Verif Require Import Base UnicodeRange UrangeProofs NodeHeap Color FloatBits Dim DimSpec DimProofs Expr ExprSpec ExprRun Props_Mul.
Import ListNotations.
Open Scope string_scope. Open Scope list_scope. Open Scope Z_scope.
Ltac Zify.zify_post_hook ::= idtac.

(** ** C40 String repetition and concatenation *)
Theorem c40_concatenation : forall s a b ca cb x y,
  node_at s a ca -> node_at s b cb -> string_node ca x -> string_node cb y ->
  gives (add a b false) s (fun c => string_node c (x ++ y)).
Proof.
  intros s a b ca cb x y Ha Hb (Ta & Va) (Tb & Vb). subst. eapply gives_fresh.
  - unfold add. steps. rewrite Ta, Tb. unfold add_types. cbv iota. steps. rewrite run_new_string. reflexivity.
  - repeat split.
Qed.
(** Strings cannot be subtracted. *)
Theorem c40_no_difference : forall s a b ca cb x y,
  node_at s a ca -> node_at s b cb -> string_node ca x -> string_node cb y -> refuses (add a b true) s.
Proof.
  intros s a b ca cb x y Ha Hb (Ta & Va) (Tb & Vb). eapply refuses_here. unfold add. steps. rewrite Ta, Tb. unfold add_types. cbv iota. reflexivity.
Qed.
(** The operands in any order. *)
Definition string_and_count (s : est) (a b k : addr) (x : str) (n : Z) : Prop :=
  exists cs ci u, string_node cs x /\ int_node ci n u /\
  ((k = a /\ node_at s a cs /\ node_at s b ci) \/ (k = b /\ node_at s a ci /\ node_at s b cs)).
Lemma put_same h a c d : nth_error h a = Some d -> nth_error (put h a c) a = Some c.
Proof. revert h; induction a; intros [|x h]; cbn; intro H; try discriminate; auto. Qed.
Lemma put_other h a b c : a <> b -> nth_error (put h a c) b = nth_error h b.
Proof. revert h b; induction a; intros [|x h] [|b]; cbn; intro H; auto; try congruence. Qed.
(** [x * n]: n copies of x, with n >= 0. The result is the string node itself,
    which is changed; no other node is. *)
Theorem c40_repetition : forall s a b k x n,
  string_and_count s a b k x n -> 0 <= n ->
  exists s' c, multiply Mul a b s = Ret (Some k) s' /\ node_at s' k c /\ string_node c (concat (repeat x (Z.to_nat n)))
    /\ e_msgs s' = e_msgs s /\ (forall i d, i <> k -> node_at s i d -> node_at s' i d).
Proof.
  intros s a b k x n (cs & ci & u & (Ts & Vs) & (Ti & Vi & Ui) & H) Hn.
  assert (K : exists o, node_at s k cs /\ node_at s o ci /\ multiply Mul a b s = mul_string Mul k o s).
  { destruct H as [( -> & Ha & Hb)|( -> & Ha & Hb)]; eexists; (split; [eassumption|]); (split; [eassumption|]);
    unfold multiply; steps; rewrite Ts, Ti; unfold mul_types; cbv iota; reflexivity. }
  destruct K as (o & Hk & Ho & K). rewrite K.
  unfold mul_string. cbn [is_mul negb]. steps. rewrite Vi. replace (n <? 0) with false by lia. steps.
  rewrite (b_ret _ _ _ _ _ (run_set_string s k cs Hk _ ltac:(rewrite Ts; reflexivity))).
  eexists _, (with_str cs (concat (repeat x (Z.to_nat n)))). split; [reflexivity|]. split; [|split; [|split]].
  - unfold node_at. cbn [e_heap with_heap]. rewrite (put_same _ _ _ cs Hk). unfold repeat_str. now rewrite Vs.
  - split; [exact Ts|reflexivity].
  - reflexivity.
  - intros i d Hi Hd. unfold node_at. cbn [e_heap with_heap]. rewrite put_other by auto. exact Hd.
Qed.
Theorem c40_negative : forall s a b k x n,
  string_and_count s a b k x n -> n < 0 -> refuses (multiply Mul a b) s.
Proof.
  intros s a b k x n (cs & ci & u & (Ts & Vs) & (Ti & Vi & Ui) & H) Hn.
  destruct H as [( -> & Ha & Hb)|( -> & Ha & Hb)]; eapply refuses_here; unfold multiply; steps; rewrite Ts, Ti; unfold mul_types; cbv iota;
  unfold mul_string; cbn [is_mul negb]; steps; rewrite Vi; replace (n <? 0) with true by lia; reflexivity.
Qed.
Theorem c40_no_quotient : forall s a b k x n (o : mulop),
  string_and_count s a b k x n -> o <> Mul -> refuses (multiply o a b) s.
Proof.
  intros s a b k x n o (cs & ci & u & (Ts & Vs) & (Ti & Vi & Ui) & H) Ho.
  destruct o; try congruence; destruct H as [( -> & Ha & Hb)|( -> & Ha & Hb)]; eapply refuses_here; unfold multiply; steps; rewrite Ts, Ti; unfold mul_types; cbv iota;
  unfold mul_string; steps; reflexivity.
Qed.

(** ** C41 Unicode range intersection *)
(** A node which holds the range lo..hi; the limits of the characters are those
    of unicode_range.cpp. *)
Definition range_node (c : cell) (lo hi : Z) : Prop :=
  c_type c = UNICODE_RANGE /\ c_int c = hi * 4294967296 + lo /\ 0 <= lo <= hi /\ lo < 1114112 /\ hi < 2097152.
Lemma range_value lo hi : 0 <= lo <= hi -> lo < 1114112 -> hi < 2097152 ->
  ur_of_value (u64 (hi * 4294967296 + lo)) = Some (hi * 4294967296 + lo)
  /\ ur_start (hi * 4294967296 + lo) = lo /\ ur_end (hi * 4294967296 + lo) = hi.
Proof.
  intros A B C. unfold u64. rewrite Z.mod_small by lia.
  rewrite <- (pack_nonneg lo hi) by lia. unfold ur_start, ur_end.
  rewrite pack_start, pack_end by lia. split; [|auto]. apply ur_make_ok; lia.
Qed.
Lemma ranges_run s a b ca cb l h l' h' : node_at s a ca -> node_at s b cb -> range_node ca l h -> range_node cb l' h' ->
  multiply Mul a b s = (if Z.max l l' <=? Z.min h h' then
     Ret (Some (new_addr s)) (fresh s (with_int (blank UNICODE_RANGE (c_pos ca)) (Z.min h h' * 4294967296 + Z.max l l')))
   else Ret (Some (new_addr s)) (fresh s (blank NULL_TOKEN (c_pos ca)))).
Proof.
  intros Ha Hb (Ta & Va & B1 & B2 & B3) (Tb & Vb & B4 & B5 & B6).
  destruct (range_value l h B1 B2 B3) as (R1 & R2 & R3). destruct (range_value l' h' B4 B5 B6) as (R4 & R5 & R6).
  unfold multiply. steps. rewrite Ta, Tb. unfold mul_types. cbv iota. cbn [is_mul]. unfold mul_ranges. steps. rewrite Va, Vb, R1, R4, R2, R3, R5, R6.
  unfold u64. rewrite !Z.mod_small by lia.
  destruct (Z.max l l' <=? Z.min h h') eqn:E; [|reflexivity]. steps.
  assert (T : forall v, 0 <= v < 2097152 -> to_i32 v = v) by (intros v Hv; unfold to_i32; rewrite Z.mod_small; lia).
  rewrite !T by lia. rewrite ur_make_ok by lia. rewrite pack_nonneg by lia.
  assert (W : wrap64 (Z.min h h' * 4294967296 + Z.max l l') = Z.min h h' * 4294967296 + Z.max l l').
  { unfold wrap64. rewrite Z.mod_small by lia. lia. }
  rewrite W. steps. reflexivity.
Qed.
Theorem c41_intersection : forall s a b ca cb l h l' h',
  node_at s a ca -> node_at s b cb -> range_node ca l h -> range_node cb l' h' ->
  (exists k, l <= k <= h /\ l' <= k <= h') ->
  gives (multiply Mul a b) s (fun c => exists lo hi, range_node c lo hi /\ forall k, lo <= k <= hi <-> (l <= k <= h /\ l' <= k <= h')).
Proof.
  intros s a b ca cb l h l' h' Ha Hb Ra Rb (k & K1 & K2). pose proof (ranges_run s a b ca cb l h l' h' Ha Hb Ra Rb) as R.
  destruct Ra as (Ta & Va & B1 & B2 & B3), Rb as (Tb & Vb & B4 & B5 & B6).
  replace (Z.max l l' <=? Z.min h h') with true in R by lia. eapply gives_fresh; [exact R|].
  exists (Z.max l l'), (Z.min h h'). split; [repeat split; try reflexivity; lia|]. intro; lia.
Qed.
Theorem c41_disjoint : forall s a b ca cb l h l' h',
  node_at s a ca -> node_at s b cb -> range_node ca l h -> range_node cb l' h' ->
  (forall k, ~ (l <= k <= h /\ l' <= k <= h')) ->
  gives (multiply Mul a b) s (fun c => c_type c = NULL_TOKEN).
Proof.
  intros s a b ca cb l h l' h' Ha Hb Ra Rb N. pose proof (ranges_run s a b ca cb l h l' h' Ha Hb Ra Rb) as R.
  replace (Z.max l l' <=? Z.min h h') with false in R.
  - eapply gives_fresh; [exact R|]. reflexivity.
  - destruct Ra as (Ta & Va & B1 & B2 & B3), Rb as (Tb & Vb & B4 & B5 & B6). specialize (N (Z.max l l')). lia.
Qed.
(** Null stands for the empty set. *)
Theorem c41_null : forall s a b ca cb (l h : Z),
  node_at s a ca -> node_at s b cb ->
  (c_type ca = NULL_TOKEN /\ range_node cb l h) \/ (range_node ca l h /\ c_type cb = NULL_TOKEN) ->
  gives (multiply Mul a b) s (fun c => c_type c = NULL_TOKEN).
Proof.
  intros s a b ca cb l h Ha Hb [(Ta & (Tb & _))|((Ta & _) & Tb)].
  - exists a, s, ca. split; [unfold multiply; steps; rewrite Ta, Tb; unfold mul_types; cbv iota; reflexivity|]. repeat split; auto. intros i c K. exact K.
  - exists b, s, cb. split; [unfold multiply; steps; rewrite Ta, Tb; unfold mul_types; cbv iota; reflexivity|]. repeat split; auto. intros i c K. exact K.
Qed.

(** ** Examples: the hypotheses are met *)
Definition example (l : list cell) : est := mkE (tokens l) [] 0%nat 0 (-1) (Some 1%nat) [] false.
Example c32_ex : exists ca cb l r u d u' d', node_at (example [num 6 "px * em / s"; num 3 "em/s"]) 1%nat ca
  /\ node_at (example [num 6 "px * em / s"; num 3 "em/s"]) 2%nat cb /\ number ca (inl 6) l /\ number cb (inl 3) r
  /\ unit_text l u d /\ unit_text r u' d' /\ value_fits (product_value (inl 6) (inl 3)) /\ value_fits (quotient_value (inl 6) (inl 3)).
Proof.
  eexists _, _, (zs "px * em / s"), (zs "em/s"), [zs "px"; zs "em"], [zs "s"], [zs "em"], [zs "s"].
  split; [reflexivity|]. split; [reflexivity|]. split; [apply number_int; repeat split|]. split; [apply number_int; repeat split|].
  assert (U : forall n, forallb (fun c => negb (c =? 32) && negb (c =? 42) && negb (c =? 47)) n = true -> n <> [] -> n <> zs "1" -> unit_name n).
  { intros n F N1 N2. split; [exact N1|]. split; [exact N2|]. apply Forall_forall. intros c Hc. apply (proj1 (forallb_forall _ _) F) in Hc. lia. }
  assert (P : unit_name (zs "px")) by (apply U; [reflexivity|discriminate|discriminate]).
  assert (Q : unit_name (zs "em")) by (apply U; [reflexivity|discriminate|discriminate]).
  assert (R : unit_name (zs "s")) by (apply U; [reflexivity|discriminate|discriminate]).
  split.
  { apply (unit_quotient (zs "px * em") _ (zs " / ") (zs "s")); [apply (product_more (zs "px") (zs " * ") _ (zs "em")); [exact P|right; right; right; now left|now constructor]|right; right; right; now left|now constructor]. }
  split.
  { apply (unit_quotient (zs "em") _ (zs "/") (zs "s")); [now constructor|now left|now constructor]. }
  split; unfold value_fits, fits64; vm_compute; split; discriminate.
Qed.
Example c40_ex : string_and_count (example [text "ab"; num 3 ""]) 1%nat 2%nat 1%nat (zs "ab") 3.
Proof. eexists _, _, _. split; [|split; [|left; split; [reflexivity|split; reflexivity]]]; repeat split. Qed.
Example c41_ex : range_node (with_int (plain UNICODE_RANGE) (255 * 4294967296 + 65)) 65 255
  /\ (exists k, 65 <= k <= 255 /\ 97 <= k <= 300).
Proof. split; [|exists 97; lia]. unfold range_node. split; [reflexivity|]. split; [reflexivity|]. lia. Qed.
Example c34_ex : zero_node (num 0 "px") /\ zero_node (dec (S754_zero true) "") /\ current_ok (example [num 3 "px"; num 0 "em"]).
Proof.
  split; [apply (zero_int _ (zs "px")); repeat split|]. split; [apply (zero_dec _ true []); repeat split|]. eexists _, _. split; reflexivity.
Qed.
(** ** Counter-examples *)
Definition libm0 : libm := mkLibm (fun x _ => x).
(** The value of the expression, and the messages. *)
Definition result (o : outcome est (option addr)) : option (cell * list msg) :=
  match o with
  | Ret (Some a) s => match nth_error (e_heap s) a with Some c => Some (c, e_msgs s) | None => None end
  | _ => None
  end.
Definition errors (o : outcome est (option addr)) : option (list string) :=
  match o with Ret None s => Some (map m_text (e_msgs s)) | _ => None end.
(** [2px * 3em] and [3em * 2px] have units written differently, so that they
    cannot be added: the order of the operands does matter. *)
Theorem c32_order_refuted :
  (exists c, result (evaluate libm0 [num 2 "px"; plain MULTIPLY; num 3 "em"]) = Some (c, []) /\ int_node c 6 (zs "px * em"))
  /\ (exists c, result (evaluate libm0 [num 3 "em"; plain MULTIPLY; num 2 "px"]) = Some (c, []) /\ int_node c 6 (zs "em * px"))
  /\ errors (evaluate libm0 [num 2 "px"; plain MULTIPLY; num 3 "em"; plain ADD; num 3 "em"; plain MULTIPLY; num 2 "px"]) = Some ["incompatible dimensions"].
Proof.
  split; [eexists; split; [vm_compute; reflexivity|repeat split]|]. split; [eexists; split; [vm_compute; reflexivity|repeat split]|].
  vm_compute. reflexivity.
Qed.
(** [red / 0] is accepted: the components are infinite or not numbers. *)
Theorem c34_color_refuted : exists c,
  result (evaluate libm0 [ident "red"; plain DIVIDE; num 0 ""]) = Some (c, []) /\ c_type c = COLOR
  /\ c_red (cell_color c) = S754_infinity false /\ c_green (cell_color c) = S754_nan /\ Color.get_color (cell_color c) = None.
Proof. eexists. split; [vm_compute; reflexivity|]. split; [reflexivity|]. split; [vm_compute; reflexivity|]. split; vm_compute; reflexivity. Qed.
(** The node of a repeated string is changed in place: a variable that holds it
    changes too. [x := 'ab', x * 2, x]. *)
Definition items (o : outcome est (option addr)) : option (list cell) :=
  match o with
  | Ret (Some a) s =>
      match nth_error (e_heap s) a with
      | Some c => Some (flat_map (fun i => match nth_error (e_heap s) i with Some d => [d] | None => [] end) (c_ch c))
      | None => None
      end
  | _ => None
  end.
Definition group (l : list cell) : heap :=
  with_ch (plain LIST) [1%nat] :: with_ch (plain OPEN_PARENTHESIS) (seq 2 (length l)) :: l.
Definition evaluate_group (l : list cell) : outcome est (option addr) := compile_node libm0 no_functions 50 0%nat (group l).
Theorem c40_shared_refuted :
  option_map (map c_str) (items (evaluate_group [ident "x"; plain ASSIGNMENT; text "ab"; plain COMMA; ident "x"; plain MULTIPLY; num 2 ""; plain COMMA; ident "x"]))
  = Some [zs "abab"; zs "abab"; zs "abab"].
Proof. vm_compute. reflexivity. Qed.
Print Assumptions c34_zero_partial.
