(** * Expressions of integers and booleans have their usual value *)

From Coq Require Import String ZArith List Bool Lia Arith ZifyBool Floats.SpecFloat.
From Verif Require Import Base UnicodeRange NodeHeap NodeProofs Color FloatBits Dim Expr ExprSpec ExprRun ExprFrame PrecSpec PrecStream PrecValue DimSpec DimProofs CmpSpec Props_Expr Props_Mul Props_Cmp.
Import ListNotations.
Open Scope string_scope. Open Scope list_scope. Open Scope Z_scope.
Ltac Zify.zify_post_hook ::= idtac.

Lemma goes_keeps s s' : goes true s s' -> keeps_nodes s s'.
Proof. intros ((A & B) & _) a c H. destruct (B a c (nth_lt _ _ _ H) H) as (c' & H' & E). cbn in E. subst. exact H'. Qed.
Lemma keeps_refl s : keeps_nodes s s. Proof. intros a c H. exact H. Qed.
Lemma keeps_trans s1 s2 s3 : keeps_nodes s1 s2 -> keeps_nodes s2 s3 -> keeps_nodes s1 s3.
Proof. intros A B a c H. auto. Qed.
Lemma keeps_meaning s s' : keeps_nodes s s' -> forall t v, meaning (e_heap s) t = Some v -> meaning (e_heap s') t = Some v.
Proof.
  intros K. induction t as [a|a x IH|a x IH|a x IH|o a l IHl r IHr|q c x IHx y IHy z IHz]; cbn [meaning]; intros v H; auto.
  - destruct (nth_error (e_heap s) a) eqn:Q; [|discriminate]. rewrite (K _ _ Q). exact H.
  - destruct (meaning (e_heap s) l); [|discriminate]. destruct (meaning (e_heap s) r); [|discriminate]. rewrite (IHl _ eq_refl), (IHr _ eq_refl). exact H.
  - destruct (meaning (e_heap s) x); [|discriminate]. destruct (meaning (e_heap s) y); [|discriminate]. destruct (meaning (e_heap s) z); [|discriminate].
    rewrite (IHx _ eq_refl), (IHy _ eq_refl), (IHz _ eq_refl). exact H.
Qed.

Lemma integer_fits z v : integer z = Some v -> v = VInt z /\ -9223372036854775808 <= z <= 9223372036854775807.
Proof. unfold integer, in_range. destruct (_ && _) eqn:E; [|discriminate]. intros [= <-]. split; [reflexivity|lia]. Qed.
Lemma unitless_mul s a b ca cb x y (o : mulop) : e_font s = false -> node_at s a ca -> node_at s b cb -> int_node ca x [] -> int_node cb y [] ->
  match o with Mul => int64_ok (x * y) = true | _ => y <> 0 /\ int64_ok (Z.quot x y) = true end ->
  gives (multiply o a b) s (fun c => int_node c (match o with Mul => x * y | Div => Z.quot x y | Mod => Z.rem x y end) []).
Proof.
  intros Fo Ha Hb (Ta & Va & Ua) (Tb & Vb & Ub) F. subst x y.
  assert (K : forall T, mul_numbers o a b INTEGER (inl (c_int ca, c_int cb)) s = T -> multiply o a b s = T).
  { intros T <-. unfold multiply. steps. rewrite Ta, Tb. unfold mul_types. cbv iota. steps. reflexivity. }
  destruct o; (eapply gives_fresh; [apply K; unfold mul_numbers; rewrite Fo; cbn [andb]; steps; rewrite Ta, Tb; change (ntype_eqb INTEGER PERCENT) with false; cbv iota; steps;
    rewrite Ua, Ub, ?str_eqb_refl; cbn [is_mul negb];
    rewrite ?(eq_refl : dim_product [] false [] = (@nil Z, @nil dim_error)), ?(eq_refl : dim_product [] true [] = (@nil Z, @nil dim_error)); cbn [report_dims]; steps; cbn [negb]|]).
  - unfold int64. rewrite F. steps. reflexivity.
  - repeat split.
  - destruct F as (N & F). rewrite (proj2 (Z.eqb_neq _ _) N). unfold int64. rewrite F. steps. reflexivity.
  - repeat split.
  - destruct F as (N & F). rewrite (proj2 (Z.eqb_neq _ _) N). unfold int64. rewrite F. steps. reflexivity.
  - repeat split.
Qed.
Lemma represents_truth c v : represents c v -> truth c (truth_of v).
Proof. destruct v as [z|b]; cbn [represents truth_of]; intro R; [exact (truth_int c z [] R)|exact (truth_bool c b R)]. Qed.
Lemma represents_order c d v w r : represents c v -> represents d w -> order v w = Some r -> compares c d r.
Proof.
  destruct v as [x|x], w as [y|y]; cbn [represents order]; intros C D [= <-]; [exact (cmp_int c d x y [] C D)|].
  pose proof (cmp_bool c d x y C D). destruct x, y; assumption.
Qed.
Lemma gives_weaken m s (P Q : cell -> Prop) : (forall c, P c -> Q c) -> gives m s P -> gives m s Q.
Proof. intros H (r & s' & c & A & B & C & D). exists r, s', c. auto. Qed.

Lemma compute_gives lm o p s a b ca cb v w u : e_font s = false -> node_at s a ca -> node_at s b cb -> represents ca v -> represents cb w -> compute o v w = Some u ->
  gives (operation lm o p a b) s (fun c => represents c u).
Proof.
  intros Fo Ha Hb Ra Rb C. destruct o as [| |e|r|sub|m|]; cbn [operation].
  - injection C as <-. exact (proj2 (c38_and_or s a b ca cb _ _ p Ha Hb (represents_truth _ _ Ra) (represents_truth _ _ Rb))).
  - injection C as <-. exact (proj1 (c38_and_or s a b ca cb _ _ p Ha Hb (represents_truth _ _ Ra) (represents_truth _ _ Rb))).
  - destruct e; try discriminate C; cbn [compute] in C; unfold test in C; destruct (order v w) as [k|] eqn:K; try discriminate C; injection C as <-;
      pose proof (represents_order _ _ _ _ _ Ra Rb K) as Cm.
    + eapply gives_weaken; [|exact (proj1 (c36_equality s a b ca cb k p Ha Hb Cm))]. intros c. destruct k; exact (fun x => x).
    + eapply gives_weaken; [|exact (proj2 (c36_equality s a b ca cb k p Ha Hb Cm))]. intros c. destruct k; exact (fun x => x).
  - assert (K : exists k, order v w = Some k /\ u = VBool match r with Less => is_lt k | Greater => is_gt k | LessEq => is_lt k || is_eq k | GreaterEq => is_gt k || is_eq k end).
    { destruct r; cbn [compute] in C; unfold test in C; destruct (order v w) as [k|]; try discriminate C; injection C as <-; exists k; (split; [reflexivity|]); destruct k; reflexivity. }
    destruct K as (k & K & ->). exact (c36_relations s a b ca cb k p r Ha Hb (represents_order _ _ _ _ _ Ra Rb K)).
  - destruct v as [x|x], w as [y|y]; try (destruct sub; discriminate C). cbn [represents] in Ra, Rb.
    assert (K : u = VInt (if sub then x - y else x + y) /\ -9223372036854775808 <= (if sub then x - y else x + y) <= 9223372036854775807)
      by (destruct sub; cbn [compute] in C; apply integer_fits in C; exact C).
    destruct K as (-> & F). exact (c33_integers_partial s a b ca cb x y [] sub Ha Hb Ra Rb F).
  - destruct v as [x|x], w as [y|y]; try (destruct m; discriminate C). cbn [represents] in Ra, Rb.
    assert (K : u = VInt match m with Mul => x * y | Div => Z.quot x y | Mod => Z.rem x y end
      /\ match m with Mul => int64_ok (x * y) = true | _ => y <> 0 /\ int64_ok (Z.quot x y) = true end).
    { destruct m; cbn [compute] in C.
      - apply integer_fits in C. destruct C as (-> & F). split; [reflexivity|]. unfold int64_ok. lia.
      - destruct (Z.eqb_spec y 0); [discriminate C|]. apply integer_fits in C. destruct C as (-> & F). split; [reflexivity|]. split; [auto|]. unfold int64_ok. lia.
      - destruct (Z.eqb_spec y 0); [discriminate C|]. cbn [orb] in C. destruct (in_range (Z.quot x y)) eqn:I; [|discriminate C]. cbn [negb] in C.
        apply integer_fits in C. destruct C as (-> & F). split; [reflexivity|]. split; [auto|]. unfold in_range in I. unfold int64_ok. lia. }
    destruct K as (-> & F). cbn [represents]. exact (unitless_mul s a b ca cb x y m Fo Ha Hb Ra Rb F).
  - destruct v, w; discriminate C.
Qed.

Lemma operand_gives s a c ts v : reads s (a :: ts) -> node_at s a c -> constant c = Some v ->
  exists r s' d, operand a s = Ret (Some r) s' /\ node_at s' r d /\ represents d v /\ keeps_nodes s s' /\ e_msgs s' = e_msgs s /\ e_font s' = e_font s.
Proof.
  intros R H C. destruct (next_reads _ _ _ R) as (s1 & N1 & R1 & G1 & M1).
  pose proof (goes_keeps _ _ G1) as K. pose proof (K _ _ H) as H1. assert (F1 : e_font s1 = e_font s) by (destruct G1 as (_ & _ & _ & _ & F1); exact F1).
  unfold operand. steps. unfold constant in C. destruct (c_type c) eqn:T; try discriminate C.
  - rewrite (b_ret _ _ _ _ _ N1). exists a, s1, c. split; [reflexivity|]. split; [auto|]. split; [|auto]. injection C as <-. split; auto.
  - rewrite (b_ret _ _ _ _ _ N1). unfold word. steps.
    destruct (str_eqb (c_str c) (zs "true")) eqn:E1; [|destruct (str_eqb (c_str c) (zs "false")) eqn:E2; [|discriminate C]]; injection C as <-.
    + apply str_eqb_spec in E1. rewrite E1. change (str_eqb (zs "true") (zs "null")) with false. cbv iota. change (str_eqb (zs "true") (zs "true")) with true. cbv iota. unfold new_boolean. steps.
      eexists _, _, _. split; [reflexivity|]. split; [eapply fresh_at|]. split; [split; reflexivity|]. split; [eapply keeps_trans; [exact K|apply fresh_keeps]|]. split; [exact M1|exact F1].
    + apply str_eqb_spec in E2. rewrite E2. change (str_eqb (zs "false") (zs "null")) with false. cbv iota. change (str_eqb (zs "false") (zs "true")) with false. cbv iota. change (str_eqb (zs "false") (zs "false")) with true. cbv iota. steps.
      eexists _, _, _. split; [reflexivity|]. split; [eapply fresh_at|]. split; [split; reflexivity|]. split; [eapply keeps_trans; [exact K|apply fresh_keeps]|]. split; [exact M1|exact F1].
  - rewrite (b_ret _ _ _ _ _ N1). exists a, s1, c. split; [reflexivity|]. split; [auto|]. split; [|auto]. destruct (c_str c) eqn:Sc; [|discriminate C].
    apply integer_fits in C. destruct C as (-> & _). repeat split; auto.
Qed.

Theorem meaning_value lm : forall t s rest v, tokens_of (e_heap s) t -> reads s (flatten t ++ rest) -> vars_ok s -> e_font s = false -> meaning (e_heap s) t = Some v ->
  exists r s' d, value_of lm t s = Ret (Some r) s' /\ node_at s' r d /\ represents d v /\ keeps_nodes s s' /\ e_msgs s' = e_msgs s /\ e_font s' = false.
Proof.
  induction t as [a|a x IH|a x IH|a x IH|o a l IHl r IHr|q c x IHx y IHy z IHz]; intros s rest v Tk R V Fo M; cbn [flatten value_of meaning] in *.
  - cbn [app] in R. destruct (nth_error (e_heap s) a) as [c|] eqn:H; [|discriminate].
    destruct (operand_gives s a c rest v R H M) as (r & s' & d & A & B & C & D & E & F). exists r, s', d. rewrite Fo in F. auto 10.
  - cbn [app] in R. destruct Tk as ((c & Ha & Tc & Sp & Ls) & Tx). destruct (next_reads _ _ _ R) as (s1 & N1 & R1 & G1 & M1).
    rewrite (b_ret _ _ _ _ _ N1). unfold in_new. pose proof (goes_keeps _ _ G1) as K1. pose proof (K1 _ _ Ha) as Ha1.
    pose proof (proj1 (goes_weak _ _ _ G1)) as Nr1.
    destruct (enter_reads s1 a c (flatten x)) as (s2 & N2 & R2 & V2 & G2 & M2); auto.
    { rewrite Tc. reflexivity. }
    { eapply spaced_goes; eauto. }
    { eapply leading_goes; eauto. }
    rewrite (b_ret _ _ _ _ _ N2). pose proof (goes_keeps _ _ G2) as K2. unfold keeps_nodes, node_at in K2. cbn [e_heap] in K2.
    assert (K12 : keeps_nodes s s2) by (intros b d Hb; apply K2, K1; exact Hb).
    destruct (IH s2 [] v) as (r & s3 & d & E3 & Hd & Rd & K3 & M3 & F3); auto.
    { eapply tokens_goes; [|exact Tx]. eapply nodes_near_trans; [exact Nr1|]. eapply nodes_near_le; [exact (proj1 Nr1)|]. exact (proj1 (goes_weak _ _ _ G2)). }
    { now rewrite app_nil_r. }
    { destruct G2 as (_ & _ & _ & _ & F2). exact F2. }
    { eapply keeps_meaning; eauto. }
    rewrite E3. exists r. eexists. exists d. split; [reflexivity|]. split; [exact Hd|]. split; [exact Rd|].
    split; [intros b k Hb; apply K3, K12, Hb|]. cbn. split; [congruence|]. destruct G1 as (_ & _ & _ & _ & F1). congruence.
  - discriminate.
  - destruct Tk as (_ & Tx). cbn [app] in R. destruct (next_reads _ _ _ R) as (s1 & N1 & R1 & G1 & M1). rewrite (b_ret _ _ _ _ _ N1).
    pose proof (goes_keeps _ _ G1) as K1.
    destruct (IH s1 rest v) as (r & s2 & d & E2 & Hd & Rd & K2 & M2 & F2); auto.
    { eapply tokens_goes; [exact (proj1 (goes_weak _ _ _ G1))|auto]. }
    { eapply vars_goes; eauto. }
    { destruct G1 as (_ & _ & _ & _ & F1). congruence. }
    { eapply keeps_meaning; eauto. }
    exists r, s2, d. split; [auto|]. split; [auto|]. split; [auto|]. split; [eapply keeps_trans; eauto|]. split; [congruence|auto].
  - destruct Tk as (_ & Tl & Tr). rewrite <- app_assoc in R. cbn [app] in R.
    destruct (meaning (e_heap s) l) as [vl|] eqn:Ml; [|discriminate]. destruct (meaning (e_heap s) r) as [vr|] eqn:Mr; [|discriminate].
    destruct (IHl s (a :: flatten r ++ rest) vl) as (b1 & s1 & d1 & E1 & H1 & D1 & K1 & M1 & F1); auto.
    destruct (value_reads lm l false s (a :: flatten r ++ rest) b1 s1) as (R1 & G1 & L1); auto; [discriminate|].
    unfold with_value at 1. rewrite (b_ret _ _ _ _ _ E1). destruct (cur_pos_reads _ _ R1) as (p & Ep). rewrite (b_ret _ _ _ _ _ Ep).
    destruct (next_reads _ _ _ R1) as (s2 & N2 & R2 & G2 & M2). rewrite (b_ret _ _ _ _ _ N2). pose proof (goes_keeps _ _ G2) as K2.
    assert (K12 : keeps_nodes s s2) by (eapply keeps_trans; eauto).
    assert (G12 : goes false s s2) by (eapply goes_trans; [exact G1|eapply goes_weak; exact G2]).
    assert (Fo2 : e_font s2 = false) by (destruct G2 as (_ & _ & _ & _ & F2); congruence).
    destruct (IHr s2 rest vr) as (b3 & s3 & d3 & E3 & H3 & D3 & K3 & M3 & F3); auto.
    { eapply tokens_goes; [exact (proj1 G12)|auto]. }
    { eapply vars_goes; eauto. }
    { eapply keeps_meaning; eauto. }
    unfold with_value. rewrite (b_ret _ _ _ _ _ E3).
    destruct (compute_gives lm o p s3 b1 b3 d1 d3 vl vr v F3 (K3 _ _ (K2 _ _ H1)) H3 D1 D3 M) as (b4 & s4 & d4 & E4 & H4 & D4 & K4 & M4).
    exists b4, s4, d4. split; [exact E4|]. split; [auto|]. split; [auto|]. split; [eapply keeps_trans; [exact K12|eapply keeps_trans; eauto]|]. split; [congruence|].
    destruct (operation_same lm false o p b1 b3 s3 b4 s4) as (Sm & _); auto; [discriminate|eapply nth_lt; exact (K3 _ _ (K2 _ _ H1))|].
    destruct Sm as (_ & _ & _ & _ & _ & _ & F4). congruence.
  - destruct Tk as (_ & _ & Tx & Ty & Tz). repeat (rewrite <- app_assoc in R; cbn [app] in R).
    destruct (meaning (e_heap s) x) as [vx|] eqn:Mx; [|discriminate]. destruct (meaning (e_heap s) y) as [vy|] eqn:My; [|discriminate]. destruct (meaning (e_heap s) z) as [vz|] eqn:Mz; [|discriminate].
    destruct (IHx s (q :: flatten y ++ c :: flatten z ++ rest) vx) as (b1 & s1 & d1 & E1 & H1 & D1 & K1 & M1 & F1); auto.
    destruct (value_reads lm x false s (q :: flatten y ++ c :: flatten z ++ rest) b1 s1) as (R1 & G1 & L1); auto; [discriminate|].
    unfold with_value at 1. rewrite (b_ret _ _ _ _ _ E1). rewrite (b_ret _ _ _ _ _ (truth_run s1 b1 d1 _ H1 (represents_truth _ _ D1))).
    destruct (next_reads _ _ _ R1) as (s2 & N2 & R2 & G2 & M2). rewrite (b_ret _ _ _ _ _ N2). pose proof (goes_keeps _ _ G2) as K2.
    assert (K12 : keeps_nodes s s2) by (eapply keeps_trans; eauto).
    assert (G12 : goes false s s2) by (eapply goes_trans; [exact G1|eapply goes_weak; exact G2]).
    assert (Fo2 : e_font s2 = false) by (destruct G2 as (_ & _ & _ & _ & F2); congruence).
    destruct (IHy s2 (c :: flatten z ++ rest) vy) as (b3 & s3 & d3 & E3 & H3 & D3 & K3 & M3 & F3); auto.
    { eapply tokens_goes; [exact (proj1 G12)|auto]. }
    { eapply vars_goes; eauto. }
    { eapply keeps_meaning; eauto. }
    destruct (value_reads lm y false s2 (c :: flatten z ++ rest) b3 s3) as (R3 & G3 & L3); auto; [discriminate|eapply tokens_goes; [exact (proj1 G12)|auto]|eapply vars_goes; eauto|].
    assert (Z : forall s0, e_heap s0 = e_heap s3 -> e_vars s0 = e_vars s3 -> e_font s0 = false -> moved s3 s0 -> exists s5, next s0 = Ret tt s5 /\
       exists b6 s6 d6, value_of lm z s5 = Ret (Some b6) s6 /\ node_at s6 b6 d6 /\ represents d6 vz /\ keeps_nodes s3 s6 /\ e_msgs s6 = e_msgs s0 /\ e_font s6 = false).
    { intros s0 Eh Ev Ef Mv. assert (R0 : reads s0 (c :: flatten z ++ rest)).
      { eapply reads_goes; [|exact Mv|exact R3]. rewrite Eh. apply nodes_near_refl. }
      destruct (next_reads _ _ _ R0) as (s5 & N5 & R5 & G5 & M5). exists s5. split; [exact N5|]. pose proof (goes_keeps _ _ G5) as K5.
      assert (K35 : keeps_nodes s3 s5) by (intros b d Hb; apply K5; unfold node_at; rewrite Eh; exact Hb).
      assert (N5' : nodes_near false (length (e_heap s3)) (e_heap s3) (e_heap s5)) by (rewrite <- Eh; exact (proj1 (goes_weak _ _ _ G5))).
      assert (N05 : nodes_near false (length (e_heap s)) (e_heap s) (e_heap s5)).
      { eapply nodes_near_trans; [exact (proj1 G12)|]. eapply nodes_near_le; [exact (proj1 (proj1 G12))|]. eapply nodes_near_trans; [exact (proj1 G3)|]. eapply nodes_near_le; [exact (proj1 (proj1 G3))|]. exact N5'. }
      destruct (IHz s5 rest vz) as (b6 & s6 & d6 & E6 & H6 & D6 & K6 & M6 & F6); auto.
      { eapply tokens_goes; eauto. }
      { intros n b. destruct G5 as (_ & _ & _ & Ev5 & _). rewrite Ev5, Ev. destruct G3 as (_ & _ & _ & Ev3 & _). rewrite Ev3. destruct G12 as (_ & _ & _ & Ev2 & _). rewrite Ev2.
        intro Q. specialize (V n b Q). exact (Nat.lt_le_trans _ _ _ V (proj1 N05)). }
      { destruct G5 as (_ & _ & _ & _ & F5). congruence. }
      { eapply keeps_meaning; [|exact Mz]. eapply keeps_trans; [exact K12|]. eapply keeps_trans; eauto. }
      exists b6, s6, d6. split; [auto|]. split; [auto|]. split; [auto|]. split; [eapply keeps_trans; eauto|]. split; [congruence|auto]. }
    injection M as <-. destruct (truth_of vx).
    + unfold with_value. rewrite (b_ret _ _ _ _ _ E3). destruct (Z s3 eq_refl eq_refl F3 (conj eq_refl (conj eq_refl eq_refl))) as (s5 & N5 & b6 & s6 & d6 & E6 & H6 & D6 & K6 & M6 & F6).
      rewrite (b_ret _ _ _ _ _ N5). erewrite b_ret. 2:{ unfold skipped. rewrite E6. reflexivity. }
      exists b3. eexists. exists d3. split; [reflexivity|]. split; [exact (K6 _ _ H3)|]. split; [auto|]. split; [eapply keeps_trans; [exact K12|]; eapply keeps_trans; eauto; exact K6|].
      cbn. assert (e_msgs s5 = e_msgs s3). { clear - N5 R3. destruct (next_reads _ _ _ R3) as (s' & N & _ & _ & M). congruence. } split; [congruence|exact F6].
    + erewrite b_ret. 2:{ unfold skipped. rewrite E3. reflexivity. }
      destruct (Z (with_msgs s3 (e_msgs s2)) eq_refl eq_refl F3 (conj eq_refl (conj eq_refl eq_refl))) as (s5 & N5 & b6 & s6 & d6 & E6 & H6 & D6 & K6 & M6 & F6).
      rewrite (b_ret _ _ _ _ _ N5). exists b6, s6, d6. split; [exact E6|]. split; [auto|]. split; [auto|].
      split; [eapply keeps_trans; [exact K12|]; eapply keeps_trans; eauto|]. cbn in M6. split; [congruence|auto].
Qed.
