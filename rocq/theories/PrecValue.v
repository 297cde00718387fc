(** * The evaluation of a tree reads its tokens *)

From Coq Require Import String ZArith List Bool Lia Arith ZifyBool Floats.SpecFloat.
From Verif Require Import Base UnicodeRange NodeHeap NodeProofs Color FloatBits Dim Expr ExprSpec ExprRun ExprFrame PrecSpec PrecStream.
Import ListNotations.
Open Scope string_scope. Open Scope list_scope. Open Scope Z_scope.
Ltac Zify.zify_post_hook ::= idtac.

(** The values of the variables are nodes. *)
Definition vars_ok (s : est) : Prop := forall n v, map_get (e_vars s) n = Some (Some v) -> (v < length (e_heap s))%nat.
(** A tree without the operators that change their operand. *)
Fixpoint calm (t : tree) : Prop :=
  match t with
  | Atom _ => True
  | Group _ x | Pos _ x => calm x
  | Neg _ _ => False
  | Bin o _ l r => o <> OMul Mul /\ calm l /\ calm r
  | Cond _ _ x y z => calm x /\ calm y /\ calm z
  end.

Lemma goes_any st s s' : goes true s s' -> goes st s s'.
Proof. destruct st; [auto|apply goes_weak]. Qed.
Lemma vars_goes st s s' : goes st s s' -> vars_ok s -> vars_ok s'.
Proof. intros G V n v. destruct G as ((Le & _) & _ & _ & Ev & _). rewrite Ev. intro H. specialize (V n v H). lia. Qed.
Lemma vars_same st L s s' : same st L s s' -> vars_ok s -> vars_ok s'.
Proof. intros ((Le & _) & _ & _ & _ & _ & Ev & _) V n v. rewrite Ev. intro H. specialize (V n v H). lia. Qed.
Lemma same_weak st L s s' : same st L s s' -> same false L s s'.
Proof.
  intros ((A & A2) & R). split; [|auto]. split; [auto|]. intros a c La H. destruct (A2 a c La H) as (c' & H' & N).
  exists c'. split; [auto|]. eapply near_weak; eauto.
Qed.
Lemma fr_use {A} st (Q : A -> nat -> Prop) m s r s' L : fr st L L Q m -> L = length (e_heap s) -> m s = Ret r s' ->
  same st L s s' /\ exists N, (L <= N <= length (e_heap s'))%nat /\ Q r N.
Proof. intros F -> E. apply (proj2 (F s (le_n _) (le_n _)) r s'); auto. Qed.
Lemma fr_fuel {A} st (Q : A -> nat -> Prop) m s : fr st 0 0 Q m -> m s <> NoFuel.
Proof. intros F. apply (F s); lia. Qed.
Lemma bind_fuel {A B} (m : E A) (g : A -> E B) s : m s <> NoFuel -> (forall x s1, m s = Ret x s1 -> g x s1 <> NoFuel) -> bind m g s <> NoFuel.
Proof. unfold bind. destruct (m s); try congruence. intros _ H. now apply H. Qed.

Lemma next_reads s a ts : reads s (a :: ts) -> exists s', next s = Ret tt s' /\ reads s' ts /\ goes true s s' /\ e_msgs s' = e_msgs s.
Proof. intros (C & (c & H) & B & _). apply (run_next s ts B). right. eauto. Qed.

Lemma operation_same lm st o p l r s v s' : (st = true -> o <> OMul Mul) -> (l < length (e_heap s))%nat ->
  operation lm o p l r s = Ret (Some v) s' -> same st (length (e_heap s)) s s' /\ (v < length (e_heap s'))%nat.
Proof.
  intros St Hl E.
  assert (F : fr st (length (e_heap s)) (length (e_heap s)) valid (operation lm o p l r)).
  { destruct o; cbn [operation].
    - apply fr_logical.
    - apply fr_logical.
    - apply fr_equality; auto.
    - apply fr_relation; auto.
    - apply fr_add.
    - destruct st; [|apply fr_multiply]. apply fr_multiply_strict. intros ->. now apply St.
    - apply fr_power. }
  destruct (fr_use _ _ _ _ _ _ _ F eq_refl E) as (Sm & N & Le & V). split; [auto|]. cbn in V. lia.
Qed.

Lemma same_put s a c c' : nth_error (e_heap s) a = Some c -> near false c c' -> same false (length (e_heap s)) s (with_heap s (put (e_heap s) a c')).
Proof.
  intros H N. apply same_heap. split; [now rewrite put_length|]. intros b d Lb Hb. destruct (Nat.eq_dec a b) as [->|Ne].
  - exists c'. rewrite put_same by auto. split; [auto|]. congruence.
  - exists d. rewrite put_other by auto. split; [auto|apply near_refl].
Qed.
Lemma negate_same a s v s' : negate a s = Ret (Some v) s' -> same false (length (e_heap s)) s s' /\ (v < length (e_heap s'))%nat.
Proof.
  intro E. unfold negate in E.
  destruct (nth_error (e_heap s) a) as [c|] eqn:Ha.
  2:{ unfold bind, type_of, bind, read, lift, load in E. rewrite Ha in E. discriminate. }
  pose proof (nth_lt _ _ _ Ha).
  rewrite (b_ret _ _ _ _ _ (run_type _ _ _ Ha)) in E.
  assert (Bad : forall t, (p <- cur_pos ;; refuse p t) s = Ret (Some v) s' -> False).
  { intros t. unfold bind. destruct (cur_pos s); discriminate. }
  destruct (c_type c) eqn:T; try (exfalso; exact (Bad _ E)).
  - rewrite (b_ret _ _ _ _ _ (run_decimal _ _ _ Ha ltac:(now rewrite T))) in E. rewrite (b_ret _ _ _ _ _ (run_set_decimal _ _ _ Ha _ ltac:(now rewrite T))) in E.
    injection E as <- <-. split; [eapply same_put; eauto; cbn; auto|cbn [e_heap with_heap]; now rewrite put_length].
  - rewrite (b_ret _ _ _ _ _ (run_integer _ _ _ Ha ltac:(now rewrite T))) in E. unfold int64 in E. destruct (int64_ok (- c_int c)); [|discriminate].
    rewrite bind_ret in E. rewrite (b_ret _ _ _ _ _ (run_set_integer _ _ _ Ha _ ltac:(now rewrite T))) in E.
    injection E as <- <-. split; [eapply same_put; eauto; cbn; auto|cbn [e_heap with_heap]; now rewrite put_length].
  - rewrite (b_ret _ _ _ _ _ (run_decimal _ _ _ Ha ltac:(now rewrite T))) in E. rewrite (b_ret _ _ _ _ _ (run_set_decimal _ _ _ Ha _ ltac:(now rewrite T))) in E.
    injection E as <- <-. split; [eapply same_put; eauto; cbn; auto|cbn [e_heap with_heap]; now rewrite put_length].
Qed.
Lemma word_same st a s v s' : (a < length (e_heap s))%nat -> vars_ok s -> word a s = Ret (Some v) s' -> same st (length (e_heap s)) s s' /\ (v < length (e_heap s'))%nat.
Proof.
  intros Ha V E. unfold word, bind at 1 in E. destruct (string_of a s) as [w s1| | |] eqn:Es; try discriminate.
  destruct (fr_use st any _ _ _ _ _ (fr_string_of _ _ _ _) eq_refl Es) as (Sm & _).
  unfold bind at 1 in E. destruct (pos_of a s1) as [p s2| | |] eqn:Ep; try discriminate.
  destruct (fr_use st any _ _ _ _ _ (fr_pos_of _ _ _ _) eq_refl Ep) as (Sm2 & _).
  assert (Sm12 : same st (length (e_heap s)) s s2).
  { eapply same_trans; [exact Sm|]. destruct Sm2 as (N2 & R2). split; [|exact R2]. eapply nodes_near_le; [|exact N2]. destruct Sm as ((?&_)&_). auto. }
  assert (Fin : forall m, fr st (length (e_heap s2)) (length (e_heap s2)) valid m -> m s2 = Ret (Some v) s' -> same st (length (e_heap s)) s s' /\ (v < length (e_heap s'))%nat).
  { intros m F Em. destruct (fr_use _ _ _ _ _ _ _ F eq_refl Em) as (Sm3 & N & Le & Vv). cbn in Vv. split; [|lia].
    eapply same_trans; [exact Sm12|]. destruct Sm3 as (N3 & R3). split; [|exact R3]. eapply nodes_near_le; [|exact N3]. destruct Sm12 as ((?&_)&_). auto. }
  destruct (str_eqb w (zs "null")); [|destruct (str_eqb w (zs "true")); [|destruct (str_eqb w (zs "false")); [|destruct (set_named w true)]]].
  - eapply Fin; [|exact E]. eapply fr_bind; [apply fr_alloc|]. intros x N (A & B) _. apply fr_ret. cbn. lia.
  - eapply Fin; [|exact E]. eapply fr_bind; [apply fr_new_boolean|]. intros x N (A & B) _. apply fr_ret. cbn. lia.
  - eapply Fin; [|exact E]. eapply fr_bind; [apply fr_alloc|]. intros x N (A & B) _. apply fr_ret. cbn. lia.
  - eapply Fin; [|exact E]. apply fr_new_color.
  - assert (V2 : vars_ok s2) by (eapply vars_same; eauto). assert (Le : (length (e_heap s) <= length (e_heap s2))%nat) by (destruct Sm12 as ((?&_)&_); auto).
    destruct (map_get (e_vars s2) w) as [u|] eqn:Em; injection E as ? ?; subst; (split; [auto|]); [eapply V2; eauto|lia].
Qed.

Lemma with_value_some m g s v s' : with_value m g s = Ret (Some v) s' -> exists a s1, m s = Ret (Some a) s1 /\ g a s1 = Ret (Some v) s'.
Proof. unfold with_value, bind. destruct (m s) as [[a|] s1| | |] eqn:E; try discriminate. eauto. Qed.
Lemma bind_some {A B} (m : E A) (g : A -> E B) s v s' : bind m g s = Ret v s' -> exists a s1, m s = Ret a s1 /\ g a s1 = Ret v s'.
Proof. unfold bind. destruct (m s) eqn:E; try discriminate. eauto. Qed.
Lemma skipped_some m s u s' : skipped m s = Ret u s' -> exists v s1, m s = Ret (Some v) s1 /\ s' = with_msgs s1 (e_msgs s).
Proof. unfold skipped. destruct (m s) as [[a|] s1| | |] eqn:E; try discriminate. intros [= <- <-]. eauto. Qed.

Lemma operand_reads st a s rest v s' : reads s (a :: rest) -> vars_ok s -> operand a s = Ret (Some v) s' ->
  reads s' rest /\ goes st s s' /\ (v < length (e_heap s'))%nat.
Proof.
  intros R V E. pose proof R as (C & (c & Ha) & B). destruct (next_reads _ _ _ R) as (s1 & N1 & R1 & G1 & _).
  pose proof (goes_len _ _ _ G1) as Le1. pose proof (nth_lt _ _ _ Ha) as La.
  unfold operand in E. rewrite (b_ret _ _ _ _ _ (run_type _ _ _ Ha)) in E.
  assert (Df : (next ;;; ret (Some a)) s = Ret (Some v) s' -> reads s' rest /\ goes st s s' /\ (v < length (e_heap s'))%nat).
  { rewrite (b_ret _ _ _ _ _ N1). intros [= <- <-]. split; [auto|]. split; [now apply goes_any|lia]. }
  destruct (c_type c) eqn:T; try exact (Df E).
  - (* # *)
    clear Df. apply bind_some in E. destruct E as (w & s2 & Es & E). destruct (fr_use true any _ _ _ _ _ (fr_string_of _ _ _ _) eq_refl Es) as (Sm & _).
    apply bind_some in E. destruct E as (p & s3 & Ep & E). destruct (fr_use true any _ _ _ _ _ (fr_pos_of _ _ _ _) eq_refl Ep) as (Sm2 & _).
    destruct (set_named w false) as [k|].
    2:{ apply bind_some in E. destruct E as (? & ? & _ & E). apply bind_some in E. destruct E as (? & ? & _ & E). discriminate. }
    apply bind_some in E. destruct E as (r & s4 & Ek & E).
    destruct (fr_use true valid _ _ _ _ _ (fr_new_color _ _ _ _ _) eq_refl Ek) as (Sm3 & N & LeN & Vr).
    assert (R4 : reads s4 (a :: rest)).
    { eapply reads_same; [eapply same_weak; exact Sm3|]. eapply reads_same; [eapply same_weak; exact Sm2|]. eapply reads_same; [eapply same_weak; exact Sm|]. exact R. }
    destruct (next_reads _ _ _ R4) as (s5 & N5 & R5 & G5 & _). rewrite (b_ret _ _ _ _ _ N5) in E. injection E as -> <-. split; [auto|].
    split; [|cbn in Vr; pose proof (goes_len _ _ _ G5); lia].
    apply goes_any. eapply goes_trans; [apply same_goes; exact Sm|]. eapply goes_trans; [apply same_goes; exact Sm2|]. eapply goes_trans; [apply same_goes; exact Sm3|exact G5].
  - rewrite (b_ret _ _ _ _ _ N1) in E. destruct (word_same st a s1 v s' ltac:(lia) (vars_goes _ _ _ G1 V) E) as (Sm & Lv).
    split; [eapply reads_same; [eapply same_weak; exact Sm|exact R1]|]. split; [|auto]. eapply goes_trans; [apply goes_any; exact G1|apply same_goes; exact Sm].
Qed.

Lemma flatten_cons t : exists a r, flatten t = a :: r.
Proof.
  induction t as [a|a x IH|a x IH|a x IH|o a l IHl r IHr|q c x IHx y IHy z IHz]; cbn [flatten]; eauto.
  - destruct IHl as (b & r' & ->). cbn. eauto.
  - destruct IHx as (b & r' & ->). cbn. eauto.
Qed.
Lemma cur_pos_reads s ts : reads s ts -> exists p, cur_pos s = Ret p s.
Proof. intro R. destruct (reads_cur _ _ R) as (a & c & C & H). apply run_cur_pos. exists a, c. auto. Qed.
Lemma bind_cond {A} (b : bool) (x y : E A) s : (if b then x else y) s = if b then x s else y s. Proof. now destruct b. Qed.

(** Entering a group. *)
Lemma enter_reads s a c ts : nth_error (e_heap s) a = Some c -> has_children (c_type c) = true -> spaced (e_heap s) (c_ch c) ts -> no_leading_space (e_heap s) (c_ch c) ->
  exists s1, next (mkE (e_heap s) (e_msgs s) a 0 (-1) None [] false) = Ret tt s1 /\ reads s1 ts /\ vars_ok s1
    /\ goes true (mkE (e_heap s) (e_msgs s) a 0 (-1) None [] false) s1 /\ e_msgs s1 = e_msgs s.
Proof.
  intros H T Sp Ls. destruct (run_next (mkE (e_heap s) (e_msgs s) a 0 (-1) None [] false) ts) as (s1 & N & R & G & M).
  - exists c, O. cbn [e_heap e_node e_pos]. repeat (split; [auto; try reflexivity; try apply Nat.le_0_l|]). auto.
  - left. reflexivity.
  - exists s1. split; [auto|]. split; [auto|]. split; [|split; [auto|exact M]]. intros n v. destruct G as (_ & _ & _ & -> & _). discriminate.
Qed.

Theorem value_reads lm : forall t st s rest v s', (st = true -> calm t) -> tokens_of (e_heap s) t -> reads s (flatten t ++ rest) -> vars_ok s ->
  value_of lm t s = Ret (Some v) s' -> reads s' rest /\ goes st s s' /\ (v < length (e_heap s'))%nat.
Proof.
  induction t as [a|a x IH|a x IH|a x IH|o a l IHl r IHr|q c x IHx y IHy z IHz]; intros st s rest v s' St Tk R V E; cbn [flatten value_of] in *.
  - cbn [app] in R. eapply operand_reads; eauto.
  - cbn [app] in R. destruct Tk as ((c & Ha & Tc & Sp & Ls) & Tx). destruct (next_reads _ _ _ R) as (s1 & N1 & R1 & G1 & _).
    rewrite (b_ret _ _ _ _ _ N1) in E. unfold in_new in E.
    destruct (near_at _ _ _ _ (goes_weak _ _ _ G1) Ha) as (c1 & Ha1 & Tc1 & Cc1 & _).
    pose proof (proj1 (goes_weak _ _ _ G1)) as Nr1.
    destruct (enter_reads s1 a c1 (flatten x)) as (s2 & N2 & R2 & V2 & G2 & _); auto.
    { rewrite Tc1, Tc. reflexivity. }
    { rewrite Cc1. eapply spaced_goes; eauto. }
    { rewrite Cc1. eapply leading_goes; eauto. }
    rewrite (b_ret _ _ _ _ _ N2) in E. destruct (value_of lm x s2) as [u s3| | |] eqn:E3; try discriminate. injection E as -> <-.
    destruct (IH st s2 [] v s3) as (R3 & G3 & L3); auto.
    { eapply tokens_goes; [|exact Tx]. eapply nodes_near_trans; [exact Nr1|]. eapply nodes_near_le; [exact (proj1 Nr1)|]. exact (proj1 (goes_weak _ _ _ G2)). }
    { now rewrite app_nil_r. }
    set (m1 := mkE (e_heap s1) (e_msgs s1) a 0 (-1) None [] false) in *.
    assert (G23 : goes st m1 s3) by (eapply goes_trans; [apply goes_any; exact G2|exact G3]).
    cbn [e_heap]. split; [|split; [|exact L3]].
    + eapply (reads_goes s1); [|split; [reflexivity|split; reflexivity]|exact R1]. cbn [e_heap]. exact (proj1 (goes_weak _ _ _ G23)).
    + eapply goes_trans; [apply goes_any; exact G1|]. split; [exact (proj1 G23)|]. cbn. auto.
  - destruct st; [destruct (St eq_refl)|]. destruct Tk as (_ & Tx). cbn [app] in R. destruct (next_reads _ _ _ R) as (s1 & N1 & R1 & G1 & _).
    rewrite (b_ret _ _ _ _ _ N1) in E. apply with_value_some in E. destruct E as (b & s2 & E2 & En).
    destruct (IH false s1 rest b s2) as (R2 & G2 & L2); auto; [discriminate|eapply tokens_goes; [exact (proj1 (goes_weak _ _ _ G1))|auto]|eapply vars_goes; eauto|].
    destruct (negate_same _ _ _ _ En) as (Sm & Lv). split; [eapply reads_same; eauto|]. split; [|auto].
    eapply goes_trans; [apply goes_weak in G1; exact G1|]. eapply goes_trans; [exact G2|apply same_goes; exact Sm].
  - destruct Tk as (_ & Tx). cbn [app] in R. destruct (next_reads _ _ _ R) as (s1 & N1 & R1 & G1 & _).
    rewrite (b_ret _ _ _ _ _ N1) in E.
    destruct (IH st s1 rest v s') as (R2 & G2 & L2); auto; [eapply tokens_goes; [exact (proj1 (goes_weak _ _ _ G1))|auto]|eapply vars_goes; eauto|].
    split; [auto|]. split; [|auto]. eapply goes_trans; [apply goes_any; exact G1|exact G2].
  - destruct Tk as (_ & Tl & Tr). rewrite <- app_assoc in R. cbn [app] in R. apply with_value_some in E. destruct E as (b & s1 & E1 & E).
    destruct (IHl st s (a :: flatten r ++ rest) b s1) as (R1 & G1 & L1); auto; [intro Q; apply (St Q)|].
    destruct (cur_pos_reads _ _ R1) as (p & Ep). rewrite (b_ret _ _ _ _ _ Ep) in E. destruct (next_reads _ _ _ R1) as (s2 & N2 & R2 & G2 & _).
    rewrite (b_ret _ _ _ _ _ N2) in E. apply with_value_some in E. destruct E as (b2 & s3 & E3 & E).
    assert (G12 : goes st s s2) by (eapply goes_trans; [exact G1|apply goes_any; exact G2]).
    destruct (IHr st s2 rest b2 s3) as (R3 & G3 & L3); auto; [intro Q; apply (St Q)|eapply tokens_goes; [exact (proj1 (goes_weak _ _ _ G12))|auto]|eapply vars_goes; eauto|].
    destruct (operation_same lm st o p b b2 s3 v s') as (Sm & Lv); auto; [intro Q; apply (St Q)|pose proof (goes_len _ _ _ G2); pose proof (goes_len _ _ _ G3); lia|].
    split; [eapply reads_same; [eapply same_weak; exact Sm|auto]|]. split; [|auto]. eapply goes_trans; [exact G12|]. eapply goes_trans; [exact G3|apply same_goes; exact Sm].
  - destruct Tk as (_ & _ & Tx & Ty & Tz). repeat (rewrite <- app_assoc in R; cbn [app] in R).
    apply with_value_some in E. destruct E as (b & s1 & E1 & E).
    destruct (IHx st s (q :: flatten y ++ c :: flatten z ++ rest) b s1) as (R1 & G1 & L1); auto; [intro Q; apply (St Q)|].
    apply bind_some in E. destruct E as (bo & s2 & Eb & E). destruct (fr_use st any _ _ _ _ _ (fr_boolean _ _ _ _) eq_refl Eb) as (Sm & _).
    assert (R2 : reads s2 (q :: flatten y ++ c :: flatten z ++ rest)) by (eapply reads_same; [eapply same_weak; exact Sm|auto]).
    destruct (next_reads _ _ _ R2) as (s3 & N3 & R3 & G3 & _). rewrite (b_ret _ _ _ _ _ N3) in E.
    assert (G13 : goes st s s3) by (eapply goes_trans; [exact G1|]; eapply goes_trans; [apply same_goes; exact Sm|apply goes_any; exact G3]).
    assert (V3 : vars_ok s3) by (eapply vars_goes; eauto).
    assert (Ty3 : tokens_of (e_heap s3) y) by (eapply tokens_goes; [exact (proj1 (goes_weak _ _ _ G13))|auto]).
    rewrite bind_cond in E. destruct bo.
    + apply with_value_some in E. destruct E as (b4 & s4 & E4 & E).
      destruct (IHy st s3 (c :: flatten z ++ rest) b4 s4) as (R4 & G4 & L4); auto; [intro Q; apply (St Q)|].
      destruct (next_reads _ _ _ R4) as (s5 & N5 & R5 & G5 & _). rewrite (b_ret _ _ _ _ _ N5) in E.
      apply bind_some in E. destruct E as (u & s6 & E6 & E). apply skipped_some in E6. destruct E6 as (w & s7 & E7 & ->).
      assert (G15 : goes st s s5) by (eapply goes_trans; [exact G13|]; eapply goes_trans; [exact G4|apply goes_any; exact G5]).
      destruct (IHz st s5 rest w s7) as (R7 & G7 & L7); auto; [intro Q; apply (St Q)|eapply tokens_goes; [exact (proj1 (goes_weak _ _ _ G15))|auto]|eapply vars_goes; eauto|].
      injection E as <- <-. split; [exact R7|]. split; [eapply goes_trans; [exact G15|exact G7]|]. cbn [e_heap with_msgs].
      pose proof (goes_len _ _ _ G5); pose proof (goes_len _ _ _ G7); lia.
    + apply bind_some in E. destruct E as (u & s6 & E6 & E). apply skipped_some in E6. destruct E6 as (w & s7 & E7 & ->).
      destruct (IHy st s3 (c :: flatten z ++ rest) w s7) as (R4 & G4 & L4); auto; [intro Q; apply (St Q)|].
      destruct (next_reads (with_msgs s7 (e_msgs s3)) _ _ R4) as (s5 & N5 & R5 & G5 & _). rewrite (b_ret _ _ _ _ _ N5) in E.
      assert (G15 : goes st s s5) by (eapply goes_trans; [exact G13|]; eapply goes_trans; [exact G4|apply goes_any; exact G5]).
      destruct (IHz st s5 rest v s') as (R8 & G8 & L8); auto; [intro Q; apply (St Q)|eapply tokens_goes; [exact (proj1 (goes_weak _ _ _ G15))|auto]|eapply vars_goes; eauto|].
      split; [exact R8|]. split; [eapply goes_trans; [exact G15|exact G8]|exact L8].
Qed.

(** ** The evaluation ends *)
Fixpoint no_conditional (t : tree) : Prop :=
  match t with
  | Atom _ => True
  | Group _ x | Pos _ x | Neg _ x => no_conditional x
  | Bin o _ l r => no_conditional l /\ no_conditional r
  | Cond _ _ x y z => False
  end.
Lemma operation_fuel lm o p l r s : (l < length (e_heap s))%nat -> operation lm o p l r s <> NoFuel.
Proof.
  intro Hl.
  assert (F : fr false (length (e_heap s)) (length (e_heap s)) valid (operation lm o p l r)).
  { destruct o; cbn [operation].
    - apply fr_logical.
    - apply fr_logical.
    - apply fr_equality; auto.
    - apply fr_relation; auto.
    - apply fr_add.
    - apply fr_multiply.
    - apply fr_power. }
  apply (F s); lia.
Qed.
Lemma negate_fuel a s : negate a s <> NoFuel.
Proof.
  apply (fr_fuel true any). unfold negate. go t. destruct t; repeat first [apply fr_set_integer; lia|apply fr_set_decimal; lia|eapply fr_weaken; [apply fr_refuse|now intros]|fr_step].
Qed.
Lemma word_fuel a s : word a s <> NoFuel.
Proof.
  unfold word. apply bind_fuel; [apply (fr_fuel true any), fr_string_of|]. intros w s1 _. apply bind_fuel; [apply (fr_fuel true any), fr_pos_of|]. intros p s2 _.
  destruct (str_eqb w (zs "null")); [|destruct (str_eqb w (zs "true")); [|destruct (str_eqb w (zs "false")); [|destruct (set_named w true)]]]; try discriminate.
  - rewrite (b_ret _ _ _ _ _ (run_new_boolean _ _ _)). discriminate.
  - apply (fr_fuel true valid), fr_new_color.
  - cbv beta. destruct (map_get (e_vars s2) w); discriminate.
Qed.
Theorem value_fuel lm : forall t s rest, no_conditional t -> tokens_of (e_heap s) t -> reads s (flatten t ++ rest) -> vars_ok s -> value_of lm t s <> NoFuel.
Proof.
  induction t as [a|a x IH|a x IH|a x IH|o a l IHl r IHr|q c x IHx y IHy z IHz]; intros s rest Nc Tk R V; cbn [flatten value_of no_conditional] in *; [| | | | |destruct Nc].
  - cbn [app] in R. pose proof R as (C & (c & Ha) & B). unfold operand. rewrite (b_ret _ _ _ _ _ (run_type _ _ _ Ha)). destruct (next_reads _ _ _ R) as (s1 & N1 & _).
    assert (Df : (next ;;; ret (Some a)) s <> NoFuel) by (rewrite (b_ret _ _ _ _ _ N1); discriminate).
    destruct (c_type c); try exact Df.
    + apply bind_fuel; [apply (fr_fuel true any), fr_string_of|]. intros w s2 Es. destruct (fr_use true any _ _ _ _ _ (fr_string_of _ _ _ _) eq_refl Es) as (Sm & _).
      apply bind_fuel; [apply (fr_fuel true any), fr_pos_of|]. intros p s3 Ep. destruct (fr_use true any _ _ _ _ _ (fr_pos_of _ _ _ _) eq_refl Ep) as (Sm2 & _).
      assert (R3 : reads s3 (a :: rest)). { eapply reads_same; [eapply same_weak; exact Sm2|]. eapply reads_same; [eapply same_weak; exact Sm|]. exact R. }
      destruct (set_named w false).
      * apply bind_fuel; [apply (fr_fuel true valid), fr_new_color|]. intros v s4 Ek. destruct (fr_use true valid _ _ _ _ _ (fr_new_color _ _ _ _ _) eq_refl Ek) as (Sm3 & _).
        assert (R4 : reads s4 (a :: rest)) by (eapply reads_same; [eapply same_weak; exact Sm3|auto]).
        destruct (next_reads _ _ _ R4) as (s5 & N5 & _). rewrite (b_ret _ _ _ _ _ N5). discriminate.
      * match goal with |- bind (report ?p ?t) _ _ <> _ => assert (R4 : reads (with_msgs s3 (e_msgs s3 ++ [mkMsg LError p t])) (a :: rest)) by exact R3 end.
        rewrite (b_ret (report _ _) _ _ tt _ eq_refl). destruct (next_reads _ _ _ R4) as (s5 & N5 & _). rewrite (b_ret _ _ _ _ _ N5). discriminate.
    + rewrite (b_ret _ _ _ _ _ N1). apply word_fuel.
  - cbn [app] in R. destruct Tk as ((c & Ha & Tc & Sp & Ls) & Tx). destruct (next_reads _ _ _ R) as (s1 & N1 & R1 & G1 & _).
    rewrite (b_ret _ _ _ _ _ N1). unfold in_new.
    destruct (near_at _ _ _ _ (goes_weak _ _ _ G1) Ha) as (c1 & Ha1 & Tc1 & Cc1 & _).
    pose proof (proj1 (goes_weak _ _ _ G1)) as Nr1.
    destruct (enter_reads s1 a c1 (flatten x)) as (s2 & N2 & R2 & V2 & G2 & _); auto.
    { rewrite Tc1, Tc. reflexivity. }
    { rewrite Cc1. eapply spaced_goes; eauto. }
    { rewrite Cc1. eapply leading_goes; eauto. }
    rewrite (b_ret _ _ _ _ _ N2). specialize (IH s2 [] Nc). rewrite app_nil_r in IH.
    assert (Q : value_of lm x s2 <> NoFuel). { apply IH; auto. eapply tokens_goes; [|exact Tx]. eapply nodes_near_trans; [exact Nr1|]. eapply nodes_near_le; [exact (proj1 Nr1)|]. exact (proj1 (goes_weak _ _ _ G2)). }
    destruct (value_of lm x s2); try discriminate. congruence.
  - destruct Tk as (_ & Tx). cbn [app] in R. destruct (next_reads _ _ _ R) as (s1 & N1 & R1 & G1 & _). rewrite (b_ret _ _ _ _ _ N1).
    unfold with_value. apply bind_fuel; [eapply IH; eauto; [eapply tokens_goes; [exact (proj1 (goes_weak _ _ _ G1))|auto]|eapply vars_goes; eauto]|].
    intros [v|] s2 _; [apply negate_fuel|discriminate].
  - destruct Tk as (_ & Tx). cbn [app] in R. destruct (next_reads _ _ _ R) as (s1 & N1 & R1 & G1 & _). rewrite (b_ret _ _ _ _ _ N1).
    eapply IH; eauto; [eapply tokens_goes; [exact (proj1 (goes_weak _ _ _ G1))|auto]|eapply vars_goes; eauto].
  - destruct Tk as (_ & Tl & Tr), Nc as (Nl & Nr). rewrite <- app_assoc in R. cbn [app] in R. unfold with_value. apply bind_fuel; [eapply IHl; eauto|].
    intros [b|] s1 E1; [|discriminate]. destruct (value_reads lm l false s _ b s1 ltac:(discriminate) Tl R V E1) as (R1 & G1 & L1).
    destruct (cur_pos_reads _ _ R1) as (p & Ep). rewrite (b_ret _ _ _ _ _ Ep). destruct (next_reads _ _ _ R1) as (s2 & N2 & R2 & G2 & _).
    rewrite (b_ret _ _ _ _ _ N2).
    assert (G12 : goes false s s2) by (eapply goes_trans; [exact G1|apply goes_any; exact G2]).
    assert (Tr2 : tokens_of (e_heap s2) r) by (eapply tokens_goes; [exact (proj1 (goes_weak _ _ _ G12))|auto]). assert (V2 : vars_ok s2) by (eapply vars_goes; eauto).
    apply bind_fuel; [eapply IHr; eauto|]. intros [b2|] s3 E3; [|discriminate]. apply operation_fuel.
    destruct (value_reads lm r false s2 _ b2 s3 ltac:(discriminate) Tr2 R2 V2 E3) as (_ & G3 & _).
    pose proof (goes_len _ _ _ G2); pose proof (goes_len _ _ _ G3); lia.
Qed.
