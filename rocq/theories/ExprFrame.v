(** * What the operators leave alone

    An operator of the expressions does not move in the tokens and, but for
    string * integer, changes no existing node. *)

From Coq Require Import String ZArith List Bool Lia Arith Floats.SpecFloat.
From Verif Require Import Base UnicodeRange NodeHeap NodeProofs Color FloatBits Dim Expr ExprRun.
Import ListNotations.
Open Scope string_scope. Open Scope list_scope. Open Scope Z_scope.

(** [strict]: the same node.  Otherwise, the same type, the same children, and
    the same text for an identifier. *)
Definition near (strict : bool) (c c' : cell) : Prop :=
  if strict then c' = c else c_type c' = c_type c /\ c_ch c' = c_ch c /\ (c_type c = IDENTIFIER -> c_str c' = c_str c).
Lemma near_refl st c : near st c c. Proof. destruct st; cbn; auto. Qed.
Lemma near_trans st a b c : near st a b -> near st b c -> near st a c.
Proof.
  destruct st; cbn; [congruence|]. intros (A & B & C) (A' & B' & C'). split; [congruence|]. split; [congruence|].
  intro T. rewrite C', C; congruence.
Qed.
Lemma near_weak st c c' : near st c c' -> near false c c'.
Proof. destruct st; cbn; [intros ->; auto|auto]. Qed.
(** The nodes below [L] are near. *)
Definition nodes_near (st : bool) (L : nat) (h h' : heap) : Prop :=
  (length h <= length h')%nat
  /\ forall a c, (a < L)%nat -> nth_error h a = Some c -> exists c', nth_error h' a = Some c' /\ near st c c'.
Definition same (st : bool) (L : nat) (s s' : est) : Prop :=
  nodes_near st L (e_heap s) (e_heap s')
  /\ e_node s' = e_node s /\ e_pos s' = e_pos s /\ e_start s' = e_start s /\ e_cur s' = e_cur s /\ e_vars s' = e_vars s /\ e_font s' = e_font s.
Lemma nodes_near_refl st L h : nodes_near st L h h.
Proof. split; [auto|]. intros a c _ H. exists c. split; [auto|apply near_refl]. Qed.
Lemma nodes_near_trans st L h1 h2 h3 : nodes_near st L h1 h2 -> nodes_near st L h2 h3 -> nodes_near st L h1 h3.
Proof.
  intros (A & B) (A' & B'). split; [lia|]. intros a c La H. destruct (B a c La H) as (c2 & H2 & N2). destruct (B' a c2 La H2) as (c3 & H3 & N3).
  exists c3. split; [auto|]. eapply near_trans; eauto.
Qed.
Lemma same_refl st L s : same st L s s.
Proof. split; [apply nodes_near_refl|]. auto 10. Qed.
Lemma same_trans st L s1 s2 s3 : same st L s1 s2 -> same st L s2 s3 -> same st L s1 s3.
Proof.
  intros (A & B & C & D & E & F & G) (A' & B' & C' & D' & E' & F' & G'). split; [eapply nodes_near_trans; eauto|].
  repeat split; congruence.
Qed.
Lemma same_heap st L s h : nodes_near st L (e_heap s) h -> same st L s (with_heap s h).
Proof. intro H. split; [exact H|]. cbn. auto 10. Qed.

(** A computation run when there are at least [L] nodes, among which [M] are known; [Q]: what is known
    of its result, given the number of nodes. *)
Definition fr {A} (st : bool) (L M : nat) (Q : A -> nat -> Prop) (m : E A) : Prop :=
  forall s, (L <= length (e_heap s))%nat -> (M <= length (e_heap s))%nat ->
    m s <> NoFuel /\ forall r s', m s = Ret r s' -> same st L s s' /\ exists N, (M <= N <= length (e_heap s'))%nat /\ Q r N.
Definition any {A} (x : A) (n : nat) : Prop := True.
Definition fresh_node (L : nat) (x : addr) (n : nat) : Prop := (L <= x < n)%nat.
(** The value, if any, is a node. *)
Definition valid (x : option addr) (n : nat) : Prop := match x with Some a => (a < n)%nat | None => True end.
Section Rules.
  Context (st : bool) (L M : nat).
  Lemma fr_ret {A} (Q : A -> nat -> Prop) x : Q x M -> fr st L M Q (ret x).
  Proof. intros H s _ LM. split; [discriminate|]. intros r s' E. injection E as <- <-. split; [apply same_refl|]. exists M. auto. Qed.
  Lemma fr_bind {A B} (Q : A -> nat -> Prop) (R : B -> nat -> Prop) m f : fr st L M Q m -> (forall x N, Q x N -> (M <= N)%nat -> fr st L N R (f x)) -> fr st L M R (bind m f).
  Proof.
    intros H K s Le LM. destruct (H s Le LM) as [Nf H']. unfold bind. destruct (m s) as [a s1| | |] eqn:Em; try (split; [discriminate|intros r s' E; discriminate]); [|congruence].
    destruct (H' a s1 eq_refl) as [S1 (N & Ln & Qa)]. destruct (K a N Qa ltac:(lia) s1) as [Nf2 K2]; [destruct S1 as [[? _] _]; lia|lia|]. split; [exact Nf2|].
    intros r s' E. destruct (K2 r s' E) as [S2 (N2 & Ln2 & Rr)].
    split; [eapply same_trans; eauto|]. exists N2. split; [lia|auto].
  Qed.
  Lemma fr_throw {A} (Q : A -> nat -> Prop) e : fr st L M Q (throw e). Proof. intros s _ _. split; [discriminate|]. intros r s' E. discriminate. Qed.
  Lemma fr_undef {A} (Q : A -> nat -> Prop) : fr st L M Q undef. Proof. intros s _ _. split; [discriminate|]. intros r s' E. discriminate. Qed.
  Lemma fr_report p t : fr st L M any (report p t).
  Proof. intros s _ LM. split; [discriminate|]. intros r s' E. injection E as <- <-. split; [|exists M; split; [cbn; lia|exact I]]. split; [apply nodes_near_refl|]. cbn. auto 10. Qed.
  Lemma fr_get {A} (m : act A) : (forall h, m h <> NoFuel) -> (forall h r h', m h = Ret r h' -> h' = h) -> fr st L M any (lift m).
  Proof.
    intros Nf H s _ LM. split; [unfold lift; specialize (Nf (e_heap s)); destruct (m (e_heap s)); congruence|]. intros r s' E. unfold lift in E. destruct (m (e_heap s)) as [a h| | |] eqn:Em; try discriminate. injection E as <- <-.
    rewrite (H _ _ _ Em). split; [|exists M; split; [cbn; lia|exact I]]. apply same_heap. apply nodes_near_refl.
  Qed.
  Lemma fr_alloc t p : fr st L M (fresh_node L) (alloc t p).
  Proof.
    intros s Le LM. split; [discriminate|]. intros r s' E. unfold alloc, lift, new_node in E. injection E as <- <-. split.
    - apply same_heap. split; [rewrite app_length; lia|]. intros a c La H. exists c. split; [|apply near_refl]. rewrite nth_error_app1; auto. now apply nth_lt in H.
    - exists (S (length (e_heap s))). cbn [e_heap with_heap]. rewrite app_length. cbn [length]. unfold fresh_node. lia.
  Qed.
  (** A setter on a new node. *)
  Lemma fr_set (m : act unit) (a : addr) : (L <= a)%nat -> (forall h, m h <> NoFuel) -> (forall h r h', m h = Ret r h' -> exists c, h' = put h a c) -> fr st L M any (lift m).
  Proof.
    intros La Nf H s Le LM. split; [unfold lift; specialize (Nf (e_heap s)); destruct (m (e_heap s)); congruence|]. intros r s' E. unfold lift in E. destruct (m (e_heap s)) as [u h| | |] eqn:Em; try discriminate. injection E as <- <-.
    destruct (H _ _ _ Em) as (c & ->). split; [|exists M; cbn [e_heap with_heap]; rewrite put_length; split; [lia|exact I]]. apply same_heap. split; [now rewrite put_length|].
    intros b cb Lb Hb. exists cb. split; [|apply near_refl]. rewrite put_other; auto. lia.
  Qed.
  Lemma fr_cur : fr st L M any cur.
  Proof. intros s _ LM. split; [unfold cur; destruct (e_cur s); discriminate|]. intros r s' E. unfold cur in E. destruct (e_cur s); [|discriminate]. injection E as <- <-. split; [apply same_refl|]. exists M. split; [lia|exact I]. Qed.
End Rules.
Lemma fr_refuse st L M p t : fr st L M valid (refuse p t).
Proof. eapply fr_bind; [apply fr_report|]. intros. apply fr_ret. exact I. Qed.
Ltac getter := intros ? ? ?; cbv [load get_string get_integer get_decimal_number get_boolean get_color size child_empty get_font_size
    NodeHeap.bind NodeHeap.ret supports NodeHeap.throw];
  repeat match goal with |- context [match ?x with _ => _ end] => lazymatch x with context [match _ with _ => _ end] => fail | _ => destruct x; try discriminate end end; let Q := fresh "Q" in intro Q; inversion Q; subst; reflexivity.
Ltac setter := intros ? ? ?; cbv [load store set_string set_integer set_decimal_number set_boolean set_color set_font_size set_line_height set_dim1 set_dim2
    NodeHeap.bind NodeHeap.ret supports NodeHeap.throw];
  repeat match goal with |- context [match ?x with _ => _ end] => lazymatch x with context [match _ with _ => _ end] => fail | _ => destruct x; try discriminate end end; let Q := fresh "Q" in intro Q; inversion Q; subst; eauto.
Ltac nofuel := intros ?; cbv [load store get_string get_integer get_decimal_number get_boolean get_color size child_empty get_font_size
    set_string set_integer set_decimal_number set_boolean set_color set_font_size set_line_height set_dim1 set_dim2
    NodeHeap.bind NodeHeap.ret supports NodeHeap.throw];
  repeat match goal with |- context [match ?x with _ => _ end] => lazymatch x with context [match _ with _ => _ end] => fail | _ => destruct x; try discriminate end end; discriminate.
Section Access.
  Context (st : bool) (L M : nat) (a : addr).
  Lemma fr_read : fr st L M any (read a). Proof. apply fr_get; [nofuel|getter]. Qed.
  Lemma fr_type_of : fr st L M any (type_of a). Proof. eapply fr_bind; [apply fr_read|]. intros; apply fr_ret; exact I. Qed.
  Lemma fr_pos_of : fr st L M any (pos_of a). Proof. eapply fr_bind; [apply fr_read|]. intros; apply fr_ret; exact I. Qed.
  Lemma fr_string_of : fr st L M any (string_of a). Proof. apply fr_get; [nofuel|getter]. Qed.
  Lemma fr_integer_of : fr st L M any (integer_of a). Proof. apply fr_get; [nofuel|getter]. Qed.
  Lemma fr_decimal_of : fr st L M any (decimal_of a). Proof. apply fr_get; [nofuel|getter]. Qed.
  Lemma fr_color_of : fr st L M any (color_of a). Proof. apply fr_get; [nofuel|getter]. Qed.
  Lemma fr_boolean_of : fr st L M any (lift (get_boolean a)). Proof. apply fr_get; [nofuel|getter]. Qed.
  Hypothesis La : (L <= a)%nat.
  Lemma fr_set_string v : fr st L M any (lift (set_string a v)). Proof. eapply fr_set; eauto; [nofuel|setter]. Qed.
  Lemma fr_set_integer v : fr st L M any (lift (set_integer a v)). Proof. eapply fr_set; eauto; [nofuel|setter]. Qed.
  Lemma fr_set_decimal v : fr st L M any (lift (set_decimal_number a v)). Proof. eapply fr_set; eauto; [nofuel|setter]. Qed.
  Lemma fr_set_boolean v : fr st L M any (lift (set_boolean a v)). Proof. eapply fr_set; eauto; [nofuel|setter]. Qed.
  Lemma fr_set_color v : fr st L M any (lift (set_color a v)). Proof. eapply fr_set; eauto; [nofuel|setter]. Qed.
  Lemma fr_set_font_size v : fr st L M any (lift (set_font_size a v)). Proof. eapply fr_set; eauto; [nofuel|setter]. Qed.
  Lemma fr_set_line_height v : fr st L M any (lift (set_line_height a v)). Proof. eapply fr_set; eauto; [nofuel|setter]. Qed.
  Lemma fr_set_dim1 v : fr st L M any (lift (set_dim1 a v)). Proof. eapply fr_set; eauto; [nofuel|setter]. Qed.
  Lemma fr_set_dim2 v : fr st L M any (lift (set_dim2 a v)). Proof. eapply fr_set; eauto; [nofuel|setter]. Qed.
End Access.
Lemma fr_cur_type st L M : fr st L M any cur_type. Proof. eapply fr_bind; [apply fr_cur|]. intros; apply fr_type_of. Qed.
Lemma fr_cur_pos st L M : fr st L M any cur_pos. Proof. eapply fr_bind; [apply fr_cur|]. intros; apply fr_pos_of. Qed.
Lemma fr_int64 st L M v : fr st L M any (int64 v). Proof. unfold int64. destruct (int64_ok v); [apply fr_ret; exact I|apply fr_undef]. Qed.
Lemma fr_to_int64 st L M v : fr st L M any (to_int64 v). Proof. unfold to_int64. destruct (int_of_f64 v); [apply fr_ret; exact I|apply fr_undef]. Qed.
Lemma fr_dims st L p : forall l M, fr st L M any (report_dims p l).
Proof. induction l; intro M; cbn; [apply fr_ret; exact I|]. eapply fr_bind; [apply fr_report|]. intros. apply IHl. Qed.


Ltac la := unfold fresh_node, valid in *; lia.
Ltac fr_prim0 :=
  first [ apply fr_read | apply fr_type_of | apply fr_pos_of | apply fr_string_of | apply fr_integer_of | apply fr_decimal_of | apply fr_color_of | apply fr_boolean_of
        | apply fr_report | apply fr_refuse | apply fr_throw | apply fr_undef | apply fr_cur_type | apply fr_cur_pos | apply fr_cur | apply fr_int64 | apply fr_to_int64 | apply fr_dims
        | apply fr_set_string; la | apply fr_set_integer; la | apply fr_set_decimal; la | apply fr_set_boolean; la | apply fr_set_color; la
        | apply fr_set_font_size; la | apply fr_set_line_height; la | apply fr_set_dim1; la | apply fr_set_dim2; la
        | apply fr_ret; first [exact I|la] ].
Ltac fr_prim := fr_prim0.
Ltac fr_step :=
  match goal with
  | |- fr _ _ _ _ (bind (alloc _ _) _) => eapply fr_bind; [apply fr_alloc|cbv beta; intros ? ? ? ?]
  | |- fr _ _ _ _ (bind _ _) => eapply (fr_bind _ _ _ any); [|intros ? ? _ ?]
  | |- fr _ _ _ _ (let '_ := ?x in _) => destruct x
  | |- fr _ _ _ _ (match ?x with _ => _ end) => destruct x
  | _ => fr_prim
  end.
Ltac frame := repeat fr_step.
Tactic Notation "go" ident(x) := eapply (fr_bind _ _ _ any); [fr_prim|let N := fresh "N" in let H := fresh "H" in intros x N _ H].

Lemma fr_new_color st L M p k : fr st L M valid (new_color p k). Proof. unfold new_color. frame. Qed.
Lemma fr_new_boolean st L M p b : fr st L M (fresh_node L) (new_boolean p b). Proof. unfold new_boolean. frame. Qed.
Lemma fr_new_string st L M p b : fr st L M valid (new_string p b). Proof. unfold new_string. frame. Qed.
Ltac fr_prim ::= first [ apply fr_new_color | apply fr_new_string | fr_prim0 ].

Lemma fr_add_colors st L M l r b w : fr st L M valid (add_colors l r b w).
Proof. unfold add_colors. frame. Qed.
Lemma fr_add_numbers st L M l r t c v : (forall N, fr st L N any v) -> fr st L M valid (add_numbers l r t c v).
Proof. intro H. unfold add_numbers. repeat first [apply H|fr_step]. Qed.
Lemma fr_add st L M l r b : fr st L M valid (add l r b).
Proof.
  unfold add. go lt. go rt. go p.
  unfold add_types. destruct lt; try apply fr_refuse; destruct rt; first [apply fr_refuse|apply fr_add_colors|idtac]; frame; apply fr_add_numbers; intro; frame.
Qed.
Lemma fr_font_metrics st L M l r x y : fr st L M valid (font_metrics l r x y).
Proof. unfold font_metrics. frame. Qed.
Lemma fr_mul_numbers st L M o l r t v : fr st L M valid (mul_numbers o l r t v).
Proof.
  unfold mul_numbers. match goal with |- fr _ _ _ _ (fun s => if e_font s && _ then _ else ?m s) => assert (H : fr st L M valid m) end.
  { repeat fr_step. }
  intros s Le LM. destruct (e_font s && _).
  - destruct v as [[a b]|[a b]]; eapply fr_font_metrics; eauto.
  - eapply H; eauto.
Qed.
Lemma fr_mul_color st L M o l r x : fr st L M valid (mul_color o l r x).
Proof. unfold mul_color. frame. Qed.
Lemma fr_mul_ranges st L M l r : fr st L M valid (mul_ranges l r).
Proof. unfold mul_ranges. frame. Qed.
Lemma fr_mul_two st L M o l r : fr st L M valid (mul_two_colors o l r).
Proof. unfold mul_two_colors. frame. Qed.
(** string * integer changes the string. *)
Lemma fr_mul_string st L M o l r : o <> Mul -> fr st L M valid (mul_string o l r).
Proof. intro N. unfold mul_string. destruct o; [congruence| |]; cbn [is_mul negb]; frame. Qed.
Lemma fr_set_old L a v h s' u c : nth_error h a = Some c -> c_type c <> IDENTIFIER -> (L <= length h)%nat -> set_string a v h = Ret u s' -> nodes_near false L h s'.
Proof.
  intros H T Le E. unfold set_string, load, NodeHeap.bind, supports in E. rewrite H in E. destruct (has_str (c_type c)); [|discriminate].
  unfold NodeHeap.ret, store in E. inversion E; subst. split; [now rewrite put_length|]. intros b cb Lb Hb. destruct (Nat.eq_dec b a) as [->|D].
  - rewrite H in Hb. injection Hb as <-. eexists. split; [apply put_same; now apply nth_lt in H|]. cbn. split; [auto|]. split; [auto|]. congruence.
  - exists cb. rewrite put_other by auto. split; [auto|apply near_refl].
Qed.
Lemma mul_string_same L M o l r s v s' c : nth_error (e_heap s) l = Some c -> c_type c = STRING -> (L <= length (e_heap s))%nat -> (M <= length (e_heap s))%nat ->
  mul_string o l r s = Ret v s' -> same false L s s' /\ exists N, (M <= N <= length (e_heap s'))%nat /\ valid v N.
Proof.
  intros H T Le LM E. unfold mul_string in E. erewrite b_ret in E; [|eapply run_pos; exact H].
  destruct (negb (is_mul o)). { exact (proj2 (fr_refuse false L M _ _ _ Le LM) _ _ E). }
  unfold bind at 1 in E. destruct (integer_of r s) as [n s1| | |] eqn:I; try discriminate. 
  assert (Es : s1 = s). { clear - I. unfold integer_of, lift, get_integer, NodeHeap.bind, load, supports in I. destruct (nth_error (e_heap s) r) as [k|]; [|discriminate]. destruct (has_int (c_type k)); [|discriminate]. injection I as _ <-. destruct s; reflexivity. }
  subst s1. destruct (n <? 0). { exact (proj2 (fr_refuse false L M _ _ _ Le LM) _ _ E). }
  erewrite b_ret in E; [|eapply run_string; [exact H|rewrite T; reflexivity]].
  unfold bind at 1 in E. destruct (lift (set_string l (repeat_str n (c_str c))) s) as [u s1| | |] eqn:J; try discriminate. injection E as <- <-.
  unfold lift in J. destruct (set_string l (repeat_str n (c_str c)) (e_heap s)) as [u' h'| | |] eqn:K; try discriminate. injection J as <- <-.
  assert (Nr : nodes_near false L (e_heap s) h') by (eapply fr_set_old; eauto; rewrite T; discriminate).
  split; [apply same_heap, Nr|]. exists (length h'). destruct Nr as [Nl _]. cbn [e_heap with_heap valid]. split; [lia|]. apply nth_lt in H. lia.
Qed.
Lemma fr_multiply_strict st L M o l r : o <> Mul -> fr st L M valid (multiply o l r).
Proof.
  intros Nm. unfold multiply. go lt. go rt.
  assert (Df : forall N, fr st L N valid (p <- cur_pos ;; refuse p "incompatible types for operator '*', '/', or '%'.")) by (intro; frame).
  assert (Er : is_mul o = false) by (destruct o; [congruence|reflexivity|reflexivity]).
  unfold mul_types. rewrite Er. destruct lt; try apply Df; destruct rt; try apply Df; frame; first [apply fr_mul_numbers|apply fr_mul_color|apply fr_mul_ranges|apply fr_mul_two|now apply fr_mul_string].
Qed.
Lemma fr_weaken {A} st L M (Q R : A -> nat -> Prop) m : fr st L M Q m -> (forall x n, Q x n -> R x n) -> fr st L M R m.
Proof. intros H K s Le LM. destruct (H s Le LM) as [Nf H']. split; [exact Nf|]. intros r s' E. destruct (H' r s' E) as (A1 & N & B & C). eauto 10. Qed.
Lemma any_multiply M o l r : fr true 0 M any (multiply o l r).
Proof.
  unfold multiply. go lt. go rt.
  assert (Df : forall N, fr true 0 N any (p <- cur_pos ;; refuse p "incompatible types for operator '*', '/', or '%'.")) by (intro; eapply fr_weaken; [frame|now intros]).
  assert (Ms : forall N l r, fr true 0 N any (mul_string o l r)) by (intros; unfold mul_string; repeat first [eapply fr_weaken; [apply fr_refuse|now intros]|fr_step]).
  unfold mul_types. destruct lt; try apply Df; destruct rt; try apply Df; repeat first [apply Ms|eapply fr_weaken; [first [apply fr_mul_numbers|apply fr_mul_color|apply fr_mul_ranges|apply fr_mul_two|apply fr_refuse]|now intros]|fr_step].
Qed.
Lemma fr_multiply L M o l r : fr false L M valid (multiply o l r).
Proof.
  intros s Le LM. split; [exact (proj1 (any_multiply 0 o l r s (Nat.le_0_l _) (Nat.le_0_l _)))|]. intros v s' E. unfold multiply in E.
  unfold bind at 1 in E. destruct (type_of l s) as [lt s1| | |] eqn:T1; try discriminate. 
  unfold type_of, bind, read, lift, load, ret in T1. destruct (nth_error (e_heap s) l) as [cl|] eqn:Hl; [|discriminate]. injection T1 as <- <-. rewrite with_heap_same in E.
  unfold bind at 1 in E. destruct (type_of r s) as [rt s1| | |] eqn:T1; try discriminate. 
  unfold type_of, bind, read, lift, load, ret in T1. destruct (nth_error (e_heap s) r) as [cr|] eqn:Hr; [|discriminate]. injection T1 as <- <-. rewrite with_heap_same in E.
  pose proof (nth_lt _ _ _ Hl) as Ll. pose proof (nth_lt _ _ _ Hr) as Lr.
  assert (G : forall lt rt, (lt <> STRING \/ rt <> INTEGER) -> (lt <> INTEGER \/ rt <> STRING) -> fr false L (length (e_heap s)) valid (mul_types o l r lt rt)).
  { intros lt rt N1 N2.
    assert (Df : fr false L (length (e_heap s)) valid (p <- cur_pos ;; refuse p "incompatible types for operator '*', '/', or '%'.")) by frame.
    unfold mul_types. destruct lt; try exact Df; destruct rt; try exact Df; try (exfalso; destruct N1; congruence); try (exfalso; destruct N2; congruence); frame;
      first [apply fr_mul_numbers|apply fr_mul_color|apply fr_mul_ranges|apply fr_mul_two]. }
  assert (G' : forall lt rt, (lt <> STRING \/ rt <> INTEGER) -> (lt <> INTEGER \/ rt <> STRING) -> mul_types o l r lt rt s = Ret v s' -> same false L s s' /\ exists N, (M <= N <= length (e_heap s'))%nat /\ valid v N).
  { intros lt rt N1 N2 E'. destruct (proj2 (G lt rt N1 N2 s Le (le_n _)) v s' E') as (A & N & B & C). split; [exact A|]. exists N. split; [lia|exact C]. }
  destruct (ntype_eqb (c_type cl) STRING) eqn:A1; [destruct (ntype_eqb (c_type cr) INTEGER) eqn:A2|].
  - apply ntype_eqb_spec in A1, A2. rewrite A1, A2 in E. cbn [mul_types] in E. exact (mul_string_same L M o l r s v s' cl Hl A1 Le LM E).
  - apply ntype_eqb_spec in A1. apply (G' (c_type cl) (c_type cr) ltac:(right; intro Q; rewrite Q in A2; discriminate) ltac:(left; congruence) E).
  - destruct (ntype_eqb (c_type cl) INTEGER) eqn:A2; [destruct (ntype_eqb (c_type cr) STRING) eqn:A3|].
    + apply ntype_eqb_spec in A2, A3. rewrite A2, A3 in E. cbn [mul_types] in E. exact (mul_string_same L M o r l s v s' cr Hr A3 Le LM E).
    + apply ntype_eqb_spec in A2. apply (G' (c_type cl) (c_type cr) ltac:(left; congruence) ltac:(right; intro Q; rewrite Q in A3; discriminate) E).
    + apply (G' (c_type cl) (c_type cr) ltac:(left; intro Q; rewrite Q in A1; discriminate) ltac:(left; intro Q; rewrite Q in A2; discriminate) E).
Qed.
Lemma fr_power st L M lm l r : fr st L M valid (apply_power lm l r).
Proof.
  unfold apply_power, power_value. go lt. go rt.
  eapply (fr_bind _ _ _ any); [frame|intros bad N1 _ ?]. destruct bad; [frame|].
  eapply (fr_bind _ _ _ (fun x n => match x with Some (q, _) => fresh_node L q n | None => True end)).
  - go p.
    assert (R : forall q b N, fresh_node L q N -> fr st L N (fun (x : option (addr * bool)) n => match x with Some (q, _) => fresh_node L q n | None => True end) (ret (Some (q, b)))) by (intros; apply fr_ret; auto).
    assert (Df : forall N, fr st L N (fun (x : option (addr * bool)) n => match x with Some (q, _) => fresh_node L q n | None => True end)
        (q <- cur_pos ;; report q "incompatible types for operator '**'." ;;; ret None)).
    { intro. eapply (fr_bind _ _ _ any); [fr_prim|intros]. eapply (fr_bind _ _ _ any); [fr_prim|intros]. apply fr_ret. exact I. }
    destruct lt; try apply Df; destruct rt; try apply Df; repeat (first [apply R; la|fr_step]).
  - intros x N9 Hx ?. destruct x as [[q [|]]|]; cbn beta iota in Hx; [|frame|frame]. frame.
Qed.
Lemma fr_comparable st L M l r : fr st L M any (is_comparable l r).
Proof.
  unfold is_comparable, comparable_types. go lt. go rt. go p. cbv zeta.
  match goal with |- context [report p ?t ;;; ret false] => assert (Df : forall N, fr st L N any (report p t ;;; ret false)) by (intro; frame); generalize dependent (report p t ;;; ret false) end.
  intros no Df. destruct lt; try apply Df; destruct rt; try apply Df; try (apply fr_ret; exact I);
    (go x; go y; destruct (str_eqb _ _); [apply fr_ret; exact I|apply Df]).
Qed.
Lemma fr_equal st L M l r : fr st L M any (is_equal l r).
Proof. unfold is_equal, equal_types. go lt. go rt. destruct lt; try apply fr_throw; destruct rt; try apply fr_throw; frame. Qed.
Lemma fr_less st L M l r : fr st L M any (is_less_than l r).
Proof.
  unfold is_less_than, less_types. go lt. go rt. go p.
  match goal with |- context [report p ?t ;;; ret false] => assert (Df : forall N, fr st L N any (report p t ;;; ret false)) by (intro; frame); generalize dependent (report p t ;;; ret false) end.
  intros no Df. destruct lt; try apply Df; destruct rt; try apply Df; frame.
Qed.
Lemma fr_match st L M o l r : fr st L M any (do_match o l r).
Proof.
  unfold do_match. go lt. go rt. go p.
  match goal with |- context [report p ?t ;;; ?k] => assert (Df : forall N, fr st L N any (report p t ;;; k)) by (intro; frame); generalize dependent (report p t ;;; k) end.
  intros no Df. destruct lt; try apply Df; destruct rt; try apply Df; frame.
Qed.
Lemma fr_boolean st L M l : fr st L M any (boolean l).
Proof. unfold boolean, to_boolean. go c. frame. Qed.
Lemma fr_relation st L M o p l r : (l < M)%nat -> fr st L M valid (apply_relation o p l r).
Proof.
  intro Hl. unfold apply_relation, relation. eapply (fr_bind _ _ _ any); [apply fr_comparable|intros c N9 _ ?]. destruct c; [|apply fr_ret; cbn [valid]; lia].
  eapply (fr_bind _ _ _ any).
  - destruct o; repeat (first [apply fr_less|apply fr_equal|fr_step]).
  - intros b N2 _ ?. eapply fr_bind; [apply fr_new_boolean|intros v N3 Hv ?]. apply fr_ret. cbn [valid]. la.
Qed.
Lemma fr_equality st L M o p l r : (l < M)%nat -> fr st L M valid (apply_equality o p l r).
Proof.
  intro Hl. unfold apply_equality. eapply (fr_bind _ _ _ any); [apply fr_comparable|intros c N9 _ ?]. destruct c; [|apply fr_ret; cbn [valid]; lia].
  eapply (fr_bind _ _ _ any).
  - destruct o; repeat (first [apply fr_match|apply fr_equal|fr_step]).
  - intros b N2 _ ?. eapply fr_bind; [apply fr_new_boolean|intros v N3 Hv ?]. apply fr_ret. cbn [valid]. la.
Qed.
Lemma fr_logical st L M g o p l r : fr st L M valid (apply_logical g o p l r).
Proof.
  unfold apply_logical. eapply (fr_bind _ _ _ any); [apply fr_boolean|intros a N1 _ ?]. eapply (fr_bind _ _ _ any); [apply fr_boolean|intros b N2 _ ?].
  eapply fr_bind; [apply fr_new_boolean|intros v N3 Hv ?]. apply fr_ret. cbn [valid]. la.
Qed.
