(** * Properties of whole expressions: precedence, associativity, ?: (C49, C38) *)

From Coq Require Import String ZArith List Bool Lia Arith ZifyBool Floats.SpecFloat.
From Verif Require Import Base NodeHeap NodeProofs Color Expr ExprSpec ExprRun PrecSpec PrecStream PrecValue PrecParse PrecMain PrecTrees PrecMeaning.
Import ListNotations.
Open Scope string_scope. Open Scope list_scope. Open Scope Z_scope.
Ltac Zify.zify_post_hook ::= idtac.

(** A node whose children, spaces apart, are the tokens of [t] followed by [rest]. *)
Definition written (h : heap) (n : addr) (c : cell) (t : tree) (rest : list addr) : Prop :=
  nth_error h n = Some c /\ has_children (c_type c) = true
  /\ spaced h (c_ch c) (flatten t ++ rest) /\ no_leading_space h (c_ch c) /\ tokens_of h t.

(** ** C49 Operator precedence *)
(** The expression is evaluated as its proper tree says: the operands of an
    operator bind tighter than it does, or as tightly for the left one.  Then
    the value replaces the expression.  [evaluation] computes the operands
    first, then the operation. *)
Theorem c49_precedence_partial : forall lm fn f n h m c t rest,
  written h n c t rest -> proper t -> ends h rest -> (tree_size t < f)%nat ->
  evaluation lm t (start n h m) <> NoFuel ->
  compile lm fn f (start n h m) = (r <- evaluation lm t ;; replace_with_result r) (start n h m).
Proof. intros lm fn f n h m c t rest (Hn & Tc & Sp & Ls & Tk) P En Sf NF. eapply compile_value; eauto. Qed.

(** Lemmas: the last step always ends. *)
Definition always {A} (m : E A) : Prop := forall s, m s <> NoFuel.
Lemma always_bind {A B} (m : E A) (g : A -> E B) : always m -> (forall x, always (g x)) -> always (bind m g).
Proof. intros M G s. apply bind_fuel; [apply M|]. intros x s1 _. apply G. Qed.
Ltac heap_op := intros s; unfold lift; cbv [insert_child add_child remove_child_at get_child load store NodeHeap.bind NodeHeap.ret supports NodeHeap.throw];
  repeat match goal with |- context [match ?x with _ => _ end] => lazymatch x with context [match _ with _ => _ end] => fail | _ => destruct x; try discriminate end end; discriminate.
Lemma always_child i : always (child i). Proof. unfold child. heap_op. Qed.
Lemma always_cur : always cur. Proof. intro s. unfold cur. destruct (e_cur s); discriminate. Qed.
Lemma always_type a : always (type_of a). Proof. intro s. apply fr_fuel with (st := false) (Q := ExprFrame.any). apply ExprFrame.fr_type_of. Qed.
Ltac ends_ := repeat first [apply always_child | apply always_cur | apply always_type | apply always_bind; [|intro] |
  match goal with |- always (if ?b then _ else _) => destruct b end | (intro; discriminate)].
Lemma replace_ends r : always (replace_with_result r).
Proof.
  assert (B : forall k, always (back_to_current k)) by (induction k; cbn [back_to_current]; [intro; discriminate|]; ends_; first [exact IHk | idtac]).
  assert (D : forall k st, always (remove_back k st)).
  { induction k; intro st; cbn [remove_back]; [intro; discriminate|]. ends_; try assumption; try apply IHk. heap_op. }
  unfold replace_with_result. apply always_bind; [|intro; apply always_bind; [|intro]; intro; discriminate].
  destruct r; [|intro; discriminate]. unfold cur_type. apply always_bind; [apply always_bind; [apply always_cur|intro; apply always_type]|intro t].
  apply always_bind; [intro; discriminate|intro p]. apply always_bind.
  - destruct (_ && _); [|intro; discriminate]. apply always_bind; [apply B|intro]. apply always_bind; [intro; discriminate|intro q]. destruct (0 <? q); [|intro; discriminate]. ends_.
  - intro. apply always_bind; [intro s; apply D|]. intro. apply always_bind; [intro; discriminate|intro]. apply always_bind; [heap_op|]. intro; intro; discriminate.
Qed.

(** The last hypothesis is needed for ?: only; the evaluation ends. *)
Theorem c49_no_conditional : forall lm fn f n h m c t rest,
  written h n c t rest -> proper t -> ends h rest -> (tree_size t < f)%nat -> no_conditional t ->
  compile lm fn f (start n h m) = (r <- evaluation lm t ;; replace_with_result r) (start n h m)
  /\ compile lm fn f (start n h m) <> NoFuel.
Proof.
  intros lm fn f n h m c t rest (Hn & Tc & Sp & Ls & Tk) P En Sf Nc.
  assert (NF : evaluation lm t (start n h m) <> NoFuel) by (eapply evaluation_fuel; eauto).
  rewrite (compile_value lm fn f t n h m rest c) by auto. split; [reflexivity|].
  unfold bind. destruct (evaluation lm t (start n h m)) as [r s'| | |]; try congruence. apply replace_ends.
Qed.

(** Any sequence of operators and operands is covered, but for ** which does not
    associate: the proper tree exists. *)
Theorem c49_every_sequence : forall t, powers_apart t ->
  exists t', proper t' /\ flatten t' = flatten t /\ forall h, tokens_of h t -> tokens_of h t'.
Proof.
  intros t P. exists (normalize t). split; [apply (normalize_proper t P)|]. split; [apply normalize_flat|]. intros h. apply normalize_tokens.
Qed.

(** The value replaces the tokens of the expression, and the cursor is after it;
    what follows the expression is kept, with a space if there was one. *)
Theorem c49_result : forall lm fn f n h m c t rest v s',
  written h n c t rest -> proper t -> ends h rest -> (tree_size t < f)%nat ->
  evaluation lm t (start n h m) = Ret (Some v) s' ->
  (forall k, nth_error (e_heap s') v = Some k -> c_type k <> EOF_TOKEN) ->
  match rest with a :: _ => forall d, nth_error h a = Some d -> c_type d <> EOF_TOKEN | [] => True end ->
  exists used kept s2 c2, compile lm fn f (start n h m) = Ret (Some v) s2
    /\ nth_error (e_heap s2) n = Some c2 /\ c_ch c2 = v :: kept /\ c_ch c = used ++ kept
    /\ spaced h used (flatten t) /\ spaced h kept rest /\ e_msgs s2 = e_msgs s' /\ e_pos s2 = 1
    /\ (rest = [] -> kept = []).
Proof.
  intros lm fn f n h m c t rest v s' (Hn & Tc & Sp & Ls & Tk) P En Sf Ev Tv Tr.
  assert (NF : evaluation lm t (start n h m) <> NoFuel) by congruence.
  destruct (evaluation_reads lm t n h m rest c Hn Tc Sp Ls Tk false v s') as (R & G & Lv); auto; [discriminate|].
  rewrite (compile_value lm fn f t n h m rest c) by auto. rewrite (b_ret _ _ _ _ _ Ev).
  pose proof G as (Nr & En' & Es' & _). cbn [e_heap e_node e_start] in Nr, En', Es'.
  destruct (proj2 Nr n c (nth_lt _ _ _ Hn) Hn) as (c' & Hc' & Tc' & Cc' & _).
  destruct (nth_error (e_heap s') v) as [k|] eqn:Hv; [|apply nth_error_None in Hv; exfalso; exact (Nat.lt_irrefl _ (Nat.lt_le_trans _ _ _ Lv Hv))].
  destruct (replace_value s' rest v k c' R) as (used & kept & s2 & E2 & U & Sk & Hh & M2 & N2 & P2 & _ & _ & _ & _ & K); auto.
  { now rewrite En'. }
  { intros x I. rewrite Cc' in I. pose proof (spaced_all _ _ _ Sp x I). exact (Nat.lt_le_trans _ _ _ H (proj1 Nr)). }
  { destruct rest as [|a r]; [exact I|]. intros d Hd. assert (exists d0, nth_error h a = Some d0) as (d0 & H0).
    { assert (I : In a (c_ch c)). { clear - Sp.
      assert (J : In a (flatten t ++ a :: r)) by (apply in_or_app; right; now left). rewrite (spaced_filter _ _ _ Sp) in J. apply filter_In in J. tauto. }
      pose proof (spaced_all _ _ _ Sp a I) as La. destruct (nth_error h a) eqn:Q; [eauto|]. apply nth_error_None in Q. exfalso. exact (Nat.lt_irrefl _ (Nat.lt_le_trans _ _ _ La Q)). }
    destruct (proj2 Nr a d0 (nth_lt _ _ _ H0) H0) as (d' & Hd' & Td' & _). assert (d = d') by congruence. subst. rewrite Td'. now apply Tr. }
  assert (Un : forall l ts, spaced (e_heap s') l ts -> (forall x, In x l -> (x < length h)%nat) -> spaced h l ts).
  { intros l ts Q. induction Q as [|a d l ts Ha Ta Q IH|a d l ts Ha Ta Q IH]; intro A; [constructor| |];
      (destruct (nth_error h a) as [d0|] eqn:H0; [|apply nth_error_None in H0; exfalso; exact (Nat.lt_irrefl _ (Nat.lt_le_trans _ _ _ (A a (or_introl eq_refl)) H0))]);
      destruct (proj2 Nr a d0 (nth_lt _ _ _ H0) H0) as (d' & Hd' & Td' & _); assert (d = d') by congruence; subst d';
      [eapply spaced_ws|eapply spaced_token]; eauto; try congruence; apply IH; intros x I; apply A; now right. }
  assert (Sk' : spaced h kept rest).
  { apply Un; [exact Sk|]. intros x I. apply (spaced_all _ _ _ Sp). rewrite <- Cc', U. apply in_or_app. now right. }
  exists used, kept, s2. eexists. split; [exact E2|]. split; [rewrite Hh, En'; apply put_same; now apply nth_lt in Hc'|]. split; [reflexivity|]. split; [congruence|].
  split; [eapply spaced_split; [|exact Sk']; rewrite <- U, Cc'; exact Sp|]. split; [exact Sk'|]. split; [exact M2|]. split; [exact P2|].
  intros ->. destruct K as [K|[K|(K & _)]]; [exact K| |].
  - destruct kept; [reflexivity|discriminate].
  - congruence.
Qed.

(** The usual value, for an expression of plain integers and booleans: [meaning]
    says what the tree stands for.  Nothing else is changed, nothing is
    reported. *)
Theorem c49_meaning : forall lm fn f n h m c t v,
  written h n c t [] -> proper t -> (tree_size t < f)%nat -> meaning h t = Some v ->
  exists r s' d, compile lm fn f (start n h m) = Ret (Some r) s'
    /\ nth_error (e_heap s') n = Some (with_ch c [r]) /\ nth_error (e_heap s') r = Some d /\ represents d v
    /\ e_msgs s' = m /\ forall a k, a <> n -> nth_error h a = Some k -> nth_error (e_heap s') a = Some k.
Proof.
  intros lm fn f n h m c t v (Hn & Tc & Sp & Ls & Tk) P Sf M.
  destruct (compile_start t n h m [] c Hn Tc Sp Ls Tk) as (s1 & N1 & R1 & G1 & V1 & T1 & M1).
  pose proof (goes_keeps _ _ G1) as K1.
  assert (Fo : e_font s1 = false) by (destruct G1 as (_ & _ & _ & _ & F1); exact F1).
  destruct (meaning_value lm t s1 [] v T1 R1 V1 Fo) as (r & s2 & d & E2 & H2 & D2 & K2 & M2 & F2).
  { change h with (e_heap (mkE h m n 0 0 None [] false)) in M. eapply keeps_meaning; eauto. }
  assert (Ev : evaluation lm t (start n h m) = Ret (Some r) s2).
  { unfold evaluation. rewrite (b_ret mark_start _ (start n h m) tt _ eq_refl). unfold with_start, start. cbn [e_heap e_msgs e_node e_pos e_start e_cur e_vars e_font].
    rewrite (b_ret _ _ _ _ _ N1). exact E2. }
  assert (K12 : forall a k, nth_error h a = Some k -> nth_error (e_heap s2) a = Some k) by (intros a k Ha; apply K2, K1; exact Ha).
  assert (Td : c_type d <> EOF_TOKEN /\ has_children (c_type d) = false) by (destruct v; cbn [represents] in D2; destruct D2 as (T & _); rewrite T; split; (discriminate || reflexivity)).
  destruct (evaluation_reads lm t n h m [] c Hn Tc Sp Ls Tk false r s2) as (R & G & _); auto; [discriminate|].
  pose proof G as (_ & En & Es & _). cbn [e_node e_start] in En, Es.
  destruct (replace_value s2 [] r d c R) as (used & kept & s3 & E3 & U & Sk & Hh & M3 & N3 & _ & _ & _ & _ & _ & K); auto.
  { rewrite En. apply K12. exact Hn. }
  { intros x I. pose proof (spaced_all _ _ _ Sp x I). exact (Nat.lt_le_trans _ _ _ H (goes_len _ _ _ G)). }
  { apply Td. }
  assert (kept = []) by (destruct K as [K|[K|(K & _)]]; [exact K|destruct kept; [reflexivity|discriminate]|congruence]). subst kept.
  assert (Hn2 : nth_error (e_heap s2) n = Some c) by (apply K12; exact Hn).
  exists r, s3, d. split; [rewrite (compile_value lm fn f t n h m [] c); auto; [rewrite (b_ret _ _ _ _ _ Ev); exact E3|exact I|congruence]|].
  rewrite Hh, En. split; [apply put_same; now apply nth_lt in Hn2|].
  split; [rewrite put_other; [exact H2|]; intros ->; unfold node_at in H2; assert (c = d) by congruence; subst; destruct Td; congruence|].
  split; [exact D2|]. split; [congruence|]. intros a k Ha Hk. rewrite put_other by auto. now apply K12.
Qed.

(** ** C38 The operator ?: *)
(** The condition chooses the second or the third operand. *)
Theorem c38_conditional_partial : forall lm fn f n h m c q k x y z vx vy vz,
  written h n c (Cond q k x y z) [] -> proper (Cond q k x y z) -> (tree_size (Cond q k x y z) < f)%nat ->
  meaning h x = Some vx -> meaning h y = Some vy -> meaning h z = Some vz ->
  exists r s' d, compile lm fn f (start n h m) = Ret (Some r) s'
    /\ nth_error (e_heap s') n = Some (with_ch c [r]) /\ nth_error (e_heap s') r = Some d
    /\ represents d (if truth_of vx then vy else vz) /\ e_msgs s' = m.
Proof.
  intros lm fn f n h m c q k x y z vx vy vz W P Sf X Y Z.
  destruct (c49_meaning lm fn f n h m c (Cond q k x y z) (if truth_of vx then vy else vz) W P Sf) as (r & s' & d & A & B & C & D & E & _).
  { cbn [meaning]. now rewrite X, Y, Z. }
  exists r, s', d. auto.
Qed.

(** ** Examples *)
Definition op (t : ntype) : cell := plain t.
Definition ws : cell := plain WHITESPACE.
(** [1 + 2*3 == 7 && true ? 10 - 4 - 3 : 0] *)
Definition ex_tokens : list cell :=
  [num 1 ""; ws; op ADD; ws; num 2 ""; op MULTIPLY; num 3 ""; ws; op EQUAL; num 7 ""; op AND; ident "true"; op CONDITIONAL;
   num 10 ""; op SUBTRACT; num 4 ""; op SUBTRACT; num 3 ""; op COLON; num 0 ""].
Definition ex_tree : tree := (
  Cond 13 19 (Bin OAnd 11 (Bin (OEq Equal) 9 (Bin (OAdd false) 3 (Atom 1) (Bin (OMul Mul) 6 (Atom 5) (Atom 7))) (Atom 10)) (Atom 12))
    (Bin (OAdd true) 17 (Bin (OAdd true) 15 (Atom 14) (Atom 16)) (Atom 18)) (Atom 20))%nat.
Example c49_ex : exists c, written (tokens ex_tokens) 0%nat c ex_tree [] /\ proper ex_tree /\ ends (tokens ex_tokens) []
  /\ meaning (tokens ex_tokens) ex_tree = Some (VInt 3).
Proof.
  eexists. split; [|split; [cbn; intuition lia|split; [exact I|reflexivity]]]. split; [reflexivity|]. split; [reflexivity|]. split.
  - cbn. repeat first [eapply spaced_ws; [reflexivity|reflexivity|] | eapply spaced_token; [reflexivity|discriminate|]]. constructor.
  - split; [cbn; intros c [= <-]; discriminate|]. cbn. repeat split; eexists; (split; [reflexivity|reflexivity]).
Qed.
(** Some other trees that are not proper, and the proper ones. *)
Example c49_ex2 : let t := (Bin (OMul Mul) 2 (Bin (OAdd false) 1 (Atom 0) (Atom 3)) (Atom 4))%nat in
  ~ proper t /\ powers_apart t /\ exists t', proper t' /\ flatten t' = flatten t.
Proof.
  cbn. split; [intro H; lia|]. split; [intuition discriminate|].
  exists (Bin (OAdd false) 1 (Atom 0) (Bin (OMul Mul) 2 (Atom 3) (Atom 4)))%nat. cbn. intuition lia.
Qed.

(** ** What is not so *)
(** ** does not associate: the second one is left over: [2 ** 3 ** 2]. *)
Definition flat_pow : libm := mkLibm (fun x _ => x).
Definition children_after (o : outcome est (option addr)) : list ntype :=
  match o with
  | Ret _ s => match nth_error (e_heap s) 0%nat with
               | Some c => map (fun a => match nth_error (e_heap s) a with Some k => c_type k | None => EOF_TOKEN end) (c_ch c)
               | None => []
               end
  | _ => []
  end.
Definition said (o : outcome est (option addr)) : list string := match o with Ret _ s => map m_text (e_msgs s) | _ => [] end.
Theorem c49_power_chain_refuted :
  children_after (evaluate flat_pow [num 2 ""; op POWER; num 3 ""; op POWER; num 2 ""]) = [INTEGER; POWER; INTEGER].
Proof. vm_compute. reflexivity. Qed.
(** The operand which is not chosen is evaluated; when it fails the expression
    is not read to its end: [false ? 1px + 2em + 3 : 4] is refused. *)
Theorem c38_unused_operand_refuted : forall lm,
  evaluate lm [ident "false"; op CONDITIONAL; num 1 "px"; op ADD; num 2 "em"; op ADD; num 3 ""; op COLON; num 4 ""] <> NoFuel
  /\ said (evaluate lm [ident "false"; op CONDITIONAL; num 1 "px"; op ADD; num 2 "em"; op ADD; num 3 ""; op COLON; num 4 ""])
     = ["a mandatory ':' was expected after a '?' first expression."].
Proof. intro lm. split; [vm_compute; discriminate|vm_compute; reflexivity]. Qed.
