(** * The expression compiler evaluates the proper tree *)

From Coq Require Import String ZArith List Bool Lia Arith ZifyBool Floats.SpecFloat.
From Verif Require Import Base UnicodeRange NodeHeap NodeProofs Color FloatBits Dim Expr ExprSpec ExprRun ExprFrame PrecSpec PrecStream PrecValue PrecParse.
Import ListNotations.
Open Scope string_scope. Open Scope list_scope. Open Scope Z_scope.
Ltac Zify.zify_post_hook ::= idtac.

(** ** A tree does not look like a label *)
Definition not_colon (h : heap) (ts : list addr) : Prop := match ts with b :: _ => forall c, nth_error h b = Some c -> c_type c <> COLON | [] => True end.
Lemma second_token h : forall x rest a ts c, tokens_of h x -> not_colon h rest -> flatten x ++ rest = a :: ts -> nth_error h a = Some c -> c_type c = IDENTIFIER -> not_colon h ts.
Proof.
  induction x as [b|b x IH|b x IH|b x IH|o b l IHl r IHr|q k x IHx y IHy z IHz]; intros rest a ts c Tk Nc E Ha T; cbn [flatten tokens_of] in *.
  - cbn in E. injection E as <- <-. exact Nc.
  - cbn in E. injection E as <- <-. exact Nc.
  - cbn in E. injection E as <- <-. destruct Tk as ((d & Hd & Td) & _). congruence.
  - cbn in E. injection E as <- <-. destruct Tk as ((d & Hd & Td) & _). congruence.
  - rewrite <- app_assoc in E. destruct Tk as ((d & Hd & Td) & Tl & _). apply (IHl _ a ts c Tl) in E; auto. cbn. intros e He. assert (d = e) by congruence. subst e.
    unfold op_of in Td. intro Q. rewrite Q in Td. discriminate.
  - rewrite <- app_assoc in E. destruct Tk as ((d & Hd & Td) & _ & Tx & _). apply (IHx _ a ts c Tx) in E; auto. cbn. intros e He. assert (d = e) by congruence. subst e. congruence.
Qed.
Lemma not_label s a ts : reads s (a :: ts) -> (forall c, nth_error (e_heap s) a = Some c -> c_type c = IDENTIFIER -> not_colon (e_heap s) ts) -> is_label s = Ret false s.
Proof.
  intros (Cu & (c & Ha) & B & _) K. unfold is_label. rewrite (b_ret _ _ _ _ _ (run_cur_is s a c Cu Ha IDENTIFIER)).
  destruct (ntype_eqb (c_type c) IDENTIFIER) eqn:T; cbn [negb]; [|reflexivity]. apply ntype_eqb_spec in T. specialize (K c Ha T).
  destruct B as (n & k & Hn & Tn & Ep & Le & Sp & Ls). destruct s as [h m nd ps sta cu vs fo]. cbn [e_heap e_node e_pos e_cur] in *. subst ps.
  erewrite b_ret; [|reflexivity]. erewrite b_ret; [|apply run_node_size; eauto]. cbn [e_pos].
  destruct (skipn k (c_ch n)) as [|x l] eqn:Sk.
  - pose proof (skipn_none _ _ Sk). replace (Z.of_nat (length (c_ch n)) <=? Z.of_nat k) with true by lia. reflexivity.
  - destruct (skipn_nth _ _ _ _ Sk) as [Hx _]. pose proof (nth_lt _ _ _ Hx). replace (Z.of_nat (length (c_ch n)) <=? Z.of_nat k) with false by lia.
    rewrite (b_ret _ _ _ _ _ (run_child_at h m nd sta cu vs fo n Hn Tn k x Hx)).
    inversion Sp as [|x' d l' ts' Hd Td Sp'|x' d l' ts' Hd Td Sp']; subst; [exfalso; exact (Ls _ Hd Td)|].
    erewrite b_ret; [|eapply run_type; exact Hd]. rewrite (proj2 (ntype_eqb_neq _ _) (K _ Hd)). reflexivity.
Qed.

Section Main.
  Variables (lm : libm) (fn : functions).
  Notation good := (good lm).
  Notation post := (post lm fn).
  Notation p7 := (p7 lm fn).
  Notation p0 := (p0 lm fn).

  (** The list of expressions of a group with only one. *)
  Lemma list_good f self x s : reads s (flatten x) -> tokens_of (e_heap s) x -> self s = value_of lm x s -> vars_ok s -> expression_list_ f self s = value_of lm x s.
  Proof.
    intros R Tk E V. destruct (flatten_cons x) as (a & ts & Fl). unfold expression_list_.
    rewrite (b_ret is_label _ s false s).
    2:{ rewrite Fl in R. eapply not_label; eauto. intros c Ha T. eapply (second_token _ x []); eauto; [exact I|]. now rewrite app_nil_r. }
    unfold assignment_ at 1. rewrite bind_assoc.
    destruct (value_of lm x s) as [[v|] s1| | |] eqn:E1; try (unfold bind; rewrite E; reflexivity).
    rewrite (b_ret _ _ _ _ _ E). destruct (value_reads lm x false s [] v s1 ltac:(discriminate) Tk ltac:(now rewrite app_nil_r) V E1) as (R1 & G1 & L1).
    destruct (nth_error (e_heap s1) v) as [c|] eqn:Hv; [|apply nth_error_None in Hv; lia].
    destruct R1 as ((b & e & Cb & Hb & Tb) & _).
    rewrite bind_assoc, (b_ret _ _ _ _ _ (run_type _ _ _ Hv)).
    assert (Fin : (c0 <- cur_is COMMA;; (if c0 then p <- cur_pos ;; arr <- alloc ARRAY p ;; lift (add_child arr v) ;;; array_loop f (assignment_ self) arr ;;; ret (Some arr) else ret (Some v))) s1 = Ret (Some v) s1).
    { rewrite (b_ret _ _ _ _ _ (run_cur_is s1 b e Cb Hb COMMA)), Tb. reflexivity. }
    destruct (ntype_eqb (c_type c) IDENTIFIER).
    - rewrite bind_assoc, (b_ret _ _ _ _ _ (run_cur_is s1 b e Cb Hb ASSIGNMENT)), Tb. change (ntype_eqb EOF_TOKEN ASSIGNMENT) with false. cbv iota. rewrite bind_ret. exact Fin.
    - rewrite bind_ret. exact Fin.
  Qed.

  Lemma unary_good N f t s rest : good 0 N p0 -> good 7 N p7 -> (tree_size t <= S N)%nat -> (8 <= rank t)%nat -> poised lm 9 f t s rest ->
    (rank t = 8%nat -> stops 7 (e_heap s) rest) -> unary_ f fn (exprs lm fn f false) (exprs lm fn f true) s = value_of lm t s.
  Proof.
    intros H0 H7 Sz Rk (P & Sf & Tk & R & V & St & NF) S8. unfold unary_.
    destruct t as [a|a x|a x|a x|o a l r|]; [| | | |destruct o; cbn in Rk; lia|cbn in Rk; lia]; cbn [flatten app tokens_of proper tree_size value_of] in *.
    - destruct Tk as (c & Ha & Tc). rewrite (b_ret _ _ _ _ _ (run_cur s a (proj1 R))). rewrite (b_ret _ _ _ _ _ (run_type _ _ _ Ha)).
      unfold operand. rewrite (b_ret _ _ _ _ _ (run_type _ _ _ Ha)). destruct (c_type c); try reflexivity; discriminate.
    - destruct Tk as ((c & Ha & Tc & Sp & Ls) & Tx). rewrite (b_ret _ _ _ _ _ (run_cur s a (proj1 R))). rewrite (b_ret _ _ _ _ _ (run_type _ _ _ Ha)). rewrite Tc.
      destruct (next_reads _ _ _ R) as (s1 & N1 & R1 & G1 & _). rewrite (b_ret _ _ _ _ _ N1) in NF. rewrite !(b_ret _ _ _ _ _ N1). unfold in_new in NF |- *.
      destruct (near_at _ _ _ _ (goes_weak _ _ _ G1) Ha) as (c1 & Ha1 & Tc1 & Cc1 & _). pose proof (proj1 (goes_weak _ _ _ G1)) as Nr1.
      destruct (enter_reads s1 a c1 (flatten x)) as (s2 & N2 & R2 & V2 & G2 & _); auto.
      { rewrite Tc1, Tc. reflexivity. }
      { rewrite Cc1. eapply spaced_goes; eauto. }
      { rewrite Cc1. eapply leading_goes; eauto. }
      rewrite (b_ret _ _ _ _ _ N2) in NF. rewrite !(b_ret _ _ _ _ _ N2). rewrite (list_good f (exprs lm fn f true) x s2); auto.
      + eapply tokens_goes; [|exact Tx]. eapply nodes_near_trans; [exact Nr1|]. eapply nodes_near_le; [exact (proj1 Nr1)|]. exact (proj1 (goes_weak _ _ _ G2)).
      + destruct f as [|f]; [lia|]. rewrite exprs_p0. apply (H0 f x s2 []); [lia|lia|]. split; [auto|]. split; [lia|]. split.
        { eapply tokens_goes; [|exact Tx]. eapply nodes_near_trans; [exact Nr1|]. eapply nodes_near_le; [exact (proj1 Nr1)|]. exact (proj1 (goes_weak _ _ _ G2)). }
        split; [now rewrite app_nil_r|]. split; [auto|]. split; [exact I|]. intro Q. rewrite Q in NF. now apply NF.
    - destruct Tk as ((c & Ha & Tc) & Tx). rewrite (b_ret _ _ _ _ _ (run_cur s a (proj1 R))). rewrite (b_ret _ _ _ _ _ (run_type _ _ _ Ha)). rewrite Tc.
      destruct (next_reads _ _ _ R) as (s1 & N1 & R1 & G1 & _). rewrite (b_ret _ _ _ _ _ N1) in NF. rewrite !(b_ret _ _ _ _ _ N1).
      pose proof (proj1 (goes_weak _ _ _ G1)) as Nr1. destruct f as [|f]; [lia|]. unfold with_value in *. unfold bind. rewrite exprs_p7.
      rewrite (H7 f x s1 rest); [reflexivity|lia|lia|]. split; [tauto|]. split; [lia|]. split; [eapply tokens_goes; eauto|]. split; [auto|]. split; [eapply vars_goes; eauto|].
      split; [eapply stops_goes; [exact Nr1|apply S8; reflexivity]|]. intro Q. apply NF. unfold bind. now rewrite Q.
    - destruct Tk as ((c & Ha & Tc) & Tx). rewrite (b_ret _ _ _ _ _ (run_cur s a (proj1 R))). rewrite (b_ret _ _ _ _ _ (run_type _ _ _ Ha)). rewrite Tc.
      destruct (next_reads _ _ _ R) as (s1 & N1 & R1 & G1 & _). rewrite (b_ret _ _ _ _ _ N1) in NF. rewrite !(b_ret _ _ _ _ _ N1).
      pose proof (proj1 (goes_weak _ _ _ G1)) as Nr1. destruct f as [|f]; [lia|]. rewrite exprs_p7.
      rewrite (H7 f x s1 rest); [reflexivity|lia|lia|]. split; [tauto|]. split; [lia|]. split; [eapply tokens_goes; eauto|]. split; [auto|]. split; [eapply vars_goes; eauto|].
      split; [eapply stops_goes; [exact Nr1|apply S8; reflexivity]|auto].
  Qed.
  Lemma post_good N f t s rest : good 0 N p0 -> good 7 N p7 -> (tree_size t <= S N)%nat -> (8 <= rank t)%nat -> poised lm 9 f t s rest ->
    (rank t = 8%nat -> stops 7 (e_heap s) rest) -> post f s = value_of lm t s.
  Proof.
    intros H0 H7 Sz Rk Po S8. pose proof (unary_good N f t s rest H0 H7 Sz Rk Po S8) as E. unfold PrecParse.post, post_.
    destruct (value_of lm t s) as [[b|] s1| | |] eqn:E1; try (unfold bind; rewrite E; reflexivity).
    rewrite (b_ret _ _ _ _ _ E). destruct (after _ _ _ _ _ _ _ _ Po E1) as (R1 & G1 & L1 & V1 & St1).
    destruct Po as (_ & Sf & _). pose proof (size_pos t). destruct f as [|f]; [lia|]. cbn [post_loop].
    destruct (stops_cur _ _ _ R1 St1) as (a & c & Ca & Ha & _ & Nb & Np & _).
    rewrite (b_ret _ _ _ _ _ (run_cur_is s1 a c Ca Ha OPEN_SQUAREBRACKET)), (proj2 (ntype_eqb_neq _ _) Nb).
    rewrite (b_ret _ _ _ _ _ (run_cur_is s1 a c Ca Ha PERIOD)), (proj2 (ntype_eqb_neq _ _) Np). reflexivity.
  Qed.

  Lemma all_good : forall N, good 0 N p0 /\ good 7 N p7.
  Proof.
    induction N as [|N [H0 H7]].
    - split; intros f t s rest Sz; pose proof (size_pos t); lia.
    - assert (H8 : good 8 (S N) post).
      { intros f t s rest Sz Rk Po. eapply post_good; eauto. { eapply poised_le; [|exact Po]. lia. } intros _.
        destruct Po as (_ & _ & _ & _ & _ & St & _). destruct rest; [exact I|]. destruct St as (c & Hc & A & B & C & D). exists c. split; [auto|]. split; [exact A|]. split; [auto|]. split; [auto|discriminate]. }
      assert (H9 : good 9 (S N) post).
      { intros f t s rest Sz Rk Po. eapply post_good; eauto; [lia|]. intro R8. lia. }
      assert (G7 : good 7 (S N) p7) by (apply p7_good; auto). split; [|auto].
      apply p0_good; [|auto]. apply p1_good, p2_good, p3_good, p4_good, p5_good, p6_good. exact G7.
  Qed.
  (** conditional() evaluates the proper tree. *)
  Theorem conditional_value f t s rest : proper t -> (tree_size t < f)%nat -> tokens_of (e_heap s) t -> reads s (flatten t ++ rest) -> vars_ok s ->
    ends (e_heap s) rest -> value_of lm t s <> NoFuel -> conditional lm fn f s = value_of lm t s.
  Proof.
    intros P Sf Tk R V En NF. destruct f as [|f]; [lia|]. unfold conditional. rewrite exprs_p0.
    apply (proj1 (all_good (tree_size t)) f t s rest); [lia|lia|]. split; [auto|]. split; [lia|]. split; [auto|]. split; [auto|]. split; [auto|]. split; [|auto].
    destruct rest as [|a rest]; [exact I|]. destruct En as (c & Hc & A & B & C & D). exists c. split; [auto|]. unfold stop_cell. rewrite A. split; [discriminate|]. auto.
  Qed.
  (** compile() on a new object. *)
  Section Compile.
    Variables (f : nat) (t : tree) (n : addr) (h : heap) (m : list msg) (rest : list addr) (c : cell).
    Hypotheses (P : proper t) (Sf : (tree_size t < f)%nat) (Hn : nth_error h n = Some c) (Tc : has_children (c_type c) = true).
    Hypotheses (Sp : spaced h (c_ch c) (flatten t ++ rest)) (Ls : no_leading_space h (c_ch c)) (Tk : tokens_of h t).
    Lemma compile_start : exists s1, next (mkE h m n 0 0 None [] false) = Ret tt s1 /\ reads s1 (flatten t ++ rest) /\ goes true (mkE h m n 0 0 None [] false) s1 /\ vars_ok s1
      /\ tokens_of (e_heap s1) t /\ e_msgs s1 = m.
    Proof.
      set (s0 := mkE h m n 0 0 None [] false). destruct (run_next s0 (flatten t ++ rest)) as (s1 & N1 & R1 & G1 & M1).
      - exists c, O. cbn [e_heap e_node e_pos s0]. repeat (split; [auto; try reflexivity; try apply Nat.le_0_l|]). auto.
      - left. reflexivity.
      - exists s1. split; [auto|]. split; [auto|]. split; [auto|]. split; [intros w v; destruct G1 as (_ & _ & _ & -> & _); discriminate|].
        split; [eapply tokens_goes; [|exact Tk]; exact (proj1 (goes_weak _ _ _ G1))|exact M1].
    Qed.
    Theorem compile_value : ends h rest -> evaluation lm t (start n h m) <> NoFuel ->
      compile lm fn f (start n h m) = (r <- evaluation lm t ;; replace_with_result r) (start n h m).
    Proof.
      intros En NF. unfold compile, evaluation in *. rewrite !bind_assoc.
      rewrite (b_ret mark_start _ (start n h m) tt _ eq_refl) in NF. rewrite !(b_ret mark_start _ (start n h m) tt _ eq_refl). rewrite bind_assoc. unfold with_start, start in NF |- *.
      cbn [e_heap e_msgs e_node e_pos e_start e_cur e_vars e_font] in NF |- *.
      destruct compile_start as (s1 & N1 & R1 & G1 & V1 & T1 & _). rewrite (b_ret _ _ _ _ _ N1) in NF. rewrite !(b_ret _ _ _ _ _ N1).
      pose proof (proj1 (goes_weak _ _ _ G1)) as Nr. cbn [e_heap] in Nr.
      unfold bind. rewrite (conditional_value f t s1 rest); auto.
      destruct rest as [|a r]; [exact I|]. destruct En as (d & Hd & A & B & C & D). destruct (proj2 Nr a d (nth_lt _ _ _ Hd) Hd) as (d' & Hd' & N').
      exists d'. split; [auto|]. rewrite (near_op _ _ N'). destruct N' as (-> & _). auto.
    Qed.
    Theorem evaluation_fuel : no_conditional t -> evaluation lm t (start n h m) <> NoFuel.
    Proof.
      intro Nc. unfold evaluation. rewrite (b_ret mark_start _ (start n h m) tt _ eq_refl). unfold with_start, start. cbn [e_heap e_msgs e_node e_pos e_start e_cur e_vars e_font].
      destruct compile_start as (s1 & N1 & R1 & G1 & V1 & T1 & _). rewrite (b_ret _ _ _ _ _ N1). eapply value_fuel; eauto.
    Qed.
    (** After the evaluation. *)
    Theorem evaluation_reads st v s' : (st = true -> calm t) -> evaluation lm t (start n h m) = Ret (Some v) s' ->
      reads s' rest /\ goes st (mkE h m n 0 0 None [] false) s' /\ (v < length (e_heap s'))%nat.
    Proof.
      intros St. unfold evaluation. rewrite (b_ret mark_start _ (start n h m) tt _ eq_refl). unfold with_start, start. cbn [e_heap e_msgs e_node e_pos e_start e_cur e_vars e_font].
      destruct compile_start as (s1 & N1 & R1 & G1 & V1 & T1 & _). rewrite (b_ret _ _ _ _ _ N1). intro E.
      destruct (value_reads lm t st s1 rest v s' St T1 R1 V1 E) as (A & B & C). split; [auto|]. split; [|auto]. eapply goes_trans; [apply goes_any; exact G1|exact B].
    Qed.
  End Compile.
End Main.

(** ** replace_with_result *)
Section Replace.
  Variables (m : list msg) (nd : addr) (vs : list (str * option addr)) (fo : bool).
  Lemma skipn_erase {A} : forall j (l : list A), (j < length l)%nat -> skipn j (list_erase j l) = skipn (S j) l.
  Proof.
    intros j l H. unfold list_erase. rewrite skipn_app, firstn_length, Nat.min_l by lia. rewrite (skipn_all2 (firstn j l)) by (rewrite firstn_length; lia).
    rewrite Nat.sub_diag. reflexivity.
  Qed.
  Lemma erase_length {A} j (l : list A) : (j < length l)%nat -> length (list_erase j l) = (length l - 1)%nat.
  Proof. intro H. unfold list_erase. rewrite app_length, firstn_length, skipn_length. lia. Qed.
  Lemma run_remove_back cu : forall j h c, nth_error h nd = Some c -> has_children (c_type c) = true -> (j <= length (c_ch c))%nat ->
    remove_back j 0 (mkE h m nd (Z.of_nat j) 0 cu vs fo) = Ret tt (mkE (put h nd (with_ch c (skipn j (c_ch c)))) m nd 0 0 cu vs fo).
  Proof.
    induction j as [|j IH]; intros h c Hn Tc Le.
    - cbn [remove_back skipn]. unfold ret. replace (with_ch c (c_ch c)) with c by (destruct c; reflexivity). rewrite put_id; auto.
    - cbn [remove_back]. erewrite b_ret; [|reflexivity]. cbn [e_pos]. replace (0 <? Z.of_nat (S j)) with true by lia.
      replace (Z.of_nat (S j) - 1) with (Z.of_nat j) by lia. erewrite b_ret; [|reflexivity]. unfold with_pos. cbn [e_heap e_msgs e_node e_pos e_start e_cur e_vars e_font].
      erewrite (b_ret _ _ _ tt (mkE (put h nd (with_ch c (list_erase j (c_ch c)))) m nd (Z.of_nat j) 0 cu vs fo)).
      2:{ cbn [e_node]. unfold lift, remove_child_at, load, NodeHeap.bind, supports. cbn [e_heap]. rewrite Hn, Tc. unfold NodeHeap.ret, store.
          replace (Z.of_nat (length (c_ch c)) <=? Z.of_nat j) with false by lia. rewrite Nat2Z.id. reflexivity. }
      rewrite (IH (put h nd (with_ch c (list_erase j (c_ch c)))) (with_ch c (list_erase j (c_ch c)))).
      + rewrite put_put. cbn [c_ch with_ch]. rewrite skipn_erase by lia. reflexivity.
      + apply put_same. now apply nth_lt in Hn.
      + exact Tc.
      + cbn [c_ch with_ch]. rewrite erase_length by lia. lia.
  Qed.
  Lemma run_back h c a : nth_error h nd = Some c -> has_children (c_type c) = true -> forall k i, (i < k <= length (c_ch c))%nat -> nth_error (c_ch c) i = Some a ->
    (forall j, (i < j < k)%nat -> nth_error (c_ch c) j <> Some a) ->
    back_to_current k (mkE h m nd (Z.of_nat k) 0 (Some a) vs fo) = Ret tt (mkE h m nd (Z.of_nat i) 0 (Some a) vs fo).
  Proof.
    intros Hn Tc. induction k as [|k IH]; intros i Le Hi U; [lia|]. cbn [back_to_current]. erewrite b_ret; [|reflexivity]. cbn [e_pos].
    replace (0 <? Z.of_nat (S k)) with true by lia. replace (Z.of_nat (S k) - 1) with (Z.of_nat k) by lia. erewrite b_ret; [|reflexivity].
    unfold with_pos. cbn [e_heap e_msgs e_node e_pos e_start e_cur e_vars e_font].
    destruct (nth_error (c_ch c) k) as [b|] eqn:Hk; [|apply nth_error_None in Hk; lia].
    rewrite (b_ret _ _ _ _ _ (run_child_at h m nd 0 (Some a) vs fo c Hn Tc k b Hk)). erewrite b_ret; [|reflexivity].
    destruct (Nat.eqb_spec b a) as [->|Ne].
    - destruct (Nat.eq_dec i k) as [->|Ni]; [reflexivity|]. exfalso. apply (U k); [lia|auto].
    - apply IH; [|auto|intros j Hj; apply U; lia]. assert (i <> k) by (intros ->; congruence). lia.
  Qed.
End Replace.

(** The nodes of the expression are replaced by its value. *)
Theorem replace_value s rest v k c : reads s rest -> nth_error (e_heap s) (e_node s) = Some c -> e_start s = 0 ->
  (forall x, In x (c_ch c) -> (x < length (e_heap s))%nat) -> nth_error (e_heap s) v = Some k -> c_type k <> EOF_TOKEN ->
  (match rest with a :: _ => forall d, nth_error (e_heap s) a = Some d -> c_type d <> EOF_TOKEN | [] => True end) ->
  exists used kept s', replace_with_result (Some v) s = Ret (Some v) s' /\ c_ch c = used ++ kept /\ spaced (e_heap s) kept rest
    /\ e_heap s' = put (e_heap s) (e_node s) (with_ch c (v :: kept)) /\ e_msgs s' = e_msgs s /\ e_node s' = e_node s /\ e_pos s' = 1 /\ e_start s' = 1 /\ e_cur s' = e_cur s /\ e_vars s' = e_vars s /\ e_font s' = e_font s
    /\ (kept = [] \/ hd_error kept = hd_error rest \/ rest <> [] /\ exists w d, hd_error kept = Some w /\ nth_error (e_heap s) w = Some d /\ c_type d = WHITESPACE /\ hd_error (tl kept) = hd_error rest).
Proof.
  intros R Hc Es All Hv Tv Nr. destruct (reads_cur _ _ R) as (a & e & Cu & Ha).
  assert (B : exists ts, before s ts) by (destruct rest; [exists []; apply R|exists rest; apply R]). destruct B as (ts & c' & p & Hc' & Tc & Ep & Lp & _). assert (c' = c) by congruence. subst c'.
  assert (Fin : forall j kept, (j <= length (c_ch c))%nat -> skipn j (c_ch c) = kept ->
    exists s', ((fun s => remove_back (Z.to_nat (e_pos s)) (e_start s) s) ;;; q <- get_pos ;; (fun s => lift (insert_child (e_node s) q v) s) ;;; set_pos (q + 1) ;;; mark_start ;;; ret (Some v)) (with_pos s (Z.of_nat j)) = Ret (Some v) s'
      /\ e_heap s' = put (e_heap s) (e_node s) (with_ch c (v :: kept)) /\ e_msgs s' = e_msgs s /\ e_node s' = e_node s /\ e_pos s' = 1 /\ e_start s' = 1 /\ e_cur s' = e_cur s /\ e_vars s' = e_vars s /\ e_font s' = e_font s).
  { intros j kept Lj Sk. destruct s as [h m nd ps sta cu vs fo]. unfold with_pos. cbn [e_heap e_msgs e_node e_pos e_start e_cur e_vars e_font] in *. subst sta.
    erewrite b_ret. 2:{ cbn [e_pos e_start]. rewrite Nat2Z.id. apply (run_remove_back m nd vs fo cu j h c); auto. }
    erewrite b_ret; [|reflexivity]. cbn [e_pos]. set (h1 := put h nd (with_ch c (skipn j (c_ch c)))).
    assert (Hn1 : nth_error h1 nd = Some (with_ch c kept)) by (unfold h1; rewrite Sk; apply put_same; now apply nth_lt in Hc).
    assert (Hv1 : exists kv, nth_error h1 v = Some kv /\ c_type kv = c_type k).
    { destruct (Nat.eq_dec v nd) as [->|Nv]; [exists (with_ch c kept); split; [auto|]; cbn [c_type with_ch]; congruence|]. exists k. split; [unfold h1; rewrite put_other; auto|auto]. }
    destruct Hv1 as (kv & Hv1 & Tkv).
    assert (K : insert_child nd 0 v h1 = Ret tt (put h nd (with_ch c (v :: kept)))).
    { assert (E0 : forall l, put h1 nd (with_ch (with_ch c kept) l) = put h nd (with_ch c l)) by (intro; unfold h1; rewrite put_put; reflexivity).
      unfold insert_child, add_child, NodeHeap.bind at 1, load at 1. rewrite Hn1. destruct kept as [|x kept]; cbn [c_ch with_ch length].
      - change (0 =? Z.of_nat 0) with true. cbv iota. unfold NodeHeap.bind, load, supports. rewrite Hn1. cbn [c_type with_ch c_ch rev app]. rewrite Tc. unfold NodeHeap.ret, store. rewrite Hv1, Tkv.
        rewrite (proj2 (ntype_eqb_neq _ _) Tv). destruct (ntype_eqb (c_type k) WHITESPACE); rewrite E0; reflexivity.
      - replace (0 =? Z.of_nat (S (length kept))) with false by lia. unfold NodeHeap.bind, load, supports. cbn [c_type with_ch c_ch]. rewrite Tc. unfold NodeHeap.ret, store.
        replace (Z.of_nat (S (length kept)) <=? 0) with false by lia. rewrite Hv1, Tkv, (proj2 (ntype_eqb_neq _ _) Tv). rewrite E0. reflexivity. }
    erewrite b_ret. 2:{ cbn [e_node]. unfold lift. cbn [e_heap]. rewrite K. reflexivity. }
    eexists. split; [reflexivity|]. cbn. repeat (split; [reflexivity|]). reflexivity. }
  assert (Asc : forall (p1 : E unit) s0, ((p1 ;;; (fun s => remove_back (Z.to_nat (e_pos s)) (e_start s) s) ;;; q <- get_pos ;; (fun s => lift (insert_child (e_node s) q v) s) ;;; set_pos (q + 1)) ;;; mark_start ;;; ret (Some v)) s0
     = (p1 ;;; ((fun s => remove_back (Z.to_nat (e_pos s)) (e_start s) s) ;;; q <- get_pos ;; (fun s => lift (insert_child (e_node s) q v) s) ;;; set_pos (q + 1) ;;; mark_start ;;; ret (Some v))) s0).
  { intros p1 s0. rewrite bind_assoc. unfold bind. destruct (p1 s0) as [u s1| | |]; try reflexivity. destruct (remove_back _ _ s1) as [u2 s2| | |]; try reflexivity.
    unfold get_pos. destruct (lift (insert_child (e_node s2) (e_pos s2) v) s2); reflexivity. }
  unfold replace_with_result. rewrite bind_assoc. rewrite (b_ret _ _ _ _ _ (run_cur_type s a e Cu Ha)). rewrite bind_assoc. rewrite (b_ret get_pos _ s (e_pos s) s eq_refl). rewrite Asc.
  destruct rest as [|r rest].
  - destruct R as ((a' & e' & Cu' & He' & Te') & (c2 & p2 & Hc2 & Tc2 & Ep2 & Lp2 & Sp2 & Ld2)). assert (e = e') by congruence. subst e'. assert (c2 = c) by congruence. subst c2. rewrite Te'.
    change (ntype_eqb EOF_TOKEN EOF_TOKEN) with true. cbn [negb andb]. rewrite bind_ret. assert (p2 = p) by lia. subst p2.
    destruct (Fin p (skipn p (c_ch c)) Lp eq_refl) as (s' & F1 & F2).
    exists (firstn p (c_ch c)), (skipn p (c_ch c)), s'. split; [|split; [symmetry; apply firstn_skipn|split; [exact Sp2|]]].
    + rewrite <- F1. f_equal. unfold with_pos. rewrite <- Ep. destruct s; reflexivity.
    + destruct F2 as (G1 & G2 & G3 & G4 & G5 & G6 & G7 & G8). do 8 (split; [assumption|]).
      left. inversion Sp2 as [|x d l ts' Hd Td Sp'|]; subst; [reflexivity|]. rewrite <- H in Ld2. exfalso. exact (Ld2 _ Hd Td).
  - destruct R as (Cu' & _ & _ & (c2 & p2 & i & Hc2 & Ep2 & Li & Hi & Sp & Ld & U)). assert (a = r) by congruence. subst r. assert (c2 = c) by congruence. subst c2. assert (p2 = p) by lia. subst p2.
    rewrite (proj2 (ntype_eqb_neq _ _) (Nr e Ha)). cbn [negb andb]. rewrite Ep. replace (0 <? Z.of_nat p) with true by lia. rewrite Nat2Z.id.
    rewrite bind_assoc. destruct s as [h m nd ps sta cu vs fo]. cbn [e_heap e_msgs e_node e_pos e_start e_cur e_vars e_font] in *. subst sta ps cu.
    rewrite (b_ret _ _ _ _ _ (run_back m nd vs fo h c a Hc Tc p i Li Hi U)). rewrite bind_assoc. erewrite b_ret; [|reflexivity]. cbn [e_pos].
    unfold with_pos in Fin. cbn [e_heap e_msgs e_node e_pos e_start e_cur e_vars e_font] in Fin.
    assert (Stay : exists used kept s', ((fun s => remove_back (Z.to_nat (e_pos s)) (e_start s) s) ;;; q <- get_pos ;; (fun s => lift (insert_child (e_node s) q v) s) ;;; set_pos (q + 1) ;;; mark_start ;;; ret (Some v)) (mkE h m nd (Z.of_nat i) 0 (Some a) vs fo) = Ret (Some v) s'
      /\ c_ch c = used ++ kept /\ spaced h kept (a :: rest) /\ e_heap s' = put h nd (with_ch c (v :: kept)) /\ e_msgs s' = m /\ e_node s' = nd /\ e_pos s' = 1 /\ e_start s' = 1 /\ e_cur s' = Some a /\ e_vars s' = vs /\ e_font s' = fo
      /\ (kept = [] \/ hd_error kept = hd_error (a :: rest) \/ (a :: rest <> []) /\ exists w d, hd_error kept = Some w /\ nth_error h w = Some d /\ c_type d = WHITESPACE /\ hd_error (tl kept) = hd_error (a :: rest))).
    { destruct (Fin i (skipn i (c_ch c)) ltac:(lia) eq_refl) as (s' & F1 & F2). exists (firstn i (c_ch c)), (skipn i (c_ch c)), s'. split; [exact F1|].
      split; [symmetry; apply firstn_skipn|]. split; [exact Sp|]. destruct F2 as (G1 & G2 & G3 & G4 & G5 & G6 & G7 & G8). do 8 (split; [assumption|]). right. left.
      inversion Sp as [|x d l ts' Hd Td Sp' |x d l ts' Hd Td Sp']; subst; [|reflexivity].
      exfalso. rewrite <- H in Ld. exact (Ld _ Hd Td). }
    destruct (0 <? Z.of_nat i) eqn:Z0; [|rewrite bind_ret; exact Stay].
    assert (exists w, nth_error (c_ch c) (i - 1) = Some w) as (w & Hw) by (destruct (nth_error (c_ch c) (i - 1)) eqn:Q; [eauto|apply nth_error_None in Q; lia]).
    replace (Z.of_nat i - 1) with (Z.of_nat (i - 1)) by lia.
    rewrite bind_assoc. rewrite (b_ret (child _) _ _ w (mkE h m nd (Z.of_nat i) 0 (Some a) vs fo)).
    2:{ unfold child. cbn [e_node]. eapply run_child; eauto; [|rewrite Nat2Z.id; exact Hw]. lia. }
    destruct (nth_error h w) as [d|] eqn:Hd.
    2:{ exfalso. apply nth_error_None in Hd. apply nth_error_In in Hw. specialize (All w Hw). exact (Nat.lt_irrefl _ (Nat.lt_le_trans _ _ _ All Hd)). }
    rewrite bind_assoc. erewrite b_ret; [|eapply run_type; exact Hd]. destruct (ntype_eqb (c_type d) WHITESPACE) eqn:Td; [|rewrite bind_ret; exact Stay].
    apply ntype_eqb_spec in Td. erewrite b_ret; [|reflexivity].
    assert (Sk : skipn (i - 1) (c_ch c) = w :: skipn i (c_ch c)).
    { clear - Hw Z0. replace i with (S (i - 1)) at 2 by lia. revert Hw. generalize (i - 1)%nat (c_ch c). clear. induction n; intros [|x l]; cbn; try discriminate; [intros [= ->]; reflexivity|]. apply IHn. }
    destruct (Fin (i - 1)%nat (w :: skipn i (c_ch c)) ltac:(lia) Sk) as (s' & F1 & F2). exists (firstn (i - 1) (c_ch c)), (w :: skipn i (c_ch c)), s'. split; [exact F1|].
    split; [rewrite <- Sk; symmetry; apply firstn_skipn|]. split; [eapply spaced_ws; eauto|]. destruct F2 as (G1 & G2 & G3 & G4 & G5 & G6 & G7 & G8). do 8 (split; [assumption|]). right. right. split; [discriminate|].
    exists w, d. split; [reflexivity|]. split; [auto|]. split; [auto|]. cbn [tl].
    inversion Sp as [|x d' l ts' Hd' Td' Sp' |x d' l ts' Hd' Td' Sp']; subst; [|reflexivity]. exfalso. rewrite <- H in Ld. exact (Ld _ Hd' Td').
Qed.

Lemma spaced_all h l ts : spaced h l ts -> forall x, In x l -> (x < length h)%nat.
Proof. intro S. induction S as [|a c l ts H T S IH|a c l ts H T S IH]; cbn; [tauto| |]; (intros x [<-|I]; [now apply nth_lt in H|auto]). Qed.
Definition is_token (h : heap) (x : addr) : bool := match nth_error h x with Some c => negb (ntype_eqb (c_type c) WHITESPACE) | None => false end.
Lemma spaced_filter h l ts : spaced h l ts -> ts = filter (is_token h) l.
Proof.
  induction 1 as [|a c l ts H T S IH|a c l ts H T S IH]; cbn [filter]; [reflexivity| |]; unfold is_token at 1; rewrite H.
  - rewrite T. change (ntype_eqb WHITESPACE WHITESPACE) with true. exact IH.
  - rewrite (proj2 (ntype_eqb_neq _ _) T). cbn. f_equal. exact IH.
Qed.
Lemma filter_spaced h : forall l, (forall x, In x l -> exists c, nth_error h x = Some c) -> spaced h l (filter (is_token h) l).
Proof.
  induction l as [|a l IH]; intro V; [constructor|]. destruct (V a (or_introl eq_refl)) as (c & H). cbn [filter]. unfold is_token at 1. rewrite H.
  assert (S : spaced h l (filter (is_token h) l)) by (apply IH; intros x I; apply V; now right).
  destruct (ntype_eqb (c_type c) WHITESPACE) eqn:T; cbn.
  - apply ntype_eqb_spec in T. eapply spaced_ws; eauto.
  - apply ntype_eqb_neq in T. eapply spaced_token; eauto.
Qed.
Lemma spaced_split h l1 l2 t1 t2 : spaced h (l1 ++ l2) (t1 ++ t2) -> spaced h l2 t2 -> spaced h l1 t1.
Proof.
  intros A B. pose proof (spaced_filter _ _ _ A) as FA. pose proof (spaced_filter _ _ _ B) as FB. rewrite filter_app in FA. rewrite FB in FA. apply app_inv_tail in FA. rewrite FA.
  apply filter_spaced. intros x I. pose proof (spaced_all _ _ _ A x (in_or_app _ _ _ (or_introl I))) as L. destruct (nth_error h x) eqn:Q; [eauto|]. apply nth_error_None in Q.
  exfalso. exact (Nat.lt_irrefl _ (Nat.lt_le_trans _ _ _ L Q)).
Qed.
