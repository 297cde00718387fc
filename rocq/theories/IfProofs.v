(** * Trees that need no preprocessing; @if chains *)

From Coq Require Import String ZArith List Bool Lia Arith ZifyBool Floats.SpecFloat.
From Verif Require Import Base NodeHeap NodeProofs Compiler CompRun ScopeProofs IfSpec.
From Verif Require Parser.
Import ListNotations.
Open Scope string_scope. Open Scope list_scope. Open Scope Z_scope.
Ltac Zify.zify_post_hook ::= idtac.

(** ** Comments without references *)
Lemma find_from_some c : forall s from p, find_from c s from = Some p -> (from <= p < length s)%nat /\ nth p s 0 = c.
Proof.
  induction s as [|y s IH]; intros from p; [destruct from; discriminate|].
  destruct from as [|from]; cbn [find_from].
  - destruct (y =? c) eqn:E.
    + intro Q. injection Q as <-. cbn [length nth]. split; [lia|lia].
    + destruct (find_from c s 0) as [q|] eqn:F; [|discriminate]. intro Q. injection Q as <-. apply IH in F. cbn [length nth]. split; [lia|tauto].
  - destruct (find_from c s from) as [q|] eqn:F; [|discriminate]. intro Q. injection Q as <-. apply IH in F. cbn [length nth]. split; [lia|tauto].
Qed.
Lemma comment_id w x p c : no_reference c -> forall fuel from s, (length c <= fuel + from)%nat -> comment_loop w x p (S fuel) from c s = Ret c s.
Proof.
  intro N. induction fuel as [|fuel IH]; intros from s L; cbn [comment_loop];
    (destruct (find_from 123 c from) as [q|] eqn:F; [|reflexivity]); apply find_from_some in F; destruct F as [F1 F2].
  - lia.
  - replace (nth (q + 1) c 0 =? 36) with false by (rewrite Nat.add_1_r; specialize (N q F2); lia).
    rewrite andb_false_r. apply IH. lia.
Qed.

(** ** Settled trees are left alone *)
Lemma settled_mono D h d a : settled D h d a -> forall d', (d <= d')%nat -> settled D h d' a.
Proof.
  revert a. induction d as [d IHd] using lt_wf_ind. intros a S d' L. destruct S as [d a c N H T|d a c N H T R|d a c N H T E W Fa].
  - eapply settled_simple; eauto.
  - destruct d' as [|d']; [lia|]. eapply settled_comment; eauto.
  - destruct d' as [|d']; [lia|]. eapply settled_group; eauto; [lia|].
    apply Forall_forall. intros y Hy. rewrite Forall_forall in Fa. apply (IHd d); [lia|auto|lia].
Qed.
Lemma settled_keeps D h h' d a : keeps D h h' -> settled D h d a -> settled D h' d a.
Proof.
  intros K. revert a. induction d as [d IHd] using lt_wf_ind. intros a S. destruct S as [d a c N H T|d a c N H T R|d a c N H T E W Fa].
  - eapply settled_simple; eauto. eapply keeps_at; eauto.
  - eapply settled_comment; eauto. eapply keeps_at; eauto.
  - eapply settled_group; eauto. { eapply keeps_at; eauto. }
    apply Forall_forall. intros y Hy. rewrite Forall_forall in Fa. apply (IHd d); auto.
Qed.
Lemma settled_at D h d a : settled D h d a -> exists c, nth_error h a = Some c /\ ~ In a D /\ c_type c <> VARIABLE /\ c_type c <> VARIABLE_FUNCTION.
Proof.
  intros [d' a' c N H T|d' a' c N H T R|d' a' c N H T E W Fa]; exists c; split; auto; split; auto.
  - destruct (c_type c); try discriminate T; split; discriminate.
  - rewrite T; split; discriminate.
  - destruct T as [T|[T _]]; [|rewrite T; split; discriminate]. destruct (c_type c); try discriminate T; split; discriminate.
Qed.
Lemma not_variable_set h m ps n c (wb : bool) D d : nth_error h n = Some c -> Forall (settled D h d) (c_ch c) ->
  is_variable_set n wb (mkK h m ps) = Ret false (mkK h m ps).
Proof.
  intros H Fa. unfold is_variable_set. erewrite b_ret; [|eapply run_load; exact H].
  unfold child_nodes, bind. cbn [k_heap].
  destruct (c_ch c) as [|a [|b [|e l]]]; cbn [map]; try reflexivity.
  inversion Fa as [|? ? S _]; subst. destruct (settled_at _ _ _ _ S) as (k & Hk & _ & V1 & V2). rewrite Hk.
  unfold Parser.is_variable_set, Parser.child_is, Parser.obind, is. cbn [length nth_error]. change ((_ <? 3)%nat) with false. cbv iota. cbn [n_type mk].
  replace (ntype_eqb (c_type k) VARIABLE) with false by (symmetry; now apply ntype_eqb_neq).
  replace (ntype_eqb (c_type k) VARIABLE_FUNCTION) with false by (symmetry; now apply ntype_eqb_neq). reflexivity.
Qed.
Lemma step_over_same h m ps n c idx (x : addr) : nth_error h n = Some c -> has_children (c_type c) = true -> nth_error (c_ch c) idx = Some x ->
  step_over n x (Z.of_nat idx) (mkK h m ps) = Ret (Z.of_nat (S idx)) (mkK h m ps).
Proof.
  intros H E N. pose proof (nth_lt _ _ _ N). unfold step_over. erewrite b_ret; [|eapply run_size; eauto].
  match goal with |- context [Z.of_nat idx <? ?z] => replace (Z.of_nat idx <? z) with true by (symmetry; apply Z.ltb_lt, inj_lt; assumption) end.
  erewrite b_ret; [|eapply run_child; [exact H|exact E|rewrite Nat2Z.id; exact N|lia]]. rewrite Nat.eqb_refl. unfold ret. f_equal. lia.
Qed.

Definition special (s : str) : bool := existsb (str_eqb s) special_names.
Lemma special_spec s : special s = false <-> ~ In s special_names.
Proof.
  unfold special. rewrite <- not_true_iff_false, existsb_exists. split; intros A B; apply A.
  - exists s. split; [exact B|apply str_eqb_refl].
  - destruct B as (y & I & E). apply str_eqb_spec in E. now subst.
Qed.
Lemma plain_at_keyword w f self x parent n idx h m ps c : nth_error h n = Some c -> c_type c = AT_KEYWORD -> ~ In (c_str c) special_names ->
  self x n (mkK h m ps) = Ret tt (mkK h m ps) ->
  replace_at_keyword w f self x parent n idx (mkK h m ps) = Ret (idx + 1) (mkK h m ps).
Proof.
  intros H T N S. unfold replace_at_keyword. erewrite b_ret; [|eapply run_string; [exact H|rewrite T; reflexivity]].
  apply special_spec in N. unfold special, special_names in N. cbn [map existsb] in N.
  repeat (apply orb_false_elim in N; destruct N as [? N]).
  rewrite H1, H0, H2, H3, H4. erewrite b_ret; [|exact S]. cbn [existsb]. rewrite H5, H6, H7, H8, H9. reflexivity.
Qed.

(** The loop goes past a settled child. *)
Lemma loop_past w self x n c h m ps D d : nth_error h n = Some c -> has_children (c_type c) = true ->
  (forall a, settled D h d a -> self x a (mkK h m ps) = Ret tt (mkK h m ps)) ->
  forall l2 l1 l3 fuel, c_ch c = l1 ++ l2 ++ l3 -> Forall (settled D h d) l2 ->
    variables_loop w self x n (length l2 + fuel) (Z.of_nat (length l1)) (mkK h m ps)
    = variables_loop w self x n fuel (Z.of_nat (length (l1 ++ l2))) (mkK h m ps).
Proof.
  intros H E Sf. induction l2 as [|a l2 IH]; intros l1 l3 fuel Ch Fa; [now rewrite app_nil_r|].
  inversion Fa as [|? ? Sa Fa']; subst.
  cbn [length Nat.add]. cbn [variables_loop]. erewrite b_ret; [|eapply run_size; eauto].
  assert (N : nth_error (c_ch c) (length l1) = Some a) by (rewrite Ch; apply nth_mid).
  pose proof (nth_lt _ _ _ N) as L. replace (_ <=? Z.of_nat (length l1)) with false by lia.
  erewrite b_ret; [|eapply run_child; [exact H|exact E|rewrite Nat2Z.id; exact N|lia]].
  destruct (settled_at _ _ _ _ Sa) as (k & Hk & _). erewrite b_ret; [|eapply run_type; exact Hk].
  assert (Next : variables_loop w self x n (length l2 + fuel) (Z.of_nat (S (length l1))) (mkK h m ps)
               = variables_loop w self x n fuel (Z.of_nat (length (l1 ++ a :: l2))) (mkK h m ps)).
  { specialize (IH (l1 ++ [a]) l3 fuel). rewrite <- !app_assoc, app_length, Nat.add_1_r in IH. cbn [app length] in IH. apply IH; [|exact Fa'].
    exact Ch. }
  assert (By : variables_loop w self x n (length l2 + fuel) (Z.of_nat (length l1) + 1) (mkK h m ps)
             = variables_loop w self x n fuel (Z.of_nat (length (l1 ++ a :: l2))) (mkK h m ps)) by (rewrite <- Next; f_equal; lia).
  assert (Over : (self x a ;;; i <- step_over n a (Z.of_nat (length l1)) ;; variables_loop w self x n (length l2 + fuel) i) (mkK h m ps)
             = variables_loop w self x n fuel (Z.of_nat (length (l1 ++ a :: l2))) (mkK h m ps)).
  { erewrite b_ret; [|apply Sf, Sa]. erewrite b_ret; [|eapply step_over_same; eauto]. exact Next. }
  destruct Sa as [d a k' Na Hk' T|d a k' Na Hk' T R|d a k' Na Hk' T El Wd Fc]; rewrite Hk in Hk'; injection Hk' as <-.
  - destruct (c_type k); try discriminate T; exact By.
  - rewrite T. exact Over.
  - destruct T as [T|[T Ns]].
    + destruct (c_type k); try discriminate T; exact Over.
    + rewrite T. erewrite b_ret; [|eapply plain_at_keyword; [exact Hk|exact T|exact Ns|]].
      * exact By.
      * apply Sf. eapply settled_group; eauto.
Qed.
Lemma loop_end w self x n c h m ps fuel : nth_error h n = Some c -> has_children (c_type c) = true ->
  variables_loop w self x n (S fuel) (Z.of_nat (length (c_ch c))) (mkK h m ps) = Ret tt (mkK h m ps).
Proof.
  intros H E. cbn [variables_loop]. erewrite b_ret; [|eapply run_size; eauto]. replace (_ <=? _) with true by lia. reflexivity.
Qed.
Lemma settled_children D h n c d : nth_error h n = Some c -> has_children (c_type c) = true -> (length (c_ch c) < d)%nat ->
  Forall (settled D h d) (c_ch c) -> forall w self x m ps fuel, (d <= fuel)%nat ->
  (forall a, settled D h d a -> self x a (mkK h m ps) = Ret tt (mkK h m ps)) ->
  variables_loop w self x n fuel 0 (mkK h m ps) = Ret tt (mkK h m ps).
Proof.
  intros H E L Fa w self x m ps fuel Lf Sf.
  pose proof (loop_past w self x n c h m ps D d H E Sf (c_ch c) [] [] (fuel - length (c_ch c))) as Q. cbn [app length] in Q. rewrite app_nil_r in Q.
  specialize (Q eq_refl Fa). replace (length (c_ch c) + (fuel - length (c_ch c)))%nat with fuel in Q by lia. etransitivity; [exact Q|].
  replace (fuel - length (c_ch c))%nat with (S (fuel - length (c_ch c) - 1)) by lia. now apply loop_end.
Qed.

Lemma with_str_same c : with_str c (c_str c) = c. Proof. destruct c; reflexivity. Qed.
Lemma settled_run w D h m ps : forall d a, settled D h d a -> forall fuel x, (d < fuel)%nat -> replace_variables w fuel x a (mkK h m ps) = Ret tt (mkK h m ps).
Proof.
  induction d as [d IHd] using lt_wf_ind. intros a S fuel x L. destruct fuel as [|fuel]; [lia|]. cbn [replace_variables].
  destruct S as [d a c N H T|d a c N H T R|d a c N H T E W Fa].
  - erewrite b_ret; [|eapply run_type; exact H]. destruct (c_type c); try discriminate T; reflexivity.
  - erewrite b_ret; [|eapply run_type; exact H]. rewrite T. unfold replace_variables_in_comment.
    erewrite b_ret; [|eapply run_string; [exact H|rewrite T; reflexivity]].
    erewrite b_ret; [|eapply run_pos; exact H].
    erewrite b_ret; [|apply comment_id; [exact R|lia]].
    erewrite run_set_string; [|exact H|rewrite T; reflexivity]. rewrite with_str_same, put_id by exact H. reflexivity.
  - assert (Hc : has_children (c_type c) = true).
    { destruct T as [T|[T _]]; [|rewrite T; reflexivity]. destruct (c_type c); try discriminate T; reflexivity. }
    assert (Body : (t <- type_of a ;;
        set <- (if ntype_eqb t COMPONENT_VALUE then is_variable_set a false else ret false) ;;
        first <- (if set : bool then
                    v <- child_is a 0 VARIABLE_FUNCTION ;; if v : bool then lift (size a) else ret 1
                  else ret 0) ;;
        variables_loop w (replace_variables w fuel) (push x a) a fuel first ;;;
        if set : bool then compiler_set_variable (push x a) a else ret tt) (mkK h m ps) = Ret tt (mkK h m ps)).
    { erewrite b_ret; [|eapply run_type; exact H].
      assert (Q : (if ntype_eqb (c_type c) COMPONENT_VALUE then is_variable_set a false else ret false) (mkK h m ps) = Ret false (mkK h m ps)).
      { destruct (ntype_eqb (c_type c) COMPONENT_VALUE); [|reflexivity]. eapply not_variable_set; eauto. }
      erewrite b_ret; [|exact Q]. cbv iota. rewrite bind_ret.
      erewrite b_ret; [|eapply (settled_children D h a c d H Hc W Fa); [lia|]].
      - reflexivity.
      - intros y Sy. apply (IHd d); [lia|exact Sy|lia]. }
    erewrite b_ret; [|eapply run_type; exact H].
    destruct T as [T|[T _]]; [|rewrite T; exact Body].
    destruct (c_type c) eqn:Ty; try discriminate T; try exact Body.
    erewrite b_ret; [|eapply run_empty; [exact H|rewrite Ty; reflexivity]].
    destruct (c_ch c) eqn:Ec; [exfalso; now apply E|exact Body].
Qed.

(** ** Chains *)
Definition marked (h h' : heap) (e : addr) : Prop :=
  forall c, nth_error h e = Some c -> exists j, nth_error h' e = Some (with_int c j).
Lemma marked_refl h e : marked h h e.
Proof. intros c H. exists (c_int c). rewrite H. destruct c; reflexivity. Qed.
Lemma marked_trans h1 h2 h3 e : marked h1 h2 e -> marked h2 h3 e -> marked h1 h3 e.
Proof. intros A B c H. destruct (A c H) as (j & H2). destruct (B _ H2) as (k & H3). exists k. exact H3. Qed.
Lemma marked_same h h' e : nth_error h' e = nth_error h e -> marked h h' e.
Proof. intros E c H. rewrite E, H. exists (c_int c). destruct c; reflexivity. Qed.

Lemma insert_run m ps (P : addr) : forall (l : list addr) h cp (pre rest : list addr), nth_error h P = Some cp -> has_children (c_type cp) = true -> c_ch cp = pre ++ rest ->
  Forall (fun y => y <> P /\ exists c, nth_error h y = Some c /\ c_type c <> WHITESPACE /\ c_type c <> EOF_TOKEN) l ->
  insert_all P (Z.of_nat (length pre)) l (mkK h m ps) = Ret tt (mkK (put h P (with_ch cp (pre ++ l ++ rest))) m ps).
Proof.
  induction l as [|a l IH]; intros h cp pre rest H E Ch Fa.
  - cbn [insert_all app]. rewrite <- Ch. replace (with_ch cp (c_ch cp)) with cp by (destruct cp; reflexivity). rewrite put_id by exact H. reflexivity.
  - inversion Fa as [|? ? (Na & c & Hc & T1 & T2) Fa']; subst. cbn [insert_all].
    erewrite b_ret; [|eapply run_insert; [exact H|exact E|exact Hc|exact T2|exact T1|rewrite Ch, app_length; lia]].
    rewrite Nat2Z.id, Ch, insert_mid.
    pose proof (nth_lt _ _ _ H) as L.
    replace (Z.of_nat (length pre) + 1) with (Z.of_nat (length (pre ++ [a]))) by (rewrite app_length; cbn [length]; lia).
    etransitivity; [apply (IH (put h P (with_ch cp (pre ++ a :: rest))) (with_ch cp (pre ++ a :: rest)) (pre ++ [a]) rest)|].
    5: rewrite put_put, with_ch_twice, <- app_assoc; reflexivity.
    + now apply put_same.
    + exact E.
    + cbn [c_ch with_ch]. rewrite <- app_assoc. reflexivity.
    + eapply Forall_impl; [|exact Fa']. intros y (Ny & k & Hk & T). split; [exact Ny|]. exists k. rewrite put_other by auto. auto.
Qed.

(** One visit of the loop on an at-keyword. *)
Lemma loop_at w self x (P : addr) cp (pre : list addr) (n : addr) (rest : list addr) h m ps f c : nth_error h P = Some cp -> has_children (c_type cp) = true -> c_ch cp = pre ++ n :: rest ->
  nth_error h n = Some c -> c_type c = AT_KEYWORD ->
  variables_loop w self x P (S f) (Z.of_nat (length pre)) (mkK h m ps)
  = (i <- replace_at_keyword w f self x P n (Z.of_nat (length pre)) ;; variables_loop w self x P f i) (mkK h m ps).
Proof.
  intros H E Ch Hn T. cbn [variables_loop]. erewrite b_ret; [|eapply run_size; eauto].
  match goal with |- context [?z <=? ?y] => replace (z <=? y) with false by (symmetry; apply Z.leb_gt, inj_lt; rewrite Ch, app_length; cbn [length]; lia) end.
  erewrite b_ret; [|eapply run_child; [exact H|exact E|rewrite Nat2Z.id, Ch; apply nth_mid|lia]].
  erewrite b_ret; [|eapply run_type; exact Hn]. rewrite T. reflexivity.
Qed.

Section Chain.
  Variables (w : world) (x : ctx) (P : addr) (D : list addr) (h0 : heap) (d F0 : nat) (ps : list str).
  Hypothesis PD : In P D.
  (** replace_variables leaves the at-keyword of a branch alone, before it is acted upon. *)
  Lemma self_at h m n c fs : keeps D h0 h -> nth_error h n = Some c -> c_type c = AT_KEYWORD -> (length (c_ch c) < d)%nat ->
    Forall (settled D h0 d) (c_ch c) -> (S d < fs)%nat ->
    replace_variables w fs x n (mkK h m ps) = Ret tt (mkK h m ps).
  Proof.
    intros K H T L Fa Lf. destruct fs as [|fs]; [lia|]. cbn [replace_variables].
    erewrite b_ret; [|eapply run_type; exact H]. rewrite T. erewrite b_ret; [|eapply run_type; exact H]. rewrite T. tyeq. rewrite bind_ret. rewrite bind_ret.
    erewrite b_ret; [reflexivity|]. eapply (settled_children D h n c d H); [rewrite T; reflexivity|exact L| |lia|].
    - eapply Forall_impl; [|exact Fa]. intros a Sa. eapply settled_keeps; eauto.
    - intros a Sa. eapply settled_run; [exact Sa|]. lia.
  Qed.

  Definition is_else_at (h : heap) (e : addr) : Prop :=
    exists ce, nth_error h e = Some ce /\ c_type ce = AT_KEYWORD /\ c_str ce = zs "else".
  Lemma is_else_yes h m e : is_else_at h e -> is_else e (mkK h m ps) = Ret true (mkK h m ps).
  Proof.
    intros (ce & H & T & S). unfold is_else. erewrite b_ret; [|eapply run_is; exact H]. rewrite T. tyeq.
    erewrite b_ret; [|eapply run_string; [exact H|rewrite T; reflexivity]]. rewrite S. reflexivity.
  Qed.
  Definition not_else_at (h : heap) (e : addr) : Prop :=
    exists ce, nth_error h e = Some ce /\ (c_type ce <> AT_KEYWORD \/ c_str ce <> zs "else").
  Lemma is_else_no h m e : not_else_at h e -> is_else e (mkK h m ps) = Ret false (mkK h m ps).
  Proof.
    intros (ce & H & T). unfold is_else. erewrite b_ret; [|eapply run_is; exact H].
    destruct (ntype_eqb (c_type ce) AT_KEYWORD) eqn:Q; [|reflexivity]. apply ntype_eqb_spec in Q.
    erewrite b_ret; [|eapply run_string; [exact H|rewrite Q; reflexivity]]. destruct T as [T|T]; [congruence|].
    apply str_eqb_neq in T. rewrite T. reflexivity.
  Qed.
  Lemma next_run h m cp (pre rest : list addr) : nth_error h P = Some cp -> has_children (c_type cp) = true -> c_ch cp = pre ++ rest ->
    next_of P (Z.of_nat (length pre)) (mkK h m ps) = Ret (hd_error rest) (mkK h m ps).
  Proof.
    intros H E Ch. unfold next_of. erewrite b_ret; [|eapply run_size; eauto]. destruct rest as [|e rest].
    - rewrite app_nil_r in Ch. rewrite Ch. replace (_ <? _) with false by lia. reflexivity.
    - match goal with |- context [?z <? ?y] => replace (z <? y) with true by (symmetry; apply Z.ltb_lt, inj_lt; rewrite Ch, app_length; cbn [length]; lia) end.
      erewrite b_ret; [|eapply run_child; [exact H|exact E|rewrite Nat2Z.id, Ch; apply nth_mid|lia]]. reflexivity.
  Qed.
  Lemma remove_run h m cp (pre : list addr) (n : addr) (rest : list addr) : nth_error h P = Some cp -> has_children (c_type cp) = true -> c_ch cp = pre ++ n :: rest ->
    lift (remove_child_at P (Z.of_nat (length pre))) (mkK h m ps) = Ret tt (mkK (put h P (with_ch cp (pre ++ rest))) m ps).
  Proof.
    intros H E Ch. erewrite run_remove_at; [|exact H|exact E|rewrite Ch, app_length; cbn [length]; lia]. rewrite Nat2Z.id, Ch, erase_mid. reflexivity.
  Qed.

  (** What the rest of the parent looks like after the node being visited. *)
  Definition next_ok (h : heap) (n : addr) (rest : list addr) (needed : bool) : Prop :=
    match rest with
    | [] => True
    | e :: _ => (is_else_at h e /\ In e D /\ e <> n /\ e <> P) \/ (not_else_at h e /\ needed = false /\ e <> n /\ e <> P)
    end.
  Definition int_at (h : heap) (e : addr) (i : Z) : Prop := exists c, nth_error h e = Some c /\ c_int c = i.

  Lemma keeps_D h h' : (forall a, ~ In a D -> (a < length h)%nat -> nth_error h' a = nth_error h a) -> (length h <= length h')%nat -> keeps D h h'.
  Proof. intros A L. split; auto. Qed.

  (** The end of replace_if and replace_else when the block is used: its statements go in the parent. *)
  Lemma block_run h m cp (pre rest : list addr) (blk : addr) : keeps D h0 h -> nth_error h P = Some cp -> has_children (c_type cp) = true -> c_ch cp = pre ++ rest ->
    block_ok h0 blk -> settled D h0 d blk ->
    (lift (size blk) ;;; c <- lift (load blk) ;; insert_all P (Z.of_nat (length pre)) (c_ch c)) (mkK h m ps)
    = Ret tt (mkK (put h P (with_ch cp (pre ++ statements h0 blk ++ rest))) m ps).
  Proof.
    intros K H E Ch (k & Hk & Tk & Fk) Sb.
    assert (Nb : ~ In blk D) by (destruct (settled_at _ _ _ _ Sb) as (? & _ & ? & _); auto).
    assert (Hk' : nth_error h blk = Some k) by (eapply keeps_at; eauto).
    erewrite b_ret; [|eapply run_size; [exact Hk'|rewrite Tk; reflexivity]].
    erewrite b_ret; [|eapply run_load; exact Hk'].
    assert (St : statements h0 blk = c_ch k) by (unfold statements; rewrite Hk; reflexivity). rewrite St.
    apply insert_run; auto.
    assert (Fs : Forall (settled D h0 d) (c_ch k)).
    { destruct Sb as [d' a c N Hc T|d' a c N Hc T R|d' a c N Hc T El W Fc]; rewrite Hk in Hc; injection Hc as <-.
      - rewrite Tk in T. discriminate.
      - congruence.
      - eapply Forall_impl; [|exact Fc]. intros y Sy. eapply settled_mono; eauto. }
    rewrite Forall_forall in *. intros y Hy. destruct (Fk y Hy) as (c & Hc & T1 & T2).
    destruct (settled_at _ _ _ _ (Fs y Hy)) as (? & _ & Ny & _). split; [intros ->; auto|]. exists c. split; [eapply keeps_at; eauto|auto].
  Qed.

  Lemma settled_block toks blk : Forall (settled D h0 d) (toks ++ [blk]) -> settled D h0 d blk.
  Proof. intro H. rewrite Forall_forall in H. apply H. apply in_or_app. cbn; auto. Qed.

  Lemma if_step h m cp (pre : list addr) (n : addr) (rest : list addr) c br f fs T :
    keeps D h0 h -> nth_error h P = Some cp -> has_children (c_type cp) = true -> c_ch cp = pre ++ n :: rest ->
    n = b_node br -> In n D -> n <> P -> nth_error h n = Some c -> c_type c = AT_KEYWORD -> c_str c = zs "if" -> c_ch c = b_tokens br ++ [b_block br] ->
    (length (c_ch c) < d)%nat -> Forall (settled D h0 d) (c_ch c) -> block_ok h0 (b_block br) ->
    evaluates w x F0 h0 T br -> (forall a, In a T -> ~ In a D /\ (a < length h0)%nat) ->
    next_ok h n rest (negb (b_truth br)) -> (F0 <= f)%nat -> (S d < fs)%nat ->
    exists h' m', variables_loop w (replace_variables w fs) x P (S f) (Z.of_nat (length pre)) (mkK h m ps)
        = variables_loop w (replace_variables w fs) x P f (Z.of_nat (length pre)) (mkK h' m' ps)
      /\ keeps D h h' /\ nth_error h' P = Some (with_ch cp (pre ++ (if b_truth br then statements h0 (b_block br) else []) ++ rest))
      /\ (forall e, e <> n -> e <> P -> (e < length h)%nat -> marked h h' e)
      /\ (forall e r, rest = e :: r -> is_else_at h e -> int_at h' e (if b_truth br then executed else false_so_far)).
  Proof.
    intros K HP CP Ch En InD NP Hn Tn Sn Cn Ln Fa Bk Ev TD Nx Lf Ls.
    pose proof (nth_lt _ _ _ HP) as LP. pose proof (nth_lt _ _ _ Hn) as Lnh.
    erewrite (loop_at w _ x P cp pre n rest h m ps f c HP CP Ch Hn Tn).
    unfold replace_at_keyword. repeat rewrite bind_assoc.
    erewrite b_ret; [|eapply run_string; [exact Hn|rewrite Tn; reflexivity]]. rewrite Sn.
    change (str_eqb (zs "if") (zs "mixin")) with false. change (str_eqb (zs "if") (zs "import")) with false. change (str_eqb (zs "if") (zs "if")) with true. cbv iota.
    repeat rewrite bind_assoc. erewrite b_ret; [|eapply self_at; eauto].
    repeat rewrite bind_assoc. erewrite b_ret; [|eapply remove_run; eauto].
    set (cp1 := with_ch cp (pre ++ rest)). set (h1 := put h P cp1).
    assert (HP1 : nth_error h1 P = Some cp1) by (unfold h1; now apply put_same).
    repeat rewrite bind_assoc. unfold replace_if. repeat rewrite bind_assoc.
    erewrite b_ret; [|eapply next_run; [exact HP1|exact CP|reflexivity]].
    (* the mark of the next node *)
    assert (Mk : exists h2, (match hd_error rest with
        | Some a => e <- is_else a ;; (if e : bool then lift (set_integer a executed) else ret tt)
        | None => ret tt end) (mkK h1 m ps) = Ret tt (mkK h2 m ps)
      /\ keeps D h h2 /\ nth_error h2 P = Some cp1 /\ nth_error h2 n = Some c
      /\ (forall e, e <> P -> (e < length h)%nat -> marked h h2 e)
      /\ (forall e r, rest = e :: r -> is_else_at h e -> is_else_at h2 e /\ int_at h2 e executed)).
    { assert (K1 : keeps D h h1) by (apply keeps_put; exact PD).
      assert (Hn1 : nth_error h1 n = Some c) by (unfold h1; rewrite put_other by auto; exact Hn).
      assert (M1 : forall e, e <> P -> (e < length h)%nat -> marked h h1 e) by (intros e De _; apply marked_same; unfold h1; rewrite put_other by auto; reflexivity).
      destruct rest as [|e r]; cbn [hd_error].
      { exists h1. repeat (split; [auto; reflexivity|]). intros e r Q. discriminate. }
      destruct Nx as [(Ie & Ed & Dn & Dp)|(Ie & _ & Dn & Dp)].
      - assert (Ie1 : is_else_at h1 e).
        { destruct Ie as (ce & He & Q). exists ce. unfold h1. rewrite put_other by auto. auto. }
        destruct Ie1 as (ce & He & Te & Se).
        exists (put h1 e (with_int ce executed)). pose proof (nth_lt _ _ _ He) as Le.
        split. { erewrite b_ret; [|apply is_else_yes; exists ce; auto]. eapply run_set_integer; [exact He|rewrite Te; reflexivity]. }
        split. { eapply keeps_trans; [exact K1|]. now apply keeps_put. }
        split. { rewrite put_other by auto. exact HP1. }
        split. { rewrite put_other by auto. exact Hn1. }
        split. { intros y Dy Ly. eapply marked_trans; [now apply M1|]. destruct (Nat.eq_dec y e) as [->|D2].
                 - intros c1 H1. rewrite He in H1. injection H1 as <-. exists executed. now apply put_same.
                 - apply marked_same. now rewrite put_other by auto. }
        intros y r' Q _. injection Q as <- _. split; [exists (with_int ce executed)|exists (with_int ce executed)]; rewrite put_same by auto; auto.
      - exists h1. split. { erewrite b_ret; [|apply is_else_no]; [reflexivity|]. destruct Ie as (ce & He & Q). exists ce. unfold h1. rewrite put_other by auto. auto. }
        repeat (split; [auto; reflexivity|]). intros y r' Q (ce & He & Te & Se). injection Q as <- _. destruct Ie as (ce' & He' & Q'). rewrite He in He'.
        injection He' as <-. destruct Q'; congruence. }
    destruct Mk as (h2 & Mk & K2 & HP2 & Hn2 & M2 & E2).
    rewrite bind_assoc. erewrite b_ret; [|exact Mk]. clear Mk.
    assert (K02 : keeps D h0 h2) by (eapply keeps_trans; eauto).
    destruct (Ev f h2 m ps c Lf) as (e & h3 & m3 & m4 & c3 & EV & K3 & Hn3 & Tn3 & Pn3 & In3 & Cn3 & TR).
    { rewrite <- En. exact Hn2. } { exact Tn. } { exact Cn. }
    { intros a Ia. destruct (TD a Ia) as [A B]. destruct K02 as [_ K02]. now apply K02. }
    rewrite <- En in *.
    repeat rewrite bind_assoc. erewrite b_ret; [|exact EV].
    repeat rewrite bind_assoc. erewrite b_ret; [|eapply run_size; [exact Hn3|rewrite Tn3; reflexivity]].
    repeat rewrite bind_assoc. erewrite b_ret; [|eapply run_pos; exact Hn3].
    rewrite Cn3. cbn [length]. change (Z.of_nat 2 =? 2) with true. cbn [negb]. cbv iota.
    repeat rewrite bind_assoc. erewrite b_ret; [|exact TR].
    assert (L2 : length h2 = length h2) by reflexivity.
    assert (K3D : keeps D h2 h3) by (destruct K3 as [A B]; split; [exact A|]; intros b Hb Nb; apply B; [exact Hb|]; intros [<-|[]]; auto).
    assert (LPh2 : (P < length h2)%nat) by (now apply nth_lt in HP2).
    assert (HP3 : nth_error h3 P = Some cp1) by (destruct K3 as [_ B]; rewrite B; auto; intros [Q|[]]; congruence).
    assert (M3 : forall y, y <> n -> (y < length h2)%nat -> nth_error h3 y = nth_error h2 y) by (intros y Dy Ly; destruct K3 as [_ B]; apply B; [exact Ly|]; intros [Q|[]]; congruence).
    assert (LL : (length h <= length h2)%nat) by apply K2.
    assert (Sb : settled D h0 d (b_block br)) by (apply (settled_block (b_tokens br)); rewrite <- Cn; exact Fa).
    destruct (b_truth br) eqn:B.
    - repeat rewrite bind_assoc. erewrite b_ret; [|eapply run_child1; [exact Hn3|rewrite Tn3; reflexivity|exact Cn3]].
      pose proof (block_run h3 m4 cp1 pre rest (b_block br) ltac:(eapply keeps_trans; eauto) HP3 CP eq_refl Bk Sb) as BR.
      erewrite b_ret; [|exact BR]. rewrite bind_ret.
      eexists _, m4. split; [reflexivity|].
      split. { eapply keeps_trans; [exact K2|]. eapply keeps_trans; [exact K3D|]. now apply keeps_put. }
      split. { unfold cp1. rewrite with_ch_twice. apply put_same. now apply nth_lt in HP3. }
      split. { intros y Dy Dp Ly. eapply marked_trans; [now apply M2|]. apply marked_same. rewrite put_other by auto. apply M3; [exact Dy|lia]. }
      intros y r Q Ye. destruct (E2 y r Q Ye) as (Ie & ci & Hi & Vi). subst rest.
      destruct Nx as [(_ & Yd & Dn & Dp)|(Ie' & _ & Dn & Dp)].
      + exists ci. rewrite put_other by auto. rewrite M3; [auto|exact Dn|now apply nth_lt in Hi].
      + exists ci. rewrite put_other by auto. rewrite M3; [auto|exact Dn|now apply nth_lt in Hi].
    - cbn [negb] in Nx. destruct rest as [|y r]; cbn [hd_error].
      + rewrite bind_ret. rewrite bind_ret. exists h3, m4. split; [reflexivity|].
        split; [eapply keeps_trans; eauto|]. split; [exact HP3|].
        split; [|intros y r Q; discriminate]. intros y Dy Dp Ly. eapply marked_trans; [now apply M2|]. apply marked_same. apply M3; [exact Dy|lia].
      + destruct Nx as [(Ie & Yd & Dn & Dp)|(_ & Q & _)]; [|discriminate].
        destruct (E2 y r eq_refl Ie) as ((ci & Hi & Ti & Si) & _).
        assert (Hi3 : nth_error h3 y = Some ci) by (rewrite M3; [exact Hi|exact Dn|now apply nth_lt in Hi]).
        erewrite b_ret; [|eapply run_set_integer; [exact Hi3|rewrite Ti; reflexivity]]. rewrite bind_ret.
        eexists _, m4. split; [reflexivity|].
        split. { eapply keeps_trans; [exact K2|]. eapply keeps_trans; [exact K3D|]. now apply keeps_put. }
        split. { rewrite put_other by auto. exact HP3. }
        split.
        { intros z Dz Dpz Lz. eapply marked_trans; [now apply M2|]. destruct (Nat.eq_dec z y) as [->|D2].
          - intros c1 H1. rewrite Hi in H1. injection H1 as <-. exists false_so_far. apply put_same. now apply nth_lt in Hi3.
          - apply marked_same. rewrite put_other by auto. apply M3; [exact Dz|lia]. }
        intros z r' Q _. injection Q as <- _. exists (with_int ci false_so_far). rewrite put_same by (now apply nth_lt in Hi3). auto.
  Qed.

  (** Marking the next node, if it is an @else. *)
  Definition mark (h : heap) (rest : list addr) (i : Z) : heap :=
    match rest with
    | e :: _ => match nth_error h e with
                | Some c => if ntype_eqb (c_type c) AT_KEYWORD && str_eqb (c_str c) (zs "else") then put h e (with_int c i) else h
                | None => h
                end
    | [] => h
    end.
  Lemma mark_spec h n rest i : next_ok h n rest false ->
    keeps D h (mark h rest i)
    /\ (forall a, a = n \/ a = P -> nth_error (mark h rest i) a = nth_error h a)
    /\ (forall a, marked h (mark h rest i) a)
    /\ (forall e r, rest = e :: r -> is_else_at h e -> is_else_at (mark h rest i) e /\ int_at (mark h rest i) e i).
  Proof.
    intros Nx. unfold mark. destruct rest as [|e r].
    { split; [apply keeps_refl|]. split; [auto|]. split; [intro; apply marked_refl|]. intros ? ? Q. discriminate. }
    destruct Nx as [((ce & He & Te & Se) & Ed & Dn & Dp)|(Ie & _ & Dn & Dp)].
    - rewrite He, Te, Se, ntype_eqb_refl, str_eqb_refl. cbn [andb]. pose proof (nth_lt _ _ _ He) as Le.
      split; [now apply keeps_put|]. split; [intros a [->| ->]; apply put_other; auto|].
      split. { intro a. destruct (Nat.eq_dec a e) as [->|Q]; [|apply marked_same; apply put_other; auto].
               intros c H. rewrite He in H. injection H as <-. exists i. now apply put_same. }
      intros y r' Q _. injection Q as <- _. split; exists (with_int ce i); rewrite put_same by auto; auto.
    - destruct Ie as (ce & He & Q). rewrite He.
      replace (ntype_eqb (c_type ce) AT_KEYWORD && str_eqb (c_str ce) (zs "else")) with false.
      2:{ symmetry. apply andb_false_iff. destruct Q as [Q|Q]; [left; now apply ntype_eqb_neq|right; now apply str_eqb_neq]. }
      split; [apply keeps_refl|]. split; [auto|]. split; [intro; apply marked_refl|].
      intros y r' Q' (ce' & He' & T & S). injection Q' as <- _. rewrite He in He'. injection He' as <-. destruct Q; congruence.
  Qed.
  (** The node marked, as replace_else finds it. *)
  Definition next_else (h : heap) (rest : list addr) : option addr :=
    match rest with
    | e :: _ => match nth_error h e with
                | Some c => if ntype_eqb (c_type c) AT_KEYWORD && str_eqb (c_str c) (zs "else") then Some e else None
                | None => None
                end
    | [] => None
    end.
  Lemma next_else_run h m n rest : next_ok h n rest false ->
    (match hd_error rest with Some a => e <- is_else a ;; ret (if e : bool then Some a else None) | None => ret None end) (mkK h m ps)
    = Ret (next_else h rest) (mkK h m ps).
  Proof.
    intro Nx. unfold next_else. destruct rest as [|e r]; [reflexivity|]. cbn [hd_error].
    destruct Nx as [(Ie & _)|(Ie & _)].
    - erewrite b_ret; [|now apply is_else_yes]. destruct Ie as (ce & He & Te & Se). rewrite He, Te, Se, ntype_eqb_refl, str_eqb_refl. reflexivity.
    - erewrite b_ret; [|now apply is_else_no]. destruct Ie as (ce & He & Q). rewrite He.
      replace (ntype_eqb (c_type ce) AT_KEYWORD && str_eqb (c_str ce) (zs "else")) with false; [reflexivity|].
      symmetry. apply andb_false_iff. destruct Q as [Q|Q]; [left; now apply ntype_eqb_neq|right; now apply str_eqb_neq].
  Qed.
  Lemma mark_run h m rest i : forall h', (forall e, next_else h rest = Some e -> exists c, nth_error h' e = Some c /\ c_type c = AT_KEYWORD /\ c_str c = zs "else") ->
    (match next_else h rest with Some a => lift (set_integer a i) | None => ret tt end) (mkK h' m ps)
    = Ret tt (mkK (match next_else h rest with Some e => mark h' (e :: rest) i | None => h' end) m ps).
  Proof.
    intros h' Hm. destruct (next_else h rest) as [e|]; [|reflexivity]. destruct (Hm e eq_refl) as (c & H & T & S).
    cbn [mark]. rewrite H, T, S, ntype_eqb_refl, str_eqb_refl. cbn [andb]. eapply run_set_integer; [exact H|rewrite T; reflexivity].
  Qed.
  Lemma next_else_some h rest e : next_else h rest = Some e -> exists r, rest = e :: r /\ is_else_at h e.
  Proof.
    unfold next_else. destruct rest as [|y r]; [discriminate|]. destruct (nth_error h y) as [c|] eqn:H; [|discriminate].
    destruct (ntype_eqb (c_type c) AT_KEYWORD && str_eqb (c_str c) (zs "else")) eqn:Q; [|discriminate]. intro E. injection E as ->.
    apply andb_prop in Q. destruct Q as [Q1 Q2]. apply ntype_eqb_spec in Q1. apply str_eqb_spec in Q2. exists r. split; [reflexivity|]. exists c. auto.
  Qed.
  Lemma next_else_else h e r : is_else_at h e -> next_else h (e :: r) = Some e.
  Proof. intros (ce & He & Te & Se). unfold next_else. rewrite He, Te, Se, ntype_eqb_refl, str_eqb_refl. reflexivity. Qed.

  Lemma else_if_step h m cp (pre : list addr) (n : addr) (rest : list addr) c br f fs T i ws k :
    keeps D h0 h -> nth_error h P = Some cp -> has_children (c_type cp) = true -> c_ch cp = pre ++ n :: rest ->
    n = b_node br -> In n D -> n <> P -> nth_error h n = Some c -> c_type c = AT_KEYWORD -> c_str c = zs "else" ->
    c_ch c = i :: ws ++ b_tokens br ++ [b_block br] -> b_tokens br <> [] ->
    nth_error h0 i = Some k -> c_type k = IDENTIFIER -> c_str k = zs "if" ->
    (ws = [] \/ exists s ks, ws = [s] /\ nth_error h0 s = Some ks /\ c_type ks = WHITESPACE) ->
    (forall t kt, hd_error (b_tokens br) = Some t -> nth_error h0 t = Some kt -> c_type kt <> WHITESPACE) ->
    (length (c_ch c) < d)%nat -> Forall (settled D h0 d) (c_ch c) -> block_ok h0 (b_block br) ->
    evaluates w x F0 h0 T br -> (forall a, In a T -> ~ In a D /\ (a < length h0)%nat) ->
    c_int c = executed \/ c_int c = false_so_far ->
    next_ok h n rest false -> (F0 <= f)%nat -> (S d < fs)%nat ->
    let use := (c_int c =? false_so_far) && b_truth br in
    exists h' m', variables_loop w (replace_variables w fs) x P (S f) (Z.of_nat (length pre)) (mkK h m ps)
        = variables_loop w (replace_variables w fs) x P f (Z.of_nat (length pre)) (mkK h' m' ps)
      /\ keeps D h h' /\ nth_error h' P = Some (with_ch cp (pre ++ (if use then statements h0 (b_block br) else []) ++ rest))
      /\ (forall e, e <> n -> e <> P -> (e < length h)%nat -> marked h h' e)
      /\ (forall e r, rest = e :: r -> is_else_at h e -> int_at h' e (if use then executed else c_int c)).
  Proof.
    intros K HP CP Ch En InD NP Hn Tn Sn Cn Nt Hi Ti Si Ws Tw Ln Fa Bk Ev TD St Nx Lf Ls use.
    pose proof (nth_lt _ _ _ HP) as LP. pose proof (nth_lt _ _ _ Hn) as Lnh.
    erewrite (loop_at w _ x P cp pre n rest h m ps f c HP CP Ch Hn Tn).
    unfold replace_at_keyword. repeat rewrite bind_assoc.
    erewrite b_ret; [|eapply run_string; [exact Hn|rewrite Tn; reflexivity]]. rewrite Sn.
    change (str_eqb (zs "else") (zs "mixin")) with false. change (str_eqb (zs "else") (zs "import")) with false.
    change (str_eqb (zs "else") (zs "if")) with false. change (str_eqb (zs "else") (zs "else")) with true. cbv iota.
    repeat rewrite bind_assoc. erewrite b_ret; [|eapply self_at; eauto].
    repeat rewrite bind_assoc. erewrite b_ret; [|eapply remove_run; eauto].
    set (cp1 := with_ch cp (pre ++ rest)). set (h1 := put h P cp1).
    assert (HP1 : nth_error h1 P = Some cp1) by (unfold h1; now apply put_same).
    assert (K1 : keeps D h h1) by (apply keeps_put; exact PD).
    assert (Hn1 : nth_error h1 n = Some c) by (unfold h1; rewrite put_other by auto; exact Hn).
    assert (Nx1 : next_ok h1 n rest false).
    { unfold next_ok in *. destruct rest as [|e r]; [exact Nx|].
      destruct Nx as [((ce & He & Q) & Ed & Dn & Dp)|((ce & He & Q) & _ & Dn & Dp)]; [left|right];
        (split; [exists ce; unfold h1; rewrite put_other by auto; auto|auto]). }
    assert (NE : forall e r, rest = e :: r -> e <> P -> is_else_at h e -> is_else_at h1 e).
    { intros e r _ De (ce & He & Q). exists ce. unfold h1. rewrite put_other by auto. auto. }
    repeat rewrite bind_assoc. unfold replace_else. repeat rewrite bind_assoc.
    erewrite b_ret; [|eapply run_pos; exact Hn1]. repeat rewrite bind_assoc.
    erewrite b_ret; [|eapply next_run; [exact HP1|exact CP|reflexivity]]. repeat rewrite bind_assoc.
    erewrite b_ret; [|eapply next_else_run; exact Nx1]. repeat rewrite bind_assoc.
    erewrite b_ret; [|eapply run_size; [exact Hn1|rewrite Tn; reflexivity]]. repeat rewrite bind_assoc.
    set (nx := next_else h1 rest). set (h2 := mark h1 rest executed).
    destruct (mark_spec h1 n rest executed Nx1) as (K2 & S2 & M2 & E2). fold h2 in K2, S2, M2, E2.
    assert (Z0 : (Z.of_nat (length (c_ch c)) =? 1) = false).
    { apply Z.eqb_neq. rewrite Cn. cbn [length]. rewrite !app_length. cbn [length]. lia. }
    assert (Mk : (match nx with
           | None => ret false
           | Some a =>
               if Z.of_nat (length (c_ch c)) =? 1 then
                 report (c_pos c) "'@else { ... }' cannot follow another '@else { ... }'. Maybe you are missing an 'if expr'?" ;;; ret true
               else lift (set_integer a executed) ;;; ret false
           end) (mkK h1 m ps) = Ret false (mkK h2 m ps)).
    { rewrite Z0. destruct nx as [e|] eqn:Q; unfold nx in Q.
      - apply next_else_some in Q. destruct Q as (r & -> & ce & He & Te & Se).
        erewrite b_ret; [|eapply run_set_integer; [exact He|rewrite Te; reflexivity]]. unfold h2, mark. rewrite He, Te, Se, ntype_eqb_refl, str_eqb_refl. reflexivity.
      - unfold h2, mark. unfold next_else in Q. destruct rest as [|e r]; [reflexivity|]. destruct (nth_error h1 e); [|reflexivity].
        destruct (ntype_eqb _ _ && _); [discriminate|reflexivity]. }
    erewrite b_ret; [|exact Mk]. clear Mk. cbv iota.
    assert (HP2 : nth_error h2 P = Some cp1) by (rewrite S2; auto).
    assert (Hn2 : nth_error h2 n = Some c) by (rewrite S2; auto).
    assert (K02 : keeps D h0 h2) by (eapply keeps_trans; [exact K|]; eapply keeps_trans; eauto).
    assert (Kid : forall a, In a (c_ch c) -> ~ In a D).
    { intros a Ia. rewrite Forall_forall in Fa. destruct (settled_at _ _ _ _ (Fa a Ia)) as (? & _ & ? & _). auto. }
    assert (Old : forall a ca hx, keeps D h0 hx -> In a (c_ch c) -> nth_error h0 a = Some ca -> nth_error hx a = Some ca) by (intros; eapply keeps_at; eauto).
    repeat rewrite bind_assoc. erewrite b_ret; [|eapply run_child0; [exact Hn2|rewrite Tn; reflexivity|exact Cn]].
    assert (Hi2 : nth_error h2 i = Some k) by (apply Old; [exact K02|rewrite Cn; cbn; auto|exact Hi]).
    repeat rewrite bind_assoc. erewrite b_ret; [|eapply run_type; exact Hi2]. rewrite Ti. tyeq.
    repeat rewrite bind_assoc. erewrite b_ret; [|eapply run_string; [exact Hi2|rewrite Ti; reflexivity]]. rewrite Si.
    rewrite bind_ret. change (str_eqb (zs "if") (zs "if")) with true. cbv iota.
    (* drop the if and the white space *)
    repeat rewrite bind_assoc. erewrite b_ret; [|eapply run_remove0; [exact Hn2|rewrite Tn; reflexivity|exact Cn]].
    assert (Lp2 : (n < length h2)%nat) by (now apply nth_lt in Hn2).
    set (tl1 := ws ++ b_tokens br ++ [b_block br]).
    assert (Now : forall l', nth_error (put h2 n (with_ch c l')) n = Some (with_ch c l')) by (intro; now apply put_same).
    assert (KN : forall c', keeps D h2 (put h2 n c')) by (intro; now apply keeps_put).
    repeat rewrite bind_assoc. erewrite b_ret; [|eapply run_empty; [apply Now|exact (eq_trans (f_equal has_children Tn) eq_refl)]].
    cbn [c_ch with_ch]. replace (match tl1 with [] => true | _ => false end) with false by (unfold tl1; destruct ws; [destruct (b_tokens br); reflexivity|reflexivity]).
    cbv iota. set (h3 := put h2 n (with_ch c (b_tokens br ++ [b_block br]))).
    assert (Hc' : has_children (c_type c) = true) by (rewrite Tn; reflexivity).
    assert (Drop : exists wb : bool, child_is n 0 WHITESPACE (mkK (put h2 n (with_ch c tl1)) m ps) = Ret wb (mkK (put h2 n (with_ch c tl1)) m ps)
              /\ (if wb then lift (remove_child_at n 0) else ret tt) (mkK (put h2 n (with_ch c tl1)) m ps) = Ret tt (mkK h3 m ps)).
    { unfold tl1. destruct Ws as [->|(s & ks & -> & Hs & Ts)]; cbn [app].
      - destruct (b_tokens br) as [|t tk] eqn:Tk; [congruence|]. cbn [app].
        rewrite Forall_forall in Fa. assert (It : In t (c_ch c)) by (rewrite Cn; cbn; auto).
        destruct (settled_at _ _ _ _ (Fa t It)) as (kt & Ht & _). specialize (Tw t kt eq_refl Ht).
        exists false. split; [|reflexivity].
        erewrite run_child_is; [|apply Now|exact Hc'|reflexivity|lia|].
        2:{ apply (Old t kt); [eapply keeps_trans; [exact K02|apply KN]|exact It|exact Ht]. }
        replace (ntype_eqb (c_type kt) WHITESPACE) with false by (symmetry; now apply ntype_eqb_neq). reflexivity.
      - assert (Is : In s (c_ch c)) by (rewrite Cn; cbn; auto). exists true.
        split. { erewrite run_child_is; [|apply Now|exact Hc'|reflexivity|lia|].
        2:{ apply (Old s ks); [eapply keeps_trans; [exact K02|apply KN]|exact Is|exact Hs]. }
        rewrite Ts. rewrite ntype_eqb_refl. reflexivity. }
        erewrite run_remove0; [|apply Now|exact Hc'|reflexivity]. rewrite put_put, with_ch_twice. reflexivity. }
    destruct Drop as (wb & Dr1 & Dr2). repeat rewrite bind_assoc. erewrite b_ret; [|exact Dr1]. repeat rewrite bind_assoc. erewrite b_ret; [|exact Dr2].
    repeat rewrite bind_assoc. erewrite b_ret; [|eapply run_size; [apply Now|exact Hc']]. cbn [c_ch with_ch].
    replace (Z.of_nat (length (b_tokens br ++ [b_block br])) =? 1) with false.
    2:{ symmetry. apply Z.eqb_neq. rewrite app_length. cbn [length]. destruct (b_tokens br); [congruence|]. cbn [length]. lia. }
    cbv iota. assert (K03 : keeps D h0 h3) by (eapply keeps_trans; [exact K02|apply KN]).
    destruct (Ev f h3 m ps (with_ch c (b_tokens br ++ [b_block br])) Lf) as (e & h4 & m4 & m5 & c4 & EV & K4 & Hn4 & Tn4 & Pn4 & In4 & Cn4 & TR).
    { rewrite <- En. apply Now. } { exact Tn. } { reflexivity. }
    { intros a Ia. destruct (TD a Ia) as [A B]. destruct K03 as [_ K03]. now apply K03. }
    rewrite <- En in *.
    repeat rewrite bind_assoc. erewrite b_ret; [|exact EV]. rewrite bind_ret. cbv beta iota.
    repeat rewrite bind_assoc. erewrite b_ret; [|eapply run_integer; [exact Hn4|rewrite Tn4; reflexivity]].
    rewrite In4. cbn [c_int with_ch].
    replace (c_int c =? 0) with false by (destruct St as [-> | ->]; reflexivity). cbv zeta.
    repeat rewrite bind_assoc. erewrite b_ret; [|eapply run_size; [exact Hn4|rewrite Tn4; reflexivity]]. rewrite Cn4. cbn [length].
    change (Z.of_nat 2 =? 1) with false. change (Z.of_nat 2 =? 2) with true. cbn [negb]. cbv iota.
    assert (TR' : exists m6, (if c_int c =? false_so_far then b <- truth n e ;; ret (Some b) else ret (Some false)) (mkK h4 m4 ps) = Ret (Some use) (mkK h4 m6 ps)).
    { unfold use. destruct (c_int c =? false_so_far); [|eexists; reflexivity]. exists m5. erewrite b_ret; [|exact TR]. reflexivity. }
    destruct TR' as (m6 & TR'). repeat rewrite bind_assoc. erewrite b_ret; [|exact TR']. cbv iota.
    (* the heap after the evaluation *)
    assert (K4D : keeps D h3 h4) by (destruct K4 as [A B]; split; [exact A|]; intros b Hb Nb; apply B; [exact Hb|]; intros [<-|[]]; auto).
    assert (M4 : forall y, y <> n -> (y < length h3)%nat -> nth_error h4 y = nth_error h3 y) by (intros y Dy Ly; destruct K4 as [_ B]; apply B; [exact Ly|]; intros [Q|[]]; congruence).
    assert (L13 : length h3 = length h1).
    { unfold h3. rewrite put_length. unfold h2, mark. destruct rest as [|q r]; [reflexivity|]. destruct (nth_error h1 q); [|reflexivity]. destruct (ntype_eqb _ _ && _); [apply put_length|reflexivity]. }
    assert (L1 : length h1 = length h) by (unfold h1; apply put_length).
    assert (HP4 : nth_error h4 P = Some cp1) by (rewrite M4 by (auto; lia); unfold h3; rewrite put_other by auto; exact HP2).
    assert (K14 : keeps D h h4) by (eapply keeps_trans; [exact K1|]; eapply keeps_trans; [exact K2|]; eapply keeps_trans; [apply KN|exact K4D]).
    assert (Q4 : forall y, y <> n -> y <> P -> (y < length h)%nat -> marked h h4 y).
    { intros y Dn Dp Ly. eapply marked_trans; [apply (marked_same h h1); unfold h1; rewrite put_other by auto; reflexivity|].
      eapply marked_trans; [apply M2|]. apply marked_same. rewrite M4 by (auto; lia). unfold h3. rewrite put_other by auto. reflexivity. }
    assert (Sb : settled D h0 d (b_block br)).
    { rewrite Forall_forall in Fa. apply Fa. rewrite Cn. right. apply in_or_app. right. apply in_or_app. cbn; auto. }
    assert (A5 : (if use then block <- lift (get_child n (if false then 0 else 1)) ;; lift (size block) ;;; c0 <- lift (load block) ;; insert_all P (Z.of_nat (length pre)) (c_ch c0) else ret tt) (mkK h4 m6 ps)
              = Ret tt (mkK (put h4 P (with_ch cp (pre ++ (if use then statements h0 (b_block br) else []) ++ rest))) m6 ps)).
    { destruct use.
      - erewrite b_ret; [|eapply run_child1; [exact Hn4|rewrite Tn4; reflexivity|exact Cn4]].
        pose proof (block_run h4 m6 cp1 pre rest (b_block br) ltac:(eapply keeps_trans; eauto) HP4 CP eq_refl Bk Sb) as BR.
        unfold cp1 in BR. rewrite with_ch_twice in BR. exact BR.
      - cbn [app]. fold cp1. rewrite put_id by exact HP4. reflexivity. }
    repeat rewrite bind_assoc. erewrite b_ret; [|exact A5]. clear A5.
    set (cp5 := with_ch cp (pre ++ _)). set (h5 := put h4 P cp5).
    assert (LP4 : (P < length h4)%nat) by (now apply nth_lt in HP4).
    assert (K5 : keeps D h h5) by (eapply keeps_trans; [exact K14|now apply keeps_put]).
    assert (Q5 : forall y, y <> n -> y <> P -> (y < length h)%nat -> marked h h5 y).
    { intros y Dn Dp Ly. eapply marked_trans; [now apply Q4|]. apply marked_same. unfold h5. now rewrite put_other by auto. }
    destruct nx as [y|] eqn:Qx; unfold nx in Qx.
    - apply next_else_some in Qx. destruct Qx as (r & -> & (ce & He & Te & Se)).
      assert (Dy : y <> n /\ y <> P /\ In y D).
      { destruct Nx1 as [(_ & ? & ? & ?)|((cz & Hz & Qz) & _)]; [auto|]. rewrite He in Hz. injection Hz as <-. destruct Qz; congruence. }
      destruct Dy as (Dn & Dp & Dd).
      assert (Ly : (y < length h1)%nat) by (now apply nth_lt in He).
      assert (Ey : is_else_at h y) by (exists ce; unfold h1 in He; rewrite put_other in He by auto; auto).
      assert (Hy5 : exists cy, nth_error h5 y = Some cy /\ c_type cy = AT_KEYWORD).
      { destruct Ey as (c0 & H0 & T0 & _). destruct (Q5 y Dn Dp ltac:(lia) c0 H0) as (j & Hj). exists (with_int c0 j). split; [exact Hj|exact T0]. }
      destruct Hy5 as (cy & Hy & Ty). repeat rewrite bind_assoc.
      erewrite b_ret; [|eapply run_set_integer; [exact Hy|rewrite Ty; reflexivity]]. rewrite bind_ret.
      eexists _, m6. split; [reflexivity|].
      split. { eapply keeps_trans; [exact K5|now apply keeps_put]. }
      split. { rewrite put_other by auto. unfold h5. now apply put_same. }
      split. { intros z Dz Dpz Lz. eapply marked_trans; [now apply Q5|]. destruct (Nat.eq_dec z y) as [->|D2].
               - intros c1 H1. rewrite Hy in H1. injection H1 as <-. eexists. apply put_same. now apply nth_lt in Hy.
               - apply marked_same. now rewrite put_other by auto. }
      intros z r' Q _. injection Q as <- _. eexists. split; [apply put_same; now apply nth_lt in Hy|]. reflexivity.
    - rewrite bind_ret. rewrite bind_ret. exists h5, m6. split; [reflexivity|]. split; [exact K5|]. split; [unfold h5; now apply put_same|]. split; [exact Q5|].
      intros z r Q Ez. subst rest. exfalso. assert (Dz : z <> P) by (destruct Nx as [(_ & _ & _ & ?)|(_ & _ & _ & ?)]; auto).
      specialize (NE z r eq_refl Dz Ez). rewrite (next_else_else _ _ _ NE) in Qx. discriminate.
  Qed.

  (** The final @else: nothing to evaluate. *)
  Lemma else_step h m cp (pre : list addr) (n blk : addr) (rest : list addr) c f fs :
    keeps D h0 h -> nth_error h P = Some cp -> has_children (c_type cp) = true -> c_ch cp = pre ++ n :: rest ->
    In n D -> n <> P -> nth_error h n = Some c -> c_type c = AT_KEYWORD -> c_str c = zs "else" ->
    c_ch c = [blk] -> (1 < d)%nat -> Forall (settled D h0 d) (c_ch c) -> block_ok h0 blk ->
    c_int c = executed \/ c_int c = false_so_far ->
    match rest with [] => True | e :: _ => not_else_at h e /\ e <> P end -> (S d < fs)%nat ->
    let use := c_int c =? false_so_far in
    exists h' m', variables_loop w (replace_variables w fs) x P (S f) (Z.of_nat (length pre)) (mkK h m ps)
        = variables_loop w (replace_variables w fs) x P f (Z.of_nat (length pre)) (mkK h' m' ps)
      /\ keeps D h h' /\ nth_error h' P = Some (with_ch cp (pre ++ (if use then statements h0 blk else []) ++ rest)).
  Proof.
    intros K HP CP Ch InD NP Hn Tn Sn Cn Ld Fa Bk St Nx Ls use.
    pose proof (nth_lt _ _ _ HP) as LP. pose proof (nth_lt _ _ _ Hn) as Lnh.
    erewrite (loop_at w _ x P cp pre n rest h m ps f c HP CP Ch Hn Tn).
    unfold replace_at_keyword. repeat rewrite bind_assoc.
    erewrite b_ret; [|eapply run_string; [exact Hn|rewrite Tn; reflexivity]]. rewrite Sn.
    change (str_eqb (zs "else") (zs "mixin")) with false. change (str_eqb (zs "else") (zs "import")) with false.
    change (str_eqb (zs "else") (zs "if")) with false. change (str_eqb (zs "else") (zs "else")) with true. cbv iota.
    assert (Lc : (length (c_ch c) < d)%nat) by (rewrite Cn; exact Ld).
    repeat rewrite bind_assoc. erewrite b_ret; [|eapply self_at; eauto].
    repeat rewrite bind_assoc. erewrite b_ret; [|eapply remove_run; eauto].
    set (cp1 := with_ch cp (pre ++ rest)). set (h1 := put h P cp1).
    assert (HP1 : nth_error h1 P = Some cp1) by (unfold h1; now apply put_same).
    assert (K1 : keeps D h h1) by (apply keeps_put; exact PD).
    assert (K01 : keeps D h0 h1) by (eapply keeps_trans; eauto).
    assert (Hn1 : nth_error h1 n = Some c) by (unfold h1; rewrite put_other by auto; exact Hn).
    assert (Hc' : has_children (c_type c) = true) by (rewrite Tn; reflexivity).
    repeat rewrite bind_assoc. unfold replace_else. repeat rewrite bind_assoc.
    erewrite b_ret; [|eapply run_pos; exact Hn1]. repeat rewrite bind_assoc.
    erewrite b_ret; [|eapply next_run; [exact HP1|exact CP|reflexivity]]. repeat rewrite bind_assoc.
    assert (NE : (match hd_error rest with Some a => e <- is_else a ;; ret (if e : bool then Some a else None) | None => ret None end) (mkK h1 m ps) = Ret None (mkK h1 m ps)).
    { destruct rest as [|e r]; [reflexivity|]. destruct Nx as ((ce & He & Q) & Dp). cbn [hd_error].
      erewrite b_ret; [|apply is_else_no; exists ce; unfold h1; rewrite put_other by auto; auto]. reflexivity. }
    erewrite b_ret; [|exact NE]. repeat rewrite bind_assoc.
    erewrite b_ret; [|eapply run_size; [exact Hn1|exact Hc']]. repeat rewrite bind_assoc. rewrite bind_ret. cbv iota.
    destruct Bk as (k & Hk & Tk & Fk).
    assert (Sb : settled D h0 d blk) by (rewrite Cn in Fa; now inversion Fa).
    assert (Nb : ~ In blk D) by (destruct (settled_at _ _ _ _ Sb) as (? & _ & ? & _); auto).
    assert (Hk1 : nth_error h1 blk = Some k) by (eapply keeps_at; eauto).
    repeat rewrite bind_assoc. erewrite b_ret; [|eapply run_child0; [exact Hn1|exact Hc'|exact Cn]].
    repeat rewrite bind_assoc. erewrite b_ret; [|eapply run_type; exact Hk1]. rewrite Tk.
    change (ntype_eqb OPEN_CURLYBRACKET IDENTIFIER) with false. cbv iota.
    repeat rewrite bind_assoc. rewrite bind_ret. cbv iota. repeat rewrite bind_assoc. rewrite bind_ret. cbv beta iota.
    repeat rewrite bind_assoc. erewrite b_ret; [|eapply run_integer; [exact Hn1|rewrite Tn; reflexivity]].
    replace (c_int c =? 0) with false by (destruct St as [-> | ->]; reflexivity). cbv zeta.
    repeat rewrite bind_assoc. erewrite b_ret; [|eapply run_size; [exact Hn1|exact Hc']]. rewrite Cn. cbn [length].
    change (Z.of_nat 1 =? 1) with true. cbn [negb]. cbv iota. repeat rewrite bind_assoc. rewrite bind_ret. fold use.
    assert (A5 : (if use then block <- lift (get_child n 0) ;; lift (size block) ;;; c0 <- lift (load block) ;; insert_all P (Z.of_nat (length pre)) (c_ch c0) else ret tt) (mkK h1 m ps)
              = Ret tt (mkK (put h1 P (with_ch cp (pre ++ (if use then statements h0 blk else []) ++ rest))) m ps)).
    { destruct use.
      - erewrite b_ret; [|eapply run_child0; [exact Hn1|exact Hc'|exact Cn]].
        pose proof (block_run h1 m cp1 pre rest blk K01 HP1 CP eq_refl (ex_intro _ k (conj Hk (conj Tk Fk))) Sb) as BR.
        unfold cp1 in BR. rewrite with_ch_twice in BR. exact BR.
      - cbn [app]. fold cp1. rewrite put_id by exact HP1. reflexivity. }
    cbv iota. repeat rewrite bind_assoc. erewrite b_ret; [|exact A5]. rewrite bind_ret. rewrite bind_ret.
    eexists _, m. split; [reflexivity|]. split; [eapply keeps_trans; [exact K1|now apply keeps_put]|].
    apply put_same. unfold h1. rewrite put_length. exact LP.
  Qed.

  (** ** The whole chain *)
  Lemma settled_not_else h e dd : settled D h dd e -> not_else_at h e.
  Proof.
    intros [d' a' c N H T|d' a' c N H T R|d' a' c N H T E W Fa]; exists c; split; auto.
    - left. intro Q. rewrite Q in T. discriminate.
    - left. congruence.
    - destruct T as [T|[T Ns]]; [left; intro Q; rewrite Q in T; discriminate|]. right. intro Q. apply Ns. rewrite Q. cbn. tauto.
  Qed.
  Lemma statements_settled blk : block_ok h0 blk -> settled D h0 d blk -> Forall (settled D h0 d) (statements h0 blk).
  Proof.
    intros (k & Hk & Tk & _) Sb. unfold statements. rewrite Hk.
    destruct Sb as [d' a c N Hc T|d' a c N Hc T R|d' a c N Hc T El W Fc]; rewrite Hk in Hc; injection Hc as <-.
    - rewrite Tk in T. discriminate.
    - congruence.
    - eapply Forall_impl; [|exact Fc]. intros y Sy. eapply settled_mono; eauto.
  Qed.
  Definition final_node (final : option (addr * addr)) : list addr := match final with Some (n, _) => [n] | None => [] end.
  Definition inserted (st : Z) (elses : list branch) (final : option (addr * addr)) : list addr :=
    if st =? executed then [] else kept_statements h0 (chosen elses (option_map snd final)).

  (** Go past the statements of a block that was just inserted. *)
  Lemma past_statements h m cp (pre : list addr) (l rest : list addr) f fs : keeps D h0 h -> nth_error h P = Some cp -> has_children (c_type cp) = true ->
    c_ch cp = pre ++ l ++ rest -> Forall (settled D h0 d) l -> (S d < fs)%nat ->
    variables_loop w (replace_variables w fs) x P (length l + f) (Z.of_nat (length pre)) (mkK h m ps)
    = variables_loop w (replace_variables w fs) x P f (Z.of_nat (length (pre ++ l))) (mkK h m ps).
  Proof.
    intros K HP CP Ch Fa Ls. apply (loop_past w _ x P cp h m ps D d HP CP) with (l3 := rest); [|exact Ch|].
    - intros a Sa. eapply settled_run; [exact Sa|]. lia.
    - eapply Forall_impl; [|exact Fa]. intros a Sa. eapply settled_keeps; eauto.
  Qed.

  Lemma else_chain T (post : list addr) (final : option (addr * addr)) :
    (forall a, In a T -> ~ In a D /\ (a < length h0)%nat) -> Forall (settled D h0 d) post ->
    match final with Some (n, b) => else_node D h0 d n b | None => True end ->
    forall elses (pre : list addr) cp h m st f fs,
    let nodes := map b_node elses ++ final_node final in
    keeps D h0 h -> nth_error h P = Some cp -> has_children (c_type cp) = true -> c_ch cp = pre ++ nodes ++ post ->
    (forall n, In n nodes -> In n D /\ n <> P /\ (n < length h0)%nat /\ marked h0 h n) -> NoDup nodes ->
    Forall (else_if_node D h0 d) elses -> Forall (evaluates w x F0 h0 T) elses ->
    st = executed \/ st = false_so_far ->
    match nodes with e :: _ => int_at h e st | [] => True end -> (F0 <= f)%nat -> (S d < fs)%nat ->
    let ins := inserted st elses final in
    exists h' m', variables_loop w (replace_variables w fs) x P (length nodes + length ins + f) (Z.of_nat (length pre)) (mkK h m ps)
        = variables_loop w (replace_variables w fs) x P f (Z.of_nat (length (pre ++ ins))) (mkK h' m' ps)
      /\ keeps D h h' /\ nth_error h' P = Some (with_ch cp (pre ++ ins ++ post)).
  Proof.
    intros TD Fp Hf. induction elses as [|br elses IH]; intros pre cp h m st f fs nodes K HP CP Ch Nd ND Fe Fv St It Lf Ls ins.
    - destruct final as [[n blk]|]; cbn [map app final_node] in nodes.
      + destruct Hf as (c0 & H0 & T0 & S0 & C0 & D1 & Fc & Bk). destruct (Nd n ltac:(cbn; auto)) as (InD & NP & L0 & Mk).
        destruct (Mk _ H0) as (j & Hn). cbn [nodes] in It. destruct It as (c & Hc & Ic). unfold nodes in Hc. rewrite Hn in Hc. injection Hc as <-.
        cbn [c_int with_int] in Ic. subst j.
        assert (Sb : settled D h0 d blk) by (rewrite C0 in Fc; now inversion Fc).
        destruct (else_step h m cp pre n blk post (with_int c0 st) (length ins + f) fs K HP CP Ch InD NP Hn T0 S0 C0 D1 Fc Bk St) as (h' & m' & Run & K' & HP'); [|exact Ls|].
        { destruct post as [|e r]; [exact I|]. inversion Fp as [|? ? Se _]; subst. split.
          - apply (settled_not_else h e d). eapply settled_keeps; eauto.
          - intros ->. destruct (settled_at _ _ _ _ Se) as (? & _ & ? & _). auto. }
        cbn [c_int with_int] in HP'.
        assert (Ei : (if st =? false_so_far then statements h0 blk else []) = ins).
        { unfold ins, inserted. cbn [chosen option_map snd kept_statements]. destruct St as [-> | ->]; reflexivity. }
        rewrite Ei in HP'. exists h', m'. split; [|split; [exact K'|exact HP']]. cbn [length nodes Nat.add]. etransitivity; [exact Run|].
        eapply past_statements; [eapply keeps_trans; eauto|exact HP'|exact CP|reflexivity| |exact Ls].
        rewrite <- Ei. destruct (st =? false_so_far); [now apply statements_settled|constructor].
      + assert (Ei : ins = []) by (unfold ins, inserted; destruct (st =? executed); reflexivity).
        rewrite Ei. cbn [nodes length Nat.add app]. rewrite app_nil_r. exists h, m. split; [reflexivity|]. split; [apply keeps_refl|].
        rewrite HP. f_equal. change (c_ch cp = pre ++ post) in Ch. rewrite <- Ch. destruct cp; reflexivity.
    - inversion Fe as [|? ? (c0 & i & ws & k & H0 & T0 & S0 & C0 & L0 & Nt & Hi & Ti & Si & Ws & Tw & Fc & Bk) Fe']; subst.
      inversion Fv as [|? ? Ev Fv']; subst.
      set (n := b_node br). set (rest := map b_node elses ++ final_node final).
      assert (En : nodes = n :: rest) by reflexivity. clearbody nodes. subst nodes.
      destruct (Nd n ltac:(cbn; auto)) as (InD & NP & Ln0 & Mk).
      destruct (Mk _ H0) as (j & Hn). destruct It as (c & Hc & Ic). rewrite Hn in Hc. injection Hc as <-. cbn [c_int with_int] in Ic. subst j.
      inversion ND as [|? ? Nn ND']; subst.
      assert (Sb : settled D h0 d (b_block br)).
      { rewrite Forall_forall in Fc. apply Fc. rewrite C0. right. apply in_or_app. right. apply in_or_app. cbn; auto. }
      assert (Eh : forall e, In e rest -> is_else_at h0 e).
      { intros e Ie. unfold rest in Ie. apply in_app_or in Ie. destruct Ie as [Ie|Ie].
        - apply in_map_iff in Ie. destruct Ie as (b & <- & Ib). rewrite Forall_forall in Fe'. destruct (Fe' b Ib) as (cb & ? & ? & ? & Hb & Tb & Sb' & _). exists cb; auto.
        - destruct final as [[fn fb]|]; [|destruct Ie]. destruct Ie as [<-|[]]. destruct Hf as (cb & Hb & Tb & Sb' & _). exists cb; auto. }
      assert (Eh1 : forall e, In e rest -> is_else_at h e).
      { intros e Ie. destruct (Eh e Ie) as (ce & He & Te & Se). destruct (Nd e ltac:(cbn; auto)) as (_ & _ & _ & Me). destruct (Me _ He) as (jj & Hj). exists (with_int ce jj); auto. }
      set (use := (st =? false_so_far) && b_truth br). set (now := if use then statements h0 (b_block br) else []).
      set (st' := if use then executed else st).
      assert (Ei : ins = now ++ inserted st' elses final).
      { unfold ins, inserted, now, st', use. cbn [chosen]. destruct St as [-> | ->].
        - change (executed =? executed) with true. change (executed =? false_so_far) with false. reflexivity.
        - change (false_so_far =? executed) with false. change (false_so_far =? false_so_far) with true. cbn [andb]. cbv iota.
          destruct (b_truth br); cbn [kept_statements]; [change (executed =? executed) with true; cbv iota; now rewrite app_nil_r|reflexivity]. }
      rewrite Ei.
      destruct (else_if_step h m cp pre n (rest ++ post) (with_int c0 st) br (length rest + (length (now ++ inserted st' elses final) + f))%nat fs T i ws k K HP CP Ch eq_refl InD NP Hn T0 S0 C0 Nt Hi Ti Si Ws Tw L0 Fc Bk Ev TD St) as (h1 & m1 & Run & K1 & HP1 & M1 & I1); [|lia|exact Ls|].
      { unfold next_ok. destruct rest as [|e r]; cbn [app].
        - destruct post as [|e r]; [exact I|]. inversion Fp as [|? ? Se _]; subst. right. destruct (settled_at _ _ _ _ Se) as (? & _ & Ne & _).
          split; [apply (settled_not_else h e d); eapply settled_keeps; eauto|]. split; [reflexivity|]. split; intros ->; auto.
        - left. destruct (Nd e ltac:(cbn; auto)) as (? & ? & _). split; [apply Eh1; cbn; auto|]. split; [auto|]. split; [|auto]. intros ->. apply Nn. cbn; auto. }
      cbn [c_int with_int] in HP1, I1. fold use in HP1, I1. fold now in HP1. fold st' in I1.
      assert (K01 : keeps D h0 h1) by (eapply keeps_trans; eauto).
      destruct (IH (pre ++ now) (with_ch cp (pre ++ now ++ rest ++ post)) h1 m1 st' f fs) as (h2 & m2 & Run2 & K2 & HP2).
      { exact K01. } { exact HP1. } { exact CP. } { cbn [c_ch with_ch]. rewrite <- app_assoc. reflexivity. }
      { intros e Ie. fold rest in Ie. destruct (Nd e ltac:(cbn; auto)) as (A & B & C & M). repeat split; auto. eapply marked_trans; [exact M|].
        apply M1; [|exact B|]. - intros ->. auto. - destruct K as [LK _]. lia. }
      { exact ND'. } { exact Fe'. } { exact Fv'. } { unfold st'. destruct use; auto. }
      { fold rest. destruct rest as [|e r]; [exact I|]. apply (I1 e (r ++ post) eq_refl). apply Eh1. cbn; auto. }
      { exact Lf. } { exact Ls. }
      fold rest in Run2. set (ins2 := inserted st' elses final) in *.
      exists h2, m2. split; [|split; [eapply keeps_trans; eauto|]].
      + cbn [length Nat.add]. rewrite <- Nat.add_assoc. etransitivity; [exact Run|]. rewrite (app_assoc pre now ins2). etransitivity; [|exact Run2].
        rewrite app_length. replace (length rest + (length now + length ins2 + f))%nat with (length now + (length rest + length ins2 + f))%nat by lia.
        eapply past_statements; [exact K01|exact HP1|exact CP|reflexivity| |exact Ls].
        unfold now. destruct use; [now apply statements_settled|constructor].
      + rewrite HP2, with_ch_twice, <- !app_assoc. reflexivity.
  Qed.

  Lemma if_chain T (pre post : list addr) br elses final cp h m f fs :
    let nodes := map b_node (br :: elses) ++ final_node final in
    (forall a, In a T -> ~ In a D /\ (a < length h0)%nat) -> Forall (settled D h0 d) post ->
    match final with Some (n, b) => else_node D h0 d n b | None => True end ->
    keeps D h0 h -> nth_error h P = Some cp -> has_children (c_type cp) = true -> c_ch cp = pre ++ nodes ++ post ->
    (forall n, In n nodes -> In n D /\ n <> P /\ (n < length h0)%nat /\ nth_error h n = nth_error h0 n) -> NoDup nodes ->
    if_node D h0 d br -> Forall (else_if_node D h0 d) elses -> Forall (evaluates w x F0 h0 T) (br :: elses) ->
    b_truth br = true \/ elses <> [] \/ final <> None \/ post = [] -> (F0 <= f)%nat -> (S d < fs)%nat ->
    let ins := kept_statements h0 (chosen (br :: elses) (option_map snd final)) in
    exists h' m', variables_loop w (replace_variables w fs) x P (length nodes + length ins + f) (Z.of_nat (length pre)) (mkK h m ps)
        = variables_loop w (replace_variables w fs) x P f (Z.of_nat (length (pre ++ ins))) (mkK h' m' ps)
      /\ keeps D h h' /\ nth_error h' P = Some (with_ch cp (pre ++ ins ++ post)).
  Proof.
    intros nodes TD Fp Hf K HP CP Ch Nd ND (c0 & H0 & T0 & S0 & C0 & L0 & Nt & Fc & Bk) Fe Fv Need Lf Ls ins.
    inversion Fv as [|? ? Ev Fv']; subst.
    set (n := b_node br). set (rest := map b_node elses ++ final_node final).
    assert (En : nodes = n :: rest) by reflexivity. clearbody nodes. subst nodes.
    destruct (Nd n ltac:(cbn; auto)) as (InD & NP & Ln0 & Mk).
    assert (Hn : nth_error h n = Some c0) by (rewrite Mk; exact H0).
    inversion ND as [|? ? Nn ND']; subst.
    assert (Sb : settled D h0 d (b_block br)) by (rewrite C0 in Fc; eapply settled_block; eauto).
    assert (Eh1 : forall e, In e rest -> is_else_at h e).
    { intros e Ie. destruct (Nd e ltac:(cbn; auto)) as (_ & _ & _ & Me). unfold is_else_at. rewrite Me. unfold rest in Ie. apply in_app_or in Ie. destruct Ie as [Ie|Ie].
      - apply in_map_iff in Ie. destruct Ie as (b & <- & Ib). rewrite Forall_forall in Fe. destruct (Fe b Ib) as (cb & ? & ? & ? & Hb & Tb & Sb' & _). exists cb; auto.
      - destruct final as [[fn fb]|]; [|destruct Ie]. destruct Ie as [<-|[]]. destruct Hf as (cb & Hb & Tb & Sb' & _). exists cb; auto. }
    set (now := if b_truth br then statements h0 (b_block br) else []). set (st' := if b_truth br then executed else false_so_far).
    assert (Ei : ins = now ++ inserted st' elses final).
    { unfold ins, inserted, now, st'. cbn [chosen]. destruct (b_truth br); cbn [kept_statements].
      - change (executed =? executed) with true. cbv iota. now rewrite app_nil_r.
      - reflexivity. }
    rewrite Ei.
    destruct (if_step h m cp pre n (rest ++ post) c0 br (length rest + (length (now ++ inserted st' elses final) + f))%nat fs T K HP CP Ch eq_refl InD NP Hn T0 S0 C0 L0 Fc Bk Ev TD) as (h1 & m1 & Run & K1 & HP1 & M1 & I1); [|lia|exact Ls|].
    { unfold next_ok. destruct rest as [|e r] eqn:Er; cbn [app].
      - destruct post as [|e r]; [exact I|]. inversion Fp as [|? ? Se _]; subst. right. destruct (settled_at _ _ _ _ Se) as (? & _ & Ne & _).
        split; [apply (settled_not_else h e d); eapply settled_keeps; eauto|]. split; [|split; intros ->; auto].
        destruct Need as [->|[Q|[Q|Q]]]; [reflexivity| | |discriminate]; unfold rest in Er; apply app_eq_nil in Er; destruct Er as [E1 E2].
        + destruct elses; [congruence|discriminate]. + destruct final as [[? ?]|]; [discriminate|congruence].
      - left. destruct (Nd e ltac:(cbn; auto)) as (? & ? & _). split; [apply Eh1; cbn; auto|]. split; [auto|]. split; [|auto]. intros ->. apply Nn. cbn; auto. }
    fold now in HP1. fold st' in I1.
    assert (K01 : keeps D h0 h1) by (eapply keeps_trans; eauto).
    destruct (else_chain T post final TD Fp Hf elses (pre ++ now) (with_ch cp (pre ++ now ++ rest ++ post)) h1 m1 st' f fs) as (h2 & m2 & Run2 & K2 & HP2).
    { exact K01. } { exact HP1. } { exact CP. } { cbn [c_ch with_ch]. rewrite <- app_assoc. reflexivity. }
    { intros e Ie. fold rest in Ie. destruct (Nd e ltac:(cbn; auto)) as (A & B & C & M). repeat split; auto.
      eapply marked_trans; [apply (marked_same h0 h); exact M|]. apply M1; [|exact B|]. - intros ->. auto. - destruct K as [LK _]. lia. }
    { exact ND'. } { exact Fe. } { exact Fv'. } { unfold st'. destruct (b_truth br); auto. }
    { fold rest. destruct rest as [|e r]; [exact I|]. apply (I1 e (r ++ post) eq_refl). apply Eh1. cbn; auto. }
    { exact Lf. } { exact Ls. }
    fold rest in Run2. set (ins2 := inserted st' elses final) in *.
    exists h2, m2. split; [|split; [eapply keeps_trans; eauto|]].
    - cbn [length Nat.add]. rewrite <- Nat.add_assoc. etransitivity; [exact Run|]. rewrite (app_assoc pre now ins2). etransitivity; [|exact Run2].
      rewrite app_length. replace (length rest + (length now + length ins2 + f))%nat with (length now + (length rest + length ins2 + f))%nat by lia.
      eapply past_statements; [exact K01|exact HP1|exact CP|reflexivity| |exact Ls].
      unfold now. destruct (b_truth br); [now apply statements_settled|constructor].
    - rewrite HP2, with_ch_twice, <- !app_assoc. reflexivity.
  Qed.
End Chain.
