(** * Proofs about argify on shared nodes *)

From Coq Require Import String ZArith List Bool Lia Arith ZifyBool Floats.SpecFloat.
From Verif Require Import Base NodeHeap NodeProofs Compiler CompRun SplitSpec.
Import ListNotations.
Open Scope string_scope. Open Scope list_scope. Open Scope Z_scope.
Ltac Zify.zify_post_hook ::= idtac.

Section Split.
  Variables (h : heap) (n : addr) (c : cell) (sep : ntype) (m : list msg) (ps : list str).
  Hypothesis Hn : nth_error h n = Some c.
  Hypothesis Tn : has_children (c_type c) = true.
  Hypothesis Sep : sep = COMMA \/ sep = DIVIDE.
  Notation L := (length h).
  Notation p := (c_pos c).
  Let temp := mkCell LIST p false 0 (S754_zero false) [] [] (c_ch c) [] [].
  Notation ac := (argument p sep).
  Definition mid (gs : list (list addr)) (cur : list addr) : heap :=
    put h n (with_ch c (seq (S L) (S (length gs)))) ++ temp :: map ac gs ++ [ac cur].
  Definition here (gs : list (list addr)) : addr := S (L + length gs).
  Lemma len_mid gs cur : length (mid gs cur) = S (S (L + length gs)).
  Proof. unfold mid. rewrite app_length, put_length. cbn [length]. rewrite app_length, map_length. cbn [length]. lia. Qed.
  Lemma mid_arg gs cur : nth_error (mid gs cur) (here gs) = Some (ac cur).
  Proof.
    unfold mid, here. rewrite nth_error_app2 by (rewrite put_length; lia). rewrite put_length. replace (S (L + length gs) - L)%nat with (S (length gs)) by lia. cbn [nth_error].
    rewrite nth_error_app2 by (rewrite map_length; lia). rewrite map_length, Nat.sub_diag. reflexivity.
  Qed.
  Lemma mid_old gs cur a : (a < L)%nat -> a <> n -> nth_error (mid gs cur) a = nth_error h a.
  Proof. intros La Na. unfold mid. rewrite nth_error_app1 by (rewrite put_length; lia). apply put_other. auto. Qed.
  Lemma mid_n gs cur : nth_error (mid gs cur) n = Some (with_ch c (seq (S L) (S (length gs)))).
  Proof. pose proof (nth_lt _ _ _ Hn). unfold mid. rewrite nth_error_app1 by (rewrite put_length; lia). now apply put_same. Qed.
  Lemma mid_type gs cur a d : nth_error h a = Some d -> exists d', nth_error (mid gs cur) a = Some d' /\ c_type d' = c_type d.
  Proof.
    intro H. destruct (Nat.eq_dec a n) as [->|Na].
    - eexists. split; [apply mid_n|]. cbn. congruence.
    - exists d. split; [|auto]. rewrite mid_old; auto. now apply nth_lt in H.
  Qed.
  Lemma put_mid_arg gs cur cur' : put (mid gs cur) (here gs) (ac cur') = mid gs cur'.
  Proof.
    unfold mid, here. set (A := put h n _). replace (A ++ temp :: map ac gs ++ [ac cur]) with ((A ++ temp :: map ac gs) ++ ac cur :: []) by (rewrite <- app_assoc; reflexivity).
    replace (S (L + length gs)) with (length (A ++ temp :: map ac gs)). 2:{ unfold A. rewrite app_length, put_length. cbn [length]. rewrite map_length. lia. }
    rewrite put_mid. rewrite <- app_assoc. reflexivity.
  Qed.

  (** Nodes added to the argument. *)
  Definition addable (cur l : list addr) : Prop := apart h (cur ++ l) /\ (cur = [] -> forall x, hd_error l = Some x -> ~ spaces h [x])
    /\ forall x, In x l -> exists c, nth_error h x = Some c /\ c_type c <> sep /\ c_type c <> OPEN_CURLYBRACKET /\ c_type c <> EOF_TOKEN.
  Lemma add_one gs cur x k : nth_error h x = Some k -> c_type k <> EOF_TOKEN -> (c_type k = WHITESPACE -> match rev cur with b :: _ => exists kb, nth_error h b = Some kb /\ c_type kb <> WHITESPACE | [] => True end) ->
    lift (add_child (here gs) x) (mkK (mid gs cur) m ps) = Ret tt (mkK (mid gs (cur ++ [x])) m ps).
  Proof.
    intros Hx Te Tw. destruct (mid_type gs cur x k Hx) as (k' & Hx' & Tk). pose proof (put_mid_arg gs cur (cur ++ [x])) as E.
    unfold lift, add_child, NodeHeap.bind, load, supports, store, NodeHeap.ret. cbn [k_heap]. rewrite mid_arg. cbn [c_type argument has_children]. rewrite Hx', Tk. rewrite (proj2 (ntype_eqb_neq _ _) Te).
    destruct (ntype_eqb (c_type k) WHITESPACE) eqn:W; [|transitivity (Ret tt (mkK (put (mid gs cur) (here gs) (ac (cur ++ [x]))) m ps)); [reflexivity|now rewrite E]]. apply ntype_eqb_spec in W. specialize (Tw W). cbn [c_ch argument]. unfold addr in *. destruct (rev cur) as [|b r]; [rewrite <- E; reflexivity|].
    destruct Tw as (kb & Hb & Tb). destruct (mid_type gs cur b kb Hb) as (kb' & Hb' & Tb'). rewrite Hb', Tb'. rewrite (proj2 (ntype_eqb_neq _ _) Tb). transitivity (Ret tt (mkK (put (mid gs cur) (here gs) (ac (cur ++ [x]))) m ps)); [reflexivity|now rewrite E].
  Qed.
  Lemma spaces_one x k : nth_error h x = Some k -> (spaces h [x] <-> c_type k = WHITESPACE).
  Proof. intro H. split; [intro S1; destruct (S1 x (or_introl eq_refl)) as (k' & H' & T); congruence|]. intros T w [<-|[]]. eauto. Qed.
  Lemma apart_mid x y : forall a b, apart h (a ++ x :: y :: b) -> ~ (spaces h [x] /\ spaces h [y]).
  Proof. induction a as [|z a IH]; intros b; [cbn; tauto|]. destruct a as [|z' a]; cbn [app]; [intros (_ & A & _); exact A|]. intros (_ & A). exact (IH b A). Qed.
  Lemma add_group gs r : forall l cur, (forall x, In x cur -> exists k, nth_error h x = Some k) -> addable cur l ->
    argify_loop sep n p (l ++ r) (here gs) (mkK (mid gs cur) m ps) = argify_loop sep n p r (here gs) (mkK (mid gs (cur ++ l)) m ps).
  Proof.
    induction l as [|x l IH]; intros cur Cu (Ap & Hd & All); [cbn; now rewrite app_nil_r|]. destruct (All x (or_introl eq_refl)) as (k & Hx & Ts & Tb & Te).
    assert (Rest : argify_loop sep n p (l ++ r) (here gs) (mkK (mid gs (cur ++ [x])) m ps) = argify_loop sep n p r (here gs) (mkK (mid gs (cur ++ x :: l)) m ps)).
    { rewrite IH. - rewrite <- app_assoc. reflexivity.
      - intros y I. apply in_app_or in I. destruct I as [I|[<-|[]]]; [auto|eauto].
      - split; [rewrite <- app_assoc; exact Ap|]. split; [intro Q; destruct cur; discriminate|]. intros y I. apply All. now right. }
    cbn [app argify_loop]. destruct (mid_type gs cur x k Hx) as (k' & Hx' & Tk). erewrite b_ret; [|eapply run_type; exact Hx']. rewrite Tk.
    rewrite (proj2 (ntype_eqb_neq _ _) Tb), (proj2 (ntype_eqb_neq _ _) Ts).
    assert (Add : lift (add_child (here gs) x) (mkK (mid gs cur) m ps) = Ret tt (mkK (mid gs (cur ++ [x])) m ps)).
    { eapply add_one; eauto. intro W. destruct (rev cur) as [|b q] eqn:Q; [exact I|].
      assert (Eq : cur = rev q ++ [b]) by (rewrite <- (rev_involutive cur), Q; reflexivity).
      destruct (Cu b) as (kb & Hb); [rewrite Eq; apply in_or_app; right; now left|]. exists kb. split; [auto|]. intro Wb.
      rewrite Eq, <- app_assoc in Ap. cbn [app] in Ap. apply (apart_mid b x (rev q) l Ap). split; [now apply (spaces_one b kb)|now apply (spaces_one x k)]. }
    destruct (ntype_eqb (c_type k) WHITESPACE) eqn:W.
    - apply ntype_eqb_spec in W. erewrite b_ret; [|eapply run_empty; [apply mid_arg|reflexivity]]. cbn [c_ch argument].
      destruct cur as [|y cur].
      + exfalso. apply (Hd eq_refl x eq_refl). now apply (spaces_one x k).
      + cbv iota. rewrite (b_ret _ _ _ _ _ Add). exact Rest.
    - rewrite (b_ret _ _ _ _ _ Add). exact Rest.
  Qed.
  Lemma skip_lead gs r : forall lead, spaces h lead -> argify_loop sep n p (lead ++ r) (here gs) (mkK (mid gs []) m ps) = argify_loop sep n p r (here gs) (mkK (mid gs []) m ps).
  Proof.
    induction lead as [|w lead IH]; intro Sp; [reflexivity|]. destruct (Sp w (or_introl eq_refl)) as (k & Hw & Tw). destruct (mid_type gs [] w k Hw) as (k' & Hw' & Tk).
    cbn [app argify_loop]. erewrite b_ret; [|eapply run_type; exact Hw']. rewrite Tk, Tw. replace (ntype_eqb WHITESPACE sep) with false by (destruct Sep as [-> | ->]; reflexivity).
    change (ntype_eqb WHITESPACE OPEN_CURLYBRACKET) with false. change (ntype_eqb WHITESPACE WHITESPACE) with true. cbv iota.
    erewrite b_ret; [|eapply run_empty; [apply mid_arg|reflexivity]]. cbn [c_ch argument]. cbv iota. erewrite b_ret; [|reflexivity]. apply IH. intros y I. apply Sp. now right.
  Qed.
  Lemma get_last gs cur x : Z.of_nat (length cur) < 18446744073709551615 -> lift (get_last_child (here gs)) (mkK (mid gs (cur ++ [x])) m ps) = Ret x (mkK (mid gs (cur ++ [x])) m ps).
  Proof.
    intros Sm. unfold lift, get_last_child, NodeHeap.bind, load. cbn [k_heap]. rewrite mid_arg. cbn [c_type c_ch argument has_children].
    unfold get_child, NodeHeap.bind, load, supports. rewrite mid_arg. cbn [c_type c_ch argument has_children]. unfold NodeHeap.ret. rewrite app_length. cbn [length].
    replace (u64 (Z.of_nat (length cur + 1) - 1)) with (Z.of_nat (length cur)) by (unfold u64; rewrite Z.mod_small; lia).
    replace (Z.of_nat (length cur + 1) <=? Z.of_nat (length cur)) with false by lia. rewrite Nat2Z.id, nth_mid. reflexivity.
  Qed.
  Lemma erase_last (cur : list addr) w : ~ In w cur -> find_child w (cur ++ [w]) = Some (length cur) /\ list_erase (length cur) (cur ++ [w]) = cur.
  Proof.
    intro N. split.
    - induction cur as [|y l IH]; cbn; [now rewrite Nat.eqb_refl|]. destruct (Nat.eqb_spec w y) as [->|Ne]; [exfalso; apply N; now left|]. rewrite IH; [reflexivity|]. intro. apply N. now right.
    - unfold list_erase. rewrite firstn_app, firstn_all, Nat.sub_diag. cbn [firstn]. rewrite skipn_all2 by (rewrite app_length; cbn; lia). now rewrite !app_nil_r.
  Qed.
  Lemma drop_trail gs g trail f : group_ok h sep g -> (trail = [] \/ exists w, trail = [w] /\ spaces h [w] /\ ~ In w g) -> Z.of_nat (length (g ++ trail)) < 18446744073709551616 -> (length (g ++ trail) < f)%nat ->
    drop_spaces f (here gs) (mkK (mid gs (g ++ trail)) m ps) = Ret tt (mkK (mid gs g) m ps).
  Proof.
    intros (Ne & Ap & Hd & Lt & All) Tr Sm Lf.
    assert (Stop : forall f, (0 < f)%nat -> drop_spaces f (here gs) (mkK (mid gs g) m ps) = Ret tt (mkK (mid gs g) m ps)).
    { intros [|k] Lk; [lia|]. cbn [drop_spaces]. destruct (@exists_last _ g Ne) as (g0 & x & ->). erewrite b_ret; [|eapply run_empty; [apply mid_arg|reflexivity]]. cbn [c_ch argument].
      replace (match g0 ++ [x] with [] => true | _ => false end) with false by (destruct g0; reflexivity). cbv iota.
      rewrite (b_ret _ _ _ _ _ (get_last gs g0 x ltac:(rewrite !app_length in Sm; cbn [length] in Sm; lia))).
      destruct (All x) as (k' & Hx & _); [apply in_or_app; right; now left|]. destruct (mid_type gs (g0 ++ [x]) x k' Hx) as (k2 & Hx2 & T2).
      erewrite b_ret; [|eapply run_is; exact Hx2]. rewrite T2. assert (W : c_type k' <> WHITESPACE). { intro W. apply (Lt x); [rewrite rev_app_distr; reflexivity|]. now apply (spaces_one x k'). }
      rewrite (proj2 (ntype_eqb_neq _ _) W). reflexivity. }
    destruct Tr as [->|(w & -> & Sw & Nw)]; [rewrite app_nil_r in *; apply Stop; lia|]. destruct f as [|f]; [lia|]. cbn [drop_spaces].
    erewrite b_ret; [|eapply run_empty; [apply mid_arg|reflexivity]]. cbn [c_ch argument]. replace (match g ++ [w] with [] => true | _ => false end) with false by (destruct g; reflexivity). cbv iota.
    rewrite (b_ret _ _ _ _ _ (get_last gs g w ltac:(rewrite app_length in Sm; cbn [length] in Sm; lia))). destruct (Sw w (or_introl eq_refl)) as (k & Hw & Tw). destruct (mid_type gs (g ++ [w]) w k Hw) as (k2 & Hx2 & T2).
    erewrite b_ret; [|eapply run_is; exact Hx2]. rewrite T2, Tw. change (ntype_eqb WHITESPACE WHITESPACE) with true. cbv iota. destruct (erase_last g w Nw) as (F1 & F2).
    erewrite b_ret; [|eapply run_remove; [apply mid_arg|reflexivity|exact F1]]. cbn [c_ch argument]. rewrite F2. change (with_ch (ac (g ++ [w])) g) with (ac g). rewrite put_mid_arg. apply Stop. rewrite app_length in Lf. cbn in Lf. lia.
  Qed.
  (** A new argument. *)
  Lemma next_arg gs g : (a <- new_arg sep p ;; lift (add_child n a) ;;; ret a) (mkK (mid gs g) m ps) = Ret (here (gs ++ [g])) (mkK (mid (gs ++ [g]) []) m ps).
  Proof.
    pose proof (nth_lt _ _ _ Hn) as Ln. unfold new_arg. rewrite bind_assoc. erewrite b_ret; [|apply run_new]. rewrite bind_assoc.
    erewrite b_ret; [|eapply run_set_integer; [apply nth_mid|reflexivity]]. rewrite bind_ret. rewrite len_mid.
    assert (E1 : put (mid gs g ++ [blank ARG p]) (length (mid gs g)) (with_int (blank ARG p) (separator_code sep)) = mid gs g ++ [ac []]) by (rewrite put_mid; reflexivity). rewrite len_mid in E1.
    replace (put (mid gs g ++ [blank ARG p]) (S (S (L + length gs))) (with_int (blank ARG p) (separator_code sep))) with (mid gs g ++ [ac []]) by (symmetry; exact E1).
    assert (Nn : n <> S (S (L + length gs))) by lia.
    erewrite b_ret. 2:{ eapply (run_add (mid gs g ++ [ac []]) m ps n (with_ch c (seq (S L) (S (length gs)))) ); [rewrite nth_error_app1 by (rewrite len_mid; lia); apply mid_n|exact Tn|rewrite <- len_mid with (cur := g) at 1; apply nth_mid|discriminate|discriminate]. }
    unfold ret. cbn [c_ch with_ch]. f_equal; [unfold here; rewrite app_length; cbn; lia|]. f_equal.
    assert (E2 : seq (S L) (S (length gs)) ++ [S (S (L + length gs))] = seq (S L) (S (length (gs ++ [g])))).
    { rewrite app_length. cbn [length]. replace (S (length gs + 1)) with (S (length gs) + 1)%nat by lia. rewrite seq_app. cbn [seq]. do 2 f_equal. lia. }
    transitivity (put (mid gs g ++ [ac []]) n (with_ch c (seq (S L) (S (length (gs ++ [g])))))); [rewrite <- E2; reflexivity|]. unfold mid. rewrite map_app. cbn [map]. set (A := put h n (with_ch c (seq (S L) (S (length gs))))).
    transitivity (put A n (with_ch c (seq (S L) (S (length (gs ++ [g]))))) ++ temp :: (map ac gs ++ [ac g]) ++ [ac []]).
    - assert (P : forall (X Y : heap) a k, (a < length X)%nat -> put (X ++ Y) a k = put X a k ++ Y). { induction X as [|x X IH]; intros Y [|a] k La; cbn in *; try lia; [reflexivity|]. rewrite IH by lia. reflexivity. }
      rewrite <- !app_assoc. rewrite P by (unfold A; rewrite put_length; lia). cbn [app]. rewrite <- !app_assoc. reflexivity.
    - unfold A. rewrite put_put. reflexivity.
  Qed.
  Theorem argify_run : forall l gs', grouped h sep l gs' -> Z.of_nat (length l) < 18446744073709551616 -> forall gs,
    argify_loop sep n p l (here gs) (mkK (mid gs []) m ps) = Ret true (mkK (mid (gs ++ removelast gs') (last gs' [])) m ps).
  Proof.
    induction 1 as [lead g Sl G|lead g trail x k l gs' Sl G Tr Hx Tx Gr IH]; intros Sm gs.
    - rewrite skip_lead by auto. cbn [removelast last]. rewrite app_nil_r. rewrite <- (app_nil_r g) at 1. rewrite add_group; [reflexivity|intros y []|].
      destruct G as (Ne & Ap & Hd & Lt & All). split; [exact Ap|]. split; auto.
    - rewrite skip_lead by auto. pose proof G as (Ne & Ap & Hd & Lt & All). rewrite add_group; [|intros y []|split; [exact Ap|split; auto]]. cbn [app].
      assert (Tr' : argify_loop sep n p (trail ++ x :: l) (here gs) (mkK (mid gs g) m ps) = argify_loop sep n p (x :: l) (here gs) (mkK (mid gs (g ++ trail)) m ps)).
      { apply add_group; [intros y I; destruct (All y I) as (d & Hd' & _); eauto|]. destruct Tr as [->|(w & -> & Sw & Nw)].
        - split; [now rewrite app_nil_r|]. split; [intros; discriminate|intros y []].
        - split; [|split; [intro; congruence|]].
          + clear - Ap Lt Ne. induction g as [|y g IH]; [congruence|]. destruct g as [|z g]; cbn [app apart].
            * split; [|exact I]. intros (A & _). apply (Lt y eq_refl). exact A.
            * destruct Ap as (A & B). split; [exact A|]. apply IH; [discriminate|exact B|]. intros q Q. apply Lt. cbn [rev] in *. destruct (rev g) as [|q0 r0]; [exact Q|]. cbn [app] in *. exact Q.
          + intros y [<-|[]]. destruct (Sw w (or_introl eq_refl)) as (d & Hd' & Td). exists d. rewrite Td. split; [auto|]. split; [destruct Sep as [-> | ->]; discriminate|split; discriminate]. }
      rewrite Tr'. cbn [argify_loop]. destruct (mid_type gs (g ++ trail) x k Hx) as (k' & Hx' & Tk). erewrite b_ret; [|eapply run_type; exact Hx']. rewrite Tk, Tx.
      replace (ntype_eqb sep OPEN_CURLYBRACKET) with false by (destruct Sep as [-> | ->]; reflexivity). replace (ntype_eqb sep sep) with true by (destruct Sep as [-> | ->]; reflexivity). cbv iota.
      erewrite b_ret; [|eapply run_load; apply mid_arg]. cbn [c_ch argument].
      assert (Sm2 : Z.of_nat (length (g ++ trail)) < 18446744073709551616) by (rewrite !app_length in *; lia).
      rewrite (b_ret _ _ _ _ _ (drop_trail gs g trail _ G Tr Sm2 (Nat.lt_succ_diag_r _))). erewrite b_ret; [|eapply run_empty; [apply mid_arg|reflexivity]]. cbn [c_ch argument].
      destruct g as [|g0 g1]; [congruence|]. cbv iota. set (g := g0 :: g1) in *.
      assert (Nx : exists y r, l = y :: r /\ exists ky, nth_error h y = Some ky /\ c_type ky <> OPEN_CURLYBRACKET).
      { inversion Gr as [lead2 g2 Sl2 G2|lead2 g2 trail2 x2 k2 l2 gs2 Sl2 G2 Tr2 Hx2 Tx2 Gr2]; subst.
        - destruct lead2 as [|w2 lead2]; [|exists w2, (lead2 ++ g2); split; [reflexivity|]; destruct (Sl2 w2 (or_introl eq_refl)) as (d & Hd2 & Td2); exists d; split; [auto|congruence]].
          destruct G2 as (Ne2 & _ & _ & _ & All2). destruct g2 as [|y g2]; [congruence|]. exists y, g2. split; [reflexivity|]. destruct (All2 y (or_introl eq_refl)) as (d & A & _ & B & _). eauto.
        - destruct lead2 as [|w2 lead2]; [|eexists w2, _; split; [reflexivity|]; destruct (Sl2 w2 (or_introl eq_refl)) as (d & Hd2 & Td2); exists d; split; [auto|congruence]].
          destruct G2 as (Ne2 & _ & _ & _ & All2). destruct g2 as [|y g2]; [congruence|]. eexists y, _. split; [reflexivity|]. destruct (All2 y (or_introl eq_refl)) as (d & A & _ & B & _). eauto. }
      destruct Nx as (y & r & El & ky & Hy & Ty). destruct (mid_type gs g y ky Hy) as (ky' & Hy' & Tky).
      erewrite (b_ret (match l with [] => ret true | y0 :: _ => is_a y0 OPEN_CURLYBRACKET end) _ _ false). 2:{ rewrite El. erewrite run_is by exact Hy'. rewrite Tky. rewrite (proj2 (ntype_eqb_neq _ _) Ty). reflexivity. }
      cbv iota. transitivity ((a <- (a <- new_arg sep p ;; lift (add_child n a) ;;; ret a) ;; argify_loop sep n p l a) (mkK (mid gs g) m ps)).
      { rewrite bind_assoc. unfold bind. destruct (new_arg sep p _) as [v0 s0|e0 s0|s0|]; try reflexivity. destruct (lift (add_child n v0) s0); reflexivity. }
      rewrite (b_ret _ _ _ _ _ (next_arg gs g)). rewrite IH by (rewrite !app_length in Sm; cbn [length] in Sm; lia).
      assert (gs' <> []) by (inversion Gr; discriminate). destruct gs' as [|q qs]; [congruence|]. cbn [removelast last]. rewrite <- app_assoc. reflexivity.
  Qed.
  (** argify puts each group under an argument. *)
  Theorem argify_groups gs : grouped h sep (c_ch c) gs -> Z.of_nat (length (c_ch c)) < 18446744073709551616 ->
    (forall x k, hd_error (c_ch c) = Some x -> nth_error h x = Some k -> c_type k <> ARG) ->
    argify_by sep n (mkK h m ps) = Ret true (mkK (split_heap h n c sep gs) m ps).
  Proof.
    intros Gr Sm Na. pose proof (nth_lt _ _ _ Hn) as Ln. unfold argify_by. erewrite b_ret; [|eapply run_size; eauto].
    assert (Nx : exists y r ky, c_ch c = y :: r /\ nth_error h y = Some ky).
    { clear - Gr. inversion Gr as [lead2 g2 Sl2 G2|lead2 g2 trail2 x2 k2 l2 gs2 Sl2 G2 Tr2 Hx2 Tx2 Gr2]; subst.
        - destruct lead2 as [|w2 lead2]; [|destruct (Sl2 w2 (or_introl eq_refl)) as (d & Hd2 & Td2); exists w2, (lead2 ++ g2), d; auto].
          destruct G2 as (Ne2 & _ & _ & _ & All2). destruct g2 as [|y g2]; [congruence|]. destruct (All2 y (or_introl eq_refl)) as (d & A & _). exists y, g2, d. auto.
        - destruct lead2 as [|w2 lead2]; [|destruct (Sl2 w2 (or_introl eq_refl)) as (d & Hd2 & Td2); eexists w2, _, d; split; [reflexivity|auto]].
          destruct G2 as (Ne2 & _ & _ & _ & All2). destruct g2 as [|y g2]; [congruence|]. destruct (All2 y (or_introl eq_refl)) as (d & A & _). eexists y, _, d. split; [reflexivity|auto]. }
    destruct Nx as (y & r & ky & Ey & Hy). assert (Ty : c_type ky <> ARG) by (apply (Na y); [rewrite Ey; reflexivity|auto]).
    replace (Z.of_nat (length (c_ch c)) =? 0) with false by (rewrite Ey; cbn [length]; lia).
    erewrite b_ret; [|eapply run_child_is; [exact Hn|exact Tn|rewrite Ey; reflexivity|lia|exact Hy]]. rewrite (proj2 (ntype_eqb_neq _ _) Ty). cbv iota.
    erewrite b_ret; [|eapply run_pos; exact Hn]. erewrite b_ret; [|apply run_new].
    assert (NL : L <> n) by lia.
    erewrite b_ret; [|eapply run_take; [apply nth_mid|reflexivity|rewrite nth_error_app1 by auto; exact Hn|exact Tn|exact NL]].
    assert (P : forall (X Y : heap) a k, (a < length X)%nat -> put (X ++ Y) a k = put X a k ++ Y). { induction X as [|x X IH]; intros Y [|a] k La; cbn in *; try lia; [reflexivity|]. rewrite IH by lia. reflexivity. }
    replace (put (put (h ++ [blank LIST p]) L (with_ch (blank LIST p) (c_ch c))) n (with_ch c [])) with (put h n (with_ch c []) ++ [temp]) by (rewrite put_mid, P by auto; reflexivity).
    transitivity ((a <- (a <- new_arg sep p ;; lift (add_child n a) ;;; ret a) ;; (c0 <- lift (load L) ;; argify_loop sep n p (c_ch c0) a)) (mkK (put h n (with_ch c []) ++ [temp]) m ps)).
    { rewrite bind_assoc. unfold bind. destruct (new_arg sep p _) as [v0 s0|e0 s0|s0|]; try reflexivity. destruct (lift (add_child n v0) s0); reflexivity. }
    set (h1 := put h n (with_ch c []) ++ [temp]). assert (L1 : length h1 = S L) by (unfold h1; rewrite app_length, put_length; cbn; lia).
    assert (NA : (a <- new_arg sep p ;; lift (add_child n a) ;;; ret a) (mkK h1 m ps) = Ret (here []) (mkK (mid [] []) m ps)).
    { unfold new_arg. rewrite bind_assoc. erewrite b_ret; [|apply run_new]. rewrite bind_assoc. erewrite b_ret; [|eapply run_set_integer; [apply nth_mid|reflexivity]]. rewrite bind_ret. rewrite put_mid.
      change (with_int (blank ARG p) (separator_code sep)) with (ac []).
      erewrite b_ret. 2:{ eapply (run_add (h1 ++ [ac []]) m ps n (with_ch c [])); [rewrite nth_error_app1 by lia; unfold h1; rewrite nth_error_app1 by (rewrite put_length; lia); now apply put_same|exact Tn|apply nth_mid|discriminate|discriminate]. }
      unfold ret, here. cbn [c_ch with_ch app length]. rewrite L1. rewrite Nat.add_0_r. f_equal. f_equal. unfold h1, mid. cbn [map app length seq]. rewrite <- app_assoc. rewrite P by (rewrite put_length; lia). rewrite put_put. reflexivity. }
    rewrite (b_ret _ _ _ _ _ NA). erewrite b_ret. 2:{ eapply run_load. unfold mid. rewrite nth_error_app2 by (rewrite put_length; lia). rewrite put_length, Nat.sub_diag. reflexivity. }
    cbn [c_ch temp]. rewrite (argify_run _ _ Gr Sm []). cbn [app]. f_equal. f_equal. unfold mid, split_heap.
    assert (Ng : gs <> []) by (inversion Gr; discriminate). pose proof (app_removelast_last [] Ng) as Eg.
    assert (Lg : length gs = S (length (removelast gs))) by (rewrite Eg at 1; rewrite app_length; cbn; lia). rewrite <- Lg. f_equal. f_equal. rewrite Eg at 3. rewrite map_app. reflexivity.
  Qed.
End Split.
