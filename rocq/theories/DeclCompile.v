(** * Proofs about compile() on a declaration *)

From Coq Require Import String ZArith List Bool Lia Arith ZifyBool Floats.SpecFloat.
From Verif Require Import Base NodeHeap NodeProofs Color FloatBits.
From Verif Require Expr ExprRun Parser.
From Verif Require Import PrecSpec PrecStream ListSpec ListProofs SplitSpec.
From Verif Require Import Compiler CompRun SplitProofs Compile ValuesSpec ValuesProofs.
Import ListNotations.
Open Scope string_scope. Open Scope list_scope. Open Scope Z_scope.
Ltac Zify.zify_post_hook ::= idtac.

Lemma put_app : forall (X Y : heap) a k, (a < length X)%nat -> put (X ++ Y) a k = put X a k ++ Y.
Proof. induction X as [|x X IH]; intros Y [|a] k La; cbn in *; try lia; [reflexivity|]. rewrite IH by lia. reflexivity. Qed.
Lemma put_comm : forall (l : heap) a b x y, a <> b -> put (put l a x) b y = put (put l b y) a x.
Proof. induction l as [|z l IH]; intros [|a] [|b] x y N; cbn; try reflexivity; try congruence. rewrite IH by congruence. reflexivity. Qed.

(** The values go from the component value to the declaration. *)
Section Move.
  Variables (n d id : addr) (c dc : cell) (H : heap) (m : list msg) (ps : list str).
  Hypothesis Nd : n <> d.
  Hypothesis Ln : (n < length H)%nat.
  Hypothesis Ld : (d < length H)%nat.
  Hypothesis Tc : has_children (c_type c) = true.
  Hypothesis Td : has_children (c_type dc) = true.
  Definition step (rest don : list addr) : heap := put (put H n (with_ch c (id :: rest))) d (with_ch dc don).
  Lemma step_n rest don : nth_error (step rest don) n = Some (with_ch c (id :: rest)).
  Proof. unfold step. rewrite put_other by auto. apply put_same. auto. Qed.
  Lemma step_d rest don : nth_error (step rest don) d = Some (with_ch dc don).
  Proof. unfold step. apply put_same. rewrite put_length. auto. Qed.
  Lemma step_old rest don a k : a <> n -> a <> d -> nth_error H a = Some k -> nth_error (step rest don) a = Some k.
  Proof. intros A B E. unfold step. rewrite !put_other; auto. Qed.
  Lemma move_run : forall rest don, (forall x, In x rest -> x <> n /\ x <> d) -> (forall x, In x don -> x <> n /\ x <> d) ->
    (forall x, In x (don ++ rest) -> exists k, nth_error H x = Some k /\ c_type k <> EOF_TOKEN) -> apart H (don ++ rest) ->
    move_values n d (length rest) (mkK (step rest don) m ps) = Ret tt (mkK (step [] (don ++ rest)) m ps).
  Proof.
    induction rest as [|x rest IH]; intros don Nr Ns All Ap; [rewrite app_nil_r; reflexivity|]. cbn [length move_values].
    assert (Tn : forall l, has_children (c_type (with_ch c l)) = true) by (intro; exact Tc).
    erewrite b_ret; [|eapply run_child1; [apply step_n|apply Tn|reflexivity]].
    destruct (All x) as (k & Hx & Te); [apply in_or_app; right; now left|]. destruct (Nr x (or_introl eq_refl)) as (Nx1 & Nx2). pose proof (step_old (x :: rest) don x k Nx1 Nx2 Hx) as Hx'.
    assert (Add : lift (add_child d x) (mkK (step (x :: rest) don) m ps) = Ret tt (mkK (step (x :: rest) (don ++ [x])) m ps)).
    { assert (E : put (step (x :: rest) don) d (with_ch dc (don ++ [x])) = step (x :: rest) (don ++ [x])) by (unfold step; rewrite put_put; reflexivity).
      unfold lift, add_child, NodeHeap.bind, load, supports, store, NodeHeap.ret. cbn [k_heap]. rewrite step_d. cbn [c_type with_ch]. rewrite Td. rewrite Hx'. rewrite (proj2 (ntype_eqb_neq _ _) Te).
      destruct (ntype_eqb (c_type k) WHITESPACE) eqn:W; [|transitivity (Ret tt (mkK (put (step (x :: rest) don) d (with_ch dc (don ++ [x]))) m ps)); [reflexivity|now rewrite E]].
      apply ntype_eqb_spec in W. cbn [c_ch with_ch]. unfold addr in *. destruct (rev don) as [|b r] eqn:Q; [transitivity (Ret tt (mkK (put (step (x :: rest) don) d (with_ch dc (don ++ [x]))) m ps)); [reflexivity|now rewrite E]|].
      assert (Eq : don = rev r ++ [b]) by (rewrite <- (rev_involutive don), Q; reflexivity).
      assert (Ib : In b don) by (rewrite Eq; apply in_or_app; right; now left). destruct (All b) as (kb & Hb & _); [apply in_or_app; auto|]. destruct (Ns b Ib) as (Nb1 & Nb2).
      rewrite (step_old (x :: rest) don b kb Nb1 Nb2 Hb).
      assert (Wb : c_type kb <> WHITESPACE). { intro Wb. rewrite Eq, <- app_assoc in Ap. cbn [app] in Ap. eapply (apart_mid H COMMA (or_introl eq_refl)); [exact Ap|]. split; [apply (proj2 (spaces_one _ _ kb Hb)); exact Wb|apply (proj2 (spaces_one _ _ k Hx)); exact W]. }
      rewrite (proj2 (ntype_eqb_neq _ _) Wb). transitivity (Ret tt (mkK (put (step (x :: rest) don) d (with_ch dc (don ++ [x]))) m ps)); [reflexivity|now rewrite E]. }
    rewrite (b_ret _ _ _ _ _ Add). erewrite b_ret; [|eapply run_remove_at; [apply step_n|apply Tn|cbn [c_ch with_ch length]; lia]].
    change (list_erase (Z.to_nat 1) (c_ch (with_ch c (id :: x :: rest)))) with (id :: rest).
    replace (put (step (x :: rest) (don ++ [x])) n (with_ch (with_ch c (id :: x :: rest)) (id :: rest))) with (step rest (don ++ [x])).
    - rewrite IH; [rewrite <- app_assoc; reflexivity| | | |].
      + intros y I. apply Nr. now right.
      + intros y I. apply in_app_or in I. destruct I as [I|[<-|[]]]; auto.
      + intros y I. apply All. rewrite <- app_assoc in I. exact I.
      + rewrite <- app_assoc. exact Ap.
    - unfold step. change (with_ch (with_ch c (id :: x :: rest)) (id :: rest)) with (with_ch c (id :: rest)). rewrite (put_comm _ d n) by auto. rewrite put_put. reflexivity.
  Qed.
End Move.
Lemma with_ch_id c : with_ch c (c_ch c) = c. Proof. destruct c; reflexivity. Qed.
Lemma put_self h n c : nth_error h n = Some c -> put h n (with_ch c (c_ch c)) = h.
Proof. intro H. rewrite with_ch_id. now apply put_id. Qed.

Section Declaration.
  Variables (h : heap) (m : list msg) (ps : list str) (n id colon : addr) (c cid cc : cell) (s1 s2 vs : list addr).
  Hypothesis Hn : nth_error h n = Some c.
  Hypothesis Tn : c_type c = COMPONENT_VALUE.
  Hypothesis Ec : c_ch c = id :: s1 ++ colon :: s2 ++ vs.
  Hypothesis Hid : nth_error h id = Some cid.
  Hypothesis Tid : c_type cid = IDENTIFIER.
  Hypothesis Hc : nth_error h colon = Some cc.
  Hypothesis Tcc : c_type cc = COLON.
  Hypothesis S1 : maybe_space h s1.
  Hypothesis S2 : maybe_space h s2.
  Hypothesis Lv : no_leading_space h vs.
  Hypothesis Nv : vs <> [].
  Hypothesis Ap : apart h vs.
  Hypothesis Ty : forall x, In x vs -> exists k, nth_error h x = Some k /\ c_type k <> COMPONENT_VALUE /\ c_type k <> EOF_TOKEN.
  Let dc := with_str (blank DECLARATION (c_pos c)) (c_str cid).
  Let d := length h.
  Definition declared_heap : heap := put (put (h ++ [dc]) n (with_ch c [id])) d (with_ch dc vs).
  Notation at_ l := (put h n (with_ch c l)).
  Lemma at_n l : nth_error (at_ l) n = Some (with_ch c l). Proof. apply put_same. now apply nth_lt in Hn. Qed.
  Lemma at_old l a k : nth_error h a = Some k -> c_type k <> COMPONENT_VALUE -> nth_error (at_ l) a = Some k.
  Proof. intros H T. rewrite put_other; auto. intros ->. congruence. Qed.
  Lemma has_n l : has_children (c_type (with_ch c l)) = true. Proof. cbn [c_type with_ch]. rewrite Tn. reflexivity. Qed.
  Lemma declaration_run : new_declaration n id (mkK h m ps) = Ret (Some d) (mkK declared_heap m ps).
  Proof.
    pose proof (nth_lt _ _ _ Hn) as Ln.
    assert (A1 : forall (B : Type) (f : addr -> C B), (next <- lift (get_child n 1) ;; w <- is_a next WHITESPACE ;; next <- (if w : bool then lift (remove_child_at n 1) ;;; lift (get_child n 1) else ret next) ;; f next) (mkK h m ps)
                  = f colon (mkK (at_ (id :: colon :: s2 ++ vs)) m ps)).
    { intros B f. destruct S1 as [E|(w & E & cw & Hw & Tw)]; rewrite E in Ec; cbn [app] in Ec.
      - erewrite b_ret; [|eapply run_child1; [exact Hn|rewrite Tn; reflexivity|exact Ec]]. erewrite b_ret; [|eapply run_is; exact Hc]. rewrite Tcc. change (ntype_eqb COLON WHITESPACE) with false. cbv iota.
        erewrite b_ret; [|reflexivity]. rewrite <- Ec. rewrite put_self by exact Hn. reflexivity.
      - erewrite b_ret; [|eapply run_child1; [exact Hn|rewrite Tn; reflexivity|exact Ec]]. erewrite b_ret; [|eapply run_is; exact Hw]. rewrite Tw. change (ntype_eqb WHITESPACE WHITESPACE) with true. cbv iota.
        rewrite bind_assoc. erewrite b_ret; [|eapply run_remove_at; [exact Hn|rewrite Tn; reflexivity|rewrite Ec; cbn [length]; lia]]. rewrite Ec. change (list_erase (Z.to_nat 1) (id :: w :: colon :: s2 ++ vs)) with (id :: colon :: s2 ++ vs).
        erewrite b_ret; [reflexivity|]. eapply run_child1; [apply at_n|apply has_n|reflexivity]. }
    unfold new_declaration. rewrite A1. clear A1. erewrite b_ret; [|eapply run_pos; apply at_n]. cbn [c_pos with_ch].
    erewrite b_ret; [|eapply run_is; apply at_old; [exact Hc|rewrite Tcc; discriminate]]. rewrite Tcc. change (negb (ntype_eqb COLON COLON)) with false. cbv iota.
    erewrite b_ret; [|eapply run_remove_at; [apply at_n|apply has_n|cbn [c_ch with_ch length]; lia]]. rewrite put_put. cbn [c_ch with_ch]. change (list_erase (Z.to_nat 1) (id :: colon :: s2 ++ vs)) with (id :: s2 ++ vs).
    change (with_ch (with_ch c (id :: colon :: s2 ++ vs)) (id :: s2 ++ vs)) with (with_ch c (id :: s2 ++ vs)).
    erewrite b_ret; [|eapply run_size; [apply at_n|apply has_n]]. cbn [c_ch with_ch]. assert (exists v0 vt, vs = v0 :: vt) as (v0 & vt & Ev) by (destruct vs as [|v0 vt]; [congruence|eauto]).
    replace (Z.of_nat (length (id :: s2 ++ vs)) <? 2) with false by (cbn [length]; rewrite app_length; rewrite Ev; cbn [length]; lia).
    destruct (Ty v0 ltac:(rewrite Ev; now left)) as (k0 & H0 & T0 & _).
    assert (W0 : c_type k0 <> WHITESPACE) by (rewrite Ev in Lv; apply Lv; exact H0).
    assert (A2 : forall (B : Type) (f : C B), (w <- child_is n 1 WHITESPACE ;; (if w : bool then lift (remove_child_at n 1) else ret tt) ;;; f) (mkK (at_ (id :: s2 ++ vs)) m ps) = f (mkK (at_ (id :: vs)) m ps)).
    { intros B f. destruct S2 as [E|(w & E & cw & Hw & Tw)]; rewrite E; cbn [app].
      - erewrite b_ret; [|eapply run_child_is; [apply at_n|apply has_n|rewrite Ev; reflexivity|lia|apply at_old; [exact H0|exact T0]]]. rewrite (proj2 (ntype_eqb_neq _ _) W0). reflexivity.
      - erewrite b_ret; [|eapply run_child_is; [apply at_n|apply has_n|reflexivity|lia|apply at_old; [exact Hw|rewrite Tw; discriminate]]]. rewrite Tw. change (ntype_eqb WHITESPACE WHITESPACE) with true. cbv iota.
        erewrite b_ret; [|eapply run_remove_at; [apply at_n|apply has_n|cbn [c_ch with_ch length]; lia]]. rewrite put_put. reflexivity. }
    rewrite A2. clear A2. cbv beta iota. erewrite b_ret; [|eapply run_size; [apply at_n|apply has_n]]. cbn [c_ch with_ch].
    replace (Z.of_nat (length (id :: vs)) <? 2) with false by (rewrite Ev; cbn [length]; lia).
    erewrite b_ret; [|apply run_new].
    assert (Hid2 : nth_error (at_ (id :: vs) ++ [blank DECLARATION (c_pos c)]) id = Some cid).
    { rewrite nth_error_app1 by (rewrite put_length; now apply nth_lt in Hid). apply at_old; auto. rewrite Tid. discriminate. }
    erewrite b_ret; [|eapply run_string; [exact Hid2|rewrite Tid; reflexivity]].
    erewrite b_ret; [|eapply run_set_string; [apply nth_mid|reflexivity]]. rewrite put_mid. rewrite put_length.
    replace (Z.to_nat (Z.of_nat (length (id :: vs)) - 1)) with (length vs) by (cbn [length]; lia).
    assert (Nnd : n <> d) by (unfold d; lia).
    assert (Start : at_ (id :: vs) ++ [with_str (blank DECLARATION (c_pos c)) (c_str cid)] = step n d id c dc (h ++ [dc]) vs []).
    { unfold step. change (with_ch dc []) with dc. rewrite put_app by auto. unfold d. rewrite <- (put_length h n (with_ch c (id :: vs))) at 1. rewrite put_mid. reflexivity. }
    unfold d in *. rewrite Start. erewrite b_ret.
    2:{ apply move_run.
        - exact Nnd.
        - rewrite app_length; cbn; lia.
        - rewrite app_length; cbn; lia.
        - rewrite Tn. reflexivity.
        - reflexivity.
        - intros x I. destruct (Ty x I) as (k & Hk & Tk & _). split; [intros ->; congruence|]. apply nth_lt in Hk. lia.
        - intros x [].
        - intros x I. destruct (Ty x I) as (k & Hk & Tk & Te). exists k. split; [rewrite nth_error_app1; [auto|now apply nth_lt in Hk]|auto].
        - cbn [app]. clear - Ap Ty. revert Ap Ty. generalize vs. induction vs0 as [|x [|y l] IH]; intros Ap Ty; [exact I|exact I|]. destruct Ap as (A & B). split.
          + intros (P & Q). apply A. destruct (Ty x (or_introl eq_refl)) as (kx & Hx & _). destruct (Ty y (or_intror (or_introl eq_refl))) as (ky & Hy & _).
            assert (Hx' : nth_error (h ++ [dc]) x = Some kx) by (rewrite nth_error_app1; [auto|now apply nth_lt in Hx]). assert (Hy' : nth_error (h ++ [dc]) y = Some ky) by (rewrite nth_error_app1; [auto|now apply nth_lt in Hy]).
            split; [apply (proj2 (spaces_one _ _ kx Hx)); apply (proj1 (spaces_one _ _ kx Hx') P)|apply (proj2 (spaces_one _ _ ky Hy)); apply (proj1 (spaces_one _ _ ky Hy') Q)].
          + apply IH; [exact B|]. intros z I. apply Ty. now right. }
    reflexivity.
  Qed.
End Declaration.

(** ** compile() *)
Lemma swap_at (o n : addr) y : forall x, list_erase (S (length x)) (list_insert (length x) n (x ++ o :: y)) = x ++ n :: y.
Proof.
  induction x as [|z x IH]; [reflexivity|]. unfold list_erase, list_insert in *. cbn [length firstn skipn app] in *. f_equal. exact IH.
Qed.
Lemma replace_run h m ps a c o n x y : nth_error h a = Some c -> c_ch c = x ++ o :: y -> ~ In o x ->
  lift (replace_child a o n) (mkK h m ps) = Ret tt (mkK (put h a (with_ch c (x ++ n :: y))) m ps).
Proof.
  intros H E N. unfold lift, replace_child, NodeHeap.bind, load, store. cbn [k_heap]. rewrite H. rewrite E.
  assert (F : find_child o (x ++ o :: y) = Some (length x)). { clear - N. induction x as [|z x IH]; cbn; [now rewrite Nat.eqb_refl|]. destruct (Nat.eqb_spec o z) as [->|Ne]; [exfalso; apply N; now left|]. rewrite IH; [reflexivity|]. intro. apply N. now right. }
  rewrite F. rewrite swap_at. reflexivity.
Qed.
Lemma values_args k F x h m ps d r kd : nth_error h d = Some kd -> has_children (c_type kd) = true -> (forall a, In a (c_ch kd) -> exists c, nth_error h a = Some c /\ c_type c = ARG) ->
  forall j f i, (Z.to_nat i + j = length (c_ch kd))%nat -> 0 <= i -> (j < f)%nat -> values_loop (run k F Values) (run k F Value) x f d i r (mkK h m ps) = Ret r (mkK h m ps).
Proof.
  intros Hd Tc A. induction j as [|j IH]; intros [|f] i L P Lf; try lia; cbn [values_loop]; (erewrite b_ret; [|eapply run_size; eauto]).
  - replace (Z.of_nat (length (c_ch kd)) <=? i) with true by lia. reflexivity.
  - replace (Z.of_nat (length (c_ch kd)) <=? i) with false by lia. destruct (nth_error (c_ch kd) (Z.to_nat i)) as [a|] eqn:Na; [|apply nth_error_None in Na; lia].
    erewrite b_ret; [|eapply run_child; eauto]. destruct (A a) as (c & Ha & Ta); [eapply nth_error_In; eauto|]. erewrite b_ret; [|eapply run_type; exact Ha]. rewrite Ta. cbv iota. erewrite b_ret; [|reflexivity]. apply IH; lia.
Qed.
Lemma all_flags_same h its : forall k, c_type (all_flags h its k) = c_type k /\ c_ch (all_flags h its k) = c_ch k.
Proof. unfold all_flags. induction its as [|it its IH]; intro k; [auto|]. cbn [fold_left]. destruct (IH (flagged h (i_flag it) k)) as (A & B). destruct (flagged_type h (i_flag it) k) as (C & D). split; congruence. Qed.

Section Compiles.
  Variables (k : rules) (h : heap) (m : list msg) (ps : list str) (n parent : addr) (c kp : cell) (its : list item) (name : str) (x : ctx) (more : list addr).
  Notation sep := (if r_slash k name then DIVIDE else COMMA).
  Hypothesis Hn : nth_error h n = Some c.
  Hypothesis Tn : c_type c = COMPONENT_VALUE.
  Hypothesis De : declares h c name (r_metrics k name) sep its.
  Hypothesis Nm : name <> zs "filter" /\ name <> zs "-filter".
  Hypothesis Xp : x_parents x = parent :: more.
  Hypothesis Hp : nth_error h parent = Some kp.
  Hypothesis Tp : container (c_type kp) = true.
  Hypothesis Ip : In n (c_ch kp).
  Hypothesis Sz : Z.of_nat (length (c_ch c)) < 18446744073709551616.
  Theorem declaration_compiles fuel r : enough fuel its ->
    exists h' d, run k fuel Compile x r n (mkK h m ps) = Ret r (mkK h' m ps)
      /\ declared h h' (c_pos c) name sep its d
      /\ (exists l', replaced n d (c_ch kp) l' /\ nth_error h' parent = Some (with_ch kp l'))
      /\ nth_error h d = None
      /\ (exists l', nth_error h' n = Some (with_ch c l'))
      /\ forall b cb, b <> n -> b <> parent -> nth_error h b = Some cb -> nth_error h' b = Some cb.
  Proof.
    intros (En & Ea). destruct De as (id & cid & s1 & colon & cc & s2 & vs & gs & Ec & Hid & Tid & Eid & Hc & Tcc & S1 & S2 & Lv & Ap & Gr & It & Ty).
    assert (Hch : has_children (c_type c) = true) by (rewrite Tn; reflexivity).
    assert (Nv : vs <> []) by (inversion Gr as [l1 g1 Q1 Q2|l1 g1 t1 y1 k1 l2 gs2 Q1 Q2]; destruct l1; try discriminate; destruct Q2 as (Q2 & _); destruct g1; [congruence|discriminate|congruence|discriminate]).
    assert (Np : parent <> n) by (intros ->; assert (kp = c) by congruence; subst; rewrite Tn in Tp; discriminate).
    assert (Ty1 : forall y, In y vs -> exists k0, nth_error h y = Some k0 /\ c_type k0 <> COMPONENT_VALUE /\ c_type k0 <> EOF_TOKEN) by (intros y I; destruct (Ty y I) as (k0 & A & B & C & D & E & F); eauto).
    pose proof (nth_lt _ _ _ Hn) as Ln. pose proof (nth_lt _ _ _ Hp) as Lp.
    destruct fuel as [|[|[|[|F]]]]; try lia. set (F1 := S (S F)) in *.
    pose proof (declaration_run h m ps n id colon c cid cc s1 s2 vs Hn Tn Ec Hid Tid Hc Tcc S1 S2 Lv Nv Ap Ty1) as Dr.
    set (d := length h) in *. set (dc := with_str (blank DECLARATION (c_pos c)) (c_str cid)) in *. set (h1 := declared_heap h n id c cid vs) in *.
    assert (H1n : nth_error h1 n = Some (with_ch c [id])). { unfold h1, declared_heap. rewrite put_other by (unfold d; lia). apply put_same. rewrite app_length. cbn. lia. }
    assert (H1d : nth_error h1 d = Some (with_ch dc vs)). { unfold h1, declared_heap. apply put_same. rewrite put_length, app_length. cbn. unfold d. lia. }
    assert (H1o : forall b cb, b <> n -> nth_error h b = Some cb -> nth_error h1 b = Some cb).
    { intros b cb Nb Hb. pose proof (nth_lt _ _ _ Hb). unfold h1, declared_heap. rewrite put_other by (unfold d; lia). rewrite put_other by auto. rewrite nth_error_app1 by auto. exact Hb. }
    assert (L1 : length h1 = S d) by (unfold h1, declared_heap; rewrite !put_length, app_length; cbn; unfold d; lia).
    assert (exists a b, c_ch kp = a ++ n :: b /\ ~ In n a) as (pa & pb & Ep & Npa).
    { clear - Ip. induction (c_ch kp) as [|y l IH]; [destruct Ip|]. destruct (Nat.eq_dec y n) as [->|Ny]; [exists [], l; split; [reflexivity|intros []]|]. destruct Ip as [->|I]; [congruence|]. destruct (IH I) as (a & b & -> & Na). exists (y :: a), b. split; [reflexivity|]. intros [E|E]; [congruence|auto]. }
    set (kp' := with_ch kp (pa ++ d :: pb)). set (h2 := put h1 parent kp').
    assert (Rp : lift (replace_child parent n d) (mkK h1 m ps) = Ret tt (mkK h2 m ps)) by (apply replace_run; auto).
    assert (Npd : parent <> d) by (unfold d; lia).
    assert (H2d : nth_error h2 d = Some (with_ch dc vs)) by (unfold h2; rewrite put_other by auto; exact H1d).
    assert (H2p : nth_error h2 parent = Some kp') by (unfold h2; apply put_same; rewrite L1; unfold d; lia).
    assert (H2n : nth_error h2 n = Some (with_ch c [id])) by (unfold h2; rewrite put_other by auto; exact H1n).
    assert (H2o : forall b cb, b <> n -> b <> parent -> nth_error h b = Some cb -> nth_error h2 b = Some cb) by (intros b cb A B E; unfold h2; rewrite put_other by auto; apply H1o; auto).
    assert (Al : alike h h2).
    { intros b cb Hb. destruct (Nat.eq_dec b n) as [->|Nb]; [eexists; split; [exact H2n|]; assert (cb = c) by congruence; subst; cbn [c_type with_ch]; rewrite Tn; split; [auto|discriminate]|].
      destruct (Nat.eq_dec b parent) as [->|Nb2]; [|exists cb; auto]. eexists. split; [exact H2p|]. assert (cb = kp) by congruence. subst. unfold kp'. cbn [c_type with_ch]. split; [auto|]. intro Q. destruct (c_type kp); discriminate. }
    assert (It2 : items_ok h2 (r_metrics k name) gs its) by (unfold items_ok in *; clear - It Al; induction It as [|g it gs its (E & L) I IH]; constructor; auto; split; auto; eapply alike_list; eauto).
    destruct (expressions_run k F1 (push (push x n) d) d (with_ch dc vs) h2 m ps gs its) as (h3 & Er & (args & H3d & V) & H3o).
    { exact H2d. } { reflexivity. }
    { cbn [c_str with_ch dc with_str]. rewrite Eid. split; apply str_eqb_neq; apply Nm. }
    { cbn [c_str c_ch with_ch dc with_str]. rewrite Eid. eapply alike_grouped; [|exact Gr]. intros b cb Hb. eapply alike_type; eauto. }
    { cbn [c_str with_ch dc with_str]. rewrite Eid. exact It2. }
    { cbn [c_ch with_ch]. intros y I. destruct (Ty y I) as (ky & Hy & T1 & T2 & T3 & T4 & T5). destruct (alike_type _ _ _ _ Al Hy) as (ky' & Hy' & T'). exists ky'. rewrite T'. auto. }
    { cbn [c_ch with_ch]. rewrite Ec in Sz. cbn [length] in Sz. rewrite app_length in Sz. cbn [length] in Sz. rewrite app_length in Sz. lia. }
    { rewrite Forall_forall in *. intros it I. destruct (Ea it I) as (A & B). split; [|unfold F1; lia]. rewrite Forall_forall in *. intros e I2. specialize (B e I2). unfold F1. lia. }
    assert (Cd : compile_declaration k F1 (run k F1 Values) (push x n) r n (mkK h m ps) = Ret r (mkK h3 m ps)).
    { unfold compile_declaration. erewrite b_ret; [|eapply run_type; exact Hn]. rewrite Tn. change (ntype_eqb COMPONENT_VALUE DECLARATION) with false. change (negb (ntype_eqb COMPONENT_VALUE COMPONENT_VALUE)) with false. cbv iota.
      erewrite b_ret; [|eapply run_size; [exact Hn|exact Hch]]. erewrite b_ret; [|eapply run_pos; exact Hn].
      replace (Z.of_nat (length (c_ch c)) <? 2) with false by (rewrite Ec; cbn [length]; rewrite app_length; cbn [length]; lia). cbv iota.
      assert (Fn : field_name n (mkK h m ps) = Ret (Some id) (mkK h m ps)).
      { unfold field_name. erewrite b_ret; [|eapply run_child0; [exact Hn|exact Hch|exact Ec]]. erewrite b_ret; [|eapply run_type; exact Hid]. rewrite Tid. reflexivity. }
      rewrite (b_ret _ _ _ _ _ Fn). cbv beta iota. rewrite (b_ret _ _ _ _ _ Dr). cbv beta iota.
      unfold previous_parent. cbn [push x_parents]. rewrite Xp. erewrite b_ret; [|reflexivity]. rewrite (b_ret _ _ _ _ _ Rp). rewrite (b_ret _ _ _ _ _ Er).
      unfold F1 at 1. cbn [run]. destruct (all_flags_same h2 its (with_ch (with_ch dc vs) args)) as (At & Ac).
      eapply (values_args k (S F) _ h3 m ps d r _ H3d); [rewrite At; reflexivity| |rewrite Ac; cbn [c_ch with_ch]; reflexivity|lia|].
      - rewrite Ac. cbn [c_ch with_ch]. intros a I. clear - V I. induction V as [|a0 it l its (rs & H & _) V IH]; [destruct I|]. destruct I as [->|I]; [eexists; split; [exact H|reflexivity]|auto].
      - assert (length args = length its) by (clear - V; induction V; cbn; congruence). lia. }
    exists h3, d. split; [|split; [|split; [|split; [|split]]]].
    - change (run k (S (S F1)) Compile x r n (mkK h m ps)) with ((t <- type_of n ;; match t with LIST | FRAME => result_loop true (fun r child => run k (S F1) Compile (push x n) r child) n (S F1) 0 r | DECLARATION | COMMENT => ret r | COMPONENT_VALUE => run k (S F1) Value (push x n) r n | AT_KEYWORD => run k (S F1) At (push x n) r n | _ => throw XLogic end) (mkK h m ps)).
      erewrite b_ret; [|eapply run_type; exact Hn]. rewrite Tn. cbv iota.
      change (run k (S F1) Value (push x n) r n (mkK h m ps)) with (compile_component_value k F1 (run k F1 At) (run k F1 Values) (run k F1 Value) (push x n) r n (mkK h m ps)).
      unfold compile_component_value. erewrite b_ret; [|eapply run_type; exact Hn]. rewrite Tn. change (ntype_eqb COMPONENT_VALUE DECLARATION) with false. cbv iota.
      erewrite b_ret; [|eapply run_empty; [exact Hn|exact Hch]]. replace (match c_ch c with [] => true | _ => false end) with false by (rewrite Ec; reflexivity). cbv iota.
      erewrite b_ret; [|eapply run_child0; [exact Hn|exact Hch|exact Ec]]. erewrite b_ret; [|eapply run_type; exact Hid]. rewrite Tid.
      change (ntype_eqb IDENTIFIER COMMENT) with false. change (ntype_eqb IDENTIFIER ARG) with false. change (ntype_eqb IDENTIFIER AT_KEYWORD) with false. cbv iota.
      erewrite b_ret; [|eapply run_load; exact Hn].
      assert (Tall : forall y, In y (c_ch c) -> exists ky, nth_error h y = Some ky /\ c_type ky <> COMPONENT_VALUE).
      { rewrite Ec. intros y I. assert (Sp : forall s, maybe_space h s -> In y s -> exists ky, nth_error h y = Some ky /\ c_type ky <> COMPONENT_VALUE).
        { intros s [->|(w & -> & cw & Hw & Tw)] J; [destruct J|]. destruct J as [<-|[]]. exists cw. split; [auto|congruence]. }
        destruct I as [<-|I]; [exists cid; split; [auto|congruence]|]. apply in_app_or in I. destruct I as [I|[<-|I]]; [eauto|exists cc; split; [auto|congruence]|]. apply in_app_or in I. destruct I as [I|I]; [eauto|]. destruct (Ty1 y I) as (ky & A & B & _). eauto. }
      assert (Ct : forall l, (forall y, In y l -> exists ky, nth_error h y = Some ky /\ c_type ky <> COMPONENT_VALUE) -> count_type COMPONENT_VALUE l (mkK h m ps) = Ret 0 (mkK h m ps)).
      { induction l as [|y l IH]; intro A; [reflexivity|]. cbn [count_type]. destruct (A y (or_introl eq_refl)) as (ky & Hy & Tky). erewrite b_ret; [|eapply run_is; exact Hy]. erewrite b_ret; [|apply IH; intros z I; apply A; now right]. rewrite (proj2 (ntype_eqb_neq _ _) Tky). reflexivity. }
      rewrite (b_ret _ _ _ _ _ (Ct _ Tall)). replace (0 =? Z.of_nat (length (c_ch c))) with false by (rewrite Ec; cbn [length]; lia). change (negb (0 =? 0)) with false. cbv iota.
      assert (Nodes : forall (B : Type) (f : list node -> C B), (c0 <- lift (load n) ;; l <- child_nodes (c_ch c0) ;; f l) (mkK h m ps) = f (map (fun a => match nth_error h a with Some c => mk (c_type c) (c_pos c) | None => mk UNKNOWN (mkPos 1 1 1) end) (c_ch c)) (mkK h m ps)).
      { intros B f. erewrite b_ret; [|eapply run_load; exact Hn]. erewrite b_ret; [|reflexivity]. reflexivity. }
      set (nodes := map (fun a => match nth_error h a with Some c => mk (c_type c) (c_pos c) | None => mk UNKNOWN (mkPos 1 1 1) end) (c_ch c)) in *.
      assert (exists tail, nodes = mk IDENTIFIER (c_pos cid) :: tail) as (tail & Enodes) by (unfold nodes; rewrite Ec; cbn [map]; rewrite Hid, Tid; eauto).
      assert (Vs : forall b, is_variable_set n b (mkK h m ps) = Ret false (mkK h m ps)).
      { intro b. unfold is_variable_set. rewrite Nodes. rewrite Enodes. unfold Parser.is_variable_set. destruct (Nat.ltb _ 3); reflexivity. }
      rewrite (b_ret _ _ _ _ _ (Vs true)). cbv iota.
      destruct (@exists_last _ vs Nv) as (v1 & lst & Elast). destruct (Ty lst) as (kl & Hl & _ & _ & _ & Tl & _); [rewrite Elast; apply in_or_app; right; now left|].
      assert (Ecl : c_ch c = (id :: s1 ++ colon :: s2 ++ v1) ++ [lst]) by (rewrite Ec, Elast; cbn [app]; rewrite <- !app_assoc; cbn [app]; rewrite <- !app_assoc; reflexivity).
      assert (Nd : is_nested_declaration n (mkK h m ps) = Ret false (mkK h m ps)).
      { unfold is_nested_declaration. rewrite Nodes. unfold Parser.is_nested_declaration. destruct (Nat.ltb (length nodes) 3); [reflexivity|].
        replace (Parser.child_is nodes 0 IDENTIFIER) with (Some true) by (rewrite Enodes; reflexivity). cbn [Parser.obind negb].
        replace (Parser.lastn nodes) with (Some (mk (c_type kl) (c_pos kl))). 2:{ unfold Parser.lastn, nodes. rewrite Ecl, map_app, rev_app_distr. cbn [map rev app]. rewrite Hl. reflexivity. }
        replace (is (mk (c_type kl) (c_pos kl)) OPEN_CURLYBRACKET) with false by (unfold is; cbn [n_type mk]; symmetry; apply ntype_eqb_neq; exact Tl). reflexivity. }
      rewrite (b_ret _ _ _ _ _ Nd). cbv iota.
      assert (Lc : lift (get_last_child n) (mkK h m ps) = Ret lst (mkK h m ps)).
      { unfold lift, get_last_child, NodeHeap.bind, load. cbn [k_heap]. rewrite Hn. unfold get_child, NodeHeap.bind, load, supports. rewrite Hn, Hch. unfold NodeHeap.ret. rewrite Ecl in *. rewrite app_length in *. cbn [length] in *.
        set (q := S (length (s1 ++ colon :: s2 ++ v1))) in *. replace (u64 (Z.of_nat (q + 1) - 1)) with (Z.of_nat q) by (unfold u64; rewrite Z.mod_small; lia).
        replace (Z.of_nat (q + 1) <=? Z.of_nat q) with false by lia. rewrite Nat2Z.id. change q with (length (id :: s1 ++ colon :: s2 ++ v1)). rewrite nth_mid. reflexivity. }
      rewrite (b_ret _ _ _ _ _ Lc). erewrite b_ret; [|eapply run_is; exact Hl]. rewrite (proj2 (ntype_eqb_neq _ _) Tl). cbv iota. rewrite (b_ret _ _ _ _ _ (Vs false)). cbv iota. exact Cd.
    - exists args. split.
      + rewrite H3d. f_equal. rewrite <- Eid. change (with_ch (with_ch dc vs) args) with (mkCell DECLARATION (c_pos c) false 0 (S754_zero false) (c_str cid) [] args [] []). unfold all_flags. clear - Al It. revert It. generalize (mkCell DECLARATION (c_pos c) false 0 (S754_zero false) (c_str cid) [] args [] []). generalize gs. induction its as [|it its' IH]; intros gl c0 I; [reflexivity|].
        inversion I as [|? ? ? ? (E & L) I']; subst. cbn [fold_left]. rewrite (alike_flagged _ _ _ _ _ _ Al L). eapply IH; eauto.
      + clear - V Al It Eid. revert gs It. induction V as [|a it args its (rs & H & Hv) V IH]; intros gs It; [constructor|]. inversion It as [|? ? ? ? (E & L) I']; subst. constructor; [|eapply IH; eauto].
        exists rs. split; [exact H|]. eapply alike_values; eauto.
    - exists (pa ++ d :: pb). split; [exists pa, pb; auto|]. apply H3o; auto.
    - apply nth_error_None. unfold d. lia.
    - exists [id]. apply H3o; [unfold d; lia|exact H2n].
    - intros b cb Nb Nb2 Hb. apply H3o; [apply nth_lt in Hb; unfold d; lia|]. apply H2o; auto.
  Qed.
End Compiles.

(** ** A list of declarations *)
Lemma alike_space h h' l : alike h h' -> maybe_space h l -> maybe_space h' l.
Proof.
  intros K [->|(w & -> & c & H & T)]; [now left|]. right. exists w. split; [auto|]. exists c. split; [eapply alike_at; eauto; rewrite T; reflexivity|auto].
Qed.
Lemma alike_apart h h' : alike h h' -> forall l, (forall x, In x l -> exists c, nth_error h x = Some c) -> apart h l -> apart h' l.
Proof.
  intros K. assert (Sn : forall x c, nth_error h x = Some c -> spaces h' [x] -> spaces h [x]). { intros x c Hc S1 w [<-|[]]. exists c. split; [auto|]. destruct (S1 x (or_introl eq_refl)) as (c' & Hc' & T). destruct (alike_type _ _ _ _ K Hc) as (c2 & H2 & T2). congruence. }
  induction l as [|x [|y l0] IH]; intros All; [auto|auto|]. cbn [apart]. intros (A & B). split.
  - intros (P & Q). apply A. destruct (All x (or_introl eq_refl)) as (cx & Hx). destruct (All y (or_intror (or_introl eq_refl))) as (cy & Hy). split; eapply Sn; eauto.
  - apply IH; [intros z I; apply All; now right|exact B].
Qed.
Lemma alike_declares h h' c name font sep its : alike h h' -> declares h c name font sep its -> declares h' c name font sep its.
Proof.
  intros K (id & cid & s1 & colon & cc & s2 & vs & gs & Ec & Hid & Tid & Eid & Hc & Tcc & S1 & S2 & Lv & Ap & Gr & It & Ty).
  exists id, cid, s1, colon, cc, s2, vs, gs. split; [auto|]. split; [eapply alike_at; eauto; rewrite Tid; reflexivity|]. do 2 (split; [auto|]). split; [eapply alike_at; eauto; rewrite Tcc; reflexivity|]. split; [auto|].
  split; [eapply alike_space; eauto|]. split; [eapply alike_space; eauto|]. split.
  { destruct vs as [|v l]; [exact I|]. cbn in *. intros k Hk. destruct (Ty v (or_introl eq_refl)) as (k0 & H0 & _). destruct (alike_type _ _ _ _ K H0) as (k1 & H1 & T1). assert (k = k1) by congruence. subst. rewrite T1. now apply Lv. }
  split; [eapply alike_apart; eauto; intros x I; destruct (Ty x I) as (k0 & H0 & _); eauto|]. split; [eapply alike_grouped; [intros a c0 Ha; eapply alike_type; eauto|exact Gr]|].
  split; [unfold items_ok in *; clear - It K; induction It as [|g it gs its (E & L) I IH]; constructor; auto; split; auto; eapply alike_list; eauto|].
  intros x I. destruct (Ty x I) as (k0 & H0 & T). destruct (alike_type _ _ _ _ K H0) as (k1 & H1 & T1). exists k1. rewrite T1. auto.
Qed.
(** What a declaration says stays when no such node is changed. *)
Lemma declared_kept h h1 h' p name sep its d : declared h h1 p name sep its d ->
  (forall a k, nth_error h1 a = Some k -> (a = d \/ c_type k = ARG \/ value_type (c_type k) = true) -> nth_error h' a = Some k) -> declared h h' p name sep its d.
Proof.
  intros (args & Hd & V) K. exists args. split; [apply K; auto|]. clear Hd. induction V as [|a it args its (rs & Ha & Hr) V IH]; [constructor|]. constructor; [|exact IH].
  exists rs. split; [apply K; [exact Ha|right; left; reflexivity]|]. clear - Hr K. induction Hr as [|e r es rs (v & Hv & Sv) Hr IH]; [constructor|]. constructor; [|exact IH]. exists v. split; [|auto]. apply K; [exact Hv|]. right. right. eapply stands_type; eauto.
Qed.
(** The same seen from before. *)
Lemma declared_before h h1 h' p name font sep c its d : alike h h1 -> declares h c name font sep its -> declared h1 h' p name sep its d -> declared h h' p name sep its d.
Proof.
  intros K (id & cid & s1 & colon & cc & s2 & vs & gs & Ec & Hid & Tid & Eid & Hc & Tcc & S1 & S2 & Lv & Ap & Gr & It & Ty) (args & Hd & V). clear - K It Hd V. exists args. split.
  - rewrite Hd. f_equal. unfold all_flags. clear - It K. revert It. generalize (mkCell DECLARATION p false 0 (S754_zero false) name [] args [] []). revert gs. induction its as [|it its IH]; intros gs c0 I; [reflexivity|]. inversion I as [|? ? ? ? (E & L) I']; subst. cbn [fold_left]. rewrite (alike_flagged _ _ _ _ _ _ K L). eapply IH; eauto.
  - clear Hd. revert gs It. induction V as [|a it args its (rs & Ha & Hr) V IH]; intros gs It; [constructor|]. inversion It as [|? ? ? ? (E & L) I']; subst. constructor; [|eapply IH; eauto]. exists rs. split; [exact Ha|]. change (holds_values h h' (i_values it) rs). eapply alike_values; eauto.
Qed.

Section Block.
  Variables (k : rules) (l : addr) (x : ctx).
  Notation sep name := (separator k name).
  Definition holder (t : ntype) : bool := match t with LIST | FRAME | OPEN_CURLYBRACKET => true | _ => false end.
  Lemma fields_loop (stop : bool) (fn : option addr -> addr -> C (option addr)) fuel m ps :
    (forall r a s cc, nth_error (k_heap s) a = Some cc -> c_type cc = COMPONENT_VALUE \/ c_type cc = DECLARATION -> fn r a s = run k fuel Compile (push x l) r a s) ->
    forall ns fs don h kl g,
    nth_error h l = Some kl -> holder (c_type kl) = true -> c_ch kl = don ++ ns -> NoDup ns -> (forall a, In a don -> ~ In a ns) -> Forall2 (field_ok k fuel h) ns fs -> (2 * length ns < g)%nat ->
    exists h' ds, result_loop stop fn l g (Z.of_nat (length don)) None (mkK h m ps) = Ret None (mkK h' m ps)
      /\ nth_error h' l = Some (with_ch kl (don ++ ds))
      /\ Forall2 (fun nf d => field_done k h h' (fst nf) (snd nf) d) (combine ns fs) ds
      /\ (forall b cb, ~ In b ns -> b <> l -> nth_error h b = Some cb -> nth_error h' b = Some cb)
      /\ alike h h'.
  Proof.
    intro Fn0. induction ns as [|n ns IH]; intros fs don h kl g Hl Tl El Nd Dj Fo Lg; (destruct g as [|g]; [cbn in Lg; lia|]); inversion Fo as [|? f ? fs' Fn Fo']; subst; assert (Hch : has_children (c_type kl) = true) by (destruct (c_type kl); try discriminate Tl; reflexivity); cbn [result_loop].
    - exists h, []. erewrite b_ret; [|eapply run_size; [exact Hl|exact Hch]]. rewrite app_nil_r in El. rewrite El, Z.leb_refl. cbn [orb]. split; [reflexivity|]. split; [rewrite app_nil_r, <- El, with_ch_id; exact Hl|]. split; [constructor|]. split; [auto|apply alike_refl].
    - inversion Nd as [|? ? Nn Nd']; subst. destruct Fn as (c & Hn & Tn & De & N1 & N2 & Sz & En).
      erewrite b_ret; [|eapply run_size; [exact Hl|exact Hch]]. rewrite El, app_length. cbn [length]. replace (Z.of_nat (length don + S (length ns)) <=? Z.of_nat (length don)) with false by lia. cbn [orb]. rewrite andb_false_r.
      erewrite b_ret; [|eapply run_child; [exact Hl|exact Hch|rewrite Nat2Z.id, El; apply nth_mid|lia]].
      assert (Cl : container (c_type kl) = true) by (destruct (c_type kl); try discriminate Tl; reflexivity).
      assert (Inl : In n (c_ch kl)) by (rewrite El; apply in_or_app; right; now left).
      destruct (declaration_compiles k h m ps n l c kl (f_items f) (f_name f) (push x l) (x_parents x) Hn Tn De (conj N1 N2) eq_refl Hl Cl Inl Sz fuel None En) as (h1 & d & E & Dd & (l' & (pa & pb & Ea & Nb & El') & Hl1) & Fr & (ln & Hn1) & Ko).
      assert (pa = don /\ pb = ns) as (-> & ->).
      { rewrite El in Ea. assert (Nd0 : ~ In n don) by (intro I; apply (Dj n I); now left). clear - Ea Nb Nd0. revert pa Ea Nb. induction don as [|y don IHd]; intros [|z pa] Ea Nb; cbn in Ea.
        - injection Ea as ->. auto.
        - injection Ea as Q1 Q2. exfalso. apply Nb. left. congruence.
        - injection Ea as Q1 Q2. exfalso. apply Nd0. left. congruence.
        - injection Ea as -> Ea. destruct (IHd ltac:(intro; apply Nd0; now right) pa Ea ltac:(intro; apply Nb; now right)) as (-> & ->). auto. }
      rewrite <- (Fn0 None n (mkK h m ps) c Hn (or_introl Tn)) in E. rewrite (b_ret _ _ _ _ _ E). subst l'. set (kl1 := with_ch kl (don ++ d :: ns)) in *.
      assert (Ldn : n <> d) by (intros ->; congruence). assert (Nld : l <> d) by (intros ->; congruence). assert (Nln : l <> n) by (intros ->; rewrite Hn in Hl; injection Hl as <-; rewrite Tn in Tl; discriminate).
      assert (Al : alike h h1).
      { intros b cb Hb. destruct (Nat.eq_dec b n) as [->|Nbn]; [|destruct (Nat.eq_dec b l) as [->|Nbl]; [|exists cb; auto]].
        - assert (cb = c) by congruence. subst. eexists. split; [exact Hn1|]. split; [reflexivity|]. rewrite Tn. discriminate.
        - assert (cb = kl) by congruence. subst. eexists. split; [exact Hl1|]. split; [reflexivity|]. destruct (c_type kl); try discriminate Tl; discriminate. }
      unfold step_over at 1. rewrite bind_assoc. erewrite b_ret; [|eapply run_size; [exact Hl1|exact Hch]]. cbn [c_ch kl1 with_ch]. rewrite app_length. cbn [length].
      replace (Z.of_nat (length don) <? Z.of_nat (length don + S (length ns))) with true by lia. rewrite bind_assoc.
      erewrite b_ret; [|eapply run_child; [exact Hl1|exact Hch|rewrite Nat2Z.id; apply nth_mid|lia]]. rewrite bind_ret. rewrite (proj2 (Nat.eqb_neq n d) Ldn).
      (* the new declaration itself *)
      pose proof Dd as (args & Hd1 & _).
      assert (Td : exists kd, nth_error h1 d = Some kd /\ c_type kd = DECLARATION). { eexists. split; [exact Hd1|]. rewrite (proj1 (all_flags_same _ _ _)). reflexivity. }
      destruct Td as (kd & Hkd & Td).
      destruct g as [|g]; [cbn in Lg; lia|]. cbn [result_loop]. erewrite b_ret; [|eapply run_size; [exact Hl1|exact Hch]]. cbn [c_ch kl1 with_ch]. rewrite app_length. cbn [length].
      replace (Z.of_nat (length don + S (length ns)) <=? Z.of_nat (length don)) with false by lia. cbn [orb]. rewrite andb_false_r.
      erewrite b_ret; [|eapply run_child; [exact Hl1|exact Hch|rewrite Nat2Z.id; apply nth_mid|lia]].
      assert (Rd : run k fuel Compile (push x l) None d (mkK h1 m ps) = Ret None (mkK h1 m ps)).
      { destruct En as (En & _). destruct fuel as [|fuel]; [lia|]. cbn [run]. erewrite b_ret; [|eapply run_type; exact Hkd]. rewrite Td. reflexivity. }
      rewrite <- (Fn0 None d (mkK h1 m ps) kd Hkd (or_intror Td)) in Rd. rewrite (b_ret _ _ _ _ _ Rd). unfold step_over at 1. rewrite bind_assoc. erewrite b_ret; [|eapply run_size; [exact Hl1|exact Hch]]. cbn [c_ch kl1 with_ch]. rewrite app_length. cbn [length].
      replace (Z.of_nat (length don) <? Z.of_nat (length don + S (length ns))) with true by lia. rewrite bind_assoc.
      erewrite b_ret; [|eapply run_child; [exact Hl1|exact Hch|rewrite Nat2Z.id; apply nth_mid|lia]]. rewrite bind_ret. rewrite Nat.eqb_refl.
      assert (Dns : ~ In d ns). { intro I. clear - Fo' I Fr. revert I. induction Fo' as [|b fb ns fs (c2 & H2 & _) Fo IHf]; [intros []|]. intros [->|I]; [congruence|auto]. }
      assert (Lns : ~ In l ns). { intro I. clear - Fo' I Hl Tl. revert I. induction Fo' as [|b fb ns fs (c2 & H2 & T2 & _) Fo IHf]; [intros []|]. intros [->|I]; [rewrite H2 in Hl; injection Hl as <-; rewrite T2 in Tl; discriminate|auto]. }
      assert (Fo1 : Forall2 (field_ok k fuel h1) ns fs').
      { clear - Fo' Al Ko Nn Lns. revert Nn Lns. induction Fo' as [|b fb ns fs (c2 & H2 & T2 & D2 & R2) Fo IHf]; intros Nn Ln; [constructor|]. constructor; [|apply IHf; intro; [apply Nn|apply Ln]; now right].
        exists c2. split; [apply Ko; auto; intros ->; [apply Nn|apply Ln]; now left|]. split; [auto|]. split; [eapply alike_declares; eauto|exact R2]. }
      destruct (IH fs' (don ++ [d]) h1 kl1 g) as (h2 & ds & E2 & Hl2 & V2 & K2 & Al2).
      { exact Hl1. } { exact Tl. } { unfold kl1. cbn [c_ch with_ch]. rewrite <- app_assoc. reflexivity. } { exact Nd'. }
      { intros a I J. apply in_app_or in I. destruct I as [I|[<-|[]]]; [|auto]. apply (Dj a I). now right. } { exact Fo1. } { cbn [length] in Lg. lia. }
      exists h2, (d :: ds). rewrite app_length in E2. cbn [length] in E2. replace (Z.of_nat (length don) + 1) with (Z.of_nat (length don + 1)) by lia. split; [exact E2|].
      split; [rewrite Hl2; unfold kl1; rewrite <- app_assoc; reflexivity|]. split; [|split; [|eapply alike_trans; eauto]].
      + cbn [combine]. constructor.
        * exists c. split; [exact Hn|]. cbn [fst snd]. eapply declared_kept; [exact Dd|]. intros a ka Ha Oa. apply K2; [| |exact Ha].
          -- intro I. destruct Oa as [->|Oa]; [auto|]. clear - Fo1 I Ha Oa. revert I. induction Fo1 as [|b fb ns fs (c2 & H2 & T2 & _) Fo IHf]; [intros []|]. intros [->|I]; [|auto]. assert (ka = c2) by congruence. subst. rewrite T2 in Oa. destruct Oa; discriminate.
          -- intros ->. destruct Oa as [Oa|Oa]; [congruence|]. assert (ka = kl1) by congruence. subst. unfold kl1 in Oa. cbn [c_type with_ch] in Oa. destruct (c_type kl); try discriminate Tl; destruct Oa; discriminate.
        * clear - V2 Fo' Fo1 Al Ko Nn Lns. assert (Q : forall nf, In nf (combine ns fs') -> exists c2, nth_error h (fst nf) = Some c2 /\ nth_error h1 (fst nf) = Some c2 /\ declares h c2 (f_name (snd nf)) (r_metrics k (f_name (snd nf))) (sep (f_name (snd nf))) (f_items (snd nf))).
          { clear V2 Fo1. revert Nn Lns. induction Fo' as [|b fb ns fs (c2 & H2 & T2 & D2 & R2) Fo IHf]; intros Nn Ln nf I; [destruct I|]. destruct I as [<-|I]; [|apply IHf; auto; intro; [apply Nn|apply Ln]; now right].
            exists c2. cbn [fst snd]. split; [auto|]. split; [apply Ko; auto; intros ->; [apply Nn|apply Ln]; now left|auto]. }
          induction V2 as [|nf dd nfs ds (c3 & H3 & D3) V IHv]; [constructor|]. constructor; [|apply IHv; intros nf2 I; apply Q; now right].
          destruct (Q nf (or_introl eq_refl)) as (c2 & H2 & H2' & D2). assert (c3 = c2) by congruence. subst. exists c2. split; [exact H2|]. eapply declared_before; eauto.
      + intros b cb Nb1 Nb2 Hb. apply K2; [intro; apply Nb1; now right|auto|]. apply Ko; auto. intros ->. apply Nb1. now left.
  Qed.
  Lemma block_loop fuel m ps : forall ns fs don h kl g,
    nth_error h l = Some kl -> c_type kl = LIST \/ c_type kl = FRAME -> c_ch kl = don ++ ns -> NoDup ns -> (forall a, In a don -> ~ In a ns) -> Forall2 (field_ok k fuel h) ns fs -> (2 * length ns < g)%nat ->
    exists h' ds, result_loop true (fun r child => run k fuel Compile (push x l) r child) l g (Z.of_nat (length don)) None (mkK h m ps) = Ret None (mkK h' m ps)
      /\ nth_error h' l = Some (with_ch kl (don ++ ds))
      /\ Forall2 (fun nf d => field_done k h h' (fst nf) (snd nf) d) (combine ns fs) ds
      /\ (forall b cb, ~ In b ns -> b <> l -> nth_error h b = Some cb -> nth_error h' b = Some cb)
      /\ alike h h'.
  Proof. intros ns fs don h kl g Hl Tl. apply fields_loop; [reflexivity|exact Hl|]. destruct Tl as [-> | ->]; reflexivity. Qed.
End Block.
