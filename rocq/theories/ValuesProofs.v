(** * Proofs about the values of a declaration *)

From Coq Require Import String ZArith List Bool Lia Arith ZifyBool Floats.SpecFloat.
From Verif Require Import Base NodeHeap NodeProofs Color FloatBits.
From Verif Require Expr ExprRun PrecMeaning.
From Verif Require Import PrecSpec PrecStream ListSpec ListProofs SplitSpec.
From Verif Require Import Compiler CompRun SplitProofs Compile ValuesSpec.
Import ListNotations.
Open Scope string_scope. Open Scope list_scope. Open Scope Z_scope.
Ltac Zify.zify_post_hook ::= idtac.

(** ** One list, in its own expression *)
Section OneList.
  Variables (lm : libm) (fn : Expr.functions) (F : nat) (fo : bool).
  Lemma list_run es fl a c parent kp (s : Expr.est) :
    nth_error (Expr.e_heap s) a = Some c -> c_type c = ARG -> c_ch c = row es ++ fl -> list_ok (Expr.e_heap s) fo es fl ->
    nth_error (Expr.e_heap s) parent = Some kp -> operand_type (c_type kp) = false -> parent <> a ->
    Forall (fun e => (tree_size (e_tree e) < F)%nat) es -> (length es < F)%nat ->
    exists rs s', Expr.in_new a fo (compile_list lm fn F parent) s = Ret tt s'
      /\ holds_values (Expr.e_heap s) (Expr.e_heap s') es rs
      /\ nth_error (Expr.e_heap s') a = Some (with_ch c (results es rs))
      /\ nth_error (Expr.e_heap s') parent = Some (flagged (Expr.e_heap s) fl kp)
      /\ (forall b k, b <> a -> b <> parent -> nth_error (Expr.e_heap s) b = Some k -> nth_error (Expr.e_heap s') b = Some k)
      /\ Expr.e_msgs s' = Expr.e_msgs s.
  Proof.
    intros Ha Ta Ec (A & Ch & Fl & Ne) Hp Tp Np Sz Lf. set (s0 := Expr.mkE (Expr.e_heap s) (Expr.e_msgs s) a 0 0 None [] fo).
    assert (B : before s0 (row_tokens es ++ fl)).
    { exists c, 0%nat. cbn [s0 Expr.e_heap Expr.e_node Expr.e_pos]. split; [auto|]. split; [rewrite Ta; reflexivity|]. split; [reflexivity|]. split; [lia|]. cbn [skipn]. rewrite Ec.
      split; [eapply row_spaced; eauto|eapply row_leading; eauto]. }
    destruct (run_next s0 _ B (or_introl eq_refl)) as (s1 & N1 & R1 & G1 & M1). pose proof (PrecMeaning.goes_keeps _ _ G1) as K1. pose proof G1 as (_ & En & Es & Ev & Ef).
    assert (K : forall b k, nth_error (Expr.e_heap s) b = Some k -> nth_error (Expr.e_heap s1) b = Some k) by (intros b k Hb; exact (K1 b k Hb)).
    assert (Al : alike (Expr.e_heap s) (Expr.e_heap s1)) by (intros b k Hb; exists k; auto).
    destruct (loop_run lm fn F fo fl parent kp Tp es [] s1 c F) as (rs & s' & E & V & H1 & H2 & H3 & M).
    - rewrite En. now apply K.
    - auto.
    - auto.
    - rewrite Es. reflexivity.
    - exact R1.
    - rewrite Ev. reflexivity.
    - rewrite Ef. reflexivity.
    - rewrite Forall_forall in *. intros e I. eapply alike_entry; eauto.
    - eapply alike_chained; eauto.
    - destruct Fl as [Fl|(b & k & Fl & Hb & Tb)]; [now left|]. right. exists b, k. auto.
    - now left.
    - intros x [].
    - now apply K.
    - rewrite En. auto.
    - auto.
    - auto.
    - eexists rs, _. split.
      { unfold Expr.in_new, compile_list, Expr.bind, Expr.mark_start at 1. unfold Expr.with_start. cbn [Expr.e_heap Expr.e_msgs Expr.e_node Expr.e_pos Expr.e_cur Expr.e_vars Expr.e_font]. fold s0. rewrite N1, E. reflexivity. }
      cbn [Expr.e_heap Expr.e_msgs]. rewrite En in *. change (Expr.e_node s0) with a in *. split.
      { clear - V Al A. unfold holds_values in *. revert A. induction V as [|e r es rs (d & Hd & Sd) V IH]; intro A; [constructor|]. inversion A as [|? ? E0 A0]; subst. constructor; [|auto].
        exists d. split; [auto|]. eapply alike_stands; eauto. apply E0. }
      split; [exact H1|]. split.
      { rewrite H2. f_equal. destruct Fl as [->|(b & k & -> & Hb & Tb)]; [reflexivity|]. cbn [flagged]. rewrite Hb, (K _ _ Hb). reflexivity. }
      split; [intros b k Nb Nb2 Hb; apply H3; auto|]. rewrite M, M1. reflexivity.
  Qed.
End OneList.

Lemma alike_list h h' fo es fl : alike h h' -> list_ok h fo es fl -> list_ok h' fo es fl.
Proof.
  intros K (A & Ch & Fl & Ne). split; [rewrite Forall_forall in *; intros e I; eapply alike_entry; eauto|]. split; [eapply alike_chained; eauto|]. split; [|auto].
  destruct Fl as [Fl|(b & k & Fl & Hb & Tb)]; [now left|]. right. exists b, k. split; [auto|]. split; [|auto]. eapply alike_at; eauto. rewrite Tb. reflexivity.
Qed.
Lemma alike_flagged h h' fo es fl k : alike h h' -> list_ok h fo es fl -> flagged h' fl k = flagged h fl k.
Proof.
  intros K (A & Ch & Fl & Ne). destruct Fl as [->|(b & kb & -> & Hb & Tb)]; [reflexivity|]. cbn [flagged]. rewrite Hb. rewrite (alike_at _ _ _ _ K Hb) by (rewrite Tb; reflexivity). reflexivity.
Qed.
Lemma alike_values h h1 h' fo es fl rs : alike h h1 -> list_ok h fo es fl -> holds_values h1 h' es rs -> holds_values h h' es rs.
Proof.
  intros K (A & _) V. unfold holds_values in *. revert A. induction V as [|e r es rs (d & Hd & Sd) V IH]; intro A; [constructor|]. inversion A as [|? ? E0 A0]; subst. constructor; [|auto].
  exists d. split; [auto|]. eapply alike_stands; eauto. apply E0.
Qed.
Lemma values_kept h h1 h' fo es fl rs : list_ok h fo es fl -> holds_values h h1 es rs -> (forall r d, nth_error h1 r = Some d -> value_type (c_type d) = true -> nth_error h' r = Some d) -> holds_values h h' es rs.
Proof.
  intros _ V K. unfold holds_values in *. induction V as [|e r es rs (d & Hd & Sd) V IH]; [constructor|]. constructor; [|auto]. exists d. split; [|auto]. apply K; auto. eapply stands_type; eauto.
Qed.
Lemma flagged_type h fl k : c_type (flagged h fl k) = c_type k /\ c_ch (flagged h fl k) = c_ch k.
Proof. unfold flagged. destruct fl as [|a l]; [auto|]. destruct (nth_error h a); auto. Qed.
Lemma run_expr_child (s : Expr.est) n c i x : nth_error (Expr.e_heap s) n = Some c -> has_children (c_type c) = true -> nth_error (c_ch c) (Z.to_nat i) = Some x -> 0 <= i ->
  Expr.lift (get_child n i) s = Ret x s.
Proof.
  intros H E N P. pose proof (nth_lt _ _ _ N). unfold Expr.lift, get_child, NodeHeap.bind, load, supports. rewrite H, E. unfold NodeHeap.ret.
  replace (Z.of_nat (length (c_ch c)) <=? i) with false by lia. rewrite N. destruct s; reflexivity.
Qed.

Section Args.
  Variables (lm : libm) (fn : Expr.functions) (F : nat) (fo : bool) (d : addr).
  Definition small (it : item) : Prop := Forall (fun e => (tree_size (e_tree e) < F)%nat) (i_values it) /\ (length (i_values it) < F)%nat.
  Lemma args_run : forall args its i kd (s : Expr.est),
    nth_error (Expr.e_heap s) d = Some kd -> c_type kd = DECLARATION -> 0 <= i -> skipn (Z.to_nat i) (c_ch kd) = args -> NoDup args ->
    Forall2 (fun a it => exists c, nth_error (Expr.e_heap s) a = Some c /\ c_type c = ARG /\ c_ch c = row (i_values it) ++ i_flag it /\ list_ok (Expr.e_heap s) fo (i_values it) (i_flag it)) args its ->
    Forall small its ->
    exists s', args_loop lm fn F fo d i (length args) s = Ret tt s'
      /\ Forall2 (fun a it => exists c rs, nth_error (Expr.e_heap s) a = Some c /\ nth_error (Expr.e_heap s') a = Some (with_ch c (results (i_values it) rs)) /\ holds_values (Expr.e_heap s) (Expr.e_heap s') (i_values it) rs) args its
      /\ nth_error (Expr.e_heap s') d = Some (all_flags (Expr.e_heap s) its kd)
      /\ (forall b k, ~ In b args -> b <> d -> nth_error (Expr.e_heap s) b = Some k -> nth_error (Expr.e_heap s') b = Some k)
      /\ Expr.e_msgs s' = Expr.e_msgs s.
  Proof.
    induction args as [|a args IH]; intros its i kd s Hd Td Pi Sk Nd A Sm; inversion A as [|? it ? its' (c & Ha & Ta & Ec & Lo) A']; subst.
    - exists s. cbn. repeat split; auto.
    - inversion Sm as [|? ? (S1 & S2) Sm']; subst. inversion Nd as [|? ? Na Nd']; subst.
      apply skipn_nth in Sk. destruct Sk as (Nth & Sk).
      assert (Nad : d <> a) by (intro Q; rewrite Q in Hd; congruence).
      destruct (list_run lm fn F fo (i_values it) (i_flag it) a c d kd s Ha Ta Ec Lo Hd) as (rs & s1 & E1 & V1 & H1 & P1 & K1 & M1); auto; [rewrite Td; reflexivity|].
      assert (Al : alike (Expr.e_heap s) (Expr.e_heap s1)).
      { intros b k Hb. destruct (Nat.eq_dec b a) as [->|Nb]; [exists (with_ch c (results (i_values it) rs)); rewrite Hb in Ha; injection Ha as ->; rewrite Ta; split; [auto|split; [auto|discriminate]]|].
        destruct (Nat.eq_dec b d) as [->|Nb2]; [|exists k; auto]. rewrite Hb in Hd. injection Hd as ->. eexists. split; [exact P1|]. rewrite (proj1 (flagged_type _ _ _)). rewrite Td. split; [auto|discriminate]. }
      destruct (flagged_type (Expr.e_heap s) (i_flag it) kd) as (Ft & Fc).
      destruct (IH its' (i + 1) (flagged (Expr.e_heap s) (i_flag it) kd) s1) as (s2 & E2 & V2 & P2 & K2 & M2).
      + exact P1.
      + congruence.
      + lia.
      + rewrite Fc. rewrite Z2Nat.inj_add by lia. replace (Z.to_nat i + Z.to_nat 1)%nat with (S (Z.to_nat i)) by lia. rewrite Sk. reflexivity.
      + auto.
      + clear IH. revert A' Na. generalize args as l. clear - Al K1 Nad Td Hd. induction 1 as [|b it2 l its2 (c2 & Hb & Tb & Eb & Lb) A IHl]; intro Na; [constructor|].
        constructor; [|apply IHl; intro I; apply Na; now right]. exists c2. split; [apply K1; auto; [intros ->; apply Na; now left|intro Q; rewrite Q in Hb; congruence]|]. split; [auto|]. split; [auto|]. eapply alike_list; eauto.
      + auto.
      + exists s2. split.
        { cbn [length args_loop]. assert (G : Expr.lift (get_child d i) s = Ret a s) by (eapply run_expr_child; eauto; rewrite Td; reflexivity).
          unfold Expr.bind. rewrite G, E1. exact E2. }
        split.
        { constructor.
          - exists c, rs. split; [auto|]. split; [apply K2; auto|]. eapply values_kept; [exact Lo|exact V1|]. intros r dd Hr Tr. apply K2; auto.
            + intro I. clear - A' I Hr Tr Al. revert I. induction A' as [|b it2 l its2 (c2 & Hb & Tb & _) A IHl]; [intros []|]. intros [->|I]; [|auto]. destruct (alike_type _ _ _ _ Al Hb) as (c3 & H3 & T3). assert (dd = c3) by congruence. subst. rewrite T3, Tb in Tr. discriminate.
            + intro Q. rewrite Q in Hr. assert (Q2 : dd = flagged (Expr.e_heap s) (i_flag it) kd) by congruence. rewrite Q2, Ft, Td in Tr. discriminate.
          - clear - V2 A' Al K1 Na Nad Hd Td. revert A' Na. induction V2 as [|b it2 l its2 (c2 & rs2 & Hb & Hb' & Vb) V IHl]; intros A' Na; [constructor|].
            inversion A' as [|? ? ? ? (c3 & H3 & T3 & E3 & L3) A2]; subst. constructor; [|apply IHl; [auto|intro; apply Na; now right]].
            assert (c3 = c2). { assert (nth_error (Expr.e_heap s1) b = Some c3); [|congruence]. apply K1; auto; [intro Q; apply Na; left; auto|intro Q; rewrite Q in H3; congruence]. } subst.
            exists c2, rs2. split; [auto|]. split; [auto|]. eapply alike_values; eauto. }
        split.
        { rewrite P2. f_equal. unfold all_flags. cbn [fold_left]. clear - Al A'. generalize (flagged (Expr.e_heap s) (i_flag it) kd). revert A'. generalize args. induction its' as [|it2 its2 IHf]; intros l A k; [reflexivity|].
          inversion A as [|? ? ? ? (c3 & H3 & T3 & E3 & L3) A2]; subst. cbn [fold_left]. rewrite (alike_flagged _ _ _ _ _ _ Al L3). eapply IHf; eauto. }
        split; [|congruence]. intros b k Nb Nb2 Hb. apply K2; [intro; apply Nb; now right|auto|]. apply K1; auto. intros ->. apply Nb. now left.
  Qed.
End Args.

(** ** All the values of a declaration *)
Lemma alike_grouped h h' sep l gs : (forall a c, nth_error h a = Some c -> exists c', nth_error h' a = Some c' /\ c_type c' = c_type c) -> grouped h sep l gs -> grouped h' sep l gs.
Proof.
  intros K.
  assert (Sp : forall l, spaces h l -> spaces h' l). { intros l0 H w I. destruct (H w I) as (c & Hc & T). destruct (K w c Hc) as (c' & Hc' & T'). exists c'. split; [auto|congruence]. }
  assert (Sn : forall x c, nth_error h x = Some c -> spaces h' [x] -> spaces h [x]). { intros x c Hc S1 w [<-|[]]. exists c. split; [auto|]. destruct (S1 x (or_introl eq_refl)) as (c' & Hc' & T). destruct (K x c Hc) as (c2 & H2 & T2). congruence. }
  assert (Ap : forall l, (forall x, In x l -> exists c, nth_error h x = Some c) -> apart h l -> apart h' l).
  { induction l0 as [|x [|y l0] IH]; intros All; [auto|auto|]. cbn [apart]. intros (A & B). split.
    - intros (P & Q). apply A. destruct (All x (or_introl eq_refl)) as (cx & Hx). destruct (All y (or_intror (or_introl eq_refl))) as (cy & Hy). split; eapply Sn; eauto.
    - apply IH; [intros z I; apply All; now right|exact B]. }
  assert (Go : forall g, group_ok h sep g -> group_ok h' sep g).
  { intros g (Ne & A & Hd & Lt & All). split; [auto|]. split; [apply Ap; auto; intros x I; destruct (All x I) as (c & H & _); eauto|].
    assert (Ia : forall x, hd_error g = Some x -> In x g) by (intros x Q; destruct g; [discriminate|injection Q as ->; now left]).
    assert (Ib : forall x, hd_error (rev g) = Some x -> In x g) by (intros x Q; apply in_rev; destruct (rev g); [discriminate|injection Q as ->; now left]).
    split; [intros x Q S1; apply (Hd x Q); destruct (All x (Ia x Q)) as (c & H & _); eapply Sn; eauto|].
    split; [intros x Q S1; apply (Lt x Q); destruct (All x (Ib x Q)) as (c & H & _); eapply Sn; eauto|].
    intros x I. destruct (All x I) as (c & H & T1 & T2 & T3). destruct (K x c H) as (c' & H' & T'). exists c'. rewrite T'. auto. }
  induction 1 as [lead g Sl G|lead g trail x k l gs Sl G Tr Hx Tx Gr IH].
  - constructor; auto.
  - destruct (K x k Hx) as (k' & Hx' & Tk). econstructor; eauto; [|congruence]. destruct Tr as [->|(w & -> & Sw & Nw)]; [now left|]. right. exists w. auto.
Qed.
Lemma Forall2_seq {A} (P : addr -> A -> Prop) : forall (l : list A) k, (forall i x, nth_error l i = Some x -> P (k + i)%nat x) -> Forall2 P (seq k (length l)) l.
Proof.
  induction l as [|x l IH]; intros k H; cbn [length seq]; [constructor|]. constructor; [specialize (H 0%nat x eq_refl); now rewrite Nat.add_0_r in H|]. apply IH. intros i y E. specialize (H (S i) y E). replace (S k + i)%nat with (k + S i)%nat by lia. exact H.
Qed.
Lemma last_child_run (s : Expr.est) n c l x : nth_error (Expr.e_heap s) n = Some c -> has_children (c_type c) = true -> c_ch c = l ++ [x] -> Z.of_nat (length l) < 18446744073709551615 ->
  Expr.lift (get_last_child n) s = Ret x s.
Proof.
  intros H E N Sm. unfold Expr.lift, get_last_child, NodeHeap.bind, load. rewrite H. unfold get_child, NodeHeap.bind, load, supports. rewrite H, E, N. unfold NodeHeap.ret. rewrite app_length. cbn [length].
  replace (u64 (Z.of_nat (length l + 1) - 1)) with (Z.of_nat (length l)) by (unfold u64; rewrite Z.mod_small; lia).
  replace (Z.of_nat (length l + 1) <=? Z.of_nat (length l)) with false by lia. rewrite Nat2Z.id, nth_mid. destruct s; reflexivity.
Qed.
Lemma run_args lm fn F fo d kd (s : Expr.est) args its :
  nth_error (Expr.e_heap s) d = Some kd -> c_type kd = DECLARATION -> c_ch kd = args -> args <> [] -> NoDup args -> Z.of_nat (length args) < 18446744073709551616 ->
  Forall2 (fun a it => exists c, nth_error (Expr.e_heap s) a = Some c /\ c_type c = ARG /\ c_ch c = row (i_values it) ++ i_flag it /\ list_ok (Expr.e_heap s) fo (i_values it) (i_flag it)) args its ->
  Forall (small F) its ->
  exists s', compile_args lm fn F fo d s = Ret tt s'
    /\ Forall2 (fun a it => exists c rs, nth_error (Expr.e_heap s) a = Some c /\ nth_error (Expr.e_heap s') a = Some (with_ch c (results (i_values it) rs)) /\ holds_values (Expr.e_heap s) (Expr.e_heap s') (i_values it) rs) args its
    /\ nth_error (Expr.e_heap s') d = Some (all_flags (Expr.e_heap s) its kd)
    /\ (forall b k, ~ In b args -> b <> d -> nth_error (Expr.e_heap s) b = Some k -> nth_error (Expr.e_heap s') b = Some k)
    /\ Expr.e_msgs s' = Expr.e_msgs s.
Proof.
  intros Hd Td Ec Ne Nd Sm A Sz. destruct (args_run lm fn F fo d args its 0 kd s Hd Td ltac:(lia) Ec Nd A Sz) as (s' & E & R). exists s'. split; [|exact R].
  destruct (@exists_last _ args Ne) as (l & x & El).
  assert (Hx : exists c, nth_error (Expr.e_heap s) x = Some c /\ c_type c = ARG).
  { assert (I : In x args) by (rewrite El; apply in_or_app; right; now left). clear - A I. induction A as [|a it l its (c & H & T & _) A IH]; [destruct I|]. destruct I as [<-|I]; [eauto|auto]. }
  destruct Hx as (c & Hx & Tx). assert (Hch : has_children (c_type kd) = true) by (rewrite Td; reflexivity).
  unfold compile_args. assert (E1 : Expr.lift (child_empty d) s = Ret false s). { unfold Expr.lift, child_empty, NodeHeap.bind, load, supports. rewrite Hd, Hch. unfold NodeHeap.ret. rewrite Ec. destruct args; [congruence|]. destruct s; reflexivity. }
  assert (E2 : Expr.lift (get_last_child d) s = Ret x s). { eapply last_child_run; eauto; [rewrite Ec; exact El|rewrite El, app_length in Sm; cbn in Sm; lia]. }
  assert (E3 : Expr.type_of x s = Ret ARG s) by (rewrite (ExprRun.run_type s x c Hx), Tx; reflexivity).
  assert (E4 : Expr.lift (size d) s = Ret (Z.of_nat (length args)) s). { unfold Expr.lift, size, NodeHeap.bind, load, supports. rewrite Hd, Hch. unfold NodeHeap.ret. rewrite Ec. destruct s; reflexivity. }
  unfold Expr.bind. rewrite E1, E2, E3, E4. change (ntype_eqb ARG OPEN_CURLYBRACKET) with false. cbv iota. rewrite Z.sub_0_r, Nat2Z.id. exact E.
Qed.

Lemma items_len h fo gs its : items_ok h fo gs its -> length its = length gs.
Proof. unfold items_ok. induction 1; cbn; congruence. Qed.
Lemma items_nth h fo gs its : items_ok h fo gs its -> forall i it, nth_error its i = Some it -> exists g, nth_error gs i = Some g /\ g = row (i_values it) ++ i_flag it /\ list_ok h fo (i_values it) (i_flag it).
Proof.
  unfold items_ok. induction 1 as [|g it0 gs its (E & L) I IH]; intros [|i] it Hi; try discriminate; cbn in *; [injection Hi as <-; eauto|auto].
Qed.
Section Expressions.
  Variables (k : rules) (F : nat) (x : ctx) (d : addr) (kd : cell) (h : heap) (m : list msg) (ps : list str) (gs : list (list addr)) (its : list item).
  Notation name := (c_str kd).
  Notation sep := (if r_slash k name then DIVIDE else COMMA).
  Notation fo := (r_metrics k name).
  Hypothesis Hd : nth_error h d = Some kd.
  Hypothesis Td : c_type kd = DECLARATION.
  Hypothesis Nm : str_eqb name (zs "filter") = false /\ str_eqb name (zs "-filter") = false.
  Hypothesis Gr : grouped h sep (c_ch kd) gs.
  Hypothesis It : items_ok h fo gs its.
  Hypothesis Ty : forall y, In y (c_ch kd) -> exists c, nth_error h y = Some c /\ c_type c <> LIST /\ c_type c <> COMPONENT_VALUE /\ c_type c <> ARG /\ c_type c <> OPEN_CURLYBRACKET.
  Hypothesis Sz : Z.of_nat (length (c_ch kd)) < 18446744073709551616.
  Hypothesis Sm : Forall (small F) its.

  Lemma sub_fields : forall l, (forall y, In y l -> exists c, nth_error h y = Some c /\ c_type c <> LIST /\ c_type c <> COMPONENT_VALUE) -> has_sub_fields l (mkK h m ps) = Ret false (mkK h m ps).
  Proof.
    induction l as [|y l IH]; intros A; [reflexivity|]. cbn [has_sub_fields]. destruct (A y (or_introl eq_refl)) as (c & Hy & T1 & T2).
    erewrite b_ret; [|eapply run_type; exact Hy]. erewrite b_ret; [|apply IH; intros z I; apply A; now right]. rewrite (proj2 (ntype_eqb_neq _ _) T1), (proj2 (ntype_eqb_neq _ _) T2). reflexivity.
  Qed.
  Lemma grouped_len : forall l gs, grouped h sep l gs -> (length gs <= length l)%nat /\ gs <> [] /\ l <> [].
  Proof.
    assert (Q : forall g, group_ok h sep g -> (1 <= length g)%nat) by (intros [|? ?] (N & _); [congruence|cbn; lia]).
    induction 1 as [lead g Sl G|lead g trail y ky l gs0 Sl G Tr Hy Ty' Gr' IH]; pose proof (Q g G); rewrite !app_length; cbn [length]; (split; [|split; [discriminate|destruct lead; [|discriminate]; destruct g; [cbn in *; lia|discriminate]]]).
    - lia.
    - lia.
  Qed.
  Lemma expressions_run : exists h', compile_expressions k F x d (mkK h m ps) = Ret tt (mkK h' m ps)
    /\ (exists args, nth_error h' d = Some (all_flags h its (with_ch kd args))
        /\ Forall2 (fun a it => exists rs, nth_error h' a = Some (argument (c_pos kd) sep (results (i_values it) rs)) /\ holds_values h h' (i_values it) rs) args its)
    /\ forall b c, b <> d -> nth_error h b = Some c -> nth_error h' b = Some c.
  Proof.
    destruct (grouped_len _ _ Gr) as (Lg & Ng & Nl). destruct (c_ch kd) as [|y l] eqn:Ec; [congruence|]. destruct (Ty y (or_introl eq_refl)) as (cy & Hy & Ty1 & Ty2 & Ty3 & Ty4).
    assert (Hch : has_children (c_type kd) = true) by (rewrite Td; reflexivity). pose proof (nth_lt _ _ _ Hd) as Ld.
    set (h1 := split_heap h d kd sep gs).
    assert (Old : forall b c, b <> d -> nth_error h b = Some c -> nth_error h1 b = Some c).
    { intros b c Nb Hb. unfold h1, split_heap. rewrite nth_error_app1 by (rewrite put_length; apply nth_lt in Hb; exact Hb). rewrite put_other; [exact Hb|intro Q; apply Nb; symmetry; exact Q]. }
    assert (Hd1 : nth_error h1 d = Some (with_ch kd (seq (S (length h)) (length gs)))).
    { unfold h1, split_heap. rewrite nth_error_app1 by (rewrite put_length; auto). apply put_same; exact Ld. }
    assert (Hn1 : forall i g, nth_error gs i = Some g -> nth_error h1 (S (length h) + i) = Some (argument (c_pos kd) sep g)).
    { intros i g Hi. unfold h1, split_heap. rewrite nth_error_app2 by (rewrite put_length; lia). rewrite put_length. replace (S (length h) + i - length h)%nat with (S i) by lia. cbn [nth_error]. apply map_nth_error; exact Hi. }
    assert (Al : alike h h1).
    { intros b c Hb. destruct (Nat.eq_dec b d) as [->|Nb]; [|exists c; auto]. eexists. split; [exact Hd1|]. assert (c = kd) by congruence. subst. cbn [c_type with_ch]. rewrite Td. split; [auto|discriminate]. }
    assert (Lgi : length its = length gs) by (eapply items_len; exact It).
    set (args := seq (S (length h)) (length gs)).
    assert (A : Forall2 (fun a it => exists c, nth_error h1 a = Some c /\ c_type c = ARG /\ c_ch c = row (i_values it) ++ i_flag it /\ list_ok h1 fo (i_values it) (i_flag it)) args its).
    { unfold args. rewrite <- Lgi. apply Forall2_seq. intros i it Hi. assert (exists g, nth_error gs i = Some g /\ g = row (i_values it) ++ i_flag it /\ list_ok h fo (i_values it) (i_flag it)) as (g & Hg & Eg & Lo).
      { eapply items_nth; [exact It|exact Hi]. }
      eexists. split; [apply Hn1; exact Hg|]. split; [reflexivity|]. split; [exact Eg|]. eapply alike_list; eauto. }
    destruct (run_args (w_libm (r_world k)) (w_functions (r_world k) x) F fo d (with_ch kd args) (Expr.mkE h1 m d 0 (-1) None [] false) args its) as (s' & E & V & P & K & M); cbn [Expr.e_heap] in *; auto.
    { unfold args. destruct gs; [congruence|discriminate]. } { apply seq_NoDup. } { unfold args. rewrite seq_length. lia. }
    exists (Expr.e_heap s'). split; [|split].
    - unfold compile_expressions. erewrite b_ret; [|eapply run_empty; [exact Hd|exact Hch]]. rewrite Ec. cbv iota.
      erewrite b_ret; [|eapply run_child_is; [exact Hd|exact Hch|rewrite Ec; reflexivity|lia|exact Hy]]. rewrite (proj2 (ntype_eqb_neq _ _) Ty4).
      erewrite b_ret; [|eapply run_load; exact Hd]. cbv iota. rewrite Ec. erewrite b_ret; [|apply sub_fields; intros z I; destruct (Ty z I) as (cz & Hz & A1 & A2 & _); eauto]. cbv iota.
      erewrite b_ret; [|eapply run_child0; [exact Hd|exact Hch|exact Ec]]. erewrite b_ret; [|eapply run_type; exact Hy].
      assert (W : exists w, (if ntype_eqb (c_type cy) FUNCTION || ntype_eqb (c_type cy) IDENTIFIER then lift (get_string y) else ret []) (mkK h m ps) = Ret w (mkK h m ps)).
      { destruct (ntype_eqb (c_type cy) FUNCTION || ntype_eqb (c_type cy) IDENTIFIER) eqn:Q; [|eexists; reflexivity]. eexists. eapply run_string; [exact Hy|]. apply orb_true_iff in Q. destruct Q as [Q|Q]; apply ntype_eqb_spec in Q; rewrite Q; reflexivity. }
      destruct W as (w & W). rewrite (b_ret _ _ _ _ _ W). erewrite b_ret; [|eapply run_string; [exact Hd|rewrite Td; reflexivity]].
      unfold is_ie_filter. cbn [existsb]. rewrite (proj1 Nm), (proj2 Nm). cbn [orb andb]. cbv iota.
      assert (Ar : argify_by sep d (mkK h m ps) = Ret true (mkK h1 m ps)).
      { apply argify_groups; auto; [destruct (r_slash k name); auto|rewrite Ec; exact Gr|rewrite Ec; exact Sz|]. intros z kz Q Hz. rewrite Ec in Q. injection Q as <-. assert (kz = cy) by congruence. subst. exact Ty3. }
      rewrite (b_ret _ _ _ _ _ Ar). unfold with_expr. cbn [k_heap k_msgs k_paths]. rewrite E. cbn [Expr.e_msgs] in M. rewrite M. reflexivity.
    - exists args. split.
      + rewrite P. f_equal. unfold all_flags. cbn [Expr.e_heap]. clear - Al It. revert It. generalize (with_ch kd args). generalize gs as gl. induction its as [|it its' IH]; intros gl c I; [reflexivity|]. inversion I as [|? ? ? ? (E & L) I']; subst. cbn [fold_left]. rewrite (alike_flagged _ _ _ _ _ _ Al L). eapply IH; eauto.
      + assert (W : forall i a it, nth_error args i = Some a -> nth_error its i = Some it -> exists g, nth_error h1 a = Some (argument (c_pos kd) sep g) /\ list_ok h fo (i_values it) (i_flag it)).
        { intros i a it Ha Hi. assert (exists g, nth_error gs i = Some g /\ g = row (i_values it) ++ i_flag it /\ list_ok h fo (i_values it) (i_flag it)) as (g & Hg & Eg & Lo).
          { eapply items_nth; [exact It|exact Hi]. }
          exists g. split; [|auto]. pose proof (nth_lt _ _ _ Hg) as Li. assert (Ea : a = (S (length h) + i)%nat).
          { unfold args in Ha. pose proof (nth_error_nth _ _ 0%nat Ha) as Q. rewrite seq_nth in Q by auto. auto. }
          rewrite Ea. apply Hn1; exact Hg. }
        clear - V W Al. revert W. induction V as [|a it args its (c & rs & H1 & H2 & Hv) V IH]; intro W; [constructor|]. constructor.
        * destruct (W 0%nat a it eq_refl eq_refl) as (g & Ha & Lo). assert (c = argument (c_pos kd) sep g) by congruence. subst c. exists rs. split; [exact H2|]. eapply alike_values; eauto.
        * apply IH. intros i b it2 Hb Hi. exact (W (S i) b it2 Hb Hi).
    - intros b c Nb Hb. apply K; auto. unfold args. rewrite in_seq. apply nth_lt in Hb. lia.
  Qed.
End Expressions.
