(** * Properties of compile(): @keyframes (C65) *)

From Coq Require Import String ZArith List Bool Lia Arith ZifyBool Floats.SpecFloat.
From Verif Require Import Base NodeHeap NodeProofs.
From Verif Require Import PrecSpec ListSpec SplitSpec ListProofs.
From Verif Require Import Compiler CompRun Compile ValuesSpec ValuesProofs DeclCompile FramesSpec FramesProofs AtSpec Props_At Props_Values.
Import ListNotations.
Open Scope string_scope. Open Scope list_scope. Open Scope Z_scope.
Ltac Zify.zify_post_hook ::= idtac.

Lemma nodes_types k fuel h cvs frs b : Forall2 (frame_ok k fuel h) cvs frs -> In b (flat_map frame_nodes frs) ->
  exists cb, nth_error h b = Some cb /\ (c_type cb = LIST \/ c_type cb = COMPONENT_VALUE).
Proof.
  intros Fo I. induction Fo as [|cv' f' cvs frs (c & a & ca & b' & cb' & i & ci & _ & _ & _ & _ & _ & _ & _ & _ & _ & Hi & Sh & Ff & _) Fo' IHf]; [destruct I|]. cbn in I. apply in_app_or in I. destruct I as [I|I]; [|auto]. unfold frame_nodes in I. apply in_app_or in I. destruct I as [I|I].
  - destruct Sh as [(Ti & Ei & _)|(_ & Ei & _)]; rewrite Ei in I; [|destruct I]. destruct I as [<-|[]]. eauto.
  - clear - Ff I. induction Ff as [|n g ns fs (cn & Hn & Tn & _) Ff IHf]; [destruct I|]. destruct I as [->|I]; [eauto|auto].
Qed.
Lemma alike_app h t : alike h (h ++ t).
Proof. intros b cb Hb. exists cb. rewrite nth_error_app1 by (eapply nth_lt; eauto). auto. Qed.
Lemma others_app h t : keeps_others h (h ++ t).
Proof. intros b cb Hb _ _. rewrite nth_error_app1 by (eapply nth_lt; eauto). exact Hb. Qed.

Section Rule.
  Variables (k : rules) (fuel : nat) (x : ctx) (n parent : addr) (more : list addr) (c : cell) (h : heap) (m : list msg) (ps : list str) (id b : addr) (cid cb : cell).
  Hypothesis H : nth_error h n = Some c.
  Hypothesis T : c_type c = AT_KEYWORD.
  Hypothesis Nm : frames_name (c_str c).
  Hypothesis E : c_ch c = [id; b].
  Hypothesis Hid : nth_error h id = Some cid.
  Hypothesis Tid : c_type cid = IDENTIFIER.
  Hypothesis Hb : nth_error h b = Some cb.
  Hypothesis Tb : c_type cb = OPEN_CURLYBRACKET.
  Hypothesis X : x_parents x = parent :: more.
  Lemma keyframes_start : run k (S (S (S fuel))) Compile x None n (mkK h m ps) =
    (o <- frames_loop (run k (S fuel) Compile (push x n)) (c_pos c) (c_pos cb) (length h) (c_ch cb) None ;;
     let '(ok, r) := o in if ok : bool then lift (take_over_children_of n (length h)) ;;; lift (insert_child n 0 id) ;;; ret r else ret r) (mkK (h ++ [blank LIST (c_pos cb)]) m ps).
  Proof.
    change (run k (S (S (S fuel))) Compile x None n) with
      (let x := push x n in bind (type_of n) (fun t => match t with LIST | FRAME => result_loop true (fun r child => run k (S (S fuel)) Compile x r child) n (S (S fuel)) 0 None | DECLARATION | COMMENT => ret None | COMPONENT_VALUE => run k (S (S fuel)) Value x None n | AT_KEYWORD => run k (S (S fuel)) At x None n | _ => throw XLogic end)).
    cbv zeta. erewrite b_ret; [|eapply run_type; exact H]. rewrite T. cbv iota.
    change (run k (S (S fuel)) At (push x n) None n) with (compile_at_keyword k (S fuel) (run k (S fuel) Compile) (run k (S fuel) Value) (run k (S fuel) At) (push x n) None n).
    unfold compile_at_keyword. erewrite b_ret; [|eapply run_string; [exact H|rewrite T; reflexivity]].
    erewrite b_ret; [|unfold previous_parent; cbn [push x_parents]; rewrite X; reflexivity].
    erewrite b_ret; [|eapply run_first; [exact H|rewrite T; reflexivity|eapply follows_value; [exact E|exact Hid|rewrite Tid; discriminate]]].
    cbv zeta.
    match goal with |- ?L _ = _ => assert (Q : L = at_keyframes (run k (S fuel) Compile (push x n)) None n) by (destruct Nm as [-> | [-> | ->]]; reflexivity); rewrite Q; clear Q end.
    unfold at_keyframes. erewrite b_ret; [|eapply run_pos; exact H]. erewrite b_ret; [|eapply run_size; [exact H|rewrite T; reflexivity]]. rewrite E. change (negb (Z.of_nat (length [id; b]) =? 2)) with false. cbv iota.
    erewrite b_ret; [|eapply run_child0; [exact H|rewrite T; reflexivity|exact E]]. erewrite b_ret; [|eapply run_is; exact Hid]. rewrite Tid. change (negb (ntype_eqb IDENTIFIER IDENTIFIER)) with false. cbv iota.
    erewrite b_ret; [|eapply run_child1; [exact H|rewrite T; reflexivity|exact E]]. erewrite b_ret; [|eapply run_is; exact Hb]. rewrite Tb. change (negb (ntype_eqb OPEN_CURLYBRACKET OPEN_CURLYBRACKET)) with false. cbv iota.
    erewrite b_ret; [|eapply run_pos; exact Hb]. erewrite b_ret; [|apply run_new]. erewrite b_ret; [|eapply run_load; rewrite nth_error_app1 by (eapply nth_lt; eauto); exact Hb]. reflexivity.
  Qed.
  (** The frames of the rule that are fine. *)
  Lemma keyframes_good cvs frs rest : Forall2 (frame_ok k fuel h) cvs frs -> NoDup (cvs ++ flat_map frame_nodes frs) ->
    exists h' ds, frames_loop (run k (S fuel) Compile (push x n)) (c_pos c) (c_pos cb) (length h) (cvs ++ rest) None (mkK (h ++ [blank LIST (c_pos cb)]) m ps)
        = frames_loop (run k (S fuel) Compile (push x n)) (c_pos c) (c_pos cb) (length h) rest None (mkK h' m ps)
      /\ nth_error h' (length h) = Some (with_ch (blank LIST (c_pos cb)) ds) /\ Forall2 (frame_done k h h') frs ds
      /\ (forall b0 cb0, ~ In b0 (flat_map frame_nodes frs) -> nth_error h b0 = Some cb0 -> nth_error h' b0 = Some cb0) /\ alike h h' /\ keeps_others h h'.
  Proof.
    intros Fo Nd. set (h1 := h ++ [blank LIST (c_pos cb)]).
    assert (Fo1 : Forall2 (frame_ok k fuel h1) cvs frs).
    { assert (A : forall b0, In b0 (flat_map frame_nodes frs) -> exists cb0, nth_error h b0 = Some cb0) by (intros b0 I; destruct (nodes_types _ _ _ _ _ _ Fo I) as (cb0 & A & _); eauto).
      clear - Fo A. unfold h1. induction Fo as [|cv f cvs frs Hf Fo IH]; constructor; [|apply IH; intros b0 I; apply A; cbn; apply in_or_app; now right].
      assert (B : exists cc, nth_error h cv = Some cc) by (destruct Hf as (cc & ? & ? & ? & ? & ? & ? & B & _); eauto). destruct B as (cc & B).
      eapply frame_alike; [apply alike_app|apply others_app| |exact Hf]. intros b0 [<-|I]; [rewrite nth_error_app1 by (eapply nth_lt; eauto); reflexivity|].
      destruct (A b0) as (cb0 & H0); [cbn; apply in_or_app; now left|]. rewrite nth_error_app1 by (eapply nth_lt; eauto). reflexivity. }
    assert (Nl : ~ In (length h) (flat_map frame_nodes frs)). { intro I. destruct (nodes_types _ _ _ _ _ _ Fo I) as (cb0 & A & _). apply nth_lt in A. lia. }
    destruct (frames_run k fuel (push x n) (c_pos c) (c_pos cb) (length h) cvs frs rest [] h1 m ps (blank LIST (c_pos cb)) (nth_mid _ _ _) eq_refl eq_refl Fo1 Nd Nl) as (h' & ds & R & Hl & V & K & Al).
    exists h', ds. split; [exact R|]. split; [exact Hl|].
    assert (K' : forall b0 cb0, ~ In b0 (flat_map frame_nodes frs) -> nth_error h b0 = Some cb0 -> nth_error h' b0 = Some cb0).
    { intros b0 cb0 N0 H0. pose proof (nth_lt _ _ _ H0). apply K; [exact N0|lia|]. unfold h1. rewrite nth_error_app1 by auto. exact H0. }
    split; [|split; [exact K'|split; [eapply alike_trans; [apply alike_app|exact Al]|]]].
    - clear - V Fo. revert ds V. unfold h1. induction Fo as [|cv f cvs frs Hf Fo IH]; intros ds V; inversion V as [|? d ? ds' Hd V']; subst; constructor; [|auto].
      destruct Hf as (cc & a & ca & b' & cb' & i & ci & _ & _ & _ & _ & _ & _ & _ & _ & _ & _ & _ & Ff & _). eapply frame_before; [apply (alike_app h [blank LIST (c_pos cb)])| |exact Ff|exact Hd]. intros n0 I.
      assert (exists cn, nth_error h n0 = Some cn) as (cn & Hn). { clear - Ff I. induction Ff as [|n1 g ns fs (cn & Hn & _) Ff IHf]; [destruct I|]. destruct I as [->|I]; [eauto|auto]. }
      rewrite nth_error_app1 by (eapply nth_lt; eauto). reflexivity.
    - intros b0 cb0 H0 T1 T2. apply K'; [|exact H0]. intro I. destruct (nodes_types _ _ _ _ _ _ Fo I) as (cb1 & A & B). rewrite H0 in A. injection A as <-. destruct B; contradiction.
  Qed.
End Rule.

(** ** C65 the frames of an animation

    The rule keeps its name and has one frame for each one that was written, in
    the same order, at the same moment and with the same declarations (C63); no
    message; the other nodes do not change. *)
Theorem c65_keyframes : forall k fuel x n parent more c h m ps id b cid cb cvs frs,
  nth_error h n = Some c -> c_type c = AT_KEYWORD -> frames_name (c_str c) -> c_ch c = [id; b] ->
  nth_error h id = Some cid -> c_type cid = IDENTIFIER -> nth_error h b = Some cb -> c_type cb = OPEN_CURLYBRACKET -> c_ch cb = cvs ->
  Forall2 (frame_ok k fuel h) cvs frs -> NoDup (cvs ++ flat_map frame_nodes frs) -> x_parents x = parent :: more ->
  exists h' ds, run k (S (S (S fuel))) Compile x None n (mkK h m ps) = Ret None (mkK h' m ps)
    /\ nth_error h' n = Some (with_ch c (id :: ds)) /\ Forall2 (frame_done k h h') frs ds
    /\ forall b0 cb0, ~ In b0 (flat_map frame_nodes frs) -> b0 <> n -> nth_error h b0 = Some cb0 -> nth_error h' b0 = Some cb0.
Proof.
  intros k fuel x n parent more c h m ps id b cid cb cvs frs H T Nm E Hid Tid Hb Tb Ec Fo Nd X.
  destruct (keyframes_good k fuel x n c h m ps cb cvs frs [] Fo Nd) as (h1 & ds & R & Hl & V & K & Al & Ko).
  rewrite app_nil_r in R. pose proof (nth_lt _ _ _ H) as Ln.
  assert (Hn1 : nth_error h1 n = Some c) by (apply Ko; [exact H| |]; congruence).
  assert (Nln : n <> length h) by lia.
  set (h2 := put (put h1 n (with_ch c ds)) (length h) (with_ch (with_ch (blank LIST (c_pos cb)) ds) [])).
  assert (Hn2 : nth_error h2 n = Some (with_ch c ds)). { unfold h2. rewrite put_other by auto. apply put_same. eapply nth_lt; eauto. }
  assert (Old : forall b0 cb0, nth_error h1 b0 = Some cb0 -> b0 <> n -> b0 <> length h -> nth_error h2 b0 = Some cb0) by (intros b0 cb0 H0 N1 N2; unfold h2; rewrite put_other by auto; rewrite put_other by auto; exact H0).
  assert (Hid1 : nth_error h2 id = Some cid). { apply Old; [apply Ko; [exact Hid| |]; congruence| |apply nth_lt in Hid; lia]. intros ->. rewrite H in Hid. injection Hid as <-. congruence. }
  set (h3 := put h2 n (with_ch (with_ch c ds) (id :: ds))). exists h3, ds.
  assert (Old3 : forall b0 cb0, nth_error h1 b0 = Some cb0 -> b0 <> n -> b0 <> length h -> nth_error h3 b0 = Some cb0) by (intros b0 cb0 H0 N1 N2; unfold h3; rewrite put_other by auto; apply Old; auto).
  split; [|split; [|split]].
  - rewrite (keyframes_start k fuel x n parent more c h m ps id b cid cb H T Nm E Hid Tid Hb Tb X). rewrite Ec.
    erewrite b_ret; [|rewrite R; reflexivity]. cbv beta iota.
    erewrite b_ret; [|eapply run_take; [exact Hn1|rewrite T; reflexivity|exact Hl|reflexivity|exact Nln]]. cbn [c_ch with_ch]. fold h2.
    erewrite b_ret; [|eapply (run_insert _ _ _ _ _ Hn2 0); [cbn; rewrite T; reflexivity|exact Hid1|congruence|congruence|lia]]. reflexivity.
  - unfold h3. rewrite put_same; [reflexivity|]. eapply nth_lt; eauto.
  - assert (Tl : exists kl, nth_error h1 (length h) = Some kl /\ c_type kl = LIST) by (eexists; split; [exact Hl|reflexivity]). destruct Tl as (kl & Hkl & Tl).
    clearbody h3. clear - V Old3 Hn1 T Hkl Tl. induction V as [|f d frs ds' Hd V IH]; constructor; [|exact IH].
    destruct Hd as (es & He & Ve). exists es. split.
    + apply Old3; [exact He| |]; intros ->; [rewrite Hn1 in He; injection He as ->; discriminate T|rewrite Hkl in He; injection He as ->; discriminate Tl].
    + clear - Ve Old3 Hn1 T Hkl Tl. induction Ve as [|nf e nfs es (cn & Hc & D) V IH]; constructor; [|exact IH]. exists cn. split; [exact Hc|]. pose proof D as (args & He & _). eapply declared_kept; [exact D|].
      assert (Q2 := proj1 (all_flags_same h (f_items (snd nf)) (mkCell DECLARATION (c_pos cn) false 0 (S754_zero false) (f_name (snd nf)) [] args [] []))). cbn [c_type] in Q2.
      intros a ka Ha O. apply Old3; [exact Ha| |]; intro Ea; rewrite Ea in *.
      * rewrite Hn1 in Ha. injection Ha as <-. destruct O as [O|[Q|Q]]; [congruence|congruence|rewrite T in Q; discriminate].
      * rewrite Hkl in Ha. injection Ha as <-. destruct O as [O|[Q|Q]]; [congruence|congruence|rewrite Tl in Q; discriminate].
  - intros b0 cb0 N0 N1 H0. apply Old3; [apply K; auto|exact N1|apply nth_lt in H0; lia].
Qed.

(** A frame that is not one is reported, at the position of the rule, and the
    rule stays as it was. *)
Theorem c65_refused : forall k fuel x n parent more c h m ps id b cid cb cvs bad rest frs,
  nth_error h n = Some c -> c_type c = AT_KEYWORD -> frames_name (c_str c) -> c_ch c = [id; b] ->
  nth_error h id = Some cid -> c_type cid = IDENTIFIER -> nth_error h b = Some cb -> c_type cb = OPEN_CURLYBRACKET -> c_ch cb = cvs ++ bad :: rest ->
  Forall2 (frame_ok k fuel h) cvs frs -> NoDup (cvs ++ flat_map frame_nodes frs) -> ~ In bad (flat_map frame_nodes frs) -> bad_frame h bad -> x_parents x = parent :: more ->
  exists h' text, run k (S (S (S fuel))) Compile x None n (mkK h m ps) = Ret None (mkK h' (m ++ [mkMsg LError (c_pos c) text]) ps)
    /\ nth_error h' n = Some c.
Proof.
  intros k fuel x n parent more c h m ps id b cid cb cvs bad rest frs H T Nm E Hid Tid Hb Tb Ec Fo Nd Nb Bad X.
  destruct (keyframes_good k fuel x n c h m ps cb cvs frs (bad :: rest) Fo Nd) as (h1 & ds & R & Hl & V & K & Al & Ko).
  assert (Hn1 : nth_error h1 n = Some c) by (apply Ko; [exact H| |]; congruence).
  set (p := c_pos c) in *. set (q := c_pos cb) in *.
  assert (G : exists h' text, frames_loop (run k (S fuel) Compile (push x n)) p q (length h) (bad :: rest) None (mkK h1 m ps) = Ret (false, None) (mkK h' (m ++ [mkMsg LError p text]) ps) /\ nth_error h' n = Some c).
  2:{ destruct G as (h' & text & G & Hn'). exists h', text. split; [|exact Hn']. rewrite (keyframes_start k fuel x n parent more c h m ps id b cid cb H T Nm E Hid Tid Hb Tb X). rewrite Ec. erewrite b_ret; [|fold p q; rewrite R; exact G]. reflexivity. }
  cbn [frames_loop]. match goal with |- exists h' text, bind _ ?f _ = _ /\ _ => set (cont := f) end.
  assert (Cont : forall (mm : C (option (addr * addr))) text, mm (mkK h1 m ps) = Ret None (mkK h1 (m ++ [mkMsg LError p text]) ps) -> exists h' t, bind mm cont (mkK h1 m ps) = Ret (false, None) (mkK h' (m ++ [mkMsg LError p t]) ps) /\ nth_error h' n = Some c).
  { intros mm text Em. exists h1, text. split; [erewrite b_ret; [|exact Em]; reflexivity|exact Hn1]. }
  destruct Bad as [cc B1 B2|cc B1 B2 B3|cc a b1 cb1 B1 B2 B3 B4 B5|cc a b1 cb1 B1 B2 B3 B4 B5 B6|cc a b1 cb1 i ci B1 B2 B3 B4 B5 B6 B7 B8 B9|cc a ca b1 cb1 i ci B1 B2 B3 B4 B5 B6 B7 B8 B9 B10]; pose proof (K _ _ Nb B1) as B1'.
  - eapply Cont. unfold frame_content. erewrite b_ret; [|eapply run_is; exact B1']. rewrite (proj2 (ntype_eqb_neq _ _) B2). reflexivity.
  - eapply Cont. unfold frame_content. erewrite b_ret; [|eapply run_is; exact B1']. rewrite B2. change (negb (ntype_eqb COMPONENT_VALUE COMPONENT_VALUE)) with false. cbv iota. erewrite b_ret; [|eapply run_size; [exact B1'|rewrite B2; reflexivity]].
    change (negb (ntype_eqb COMPONENT_VALUE COMPONENT_VALUE)) with false. cbv iota. replace (Z.of_nat (length (c_ch cc)) =? 2) with false by lia. reflexivity.
  - destruct (alike_type _ _ _ _ Al B4) as (cb1' & B4' & T4). eapply Cont. unfold frame_content. erewrite b_ret; [|eapply run_is; exact B1']. rewrite B2. change (negb (ntype_eqb COMPONENT_VALUE COMPONENT_VALUE)) with false. cbv iota. erewrite b_ret; [|eapply run_size; [exact B1'|rewrite B2; reflexivity]].
    rewrite B3. change (negb (Z.of_nat (length [a; b1]) =? 2)) with false. change (negb (ntype_eqb COMPONENT_VALUE COMPONENT_VALUE)) with false. cbv iota.
    erewrite b_ret; [|eapply run_child1; [exact B1'|rewrite B2; reflexivity|exact B3]]. erewrite b_ret; [|eapply run_is; exact B4']. rewrite T4, (proj2 (ntype_eqb_neq _ _) B5). reflexivity.
  - assert (B4' : nth_error h1 b1 = Some cb1) by (apply Ko; [exact B4| |]; congruence). eapply Cont. unfold frame_content. erewrite b_ret; [|eapply run_is; exact B1']. rewrite B2. change (negb (ntype_eqb COMPONENT_VALUE COMPONENT_VALUE)) with false. cbv iota. erewrite b_ret; [|eapply run_size; [exact B1'|rewrite B2; reflexivity]].
    rewrite B3. change (negb (Z.of_nat (length [a; b1]) =? 2)) with false. change (negb (ntype_eqb COMPONENT_VALUE COMPONENT_VALUE)) with false. cbv iota.
    erewrite b_ret; [|eapply run_child1; [exact B1'|rewrite B2; reflexivity|exact B3]]. erewrite b_ret; [|eapply run_is; exact B4']. rewrite B5. change (negb (ntype_eqb OPEN_CURLYBRACKET OPEN_CURLYBRACKET)) with false. cbv iota.
    erewrite b_ret; [|eapply run_size; [exact B4'|rewrite B5; reflexivity]]. replace (Z.of_nat (length (c_ch cb1)) =? 1) with false by lia. reflexivity.
  - assert (B4' : nth_error h1 b1 = Some cb1) by (apply Ko; [exact B4| |]; congruence). destruct (alike_type _ _ _ _ Al B7) as (ci' & B7' & T7).
    eapply Cont. unfold frame_content. erewrite b_ret; [|eapply run_is; exact B1']. rewrite B2. change (negb (ntype_eqb COMPONENT_VALUE COMPONENT_VALUE)) with false. cbv iota. erewrite b_ret; [|eapply run_size; [exact B1'|rewrite B2; reflexivity]].
    rewrite B3. change (negb (Z.of_nat (length [a; b1]) =? 2)) with false. change (negb (ntype_eqb COMPONENT_VALUE COMPONENT_VALUE)) with false. cbv iota.
    erewrite b_ret; [|eapply run_child1; [exact B1'|rewrite B2; reflexivity|exact B3]]. erewrite b_ret; [|eapply run_is; exact B4']. rewrite B5. change (negb (ntype_eqb OPEN_CURLYBRACKET OPEN_CURLYBRACKET)) with false. cbv iota.
    erewrite b_ret; [|eapply run_size; [exact B4'|rewrite B5; reflexivity]]. rewrite B6. change (negb (Z.of_nat (length [i]) =? 1)) with false. cbv iota.
    erewrite b_ret; [|eapply run_child0; [exact B4'|rewrite B5; reflexivity|exact B6]]. erewrite b_ret; [|eapply run_type; exact B7']. rewrite T7, (proj2 (ntype_eqb_neq _ _) B8), (proj2 (ntype_eqb_neq _ _) B9). reflexivity.
  - assert (B4' : nth_error h1 b1 = Some cb1) by (apply Ko; [exact B4| |]; congruence). destruct (alike_type _ _ _ _ Al B7) as (ci' & B7' & T7).
    destruct (alike_type _ _ _ _ Al B9) as (ca' & B9' & T9).
    assert (Fp : forall h2, nth_error h2 a = Some ca' -> exists text, frame_position p a (mkK h2 m ps) = Ret None (mkK h2 (m ++ [mkMsg LError p text]) ps)).
    { intros h2 H2. unfold frame_position. erewrite b_ret; [|eapply run_type; exact H2]. rewrite T9. destruct B10 as [(Q1 & Q2 & Q3)|[(Q1 & Q2)|(Q1 & Q2)]].
      - assert (ca' = ca) by (assert (nth_error h1 a = Some ca) by (apply Ko; [exact B9| |]; congruence); congruence). subst ca'. rewrite Q1. change (ntype_eqb IDENTIFIER IDENTIFIER) with true. cbv iota.
        erewrite b_ret; [|eapply run_string; [exact H2|rewrite Q1; reflexivity]]. rewrite (proj2 (str_eqb_neq _ _) Q2), (proj2 (str_eqb_neq _ _) Q3). eexists. reflexivity.
      - assert (ca' = ca) by (assert (nth_error h1 a = Some ca) by (apply Ko; [exact B9| |]; congruence); congruence). subst ca'. rewrite Q1. change (ntype_eqb PERCENT IDENTIFIER) with false. change (ntype_eqb PERCENT PERCENT) with true. cbv iota.
        erewrite b_ret with (x := c_dec ca) (s' := mkK h2 m ps). 2:{ unfold lift, get_decimal_number, NodeHeap.bind, load, supports. cbn [k_heap]. rewrite H2, Q1. reflexivity. }
        change (S754_zero false) with (f64_of_Z 0). change one_f64 with (f64_of_Z 1). replace (SFltb (c_dec ca) (f64_of_Z 0) || SFltb (f64_of_Z 1) (c_dec ca)) with true by (destruct Q2 as [-> | ->]; [reflexivity|now rewrite orb_true_r]). eexists. reflexivity.
      - rewrite (proj2 (ntype_eqb_neq _ _) Q1), (proj2 (ntype_eqb_neq _ _) Q2). eexists. reflexivity. }
    assert (Fc : exists h2 ct, frame_content p q bad (mkK h1 m ps) = Ret (Some (ct, a)) (mkK h2 m ps) /\ nth_error h2 a = Some ca' /\ nth_error h2 n = Some c).
    { unfold frame_content. erewrite b_ret; [|eapply run_is; exact B1']. rewrite B2. change (negb (ntype_eqb COMPONENT_VALUE COMPONENT_VALUE)) with false. cbv iota. erewrite b_ret; [|eapply run_size; [exact B1'|rewrite B2; reflexivity]].
      rewrite B3. change (negb (Z.of_nat (length [a; b1]) =? 2)) with false. change (negb (ntype_eqb COMPONENT_VALUE COMPONENT_VALUE)) with false. cbv iota.
      erewrite b_ret; [|eapply run_child1; [exact B1'|rewrite B2; reflexivity|exact B3]]. erewrite b_ret; [|eapply run_is; exact B4']. rewrite B5. change (negb (ntype_eqb OPEN_CURLYBRACKET OPEN_CURLYBRACKET)) with false. cbv iota.
      erewrite b_ret; [|eapply run_size; [exact B4'|rewrite B5; reflexivity]]. rewrite B6. change (negb (Z.of_nat (length [i]) =? 1)) with false. cbv iota.
      erewrite b_ret; [|eapply run_child0; [exact B4'|rewrite B5; reflexivity|exact B6]]. erewrite b_ret; [|eapply run_type; exact B7']. rewrite T7.
      destruct B8 as [Q|Q]; rewrite Q.
      - change (ntype_eqb LIST COMPONENT_VALUE) with false. change (ntype_eqb LIST LIST) with true. cbv iota. erewrite b_ret; [|eapply run_child0; [exact B1'|rewrite B2; reflexivity|exact B3]]. exists h1, i. auto.
      - change (ntype_eqb COMPONENT_VALUE COMPONENT_VALUE) with true. cbv iota. erewrite b_ret; [|apply run_new].
        erewrite b_ret; [|eapply run_add; [apply nth_mid|reflexivity|rewrite nth_error_app1 by (eapply nth_lt; eauto); exact B7'|congruence|congruence]]. cbn [c_ch blank app].
        set (h2 := put (h1 ++ [blank LIST q]) (length h1) (with_ch (blank LIST q) [i])).
        assert (K2 : forall b0 cb0, nth_error h1 b0 = Some cb0 -> nth_error h2 b0 = Some cb0). { intros b0 cb0 H0. pose proof (nth_lt _ _ _ H0). unfold h2. rewrite put_other by lia. rewrite nth_error_app1 by auto. exact H0. }
        erewrite b_ret; [|eapply run_child0; [apply K2; exact B1'|rewrite B2; reflexivity|exact B3]]. exists h2, (length h1). split; [reflexivity|]. split; apply K2; auto. }
    destruct Fc as (h2 & ct & Fc & Ha2 & Hn2). destruct (Fp h2 Ha2) as (text & Ft). exists h2, text. split; [|exact Hn2].
    rewrite (b_ret _ _ _ _ _ Fc). unfold cont. erewrite b_ret; [|exact Ft]. reflexivity.
Qed.

(** A frame without declarations is fine in CSS; here it is refused. *)
Definition fx_dec (t : ntype) (v : f64) : cell := mkCell t (mkPos 1 1 1) false 0 v [] [] [] [] [].
Definition fx_empty : heap := [ex_nd LIST "" [4]%nat; ex_nd IDENTIFIER "to" []; ex_nd OPEN_CURLYBRACKET "" []; ex_nd COMPONENT_VALUE "" [1; 2]%nat;
  ex_nd AT_KEYWORD "keyframes" [5; 6]%nat; ex_nd IDENTIFIER "a" []; ex_nd OPEN_CURLYBRACKET "" [3]%nat].
Theorem c65_empty_frame_refuted : forall k, exists h', run k 3 Compile (mkX 0%nat [0%nat] false) None 4%nat (mkK fx_empty [] []) = Ret None (mkK h' [mkMsg LError (mkPos 1 1 1) frames_expected] []).
Proof. intro k. eexists. vm_compute. reflexivity. Qed.

(** An example: [@keyframes move \{ from \{ margin: 1 + 2 auto, #fff !important \} 50% \{ color : red \} \}]. *)
Definition fx_h : heap := Example.h ++
  [ ex_nd IDENTIFIER "from" []; ex_nd OPEN_CURLYBRACKET "" [1]; ex_nd COMPONENT_VALUE "" [19; 20];
    fx_dec PERCENT (f64_div (f64_of_Z 1) (f64_of_Z 2)); ex_nd LIST "" [16]; ex_nd OPEN_CURLYBRACKET "" [23]; ex_nd COMPONENT_VALUE "" [22; 24];
    ex_nd IDENTIFIER "move" []; ex_nd OPEN_CURLYBRACKET "" [21; 25]; ex_nd AT_KEYWORD "keyframes" [26; 27] ]%nat.
Definition fx_frames : list frame :=
  [mkFrame (f64_of_Z 0) (mkPos 1 1 1) [] [1%nat] [Example.margin]; mkFrame (f64_div (f64_of_Z 1) (f64_of_Z 2)) (mkPos 1 1 1) [23%nat] [16%nat] [Example.color]].
Theorem c65_ex : exists h' d1 d2 k1 k2, run Example.none 23 Compile (mkX 0%nat [0%nat] false) None 28%nat (mkK fx_h [] []) = Ret None (mkK h' [] [])
  /\ nth_error h' 28%nat = Some (with_ch (ex_nd AT_KEYWORD "keyframes" [26; 27]%nat) [26%nat; d1; d2])
  /\ nth_error h' d1 = Some k1 /\ c_type k1 = FRAME /\ c_dec k1 = f64_of_Z 0 /\ length (c_ch k1) = 1%nat
  /\ nth_error h' d2 = Some k2 /\ c_type k2 = FRAME /\ c_dec k2 = f64_div (f64_of_Z 1) (f64_of_Z 2) /\ length (c_ch k2) = 1%nat.
Proof.
  assert (M : field_ok Example.none 20 fx_h 1%nat Example.margin) by (eapply field_alike; [apply alike_app|reflexivity|exact Example.margin_ok]).
  assert (K : field_ok Example.none 20 fx_h 16%nat Example.color) by (eapply field_alike; [apply alike_app|reflexivity|exact Example.color_ok]).
  assert (Fo : Forall2 (frame_ok Example.none 20 fx_h) [21; 25]%nat fx_frames).
  { constructor; [|constructor; [|constructor]].
    - exists (ex_nd COMPONENT_VALUE "" [19; 20]%nat), 19%nat, (ex_nd IDENTIFIER "from" []), 20%nat, (ex_nd OPEN_CURLYBRACKET "" [1]%nat), 1%nat. eexists. split; [reflexivity|]. split; [reflexivity|]. split; [reflexivity|]. split; [reflexivity|].
      split; [apply moment_from; reflexivity|]. split; [reflexivity|]. split; [reflexivity|]. split; [reflexivity|]. split; [reflexivity|]. split; [reflexivity|]. split; [right; split; [reflexivity|split; reflexivity]|]. split; [constructor; [exact M|constructor]|cbn; lia].
    - exists (ex_nd COMPONENT_VALUE "" [22; 24]%nat), 22%nat, (fx_dec PERCENT (f64_div (f64_of_Z 1) (f64_of_Z 2))), 24%nat, (ex_nd OPEN_CURLYBRACKET "" [23]%nat), 23%nat. eexists. split; [reflexivity|]. split; [reflexivity|]. split; [reflexivity|]. split; [reflexivity|].
      split; [apply (moment_percent (fx_dec PERCENT (f64_div (f64_of_Z 1) (f64_of_Z 2)))); [reflexivity|vm_compute; reflexivity|vm_compute; reflexivity]|]. split; [reflexivity|]. split; [reflexivity|]. split; [reflexivity|]. split; [reflexivity|]. split; [reflexivity|]. split; [left; split; [reflexivity|split; reflexivity]|]. split; [constructor; [exact K|constructor]|cbn; lia]. }
  destruct (c65_keyframes Example.none 20 (mkX 0%nat [0%nat] false) 28%nat 0%nat [] (ex_nd AT_KEYWORD "keyframes" [26; 27]%nat) fx_h [] [] 26%nat 27%nat (ex_nd IDENTIFIER "move" []) (ex_nd OPEN_CURLYBRACKET "" [21; 25]%nat) [21; 25]%nat fx_frames
     eq_refl eq_refl (or_introl eq_refl) eq_refl eq_refl eq_refl eq_refl eq_refl eq_refl Fo ltac:(repeat constructor; cbn; lia) eq_refl) as (h' & ds & R & Hn & V & _).
  inversion V as [|? d1 ? ? (e1 & H1 & V1) V']; subst. inversion V' as [|? d2 ? ? (e2 & H2 & V2) V'']; subst. inversion V''; subst.
  exists h', d1, d2. eexists _, _. split; [exact R|]. split; [exact Hn|]. split; [exact H1|]. split; [reflexivity|]. split; [reflexivity|]. split; [inversion V1 as [|? ? ? ? _ V1']; subst; inversion V1'; reflexivity|].
  split; [exact H2|]. split; [reflexivity|]. split; [reflexivity|]. inversion V2 as [|? ? ? ? _ V2']; subst; inversion V2'; reflexivity.
Qed.
