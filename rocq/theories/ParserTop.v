(** * Proofs about the entry points of the parser *)

From Coq Require Import String ZArith List Bool Lia Arith.
From Coq Require Import Floats.SpecFloat.
From Verif Require Import Base Parser ParseSpec ParserProofs.
Import ListNotations.
Open Scope string_scope. Open Scope list_scope. Open Scope nat_scope.

(** A tree built without error from the tokens eaten. *)
Definition built (r : node) (e : list node) (w : list msg) : Prop :=
  w = [] -> n_type r <> EOF_TOKEN -> tokens_of r = sig e /\ tree_ok r = true.

Lemma is_eq n t : n_type n = t -> is n t = true.
Proof. intros <-. apply ntype_eqb_refl. Qed.
Lemma is_ne n t : n_type n <> t -> is n t = false.
Proof. apply ntype_eqb_neq. Qed.

Lemma cvl_run f fl s : 3 * toks s + 1 <= f -> good_toks s ->
  runs (component_value_list f fl) s (fun r e w s' => group r
    /\ (stops fl (n_type (head s)) = false -> toks s' < toks s) /\ built r e w).
Proof.
  intros F G. unfold component_value_list. apply runs_bind, runs_last.
  destruct (parser_specs f) as (IC & _). eapply runs_weaken; [apply IC; auto|].
  intros r e w s' _ (A & B & C & D). cbn [flat_map app] in *. split; [exact A|split; [exact B|]].
  intros W _. split; auto.
Qed.

Lemma qualified_run f s : 3 * toks s + 1 <= f -> good_toks s ->
  runs (qualified_rule f) s (fun r e w s' =>
    (stops (mkFlags false true) (n_type (head s)) = false -> toks s' < toks s)
    /\ built r e w
    /\ (w = [] -> n_type r = EOF_TOKEN -> e = [] /\ s' = s /\ n_type (head s) = EOF_TOKEN)).
Proof.
  intros F G. unfold qualified_rule. apply runs_bind, runs_last.
  destruct (is (head s) EOF_TOKEN) eqn:EE.
  { apply is_true in EE. apply runs_ret. split; [rewrite EE; discriminate|]. split; [intros _ X; contradiction|auto]. }
  destruct (is (head s) SEMICOLON) eqn:ES.
  { apply is_true in ES. assert (N : ps_toks s <> []) by (apply head_eof; rewrite ES; discriminate).
    destruct (toks_head s N) as [r E]. apply runs_bind, (runs_next s _ r E). apply runs_bind, runs_report. apply runs_ret.
    split; [|split; [intros W; discriminate W|intros W; discriminate W]].
    intros _. pose proof (toks_tail s N). cbn in *. rewrite E in *. cbn in *. lia. }
  apply is_false in EE. apply runs_bind. eapply runs_weaken; [apply cvl_run; auto|].
  intros r e w s' Te (Gr & Pr & Br).
  assert (Nr : n_type r <> EOF_TOKEN) by (destruct Gr as [X|X]; rewrite X; discriminate).
  pose proof (lastn_spec (n_ch r)) as LS. destruct (lastn (n_ch r)) as [x|].
  - destruct (is_variable_set_some (n_ch r) false) as [v Ev]. apply runs_bind, (runs_lift _ _ _ v Ev). apply runs_bind.
    destruct (v || is x OPEN_CURLYBRACKET).
    + apply runs_ret. apply runs_ret. cbn [app]. rewrite ?app_nil_r. split; [exact Pr|]. split; [exact Br|]. intros _ X. contradiction.
    + apply runs_report. apply runs_ret. cbn [app]. rewrite ?app_nil_r. split; [exact Pr|].
      split; [intros W; now apply app_eq_nil in W|]. intros _ X. contradiction.
  - apply runs_bind, runs_report. apply runs_ret. cbn [app]. rewrite ?app_nil_r. split; [exact Pr|].
    split; [intros W; now apply app_eq_nil in W|]. intros _ X. contradiction.
Qed.

Lemma at_run f s : 3 * toks s - 1 <= f -> good_toks s -> n_type (head s) = AT_KEYWORD ->
  runs (at_rule f (head s)) s (fun r e w s' => n_type r = AT_KEYWORD /\ toks s' < toks s /\ built r e w).
Proof.
  intros F G T. destruct (parser_specs f) as (_ & IA & _).
  assert (N : ps_toks s <> []) by (apply head_eof; rewrite T; discriminate).
  eapply runs_weaken; [apply IA; auto|]. intros r e w s' _ (A & B & C & D). rewrite T in A. repeat split; auto.
Qed.

Definition loop_post (acc : list node) (r : list node) (e : list node) (w : list msg) (s' : pstate) : Prop :=
  w = [] -> flats r = flats acc ++ sig e /\ (oks acc = true -> oks r = true).

Lemma tree_token t : token t -> closes (n_type t) = None -> closing (n_type t) = false -> n_type t <> WHITESPACE ->
  n_type t <> EXCLAMATION -> n_type t <> AT_KEYWORD -> tokens_of t = [view t] /\ tree_ok t = true.
Proof.
  intros (K1 & K2 & K3 & K4) C D A B E. destruct t as [t p b i d st lo ch]. cbn in *. subst ch.
  destruct t; cbn in *; try discriminate; try contradiction; auto.
Qed.

Lemma stylesheet_run f : forall acc s, 3 * toks s + 2 <= f -> good_toks s ->
  runs (stylesheet_loop f acc) s (fun r e w s' => loop_post acc r e w s' /\ (w = [] -> n_type (head s') = EOF_TOKEN)).
Proof.
  induction f as [|f IH]; intros acc s F G; [lia|]. cbn [stylesheet_loop]. apply runs_bind, runs_last. cbn [app].
  destruct (is (head s) EOF_TOKEN) eqn:EE.
  { apply is_true in EE. apply runs_ret. split; auto. intros _. cbn. rewrite app_nil_r. auto. }
  apply is_false in EE. assert (N : ps_toks s <> []) by now apply head_eof.
  destruct (toks_head s N) as [r E].
  assert (Lt : toks (tail s) < toks s) by (pose proof (toks_tail s N); cbn in *; rewrite E in *; cbn in *; lia).
  assert (Next : forall acc' e1 w1 s1, ps_toks s = e1 ++ ps_toks s1 -> toks s1 < toks s ->
     (w1 = [] -> flats acc' = flats acc ++ sig e1 /\ (oks acc = true -> oks acc' = true)) ->
     runs (stylesheet_loop f acc') s1 (fun r e2 w2 s' => loop_post acc r (e1 ++ e2) (w1 ++ w2) s' /\ (w1 ++ w2 = [] -> n_type (head s') = EOF_TOKEN))).
  { intros acc' e1 w1 s1 T1 L1 K1. eapply runs_weaken; [apply IH; [cbn in *; lia|eapply good_suffix; eauto]|].
    intros r2 e2 w2 s2 _ (A & B). split.
    - intro W. apply app_eq_nil in W. destruct W as [W1 W2]. destruct (K1 W1) as [K2 K3]. destruct (A W2) as [A1 A2].
      rewrite A1, K2, sig_app, app_assoc. split; auto.
    - intro W. apply app_eq_nil in W. apply B, W. }
  destruct (is (head s) CDO || is (head s) CDC || is_ws (head s)) eqn:ES.
  { apply runs_bind, (runs_next s _ r E). apply (Next acc [head s] [] (tail s)); auto.
    - cbn. now rewrite E.
    - intros _. split; auto. assert (I : insignificant (n_type (head s)) = true).
      { apply orb_true_iff in ES. destruct ES as [ES|ES]; [apply orb_true_iff in ES; destruct ES as [ES|ES]|]; apply is_true in ES; rewrite ES; reflexivity. }
      cbn. rewrite I. cbn. now rewrite app_nil_r. }
  apply orb_false_iff in ES. destruct ES as [ES E3]. apply orb_false_iff in ES. destruct ES as [E1 E2].
  apply is_false in E1, E2, E3.
  destruct (closer (n_type (head s))) eqn:EC.
  { apply runs_bind, runs_report. apply runs_ret. split; [intro W|intro W]; discriminate W. }
  destruct (is (head s) COMMENT) eqn:ECm.
  { apply is_true in ECm. apply runs_bind, (runs_next s _ r E). apply (Next _ [head s] [] (tail s)); auto.
    - cbn. now rewrite E.
    - intros _. destruct (tree_token (head s) (good_head s G N)) as [A B]; try (rewrite ECm; try reflexivity; discriminate).
      rewrite flats_add by (rewrite ECm; discriminate). split; [|intro O; now apply oks_add].
      rewrite A. cbn. rewrite ECm. reflexivity. }
  destruct (is (head s) AT_KEYWORD) eqn:EA.
  { apply is_true in EA. apply runs_bind. eapply runs_weaken; [apply at_run; auto; cbn in *; lia|].
    intros a e1 w1 s1 T1 (A & B & C). apply (Next (add_ch acc a) e1 w1 s1); auto.
    assert (Na : n_type a <> EOF_TOKEN) by (rewrite A; discriminate).
    intro W. destruct (C W Na) as [C1 C2]. rewrite flats_add by auto. rewrite C1. split; auto. intro O. now apply oks_add. }
  apply runs_bind. eapply runs_weaken; [apply qualified_run; auto; cbn in *; lia|].
  intros q e1 w1 s1 T1 (A & B & C).
  assert (St : stops (mkFlags false true) (n_type (head s)) = false).
  { destruct (n_type (head s)); try reflexivity; try discriminate; contradiction. }
  apply (Next (add_ch acc q) e1 w1 s1); auto. intro W.
  destruct (ntype_eq_dec (n_type q) EOF_TOKEN) as [D|D].
  - destruct (C W D) as (_ & _ & X). contradiction.
  - destruct (B W D) as [B1 B2]. rewrite flats_add by auto. rewrite B1. split; auto. intro O. now apply oks_add.
Qed.

Lemma rule_run f s : 3 * toks s + 1 <= f -> good_toks s -> n_type (head s) <> EOF_TOKEN ->
  runs (rule f) s (fun r e w s' => (n_type r = EOF_TOKEN \/ toks s' < toks s) /\ built r e w
    /\ (w = [] -> n_type r = EOF_TOKEN -> sig e = [] /\ n_type (head s') = EOF_TOKEN)).
Proof.
  intros F G NE. unfold rule. apply runs_bind, runs_last. cbn [app].
  destruct (is (head s) CDO || is (head s) CDC) eqn:E1.
  { apply runs_bind, runs_report. apply runs_ret. split; [auto|split; [intro W; discriminate W|intro W; discriminate W]]. }
  destruct (closer (n_type (head s))) eqn:EC.
  { apply runs_bind, runs_report. apply runs_ret. split; [auto|split; [intro W; discriminate W|intro W; discriminate W]]. }
  apply orb_false_iff in E1. destruct E1 as [E1 E2]. apply is_false in E1, E2.
  assert (N : ps_toks s <> []) by now apply head_eof. destruct (toks_head s N) as [r E].
  assert (Go : forall s0 e0, ps_toks s = e0 ++ ps_toks s0 -> sig e0 = [] -> (e0 <> [] \/ s0 = s) ->
    runs (if is (head s0) AT_KEYWORD then at_rule f (head s0) else qualified_rule f) s0
     (fun r e w s' => (n_type r = EOF_TOKEN \/ toks s' < toks s) /\ built r (e0 ++ e) w
    /\ (w = [] -> n_type r = EOF_TOKEN -> sig (e0 ++ e) = [] /\ n_type (head s') = EOF_TOKEN))).
  { intros s0 e0 T0 S0 P0. assert (G0 : good_toks s0) by (eapply good_suffix; eauto).
    assert (L0 : toks s0 <= toks s) by (apply toks_app in T0; cbn in *; lia).
    destruct (is (head s0) AT_KEYWORD) eqn:EA.
    - apply is_true in EA. eapply runs_weaken; [apply at_run; auto; cbn in *; lia|].
      intros a e1 w1 s1 T1 (A & B & C). split; [right; cbn in *; lia|]. split.
      + intros W X. rewrite sig_app, S0. apply C; auto.
      + intros W X. congruence.
    - apply is_false in EA. eapply runs_weaken; [apply qualified_run; auto; cbn in *; lia|].
      intros q e1 w1 s1 T1 (A & B & C). split; [|split].
      + right. destruct P0 as [P0| ->].
        * apply toks_app in T1. apply toks_app in T0. destruct e0; [contradiction|]. cbn in *. lia.
        * apply A. destruct (n_type (head s)); try reflexivity; try discriminate; contradiction.
      + intros W X. rewrite sig_app, S0. apply B; auto.
      + intros W X. destruct (C W X) as (-> & -> & Y). rewrite app_nil_r. auto. }
  destruct (is_ws (head s)) eqn:EW.
  - apply runs_bind, (runs_next s _ r E). eapply runs_weaken; [apply (Go (tail s) [head s])|].
    + cbn. now rewrite E.
    + apply is_true in EW. cbn. rewrite EW. reflexivity.
    + left. discriminate.
    + intros q e1 w1 s1 T1 (A & B & C). auto.
  - apply runs_bind, runs_ret. apply (Go s []); auto.
Qed.

Lemma rule_list_run f : forall acc s, 3 * toks s + 2 <= f -> good_toks s ->
  runs (rule_list_loop f acc) s (fun r e w s' => loop_post acc r e w s' /\ (w = [] -> n_type (head s') = EOF_TOKEN)).
Proof.
  induction f as [|f IH]; intros acc s F G; [lia|]. cbn [rule_list_loop]. apply runs_bind, runs_last. cbn [app].
  destruct (is (head s) EOF_TOKEN) eqn:EE.
  { apply is_true in EE. apply runs_ret. split; auto. intros _. cbn. rewrite app_nil_r. auto. }
  apply is_false in EE. apply runs_bind. eapply runs_weaken; [apply rule_run; auto; cbn in *; lia|].
  intros q e1 w1 s1 T1 (A & B & C). destruct (is q EOF_TOKEN) eqn:EQ.
  - assert (Aq : add_ch acc q = acc) by (unfold add_ch; now rewrite EQ). rewrite Aq. apply is_true in EQ. apply runs_ret. rewrite !app_nil_r. split.
    + intros W. destruct (C W EQ) as [-> _]. rewrite app_nil_r. auto.
    + intros W. now apply C.
  - apply is_false in EQ. assert (L1 : toks s1 < toks s) by (destruct A as [A|A]; [contradiction|exact A]).
    eapply runs_weaken; [apply IH; [cbn in *; lia|eapply good_suffix; eauto]|].
    intros r2 e2 w2 s2 _ (A2 & B2). split.
    + intro W. apply app_eq_nil in W. destruct W as [W1 W2]. destruct (B W1 EQ) as [K2 K3]. destruct (A2 W2) as [A3 A4].
      rewrite A3, flats_add by auto. rewrite K2, sig_app, app_assoc. split; auto. intro O. now apply A4, oks_add.
    + intro W. apply app_eq_nil in W. apply B2, W.
Qed.

Lemma decl_run f s : 3 * toks s + 1 <= f -> good_toks s -> n_type (head s) = IDENTIFIER ->
  runs (declaration f (head s)) s (fun r e w s' => n_type r = DECLARATION /\ toks s' < toks s /\ built r e w).
Proof.
  intros F G T. unfold declaration.
  assert (N : ps_toks s <> []) by (apply head_eof; rewrite T; discriminate).
  destruct (toks_head s N) as [r E]. assert (Lt : toks (tail s) < toks s) by (pose proof (toks_tail s N); cbn in *; rewrite E in *; cbn in *; lia).
  apply runs_bind, (runs_next s _ r E). apply runs_bind, runs_skip_space. intros e0 s0 T0 S0 _ _.
  assert (G0 : good_toks s0) by (eapply good_suffix; [apply good_tail; exact G|exact T0]).
  assert (L0 : toks s0 <= toks (tail s)) by (apply toks_app in T0; cbn in *; lia).
  assert (Go : forall s1 e1 w1, ps_toks s0 = e1 ++ ps_toks s1 -> (w1 = [] -> sig e1 = [bare COLON]) ->
    runs (c <- component_value_list f (mkFlags true false) ;;
      ret (set_ch (set_str (mk DECLARATION (n_pos (head s))) (n_str (head s))) [c])) s1
     (fun r e w s' => n_type r = DECLARATION /\ toks s' < toks s /\ built r ([head s] ++ e0 ++ e1 ++ e) (w1 ++ w))).
  { intros s1 e1 w1 T1 K1. assert (L1 : toks s1 <= toks s0) by (apply toks_app in T1; cbn in *; lia).
    apply runs_bind. eapply runs_weaken; [apply cvl_run; [cbn in *; lia|eapply good_suffix; eauto]|].
    intros c e2 w2 s2 T2 (A & B & C). apply runs_ret. rewrite !app_nil_r. split; [reflexivity|]. split.
    { apply toks_app in T2. cbn in *. lia. }
    intros W _. apply app_eq_nil in W. destruct W as [W1 W2].
    destruct (C W2) as [C1 C2]; [destruct A as [A|A]; rewrite A; discriminate|].
    split; [|cbn; now rewrite C2]. cbn [tokens_of set_ch set_str mk n_type n_str n_ch flat_map].
    rewrite !sig_app, S0, (K1 W1), C1, app_nil_r. cbn [app].
    cbn [significant_tokens flat_map]. rewrite T. cbn [insignificant]. unfold view. rewrite T. reflexivity. }
  apply runs_bind. destruct (is (head s0) COLON) eqn:EC.
  - apply is_true in EC. assert (N0 : ps_toks s0 <> []) by (apply head_eof; rewrite EC; discriminate).
    destruct (toks_head s0 N0) as [r0 E0]. apply runs_bind, (runs_next s0 _ r0 E0). apply runs_ret.
    apply (Go (tail s0) [head s0] []); [cbn; now rewrite E0|]. intros _. cbn. rewrite EC. cbn. unfold view. rewrite EC. reflexivity.
  - apply runs_report. cbn [app]. match goal with |- runs _ _ (fun r e w s' => _ /\ _ /\ built r _ (?m :: w)) => apply (Go _ [] [m]) end; [reflexivity|discriminate].
Qed.

Lemma decl_list_run f : forall acc s, 3 * toks s + 2 <= f -> good_toks s ->
  runs (declaration_loop f acc) s (fun r e w s' => loop_post acc r e w s').
Proof.
  induction f as [|f IH]; intros acc s F G; [lia|]. cbn [declaration_loop]. apply runs_bind, runs_skip_space.
  intros e0 s0 T0 S0 _ _. cbn [app].
  assert (G0 : good_toks s0) by (eapply good_suffix; eauto).
  assert (L0 : toks s0 <= toks s) by (apply toks_app in T0; cbn in *; lia).
  assert (Next : forall acc' e1 w1 s1, ps_toks s0 = e1 ++ ps_toks s1 -> toks s1 < toks s0 ->
     (w1 = [] -> flats acc' = flats acc ++ sig e1 /\ (oks acc = true -> oks acc' = true)) ->
     runs (declaration_loop f acc') s1 (fun r e2 w2 s' => loop_post acc r (e0 ++ e1 ++ e2) (w1 ++ w2) s')).
  { intros acc' e1 w1 s1 T1 L1 K1. eapply runs_weaken; [apply IH; [cbn in *; lia|eapply good_suffix; eauto]|].
    intros r2 e2 w2 s2 _ A. intro W. apply app_eq_nil in W. destruct W as [W1 W2]. destruct (K1 W1) as [K2 K3]. destruct (A W2) as [A1 A2].
    rewrite A1, K2, !sig_app, S0, <- app_assoc. split; [reflexivity|auto]. }
  destruct (is (head s0) IDENTIFIER) eqn:EI.
  { apply is_true in EI. apply runs_bind. eapply runs_weaken; [apply decl_run; auto; cbn in *; lia|].
    intros d e1 w1 s1 T1 (A & B & C). apply runs_bind, runs_last. cbn [app].
    assert (Nd : n_type d <> EOF_TOKEN) by (rewrite A; discriminate).
    assert (G1 : good_toks s1) by (eapply good_suffix; eauto).
    assert (K : w1 = [] -> flats (add_ch acc d) = flats acc ++ sig e1 /\ (oks acc = true -> oks (add_ch acc d) = true)).
    { intro W. destruct (C W Nd) as [C1 C2]. rewrite flats_add by auto. rewrite C1. split; auto. intro O. now apply oks_add. }
    destruct (is (head s1) SEMICOLON) eqn:ES.
    - apply is_true in ES. assert (N1 : ps_toks s1 <> []) by (apply head_eof; rewrite ES; discriminate).
      destruct (toks_head s1 N1) as [r1 E1]. apply runs_bind, (runs_next s1 _ r1 E1).
      assert (L1 : toks (tail s1) < toks s1) by (pose proof (toks_tail s1 N1); cbn in *; rewrite E1 in *; cbn in *; lia).
      eapply runs_weaken; [apply (Next (add_ch acc d) (e1 ++ [head s1]) w1 (tail s1))|].
      + rewrite T1, <- app_assoc. cbn. now rewrite E1.
      + cbn in *. lia.
      + intro W. destruct (K W) as [K1 K2]. split; auto. rewrite sig_app, K1. cbn. rewrite ES. cbn. now rewrite app_nil_r.
      + intros r2 e2 w2 s2 _ H W. cbn [app] in *. specialize (H W). change (head s1 :: e2) with ([head s1] ++ e2). rewrite !sig_app in H |- *. rewrite <- ?app_assoc in *. exact H.
    - apply runs_bind, runs_skip_space. intros e2 s2 T2 S2 _ _. apply runs_ret. rewrite !app_nil_r.
      intro W. cbn [app] in W. rewrite ?app_nil_r in W. destruct (K W) as [K1 K2]. rewrite !sig_app, S0, S2, app_nil_r. auto. }
  destruct (is (head s0) AT_KEYWORD) eqn:EA.
  { apply is_true in EA. apply runs_bind. eapply runs_weaken; [apply at_run; auto; cbn in *; lia|].
    intros a e1 w1 s1 T1 (A & B & C). apply (Next (add_ch acc a) e1 w1 s1); auto.
    assert (Na : n_type a <> EOF_TOKEN) by (rewrite A; discriminate).
    intro W. destruct (C W Na) as [C1 C2]. rewrite flats_add by auto. rewrite C1. split; auto. intro O. now apply oks_add. }
  apply runs_ret. rewrite app_nil_r. intros _. rewrite S0, app_nil_r. auto.
Qed.
