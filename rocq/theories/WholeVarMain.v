(** * A script with variables, through the whole program *)

From Coq Require Import String ZArith List Bool Lia Arith ZifyBool Floats.SpecFloat.
From Verif Require Import Base NodeHeap NodeProofs.
From Verif Require Lexer Parser Assembler Functions DecText.
From Verif Require Import Compiler Compile CompRun Pipeline.
From Verif Require WholeLex WholePieces WholeParse WholeOut.
From Verif Require Import Trees WholeSpec LaySpec VarSpec StyleSpec WholeShape WholeTree WholeRule WholeAfter WholeMain WholeVars WholeRoot WholeEnv.
Import ListNotations.
Open Scope string_scope. Open Scope list_scope. Open Scope Z_scope.
Ltac Zify.zify_post_hook ::= idtac.

Definition clean (h : heap) : Prop := forall a c, nth_error h a = Some c -> c_vars c = [].
Lemma clean_app h c : clean h -> c_vars c = [] -> clean (h ++ [c]).
Proof.
  intros H V a k Ha. destruct (le_lt_dec (length h) a) as [L|L].
  - rewrite nth_error_app2 in Ha by exact L. destruct (a - length h)%nat as [|[|j]]; cbn in Ha; [now injection Ha as <-|discriminate|discriminate].
  - rewrite nth_error_app1 in Ha by exact L. eauto.
Qed.
Lemma plant_clean n : forall h, clean h -> clean (snd (plant n h)).
Proof.
  induction n as [t p b i d s w l IH] using node_ind'. intros h H. rewrite plant_eq. cbn [n_ch].
  assert (Q : clean (snd (plant_all l h))).
  { clear - IH H. revert h H. induction IH as [|n l Hn F IHl]; intros h H; [exact H|]. cbn [plant_all]. specialize (Hn h H). destruct (plant n h) as (a & h1). cbn [snd] in Hn. specialize (IHl h1 Hn). destruct (plant_all l h1). exact IHl. }
  destruct (plant_all l h) as (bs & h1). cbn [snd] in *. apply clean_app; [exact Q|reflexivity].
Qed.
Lemma rebool_clean h h' : rebool h h' -> clean h -> clean h'.
Proof.
  intros (L & R) H a c Ha. destruct (nth_error h a) as [k|] eqn:E; [|apply nth_error_None in E; apply nth_lt in Ha; lia]. destruct (R _ _ E) as (b & Hb). rewrite Hb in Ha. injection Ha as <-. cbn. eauto.
Qed.
Lemma agrees_nothing : agrees nothing unset. Proof. split; [reflexivity|discriminate]. Qed.

Lemma script_passes o fn fuel h m ps T l l' : styles l' <> [] -> Forall statement_ok l -> resolve unset l = Some l' -> Forall (fun r => Forall (fun d => o_slash o (d_name d) = false) (r_decls r)) (styles l') ->
  holds h T -> clean h -> script_shape l (tree_shape T) -> NoDup (nodes T) -> Z.of_nat (total l) < 2 ^ 60 -> Z.of_nat (total l') < 2 ^ 60 -> (8 * (total l + total l') + 12 <= fuel)%nat ->
  exists h' T', passes (rules_of o fn) fuel (mkX (top T) [] false) (mkK h m ps) = Ret None (mkK h' m ps) /\ holds h' T' /\ tree_shape T' = done_sheet (styles l') /\ top T' = top T.
Proof.
  intros Ne Ok Er Sl H Cl (ss & Hs & E) Nd Z1 Z2 Lf. change (2 ^ 60) with 1152921504606846976 in Z1, Z2.
  destruct (script_steps (pred fuel) l nothing unset l' ss agrees_nothing Ok Er Hs ltac:(lia)) as (Ok' & Okr & out & St & Ho). destruct (script_total l ss Ok Hs) as (S1 & S2).
  assert (Nss : ss <> []) by (intros ->; inversion St; subst; inversion Ho; congruence).
  assert (T2 : (length (sheet_text (styles l')) <= total l')%nat).
  { clear. induction l' as [|[w g|r] l' IH]; [cbn; lia| |]; rewrite total_cons; cbn [styles]; [lia|]. unfold sheet_text in *. cbn [flat_map]. rewrite app_length. unfold statement_size. cbn [statement_text]. lia. }
  assert (Sh : sheet_shape (styles l') (inner LIST out)) by (exists out; auto).
  pose proof (sheet_size _ _ Okr Sh) as S3. pose proof (done_sheet_size _ Okr) as S4.
  assert (Mi : mild (tree_shape T)) by (rewrite E; unfold inner; apply mild_box; [reflexivity|exact Nss|eapply steps_mild; exact St]).
  unfold passes. cbn [x_root].
  destruct (mark_run (tree_shape T) Mi ltac:(rewrite E; change (2 ^ 64) with 18446744073709551616; lia) fuel ltac:(rewrite E; lia) T h m ps) as (h1 & E1 & R1); [reflexivity|exact H|].
  rewrite (b_ret _ _ _ _ _ E1). destruct (holds_rebool h h1 T R1 H) as (T1 & H1 & Sh1 & N1 & Tp1). rewrite <- Tp1.
  destruct fuel as [|fuel]; [lia|]. cbn [pred] in St.
  destruct (root_run (r_world (rules_of o fn)) fuel h1 m ps T1 _ ss out false St ltac:(rewrite Sh1; exact E) Nss (rebool_clean _ _ R1 Cl) eq_refl H1 ltac:(rewrite N1; exact Nd) ltac:(lia)) as (h2 & Tv & E2 & H2 & Sh2 & N2 & Tp2).
  erewrite b_ret; [|exact E2]. rewrite <- Tp2.
  destruct (sheet_compiles o (rules_of o fn) (mkX (top Tv) [] false) (S fuel) h2 m ps Tv (styles l') eq_refl H2 ltac:(rewrite Sh2; exact Sh) Okr Sl N2 ltac:(rewrite Sh2; lia) ltac:(rewrite Sh2; lia)) as (h3 & T3 & E3 & H3 & Sh3 & Tp3).
  rewrite (b_ret _ _ _ _ _ E3). rewrite <- Tp3.
  erewrite b_ret; [|eapply done_sheet_remove; [exact H3|exact Sh3|exact Okr|lia|lia]].
  erewrite b_ret; [|eapply done_sheet_expand; [exact H3|exact Sh3|exact Okr|lia]].
  exists h3, T3. split; [reflexivity|]. split; [exact H3|]. split; [exact Sh3|reflexivity].
Qed.
Theorem script_same o l l' t m fuel : styles l' <> [] -> Forall statement_ok l -> resolve unset l = Some l' -> Forall (fun r => Forall (fun d => o_slash o (d_name d) = false) (r_decls r)) (styles l') -> script_laid l t ->
  Z.of_nat (length (script_text l)) < 2 ^ 60 -> Z.of_nat (length (script_text l')) < 2 ^ 60 -> (8 * (length (script_text l) + length (script_text l')) + 12 <= fuel)%nat ->
  translate o fuel m t = Ret (Some (sheet_styled m (styles l'))) [].
Proof.
  intros Ne Ok Er Sl La Z1 Z2 Lf. assert (Nl : l <> []) by (intros ->; injection Er as <-; now apply Ne).
  destruct (script_read o l t Nl Ok La) as (n & T & E & Tp & H & Sh & Nd). unfold translate. rewrite E. cbn [has_error existsb].
  assert (Cl : clean (snd (plant n []))) by (apply plant_clean; intros a c Ha; destruct a; discriminate).
  destruct (script_passes o (functions_of o default_paths fuel) fuel _ [] default_paths T l l' Ne Ok Er Sl H Cl Sh Nd Z1 Z2 Lf) as (h' & T' & E2 & H2 & Sh2 & Tp2). rewrite E2. cbn [k_msgs k_heap has_error existsb]. rewrite <- Tp2.
  assert (Okr : Forall rule_ok (styles l')).
  { destruct Sh as (ss & Hs & _). destruct (script_steps (S (8 * total l + 4 * total l')) l nothing unset l' ss agrees_nothing Ok Er Hs ltac:(lia)) as (_ & Q & _). exact Q. }
  assert (T2 : (length (sheet_text (styles l')) <= total l')%nat).
  { clear. induction l' as [|[w g|r] l' IH]; [cbn; lia| |]; rewrite total_cons; cbn [styles]; [lia|]. unfold sheet_text in *. cbn [flat_map]. rewrite app_length. unfold statement_size. cbn [statement_text]. lia. }
  pose proof (done_sheet_size _ Okr) as S4. unfold total in T2.
  destruct (WholeOut.sheet_out h' (o_libm o) (Functions.f_precision (o_env o)) m T' fuel (styles l') Okr H2 Sh2 ltac:(lia) (Assembler.mkO [] false [])) as (b & E3). rewrite E3. reflexivity.
Qed.
