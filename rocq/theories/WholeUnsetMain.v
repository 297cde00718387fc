(** * A script where a variable is not set, through the whole program *)

From Coq Require Import String ZArith List Bool Lia Arith ZifyBool Floats.SpecFloat.
From Verif Require Import Base NodeHeap NodeProofs.
From Verif Require Lexer Parser Assembler Functions.
From Verif Require MessagesParser MessagesCompiler MessagesCompile MessagesPipeline.
From Verif Require Import Compiler Compile CompRun Pipeline.
From Verif Require Import Trees WholeSpec LaySpec VarSpec WholeShape WholeTree WholeMain WholeVars WholeRoot WholeEnv WholeVarMain WholeUnset.
Import ListNotations.
Open Scope string_scope. Open Scope list_scope. Open Scope Z_scope.
Ltac Zify.zify_post_hook ::= idtac.

Lemma unset_passes l h m ps T : Forall statement_ok l -> resolve unset l = None -> holds h T -> clean h -> script_shape l (tree_shape T) -> NoDup (nodes T) -> Z.of_nat (total l) < 2 ^ 60 ->
  exists n, forall o fn fuel, (forall x, MessagesExpr.fn_adds (fn x)) -> (n <= fuel)%nat -> stops (passes (rules_of o fn) fuel (mkX (top T) [] false) (mkK h m ps)).
Proof.
  intros Ok Er H Cl (ss & Hs & E) Nd Z1. change (2 ^ 60) with 1152921504606846976 in Z1. destruct (script_gives l nothing unset ss agrees_nothing Ok Er Hs) as (F & G).
  destruct (script_total l ss Ok Hs) as (S1 & S2). exists (S (Nat.max F (4 * total l + 12))). intros o fn fuel Fa Lf.
  assert (Nss : ss <> []) by (intros ->; inversion G).
  assert (Mi : mild (tree_shape T)) by (rewrite E; unfold inner; apply mild_box; [reflexivity|exact Nss|eapply script_mild; eassumption]).
  unfold passes. cbn [x_root].
  destruct (mark_run (tree_shape T) Mi ltac:(rewrite E; change (2 ^ 64) with 18446744073709551616; lia) fuel ltac:(rewrite E; lia) T h m ps) as (h1 & E1 & R1); [reflexivity|exact H|].
  rewrite (b_ret _ _ _ _ _ E1). destruct (holds_rebool h h1 T R1 H) as (T1 & H1 & Sh1 & N1 & Tp1). rewrite <- Tp1.
  destruct fuel as [|fuel]; [lia|]. assert (W : MessagesCompiler.world_adds (r_world (rules_of o fn))) by now apply MessagesPipeline.world_of_adds.
  apply stops_left.
  - apply (root_gives (r_world (rules_of o fn)) fuel h1 m ps T1 (data T1) ss W); [eapply gives_more; [|exact G]; lia|rewrite Sh1; exact E|exact (rebool_clean _ _ R1 Cl)|reflexivity|exact H1|rewrite N1; exact Nd|lia].
  - intro u. apply MessagesCompiler.adds_bind; [apply MessagesCompile.adds_run; now apply MessagesPipeline.rules_of_add|]. intro r. apply MessagesCompiler.adds_bind; [apply MessagesCompiler.adds_remove_empty_rules|]. intros _.
    apply MessagesCompiler.adds_bind; [apply MessagesCompiler.adds_expand_nested_components|]. intros _. apply MessagesCompiler.adds_ret.
Qed.
Theorem unset_whole o l t : Forall statement_ok l -> resolve unset l = None -> script_laid l t -> Z.of_nat (length (script_text l)) < 2 ^ 60 ->
  exists n, forall fuel m, (n <= fuel)%nat ->
  match translate o fuel m t with
  | Ret (Some _) _ => False
  | Ret None ms | Throw _ ms | Undef ms => exists p, In (mkMsg LError p not_set) ms
  | NoFuel => True
  end.
Proof.
  intros Ok Er La Z1. assert (Nl : l <> []) by (intros ->; discriminate).
  destruct (script_read o l t Nl Ok La) as (n & T & E & Tp & H & Sh & Nd).
  assert (Cl : clean (snd (plant n []))) by (apply plant_clean; intros a c Ha; destruct a; discriminate).
  destruct (unset_passes l (snd (plant n [])) [] default_paths T Ok Er H Cl Sh Nd Z1) as (k & K). exists k. intros fuel m Lf. unfold translate. rewrite E. cbn [has_error existsb].
  specialize (K o (functions_of o default_paths fuel) fuel (MessagesPipeline.functions_add o default_paths fuel) Lf).
  destruct (passes _ _ _ _) as [r s|e s|s|]; cbn [stops] in K; [|exact K|exact K|exact I].
  destruct K as (p & K). assert (X : has_error (k_msgs s) = true) by (unfold has_error; apply existsb_exists; eexists; split; [exact K|reflexivity]). rewrite X. eauto.
Qed.
