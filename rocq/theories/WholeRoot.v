(** * replace_variables on the root of a script *)

From Coq Require Import String ZArith List Bool Lia Arith ZifyBool Floats.SpecFloat.
From Verif Require Import Base NodeHeap NodeProofs.
From Verif Require Import Compiler CompRun IfProofs.
From Verif Require ScopeProofs.
From Verif Require Import Trees WholeSpec LaySpec VarSpec WholeShape WholeTree WholeVars WholeScript WholeSet.
Import ListNotations.
Open Scope string_scope. Open Scope list_scope. Open Scope Z_scope.
Ltac Zify.zify_post_hook ::= idtac.

(** The statements of a script, from the values [st]: what is left of them. *)
Inductive steps (F : nat) : store -> list shape -> list shape -> Prop :=
  | steps_end st : steps F st [] []
  | steps_set st key b leaves vals ss out : spaced COLON b -> Forall (ready st) leaves -> Forall (fun s => ~ box s) leaves -> leaves <> [] -> flat_map (sub st) leaves = vals -> spread vals ->
      (forall s i, vals = [leaf IDENTIFIER s i] -> s <> zs "null") -> (cost st (inner COMPONENT_VALUE (b ++ leaves)) < F)%nat ->
      steps F (upd st key vals) ss out -> steps F st (inner COMPONENT_VALUE (leaf VARIABLE key 0 :: b ++ leaves) :: ss) out
  | steps_style st s s' ss out : ready st s -> sh_type s = COMPONENT_VALUE -> sub st s = [s'] -> (cost st s < F)%nat -> steps F st ss out -> steps F st (s :: ss) (s' :: out).

Lemma all_lt h l a : Forall (holds h) l -> In a (flat_map nodes l) -> (a < length h)%nat.
Proof. intros H I. apply in_flat_map in I. destruct I as (T & I1 & I2). rewrite Forall_forall in H. exact (holds_lt _ _ _ (H _ I1) I2). Qed.
Lemma step_other n c h m ps child pre post : nth_error h n = Some (with_ch c (pre ++ post)) -> has_children (c_type c) = true -> ~ In child post ->
  step_over n child (Z.of_nat (length pre)) (mkK h m ps) = Ret (Z.of_nat (length pre)) (mkK h m ps).
Proof.
  intros H E N. unfold step_over. erewrite b_ret; [|eapply run_size; [exact H|exact E]]. cbn [c_ch with_ch]. destruct post as [|y post].
  - rewrite app_nil_r, Z.ltb_irrefl. reflexivity.
  - replace (_ <? _) with true by (rewrite app_length; cbn [length]; lia). erewrite b_ret; [|eapply run_child; [exact H|exact E|cbn [c_ch with_ch]; rewrite Nat2Z.id; apply nth_mid|lia]].
    cbn [In] in N. replace (Nat.eqb child y) with false; [reflexivity|]. symmetry. apply Nat.eqb_neq. intros ->. tauto.
Qed.

Lemma root_loop w R q F st ss out : steps F st ss out -> forall rest done h m ps K rc fuel, map tree_shape rest = ss ->
  nth_error h R = Some (with_ch rc (map top done ++ map top rest)) -> Forall (holds h) (done ++ rest) -> NoDup (R :: flat_map nodes (done ++ rest)) ->
  (forall a, In a (flat_map nodes rest) -> ~ In a K) -> env_ok h (mkX R [R] q) K st -> (length rest < fuel)%nat ->
  exists h' rest' vs, variables_loop w (replace_variables w F) (mkX R [R] q) R fuel (Z.of_nat (length done)) (mkK h m ps) = Ret tt (mkK h' m ps)
    /\ nth_error h' R = Some (with_ch (with_vars rc vs) (map top done ++ map top rest')) /\ Forall (holds h') (done ++ rest') /\ NoDup (R :: flat_map nodes (done ++ rest')) /\ map tree_shape rest' = out.
Proof.
  induction 1 as [st|st key b leaves vals ss out Sb Rd Nb Nl Sv Sp Nu Fu Hs IH|st s s' ss out Rd Ts Ss Fu Hs IH]; intros rest done h m ps K rc fuel Es Hr Ho Nd NK En Lf;
    (assert (TR : c_type rc = LIST) by (destruct En as (_ & (rc' & Q1 & Q2 & _) & _); cbn [x_root] in Q1; rewrite Hr in Q1; injection Q1 as <-; exact Q2));
    (assert (HC : has_children (c_type rc) = true) by (rewrite TR; reflexivity)); (destruct fuel as [|fuel]; [lia|]).
  - destruct rest; [|discriminate]. exists h, [], (c_vars rc). split.
    + cbn [map] in Hr. rewrite app_nil_r in Hr. rewrite <- (map_length top done). apply (loop_end w _ _ R _ h m ps fuel Hr HC).
    + split; [replace (with_vars rc (c_vars rc)) with rc by now destruct rc|]; auto.
  - destruct rest as [|T rest]; [discriminate|]. cbn [map] in Es. injection Es as Et Es. cbn [map] in Hr.
    pose proof Ho as Ho0. apply Forall_app in Ho. destruct Ho as (Hd & Ho). pose proof (Forall_inv Ho) as H1. apply Forall_inv_tail in Ho.
    pose proof Nd as Nd0. apply NoDup_cons_iff in Nd. destruct Nd as (NR & Nd). rewrite flat_map_app in NR, Nd. cbn [flat_map] in NR, Nd, NK. rewrite !in_app_iff in NR.
    apply nodup_app in Nd. destruct Nd as (Nd1 & Nd & Nd2). apply nodup_app in Nd. destruct Nd as (Nd3 & Nd4 & Nd5).
    assert (Np : ~ In (top T) (map top done)) by (intro I; apply tops_in in I; apply (Nd2 _ I), in_or_app; left; apply top_in).
    assert (Nq : ~ In (top T) (map top rest)) by (intro I; apply tops_in in I; exact (Nd5 _ (top_in T) I)).
    destruct (set_done w R q K st h m ps T rc (map top done) (map top rest) key b leaves vals F En Hr H1 ltac:(constructor; tauto) ltac:(intros a I; apply NK, in_or_app; now left) Np Et Sb Rd Nb Nl Sv Sp Nu Fu) as (h1 & vs & K' & A1 & A2 & A3 & A4 & A5).
    cbn [variables_loop]. erewrite b_ret; [|eapply run_size; [exact Hr|exact HC]]. cbn [c_ch with_ch]. replace (_ <=? _) with false by (rewrite app_length, map_length; cbn [length]; lia).
    erewrite b_ret; [|eapply run_child; [exact Hr|exact HC|cbn [c_ch with_ch]; rewrite Nat2Z.id, <- (map_length top done); apply nth_mid|lia]]. pose proof (holds_top _ _ H1) as H0. erewrite b_ret; [|eapply run_type; exact H0]. cbn [c_type with_ch].
    rewrite <- shape_data, Et. cbn [sh_type inner]. erewrite b_ret; [|exact A1].
    change (with_vars (with_ch rc (map top done ++ map top rest)) vs) with (with_ch (with_vars rc vs) (map top done ++ map top rest)) in A3.
    erewrite b_ret; [|rewrite <- (map_length top done); eapply step_other; [exact A3|exact HC|exact Nq]]. rewrite map_length.
    assert (Ho1 : Forall (holds h1) (done ++ rest)).
    { eapply holds_all_keeps; [exact A4| |apply Forall_app; split; [exact Hd|exact Ho]]. intros a I [E|J]; rewrite flat_map_app, in_app_iff in I.
      - subst a. tauto. - destruct I as [I|I]; [apply (Nd2 _ I), in_or_app; now left|exact (Nd5 _ J I)]. }
    destruct (IH rest done h1 m ps K' (with_vars rc vs) fuel Es A3 Ho1) as (h' & rest' & vs' & B1 & B2 & B3 & B4 & B5).
    + constructor; [rewrite flat_map_app, in_app_iff; tauto|]. rewrite flat_map_app. apply nodup_app. split; [exact Nd1|]. split; [exact Nd4|]. intros a I J. apply (Nd2 _ I), in_or_app. now right.
    + intros a I J. apply A5 in J. destruct J as [J|[J|J]]; [apply (NK a); [apply in_or_app; now right|exact J]|exact (Nd5 _ J I)|]. pose proof (all_lt _ _ _ Ho I). lia.
    + exact A2.
    + cbn [length] in Lf. lia.
    + exists h', rest', vs'. split; [exact B1|]. split; [exact B2|]. split; [exact B3|]. split; [exact B4|exact B5].
  - destruct rest as [|T rest]; [discriminate|]. cbn [map] in Es. injection Es as Et Es. cbn [map] in Hr.
    pose proof Ho as Ho0. apply Forall_app in Ho. destruct Ho as (Hd & Ho). pose proof (Forall_inv Ho) as H1. apply Forall_inv_tail in Ho.
    pose proof Nd as Nd0. apply NoDup_cons_iff in Nd. destruct Nd as (NR & Nd). rewrite flat_map_app in NR, Nd. cbn [flat_map] in NR, Nd, NK. rewrite !in_app_iff in NR.
    apply nodup_app in Nd. destruct Nd as (Nd1 & Nd & Nd2). apply nodup_app in Nd. destruct Nd as (Nd3 & Nd4 & Nd5).
    assert (Lv : lives (mkX R [R] q) K h T). { split; [exact H1|]. split; [exact Nd3|]. intros a I. split; [apply NK, in_or_app; now left|]. cbn [x_root]. intros ->. tauto. }
    assert (Bx : box s) by (unfold box; rewrite Ts; reflexivity).
    destruct (sub_run w st s Rd Bx T h m ps (mkX R [R] q) K F Et Lv En Fu) as (h1 & T' & A1 & (B1 & B2 & B3 & B4 & B5 & B6)). rewrite Et, Ss in B2. injection B2 as B2.
    assert (L1 : (length h <= length h1)%nat) by apply B6.
    assert (Hr1 : nth_error h1 R = Some (with_ch rc (map top done ++ top T :: map top rest))) by (eapply changed_at; [exact B6|tauto|exact Hr]).
    cbn [variables_loop]. erewrite b_ret; [|eapply run_size; [exact Hr|exact HC]]. cbn [c_ch with_ch]. replace (_ <=? _) with false by (rewrite app_length, map_length; cbn [length]; lia).
    erewrite b_ret; [|eapply run_child; [exact Hr|exact HC|cbn [c_ch with_ch]; rewrite Nat2Z.id, <- (map_length top done); apply nth_mid|lia]]. pose proof (holds_top _ _ H1) as H0. erewrite b_ret; [|eapply run_type; exact H0]. cbn [c_type with_ch].
    rewrite <- shape_data, Et, Ts. cbv iota. erewrite b_ret; [|exact A1].
    erewrite b_ret; [|rewrite <- (map_length top done); eapply step_over_same; [exact Hr1|exact HC|cbn [c_ch with_ch]; apply nth_mid]]. rewrite map_length.
    assert (Fr : forall a, In a (nodes T') -> ~ In a (flat_map nodes done) /\ ~ In a (flat_map nodes rest) /\ a <> R).
    { intros a I. apply B5 in I. destruct I as [I|I].
      - split; [intro J; apply (Nd2 _ J), in_or_app; now left|]. split; [intro J; exact (Nd5 _ I J)|]. intros ->. tauto.
      - split; [intro J; pose proof (all_lt _ _ _ Hd J); lia|]. split; [intro J; pose proof (all_lt _ _ _ Ho J); lia|]. intros ->. apply nth_lt in Hr. lia. }
    assert (Q : Forall (holds h1) done /\ Forall (holds h1) rest).
    { split; (eapply changed_all_hold; [exact B6| |eassumption]); intros a I J; [apply (Nd2 _ I), in_or_app; now left|exact (Nd5 _ J I)]. }
    destruct Q as (Hd1 & Ho1).
    destruct (IH rest (done ++ [T']) h1 m ps K rc fuel Es) as (h' & rest' & vs' & C1 & C2 & C3 & C4 & C5).
    + rewrite map_app. cbn [map]. rewrite B3, <- app_assoc. exact Hr1.
    + rewrite <- app_assoc. apply Forall_app. split; [exact Hd1|]. constructor; [exact B1|exact Ho1].
    + rewrite <- app_assoc. cbn [app]. rewrite flat_map_app. cbn [flat_map]. constructor; [rewrite !in_app_iff; intros [I|[I|I]]; [tauto|apply Fr in I; tauto|tauto]|].
      apply nodup_app. split; [exact Nd1|]. split; [apply nodup_app; split; [exact B4|split; [exact Nd4|intros a I; apply Fr in I; tauto]]|].
      intros a I J. apply in_app_or in J. destruct J as [J|J]; [apply Fr in J; tauto|]. apply (Nd2 _ I), in_or_app. now right.
    + intros a I. apply NK, in_or_app. now right.
    + eapply env_changed; [exact B6| |exact En]. intros a I J. apply (NK a); [apply in_or_app; now left|exact I].
    + cbn [length] in Lf. lia.
    + exists h', (T' :: rest'), vs'. rewrite app_length, map_app, <- !app_assoc in *. cbn [length map app] in *.
      split; [replace (S (length done)) with (length done + 1)%nat by lia; exact C1|]. split; [exact C2|]. split; [exact C3|]. split; [exact C4|]. now rewrite C5, B2.
Qed.

Definition nothing : store := fun _ => None.
Lemma root_run w F h m ps T rc ss out q : steps F nothing ss out -> tree_shape T = inner LIST ss -> ss <> [] -> (forall a c, nth_error h a = Some c -> c_vars c = []) -> rc = data T ->
  holds h T -> NoDup (nodes T) -> (length ss < F)%nat ->
  exists h' T', replace_variables w (S F) (mkX (top T) [] q) (top T) (mkK h m ps) = Ret tt (mkK h' m ps) /\ holds h' T' /\ tree_shape T' = inner LIST out /\ NoDup (nodes T') /\ top T' = top T.
Proof.
  intros St Es Ne V -> H Nd Lf. destruct T as [R rc rest]. cbn [top data tree_shape nodes] in *. unfold inner in Es. injection Es as E1 E2 E3 E4 E5. pose proof (holds_inv _ _ _ _ H) as (Hr & Ho).
  assert (LR : (R < length h)%nat) by now apply nth_lt in Hr.
  assert (En : env_ok h (mkX R [R] q) [] nothing).
  { split; [intros p [<-|[]]; exact LR|]. split.
    - exists (with_ch rc (map top rest)). split; [exact Hr|]. split; [exact E1|]. intro k. rewrite (V _ _ Hr). exact I.
    - split; [intros a c Ha _; eauto|intros a []]. }
  rewrite <- E5 in *. rewrite map_length in Lf.
  destruct (root_loop w R q F _ _ _ St rest [] h m ps [] rc F eq_refl Hr Ho Nd ltac:(intros a _ []) En Lf) as (h' & rest' & vs & A1 & A2 & A3 & A4 & A5). cbn [length map app] in *. change (Z.of_nat 0) with 0 in A1.
  exists h', (Tree R (with_vars rc vs) rest'). split; [|split; [constructor; [exact A2|exact A3]|split; [cbn; rewrite A5, E1, E2, E3, E4; reflexivity|split; [exact A4|reflexivity]]]].
  cbn [replace_variables]. erewrite b_ret; [|eapply run_type; exact Hr]. cbn [c_type with_ch]. rewrite E1. cbv iota.
  erewrite b_ret; [|eapply run_empty; [exact Hr|cbn [c_type with_ch]; rewrite E1; reflexivity]]. cbn [c_ch with_ch]. replace (match map top rest with [] => true | _ :: _ => false end) with false by (destruct rest; [now contradict Ne|reflexivity]). cbv iota.
  erewrite b_ret; [|eapply run_type; exact Hr]. cbn [c_type with_ch]. rewrite E1. tyeq. erewrite b_ret; [|reflexivity]. cbv beta iota. erewrite b_ret; [|reflexivity]. cbn [push x_root x_parents x_quiet]. erewrite b_ret; [|exact A1]. reflexivity.
Qed.
