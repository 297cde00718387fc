(** * A script with variables: replace_variables leaves the rules with their values *)

From Coq Require Import String ZArith List Bool Lia Arith ZifyBool Floats.SpecFloat.
From Verif Require Import Base NodeHeap NodeProofs.
From Verif Require Import Compiler CompRun IfProofs.
From Verif Require ScopeProofs.
From Verif Require Import Trees WholeSpec LaySpec VarSpec WholeShape WholeTree WholeVars.
Import ListNotations.
Open Scope string_scope. Open Scope list_scope. Open Scope Z_scope.
Ltac Zify.zify_post_hook ::= idtac.

Definition upd (st : store) (k : str) (l : list shape) : store := fun k' => if str_eqb k' k then Some l else st k'.
Lemma tokens_keeps A h h' K b l : keeps A h h' -> (forall a, In a K -> ~ In a A) -> tokens_at h K b l -> tokens_at h' K b l.
Proof. intros C D (T & H & E & S & V). exists T. split; [|auto]. eapply holds_keeps; eauto. Qed.
Lemma keeps_nth A h h' a c : keeps A h h' -> ~ In a A -> nth_error h a = Some c -> nth_error h' a = Some c.
Proof. intros (_ & K) N H. rewrite K; [exact H|now apply nth_lt in H|exact N]. Qed.
Lemma tokens_more h K K' b l : (forall a, In a K -> In a K') -> tokens_at h K b l -> tokens_at h K' b l.
Proof. intros S (T & H & E & Sb & V). exists T. split; [exact H|]. split; [exact E|]. split; [intros a I; apply S, Sb, I|exact V]. Qed.
Lemma value_more h K K' b l : (forall a, In a K -> In a K') -> value_at h K b l -> value_at h K' b l.
Proof. intros S (I & cv & a & e & ca & A1 & A2 & A3 & A4 & A5 & A6 & A7). split; [auto|]. exists cv, a, e, ca. repeat (split; [auto; fail|]). eapply tokens_more; eauto. Qed.
Lemma env_set h x K K' st rc k v l : env_ok h x K st -> (forall a, In a K -> In a K') -> (forall a, In a K' -> (a < length h)%nat /\ a <> x_root x) ->
  nth_error h (x_root x) = Some rc -> value_at h K' v l -> spread l ->
  env_ok (put h (x_root x) (with_vars rc (map_set (c_vars rc) k v))) x K' (upd st k l).
Proof.
  intros (P & (rc' & R1 & R2 & R3) & V & L) S B Hr Va Sp. assert (rc' = rc) by congruence. subst rc'. pose proof (nth_lt _ _ _ Hr) as Lr.
  set (h' := put h _ _). assert (Kp : keeps [x_root x] h h') by (apply keeps_put; now left).
  assert (D : forall a, In a K' -> ~ In a [x_root x]) by (intros a I [E|[]]; apply B in I; destruct I; congruence).
  assert (Vk : forall v l, value_at h K' v l -> value_at h' K' v l).
  { intros v0 l0 (I & cv & a & e & ca & A1 & A2 & A3 & A4 & A5 & A6 & A7). split; [exact I|]. exists cv, a, e, ca. split; [eapply keeps_nth; eauto|]. split; [exact A2|]. split; [exact A3|]. split; [exact A4|]. split; [eapply keeps_nth; eauto|]. split; [exact A6|]. eapply tokens_keeps; eauto. }
  split; [intros p I; unfold h'; rewrite put_length; auto|]. split.
  - exists (with_vars rc (map_set (c_vars rc) k v)). split; [apply put_same; exact Lr|]. split; [exact R2|]. intro k'. cbn [c_vars with_vars]. rewrite ScopeProofs.map_set_get. unfold upd. destruct (str_eqb k' k).
    + cbn. split; [now apply Vk|exact Sp].
    + specialize (R3 k'). destruct (map_get (c_vars rc) k'), (st k'); cbn in *; try tauto. destruct R3 as (A & Sp'). split; [|exact Sp']. apply Vk. eapply value_more; eauto.
  - split.
    + intros a c Ha N. unfold h' in Ha. rewrite put_other in Ha by auto. eapply V; eauto.
    + intros a I. unfold h'. rewrite put_length. auto.
Qed.

Lemma spread_not_space s l : spread (s :: l) -> sh_type s <> WHITESPACE.
Proof. inversion 1 as [t ? ? V|t ? ? ? V]; subst; cbn; destruct t; discriminate. Qed.
Lemma spread_quiet l : spread l -> Forall (fun s => sh_type s <> EXCLAMATION) l.
Proof. induction 1 as [t s i V|t s i l V S IH]; repeat constructor; try exact IH; cbn; destruct t; discriminate. Qed.
Lemma shape_data T : sh_type (tree_shape T) = c_type (data T). Proof. now destruct T. Qed.
Section Finish.
  Variables (R n : addr) (q : bool).
  Let x := mkX R [n; R] q.
  Lemma add_run h m ps v cv y cy : nth_error h v = Some cv -> c_type cv = LIST -> nth_error h y = Some cy -> c_type cy <> EOF_TOKEN -> c_type cy <> WHITESPACE ->
    lift (add_child v y) (mkK h m ps) = Ret tt (mkK (put h v (with_ch cv (c_ch cv ++ [y]))) m ps).
  Proof. intros. eapply run_add; eauto. rewrite H0. reflexivity. Qed.
  (** The variable and its value [b] are put in a list, kept at the root. *)
  Lemma state_set h m ps rc cn var cvar b cb l K K' st : env_ok h x K st -> nth_error h R = Some rc -> nth_error h n = Some cn -> c_type cn = COMPONENT_VALUE ->
    nth_error h var = Some cvar -> c_type cvar = VARIABLE -> nth_error h b = Some cb -> c_type cb <> EOF_TOKEN -> c_type cb <> WHITESPACE ->
    (forall a, In a K -> In a K') -> (forall a, In a K' -> (a < length h)%nat /\ a <> R) -> In var K' -> tokens_at h K' b l -> spread l ->
    exists h' vs, state_set_variable x var b false (mkK h m ps) = Ret tt (mkK h' m ps) /\ env_ok h' x (length h :: K') (upd st (c_str cvar) l)
      /\ nth_error h' R = Some (with_vars rc vs) /\ keeps [R] h h'.
  Proof.
    intros En Hr Hn Tn Hv Tv Hb B1 B2 S B Iv To Sp. pose proof En as (P & (rc' & R1 & R2 & R3) & V & L). cbn [x_root x] in R1. assert (rc' = rc) by congruence. subst rc'.
    pose proof (nth_lt _ _ _ Hr) as Lr. pose proof (nth_lt _ _ _ Hv) as Lv. pose proof (nth_lt _ _ _ Hb) as Lb. pose proof (nth_lt _ _ _ Hn) as Ln.
    unfold state_set_variable. erewrite b_ret; [|eapply run_string; [exact Hv|rewrite Tv; reflexivity]]. erewrite b_ret; [|eapply run_pos; exact Hb].
    erewrite b_ret; [|apply run_new]. set (k0 := CompRun.blank LIST (c_pos cb)). set (v := length h) in *.
    erewrite b_ret; [|eapply add_run; [apply nth_mid|reflexivity|rewrite nth_error_app1 by exact Lv; exact Hv|rewrite Tv; discriminate|rewrite Tv; discriminate]]. cbn [c_ch k0 CompRun.blank app]. fold k0. unfold v at 2. rewrite put_mid.
    set (k1 := with_ch k0 [var]).
    erewrite b_ret; [|eapply add_run; [apply nth_mid|reflexivity|rewrite nth_error_app1 by exact Lb; exact Hb|exact B1|exact B2]]. cbn [c_ch k1 with_ch app]. fold k1. rewrite put_mid.
    set (k2 := with_ch k1 [var; b]). set (h1 := h ++ [k2]).
    assert (C1 : changed [] h h1) by (apply changed_app; reflexivity).
    assert (Old : forall a c, nth_error h a = Some c -> nth_error h1 a = Some c) by (intros a c Ha; unfold h1; rewrite nth_error_app1; [exact Ha|now apply nth_lt in Ha]).
    assert (Fs : find_scope [n; R] (mkK h1 m ps) = Ret None (mkK h1 m ps)).
    { cbn [find_scope]. erewrite b_ret; [|eapply run_is; apply Old; exact Hn]. rewrite Tn. change (ntype_eqb COMPONENT_VALUE OPEN_CURLYBRACKET) with false. cbv iota.
      erewrite b_ret; [|eapply run_is; apply Old; exact Hr]. rewrite R2. reflexivity. }
    cbn [x_parents x x_root]. erewrite b_ret; [|exact Fs]. cbv beta iota.
    exists (put h1 R (with_vars rc (map_set (c_vars rc) (c_str cvar) v))), (map_set (c_vars rc) (c_str cvar) v).
    split; [apply run_set_variable; now apply Old|]. split; [|split].
    - apply (env_set h1 x K); cbn [x_root x].
      + eapply env_changed; [exact C1|intros a _ []|exact En].
      + intros a I. right. auto.
      + intros a [<-|I]; [unfold v, h1; rewrite app_length; cbn [length]; split; lia|]. apply B in I. unfold h1. rewrite app_length. split; [lia|apply I].
      + now apply Old.
      + split; [now left|]. exists k2, var, b, cvar. split; [apply nth_mid|]. split; [reflexivity|]. split; [reflexivity|]. split; [now right|]. split; [now apply Old|]. split; [exact Tv|].
        eapply tokens_more; [|eapply tokens_changed; [exact C1|intros a _ []|exact To]]. intros a I. now right.
      + exact Sp.
    - apply put_same. unfold h1. rewrite app_length. lia.
    - eapply keeps_trans; [apply keeps_app|apply keeps_put; now left].
  Qed.
  Lemma finish_sets h m ps rc cn var cvar l vals K st np : env_ok h x K st -> nth_error h R = Some rc -> nth_error h n = Some (with_ch cn (map top l)) -> c_type cn = COMPONENT_VALUE ->
    nth_error h var = Some cvar -> c_type cvar = VARIABLE -> Forall (holds h) l -> map tree_shape l = vals -> spread vals -> (forall s i, vals = [leaf IDENTIFIER s i] -> s <> zs "null") ->
    n <> R -> var <> n -> var <> R -> (forall a, In a (flat_map nodes l) -> a <> n /\ a <> R) -> ~ In n K ->
    exists h' vs K', ScopeProofs.finish x n np false false var (mkK h m ps) = Ret tt (mkK h' m ps) /\ env_ok h' x K' (upd st (c_str cvar) vals)
      /\ nth_error h' R = Some (with_vars rc vs) /\ keeps [R; n] h h' /\ (forall a, In a K' -> In a K \/ a = var \/ In a (flat_map nodes l) \/ (length h <= a)%nat).
  Proof.
    intros En Hr Hn Tn Hv Tv Ho Ev Sp Nu NR N1 N2 Nl NK. pose proof En as (P & (rc' & R1 & R2 & R3) & V & L). cbn [x_root x] in R1. assert (rc' = rc) by congruence. subst rc'. clear R1.
    pose proof (nth_lt _ _ _ Hr) as Lr. pose proof (nth_lt _ _ _ Hv) as Lv. pose proof (nth_lt _ _ _ Hn) as Ln.
    assert (HC : has_children (c_type cn) = true) by (rewrite Tn; reflexivity).
    unfold ScopeProofs.finish. erewrite b_ret; [|eapply run_string; [exact Hv|rewrite Tv; reflexivity]]. erewrite b_ret; [|reflexivity]. cbv beta iota.
    erewrite b_ret; [|eapply run_size; [exact Hn|exact HC]]. cbn [c_ch with_ch]. rewrite map_length.
    destruct l as [|T1 [|T2 l]]; [cbn in Ev; subst vals; inversion Sp| |].
    - (* one value *)
      cbn [map length] in *. change (Z.of_nat 1 =? 1) with true. cbv iota. pose proof (holds_top _ _ (Forall_inv Ho)) as H1. rewrite <- Ev in Sp. destruct (spread_single _ Sp) as (t & s & i & Es & Vt). destruct (shape_leaf _ _ _ _ Es) as (K1 & K2 & K3 & K4).
      erewrite b_ret; [|eapply run_child0; [exact Hn|exact HC|reflexivity]]. erewrite b_ret; [|eapply run_type; exact H1]. cbn [c_type with_ch]. rewrite K2.
      assert (Nl' : (if ntype_eqb t IDENTIFIER then s0 <- lift (get_string (top T1)) ;; ret (str_eqb s0 (zs "null")) else ret false) (mkK h m ps) = Ret false (mkK h m ps)).
      { destruct t; try discriminate Vt; tyeq; [|reflexivity]. erewrite b_ret; [|eapply run_string; [exact H1|cbn [c_type with_ch]; rewrite K2; reflexivity]]. cbn [c_str with_ch]. rewrite K3. unfold ret. f_equal. apply str_eqb_neq. apply (Nu s i). now rewrite <- Ev, Es. }
      erewrite b_ret; [|exact Nl']. cbv beta iota. erewrite b_ret; [|reflexivity]. erewrite b_ret; [|eapply run_is; exact Hv]. rewrite Tv. tyeq. erewrite b_ret; [|reflexivity].
      pose proof (Nl (top T1) ltac:(cbn [flat_map]; rewrite K4; now left)) as (M1 & M2).
      destruct (state_set h m ps rc _ var cvar (top T1) _ vals K (var :: top T1 :: K) st En Hr Hn Tn Hv Tv H1) as (h' & vs & A1 & A2 & A3 & A4).
      { cbn [c_type with_ch]. rewrite K2. intros ->. discriminate Vt. } { cbn [c_type with_ch]. rewrite K2. intros ->. discriminate Vt. }
      { intros a I. right. now right. } { intros a [<-|[<-|I]]; [auto| |apply L in I; exact I]. split; [now apply nth_lt in H1|exact M2]. }
      { now left. } { exists T1. split; [exact (Forall_inv Ho)|]. split; [reflexivity|]. split; [rewrite K4; intros a [<-|[]]; right; now left|]. left. exact Ev. } { rewrite <- Ev. exact Sp. }
      exists h', vs, (length h :: var :: top T1 :: K). split; [exact A1|]. split; [exact A2|]. split; [exact A3|]. split.
      + destruct A4 as (A4 & A5). split; [exact A4|]. intros b Lb Nb. apply A5; [exact Lb|]. intros [E|[]]. apply Nb. now left.
      + cbn [flat_map]. rewrite K4. intros a [<-|[<-|[<-|I]]]; cbn [In app]; auto 10.
    - (* several *)
      replace (Z.of_nat (length (T1 :: T2 :: l)) =? 1) with false by (cbn [length]; lia). cbv iota. set (ks := T1 :: T2 :: l) in *.
      rewrite bind_assoc. erewrite b_ret; [|apply run_new]. set (k0 := CompRun.blank LIST np). set (v := length h) in *.
      assert (Hn1 : nth_error (h ++ [k0]) n = Some (with_ch cn (map top ks))) by (rewrite nth_error_app1 by exact Ln; exact Hn).
      rewrite bind_assoc. erewrite b_ret; [|eapply run_take; [apply nth_mid|reflexivity|exact Hn1|exact HC|unfold v; lia]]. cbn [c_ch with_ch]. rewrite bind_ret.
      unfold v at 1. rewrite put_mid. rewrite ScopeProofs.with_ch_twice. set (k1 := with_ch k0 (map top ks)). set (h1 := put (h ++ [k1]) n (with_ch cn [])).
      assert (C1 : changed [n] h h1).
      { eapply changed_trans; [apply (changed_app [n] h k1 eq_refl)|]. apply changed_put with (c := with_ch cn (map top ks)). rewrite nth_error_app1 by exact Ln. exact Hn. }
      assert (Hl1 : nth_error h1 v = Some k1) by (unfold h1; rewrite put_other by (unfold v; lia); apply nth_mid).
      assert (Ho1 : Forall (holds h1) ks) by (eapply changed_all_hold; [exact C1| |exact Ho]; intros a I [E|[]]; apply Nl in I; destruct I; congruence).
      assert (L1 : length h1 = S (length h)) by (unfold h1; rewrite put_length, app_length; cbn [length]; lia).
      erewrite b_ret; [|eapply run_type; exact Hl1]. change (c_type k1) with LIST. tyeq. erewrite b_ret; [|reflexivity]. cbv beta iota. erewrite b_ret; [|reflexivity].
      assert (Hv1 : nth_error h1 var = Some cvar) by (eapply changed_at; [exact C1|intros [E|[]]; congruence|exact Hv]).
      assert (Hr1 : nth_error h1 R = Some rc) by (eapply changed_at; [exact C1|intros [E|[]]; congruence|exact Hr]).
      erewrite b_ret; [|eapply run_is; exact Hv1]. rewrite Tv. tyeq. erewrite b_ret; [|reflexivity].
      assert (Hks : forall a, In a (flat_map nodes ks) -> (a < length h)%nat) by (intros a I; apply in_flat_map in I; destruct I as (T & I1 & I2); rewrite Forall_forall in Ho; exact (holds_lt _ _ _ (Ho _ I1) I2)).
      destruct (state_set h1 m ps rc (with_ch cn []) var cvar v k1 vals K (var :: v :: flat_map nodes ks ++ K) st) as (h' & vs & A1 & A2 & A3 & A4).
      { eapply env_changed; [exact C1| |exact En]. intros a I [<-|[]]. tauto. } { exact Hr1. } { apply put_same. rewrite app_length. lia. } { exact Tn. } { exact Hv1. } { exact Tv. } { exact Hl1. } { discriminate. } { discriminate. }
      { intros a I. right. right. apply in_or_app. now right. }
      { rewrite L1. intros a [<-|[<-|I]]; [split; [lia|exact N2]|unfold v; split; lia|]. apply in_app_or in I. destruct I as [I|I]; [split; [apply Hks in I; lia|apply Nl, I]|]. apply L in I. split; [lia|apply I]. }
      { now left. }
      { exists (Tree v k1 ks). split; [constructor; [exact Hl1|exact Ho1]|]. split; [reflexivity|]. split; [cbn [nodes]; intros a [<-|I]; [right; now left|right; right; apply in_or_app; now left]|]. right. split; [reflexivity|exact Ev]. }
      { exact Sp. }
      exists h', vs, (length h1 :: var :: v :: flat_map nodes ks ++ K). split; [exact A1|]. split; [exact A2|]. split; [exact A3|]. split.
      + destruct A4 as (A4 & A5). split; [lia|]. intros b Lb Nb. rewrite A5; [|lia|intros [E|[]]; apply Nb; now left]. apply (changed_keeps _ _ _ C1); [exact Lb|]. intros [E|[]]. apply Nb. right. now left.
      + rewrite L1. intros a [<-|[<-|[<-|I]]]; [right; right; right; lia|auto|right; right; right; unfold v; lia|]. apply in_app_or in I. destruct I; auto.
  Qed.
End Finish.
