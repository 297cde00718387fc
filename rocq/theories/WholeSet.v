(** * The statements of a script in replace_variables *)

From Coq Require Import String ZArith List Bool Lia Arith ZifyBool Floats.SpecFloat.
From Verif Require Import Base NodeHeap NodeProofs.
From Verif Require Import Compiler CompRun IfProofs.
From Verif Require ScopeProofs.
From Verif Require Import Trees WholeSpec LaySpec VarSpec WholeShape WholeTree WholeVars WholeScript.
Import ListNotations.
Open Scope string_scope. Open Scope list_scope. Open Scope Z_scope.
Ltac Zify.zify_post_hook ::= idtac.

Lemma find_here n (pre post : list addr) : ~ In n pre -> find_child n (pre ++ n :: post) = Some (length pre).
Proof.
  induction pre as [|a pre IH]; intro N; cbn [app find_child length]; [now rewrite Nat.eqb_refl|]. cbn [In] in N.
  replace (Nat.eqb n a) with false by (symmetry; apply Nat.eqb_neq; intro; subst; tauto). rewrite IH by tauto. reflexivity.
Qed.
Lemma spaced_parts t b : spaced t b -> exists w1 w2, b = w1 ++ sign t :: w2 /\ (w1 = [] \/ w1 = [sign WHITESPACE]) /\ (w2 = [] \/ w2 = [sign WHITESPACE]).
Proof. intros (w1 & r & -> & H1 & (c & w2 & -> & -> & H2)). exists w1, w2. split; [reflexivity|]. split; [destruct H1; auto|destruct H2; auto]. Qed.
Lemma sub_space st w : w = [] \/ w = [sign WHITESPACE] -> flat_map (sub st) w = w. Proof. intros [-> | ->]; reflexivity. Qed.
Lemma space_at h l w : Forall (holds h) l -> map tree_shape l = w -> w = [] \/ w = [sign WHITESPACE] -> ScopeProofs.ws_at h (map top l).
Proof.
  intros Ho E [-> | ->].
  - destruct l; [now left|discriminate].
  - destruct l as [|T [|T2 l]]; try discriminate. right. cbn [map] in *. injection E as E. pose proof (holds_top _ _ (Forall_inv Ho)) as H. exists (top T), (with_ch (data T) (map top (kids T))). split; [reflexivity|]. split; [exact H|]. cbn [c_type with_ch]. now rewrite <- shape_data, E.
Qed.
Lemma is_set h m ps n c Tv Tb Tl w1 w2 k : nth_error h n = Some c -> c_ch c = map top (Tv :: Tb ++ Tl) -> Forall (holds h) (Tv :: Tb ++ Tl) ->
  tree_shape Tv = leaf VARIABLE k 0 -> map tree_shape Tb = w1 ++ sign COLON :: w2 -> (w1 = [] \/ w1 = [sign WHITESPACE]) -> Tl <> [] ->
  is_variable_set n false (mkK h m ps) = Ret true (mkK h m ps).
Proof.
  intros H E Ho Ev Eb Hw Nl. unfold is_variable_set. erewrite b_ret; [|eapply run_load; exact H]. unfold child_nodes, bind. cbn [k_heap]. rewrite E.
  cbn [map]. pose proof (holds_top _ _ (Forall_inv Ho)) as Hv. rewrite Hv. cbn [c_type with_ch]. rewrite <- shape_data, Ev.
  pose proof (Forall_inv_tail Ho) as Ho1. destruct Hw as [-> | ->]; cbn [app] in Eb.
  - destruct Tb as [|T1 Tb]; [discriminate|]. cbn [map] in Eb. injection Eb as E1 E2. cbn [app map] in *. pose proof (holds_top _ _ (Forall_inv Ho1)) as H1. rewrite H1. cbn [c_type with_ch]. rewrite <- shape_data, E1.
    destruct (Tb ++ Tl) as [|T3 r] eqn:Q; [apply app_eq_nil in Q; tauto|]. reflexivity.
  - destruct Tb as [|T1 [|T2 Tb]]; try discriminate. cbn [map] in Eb. injection Eb as E1 E2 E3. cbn [app map] in *. pose proof (holds_top _ _ (Forall_inv Ho1)) as H1. pose proof (holds_top _ _ (Forall_inv (Forall_inv_tail Ho1))) as H2. rewrite H1, H2. cbn [c_type with_ch]. rewrite <- !shape_data, E1, E2. reflexivity.
Qed.
Lemma cost_token st t s i f : token_type t = true -> cost st (Shape t s i f []) = 2%nat. Proof. destruct t; try discriminate; reflexivity. Qed.
Lemma set_done w R q K st h m ps T rc pre post key b leaves vals fuel :
  let x := mkX R [R] q in
  env_ok h x K st -> nth_error h R = Some (with_ch rc (pre ++ top T :: post)) -> holds h T -> NoDup (R :: nodes T) -> (forall a, In a (nodes T) -> ~ In a K) -> ~ In (top T) pre ->
  tree_shape T = inner COMPONENT_VALUE (leaf VARIABLE key 0 :: b ++ leaves) -> spaced COLON b -> Forall (ready st) leaves -> Forall (fun s => ~ box s) leaves -> leaves <> [] -> flat_map (sub st) leaves = vals -> spread vals ->
  (forall s i, vals = [leaf IDENTIFIER s i] -> s <> zs "null") -> (cost st (inner COMPONENT_VALUE (b ++ leaves)) < fuel)%nat ->
  exists h' vs K', replace_variables w fuel x (top T) (mkK h m ps) = Ret tt (mkK h' m ps) /\ env_ok h' x K' (upd st key vals)
    /\ nth_error h' R = Some (with_vars (with_ch rc (pre ++ post)) vs) /\ keeps (R :: nodes T) h h' /\ (forall a, In a K' -> In a K \/ In a (nodes T) \/ (length h <= a)%nat).
Proof.
  intros x En Hr H Nd NK Np Es Sb Rd Nb Nl Sv Sp Nu Fu. destruct (spaced_parts _ _ Sb) as (w1 & w2 & -> & W1 & W2).
  destruct T as [n cn ks]. cbn [top nodes tree_shape] in *. unfold inner in Es. injection Es as E1 E2 E3 E4 E5. pose proof (holds_inv _ _ _ _ H) as (Hn & Ho).
  destruct ks as [|Tv ks]; [discriminate|]. cbn [map] in E5. injection E5 as Ev E5. apply map_eq_app in E5. destruct E5 as (Tb & Tl & -> & Eb & El).
  destruct (shape_leaf _ _ _ _ Ev) as (V1 & V2 & V3 & V4).
  assert (HC : has_children (c_type cn) = true) by (rewrite E1; reflexivity).
  assert (Hn0 : nth_error h n = Some (with_ch cn ([top Tv] ++ map top (Tb ++ Tl)))) by exact Hn.
  assert (Nl' : Tl <> []) by (intros ->; apply Nl; now rewrite <- El).
  pose proof (is_set h m ps n _ Tv Tb Tl w1 w2 key Hn eq_refl Ho Ev Eb W1 Nl') as Is.
  cbn [flat_map] in *. rewrite V4 in *. cbn [app] in Nd, NK.
  apply NoDup_cons_iff in Nd. destruct Nd as (NR & Nd). pose proof Nd as Nd0. apply NoDup_cons_iff in Nd. destruct Nd as (Nn & Nd). apply NoDup_cons_iff in Nd. destruct Nd as (Nv & Nd). cbn [In] in NR, Nn.
  pose proof (Forall_inv Ho) as Hv. pose proof (Forall_inv_tail Ho) as Ho1. pose proof (holds_top _ _ Hv) as Hv0.
  assert (Shapes : map tree_shape (Tb ++ Tl) = (w1 ++ sign COLON :: w2) ++ leaves) by (rewrite map_app, Eb, El; reflexivity).
  destruct fuel as [|fuel]; [lia|].
  assert (Fu' : (list_sum (map (cost st) ((w1 ++ sign COLON :: w2) ++ leaves)) < fuel)%nat).
  { unfold inner in Fu. cbn [cost] in Fu. lia. }
  destruct (loop_run w st fuel n cn (mkX R [n; R] q) K HC ltac:(apply NK; now left) (Tb ++ Tl) [top Tv] h m ps fuel Hn0 Ho1) as (h1 & rest' & A1 & A2 & A3 & A4 & A5 & A6 & A7).
  { constructor; [tauto|exact Nd]. } { intros a I. split; [apply NK; right; now right|]. cbn [x_root]. intros ->. tauto. }
  { apply (env_push h x K st n En). now apply nth_lt in Hn. }
  { rewrite Shapes. apply Forall_app. split; [|exact Rd]. apply Forall_app. split; [destruct W1 as [-> | ->]; repeat constructor|]. constructor; [now constructor|]. destruct W2 as [-> | ->]; repeat constructor. }
  { rewrite Shapes. apply Forall_app. split; [|revert Nb; apply Forall_impl; intros s B B'; tauto].
    assert (NB : forall t, box_type t = false -> box (sign t) -> runs_sub w st (sign t) /\ (cost st (sign t) < fuel)%nat) by (intros t Bt B; unfold box in B; cbn in B; congruence).
    apply Forall_app. split; [destruct W1 as [-> | ->]; repeat constructor; now apply NB|]. constructor; [now apply NB|]. destruct W2 as [-> | ->]; repeat constructor; now apply NB. }
  { rewrite Shapes. exact Fu'. }
  rewrite Shapes, flat_map_app, flat_map_app in A4. cbn [flat_map] in A4. rewrite (sub_space st w1 W1), (sub_space st w2 W2), Sv in A4. change (sub st (sign COLON)) with [sign COLON] in A4. cbn [app] in A4. rewrite <- app_assoc in A4. cbn [app] in A4.
  apply map_eq_app in A4. destruct A4 as (t1 & r1 & -> & F1 & G1). destruct r1 as [|Tc r1]; [discriminate|]. cbn [map] in G1. injection G1 as F2 G1. apply map_eq_app in G1. destruct G1 as (t2 & tl & -> & F3 & F4).
  assert (Ho' : Forall (holds h1) (t1 ++ Tc :: t2 ++ tl)) by exact A3. apply Forall_app in A3. destruct A3 as (B1 & B2). pose proof (Forall_inv B2) as B3. apply Forall_inv_tail in B2. apply Forall_app in B2. destruct B2 as (B4 & B5).
  pose proof (holds_top _ _ B3) as Hc.
  assert (L1 : (length h <= length h1)%nat) by apply A7.
  assert (LR : (R < length h)%nat) by now apply nth_lt in Hr.
  assert (Ln : (n < length h)%nat) by now apply nth_lt in Hn.
  assert (HR1 : nth_error h1 R = Some (with_ch rc (pre ++ n :: post))) by (eapply changed_at; [exact A7| |exact Hr]; cbn [In]; intros [E|I]; [subst; tauto|tauto]).
  assert (Hv1 : nth_error h1 (top Tv) = Some (with_ch (data Tv) (map top (kids Tv)))) by (eapply changed_at; [exact A7| |exact Hv0]; cbn [In]; intros [E|I]; [apply Nn; left; congruence|tauto]).
  assert (Lv : (top Tv < length h)%nat) by now apply nth_lt in Hv0.
  assert (Out : forall a, In a (flat_map nodes (t1 ++ Tc :: t2 ++ tl)) -> a <> n /\ a <> R /\ (a < length h1)%nat).
  { intros a I. assert (La : (a < length h1)%nat) by (apply in_flat_map in I; destruct I as (T0 & I1 & I2); rewrite Forall_forall in Ho'; exact (holds_lt _ _ _ (Ho' _ I1) I2)).
    apply A6 in I. repeat split; [| |exact La]; intros ->; destruct I as [I|I]; try lia; tauto. }
  assert (EnK : forall a, In a K -> ~ In a (n :: flat_map nodes (Tb ++ Tl))) by (intros a I [<-|J]; [apply (NK n); [now left|exact I]|apply (NK a); [right; now right|exact I]]).
  assert (En1 : env_ok h1 (mkX R [n; R] q) K st) by (eapply env_changed; [exact A7|exact EnK|]; apply (env_push h x K st n En Ln)).
  assert (TR : c_type rc = LIST) by (destruct En as (_ & (rc' & Q1 & Q2 & _) & _); cbn [x_root x] in Q1; rewrite Hr in Q1; injection Q1 as <-; exact Q2).
  assert (Pre : compiler_set_variable (push x n) n (mkK h1 m ps) = ScopeProofs.finish (push x n) n (c_pos cn) false false (top Tv)
        (mkK (put (put h1 R (with_ch rc (pre ++ post))) n (with_ch cn (map top tl))) m ps)).
  { pose proof (quiet_prelude x R [] h1 m ps n _ (length pre) (with_ch cn ([top Tv] ++ map top (t1 ++ Tc :: t2 ++ tl))) (top Tv) (map top t1) (top Tc) (map top t2) (map top tl) (with_ch (data Tv) (map top (kids Tv))) (with_ch (data Tc) (map top (kids Tc))) eq_refl HR1) as Q.
    cbn [c_ch with_ch c_type c_pos] in Q. rewrite ScopeProofs.erase_mid in Q. rewrite TR in Q. specialize (Q eq_refl (find_here n pre post Np) A2). cbn [c_ch with_ch c_type c_pos app] in Q.
    apply Q; clear Q; [exact HC|now rewrite !map_app; cbn [map app]; rewrite map_app|intros ->; tauto| |eapply space_at; [exact B1|exact F1|exact W1]|eapply space_at; [exact B4|exact F3|exact W2]|exact Hv1|exact Hc|cbn [c_type with_ch]; now rewrite <- shape_data, F2| |].
    - intros a [<-|I].
      + split; [intro E; apply Nn; left; exact E|]. split; [intro E; apply NR; right; left; exact E|]. eexists. exact Hv1.
      + apply tops_in in I. destruct (Out a I) as (O1 & O2 & O3). split; [exact O1|]. split; [exact O2|]. destruct (nth_error h1 a) as [k|] eqn:Ek; [eauto|]. apply nth_error_None in Ek. lia.
    - destruct tl as [|T0 tl]; cbn [map]; [exact I|]. intros k Hk. pose proof (holds_top _ _ (Forall_inv B5)) as H0. rewrite H0 in Hk. injection Hk as <-. cbn [c_type with_ch]. rewrite <- shape_data. cbn [map] in F4. rewrite <- F4 in Sp. eapply spread_not_space. exact Sp.
    - intros a k I Hk. apply in_map_iff in I. destruct I as (T0 & <- & I). rewrite Forall_forall in B5. pose proof (holds_top _ _ (B5 _ I)) as H0. rewrite H0 in Hk. injection Hk as <-. cbn [c_type with_ch]. rewrite <- shape_data.
      pose proof (spread_quiet _ Sp) as Qs. rewrite Forall_forall in Qs. apply Qs. rewrite <- F4. now apply in_map. }
  set (h2 := put (put h1 R (with_ch rc (pre ++ post))) n (with_ch cn (map top tl))) in *.
  assert (NnR : n <> R) by (intros ->; tauto).
  assert (C2 : changed [R; n] h1 h2).
  { apply (changed_trans _ _ (put h1 R (with_ch rc (pre ++ post)))).
    - pose proof (changed_put h1 R _ (pre ++ post) HR1) as Q. rewrite ScopeProofs.with_ch_twice in Q. revert Q. apply changed_more. intros a _ [<-|[]]. now left.
    - pose proof (changed_put (put h1 R (with_ch rc (pre ++ post))) n _ (map top tl) ltac:(rewrite put_other by auto; exact A2)) as Q. rewrite ScopeProofs.with_ch_twice in Q. revert Q. apply changed_more. intros a _ [<-|[]]. right. now left. }
  assert (K2 : forall a, In a K -> ~ In a [R; n]) by (intros a I [<-|[<-|[]]]; [destruct En as (_ & _ & _ & L); apply L in I; cbn [x_root x] in I; tauto|apply (NK n); [now left|exact I]]).
  assert (Otl : forall a, In a (flat_map nodes tl) -> In a (flat_map nodes (t1 ++ Tc :: t2 ++ tl))) by (intros a I; rewrite flat_map_app; cbn [flat_map]; rewrite flat_map_app, !in_app_iff; tauto).
  destruct (finish_sets R n q h2 m ps (with_ch rc (pre ++ post)) cn (top Tv) (with_ch (data Tv) (map top (kids Tv))) tl vals K st (c_pos cn)) as (h' & vs & K' & D1 & D2 & D3 & D4 & D5).
  { eapply env_changed; [exact C2|exact K2|exact En1]. }
  { unfold h2. rewrite put_other by auto. apply put_same. lia. } { unfold h2. apply put_same. rewrite put_length. lia. } { exact E1. }
  { eapply changed_at; [exact C2| |exact Hv1]. intros [E|[E|[]]]; [apply NR; right; left; congruence|apply Nn; left; congruence]. } { exact V2. }
  { eapply changed_all_hold; [exact C2| |exact B5]. intros a I J. apply Otl, Out in I. destruct J as [J|[J|[]]]; destruct I as (I1 & I2 & _); congruence. }
  { exact F4. } { exact Sp. } { exact Nu. } { exact NnR. } { intro E. apply Nn. left. exact E. } { intro E. apply NR. right. left. exact E. }
  { intros a I. apply Otl, Out in I. tauto. } { apply NK. now left. }
  cbn [c_str with_ch] in D2. rewrite V3 in D2. exists h', vs, K'. split; [|split; [|split; [|split]]].
  - cbn [replace_variables]. erewrite b_ret; [|eapply run_type; exact Hn]. cbn [c_type with_ch]. rewrite E1. cbv iota. erewrite b_ret; [|eapply run_type; exact Hn]. cbn [c_type with_ch]. rewrite E1. tyeq.
    erewrite b_ret; [|exact Is]. cbv beta iota. rewrite bind_assoc. erewrite b_ret; [|eapply run_child_is; [exact Hn|exact HC|reflexivity|lia|exact Hv0]]. cbn [c_type with_ch]. rewrite V2. tyeq. erewrite b_ret; [|reflexivity].
    change (Z.of_nat (length [top Tv])) with 1 in A1. erewrite b_ret; [|exact A1]. rewrite Pre. exact D1.
  - destruct D2 as (P & D2). split; [|exact D2]. intros p I. apply P. right. exact I.
  - exact D3.
  - pose proof (changed_keeps _ _ _ A7) as (Ka & Kb). pose proof (changed_keeps _ _ _ C2) as (Kc & Kd). destruct D4 as (Ke & Kf). split; [lia|]. intros a La Na. cbn [In app] in Na.
    rewrite Kf; [|lia|cbn [In]; tauto]. rewrite Kd; [|lia|cbn [In]; tauto]. apply Kb; [lia|cbn [In]; tauto].
  - intros a I. apply D5 in I. assert (L2 : length h2 = length h1) by (unfold h2; now rewrite !put_length). rewrite L2 in I. cbn [In app]. destruct I as [I|[->|[I|I]]]; [tauto|tauto| |right; right; lia]. apply Otl in I. apply A6 in I. tauto.
Qed.
