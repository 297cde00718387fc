(** * A script where a variable is not set *)

From Coq Require Import String ZArith List Bool Lia Arith ZifyBool Floats.SpecFloat.
From Verif Require Import Base NodeHeap NodeProofs.
From Verif Require MessagesParser MessagesExpr MessagesCompiler MessagesCompile MessagesPipeline.
From Verif Require Import Compiler CompRun IfProofs.
From Verif Require ScopeProofs.
From Verif Require WholeParse.
From Verif Require Import Trees WholeSpec LaySpec VarSpec WholeShape WholeTree WholeVars WholeScript WholeMain WholeSet WholeRoot WholeEnv.
Import ListNotations.
Open Scope string_scope. Open Scope list_scope. Open Scope Z_scope.
Ltac Zify.zify_post_hook ::= idtac.

Definition not_set : string := "variable is not set.".
(** However it ends, the message is there. *)
Definition stops {A} (r : outcome kst A) : Prop :=
  match r with Ret _ s | Throw _ s | Undef s => exists p, In (mkMsg LError p not_set) (k_msgs s) | NoFuel => True end.
Notation adds := (MessagesParser.only_adds k_msgs).
Lemma stops_left {A B} (m : C A) (f : A -> C B) s : stops (m s) -> (forall a, adds (f a)) -> stops (bind m f s).
Proof.
  intros H K. unfold bind. destruct (m s) as [a s1|e s1|s1|]; try exact H. specialize (K a s1). destruct H as (p & I). cbn [stops].
  destruct (f a s1); try exact Logic.I; destruct K as (l & E); exists p; rewrite E; apply in_or_app; now left.
Qed.
Lemma get_none h m ps x K st k : env_ok h x K st -> st k = None -> state_get_variable x k (mkK h m ps) = Ret None (mkK h m ps).
Proof.
  intros (P & (rc & R1 & R2 & R3) & V & L) E. specialize (R3 k). rewrite E in R3. destruct (map_get (c_vars rc) k) as [v|] eqn:G; [contradiction|].
  unfold state_get_variable. erewrite b_ret; [|apply lookup_none].
  - cbv iota beta. erewrite (run_get_variable h m ps); [|exact R1]. now rewrite G.
  - intros p I. apply P in I. destruct (nth_error h p) as [c|] eqn:E1; [|apply nth_error_None in E1; lia]. exists c. split; [reflexivity|]. intro T.
    destruct (Nat.eq_dec p (x_root x)) as [->|N]; [congruence|]. eapply V; eauto.
Qed.
Lemma replace_unset h m ps x K st self n child k idx f : env_ok h x K st -> x_quiet x = false -> nth_error h child = Some k -> c_type k = VARIABLE -> st (c_str k) = None ->
  replace_variable f self x n child idx (mkK h m ps) = Ret tt (mkK h (m ++ [mkMsg LError (c_pos k) not_set]) ps).
Proof.
  intros En Q Hk Tk Sk. unfold replace_variable. erewrite b_ret; [|eapply run_string; [exact Hk|rewrite Tk; reflexivity]]. erewrite b_ret; [|eapply run_pos; exact Hk]. erewrite b_ret; [|eapply run_type; exact Hk].
  erewrite b_ret; [|eapply get_none; eassumption]. cbv beta iota. rewrite Q. reflexivity.
Qed.

(** ** Shapes where the first variable without a value comes after what has values *)
Inductive stuck (st : store) : shape -> Prop :=
  | stuck_variable s i f : st s = None -> stuck st (Shape VARIABLE s i f [])
  | stuck_box t s i f l1 y l2 : box_type t = true -> Forall (ready st) l1 -> stuck st y ->
      (t = COMPONENT_VALUE -> sh_type (hd (sign COLON) (l1 ++ y :: l2)) <> VARIABLE) -> stuck st (Shape t s i f (l1 ++ y :: l2)).
Lemma stuck_plain st s : stuck st s -> sh_type s <> VARIABLE_FUNCTION.
Proof. destruct 1 as [s i f V|t s i f l1 y l2 T]; cbn; [discriminate|destruct t; discriminate]. Qed.

Section Loop.
  Variables (w : world) (st : store).
  Hypothesis W : MessagesCompiler.world_adds w.
  Lemma adds_loop self x n fuel idx : (forall y z, adds (self y z)) -> adds (variables_loop w self x n fuel idx).
  Proof. intro H. now apply MessagesCompiler.adds_variables_loop. Qed.
  Lemma adds_self f y z : adds (replace_variables w f y z).
  Proof. now apply MessagesCompiler.adds_replace_variables. Qed.
  Definition stops_sub (s : shape) : Prop := forall T h m ps x K fuel, tree_shape T = s -> lives x K h T -> env_ok h x K st -> x_quiet x = false -> (cost st s < fuel)%nat ->
    stops (replace_variables w fuel x (top T) (mkK h m ps)).
  Lemma loop_stuck f0 n c x K y l2 : has_children (c_type c) = true -> ~ In n K -> x_quiet x = false -> stuck st y -> (box y -> stops_sub y /\ (cost st y < f0)%nat) ->
    forall l1 rest pre h m ps fuel, nth_error h n = Some (with_ch c (pre ++ map top rest)) -> Forall (holds h) rest -> NoDup (n :: flat_map nodes rest) ->
    (forall a, In a (flat_map nodes rest) -> ~ In a K /\ a <> x_root x) -> env_ok h x K st ->
    map tree_shape rest = l1 ++ y :: l2 -> Forall (ready st) l1 -> Forall (fun s => box s -> (cost st s < f0)%nat) l1 -> (list_sum (map (cost st) l1) < fuel)%nat ->
    stops (variables_loop w (replace_variables w f0) x n fuel (Z.of_nat (length pre)) (mkK h m ps)).
  Proof.
    intros HC NK Qx Sy By. induction l1 as [|s1 l1 IH]; intros rest pre h m ps fuel Hn Ho Nd Nk En Es Rd Rn Fu; (destruct rest as [|T rest]; [discriminate|]); (destruct fuel as [|fuel]; [lia|]);
      cbn [map flat_map app] in *; injection Es as Et Es; pose proof (Forall_inv Ho) as H1; pose proof (Forall_inv_tail Ho) as H2; clear Ho;
      apply NoDup_cons_iff in Nd; destruct Nd as (Nn & Nd); apply nodup_app in Nd; destruct Nd as (Nd1 & Nd2 & Nd3); rewrite in_app_iff in Nn;
      (assert (Nk1 : forall a, In a (nodes T) -> ~ In a K /\ a <> x_root x) by (intros a I; apply Nk, in_or_app; now left));
      (assert (Nk2 : forall a, In a (flat_map nodes rest) -> ~ In a K /\ a <> x_root x) by (intros a I; apply Nk, in_or_app; now right));
      (assert (Ln : (n < length h)%nat) by now apply nth_lt in Hn);
      pose proof (holds_top _ _ H1) as H0; cbn [variables_loop]; (erewrite b_ret; [|eapply run_size; [exact Hn|exact HC]]); cbn [c_ch with_ch];
      (replace (_ <=? _) with false by (rewrite app_length; cbn [length]; lia));
      (erewrite b_ret; [|eapply run_child; [exact Hn|exact HC|rewrite Nat2Z.id; apply nth_mid|lia]]); (erewrite b_ret; [|eapply run_type; exact H0]); cbn [c_type with_ch].
    - (* here *)
      destruct Sy as [s i f V|t s i f l0 y0 l3 Tb R0 S0 Fv].
      + destruct T as [a k l]. cbn [tree_shape] in Et. injection Et as E1 E2 E3 E4 E5. destruct l; [|discriminate E5]. cbn [top data map nodes flat_map] in *. rewrite E1.
        erewrite b_ret; [|eapply run_remove_at; [exact Hn|exact HC|cbn [c_ch with_ch]; rewrite app_length; cbn [length]; lia]]. cbn [c_ch with_ch]. rewrite Nat2Z.id, ScopeProofs.erase_mid, ScopeProofs.with_ch_twice.
        set (h1 := put h n (with_ch c (pre ++ map top rest))). assert (C1 : changed [n] h h1) by (exact (changed_put h n _ (pre ++ map top rest) Hn)).
        assert (Na : a <> n) by (intros ->; apply Nn; left; now left).
        assert (Ha1 : nth_error h1 a = Some (with_ch k [])) by (unfold h1; rewrite put_other by auto; exact H0).
        assert (En1 : env_ok h1 x K st) by (eapply env_changed; [exact C1|intros b I [<-|[]]; tauto|exact En]).
        apply stops_left.
        * erewrite replace_unset; [|exact En1|exact Qx|exact Ha1|exact E1|cbn [c_str with_ch]; rewrite E2; exact V].
          cbn. eexists. apply in_or_app. right. now left.
        * intro u. apply adds_loop. apply adds_self.
      + assert (Bx : box (tree_shape T)) by (rewrite Et; exact Tb). rewrite <- Et in By. destruct (By Bx) as (Ss & Cf).
        assert (Tt : c_type (data T) = t) by (rewrite <- shape_data, Et; reflexivity). rewrite Tt.
        pose proof (Ss T h m ps x K f0 eq_refl (conj H1 (conj Nd1 Nk1)) En Qx Cf) as S1.
        assert (G : stops ((replace_variables w f0 x (top T) ;;; i0 <- step_over n (top T) (Z.of_nat (length pre)) ;; variables_loop w (replace_variables w f0) x n fuel i0) (mkK h m ps))).
        { apply stops_left; [exact S1|]. intro u. apply MessagesCompiler.adds_bind; [apply MessagesCompiler.adds_step_over|]. intro j. apply adds_loop. apply adds_self. }
        destruct t; try discriminate Tb; exact G.
    - (* before *)
      cbn [map] in Fu. rewrite sum_cons in Fu.
      pose proof (Forall_inv Rd) as R1. pose proof (Forall_inv_tail Rd) as R2. pose proof (Forall_inv Rn) as Q1. pose proof (Forall_inv_tail Rn) as Q2. cbv beta in Q1. clear Rd Rn.
      destruct R1 as [t s i f Tt|s i f v Sv|t s i f l Tb Nl Fl Fv].
      + destruct T as [a k l]. cbn [tree_shape] in Et. injection Et as E1 E2 E3 E4 E5. destruct l; [|discriminate E5]. cbn [top data map nodes flat_map] in *. rewrite E1.
        specialize (IH rest (pre ++ [a]) h m ps fuel). rewrite <- app_assoc in IH. specialize (IH Hn H2 ltac:(constructor; tauto) Nk2 En Es R2 Q2 ltac:(rewrite cost_token in Fu by exact Tt; lia)).
        replace (Z.of_nat (length (pre ++ [a]))) with (Z.of_nat (length pre) + 1) in IH by (rewrite app_length; cbn [length]; lia). destruct t; try discriminate Tt; exact IH.
      + destruct T as [a k l]. cbn [tree_shape] in Et. injection Et as E1 E2 E3 E4 E5. destruct l; [|discriminate E5]. cbn [top data map nodes flat_map] in *. rewrite E1.
        erewrite b_ret; [|eapply run_remove_at; [exact Hn|exact HC|cbn [c_ch with_ch]; rewrite app_length; cbn [length]; lia]]. cbn [c_ch with_ch]. rewrite Nat2Z.id, ScopeProofs.erase_mid, ScopeProofs.with_ch_twice.
        set (h1 := put h n (with_ch c (pre ++ map top rest))). assert (C1 : changed [n] h h1) by (exact (changed_put h n _ (pre ++ map top rest) Hn)).
        assert (Na : a <> n) by (intros ->; apply Nn; left; now left).
        assert (Ha1 : nth_error h1 a = Some (with_ch k [])) by (unfold h1; rewrite put_other by auto; exact H0).
        assert (Hn1 : nth_error h1 n = Some (with_ch c (pre ++ map top rest))) by (apply put_same; exact Ln).
        assert (DK : forall b, In b K -> ~ In b [n]) by (intros b I [<-|[]]; tauto).
        assert (En1 : env_ok h1 x K st) by (eapply env_changed; [exact C1|exact DK|exact En]).
        cbn [cost] in Fu. rewrite Sv in Fu. destruct fuel as [|fuel]; [lia|].
        destruct (replace_run h1 m ps x K st n c pre (map top rest) (replace_variables w f0) a _ v fuel En1 Ha1 E1 ltac:(cbn [c_str with_ch]; rewrite E2; exact Sv) NK HC Hn1) as (h2 & Rr & (new & N1 & N2 & N3 & N4 & N5 & N6) & Sp).
        erewrite b_ret; [|exact Rr]. assert (L1 : length h1 = length h) by apply put_length. rewrite L1 in N5.
        assert (C2 : changed [n] h h2) by (eapply changed_trans; eauto).
        assert (Lf : length new = length v) by (rewrite <- (map_length tree_shape new), N3; reflexivity).
        replace (S fuel) with (length new + (S fuel - length new))%nat by lia.
        rewrite (loop_tokens w (replace_variables w f0) x n _ m ps h2 N1 HC new pre (map top rest) (S fuel - length new) eq_refl N2 ltac:(rewrite N3; now apply spread_calm)).
        apply (IH rest (pre ++ map top new)); auto.
        { rewrite <- app_assoc. exact N1. } { eapply changed_all_hold; [exact C2| |exact H2]; intros b I [E|[]]; subst; tauto. } { constructor; tauto. } { eapply env_changed; [exact C2|exact DK|exact En]. } { lia. }
      + assert (Pc : (0 < cost st (Shape t s i f l))%nat) by (cbn [cost]; lia). set (s0 := Shape t s i f l) in *. assert (Bx : box s0) by exact Tb.
        assert (Rs : runs_sub w st s0) by (apply sub_run; [now constructor|exact Bx]). specialize (Q1 Bx).
        destruct (Rs T h m ps x K f0 Et (conj H1 (conj Nd1 Nk1)) En Q1) as (h2 & T' & Rr & (B1 & B2 & B3 & B4 & B5 & B6)).
        assert (Tt : c_type (data T) = t) by (rewrite <- shape_data, Et; reflexivity). rewrite Tt.
        assert (Hn2 : nth_error h2 n = Some (with_ch c (pre ++ top T :: map top rest))) by (eapply changed_at; [exact B6|tauto|exact Hn]).
        assert (DK : forall b, In b K -> ~ In b (nodes T)) by (intros b I J; apply Nk1 in J; tauto).
        assert (Ho2 : Forall (holds h2) rest) by (eapply changed_all_hold; [exact B6| |exact H2]; intros b I J; exact (Nd3 b J I)).
        specialize (IH rest (pre ++ [top T]) h2 m ps fuel). rewrite <- app_assoc in IH. specialize (IH Hn2 Ho2 ltac:(constructor; tauto) Nk2 (env_changed _ _ _ _ _ _ B6 DK En) Es R2 Q2 ltac:(lia)).
        replace (Z.of_nat (length (pre ++ [top T]))) with (Z.of_nat (S (length pre))) in IH by (rewrite app_length; cbn [length]; lia).
        assert (G : stops ((replace_variables w f0 x (top T) ;;; i0 <- step_over n (top T) (Z.of_nat (length pre)) ;; variables_loop w (replace_variables w f0) x n fuel i0) (mkK h m ps))).
        { erewrite b_ret; [|exact Rr]. erewrite b_ret; [|eapply step_over_same; [exact Hn2|exact HC|cbn [c_ch with_ch]; apply nth_mid]]. exact IH. }
        destruct t; try discriminate Tb; exact G.
  Qed.
End Loop.

Lemma hd_type (l1 : list shape) y l2 : hd (sign COLON) (l1 ++ y :: l2) = match l1 with [] => y | z :: _ => z end.
Proof. destruct l1; reflexivity. Qed.
Lemma sub_stuck w st (W : MessagesCompiler.world_adds w) s : stuck st s -> box s -> stops_sub w st s.
Proof.
  induction s as [t x0 i0 f0 S IH] using shape_ind'. intros Sk Bx T h m ps x K fuel Es (H & Nd & Nk) En Qx Fu. unfold box in Bx. cbn [sh_type] in Bx.
  inversion Sk as [? ? ? Sv|? ? ? ? l1 y l2 Tb F1 Sy Fv]; subst; [discriminate|]. clear Sk.
  destruct T as [a c l]. cbn [tree_shape] in Es. injection Es as E1 E2 E3 E4 E5. cbn [top]. pose proof (holds_inv _ _ _ _ H) as (H0 & Ho). cbn [nodes] in *.
  cbn [cost] in Fu. assert (Fu' : (2 + list_sum (map (cost st) (l1 ++ y :: l2)) < fuel)%nat) by (destruct t; try discriminate Bx; exact Fu). clear Fu. destruct fuel as [|fuel]; [lia|].
  assert (HC : has_children (c_type c) = true) by (rewrite E1; now apply box_children).
  assert (La : (a < length h)%nat) by now apply nth_lt in H0.
  assert (Ne : l <> []) by (intros ->; destruct l1; discriminate E5).
  assert (Vs : c_type c = COMPONENT_VALUE -> is_variable_set a false (mkK h m ps) = Ret false (mkK h m ps)).
  { intro Tc. rewrite E1 in Tc. apply (no_variable_set h m ps a (with_ch c (map top l)) false l H0 eq_refl Ho); rewrite E5; [auto|].
    rewrite hd_type. destruct l1 as [|z l1]; [exact (stuck_plain st y Sy)|exact (ready_plain st z (Forall_inv F1))]. }
  assert (L : stops (variables_loop w (replace_variables w fuel) (push x a) a fuel 0 (mkK h m ps))).
  { apply (loop_stuck w st W fuel a c (push x a) K y l2 HC ltac:(apply Nk; now left) Qx Sy) with (l1 := l1) (rest := l) (pre := []); auto.
    - intro By. rewrite map_app, list_sum_app in Fu'. cbn [map] in Fu'. rewrite sum_cons in Fu'. split; [|lia]. rewrite Forall_forall in IH. apply IH; [apply in_or_app; right; now left|exact Sy|exact By].
    - intros b I. apply Nk. now right.
    - now apply env_push.
    - rewrite Forall_forall in *. intros s I _. pose proof (cost_in st s (l1 ++ y :: l2) ltac:(apply in_or_app; now left)). lia.
    - rewrite map_app, list_sum_app in Fu'. lia. }
  cbn [replace_variables]. erewrite b_ret; [|eapply run_type; exact H0]. cbn [c_type with_ch].
  assert (G : stops ((t0 <- type_of a ;; set <- (if ntype_eqb t0 COMPONENT_VALUE then is_variable_set a false else ret false) ;;
        first <- (if set : bool then v <- child_is a 0 VARIABLE_FUNCTION ;; if v : bool then lift (size a) else ret 1 else ret 0) ;;
        variables_loop w (replace_variables w fuel) (push x a) a fuel first ;;; if set : bool then compiler_set_variable (push x a) a else ret tt) (mkK h m ps))).
  { erewrite b_ret; [|eapply run_type; exact H0]. cbn [c_type with_ch].
    assert (Q : (if ntype_eqb (c_type c) COMPONENT_VALUE then is_variable_set a false else ret false) (mkK h m ps) = Ret false (mkK h m ps)).
    { destruct (ntype_eqb (c_type c) COMPONENT_VALUE) eqn:Q; [apply ntype_eqb_spec in Q; auto|reflexivity]. }
    erewrite b_ret; [|exact Q]. cbv beta iota. erewrite b_ret; [|reflexivity]. apply stops_left; [exact L|]. intro u. apply MessagesCompiler.adds_ret. }
  rewrite E1 in *. destruct t; try discriminate Bx; try exact G.
  erewrite b_ret; [|eapply run_empty; [exact H0|cbn [c_type with_ch]; rewrite E1; reflexivity]]. cbn [c_ch with_ch]. destruct l; [now contradict Ne|]. exact G.
Qed.

(** ** A list of nodes which comes to a variable without a value *)
Definition halts (st : store) (l : list shape) : Prop := exists l1 y l2, l = l1 ++ y :: l2 /\ Forall (ready st) l1 /\ stuck st y.
Lemma halts_left st a b : halts st a -> halts st (a ++ b).
Proof. intros (l1 & y & l2 & -> & R & S). exists l1, y, (l2 ++ b). rewrite <- app_assoc. auto. Qed.
Lemma halts_right st a b : Forall (ready st) a -> halts st b -> halts st (a ++ b).
Proof. intros F (l1 & y & l2 & -> & R & S). exists (a ++ l1), y, l2. rewrite <- app_assoc. split; [reflexivity|]. split; [apply Forall_app; auto|exact S]. Qed.
Lemma halts_box st t l : box_type t = true -> halts st l -> (t = COMPONENT_VALUE -> sh_type (hd (sign COLON) l) <> VARIABLE) -> stuck st (inner t l).
Proof. intros B (l1 & y & l2 & -> & R & S) V. now apply stuck_box. Qed.
Lemma halts_one st s : stuck st s -> halts st [s]. Proof. intro H. exists [], s, []. auto. Qed.

(** A statement which sets a variable from such a list. *)
Lemma set_stuck w R K st h m ps T rc pre post key b leaves fuel (W : MessagesCompiler.world_adds w) :
  let x := mkX R [R] false in
  env_ok h x K st -> nth_error h R = Some (with_ch rc (pre ++ top T :: post)) -> holds h T -> NoDup (R :: nodes T) -> (forall a, In a (nodes T) -> ~ In a K) ->
  tree_shape T = inner COMPONENT_VALUE (leaf VARIABLE key 0 :: b ++ leaves) -> spaced COLON b -> halts st leaves -> Forall (fun s => ~ box s) leaves ->
  (cost st (inner COMPONENT_VALUE (b ++ leaves)) < fuel)%nat ->
  stops (replace_variables w fuel x (top T) (mkK h m ps)).
Proof.
  intros x En Hr H Nd NK Es Sb Hl Nb Fu. destruct (spaced_parts _ _ Sb) as (w1 & w2 & -> & W1 & W2). destruct Hl as (l1 & y & l2 & -> & R1 & Sy).
  assert (Nl : l1 ++ y :: l2 <> []) by (destruct l1; discriminate).
  destruct T as [n cn ks]. cbn [top nodes tree_shape] in *. unfold inner in Es. injection Es as E1 E2 E3 E4 E5. pose proof (holds_inv _ _ _ _ H) as (Hn & Ho).
  destruct ks as [|Tv ks]; [discriminate|]. cbn [map] in E5. injection E5 as Ev E5. apply map_eq_app in E5. destruct E5 as (Tb & Tl & -> & Eb & El).
  destruct (shape_leaf _ _ _ _ Ev) as (V1 & V2 & V3 & V4).
  assert (HC : has_children (c_type cn) = true) by (rewrite E1; reflexivity).
  assert (Hn0 : nth_error h n = Some (with_ch cn ([top Tv] ++ map top (Tb ++ Tl)))) by exact Hn.
  assert (Nl' : Tl <> []) by (intros ->; apply Nl; now rewrite <- El).
  pose proof (is_set h m ps n _ Tv Tb Tl w1 w2 key Hn eq_refl Ho Ev Eb W1 Nl') as Is.
  cbn [flat_map] in *. rewrite V4 in *. cbn [app] in Nd, NK.
  apply NoDup_cons_iff in Nd. destruct Nd as (NR & Nd). apply NoDup_cons_iff in Nd. destruct Nd as (Nn & Nd). apply NoDup_cons_iff in Nd. destruct Nd as (Nv & Nd). cbn [In] in NR, Nn.
  pose proof (Forall_inv Ho) as Hv. pose proof (Forall_inv_tail Ho) as Ho1. pose proof (holds_top _ _ Hv) as Hv0.
  assert (Shapes : map tree_shape (Tb ++ Tl) = ((w1 ++ sign COLON :: w2) ++ l1) ++ y :: l2) by (rewrite map_app, Eb, El, <- !app_assoc; reflexivity).
  destruct fuel as [|fuel]; [lia|]. unfold inner in Fu. cbn [cost] in Fu. rewrite app_assoc, map_app, list_sum_app in Fu.
  assert (L : stops (variables_loop w (replace_variables w fuel) (push x n) n fuel 1 (mkK h m ps))).
  { apply (loop_stuck w st W fuel n cn (push x n) K y l2 HC ltac:(apply NK; now left) eq_refl Sy) with (l1 := (w1 ++ sign COLON :: w2) ++ l1) (rest := Tb ++ Tl) (pre := [top Tv]); auto.
    - intro By. exfalso. rewrite Forall_forall in Nb. apply (Nb y); [apply in_or_app; right; now left|exact By].
    - constructor; [tauto|exact Nd].
    - intros a I. split; [apply NK; right; now right|]. cbn [x_root push x]. intros ->. tauto.
    - apply (env_push h x K st n En). now apply nth_lt in Hn.
    - apply Forall_app. split; [|exact R1]. apply Forall_app. split; [destruct W1 as [-> | ->]; repeat constructor|]. constructor; [now constructor|]. destruct W2 as [-> | ->]; repeat constructor.
    - apply Forall_app. split.
      + assert (NB : forall t, box_type t = false -> box (sign t) -> (cost st (sign t) < fuel)%nat) by (intros t Bt B; unfold box in B; cbn in B; congruence).
        apply Forall_app. split; [destruct W1 as [-> | ->]; repeat constructor; now apply NB|]. constructor; [now apply NB|]. destruct W2 as [-> | ->]; repeat constructor; now apply NB.
      + rewrite Forall_forall in Nb |- *. intros s I B. exfalso. apply (Nb s); [apply in_or_app; now left|exact B].
    - lia. }
  cbn [replace_variables]. erewrite b_ret; [|eapply run_type; exact Hn]. cbn [c_type with_ch]. rewrite E1. cbv iota. erewrite b_ret; [|eapply run_type; exact Hn]. cbn [c_type with_ch]. rewrite E1. tyeq.
  erewrite b_ret; [|exact Is]. cbv beta iota. rewrite bind_assoc. erewrite b_ret; [|eapply run_child_is; [exact Hn|exact HC|reflexivity|lia|exact Hv0]]. cbn [c_type with_ch]. rewrite V2. tyeq. erewrite b_ret; [|reflexivity].
  apply stops_left; [exact L|]. intro u. apply MessagesCompiler.adds_compiler_set_variable.
Qed.

(** The statements of a script, the first which uses a variable without a value
    after some which do not. *)
Inductive gives (F : nat) : store -> list shape -> Prop :=
  | bad_set st key b leaves ss : spaced COLON b -> halts st leaves -> Forall (fun s => ~ box s) leaves -> (cost st (inner COMPONENT_VALUE (b ++ leaves)) < F)%nat ->
      gives F st (inner COMPONENT_VALUE (leaf VARIABLE key 0 :: b ++ leaves) :: ss)
  | bad_style st s ss : stuck st s -> sh_type s = COMPONENT_VALUE -> (cost st s < F)%nat -> gives F st (s :: ss)
  | good_set st key b leaves vals ss : spaced COLON b -> Forall (ready st) leaves -> Forall (fun s => ~ box s) leaves -> leaves <> [] -> flat_map (sub st) leaves = vals -> spread vals ->
      (forall s i, vals = [leaf IDENTIFIER s i] -> s <> zs "null") -> (cost st (inner COMPONENT_VALUE (b ++ leaves)) < F)%nat ->
      gives F (upd st key vals) ss -> gives F st (inner COMPONENT_VALUE (leaf VARIABLE key 0 :: b ++ leaves) :: ss)
  | good_style st s s' ss : ready st s -> sh_type s = COMPONENT_VALUE -> sub st s = [s'] -> (cost st s < F)%nat -> gives F st ss -> gives F st (s :: ss).

Lemma root_stuck w R F st ss (W : MessagesCompiler.world_adds w) : gives F st ss -> forall rest done h m ps K rc fuel, map tree_shape rest = ss ->
  nth_error h R = Some (with_ch rc (map top done ++ map top rest)) -> Forall (holds h) (done ++ rest) -> NoDup (R :: flat_map nodes (done ++ rest)) ->
  (forall a, In a (flat_map nodes rest) -> ~ In a K) -> env_ok h (mkX R [R] false) K st -> (length rest < fuel)%nat ->
  stops (variables_loop w (replace_variables w F) (mkX R [R] false) R fuel (Z.of_nat (length done)) (mkK h m ps)).
Proof.
  induction 1 as [st key b leaves ss Sb Hl Nb Fu|st s ss Sk Ts Fu|st key b leaves vals ss Sb Rd Nb Nl Sv Sp Nu Fu Hs IH|st s s' ss Rd Ts Ss Fu Hs IH]; intros rest done h m ps K rc fuel Es Hr Ho Nd NK En Lf;
    (assert (TR : c_type rc = LIST) by (destruct En as (_ & (rc' & Q1 & Q2 & _) & _); cbn [x_root] in Q1; rewrite Hr in Q1; injection Q1 as <-; exact Q2));
    (assert (HC : has_children (c_type rc) = true) by (rewrite TR; reflexivity)); (destruct fuel as [|fuel]; [lia|]);
    (destruct rest as [|T rest]; [discriminate|]); cbn [map] in Es; injection Es as Et Es; cbn [map] in Hr;
    pose proof Ho as Ho0; apply Forall_app in Ho; destruct Ho as (Hd & Ho); pose proof (Forall_inv Ho) as H1; apply Forall_inv_tail in Ho;
    pose proof Nd as Nd0; apply NoDup_cons_iff in Nd; destruct Nd as (NR & Nd); rewrite flat_map_app in NR, Nd; cbn [flat_map] in NR, Nd, NK; rewrite !in_app_iff in NR;
    apply nodup_app in Nd; destruct Nd as (Nd1 & Nd & Nd2); apply nodup_app in Nd; destruct Nd as (Nd3 & Nd4 & Nd5);
    cbn [variables_loop]; (erewrite b_ret; [|eapply run_size; [exact Hr|exact HC]]); cbn [c_ch with_ch]; (replace (_ <=? _) with false by (rewrite app_length, map_length; cbn [length]; lia));
    (erewrite b_ret; [|eapply run_child; [exact Hr|exact HC|cbn [c_ch with_ch]; rewrite Nat2Z.id, <- (map_length top done); apply nth_mid|lia]]); pose proof (holds_top _ _ H1) as H0; (erewrite b_ret; [|eapply run_type; exact H0]); cbn [c_type with_ch].
  - rewrite <- shape_data, Et. cbn [sh_type inner]. apply stops_left.
    + eapply set_stuck; eauto. * constructor; tauto. * intros a I. apply NK, in_or_app. now left.
    + intro u. apply MessagesCompiler.adds_bind; [apply MessagesCompiler.adds_step_over|]. intro j. apply adds_loop; [exact W|]. now apply adds_self.
  - rewrite <- shape_data, Et, Ts. cbv iota. apply stops_left.
    + assert (Bx : box s) by (unfold box; rewrite Ts; reflexivity).
      apply (sub_stuck w st W s Sk Bx T h m ps (mkX R [R] false) K F Et); [|exact En|reflexivity|exact Fu].
      split; [exact H1|]. split; [exact Nd3|]. intros a I. split; [apply NK, in_or_app; now left|]. cbn [x_root]. intros ->. tauto.
    + intro u. apply MessagesCompiler.adds_bind; [apply MessagesCompiler.adds_step_over|]. intro j. apply adds_loop; [exact W|]. now apply adds_self.
  - assert (Np : ~ In (top T) (map top done)) by (intro I; apply tops_in in I; apply (Nd2 _ I), in_or_app; left; apply top_in).
    assert (Nq : ~ In (top T) (map top rest)) by (intro I; apply tops_in in I; exact (Nd5 _ (top_in T) I)).
    destruct (set_done w R false K st h m ps T rc (map top done) (map top rest) key b leaves vals F En Hr H1 ltac:(constructor; tauto) ltac:(intros a I; apply NK, in_or_app; now left) Np Et Sb Rd Nb Nl Sv Sp Nu Fu) as (h1 & vs & K' & A1 & A2 & A3 & A4 & A5).
    rewrite <- shape_data, Et. cbn [sh_type inner]. erewrite b_ret; [|exact A1].
    change (with_vars (with_ch rc (map top done ++ map top rest)) vs) with (with_ch (with_vars rc vs) (map top done ++ map top rest)) in A3.
    erewrite b_ret; [|rewrite <- (map_length top done); eapply step_other; [exact A3|exact HC|exact Nq]]. rewrite map_length.
    assert (Ho1 : Forall (holds h1) (done ++ rest)).
    { eapply holds_all_keeps; [exact A4| |apply Forall_app; split; [exact Hd|exact Ho]]. intros a I [E|J]; rewrite flat_map_app, in_app_iff in I.
      - subst a. tauto. - destruct I as [I|I]; [apply (Nd2 _ I), in_or_app; now left|exact (Nd5 _ J I)]. }
    apply (IH rest done h1 m ps K' (with_vars rc vs) fuel Es A3 Ho1).
    + constructor; [rewrite flat_map_app, in_app_iff; tauto|]. rewrite flat_map_app. apply nodup_app. split; [exact Nd1|]. split; [exact Nd4|]. intros a I J. apply (Nd2 _ I), in_or_app. now right.
    + intros a I J. apply A5 in J. destruct J as [J|[J|J]]; [apply (NK a); [apply in_or_app; now right|exact J]|exact (Nd5 _ J I)|]. pose proof (all_lt _ _ _ Ho I). lia.
    + exact A2.
    + cbn [length] in Lf. lia.
  - assert (Lv : lives (mkX R [R] false) K h T). { split; [exact H1|]. split; [exact Nd3|]. intros a I. split; [apply NK, in_or_app; now left|]. cbn [x_root]. intros ->. tauto. }
    assert (Bx : box s) by (unfold box; rewrite Ts; reflexivity).
    destruct (sub_run w st s Rd Bx T h m ps (mkX R [R] false) K F Et Lv En Fu) as (h1 & T' & A1 & (B1 & B2 & B3 & B4 & B5 & B6)). rewrite Et, Ss in B2. injection B2 as B2.
    assert (L1 : (length h <= length h1)%nat) by apply B6.
    assert (Hr1 : nth_error h1 R = Some (with_ch rc (map top done ++ top T :: map top rest))) by (eapply changed_at; [exact B6|tauto|exact Hr]).
    rewrite <- shape_data, Et, Ts. cbv iota. erewrite b_ret; [|exact A1].
    erewrite b_ret; [|rewrite <- (map_length top done); eapply step_over_same; [exact Hr1|exact HC|cbn [c_ch with_ch]; apply nth_mid]]. rewrite map_length.
    assert (Fr : forall a, In a (nodes T') -> ~ In a (flat_map nodes done) /\ ~ In a (flat_map nodes rest) /\ a <> R).
    { intros a I. apply B5 in I. destruct I as [I|I].
      - split; [intro J; apply (Nd2 _ J), in_or_app; now left|]. split; [intro J; exact (Nd5 _ I J)|]. intros ->. tauto.
      - split; [intro J; pose proof (all_lt _ _ _ Hd J); lia|]. split; [intro J; pose proof (all_lt _ _ _ Ho J); lia|]. intros ->. apply nth_lt in Hr. lia. }
    assert (Q : Forall (holds h1) done /\ Forall (holds h1) rest).
    { split; (eapply changed_all_hold; [exact B6| |eassumption]); intros a I J; [apply (Nd2 _ I), in_or_app; now left|exact (Nd5 _ J I)]. }
    destruct Q as (Hd1 & Ho1).
    replace (Z.of_nat (S (length done))) with (Z.of_nat (length (done ++ [T']))) by (rewrite app_length; cbn [length]; lia).
    apply (IH rest (done ++ [T']) h1 m ps K rc fuel Es).
    + rewrite map_app. cbn [map]. rewrite B3, <- app_assoc. exact Hr1.
    + rewrite <- app_assoc. apply Forall_app. split; [exact Hd1|]. constructor; [exact B1|exact Ho1].
    + rewrite <- app_assoc. cbn [app]. rewrite flat_map_app. cbn [flat_map]. constructor; [rewrite !in_app_iff; intros [I|[I|I]]; [tauto|apply Fr in I; tauto|tauto]|].
      apply nodup_app. split; [exact Nd1|]. split; [apply nodup_app; split; [exact B4|split; [exact Nd4|intros a I; apply Fr in I; tauto]]|].
      intros a I J. apply in_app_or in J. destruct J as [J|J]; [apply Fr in J; tauto|]. apply (Nd2 _ I), in_or_app. now right.
    + intros a I. apply NK, in_or_app. now right.
    + eapply env_changed; [exact B6| |exact En]. intros a I J. apply (NK a); [apply in_or_app; now left|exact I].
    + cbn [length] in Lf. lia.
Qed.

Lemma root_gives w F h m ps T rc ss (W : MessagesCompiler.world_adds w) : gives F nothing ss -> tree_shape T = inner LIST ss -> (forall a c, nth_error h a = Some c -> c_vars c = []) -> rc = data T ->
  holds h T -> NoDup (nodes T) -> (length ss < F)%nat -> stops (replace_variables w (S F) (mkX (top T) [] false) (top T) (mkK h m ps)).
Proof.
  intros St Es V -> H Nd Lf. assert (Ne : ss <> []) by (intros ->; inversion St). destruct T as [R rc rest]. cbn [top data tree_shape nodes] in *. unfold inner in Es. injection Es as E1 E2 E3 E4 E5. pose proof (holds_inv _ _ _ _ H) as (Hr & Ho).
  assert (LR : (R < length h)%nat) by now apply nth_lt in Hr.
  assert (En : env_ok h (mkX R [R] false) [] nothing).
  { split; [intros p [<-|[]]; exact LR|]. split.
    - exists (with_ch rc (map top rest)). split; [exact Hr|]. split; [exact E1|]. intro k. rewrite (V _ _ Hr). exact I.
    - split; [intros a c Ha _; eauto|intros a []]. }
  rewrite <- E5 in *. rewrite map_length in Lf.
  pose proof (root_stuck w R F _ _ W St rest [] h m ps [] rc F eq_refl Hr Ho Nd ltac:(intros a _ []) En Lf) as A. cbn [length map app] in A. change (Z.of_nat 0) with 0 in A.
  cbn [replace_variables]. erewrite b_ret; [|eapply run_type; exact Hr]. cbn [c_type with_ch]. rewrite E1. cbv iota.
  erewrite b_ret; [|eapply run_empty; [exact Hr|cbn [c_type with_ch]; rewrite E1; reflexivity]]. cbn [c_ch with_ch]. replace (match map top rest with [] => true | _ :: _ => false end) with false by (destruct rest; [now contradict Ne|reflexivity]). cbv iota.
  erewrite b_ret; [|eapply run_type; exact Hr]. cbn [c_type with_ch]. rewrite E1. tyeq. erewrite b_ret; [|reflexivity]. cbv beta iota. erewrite b_ret; [|reflexivity]. cbn [push x_root x_parents x_quiet].
  apply stops_left; [exact A|]. intro u. apply MessagesCompiler.adds_ret.
Qed.

(** ** The shapes of a script whose resolution fails *)
Lemma value_none st e v : agrees st e -> script_value v -> value_in e v = None -> stuck st (value_leaf v).
Proof. intros (A & _) Ok E. destruct v as [w|n u|w]; try discriminate. cbn in E. apply (stuck_variable st _ 0 []). rewrite (A w Ok), E. reflexivity. Qed.
Lemma flat_value v : ~ box (value_leaf v). Proof. destruct v; discriminate. Qed.
Lemma flat_group g : Forall (fun s => ~ box s) (group_leaves g).
Proof. induction g as [|v [|w g] IH]; [constructor|constructor; [apply flat_value|constructor]|]. rewrite leaves_cons. constructor; [apply flat_value|]. constructor; [discriminate|exact IH]. Qed.
Lemma group_none st e g : agrees st e -> Forall script_value g -> group_in e g = None -> halts st (group_leaves g).
Proof.
  intro Ag. unfold group_in. induction g as [|v g IH]; intros Ok E; [discriminate|]. cbn [all] in E. pose proof (Forall_inv Ok) as Ok1. apply Forall_inv_tail in Ok. destruct (value_in e v) as [v'|] eqn:Ev.
  - destruct (value_sub st e v v' Ag Ok1 Ev) as (R1 & _). destruct (all (value_in e) g) as [gs|] eqn:Eg; [discriminate|]. destruct g as [|w g]; [discriminate|]. rewrite leaves_cons.
    apply (halts_right st [_; _]); [constructor; [exact R1|]; constructor; [now constructor|constructor]|]. now apply IH.
  - pose proof (value_none st e v Ag Ok1 Ev) as S. destruct g as [|w g]; [now apply halts_one|]. rewrite leaves_cons. apply (halts_left st [_]). now apply halts_one.
Qed.
Lemma groups_none st e gs : agrees st e -> Forall (fun g => g <> [] /\ Forall script_value g) gs -> all (group_in e) gs = None -> forall l, groups_leaves gs l -> halts st l.
Proof.
  intro Ag. unfold groups_leaves. induction gs as [|g gs IH]; intros Ok E l L; [discriminate|]. cbn [all] in E. pose proof (Forall_inv Ok) as (Ng & Ok1). apply Forall_inv_tail in Ok.
  destruct (group_in e g) as [g'|] eqn:Eg.
  - destruct (group_sub st e g g' Ag Ng Ok1 Eg) as (R1 & _). destruct (all (group_in e) gs) as [gs'|] eqn:Es; [discriminate|]. destruct gs as [|g2 gs]; [discriminate|].
    destruct L as (a & b & -> & -> & (c & d & -> & Hc & Hd)). apply halts_right; [exact R1|]. apply halts_right; [apply (tokens_ready st c), (spaced_tokens COMMA eq_refl c Hc)|]. now apply IH.
  - pose proof (group_none st e g Ag Ok1 Eg) as S. destruct gs as [|g2 gs]; [change (l = group_leaves g) in L; rewrite L; exact S|]. destruct L as (a & b & -> & -> & _). now apply halts_left.
Qed.
Lemma decl_none st e d : agrees st e -> decl_with script_value d -> decl_in e d = None -> forall s, decl_shape d s -> stuck st s /\ sh_type s = COMPONENT_VALUE.
Proof.
  intros Ag Ok E s (l & (a & b & -> & Ha & Hb) & ->). unfold decl_in in E. destruct (all (group_in e) (d_groups d)) eqn:Eg; [discriminate|]. split; [|reflexivity].
  destruct Ha as (a1 & r & -> & -> & (c & g & -> & Hc & Hg)). destruct Ok as (_ & _ & _ & Ok3).
  apply halts_box; [reflexivity| |intros _; discriminate]. apply halts_left. apply (halts_right st [_]); [constructor; [now constructor|constructor]|]. apply halts_right; [apply (tokens_ready st c), (spaced_tokens COLON eq_refl c Hc)|].
  eapply groups_none; eassumption.
Qed.
Lemma decls_none st e ds : agrees st e -> Forall (decl_with script_value) ds -> all (decl_in e) ds = None -> forall ss, Forall2 decl_shape ds ss -> halts st ss.
Proof.
  intro Ag. induction ds as [|d ds IH]; intros Ok E ss F; [discriminate|]. inversion F as [|? s ? ss0 H1 H2]; subst. cbn [all] in E. pose proof (Forall_inv Ok) as Ok1. apply Forall_inv_tail in Ok. destruct (decl_in e d) as [d'|] eqn:Ed.
  - destruct (decl_sub st e d d' Ag Ok1 Ed) as (_ & _ & K). destruct (K s H1) as (K1 & _). destruct (all (decl_in e) ds); [discriminate|]. apply (halts_right st [s]); [constructor; [exact K1|constructor]|]. now apply IH.
  - destruct (decl_none st e d Ag Ok1 Ed s H1) as (S & _). apply (halts_left st [s]). now apply halts_one.
Qed.
Lemma rule_none st e r : agrees st e -> rule_with script_value r -> rule_in e r = None -> forall s, rule_shape r s -> stuck st s /\ sh_type s = COMPONENT_VALUE.
Proof.
  intros Ag (Nr & Fs & Nd & Fd) E s (sel & ss & Hs & Hd & ->). unfold rule_in in E. destruct (all (decl_in e) (r_decls r)) as [ds|] eqn:Ed; [discriminate|]. split; [|reflexivity].
  pose proof (decls_none st e _ Ag Fd Ed ss Hd) as Hl. destruct (tokens_ready st sel (selector_tokens r sel Hs)) as (A & B).
  assert (L : stuck st (listed ss)).
  { destruct ss as [|x [|y ss]]; [destruct Hl as (l1 & y & l2 & Q & _); destruct l1; discriminate| |apply halts_box; [reflexivity|exact Hl|discriminate]].
    destruct Hl as (l1 & y & l2 & Q & _ & S). destruct l1 as [|z [|]]; try discriminate. injection Q as -> <-. exact S. }
  apply halts_box; [reflexivity| |].
  - apply halts_right; [exact A|]. apply halts_one. apply halts_box; [reflexivity|now apply halts_one|discriminate].
  - intros _. destruct sel as [|x sel]; [discriminate|]. cbn [app hd]. pose proof (Forall_inv (selector_tokens r _ Hs)) as (_ & T). intro Q. rewrite Q in T. discriminate.
Qed.
Lemma gives_more F G st ss : (F <= G)%nat -> gives F st ss -> gives G st ss.
Proof.
  intros L. induction 1; [apply bad_set|apply bad_style|eapply good_set|eapply good_style]; eauto; eapply Nat.lt_le_trans; eassumption.
Qed.
Lemma script_gives l : forall st e ss, agrees st e -> Forall statement_ok l -> resolve e l = None -> Forall2 statement_shape l ss -> exists F, gives F st ss.
Proof.
  induction l as [|x l IH]; intros st e ss Ag Ok Er Hs; [discriminate|].
  inversion Hs as [|? s ? ss0 H1 H2]; subst. pose proof (Forall_inv Ok) as Ok1. apply Forall_inv_tail in Ok. destruct x as [w g|r]; cbn [resolve] in Er.
  - destruct Ok1 as (Nw & Ne & Fg). destruct H1 as (b & Hb & ->). destruct (group_in e g) as [v|] eqn:Eg.
    + destruct (group_sub st e g v Ag Ne Fg Eg) as (A1 & A2 & A3 & A4 & A5). destruct (group_spread v A3 A4) as (G1 & G2). destruct (resolve (set_to e w v) l) eqn:E2; [discriminate|].
      destruct (IH _ _ _ (agrees_set st e w v Ag A3 A4) Ok E2 H2) as (F & Hf). exists (Nat.max F (S (cost st (inner COMPONENT_VALUE (b ++ group_leaves g))))).
      eapply good_set with (vals := group_leaves v); auto; [intro Q; destruct g as [|? [|]]; [congruence|discriminate|discriminate]|lia|]. eapply gives_more; [|exact Hf]. lia.
    + exists (S (cost st (inner COMPONENT_VALUE (b ++ group_leaves g)))). apply bad_set; auto; [eapply group_none; eassumption|apply flat_group].
  - destruct (rule_in e r) as [r'|] eqn:Eg.
    + destruct (rule_sub st e r r' Ag Ok1 Eg) as (R1 & R2). destruct (R2 s H1) as (R3 & R4 & s' & R5 & R6). destruct (resolve e l) eqn:E2; [discriminate|].
      destruct (IH _ _ _ Ag Ok E2 H2) as (F & Hf). exists (Nat.max F (S (cost st s))). eapply good_style; eauto; [lia|]. eapply gives_more; [|exact Hf]. lia.
    + destruct (rule_none st e r Ag Ok1 Eg s H1) as (S & T). exists (Datatypes.S (cost st s)). apply bad_style; auto.
Qed.

(** ** Mild: with some value for every variable it would go through *)
Definition all_set : env := fun _ => Some [Word (zs "a")].
Lemma agrees_all : agrees (fun _ => Some [leaf IDENTIFIER (zs "a") 0]) all_set.
Proof.
  split; [reflexivity|]. intros w v E. injection E as <-. split; [discriminate|]. constructor; [|constructor]. cbn. repeat split; try discriminate; try (repeat constructor; cbn; lia); vm_compute; intuition discriminate.
Qed.
Lemma resolve_total l : forall e, (forall w, e w <> None) -> exists l', resolve e l = Some l'.
Proof.
  assert (A : forall {A B} (f : A -> option B) l, (forall x, f x <> None) -> all f l <> None).
  { intros A B f k H. induction k as [|x k IH]; [discriminate|]. cbn [all]. specialize (H x). destruct (f x); [|congruence]. destruct (all f k); [discriminate|exact IH]. }
  assert (G : forall e, (forall w, e w <> None) -> forall g, group_in e g <> None).
  { intros e H g. unfold group_in. specialize (A _ _ (value_in e) g). destruct (all (value_in e) g); [discriminate|]. exfalso. apply A; [|reflexivity]. intros [| |w]; try discriminate. apply H. }
  induction l as [|[w g|r] l IH]; intros e H; cbn [resolve]; [eauto| |].
  - pose proof (G e H g) as Q. destruct (group_in e g) as [v|]; [|congruence]. destruct (IH (set_to e w v)) as (l' & ->); [|cbn; eauto]. intro x. unfold set_to. destruct (str_eqb _ _); [discriminate|apply H].
  - assert (Q : rule_in e r <> None).
    { unfold rule_in. pose proof (A _ _ (decl_in e) (r_decls r)) as A1. destruct (all (decl_in e) (r_decls r)); [discriminate|]. exfalso. apply A1; [|reflexivity]. intro d. unfold decl_in. pose proof (A _ _ (group_in e) (d_groups d)) as A2. destruct (all (group_in e) (d_groups d)); [discriminate|]. intros _. apply A2; [apply (G e H)|reflexivity]. }
    destruct (rule_in e r); [|congruence]. destruct (IH e H) as (l' & ->). cbn. eauto.
Qed.
Lemma script_mild l ss : Forall statement_ok l -> Forall2 statement_shape l ss -> Forall mild ss.
Proof.
  intros Ok H. destruct (resolve_total l all_set ltac:(discriminate)) as (l' & E).
  destruct (script_steps _ l _ all_set l' ss agrees_all Ok E H (Nat.lt_succ_diag_r _)) as (_ & _ & out & S & _). eapply steps_mild. exact S.
Qed.
