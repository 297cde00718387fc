(** * replace_variables on a tree whose variables have values *)

From Coq Require Import String ZArith List Bool Lia Arith ZifyBool Floats.SpecFloat.
From Verif Require Import Base NodeHeap NodeProofs.
From Verif Require Import Compiler CompRun IfProofs.
From Verif Require ScopeProofs.
From Verif Require Import Trees WholeSpec LaySpec VarSpec WholeShape WholeTree.
Import ListNotations.
Open Scope string_scope. Open Scope list_scope. Open Scope Z_scope.
Ltac Zify.zify_post_hook ::= idtac.

(** ** Heaps where only the children of some nodes change *)
Definition changed (M : list addr) (h h' : heap) : Prop :=
  (length h <= length h')%nat
  /\ (forall a c, nth_error h a = Some c -> exists l, nth_error h' a = Some (with_ch c l) /\ (~ In a M -> l = c_ch c))
  /\ (forall a c, (length h <= a)%nat -> nth_error h' a = Some c -> c_vars c = []).
Lemma same_ch c : with_ch c (c_ch c) = c. Proof. now destruct c. Qed.
Lemma changed_refl M h : changed M h h.
Proof.
  split; [lia|]. split.
  - intros a c H. exists (c_ch c). rewrite same_ch. auto.
  - intros a c L H. apply nth_lt in H. lia.
Qed.
Lemma changed_trans M h1 h2 h3 : changed M h1 h2 -> changed M h2 h3 -> changed M h1 h3.
Proof.
  intros (L1 & A1 & B1) (L2 & A2 & B2). split; [lia|]. split.
  - intros a c H. destruct (A1 a c H) as (l1 & H1 & E1). destruct (A2 a _ H1) as (l2 & H2 & E2). exists l2. split; [exact H2|]. intro N. rewrite (E2 N). cbn. auto.
  - intros a c L H. destruct (le_lt_dec (length h2) a) as [G|G]; [eapply B2; eauto|].
    destruct (nth_error h2 a) as [k|] eqn:E; [|apply nth_error_None in E; lia]. destruct (A2 a k E) as (l & H2 & _). rewrite H2 in H. injection H as <-. cbn. eapply B1; eauto.
Qed.
Lemma changed_more M N h h' : (forall a, (a < length h)%nat -> In a M -> In a N) -> changed M h h' -> changed N h h'.
Proof.
  intros S (L & A & B). split; [exact L|]. split; [|exact B]. intros a c H. destruct (A a c H) as (l & H1 & E). exists l. split; [exact H1|]. intro Q. apply E. intro I. apply Q, S; [now apply nth_lt in H|exact I].
Qed.
Lemma changed_put h n c l : nth_error h n = Some c -> changed [n] h (put h n (with_ch c l)).
Proof.
  intro H. split; [now rewrite put_length|]. split.
  - intros a k Ha. destruct (Nat.eq_dec a n) as [->|Na].
    + assert (k = c) by congruence. subst. exists l. split; [apply put_same; now apply nth_lt in H|]. intro N. exfalso. apply N. now left.
    + exists (c_ch k). rewrite same_ch, put_other by auto. auto.
  - intros a k L Ha. apply nth_lt in Ha. rewrite put_length in Ha. lia.
Qed.
Lemma changed_app M h c : c_vars c = [] -> changed M h (h ++ [c]).
Proof.
  intro V. split; [rewrite app_length; lia|]. split.
  - intros a k Ha. exists (c_ch k). rewrite same_ch, nth_error_app1 by now apply nth_lt in Ha. auto.
  - intros a k L Ha. rewrite nth_error_app2 in Ha by exact L. destruct (a - length h)%nat as [|[|j]]; cbn in Ha; [|discriminate|discriminate]. now injection Ha as <-.
Qed.
Lemma changed_keeps M h h' : changed M h h' -> keeps M h h'.
Proof.
  intros (L & A & _). split; [exact L|]. intros b Hb N. destruct (nth_error h b) as [c|] eqn:E; [|apply nth_error_None in E; lia]. destruct (A b c E) as (l & H & Q). rewrite H, (Q N), same_ch. reflexivity.
Qed.
Lemma changed_at M h h' a c : changed M h h' -> ~ In a M -> nth_error h a = Some c -> nth_error h' a = Some c.
Proof. intros (_ & A & _) N H. destruct (A a c H) as (l & H1 & Q). rewrite H1, (Q N), same_ch. reflexivity. Qed.
Lemma changed_holds M h h' T : changed M h h' -> (forall a, In a (nodes T) -> ~ In a M) -> holds h T -> holds h' T.
Proof. intros Ch D H. eapply holds_keeps; [apply changed_keeps; exact Ch|exact D|exact H]. Qed.
Lemma changed_all_hold M h h' l : changed M h h' -> (forall a, In a (flat_map nodes l) -> ~ In a M) -> Forall (holds h) l -> Forall (holds h') l.
Proof. intros Ch D H. eapply holds_all_keeps; [apply changed_keeps; exact Ch|exact D|exact H]. Qed.

(** ** The values kept at the root, by key *)
Definition store := str -> option (list shape).
Definition value_type (t : ntype) : bool := match t with IDENTIFIER | INTEGER => true | _ => false end.
(** Words and numbers with a white space between each two of them. *)
Inductive spread : list shape -> Prop :=
  | spread_one t s i : value_type t = true -> spread [leaf t s i]
  | spread_more t s i l : value_type t = true -> spread l -> spread (leaf t s i :: sign WHITESPACE :: l).
Definition tokens_at (h : heap) (K : list addr) (b : addr) (l : list shape) : Prop :=
  exists T, holds h T /\ top T = b /\ (forall a, In a (nodes T) -> In a K)
  /\ ([tree_shape T] = l \/ (kind T = LIST /\ map tree_shape (kids T) = l)).
Definition value_at (h : heap) (K : list addr) (v : addr) (l : list shape) : Prop :=
  In v K /\ exists cv a b ca, nth_error h v = Some cv /\ c_type cv = LIST /\ c_ch cv = [a; b]
  /\ In a K /\ nth_error h a = Some ca /\ c_type ca = VARIABLE /\ tokens_at h K b l.
Definition kept_as (h : heap) (K : list addr) (o : option addr) (l : option (list shape)) : Prop :=
  match o, l with None, None => True | Some v, Some l => value_at h K v l /\ spread l | _, _ => False end.
Definition env_ok (h : heap) (x : ctx) (K : list addr) (st : store) : Prop :=
  (forall p, In p (x_parents x) -> (p < length h)%nat)
  /\ (exists rc, nth_error h (x_root x) = Some rc /\ c_type rc = LIST /\ forall k, kept_as h K (map_get (c_vars rc) k) (st k))
  /\ (forall a c, nth_error h a = Some c -> a <> x_root x -> c_vars c = [])
  /\ (forall a, In a K -> (a < length h)%nat /\ a <> x_root x).
Lemma tokens_changed M h h' K b l : changed M h h' -> (forall a, In a K -> ~ In a M) -> tokens_at h K b l -> tokens_at h' K b l.
Proof. intros C D (T & H & E & S & V). exists T. split; [|auto]. eapply changed_holds; eauto. Qed.
Lemma value_changed M h h' K v l : changed M h h' -> (forall a, In a K -> ~ In a M) -> value_at h K v l -> value_at h' K v l.
Proof.
  intros C D (I & cv & a & b & ca & H1 & H2 & H3 & H4 & H5 & H6 & H7). split; [exact I|]. exists cv, a, b, ca. repeat (split; [try assumption; try (eapply changed_at; eauto)|]). eapply tokens_changed; eauto.
Qed.
Lemma kept_changed M h h' K o l : changed M h h' -> (forall a, In a K -> ~ In a M) -> kept_as h K o l -> kept_as h' K o l.
Proof. intros C D. destruct o, l; cbn; try tauto. intros (A & B). split; [eapply value_changed; eauto|exact B]. Qed.
Lemma env_changed M h h' x K st : changed M h h' -> (forall a, In a K -> ~ In a M) -> env_ok h x K st -> env_ok h' x K st.
Proof.
  intros C D (P & (rc & R1 & R2 & R3) & V & L). pose proof C as (Le & A & B). split; [intros p I; apply P in I; lia|]. split.
  - destruct (A _ _ R1) as (l & H & _). exists (with_ch rc l). split; [exact H|]. split; [exact R2|]. intro k. cbn [c_vars with_ch]. eapply kept_changed; eauto.
  - split.
    + intros a c H N. destruct (le_lt_dec (length h) a) as [G|G]; [eapply B; eauto|].
      destruct (nth_error h a) as [k|] eqn:E; [|apply nth_error_None in E; lia]. destruct (A a k E) as (l & H2 & _). rewrite H2 in H. injection H as <-. cbn. eapply V; eauto.
    + intros a I. apply L in I. split; [lia|apply I].
Qed.
Lemma env_push h x K st n : env_ok h x K st -> (n < length h)%nat -> env_ok h (push x n) K st.
Proof. intros (P & R & V & L) Ln. split; [intros p [<-|I]; [exact Ln|now apply P]|]. split; [exact R|]. split; [exact V|exact L]. Qed.

(** ** Reading a variable *)
Lemma lookup_none h m ps k : forall l, (forall p, In p l -> exists c, nth_error h p = Some c /\ (c_type c = OPEN_CURLYBRACKET -> c_vars c = [])) ->
  lookup_parents l k (mkK h m ps) = Ret None (mkK h m ps).
Proof.
  induction l as [|p l IH]; intro H; [reflexivity|]. destruct (H p (or_introl eq_refl)) as (c & Hc & V). cbn [lookup_parents].
  specialize (IH (fun q I => H q (or_intror I))).
  erewrite b_ret; [|eapply run_is; exact Hc]. destruct (ntype_eqb (c_type c) OPEN_CURLYBRACKET) eqn:E; [|exact IH]. apply ntype_eqb_spec in E.
  erewrite b_ret; [|eapply run_boolean; [exact Hc|rewrite E; reflexivity]]. destruct (c_bool c); [|exact IH].
  erewrite b_ret; [|eapply run_get_variable; exact Hc]. rewrite (V E). exact IH.
Qed.
Lemma get_run h m ps x K st k l : env_ok h x K st -> st k = Some l -> exists v, state_get_variable x k (mkK h m ps) = Ret (Some v) (mkK h m ps) /\ value_at h K v l /\ spread l.
Proof.
  intros (P & (rc & R1 & R2 & R3) & V & L) E. specialize (R3 k). rewrite E in R3. destruct (map_get (c_vars rc) k) as [v|] eqn:G; [|contradiction]. cbn in R3.
  exists v. split; [|exact R3]. unfold state_get_variable. erewrite b_ret; [|apply lookup_none].
  - cbv iota beta. erewrite (run_get_variable h m ps); [|exact R1]. now rewrite G.
  - intros p I. apply P in I. destruct (nth_error h p) as [c|] eqn:E1; [|apply nth_error_None in E1; lia]. exists c. split; [reflexivity|]. intro T.
    destruct (Nat.eq_dec p (x_root x)) as [->|N]; [congruence|]. eapply V; eauto.
Qed.

(** ** Inserting a value *)
Definition copy (c : cell) : cell := with_flags (with_str (with_dec (with_int (with_bool (CompRun.blank (c_type c) (c_pos c)) (c_bool c)) (c_int c)) (c_dec c)) (c_str c)) (c_flags c).
Lemma run_clone h m ps f a c : nth_error h a = Some c -> c_ch c = [] -> c_vars c = [] -> lift (clone (S f) a) (mkK h m ps) = Ret (length h) (mkK (h ++ [copy c]) m ps).
Proof.
  intros H E V. unfold lift. cbn [clone k_heap]. unfold NodeHeap.bind, load, new_node, NodeHeap.store, NodeHeap.ret. rewrite H.
  rewrite nth_mid. cbn [clone_children clone_vars]. rewrite E, V. cbn [clone_children clone_vars]. unfold NodeHeap.ret. rewrite put_mid. reflexivity.
Qed.
Lemma run_insert_space h m ps n c pre post x k : nth_error h n = Some (with_ch c (pre ++ post)) -> has_children (c_type c) = true -> nth_error h x = Some k -> c_type k = WHITESPACE ->
  (exists p q cq, pre = p ++ [q] /\ nth_error h q = Some cq /\ c_type cq <> WHITESPACE) ->
  lift (insert_child n (Z.of_nat (length pre)) x) (mkK h m ps) = Ret tt (mkK (put h n (with_ch c (pre ++ x :: post))) m ps).
Proof.
  intros H E K T (p & q & cq & -> & Hq & Tq). unfold lift, insert_child, NodeHeap.bind, load, supports. cbn [k_heap c_ch with_ch c_type]. rewrite H. cbn [c_ch with_ch c_type]. rewrite E. destruct post as [|y post].
  - rewrite !app_nil_r, Z.eqb_refl. unfold add_child, NodeHeap.bind, load, supports. rewrite H. cbn [c_ch with_ch c_type]. rewrite E. unfold NodeHeap.ret. rewrite K, T. change (ntype_eqb WHITESPACE EOF_TOKEN) with false. change (ntype_eqb WHITESPACE WHITESPACE) with true. cbv iota.
    rewrite !app_nil_r, rev_app_distr. cbn [rev app]. rewrite Hq. apply ntype_eqb_neq in Tq. rewrite Tq. unfold NodeHeap.store. reflexivity.
  - unfold NodeHeap.ret. rewrite app_length with (l := p ++ [q]) (l' := y :: post). replace (_ =? _) with false by (cbn [length]; lia). replace (_ <=? _) with false by (cbn [length]; lia).
    rewrite K, T. change (ntype_eqb WHITESPACE EOF_TOKEN) with false. cbv iota. rewrite Nat2Z.id. unfold NodeHeap.store. f_equal. f_equal. f_equal. unfold with_ch. cbn. f_equal. apply ScopeProofs.insert_mid.
Qed.
Definition leaf_tree (T : tree) : Prop := kids T = [].
Lemma shape_leaf T t s i : tree_shape T = leaf t s i -> kids T = [] /\ c_type (data T) = t /\ c_str (data T) = s /\ nodes T = [top T].
Proof. destruct T as [a c l]. unfold leaf. cbn. intro E. injection E as E1 E2 E3 E4 E5. destruct l; [auto|discriminate]. Qed.

(** What an insertion leaves. *)
Definition inserted (n : addr) (c : cell) (pre post : list addr) (want : list shape) (h h' : heap) : Prop :=
  exists new, nth_error h' n = Some (with_ch c (pre ++ map top new ++ post)) /\ Forall (holds h') new /\ map tree_shape new = want
  /\ NoDup (flat_map nodes new) /\ (forall a, In a (flat_map nodes new) -> (length h <= a)%nat) /\ changed [n] h h'.

Section Insert.
  Variables (n : addr) (c : cell).
  Hypothesis HC : has_children (c_type c) = true.
  Variables (m : list msg) (ps : list str).
  (** One clone. *)
  Lemma insert_one h pre post T f : nth_error h n = Some (with_ch c (pre ++ post)) -> holds h T -> kids T = [] -> c_vars (data T) = [] -> c_type (data T) <> EOF_TOKEN ->
    (c_type (data T) = WHITESPACE -> exists p q cq, pre = p ++ [q] /\ nth_error h q = Some cq /\ c_type cq <> WHITESPACE) ->
    exists h' T', (c1 <- lift (clone (S f) (top T)) ;; lift (insert_child n (Z.of_nat (length pre)) c1)) (mkK h m ps) = Ret tt (mkK h' m ps)
    /\ (forall (k : C unit), (c1 <- lift (clone (S f) (top T)) ;; lift (insert_child n (Z.of_nat (length pre)) c1) ;;; k) (mkK h m ps) = k (mkK h' m ps))
    /\ nth_error h' n = Some (with_ch c (pre ++ top T' :: post)) /\ holds h' T' /\ tree_shape T' = tree_shape T /\ nodes T' = [length h] /\ length h' = S (length h) /\ changed [n] h h'.
  Proof.
    intros Hn H Kt Vt Te Ws. pose proof (holds_top _ _ H) as H0. rewrite Kt in H0. cbn [map] in H0.
    assert (Ln : (n < length h)%nat) by now apply nth_lt in Hn.
    pose proof (run_clone h m ps f (top T) _ H0 eq_refl Vt) as Rc. set (k := copy (with_ch (data T) [])) in *.
    assert (Hk : nth_error (h ++ [k]) (length h) = Some k) by apply nth_mid.
    assert (Hn1 : nth_error (h ++ [k]) n = Some (with_ch c (pre ++ post))) by (rewrite nth_error_app1 by exact Ln; exact Hn).
    exists (put (h ++ [k]) n (with_ch c (pre ++ length h :: post))), (Tree (length h) k []).
    assert (Ins : lift (insert_child n (Z.of_nat (length pre)) (length h)) (mkK (h ++ [k]) m ps) = Ret tt (mkK (put (h ++ [k]) n (with_ch c (pre ++ length h :: post))) m ps)).
    { destruct (ntype_eq_dec (c_type (data T)) WHITESPACE) as [W|W].
      - eapply run_insert_space; [exact Hn1|exact HC|exact Hk|exact W|]. destruct (Ws W) as (p & q & cq & Ep & Hq & Tq). exists p, q, cq. split; [exact Ep|]. split; [|exact Tq]. rewrite nth_error_app1; [exact Hq|now apply nth_lt in Hq].
      - pose proof (run_insert (h ++ [k]) m ps n _ Hn1 (Z.of_nat (length pre)) (length h) k HC Hk Te W) as R. cbn [c_ch with_ch] in R. rewrite Nat2Z.id, ScopeProofs.insert_mid in R. apply R. rewrite app_length. lia. }
    split; [rewrite (b_ret _ _ _ _ _ Rc); exact Ins|]. split; [intro kk; rewrite (b_ret _ _ _ _ _ Rc); rewrite (b_ret _ _ _ _ _ Ins); reflexivity|].
    split; [apply put_same; rewrite app_length; cbn [length]; lia|].
    split; [constructor; [cbn [map]; rewrite put_other by lia; rewrite Hk; reflexivity|constructor]|].
    split; [destruct T as [a cc l]; cbn in Kt; subst l; reflexivity|]. split; [reflexivity|]. split; [rewrite put_length, app_length; cbn; lia|].
    eapply changed_trans; [apply (changed_app [n] h k eq_refl)|]. apply changed_put with (c := with_ch c (pre ++ post)); exact Hn1.
  Qed.
  Lemma insert_spread S : spread S -> forall l pre post h f, map tree_shape l = S -> Forall (holds h) l -> Forall (fun T => c_vars (data T) = []) l -> (forall a, In a (flat_map nodes l) -> a <> n) ->
    nth_error h n = Some (with_ch c (pre ++ post)) ->
    exists h', insert_clones (Datatypes.S f) n (Z.of_nat (length pre)) (map top l) (mkK h m ps) = Ret tt (mkK h' m ps) /\ inserted n c pre post S h h'.
  Proof.
    induction 1 as [t s i V|t s i S0 V Sp IH]; intros l pre post h f El Ho Va D Hn.
    - destruct l as [|T [|T2 l]]; try discriminate El. cbn [map] in El. injection El as El. destruct (shape_leaf _ _ _ _ El) as (K1 & K2 & K3 & K4). pose proof (Forall_inv Ho) as H1. pose proof (Forall_inv Va) as V1. cbv beta in V1.
      destruct (insert_one h pre post T f Hn H1 K1 V1) as (h' & T' & _ & R & A1 & A2 & A3 & A4 & A5 & A6).
      { rewrite K2. intros ->. discriminate V. } { rewrite K2. intros ->. discriminate V. }
      exists h'. split; [cbn [map insert_clones]; rewrite R; reflexivity|]. exists [T']. cbn [map app flat_map]. rewrite app_nil_r, A4. split; [exact A1|]. split; [constructor; [exact A2|constructor]|]. split; [now rewrite A3, El|].
      split; [repeat constructor; intros []|]. split; [intros a [<-|[]]; lia|exact A6].
    - destruct l as [|T [|T2 l]]; try discriminate El. cbn [map] in El. injection El as E1 E2 E3. destruct (shape_leaf _ _ _ _ E1) as (K1 & K2 & K3 & K4). destruct (shape_leaf _ _ _ _ E2) as (J1 & J2 & J3 & J4).
      pose proof (Forall_inv Ho) as H1. pose proof (Forall_inv_tail Ho) as Ho1. pose proof (Forall_inv Ho1) as H2. pose proof (Forall_inv_tail Ho1) as Ho2.
      pose proof (Forall_inv Va) as V1. pose proof (Forall_inv_tail Va) as Va1. pose proof (Forall_inv Va1) as V2. pose proof (Forall_inv_tail Va1) as Va2. cbv beta in V1, V2.
      destruct (insert_one h pre post T f Hn H1 K1 V1) as (h1 & T1' & _ & R1 & A1 & A2 & A3 & A4 & A5 & A6).
      { rewrite K2. intros ->. discriminate V. } { rewrite K2. intros ->. discriminate V. }
      assert (D1 : forall a, In a (flat_map nodes (T2 :: l)) -> ~ In a [n]). { intros a I [E|[]]. apply (D a); [cbn [flat_map]; apply in_or_app; now right|congruence]. }
      assert (Ho1' : Forall (holds h1) (T2 :: l)) by (eapply changed_all_hold; [exact A6|exact D1|exact Ho1]).
      replace (pre ++ top T1' :: post) with ((pre ++ [top T1']) ++ post) in A1 by now rewrite <- app_assoc.
      destruct (insert_one h1 (pre ++ [top T1']) post T2 f A1 (Forall_inv Ho1') J1 V2) as (h2 & T2' & _ & R2 & B1 & B2 & B3 & B4 & B5 & B6).
      { rewrite J2. discriminate. } { intros _. pose proof (holds_top _ _ A2) as Q. exists pre, (top T1'), (with_ch (data T1') (map top (kids T1'))). split; [reflexivity|]. split; [exact Q|]. cbn [c_type with_ch]. rewrite E1 in A3. destruct (shape_leaf _ _ _ _ A3) as (_ & -> & _ & _). intros ->. discriminate V. }
      assert (D2 : forall a, In a (flat_map nodes l) -> a <> n). { intros a I. apply D. cbn [flat_map]. apply in_or_app. right. apply in_or_app. now right. }
      assert (Ho2' : Forall (holds h2) l). { eapply changed_all_hold; [exact B6| |exact (Forall_inv_tail Ho1')]. intros a I [E|[]]. apply (D2 a I). congruence. }
      replace ((pre ++ [top T1']) ++ top T2' :: post) with ((pre ++ [top T1'; top T2']) ++ post) in B1 by (rewrite <- !app_assoc; reflexivity).
      destruct (IH l (pre ++ [top T1'; top T2']) post h2 f E3 Ho2' Va2 D2 B1) as (h3 & R3 & (new & N1 & N2 & N3 & N4 & N5 & N6)).
      exists h3. split.
      { cbn [map insert_clones]. rewrite R1. replace (Z.of_nat (length pre) + 1) with (Z.of_nat (length (pre ++ [top T1']))) by (rewrite app_length; cbn [length]; lia). rewrite R2.
        replace (Z.of_nat (length (pre ++ [top T1'])) + 1) with (Z.of_nat (length (pre ++ [top T1'; top T2']))) by (rewrite !app_length; cbn [length]; lia). exact R3. }
      assert (Ln : (n < length h)%nat) by now apply nth_lt in Hn.
      exists (T1' :: T2' :: new). cbn [map flat_map app]. rewrite A4, B4. cbn [app]. split; [rewrite N1; f_equal; unfold with_ch; f_equal; rewrite <- !app_assoc; reflexivity|].
      split; [constructor; [|constructor; [|exact N2]]|].
      + eapply changed_holds; [exact N6| |eapply changed_holds; [exact B6| |exact A2]]; rewrite A4; intros a [<-|[]] [E|[]]; subst; lia.
      + eapply changed_holds; [exact N6| |exact B2]; rewrite B4; intros a [<-|[]] [E|[]]; lia.
      + split; [rewrite A3, B3, N3, E1, E2; reflexivity|]. split.
        * constructor; [|constructor; [|exact N4]]. { intros [E|I]; [lia|]. apply N5 in I. lia. } { intro I. apply N5 in I. lia. }
        * split; [intros a [<-|[<-|I]]; [lia|lia|]; apply N5 in I; lia|]. eapply changed_trans; [exact A6|]. eapply changed_trans; [exact B6|exact N6].
  Qed.
End Insert.

(** The value of a variable. *)
Lemma clean_data h x K st T : env_ok h x K st -> holds h T -> (forall a, In a (nodes T) -> In a K) -> c_vars (data T) = [].
Proof.
  intros (_ & _ & V & L) H S. pose proof (holds_top _ _ H) as H0. specialize (S _ (top_in T)). apply L in S. exact (V _ _ H0 (proj2 S)).
Qed.
Lemma spread_single s : spread [s] -> exists t w i, s = leaf t w i /\ value_type t = true.
Proof. inversion 1; subst; eauto. Qed.
Lemma spread_calm l : spread l -> Forall (fun s => sh_kids s = [] /\ token_type (sh_type s) = true) l.
Proof. induction 1 as [t s i V|t s i l V S IH]; repeat constructor; try exact IH; destruct t; try discriminate V; reflexivity. Qed.
Lemma value_inserted h m ps x K st n c pre post b l f : env_ok h x K st -> tokens_at h K b l -> spread l -> ~ In n K -> has_children (c_type c) = true ->
  nth_error h n = Some (with_ch c (pre ++ post)) ->
  exists h', insert_value (S f) n b (Z.of_nat (length pre)) (mkK h m ps) = Ret tt (mkK h' m ps) /\ inserted n c pre post l h h'.
Proof.
  intros En (T & H & <- & Sub & V) Sp N HC Hn. pose proof (holds_top _ _ H) as H0. unfold insert_value. erewrite b_ret; [|eapply run_type; exact H0]. cbn [c_type with_ch].
  destruct V as [<-|(Kd & <-)].
  - destruct (spread_single _ Sp) as (t & w & i & E & Vt). destruct (shape_leaf _ _ _ _ E) as (K1 & K2 & K3 & K4).
    destruct (insert_one n c HC m ps h pre post T f Hn H K1 (clean_data _ _ _ _ _ En H Sub)) as (h' & T' & R & _ & A1 & A2 & A3 & A4 & A5 & A6).
    { rewrite K2. intros ->. discriminate Vt. } { rewrite K2. intros ->. discriminate Vt. }
    exists h'. split; [rewrite K2; destruct t; try discriminate Vt; exact R|]. exists [T']. cbn [map app flat_map]. rewrite app_nil_r, A4. split; [exact A1|]. split; [constructor; [exact A2|constructor]|]. split; [now rewrite A3|].
    split; [repeat constructor; intros []|]. split; [intros a [<-|[]]; lia|exact A6].
  - unfold kind in Kd. rewrite Kd. cbv iota. erewrite b_ret; [|eapply run_load; exact H0]. cbn [c_ch with_ch].
    destruct T as [a cc ks]. cbn [top kids data] in *. pose proof (holds_inv _ _ _ _ H) as (_ & Ho).
    assert (Nk : forall q, In q (flat_map nodes ks) -> q <> n). { intros q I E. subst q. apply N, Sub. cbn [nodes]. now right. }
    assert (Vk : Forall (fun T => c_vars (data T) = []) ks).
    { rewrite Forall_forall in *. intros T I. eapply clean_data; [exact En|exact (Ho T I)|]. intros q Iq. apply Sub. cbn [nodes]. right. eapply kids_in; eauto. }
    destruct (insert_spread n c HC m ps _ Sp ks pre post h f eq_refl Ho Vk Nk Hn) as (h' & R & In').
    exists h'. split; [|exact In'].
    assert (Si : (match map top ks with [a0] => v <- is_a a0 COMPONENT_VALUE ;; q <- is_a n COMPONENT_VALUE ;; ret (v && q) | _ => ret false end) (mkK h m ps) = Ret false (mkK h m ps)).
    { destruct ks as [|k1 [|k2 ks]]; try reflexivity. cbn [map] in *. destruct (spread_single _ Sp) as (t & w & i & E & Vt). destruct (shape_leaf _ _ _ _ E) as (K1 & K2 & K3 & K4).
      pose proof (holds_top _ _ (Forall_inv Ho)) as Hk. erewrite b_ret; [|eapply run_is; exact Hk]. erewrite b_ret; [|eapply run_is; exact Hn]. cbn [c_type with_ch]. rewrite K2. destruct t; try discriminate Vt; reflexivity. }
    erewrite b_ret; [|exact Si]. cbv iota. exact R.
Qed.
Lemma replace_run h m ps x K st n c pre post self child k l f : env_ok h x K st -> nth_error h child = Some k -> c_type k = VARIABLE -> st (c_str k) = Some l -> ~ In n K -> has_children (c_type c) = true ->
  nth_error h n = Some (with_ch c (pre ++ post)) ->
  exists h', replace_variable (S f) self x n child (Z.of_nat (length pre)) (mkK h m ps) = Ret tt (mkK h' m ps) /\ inserted n c pre post l h h' /\ spread l.
Proof.
  intros En Hk Tk Sk N HC Hn. destruct (get_run h m ps x K st _ l En Sk) as (v & G & (Iv & cv & a & b & ca & V1 & V2 & V3 & V4 & V5 & V6 & V7) & Sp).
  unfold replace_variable. erewrite b_ret; [|eapply run_string; [exact Hk|rewrite Tk; reflexivity]]. erewrite b_ret; [|eapply run_pos; exact Hk]. erewrite b_ret; [|eapply run_type; exact Hk].
  erewrite b_ret; [|exact G]. cbv beta iota. erewrite b_ret; [|eapply run_is; exact V1]. rewrite V2. change (ntype_eqb LIST LIST) with true. cbv iota.
  erewrite b_ret; [|eapply run_size; [exact V1|rewrite V2; reflexivity]]. rewrite V3. change (negb (Z.of_nat (length [a; b]) =? 2)) with false. cbv iota.
  erewrite b_ret; [|eapply run_child0; [exact V1|rewrite V2; reflexivity|exact V3]]. erewrite b_ret; [|eapply run_child1; [exact V1|rewrite V2; reflexivity|exact V3]].
  erewrite b_ret; [|eapply run_type; exact V5]. rewrite V6, Tk. cbv zeta. change (ntype_eqb VARIABLE VARIABLE_FUNCTION || ntype_eqb VARIABLE FUNCTION) with false. change (ntype_eqb VARIABLE FUNCTION || ntype_eqb VARIABLE VARIABLE_FUNCTION) with false. cbv iota.
  destruct (value_inserted h m ps x K st n c pre post b l f En V7 Sp N HC Hn) as (h' & R & Ins). exists h'. auto.
Qed.

(** ** Substitution in shapes *)
Fixpoint sub (st : store) (s : shape) : list shape :=
  match s with
  | Shape t x i f l => match t with VARIABLE => match st x with Some v => v | None => [s] end | _ => [Shape t x i f (flat_map (sub st) l)] end
  end.
(** The tokens of a tree, with variables which have values; no statement of the
    tree sets a variable. *)
Inductive ready (st : store) : shape -> Prop :=
  | ready_token t s i f : token_type t = true -> ready st (Shape t s i f [])
  | ready_variable s i f v : st s = Some v -> ready st (Shape VARIABLE s i f [])
  | ready_box t s i f l : box_type t = true -> l <> [] -> Forall (ready st) l -> (t = COMPONENT_VALUE -> sh_type (hd (sign COLON) l) <> VARIABLE) -> ready st (Shape t s i f l).
(** Fuel. *)
Fixpoint cost (st : store) (s : shape) : nat :=
  match s with Shape t x i f l => (2 + match t with VARIABLE => match st x with Some v => length v | None => 0 end | _ => list_sum (map (cost st) l) end)%nat end.
Lemma cost_in st s l : In s l -> (cost st s <= list_sum (map (cost st) l))%nat.
Proof. unfold list_sum. induction l as [|x l IH]; cbn [In map fold_right]; [tauto|]. intros [->|H]; [lia|]. specialize (IH H). lia. Qed.
Lemma nodup_app {A} (l r : list A) : NoDup (l ++ r) <-> NoDup l /\ NoDup r /\ (forall a, In a l -> ~ In a r).
Proof.
  induction l as [|x l IH]; cbn [app]; [split; [intro H; repeat split; [constructor|exact H|tauto]|tauto]|]. rewrite !NoDup_cons_iff, IH, in_app_iff. cbn [In]. split.
  - intros (A1 & A2 & A3 & A4). repeat split; try tauto. intros a [->|I]; [tauto|auto].
  - intros ((A1 & A2) & A3 & A4). repeat split; try tauto; [|auto]. intros [I|I]; [tauto|]. apply (A4 x); auto.
Qed.

Section Loop.
  Variables (w : world) (st : store).
  Definition lives (x : ctx) (K : list addr) (h : heap) (T : tree) : Prop :=
    holds h T /\ NoDup (nodes T) /\ (forall a, In a (nodes T) -> ~ In a K /\ a <> x_root x).
  Definition becomes (h h' : heap) (T T' : tree) : Prop :=
    holds h' T' /\ [tree_shape T'] = sub st (tree_shape T) /\ top T' = top T /\ NoDup (nodes T') /\ (forall a, In a (nodes T') -> In a (nodes T) \/ (length h <= a)%nat) /\ changed (nodes T) h h'.
  Definition box (s : shape) : Prop := box_type (sh_type s) = true.
  Definition runs_sub (s : shape) : Prop := forall T h m ps x K fuel, tree_shape T = s -> lives x K h T -> env_ok h x K st -> (cost st s < fuel)%nat ->
    exists h' T', replace_variables w fuel x (top T) (mkK h m ps) = Ret tt (mkK h' m ps) /\ becomes h h' T T'.
  (** Past tokens. *)
  Lemma loop_tokens self x n c m ps h : nth_error h n = Some c -> has_children (c_type c) = true ->
    forall l pre post fuel, c_ch c = pre ++ map top l ++ post -> Forall (holds h) l -> Forall (fun s => sh_kids s = [] /\ token_type (sh_type s) = true) (map tree_shape l) ->
    variables_loop w self x n (length l + fuel) (Z.of_nat (length pre)) (mkK h m ps) = variables_loop w self x n fuel (Z.of_nat (length (pre ++ map top l))) (mkK h m ps).
  Proof.
    intros H E. induction l as [|T l IH]; intros pre post fuel Ch Ho Ft; [cbn; now rewrite app_nil_r|]. cbn [map app] in Ch.
    cbn [length Nat.add variables_loop]. erewrite b_ret; [|eapply run_size; [exact H|exact E]]. replace (_ <=? _) with false by (rewrite Ch, app_length; cbn [length]; lia).
    erewrite b_ret; [|eapply run_child; [exact H|exact E|rewrite Nat2Z.id, Ch; apply nth_mid|lia]]. pose proof (holds_top _ _ (Forall_inv Ho)) as H0. erewrite b_ret; [|eapply run_type; exact H0]. cbn [c_type with_ch].
    destruct (Forall_inv Ft) as (_ & Tt). specialize (IH (pre ++ [top T]) post fuel). rewrite <- !app_assoc in IH. cbn [app] in IH. specialize (IH Ch (Forall_inv_tail Ho) (Forall_inv_tail Ft)).
    replace (Z.of_nat (length (pre ++ [top T]))) with (Z.of_nat (length pre) + 1) in IH by (rewrite app_length; cbn [length]; lia).
    replace (sh_type (tree_shape T)) with (c_type (data T)) in Tt by now destruct T. cbn [map]. destruct (c_type (data T)); try discriminate Tt; exact IH.
  Qed.
  Lemma loop_run f0 n c x K : has_children (c_type c) = true -> ~ In n K ->
    forall rest pre h m ps fuel, nth_error h n = Some (with_ch c (pre ++ map top rest)) -> Forall (holds h) rest -> NoDup (n :: flat_map nodes rest) ->
    (forall a, In a (flat_map nodes rest) -> ~ In a K /\ a <> x_root x) -> env_ok h x K st ->
    Forall (ready st) (map tree_shape rest) -> Forall (fun s => box s -> runs_sub s /\ (cost st s < f0)%nat) (map tree_shape rest) -> (list_sum (map (cost st) (map tree_shape rest)) < fuel)%nat ->
    exists h' rest', variables_loop w (replace_variables w f0) x n fuel (Z.of_nat (length pre)) (mkK h m ps) = Ret tt (mkK h' m ps)
    /\ nth_error h' n = Some (with_ch c (pre ++ map top rest')) /\ Forall (holds h') rest' /\ map tree_shape rest' = flat_map (sub st) (map tree_shape rest)
    /\ NoDup (flat_map nodes rest') /\ (forall a, In a (flat_map nodes rest') -> In a (flat_map nodes rest) \/ (length h <= a)%nat) /\ changed (n :: flat_map nodes rest) h h'.
  Proof.
    intros HC NK. induction rest as [|T rest IH]; intros pre h m ps fuel Hn Ho Nd Nk En Rd Rn Fu.
    - exists h, []. split; [|split; [exact Hn|split; [constructor|split; [reflexivity|split; [constructor|split; [tauto|apply changed_refl]]]]]].
      destruct fuel as [|fuel]; [cbn in Fu; lia|]. cbn [map] in Hn. rewrite app_nil_r in Hn. apply (loop_end w _ x n _ h m ps fuel Hn HC).
    - cbn [map flat_map] in *. pose proof (Forall_inv Ho) as H1. pose proof (Forall_inv_tail Ho) as H2. pose proof (Forall_inv Rd) as R1. pose proof (Forall_inv_tail Rd) as R2. pose proof (Forall_inv Rn) as Q1. pose proof (Forall_inv_tail Rn) as Q2. cbv beta in Q1. clear Ho Rd Rn.
      apply NoDup_cons_iff in Nd. destruct Nd as (Nn & Nd). apply nodup_app in Nd. destruct Nd as (Nd1 & Nd2 & Nd3). rewrite in_app_iff in Nn.
      assert (Nk1 : forall a, In a (nodes T) -> ~ In a K /\ a <> x_root x) by (intros a I; apply Nk, in_or_app; now left).
      assert (Nk2 : forall a, In a (flat_map nodes rest) -> ~ In a K /\ a <> x_root x) by (intros a I; apply Nk, in_or_app; now right).
      assert (Ln : (n < length h)%nat) by now apply nth_lt in Hn.
      assert (Lt2 : forall a, In a (flat_map nodes rest) -> (a < length h)%nat). { intros a I. apply in_flat_map in I. destruct I as (T2 & I1 & I2). rewrite Forall_forall in H2. exact (holds_lt _ _ _ (H2 _ I1) I2). }
      change (list_sum (?a :: ?l)) with (a + list_sum l)%nat in Fu.
      destruct fuel as [|fuel]; [lia|]. pose proof (holds_top _ _ H1) as H0.
      cbn [variables_loop]. erewrite b_ret; [|eapply run_size; [exact Hn|exact HC]]. cbn [c_ch with_ch]. replace (_ <=? _) with false by (rewrite app_length; cbn [length]; lia).
      erewrite b_ret; [|eapply run_child; [exact Hn|exact HC|rewrite Nat2Z.id; apply nth_mid|lia]]. erewrite b_ret; [|eapply run_type; exact H0]. cbn [c_type with_ch].
      inversion R1 as [t s i f Tt Es|s i f v Sv Es|t s i f l Tb Nl Fl Fv Es]; symmetry in Es.
      + (* a token *)
        destruct T as [a k l]. cbn [tree_shape] in Es. injection Es as E1 E2 E3 E4 E5. destruct l; [|discriminate E5]. cbn [top data tree_shape map nodes flat_map] in *. rewrite E1.
        destruct (IH (pre ++ [a]) h m ps fuel) as (h' & rest' & A1 & A2 & A3 & A4 & A5 & A6 & A7); auto.
        { rewrite <- app_assoc. exact Hn. } { constructor; tauto. } { cbn in Fu. rewrite E1 in Fu. destruct t; try discriminate Tt; lia. }
        exists h', (Tree a k [] :: rest'). cbn [map flat_map tree_shape nodes app top]. split; [|split; [|split; [|split; [|split; [|split]]]]].
        * replace (Z.of_nat (length (pre ++ [a]))) with (Z.of_nat (length pre) + 1) in A1 by (rewrite app_length; cbn [length]; lia). destruct t; try discriminate Tt; exact A1.
        * rewrite <- app_assoc in A2. exact A2.
        * constructor; [|exact A3]. eapply changed_holds; [exact A7| |exact H1]. cbn [nodes flat_map In]. intros b [<-|[]] [E|I]; [apply Nn; left; left; congruence|]. apply (Nd3 a); cbn; auto.
        * rewrite A4. cbn [sub]. rewrite E1, ?E2, ?E3, ?E4. destruct t; try discriminate Tt; reflexivity.
        * constructor; [|exact A5]. intro I. apply A6 in I. destruct I as [I|I]; [apply (Nd3 a); cbn; auto|]. apply nth_lt in H0. lia.
        * intros b [<-|I]; [now left; left|]. apply A6 in I. destruct I; [left; now right|now right].
        * revert A7. apply changed_more. intros b _ [->|I]; [now left|]. right. now right.
      + (* a variable *)
        destruct T as [a k l]. cbn [tree_shape] in Es. injection Es as E1 E2 E3 E4 E5. destruct l; [|discriminate E5]. cbn [top data tree_shape map nodes flat_map] in *. rewrite E1. cbn [cost] in Fu. rewrite E1, E2, Sv in Fu.
        erewrite b_ret; [|eapply run_remove_at; [exact Hn|exact HC|cbn [c_ch with_ch]; rewrite app_length; cbn [length]; lia]]. cbn [c_ch with_ch]. rewrite Nat2Z.id, ScopeProofs.erase_mid, ScopeProofs.with_ch_twice.
        set (h1 := put h n (with_ch c (pre ++ map top rest))). assert (C1 : changed [n] h h1) by (exact (changed_put h n _ (pre ++ map top rest) Hn)).
        assert (Na : a <> n) by (intros ->; apply Nn; left; now left).
        assert (Ha1 : nth_error h1 a = Some (with_ch k [])) by (unfold h1; rewrite put_other by auto; exact H0).
        assert (Hn1 : nth_error h1 n = Some (with_ch c (pre ++ map top rest))) by (apply put_same; exact Ln).
        assert (DK : forall b, In b K -> ~ In b [n]) by (intros b I [<-|[]]; tauto).
        assert (En1 : env_ok h1 x K st) by (eapply env_changed; [exact C1|exact DK|exact En]).
        destruct fuel as [|fuel]; [lia|].
        destruct (replace_run h1 m ps x K st n c pre (map top rest) (replace_variables w f0) a _ v fuel En1 Ha1 E1 ltac:(cbn [c_str with_ch]; rewrite E2; exact Sv) NK HC Hn1) as (h2 & Rr & (new & N1 & N2 & N3 & N4 & N5 & N6) & Sp).
        erewrite b_ret; [|exact Rr]. assert (L1 : length h1 = length h) by apply put_length. rewrite L1 in N5.
        assert (C2 : changed [n] h h2) by (eapply changed_trans; eauto).
        assert (Lv : length new = length v) by (rewrite <- (map_length tree_shape new), N3; reflexivity).
        replace (S fuel) with (length new + (S fuel - length new))%nat by lia.
        pose proof (loop_tokens (replace_variables w f0) x n _ m ps h2 N1 HC new pre (map top rest) (S fuel - length new) eq_refl N2 ltac:(rewrite N3; now apply spread_calm)) as Lt. rewrite Lt. clear Lt.
        assert (Ho2 : Forall (holds h2) rest) by (eapply changed_all_hold; [exact C2| |exact H2]; intros b I [E|[]]; subst; tauto).
        destruct (IH (pre ++ map top new) h2 m ps (S fuel - length new)%nat) as (h' & rest' & A1 & A2 & A3 & A4 & A5 & A6 & A7); auto.
        { rewrite <- app_assoc. exact N1. } { constructor; tauto. } { eapply env_changed; [exact C2|exact DK|exact En]. } { lia. }
        assert (L2 : (length h <= length h2)%nat) by apply C2.
        exists h', (new ++ rest'). rewrite !map_app, !flat_map_app. split; [|split; [|split; [|split; [|split; [|split]]]]].
        * exact A1.
        * rewrite <- app_assoc in A2. exact A2.
        * apply Forall_app. split; [|exact A3]. eapply changed_all_hold; [exact A7| |exact N2]. intros b I [E|J]; apply N5 in I; [subst; lia|]. apply Lt2 in J. lia.
        * rewrite A4, N3. cbn [sub]. rewrite ?E1, ?E2, Sv. reflexivity.
        * apply nodup_app. split; [exact N4|]. split; [exact A5|]. intros b I J. pose proof (N5 _ I). apply A6 in J. destruct J as [J|J]; [apply Lt2 in J; lia|].
          apply in_flat_map in I. destruct I as (T2 & I1 & I2). rewrite Forall_forall in N2. pose proof (holds_lt _ _ _ (N2 _ I1) I2). lia.
        * intros b I. apply in_app_or in I. destruct I as [I|I]; [right; auto|]. apply A6 in I. destruct I; [left; now right|right; lia].
        * apply (changed_trans _ _ h2); [revert C2|revert A7]; apply changed_more; intros b _ I; [destruct I as [->|[]]; now left|]. destruct I as [->|I]; [now left|]. right. now right.
      + (* a box *)
        assert (Bx : box (tree_shape T)) by (rewrite Es; exact Tb). destruct (Q1 Bx) as (Rs & Cf).
        destruct (Rs T h m ps x K f0 eq_refl (conj H1 (conj Nd1 Nk1)) En Cf) as (h2 & T' & Rr & (B1 & B2 & B3 & B4 & B5 & B6)).
        assert (Tt : c_type (data T) = t) by (destruct T; cbn in Es |- *; congruence). rewrite Tt.
        assert (Hn2 : nth_error h2 n = Some (with_ch c (pre ++ top T :: map top rest))) by (eapply changed_at; [exact B6|tauto|exact Hn]).
        assert (DK : forall b, In b K -> ~ In b (nodes T)) by (intros b I J; apply Nk1 in J; tauto).
        assert (Ho2 : Forall (holds h2) rest) by (eapply changed_all_hold; [exact B6| |exact H2]; intros b I J; exact (Nd3 b J I)).
        assert (L2 : (length h <= length h2)%nat) by apply B6.
        destruct (IH (pre ++ [top T]) h2 m ps fuel) as (h' & rest' & A1 & A2 & A3 & A4 & A5 & A6 & A7); auto.
        { rewrite <- app_assoc. exact Hn2. } { constructor; tauto. } { eapply env_changed; [exact B6|exact DK|exact En]. } { pose proof (eq_refl (cost st (tree_shape T))). rewrite Es in Fu at 1. cbn [cost] in Fu. lia. }
        assert (Nx : forall b, In b (nodes T') -> ~ In b (n :: flat_map nodes rest)).
        { intros b I [E|J]; apply B5 in I; [subst b; destruct I as [I|I]; [tauto|lia]|]. destruct I as [I|I]; [exact (Nd3 b I J)|]. apply Lt2 in J. lia. }
        exists h', (T' :: rest'). cbn [map flat_map]. split; [|split; [|split; [|split; [|split; [|split]]]]].
        * replace (Z.of_nat (length (pre ++ [top T]))) with (Z.of_nat (S (length pre))) in A1 by (rewrite app_length; cbn [length]; lia).
          assert (W : (replace_variables w f0 x (top T) ;;; i0 <- step_over n (top T) (Z.of_nat (length pre)) ;; variables_loop w (replace_variables w f0) x n fuel i0) (mkK h m ps) = Ret tt (mkK h' m ps)).
          { erewrite b_ret; [|exact Rr]. erewrite b_ret; [|eapply step_over_same; [exact Hn2|exact HC|cbn [c_ch with_ch]; apply nth_mid]]. exact A1. }
          destruct t; try discriminate Tb; exact W.
        * rewrite <- app_assoc in A2. rewrite B3. exact A2.
        * constructor; [|exact A3]. eapply changed_holds; [exact A7|exact Nx|exact B1].
        * rewrite A4. rewrite Es in B2. rewrite <- B2. reflexivity.
        * apply nodup_app. split; [exact B4|]. split; [exact A5|]. intros b I J. apply A6 in J. destruct J as [J|J]; [apply (Nx b I); now right|]. pose proof (holds_lt _ _ _ B1 I). lia.
        * intros b I. rewrite in_app_iff. apply in_app_or in I. destruct I as [I|I]; [apply B5 in I; tauto|]. apply A6 in I. destruct I; [tauto|right; lia].
        * apply (changed_trans _ _ h2); [revert B6|revert A7]; apply changed_more; intros b _ I; [right; apply in_or_app; now left|]. destruct I as [->|I]; [now left|]. right. apply in_or_app. now right.
  Qed.
End Loop.

Lemma no_variable_set h m ps n c (wb : bool) l : nth_error h n = Some c -> c_ch c = map top l -> Forall (holds h) l -> sh_type (hd (sign COLON) (map tree_shape l)) <> VARIABLE -> sh_type (hd (sign COLON) (map tree_shape l)) <> VARIABLE_FUNCTION ->
  is_variable_set n wb (mkK h m ps) = Ret false (mkK h m ps).
Proof.
  intros H E Ho V1 V2. unfold is_variable_set. erewrite b_ret; [|eapply run_load; exact H].
  unfold child_nodes, bind. cbn [k_heap]. rewrite E.
  destruct l as [|a [|b [|e l]]]; cbn [map]; try reflexivity. cbn [map hd] in V1, V2.
  pose proof (holds_top _ _ (Forall_inv Ho)) as Hk. rewrite Hk. replace (sh_type (tree_shape a)) with (c_type (data a)) in * by now destruct a.
  unfold Parser.is_variable_set, Parser.child_is, Parser.obind, is. cbn [length nth_error]. change ((_ <? 3)%nat) with false. cbv iota. cbn [n_type mk c_type with_ch].
  apply ntype_eqb_neq in V1, V2. rewrite V1, V2. reflexivity.
Qed.
Lemma ready_plain st s : ready st s -> sh_type s <> VARIABLE_FUNCTION.
Proof. destruct 1 as [t s i f T|s i f v V|t s i f l T]; cbn; [destruct t; discriminate|discriminate|destruct t; discriminate]. Qed.
Lemma sub_run w st s : ready st s -> box s -> runs_sub w st s.
Proof.
  induction s as [t x0 i0 f0 S IH] using shape_ind'. intros Rd Bx T h m ps x K fuel Es (H & Nd & Nk) En Fu. unfold box in Bx. cbn [sh_type] in Bx.
  inversion Rd as [? ? ? ? Tt|? ? ? ? Sv|? ? ? ? ? Tb Nl Fl Fv]; subst; [destruct t; discriminate|discriminate|]. clear Rd.
  destruct T as [a c l]. cbn [tree_shape] in Es. injection Es as E1 E2 E3 E4 E5. cbn [top]. pose proof (holds_inv _ _ _ _ H) as (H0 & Ho). rewrite <- E5 in *. cbn [nodes] in *.
  cbn [cost] in Fu. assert (Fu' : (2 + list_sum (map (cost st) (map tree_shape l)) < fuel)%nat) by (destruct t; try discriminate Bx; exact Fu). clear Fu. destruct fuel as [|fuel]; [lia|].
  assert (HC : has_children (c_type c) = true) by (rewrite E1; now apply box_children).
  assert (La : (a < length h)%nat) by now apply nth_lt in H0.
  assert (Vs : c_type c = COMPONENT_VALUE -> is_variable_set a false (mkK h m ps) = Ret false (mkK h m ps)).
  { intro Tc. rewrite E1 in Tc. apply (no_variable_set h m ps a (with_ch c (map top l)) false l H0 eq_refl Ho); [auto|]. destruct l as [|k l]; [discriminate|]. cbn [map hd]. apply (ready_plain st). exact (Forall_inv Fl). }
  assert (Rn : Forall (fun s => box s -> runs_sub w st s /\ (cost st s < fuel)%nat) (map tree_shape l)).
  { rewrite Forall_forall in *. intros s I B. split; [apply IH; auto|]. pose proof (cost_in st s _ I). lia. }
  destruct (loop_run w st fuel a c (push x a) K HC ltac:(apply Nk; now left) l [] h m ps fuel H0 Ho Nd ltac:(intros b I; apply Nk; now right) (env_push _ _ _ _ _ En La) Fl Rn ltac:(lia)) as (h' & l' & A1 & A2 & A3 & A4 & A5 & A6 & A7).
  cbn [app length] in A1, A2. change (Z.of_nat 0) with 0 in A1.
  exists h', (Tree a c l'). split.
  - cbn [replace_variables]. erewrite b_ret; [|eapply run_type; exact H0]. cbn [c_type with_ch].
    assert (W : (t0 <- type_of a ;; set <- (if ntype_eqb t0 COMPONENT_VALUE then is_variable_set a false else ret false) ;;
        first <- (if set : bool then v <- child_is a 0 VARIABLE_FUNCTION ;; if v : bool then lift (size a) else ret 1 else ret 0) ;;
        variables_loop w (replace_variables w fuel) (push x a) a fuel first ;;; if set : bool then compiler_set_variable (push x a) a else ret tt) (mkK h m ps) = Ret tt (mkK h' m ps)).
    { erewrite b_ret; [|eapply run_type; exact H0]. cbn [c_type with_ch].
      assert (Q : (if ntype_eqb (c_type c) COMPONENT_VALUE then is_variable_set a false else ret false) (mkK h m ps) = Ret false (mkK h m ps)).
      { destruct (ntype_eqb (c_type c) COMPONENT_VALUE) eqn:Q; [apply ntype_eqb_spec in Q; auto|reflexivity]. }
      erewrite b_ret; [|exact Q]. cbv beta iota. erewrite b_ret; [|reflexivity]. erewrite b_ret; [|exact A1]. reflexivity. }
    rewrite E1 in *. destruct t; try discriminate Bx; try exact W.
    erewrite b_ret; [|eapply run_empty; [exact H0|cbn [c_type with_ch]; rewrite E1; reflexivity]]. cbn [c_ch with_ch]. destruct l; [now contradict Nl|]. exact W.
  - split; [constructor; [exact A2|exact A3]|]. split; [|split; [reflexivity|split; [|split]]].
    + cbn [tree_shape]. rewrite A4, E1, E2, E3, E4. cbn [sub]. rewrite E5. destruct t; try discriminate Bx; reflexivity.
    + cbn [nodes]. constructor; [|exact A5]. intro I. apply A6 in I. destruct I as [I|I]; [apply NoDup_cons_iff in Nd; tauto|lia].
    + intros b [<-|I]; [left; now left|]. apply A6 in I. destruct I; [left; now right|now right].
    + exact A7.
Qed.

(** ** Setting a variable *)
Lemma quiet_flags h m ps n c : nth_error h n = Some c -> has_children (c_type c) = true -> forall k, (k <= length (c_ch c))%nat ->
  (forall a, In a (c_ch c) -> exists k, nth_error h a = Some k /\ c_type k <> EXCLAMATION) -> forall g u la, flags_loop n k g u la (mkK h m ps) = Ret (g, u, la) (mkK h m ps).
Proof.
  intros H E. induction k as [|k IH]; intros L Q g u la; [reflexivity|]. cbn [flags_loop]. destruct (nth_error (c_ch c) k) as [a|] eqn:Ek; [|apply nth_error_None in Ek; lia].
  erewrite b_ret; [|eapply run_child; [exact H|exact E|rewrite Nat2Z.id; exact Ek|lia]]. destruct (Q a (nth_error_In _ _ Ek)) as (ka & Ha & Ta). erewrite b_ret; [|eapply run_is; exact Ha]. apply ntype_eqb_neq in Ta. rewrite Ta. cbn [negb]. apply IH; [lia|exact Q].
Qed.
Lemma quiet_prelude x0 P rest h m ps n cp i cn var ws1 colon ws2 l cvar cc :
  x_parents x0 = P :: rest ->
  nth_error h P = Some cp -> has_children (c_type cp) = true -> find_child n (c_ch cp) = Some i ->
  nth_error h n = Some cn -> has_children (c_type cn) = true -> c_ch cn = var :: ws1 ++ colon :: ws2 ++ l -> n <> P ->
  (forall a, In a (c_ch cn) -> a <> n /\ a <> P /\ exists k, nth_error h a = Some k) ->
  ScopeProofs.ws_at h ws1 -> ScopeProofs.ws_at h ws2 -> nth_error h var = Some cvar ->
  nth_error h colon = Some cc -> c_type cc = COLON ->
  match l with a :: _ => forall k, nth_error h a = Some k -> c_type k <> WHITESPACE | [] => True end ->
  (forall a k, In a l -> nth_error h a = Some k -> c_type k <> EXCLAMATION) ->
  compiler_set_variable (push x0 n) n (mkK h m ps)
    = ScopeProofs.finish (push x0 n) n (c_pos cn) false false var
        (mkK (put (put h P (with_ch cp (list_erase i (c_ch cp)))) n (with_ch cn l)) m ps).
Proof.
  intros Ex HP CP Fi Hn Cn Ch NP Kids W1 W2 Hv Hc Tc Hl Qt.
  pose proof (nth_lt _ _ _ HP) as LP. pose proof (nth_lt _ _ _ Hn) as Ln.
  unfold compiler_set_variable. unfold previous_parent, push. cbn [x_parents]. rewrite Ex. cbn [x_parents x_root x_quiet].
  rewrite bind_ret. erewrite b_ret; [|eapply run_remove; [exact HP|exact CP|exact Fi]].
  set (h1 := put h P _).
  assert (Ho : forall a, a <> P -> nth_error h1 a = nth_error h a) by (intros a Ha; apply put_other; auto).
  assert (Kid : forall a, In a (c_ch cn) -> a <> n /\ exists k, nth_error h a = Some k /\ nth_error h1 a = Some k).
  { intros a Ha. destruct (Kids a Ha) as (A & B & k & Hk). split; [exact A|]. exists k. rewrite Ho by auto. auto. }
  assert (Hn1 : nth_error h1 n = Some cn) by (rewrite Ho by auto; exact Hn).
  assert (Ln1 : (n < length h1)%nat) by (unfold h1; rewrite put_length; exact Ln).
  assert (Get : forall l' a k, nth_error h a = Some k -> In a (c_ch cn) -> nth_error (put h1 n (with_ch cn l')) a = Some k).
  { intros l' a k Hk Ia. destruct (Kids a Ia) as (A & B & _). rewrite put_other by auto. rewrite Ho by auto. exact Hk. }
  assert (Now : forall l', nth_error (put h1 n (with_ch cn l')) n = Some (with_ch cn l')) by (intro; now apply put_same).
  erewrite b_ret; [|eapply run_child0; [exact Hn1|exact Cn|exact Ch]].
  erewrite b_ret; [|eapply run_remove0; [exact Hn1|exact Cn|exact Ch]].
  (* after the name *)
  assert (A1 : exists s1, s1 = mkK (put h1 n (with_ch cn (colon :: ws2 ++ l))) m ps /\
     forall (K : C unit), (w <- child_is n 0 WHITESPACE ;; (if w : bool then lift (remove_child_at n 0) else ret tt) ;;; K)
       (mkK (put h1 n (with_ch cn (ws1 ++ colon :: ws2 ++ l))) m ps) = K s1).
  { eexists. split; [reflexivity|]. intro K. destruct W1 as [->|(w & kw & -> & Hw & Tw)].
    - cbn [app]. erewrite b_ret; [|eapply run_child_is; [apply Now|exact Cn|reflexivity|lia|apply Get; [exact Hc|rewrite Ch; cbn; auto]]].
      rewrite Tc. tyeq. rewrite bind_ret. reflexivity.
    - cbn [app]. erewrite b_ret; [|eapply run_child_is; [apply Now|exact Cn|reflexivity|lia|apply Get; [exact Hw|rewrite Ch; cbn; auto]]].
      rewrite Tw. tyeq. erewrite b_ret; [|eapply run_remove0; [apply Now|exact Cn|reflexivity]].
      rewrite put_put, ScopeProofs.with_ch_twice. reflexivity. }
  destruct A1 as (s1 & -> & A1). cbn [app] in A1.
  rewrite A1. clear A1.
  assert (Ic : In colon (c_ch cn)) by (rewrite Ch; cbn; right; apply in_or_app; cbn; auto).
  erewrite b_ret; [|eapply run_child_is; [apply Now|exact Cn|reflexivity|lia|apply Get; [exact Hc|exact Ic]]].
  rewrite Tc. tyeq. cbn [negb].
  erewrite b_ret; [|eapply run_remove0; [apply Now|exact Cn|reflexivity]]. rewrite put_put, ScopeProofs.with_ch_twice.
  erewrite b_ret; [|eapply run_empty; [apply Now|exact Cn]]. cbn [c_ch with_ch].
  assert (Il : forall a, In a l -> In a (c_ch cn)).
  { intros a Ha. rewrite Ch. cbn. right. apply in_or_app. right. cbn. right. apply in_or_app. auto. }
  assert (A2 : forall (K : C unit), (w2 <- (if (match ws2 ++ l with [] => true | _ => false end) then ret false else child_is n 0 WHITESPACE) ;;
       (if w2 : bool then lift (remove_child_at n 0) else ret tt) ;;; K)
       (mkK (put h1 n (with_ch cn (ws2 ++ l))) m ps) = K (mkK (put h1 n (with_ch cn l)) m ps)).
  { intro K. destruct W2 as [->|(w & kw & -> & Hw & Tw)]; cbn [app].
    - destruct l as [|a l']; [reflexivity|]. destruct (Kids a) as (A & B & k & Hk); [apply Il; cbn; auto|].
      erewrite b_ret; [|eapply run_child_is; [apply Now|exact Cn|reflexivity|lia|apply Get; [exact Hk|apply Il; cbn; auto]]].
      replace (ntype_eqb (c_type k) WHITESPACE) with false by (symmetry; apply ntype_eqb_neq, Hl, Hk). rewrite bind_ret. reflexivity.
    - erewrite b_ret; [|eapply run_child_is; [apply Now|exact Cn|reflexivity|lia|apply Get; [exact Hw|rewrite Ch; cbn; right; apply in_or_app; cbn; auto]]].
      rewrite Tw. tyeq. erewrite b_ret; [|eapply run_remove0; [apply Now|exact Cn|reflexivity]].
      rewrite put_put, ScopeProofs.with_ch_twice. reflexivity. }
  rewrite A2. clear A2.
  erewrite b_ret; [|eapply run_size; [apply Now|exact Cn]]. cbn [c_ch with_ch]. rewrite Nat2Z.id.
  erewrite b_ret; [|eapply quiet_flags; [apply Now|exact Cn|apply le_n|]].
  2:{ cbn [c_ch with_ch]. intros a Ia. destruct (Kids a (Il a Ia)) as (A & B & k & Hk). exists k. split; [apply Get; auto|eapply Qt; eauto]. }
  cbv beta iota. erewrite b_ret; [|eapply run_pos; apply Now]. cbn [c_pos with_ch]. rewrite bind_ret. reflexivity.
Qed.
