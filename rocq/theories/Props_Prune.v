(** * Empty rules are removed (C51) *)

From Coq Require Import String ZArith List Bool Lia Arith Floats.SpecFloat.
From Verif Require Import Base NodeHeap NodeProofs Compiler CompRun ScopeProofs IfProofs Trees Props_If.
Import ListNotations.
Open Scope string_scope. Open Scope list_scope. Open Scope Z_scope.
Ltac Zify.zify_post_hook ::= idtac.

(** ** Specification

    An empty rule ends with a block without children. *)
Definition empty_block (t : tree) : bool :=
  ntype_eqb (kind t) OPEN_CURLYBRACKET && match kids t with [] => true | _ => false end.
Definition empty_rule (t : tree) : bool :=
  ntype_eqb (kind t) COMPONENT_VALUE && match rev (kids t) with b :: _ => empty_block b | [] => false end.
(** Where rules are searched. *)
Definition searched (t : ntype) : bool :=
  match t with COMPONENT_VALUE | AT_KEYWORD | DECLARATION | LIST | OPEN_CURLYBRACKET => true | _ => false end.
(** The tree without its empty rules; all the rest in the same order. *)
Fixpoint prune (t : tree) : tree :=
  match t with
  | Tree a c l =>
      if searched (c_type c) then Tree a c (flat_map (fun k => if empty_rule k then [] else [prune k]) l)
      else t
  end.

(** ** Proof *)
Lemma prune_top t : top (prune t) = top t.
Proof. destruct t as [a c l]. cbn. destruct (searched (c_type c)); reflexivity. Qed.
Lemma searched_children t : searched t = true -> has_children t = true.
Proof. destruct t; cbn; auto; discriminate. Qed.

Lemma run_last h m ps a c l (x : addr) : nth_error h a = Some c -> has_children (c_type c) = true -> c_ch c = l ++ [x] -> Z.of_nat (length l) < 2 ^ 64 ->
  lift (get_last_child a) (mkK h m ps) = Ret x (mkK h m ps).
Proof.
  intros H E C L. unfold lift, get_last_child, get_child, NodeHeap.bind, load, supports. cbn [k_heap]. rewrite H. cbv beta iota. rewrite H, E. unfold NodeHeap.ret. rewrite C, app_length. cbn [length].
  assert (U : u64 (Z.of_nat (length l + 1) - 1) = Z.of_nat (length l)).
  { unfold u64. rewrite Z.mod_small; lia. }
  rewrite U. replace (Z.of_nat (length l + 1) <=? Z.of_nat (length l)) with false by lia. rewrite Nat2Z.id. rewrite nth_mid. reflexivity.
Qed.

Lemma empty_rule_run h m ps t : holds h t -> kind t = COMPONENT_VALUE -> Z.of_nat (length (nodes t)) < 2 ^ 64 ->
  is_empty_rule (top t) (mkK h m ps) = Ret (empty_rule t) (mkK h m ps).
Proof.
  destruct t as [a c l]. intros H K L. apply holds_inv in H. destruct H as (H & F). unfold kind in K. cbn [data top] in *. unfold is_empty_rule, empty_rule, kind. cbn [data kids].
  rewrite K. change (ntype_eqb COMPONENT_VALUE COMPONENT_VALUE) with true. cbn [andb].
  assert (E : has_children (c_type (with_ch c (map top l))) = true) by (cbn; rewrite K; reflexivity).
  erewrite b_ret; [|eapply run_empty; eauto]. cbn [c_ch with_ch].
  destruct (rev l) as [|b r] eqn:R.
  - assert (l = []) as -> by (rewrite <- (rev_involutive l), R; reflexivity). reflexivity.
  - assert (El : l = rev r ++ [b]) by (rewrite <- (rev_involutive l), R; reflexivity).
    assert (Em : map top l = map top (rev r) ++ [top b]) by (rewrite El, map_app; reflexivity).
    replace (match map top l with [] => true | _ => false end) with false by (rewrite Em; destruct (map top (rev r)); reflexivity).
    assert (Ll : (length (map top (rev r)) <= length (flat_map nodes l))%nat).
    { rewrite map_length. etransitivity; [|apply flat_nodes_length]. rewrite El, app_length. cbn. lia. }
    erewrite b_ret; [|eapply run_last; [exact H|exact E|exact Em|cbn [nodes length] in L; lia]].
    assert (Hb : holds h b) by (rewrite Forall_forall in F; apply F; rewrite El; apply in_or_app; right; now left).
    pose proof (holds_top _ _ Hb) as Tb. erewrite b_ret; [|eapply run_is; exact Tb]. cbn [c_type with_ch]. unfold empty_block, kind.
    destruct (ntype_eqb (c_type (data b)) OPEN_CURLYBRACKET) eqn:O; [|reflexivity]. cbn [andb].
    erewrite run_empty; [|exact Tb|cbn; apply ntype_eqb_spec in O; rewrite O; reflexivity]. cbn [c_ch with_ch]. destruct (kids b); reflexivity.
Qed.

Lemma NoDup_app_inv {A} (l r : list A) : NoDup (l ++ r) -> NoDup l /\ NoDup r /\ forall x, In x l -> ~ In x r.
Proof.
  induction l as [|a l IH]; cbn; intro H; [repeat split; auto; constructor|]. inversion H as [|? ? N D]; subst. destruct (IH D) as (D1 & D2 & D3). split; [constructor; auto; intro; apply N, in_or_app; auto|].
  split; [auto|]. intros x [<-|I]; [intro; apply N, in_or_app; auto|auto].
Qed.
Lemma find_mid (x : addr) l r : ~ In x l -> find_child x (l ++ x :: r) = Some (length l).
Proof.
  induction l as [|a l IH]; cbn [app find_child In length]; intro N; [rewrite Nat.eqb_refl; reflexivity|]. destruct (Nat.eqb_spec x a); [subst; tauto|]. rewrite IH by tauto. reflexivity.
Qed.

Section Loop.
  Variables (m : list msg) (ps : list str).
  Notation st h := (mkK h m ps).
  Definition prunes (f : nat) : Prop := forall t x h, holds h t -> NoDup (nodes t) -> empty_rule t = false -> (length (nodes t) < f)%nat -> Z.of_nat (length (nodes t)) < 2 ^ 64 ->
    exists h', remove_empty_rules f x (top t) (st h) = Ret tt (st h') /\ holds h' (prune t) /\ keeps (nodes t) h h' /\ length h' = length h.

  Definition kept (k : tree) : list tree := if empty_rule k then [] else [prune k].
  Lemma loop_run f x a c (Hf : prunes f) (Hs : searched (c_type c) = true) : forall l done g h,
    nth_error h a = Some (with_ch c (map top done ++ map top l)) -> Forall (holds h) l ->
    NoDup (a :: map top done ++ flat_map nodes l) -> (length l < g)%nat ->
    (forall t, In t l -> (length (nodes t) < f)%nat) -> (forall t, In t l -> Z.of_nat (length (nodes t)) < 2 ^ 64) ->
    exists h', step_loop (remove_empty_rules f (push x a)) a g (Z.of_nat (length done)) (st h) = Ret tt (st h')
      /\ nth_error h' a = Some (with_ch c (map top done ++ map top (flat_map kept l)))
      /\ Forall (holds h') (flat_map kept l) /\ keeps (a :: flat_map nodes l) h h' /\ length h' = length h.
  Proof.
    assert (Hc : forall l, has_children (c_type (with_ch c l)) = true) by (intro; cbn; apply searched_children, Hs).
    induction l as [|t l IH]; intros done g h Ha F N Lg Lf L64.
    - destruct g as [|g]; [cbn in Lg; lia|]. exists h. split.
      + cbn [step_loop]. erewrite b_ret; [|eapply run_size; [exact Ha|apply Hc]]. cbn [c_ch with_ch map]. rewrite app_nil_r, map_length. rewrite Z.leb_refl. reflexivity.
      + cbn [flat_map map]. split; [exact Ha|]. split; [constructor|]. split; [apply keeps_refl|reflexivity].
    - destruct g as [|g]; [cbn in Lg; lia|]. cbn [step_loop]. cbn [map flat_map] in *.
      inversion F as [|? ? Ft Fl]; subst.
      inversion N as [|? ? Na Nd]; subst. destruct (NoDup_app_inv _ _ Nd) as (Nd1 & Nd2 & Nd3). destruct (NoDup_app_inv _ _ Nd2) as (Nt & Nl & Ntl).
      assert (Nat_ : ~ In a (nodes t)) by (intro I; apply Na, in_or_app; right; apply in_or_app; auto).
      assert (Nal : ~ In a (flat_map nodes l)) by (intro I; apply Na, in_or_app; right; apply in_or_app; auto).
      erewrite b_ret; [|eapply run_size; [exact Ha|apply Hc]]. cbn [c_ch with_ch]. rewrite app_length, map_length. cbn [length].
      replace (Z.of_nat (length done + S (length (map top l))) <=? Z.of_nat (length done)) with false by lia.
      erewrite b_ret; [|eapply (run_child h m ps a _ Ha (Z.of_nat (length done)) (top t)); [apply Hc| |lia]].
      2: { cbn [c_ch with_ch]. rewrite Nat2Z.id. rewrite <- (map_length top done). apply nth_mid. }
      destruct (empty_rule t) eqn:Er.
      + (* removed *)
        assert (Kt : kind t = COMPONENT_VALUE) by (unfold empty_rule in Er; apply andb_prop in Er; apply ntype_eqb_spec; tauto).
        set (h1 := put h a (with_ch c (map top done ++ map top l))).
        assert (R : remove_empty_rules f (push x a) (top t) (st h) = Ret tt (st h1)).
        { pose proof (Lf t (or_introl eq_refl)). destruct f as [|f]; [lia|]. cbn [remove_empty_rules].
          pose proof (holds_top _ _ Ft) as Tt. erewrite b_ret; [|eapply run_type; exact Tt]. cbn [c_type with_ch]. change (c_type (data t)) with (kind t). rewrite Kt. cbv iota.
          erewrite b_ret; [|apply empty_rule_run; auto; apply L64; now left]. rewrite Er.
          unfold previous_parent, push. cbn [x_parents]. rewrite bind_ret.
          erewrite run_remove; [|exact Ha|apply Hc|cbn [c_ch with_ch]; apply find_mid].
          - cbn [c_ch with_ch]. rewrite erase_mid. reflexivity.
          - intro I. apply (Nd3 _ I). apply in_or_app. left. apply top_in. }
        erewrite b_ret; [|exact R].
        assert (La : (a < length h)%nat) by (eapply nth_lt; eauto).
        assert (Ha1 : nth_error h1 a = Some (with_ch c (map top done ++ map top l))) by (apply put_same; auto).
        assert (St : step_over a (top t) (Z.of_nat (length done)) (st h1) = Ret (Z.of_nat (length done)) (st h1)).
        { unfold step_over. erewrite b_ret; [|eapply run_size; [exact Ha1|apply Hc]]. cbn [c_ch with_ch]. rewrite app_length, !map_length.
          destruct l as [|t2 l]; cbn [length]; [replace (_ <? _) with false by lia; reflexivity|]. replace (_ <? _) with true by lia.
          erewrite b_ret; [|eapply (run_child h1 m ps a _ Ha1 (Z.of_nat (length done)) (top t2)); [apply Hc| |lia]].
          2: { cbn [c_ch with_ch map]. rewrite Nat2Z.id. rewrite <- (map_length top done). apply nth_mid. }
          destruct (Nat.eqb_spec (top t) (top t2)) as [E|]; [|reflexivity]. exfalso. apply (Ntl (top t)); [apply top_in|]. rewrite E. apply in_or_app. left. apply top_in. }
        erewrite b_ret; [|exact St].
        assert (K1 : keeps [a] h h1) by (apply keeps_put; now left).
        destruct (IH done g h1) as (h' & E' & A' & F' & K' & L').
        * exact Ha1.
        * eapply holds_all_keeps; [exact K1| |exact Fl]. intros b Ib [<-|[]]. auto.
        * constructor; [intro I; apply Na; apply in_app_or in I; apply in_or_app; destruct I; [auto|right; apply in_or_app; auto]|].
          clear - Nd. induction (map top done) as [|d l0 IHd]; cbn in *; [apply NoDup_app_inv in Nd; tauto|]. inversion Nd as [|? ? X Y]; subst. constructor; [intro I; apply X; apply in_app_or in I; apply in_or_app; destruct I; [auto|right; apply in_or_app; auto]|auto].
        * cbn in Lg. lia.
        * intros; apply Lf; now right.
        * intros; apply L64; now right.
        * exists h'. split; [exact E'|]. unfold kept at 1. unfold kept at 2. rewrite Er. cbn [app]. split; [exact A'|]. split; [exact F'|]. split; [|unfold h1 in L'; rewrite put_length in L'; exact L'].
          destruct K1 as (Q1 & Q2), K' as (Q3 & Q4). split; [lia|]. intros b Hb Nb. rewrite Q4; [apply Q2; auto|lia|]; cbn [In] in *; [intros [?|[]]; tauto|]. intros [?|?]; apply Nb; [auto|right; apply in_or_app; auto].
      + (* kept *)
        destruct (Hf t (push x a) h Ft Nt Er (Lf t (or_introl eq_refl)) (L64 t (or_introl eq_refl))) as (h1 & E1 & P1 & K1 & L1).
        erewrite b_ret; [|exact E1].
        assert (Ha1 : nth_error h1 a = Some (with_ch c (map top done ++ top t :: map top l))).
        { destruct K1 as (_ & K1). rewrite K1; [exact Ha|eapply nth_lt; eauto|exact Nat_]. }
        erewrite b_ret; [|eapply step_over_same; [exact Ha1|apply Hc|cbn [c_ch with_ch]; rewrite <- (map_length top done); apply nth_mid]].
        destruct (IH (done ++ [prune t]) g h1) as (h' & E' & A' & F' & K' & L').
        * rewrite map_app, <- app_assoc. cbn [map app]. rewrite prune_top. exact Ha1.
        * eapply holds_all_keeps; [exact K1| |exact Fl]. intros b Ib I. eapply Ntl; eauto.
        * rewrite map_app, <- app_assoc. cbn [map app]. rewrite prune_top. pose proof (top_in t) as Tt.
          apply in_split in Tt. destruct Tt as (n1 & n2 & Et). rewrite Et in Nd.
          constructor; [intro I; apply Na; apply in_app_or in I; apply in_or_app; destruct I as [I|I]; [auto|right; apply in_or_app; destruct I as [<-|I]; [left; apply top_in|auto]]|].
          clear - Nd. induction (map top done) as [|d l0 IHd]; cbn in *.
          -- rewrite <- app_assoc in Nd. apply NoDup_app_inv in Nd. destruct Nd as (_ & Nd & _). cbn in Nd. inversion Nd as [|? ? X Y]; subst. apply NoDup_app_inv in Y. constructor; [intro; apply X, in_or_app; auto|tauto].
          -- inversion Nd as [|? ? X Y]; subst. constructor; [|auto]. intro I. apply X. apply in_app_or in I. apply in_or_app. destruct I as [I|[I|I]]; [auto| |]; right; apply in_or_app; [left; apply in_or_app; right; now left|auto].
        * cbn in Lg. lia.
        * intros; apply Lf; now right.
        * intros; apply L64; now right.
        * exists h'. split; [rewrite <- E'; rewrite app_length; cbn [length]; f_equal; lia|]. unfold kept at 1. unfold kept at 2. rewrite Er. cbn [app map].
          split; [rewrite A'; rewrite map_app, <- app_assoc; reflexivity|].
          assert (Pn : forall b, In b (nodes (prune t)) -> In b (nodes t)).
          { clear. induction t as [b c l IH] using tree_rect'. cbn [prune]. destruct (searched (c_type c)); [|auto]. intros k. cbn [nodes In]. intros [?|I]; [auto|right].
            rewrite flat_map_concat_map in I. apply in_concat in I. destruct I as (x & Ix & Ik). apply in_map_iff in Ix. destruct Ix as (u & <- & Iu). apply in_flat_map in Iu. destruct Iu as (y & Iy & Iu).
            destruct (empty_rule y); [destruct Iu|]. destruct Iu as [<-|[]]. rewrite Forall_forall in IH. eapply kids_in; eauto. }
          split; [constructor; [|exact F']|].
          -- eapply holds_keeps; [exact K'| |exact P1]. intros b Ib [<-|I]; [apply Nat_; auto|eapply Ntl; eauto].
          -- split; [|lia]. destruct K1 as (Q1 & Q2), K' as (Q3 & Q4). split; [lia|]. intros b Hb Nb. cbn [In] in Nb. rewrite Q4; [apply Q2; auto|lia|]; [intro; apply Nb; right; apply in_or_app; auto|]. intros [?|?]; apply Nb; [auto|right; apply in_or_app; auto].
  Qed.
  Lemma prunes_all : forall f, prunes f.
  Proof.
    induction f as [|f IH]; intros t x h H N E Lt L64; [lia|]. destruct t as [a c l]. pose proof (holds_inv _ _ _ _ H) as (Ha & F). cbn [top].
    assert (Ch : searched (c_type c) = true -> exists h', step_loop (remove_empty_rules f (push x a)) a f 0 (st h) = Ret tt (st h') /\ holds h' (prune (Tree a c l)) /\ keeps (nodes (Tree a c l)) h h' /\ length h' = length h).
    { intro Hs. cbn [nodes length] in Lt, L64. pose proof (flat_nodes_length l).
      destruct (loop_run f x a c IH Hs l [] f h) as (h' & E' & A' & F' & K' & L').
      - exact Ha.
      - exact F.
      - exact N.
      - lia.
      - intros t It. pose proof (nodes_in _ _ It). lia.
      - intros t It. pose proof (nodes_in _ _ It). lia.
      - exists h'. split; [exact E'|]. split; [|split; [exact K'|exact L']]. cbn [prune]. rewrite Hs. constructor; [exact A'|exact F']. }
    cbn [remove_empty_rules]. erewrite b_ret; [|eapply run_type; exact Ha]. cbn [c_type with_ch].
    assert (Df : searched (c_type c) = false -> exists h', (ret tt : C unit) (st h) = Ret tt (st h') /\ holds h' (prune (Tree a c l)) /\ keeps (nodes (Tree a c l)) h h' /\ length h' = length h).
    { intro Hs. exists h. split; [reflexivity|]. cbn [prune]. rewrite Hs. split; [exact H|]. split; [apply keeps_refl|reflexivity]. }
    destruct (ntype_eqb (c_type c) COMPONENT_VALUE) eqn:Cv.
    - apply ntype_eqb_spec in Cv. rewrite Cv. cbv iota. rewrite Cv in Ch. destruct (Ch eq_refl) as (h' & E' & R'). exists h'. split; [|exact R'].
      erewrite b_ret; [|apply (empty_rule_run h m ps (Tree a c l)); auto]. rewrite E. exact E'.
    - destruct (c_type c); try discriminate Cv; first [apply Df; reflexivity | apply Ch; reflexivity].
  Qed.
End Loop.

(** ** C51

    The pass turns the tree into the tree without its empty rules: they
    are removed, and nothing else. The nodes of the tree are distinct. *)
Theorem c51_prune : forall t x h m ps fuel, holds h t -> NoDup (nodes t) -> empty_rule t = false ->
  (length (nodes t) < fuel)%nat -> Z.of_nat (length (nodes t)) < 2 ^ 64 ->
  exists h', remove_empty_rules fuel x (top t) (mkK h m ps) = Ret tt (mkK h' m ps)
    /\ holds h' (prune t) /\ keeps (nodes t) h h' /\ length h' = length h.
Proof. intros. apply prunes_all; auto. Qed.

(** No empty rule can be found. *)
Inductive no_empty_rule : tree -> Prop :=
  | no_empty_node a c l : empty_rule (Tree a c l) = false -> (searched (c_type c) = true -> Forall no_empty_rule l) -> no_empty_rule (Tree a c l).
(** No block is made only of empty rules, and rules are not found directly inside rules but in their blocks. *)
Inductive lasting : tree -> Prop :=
  | lasting_node a c l : (c_type c = OPEN_CURLYBRACKET -> l <> [] -> exists k, In k l /\ empty_rule k = false) ->
      (c_type c = COMPONENT_VALUE -> Forall (fun k => empty_rule k = false) l) ->
      (searched (c_type c) = true -> Forall lasting l) -> lasting (Tree a c l).
Lemma kept_rule t : lasting t -> empty_rule t = false -> empty_rule (prune t) = false.
Proof.
  destruct t as [a c l]. intros La E. cbn [prune]. destruct (searched (c_type c)) eqn:Hs; [|exact E]. unfold empty_rule in *. fold empty_rule in *. unfold kind in *. cbn [data kids] in *.
  destruct (ntype_eqb (c_type c) COMPONENT_VALUE) eqn:Cv; [|reflexivity]. cbn [andb] in *. apply ntype_eqb_spec in Cv.
  inversion La as [? ? ? _ Lc Ll]; subst. specialize (Ll Hs). specialize (Lc Cv).
  destruct (rev l) as [|b r] eqn:R.
  { assert (l = []) as -> by (rewrite <- (rev_involutive l), R; reflexivity). reflexivity. }
  assert (El : l = rev r ++ [b]) by (rewrite <- (rev_involutive l), R; reflexivity).
  assert (Ib : In b l) by (rewrite El; apply in_or_app; right; now left).
  rewrite Forall_forall in Ll, Lc. pose proof (Ll _ Ib) as Lb. pose proof (Lc _ Ib) as Nb. cbv beta in Nb.
  assert (Fm : flat_map (fun k => if empty_rule k then [] else [prune k]) l = map prune l).
  { clear - Lc. induction l as [|k l IH]; [reflexivity|]. cbn [flat_map map]. rewrite (Lc k) by (now left). rewrite IH by (intros; apply Lc; now right). reflexivity. }
  assert (G : match rev (flat_map (fun k => if empty_rule k then [] else [prune k]) l) with b0 :: _ => empty_block b0 | [] => false end = false); [|exact G].
  rewrite Fm, <- map_rev, R. cbn [map]. destruct b as [ab cb lb]. cbn [prune]. destruct (searched (c_type cb)) eqn:Sb; [|exact E].
  unfold empty_block in *. unfold kind in *. cbn [data kids] in *.
  destruct (ntype_eqb (c_type cb) OPEN_CURLYBRACKET) eqn:Ob; [|reflexivity]. cbn [andb] in *. apply ntype_eqb_spec in Ob.
  inversion Lb as [? ? ? H1 _ _]; subst. destruct lb as [|k0 lb]; [discriminate|]. destruct (H1 Ob ltac:(discriminate)) as (k & Ik & Ek).
  destruct (flat_map (fun k => if empty_rule k then [] else [prune k]) (k0 :: lb)) eqn:Z; [|reflexivity]. exfalso.
  assert (I : In (prune k) (flat_map (fun k => if empty_rule k then [] else [prune k]) (k0 :: lb))) by (apply in_flat_map; exists k; split; [exact Ik|rewrite Ek; now left]).
  rewrite Z in I. destruct I.
Qed.
(** After the pass no rule with an empty block remains, provided that no block
    was made only of empty rules. *)
Theorem c51_none_left_partial : forall t x h m ps fuel, holds h t -> NoDup (nodes t) -> empty_rule t = false -> lasting t ->
  (length (nodes t) < fuel)%nat -> Z.of_nat (length (nodes t)) < 2 ^ 64 ->
  exists h' t', remove_empty_rules fuel x (top t) (mkK h m ps) = Ret tt (mkK h' m ps)
    /\ holds h' t' /\ top t' = top t /\ no_empty_rule t'.
Proof.
  intros t x h m ps fuel H N E La Lf L6. destruct (c51_prune t x h m ps fuel H N E Lf L6) as (h' & R & P & _). exists h', (prune t). split; [exact R|]. split; [exact P|]. split; [apply prune_top|].
  clear - E La. revert E La. induction t as [a c l IH] using tree_rect'. intros E La.
  pose proof (kept_rule _ La E) as Ke. cbn [prune] in *. destruct (searched (c_type c)) eqn:Hs.
  - constructor; [exact Ke|]. intros _. inversion La as [? ? ? _ _ Ll]; subst. specialize (Ll Hs). rewrite Forall_forall in *. intros k Ik. apply in_flat_map in Ik. destruct Ik as (u & Iu & Ik).
    destruct (empty_rule u) eqn:Eu; [destruct Ik|]. destruct Ik as [<-|[]]. auto.
  - constructor; [exact E|]. congruence.
Qed.
(** [a \{ b \{\} \}]: the inner rule is removed, then [a \{\}] remains. *)
Definition nested_empty : heap :=
  [node LIST "" [1]; node COMPONENT_VALUE "" [2; 3]; node IDENTIFIER "a" []; node OPEN_CURLYBRACKET "" [4];
   node COMPONENT_VALUE "" [5; 6]; node IDENTIFIER "b" []; node OPEN_CURLYBRACKET "" []]%nat.
Theorem c51_nested_refuted : exists s' r b,
  remove_empty_rules 20 (mkX 0%nat [] false) 0%nat (mkK nested_empty [] []) = Ret tt s'
  /\ nth_error (k_heap s') 0%nat = Some r /\ c_ch r = [1%nat]
  /\ nth_error (k_heap s') 3%nat = Some b /\ c_type b = OPEN_CURLYBRACKET /\ c_ch b = [].
Proof. eexists _, _, _. split; [vm_compute; reflexivity|]. do 4 (split; [reflexivity|]). reflexivity. Qed.
(** [x \{ c: d \} b \{\}]. *)
Definition one_empty : heap :=
  [node LIST "" [1; 5]; node COMPONENT_VALUE "" [2; 3]; node IDENTIFIER "x" []; node OPEN_CURLYBRACKET "" [4]; node DECLARATION "c" [];
   node COMPONENT_VALUE "" [6; 7]; node IDENTIFIER "b" []; node OPEN_CURLYBRACKET "" []]%nat.
Definition one_rule : tree :=
  Tree 1%nat (node COMPONENT_VALUE "" []) [Tree 2%nat (node IDENTIFIER "x" []) []; Tree 3%nat (node OPEN_CURLYBRACKET "" []) [Tree 4%nat (node DECLARATION "c" []) []]].
Definition one_tree : tree :=
  Tree 0%nat (node LIST "" []) [one_rule; Tree 5%nat (node COMPONENT_VALUE "" []) [Tree 6%nat (node IDENTIFIER "b" []) []; Tree 7%nat (node OPEN_CURLYBRACKET "" []) []]].
Example c51_example : holds one_empty one_tree /\ NoDup (nodes one_tree) /\ empty_rule one_tree = false /\ lasting one_tree
  /\ prune one_tree = Tree 0%nat (node LIST "" []) [one_rule].
Proof.
  split; [repeat (constructor; [reflexivity|]); repeat constructor|]. split; [cbn; repeat (constructor; [cbn; lia|]); constructor|]. split; [reflexivity|]. split; [|reflexivity].
  assert (Leaf : forall a t s, t <> OPEN_CURLYBRACKET -> lasting (Tree a (node t s []) [])) by (intros a t s Nt; constructor; [congruence|constructor|constructor]).
  assert (Rule : lasting one_rule).
  { constructor; [discriminate|intros _; repeat constructor|]. intros _. constructor; [apply Leaf; discriminate|]. constructor; [|constructor].
    constructor; [intros _ _; eexists; split; [left; reflexivity|reflexivity]|discriminate|]. intros _. constructor; [apply Leaf; discriminate|constructor]. }
  constructor; [discriminate|discriminate|]. intros _. constructor; [exact Rule|]. constructor; [|constructor].
  constructor; [discriminate|intros _; repeat constructor|]. intros _. constructor; [apply Leaf; discriminate|]. constructor; [|constructor]. constructor; [congruence|discriminate|constructor].
Qed.
