(** * Selectors of nested rules (C46) *)

From Coq Require Import String ZArith List Bool Lia Arith Floats.SpecFloat.
From Verif Require Import Base NodeHeap NodeSpec NodeProofs Compiler CompRun ScopeProofs IfProofs Props_If.
Import ListNotations.
Open Scope string_scope. Open Scope list_scope. Open Scope Z_scope.
Ltac Zify.zify_post_hook ::= idtac.

(** ** Specification

    A selector is an ARG node with the items of the selector; [stype] is the type
    of what is seen. *)
Definition stype (t : seen) : ntype := match t with Seen t _ _ _ _ _ _ _ _ => t end.
Definition is_space (t : seen) : bool := ntype_eqb (stype t) WHITESPACE.
Definition space (p : position) : seen := Seen WHITESPACE p false 0 (S754_zero false) [] [] [] [].
(** No end of file, and white spaces do not follow one another. *)
Fixpoint tidy (l : list seen) : Prop :=
  match l with
  | [] => True
  | x :: r => stype x <> EOF_TOKEN /\ match r with y :: _ => is_space x && is_space y = false | [] => True end /\ tidy r
  end.
(** The selector [i] of a rule found inside a rule with the selector [o]: [o i], or
    where [i] starts with '&', [i] with that '&' replaced with [o]. *)
Inductive combined (p : position) (o : list seen) : list seen -> list seen -> Prop :=
  | combined_inside i : i <> [] -> Forall (fun t => stype t <> REFERENCE) i -> tidy (o ++ space p :: i) -> combined p o i (o ++ space p :: i)
  | combined_reference r i : stype r = REFERENCE -> Forall (fun t => stype t <> REFERENCE) i -> tidy (o ++ i) -> combined p o (r :: i) (o ++ i).

(** What the code makes of [o] with several inner selectors: each is combined with
    the result of the previous one. *)
Inductive in_sequence (p : position) : list seen -> list (list seen) -> list seen -> Prop :=
  | seq_none o : in_sequence p o [] o
  | seq_one o i r t u : combined p o i t -> in_sequence p t r u -> in_sequence p o (i :: r) u.

(** What is seen from [a] to the depth [f] does not depend on the node [n]. *)
Definition stable (n : addr) (h : heap) (f : nat) (a : addr) (t : seen) : Prop := forall g, keeps [n] h g -> look f g a = Some t.

(** What is below a selector; the same selector with other items. *)
Definition sitems (t : seen) : list seen := match t with Seen _ _ _ _ _ _ l _ _ => l end.
Definition svars (t : seen) : list (str * seen) := match t with Seen _ _ _ _ _ _ _ v _ => v end.
Definition spos (t : seen) : position := match t with Seen _ p _ _ _ _ _ _ _ => p end.
Definition with_items (t : seen) (l : list seen) : seen := match t with Seen t p b i d s _ v f => Seen t p b i d s l v f end.

(** [a] is a selector with the items [l]; the nodes of a list that starts with the
    selectors [sel], followed by something else, if anything. *)
Definition selector (n : addr) (h : heap) (f : nat) (a : addr) (l : list seen) : Prop :=
  a <> n /\ exists k, nth_error h a = Some k /\ c_type k = ARG /\ Forall2 (stable n h f) (c_ch k) l.
Definition no_more_selectors (n : addr) (h : heap) (rest : list addr) : Prop :=
  match rest with y :: _ => y <> n /\ exists k, nth_error h y = Some k /\ c_type k <> ARG | [] => True end.

(** ** Proof *)
Lemma clone_shape h : maps_ok h -> forall n x t, look (S n) h x = Some t ->
  exists k e, clone (S n) x h = Ret (length h) (h ++ k :: e) /\ closed_from (S (length h)) (h ++ k :: e)
    /\ look (S n) (h ++ k :: e) (length h) = Some t
    /\ Forall (fun y => S (length h) <= y < length (h ++ k :: e))%nat (ptrs k) /\ maps_ok (h ++ k :: e).
Proof.
  intros M n x t L.
  assert (MM : forall g, clone (S n) x h = Ret (length h) g -> maps_ok g).
  { intros g E. destruct (framed_clone (S n) x h) as (_ & Q). rewrite E in Q. cbn [heap_of] in Q. auto. }
  cbn [look] in L. destruct (nth_error h x) as [c|] eqn:Eg; [|discriminate].
  destruct (all_some (map (look n h) (c_ch c))) as [ch|] eqn:C; [|discriminate].
  destruct (all_some (map (fun kv => look n h (snd kv)) (c_vars c))) as [vs|] eqn:V; [|discriminate].
  injection L as <-.
  assert (exists k e, clone (S n) x h = Ret (length h) (h ++ k :: e) /\ closed_from (S (length h)) (h ++ k :: e)
    /\ look (S n) (h ++ k :: e) (length h) = Some (Seen (c_type c) (c_pos c) (c_bool c) (c_int c) (c_dec c) (c_str c) ch (combine (map fst (c_vars c)) vs) (c_flags c))
    /\ Forall (fun y => S (length h) <= y < length (h ++ k :: e))%nat (ptrs k)) as (k & e & E1 & E2 & E3 & E4); [|exists k, e; repeat (split; [auto|]); apply MM; auto].
  cbn [clone]. unfold NodeHeap.bind at 1, load at 1. rewrite Eg. unfold NodeHeap.bind at 1. cbn [new_node].
  unfold NodeHeap.bind at 1, load at 1. rewrite nth_mid. unfold NodeHeap.bind at 1. cbn [store]. rewrite put_mid.
  set (k := with_flags _ _).
  assert (C0 : closed_from (S (length h)) (h ++ [k])).
  { intros b c' Hb Eb. apply nth_lt in Eb. rewrite app_length in Eb. cbn in Eb. lia. }
  destruct (clone_children_spec h h n (clone n) (clone_spec h M n) (keeps_refl _ _) (c_ch c) ch k [] C C0) as (ys & e1 & R1 & C1 & A1 & F1).
  unfold NodeHeap.bind at 1. rewrite R1. cbn [app] in *.
  set (k1 := with_ch k (c_ch k ++ ys)) in *.
  assert (N1 : NoDup (map fst (c_vars k1) ++ map fst (c_vars c))) by (cbn; eauto).
  destruct (clone_vars_spec h h n (clone n) (clone_spec h M n) (keeps_refl _ _) (c_vars c) vs k1 e1 V N1 C1) as (zs & e2 & R2 & C2 & A2 & F2 & G2).
  unfold NodeHeap.bind at 1. rewrite R2. cbn [NodeHeap.ret].
  set (k2 := with_vars k1 (c_vars k1 ++ combine (map fst (c_vars c)) zs)) in *.
  exists k2, (e1 ++ e2). split; [reflexivity|]. split; [exact C2|].
  assert (Hch : c_ch k2 = ys) by reflexivity.
  assert (Hvs : c_vars k2 = combine (map fst (c_vars c)) zs) by reflexivity.
  assert (Gz : length zs = length (map fst (c_vars c))) by now rewrite map_length.
  split.
  - cbn [look]. rewrite nth_mid. rewrite Hch, Hvs.
    assert (A1' : all_some (map (look n (h ++ k2 :: e1 ++ e2)) ys) = Some ch).
    { eapply all_some_map; [|exact A1]. intros y t Hy Ly. rewrite Forall_forall in F1. specialize (F1 y Hy).
      apply (look_swap h _ k1 k2) in Ly; [|exact C1|lia].
      eapply look_keeps; [|exact Ly].
      replace (h ++ k2 :: e1 ++ e2) with ((h ++ k2 :: e1) ++ e2) by (rewrite <- app_assoc; reflexivity). apply keeps_app. }
    rewrite A1'.
    assert (A2' : all_some (map (fun kv => look n (h ++ k2 :: e1 ++ e2) (snd kv)) (combine (map fst (c_vars c)) zs)) = Some vs).
    { rewrite <- (map_map snd (look n (h ++ k2 :: e1 ++ e2))), map_snd_combine by auto. exact A2. }
    rewrite A2', map_fst_combine by auto. reflexivity.
  - unfold ptrs. rewrite Hch, Hvs. rewrite map_snd_combine by auto. rewrite app_length. cbn [length]. rewrite app_length in *. apply Forall_app. split.
    + eapply Forall_impl; [|exact F1]. cbn. intros. lia.
    + eapply Forall_impl; [|exact F2]. cbn. intros. lia.
Qed.

Section Append.
  Variables (m : list msg) (ps : list str).
  Notation st h := (mkK h m ps).
  Lemma look_type f h y t : look f h y = Some t -> exists c, nth_error h y = Some c /\ c_type c = stype t.
  Proof.
    destruct f as [|f]; [discriminate|]. cbn [look]. destruct (nth_error h y) as [c|]; [|discriminate]. destruct (all_some _); [|discriminate]. destruct (all_some _); [|discriminate].
    intros [= <-]. eauto.
  Qed.
  Definition ends_space (l : list seen) : bool := match rev l with x :: _ => is_space x | [] => false end.
  Definition add (l : list seen) (x : seen) : list seen := if is_space x && ends_space l then l else l ++ [x].
  Lemma add_run f h a c x k cur : nth_error h a = Some c -> has_children (c_type c) = true -> nth_error h x = Some k -> c_type k <> EOF_TOKEN ->
    Forall2 (fun y t => look f h y = Some t) (c_ch c) cur ->
    lift (add_child a x) (st h) = Ret tt (st (if ntype_eqb (c_type k) WHITESPACE && ends_space cur then h else put h a (with_ch c (c_ch c ++ [x])))).
  Proof.
    intros H E K N F. unfold lift, add_child, NodeHeap.bind, load, supports, store. cbn [k_heap]. rewrite H, E. unfold NodeHeap.ret. rewrite K.
    rewrite (proj2 (ntype_eqb_neq _ _) N). destruct (ntype_eqb (c_type k) WHITESPACE); [|reflexivity]. cbn [andb].
    assert (R : Forall2 (fun y t => look f h y = Some t) (rev (c_ch c)) (rev cur)).
    { clear -F. induction F; cbn [rev]; [constructor|]. apply Forall2_app; auto. }
    unfold ends_space. destruct R as [|b t l l' Lb _]; [reflexivity|]. destruct (look_type _ _ _ _ Lb) as (kb & Hb & Tb). rewrite Hb. unfold is_space. rewrite <- Tb. destruct (ntype_eqb (c_type kb) WHITESPACE); reflexivity.
  Qed.

  (** What is being built: the node [k] at the end of [h], its children among
      the nodes [e] that follow. *)
  Definition building (f : nat) (h : heap) (k : cell) (e : heap) (cur : list seen) : Prop :=
    closed_from (S (length h)) (h ++ k :: e) /\ maps_ok (h ++ k :: e) /\ c_vars k = []
    /\ Forall (fun y => S (length h) <= y < length (h ++ k :: e))%nat (c_ch k)
    /\ Forall2 (fun y t => look f (h ++ k :: e) y = Some t) (c_ch k) cur.
  Lemma building_more f h k e cur x e1 t (E : e1 <> []) : building f h k e cur -> length (h ++ k :: e) = x ->
    closed_from x ((h ++ k :: e) ++ e1) -> maps_ok ((h ++ k :: e) ++ e1) -> look f ((h ++ k :: e) ++ e1) x = Some t ->
    building f h k (e ++ e1) cur
    /\ (forall kt, nth_error ((h ++ k :: e) ++ e1) x = Some kt -> building f h (with_ch k (c_ch k ++ [x])) (e ++ e1) (cur ++ [t])).
  Proof.
    intros (C & M & Vk & R & F) Ex C1 M1 L1.
    assert (Q : (h ++ k :: e) ++ e1 = h ++ k :: e ++ e1) by (rewrite <- app_assoc; reflexivity).
    assert (C2 : closed_from (S (length h)) (h ++ k :: e ++ e1)).
    { rewrite <- Q. intros b c Hb Eb p Hp. destruct (Nat.lt_ge_cases b x) as [Lx|Lx].
      - rewrite nth_error_app1 in Eb by (rewrite Ex; auto). specialize (C _ _ Hb Eb p Hp). rewrite app_length. lia.
      - specialize (C1 _ _ Lx Eb p Hp). rewrite app_length in Ex. cbn [length] in Ex. lia. }
    assert (B1 : building f h k (e ++ e1) cur).
    { split; [exact C2|]. split; [rewrite <- Q; exact M1|]. split; [exact Vk|]. split.
      - eapply Forall_impl; [|exact R]. cbn. intros y Hy. rewrite <- Q, app_length. lia.
      - eapply Forall2_impl; [|exact F]. intros y u Hy. rewrite <- Q. eapply look_keeps; [apply keeps_app|exact Hy]. }
    split; [exact B1|]. intros kt Hk. destruct B1 as (_ & M2 & _ & R2 & F2). set (k1 := with_ch k (c_ch k ++ [x])).
    assert (Lq : length (h ++ k1 :: e ++ e1) = length (h ++ k :: e ++ e1)) by (rewrite !app_length; reflexivity).
    assert (Lx : (S (length h) <= x)%nat) by (rewrite <- Ex, app_length; cbn [length]; lia).
    split; [eapply closed_swap; exact C2|]. split.
    { rewrite <- put_mid with (c := k). apply maps_ok_put; [exact M2|]. cbn. rewrite Vk. constructor. }
    split; [exact Vk|]. cbn [c_ch k1 with_ch]. split.
    - rewrite Lq. apply Forall_app. split; [exact R2|]. constructor; [|constructor]. split; [exact Lx|]. rewrite <- Q, app_length, Ex. destruct e1; [congruence|cbn [length]; lia].
    - apply Forall2_app; [|constructor; [|constructor]].
      + clearbody k1. clear - F2 R2 C2. induction F2 as [|y u l l' Hy _ IH]; [constructor|]. inversion R2; subst; constructor; [|apply IH; assumption]. eapply look_swap; [exact C2|lia|exact Hy].
      + eapply look_swap; [exact C2|exact Lx|]. rewrite <- Q. exact L1.
  Qed.

  Fixpoint glue (p : position) (cur : list seen) (first : bool) (items : list seen) : list seen :=
    match items with
    | [] => cur
    | x :: r => glue p (if ntype_eqb (stype x) REFERENCE then cur else add (if first then add cur (space p) else cur) x) false r
    end.
  Lemma items_run n h0 f (F1 : (0 < f)%nat) h (K : keeps [n] h0 h) : forall items ts first k e cur,
    Forall2 (stable n h0 f) items ts -> Forall (fun t => stype t <> EOF_TOKEN) ts ->
    building f h k e cur -> has_children (c_type k) = true ->
    exists k' e', append_items f (length h) items first (st (h ++ k :: e)) = Ret tt (st (h ++ k' :: e'))
      /\ building f h k' e' (glue (c_pos k) cur first ts) /\ (exists l, k' = with_ch k l).
  Proof.
    induction items as [|x items IH]; intros ts first k e cur St Ne B Hk.
    - inversion St; subst. exists k, e. split; [reflexivity|]. split; [exact B|]. exists (c_ch k). destruct k; reflexivity.
    - inversion St as [|? t ? ts' S1 S2]; subst. inversion Ne as [|? ? N1 N2]; subst. cbn [append_items glue].
      assert (Keep : forall e2, keeps [n] h0 (h ++ e2)) by (intro; eapply keeps_trans; [exact K|apply keeps_app]).
      assert (Lx : look f (h ++ k :: e) x = Some t) by (apply S1, Keep).
      destruct (look_type _ _ _ _ Lx) as (cx & Hx & Tx). erewrite b_ret; [|eapply run_is; exact Hx]. rewrite Tx.
      destruct (ntype_eqb (stype t) REFERENCE) eqn:Rf; [rewrite bind_ret; apply IH; auto|].
      (* the white space *)
      assert (G : exists k1 e1, (if first then p <- pos_of (length h) ;; w <- lift (new_node WHITESPACE p) ;; lift (add_child (length h) w) else ret tt) (st (h ++ k :: e)) = Ret tt (st (h ++ k1 :: e1))
          /\ building f h k1 e1 (if first then add cur (space (c_pos k)) else cur) /\ exists l, k1 = with_ch k l).
      { destruct first; [|exists k, e; split; [reflexivity|split; [exact B|exists (c_ch k); destruct k; reflexivity]]].
        assert (Hl : nth_error (h ++ k :: e) (length h) = Some k) by apply nth_mid.
        erewrite b_ret; [|eapply run_pos; exact Hl]. erewrite b_ret; [|apply run_new].
        set (w := blank WHITESPACE (c_pos k)) in *. set (x1 := length (h ++ k :: e)).
        assert (Lw : look f ((h ++ k :: e) ++ [w]) x1 = Some (space (c_pos k))).
        { destruct f as [|f']; [lia|]. cbn [look]. unfold x1. rewrite nth_mid. reflexivity. }
        destruct (building_more f h k e cur x1 [w] (space (c_pos k)) ltac:(discriminate) B eq_refl) as (B1 & B2); [| |exact Lw|].
        { intros b c Hb Eb p Hp. destruct (Nat.eq_dec b x1) as [->|]; [unfold x1 in Eb; rewrite nth_mid in Eb; injection Eb as <-; destruct Hp|]. apply nth_lt in Eb. rewrite app_length in Eb. cbn [length] in Eb. unfold x1 in *. lia. }
        { apply maps_ok_app; [apply B|constructor]. }
        assert (Hw : nth_error ((h ++ k :: e) ++ [w]) x1 = Some w) by apply nth_mid.
        assert (Hl1 : nth_error ((h ++ k :: e) ++ [w]) (length h) = Some k) by (rewrite <- app_assoc; apply nth_mid).
        specialize (B2 w Hw).
        erewrite add_run; [|exact Hl1|exact Hk|exact Hw|discriminate|destruct B1 as (_ & _ & _ & _ & B1); rewrite <- app_assoc; exact B1].
        change (ntype_eqb (c_type w) WHITESPACE) with true. cbn [andb]. unfold add. change (is_space (space (c_pos k))) with true. cbn [andb].
        rewrite <- app_assoc. cbn [app]. destruct (ends_space cur).
        - exists k, (e ++ [w]). split; [reflexivity|]. split; [exact B1|]. exists (c_ch k). destruct k; reflexivity.
        - rewrite put_mid. eexists _, (e ++ [w]). split; [reflexivity|]. split; [exact B2|]. eauto. }
      destruct G as (k1 & e1 & E1 & B1 & (l1 & Ek1)). rewrite !bind_assoc. rewrite (b_ret _ _ _ _ _ E1).
      assert (Hk1 : has_children (c_type k1) = true) by (rewrite Ek1; exact Hk).
      (* the copy *)
      set (x1 := length (h ++ k1 :: e1)).
      destruct f as [|f']; [lia|].
      destruct (clone_shape (h ++ k1 :: e1) ltac:(apply B1) f' x t ltac:(apply S1, Keep)) as (kx & ex & R1 & C1 & L1 & P1 & M1).
      assert (Rc : lift (clone (S f') x) (st (h ++ k1 :: e1)) = Ret x1 (st ((h ++ k1 :: e1) ++ kx :: ex))) by (unfold lift; cbn [k_heap k_msgs k_paths]; rewrite R1; reflexivity).
      rewrite bind_assoc. rewrite (b_ret _ _ _ _ _ Rc).
      destruct (building_more (S f') h k1 e1 _ x1 (kx :: ex) t ltac:(discriminate) B1 eq_refl) as (B2 & B3); [|exact M1|exact L1|].
      { intros b c Hb Eb p Hp. destruct (Nat.eq_dec b x1) as [->|].
        - unfold x1 in Eb. rewrite nth_mid in Eb. injection Eb as <-. rewrite Forall_forall in P1. specialize (P1 p Hp). unfold x1. lia.
        - specialize (C1 b c ltac:(unfold x1 in *; lia) Eb p Hp). unfold x1. lia. }
      assert (Hx1 : nth_error ((h ++ k1 :: e1) ++ kx :: ex) x1 = Some kx) by apply nth_mid.
      assert (Hl1 : nth_error ((h ++ k1 :: e1) ++ kx :: ex) (length h) = Some k1) by (rewrite <- app_assoc; apply nth_mid).
      specialize (B3 kx Hx1).
      assert (Tk : c_type kx = stype t) by (destruct (look_type _ _ _ _ L1) as (c & Hc & Tc); unfold x1 in *; rewrite nth_mid in Hc; congruence).
      erewrite b_ret; [|eapply add_run; [exact Hl1|exact Hk1|exact Hx1|rewrite Tk; exact N1|destruct B2 as (_ & _ & _ & _ & B2); rewrite <- app_assoc; exact B2]].
      rewrite Tk. change (ntype_eqb (stype t) WHITESPACE) with (is_space t). rewrite <- app_assoc. cbn [app].
      set (cur1 := if first then add cur (space (c_pos k)) else cur) in *.
      assert (Fin : exists k2 e2, (if is_space t && ends_space cur1 then h ++ k1 :: e1 ++ kx :: ex else put (h ++ k1 :: e1 ++ kx :: ex) (length h) (with_ch k1 (c_ch k1 ++ [x1]))) = h ++ k2 :: e2
          /\ building (S f') h k2 e2 (add cur1 t) /\ exists l, k2 = with_ch k l).
      { unfold add. destruct (is_space t && ends_space cur1).
        - exists k1, (e1 ++ kx :: ex). split; [reflexivity|]. split; [exact B2|]. eauto.
        - rewrite put_mid. eexists _, _. split; [reflexivity|]. split; [exact B3|]. rewrite Ek1. eexists. reflexivity. }
      destruct Fin as (k2 & e2 & EE & B4 & (l2 & Ek2)).
      match goal with |- context [append_items _ _ _ _ (mkK ?hh m ps)] => replace hh with (h ++ k2 :: e2) by (symmetry; exact EE) end.
      destruct (IH ts' false k2 e2 (add cur1 t) S2 N2 B4) as (k3 & e3 & E3 & B5 & (l3 & Ek3)); [rewrite Ek2; exact Hk|].
      exists k3, e3. split; [exact E3|]. split; [rewrite Ek2 in B5; exact B5|]. exists l3. rewrite Ek3, Ek2. reflexivity.
  Qed.
End Append.

Lemma insert_mid {T} (l r : list T) (x : T) : list_insert (length l) x (l ++ r) = (l ++ [x]) ++ r.
Proof. unfold list_insert. rewrite <- app_assoc. cbn [app]. f_equal; [rewrite firstn_app, firstn_all, Nat.sub_diag; cbn [firstn]; apply app_nil_r|]. f_equal. rewrite skipn_app, skipn_all, Nat.sub_diag. reflexivity. Qed.

Definition joined (p : position) (o : list seen) (inner : list (list seen)) : list seen := fold_left (fun cur i => glue p cur true i) inner o.

Section Outer.
  Variables (m : list msg) (ps : list str) (n : addr) (h0 : heap) (f : nat).
  Notation st h := (mkK h m ps).
  Hypothesis F1 : (0 < f)%nat.
  (** A selector of the nested rule. *)
  Definition inner_ok (a : addr) (ts : list seen) : Prop :=
    selector n h0 f a ts /\ Forall (fun t => stype t <> EOF_TOKEN) ts.
  Lemma args_run h (K : keeps [n] h0 h) : forall args tss k e cur,
    Forall2 inner_ok args tss -> building f h k e cur -> has_children (c_type k) = true ->
    exists k' e', append_args f (length h) args (st (h ++ k :: e)) = Ret tt (st (h ++ k' :: e'))
      /\ building f h k' e' (joined (c_pos k) cur tss) /\ (exists l, k' = with_ch k l).
  Proof.
    induction args as [|a args IH]; intros tss k e cur A B Hk.
    - inversion A; subst. exists k, e. split; [reflexivity|]. split; [exact B|]. exists (c_ch k). destruct k; reflexivity.
    - inversion A as [|? ts ? tss' ((Na & ka & Ha & Ta & St) & Ne) A2]; subst. cbn [append_args].
      assert (Hg : nth_error (h ++ k :: e) a = Some ka).
      { assert (KK : keeps [n] h0 (h ++ k :: e)) by (eapply keeps_trans; [exact K|apply keeps_app]). destruct KK as (_ & KK). rewrite KK; [exact Ha|eapply nth_lt; exact Ha|]. intros [->|[]]. congruence. }
      erewrite b_ret; [|eapply run_size; [exact Hg|rewrite Ta; reflexivity]].
      erewrite b_ret; [|eapply run_load; exact Hg].
      destruct (items_run m ps n h0 f F1 h K (c_ch ka) ts true k e cur St Ne B Hk) as (k1 & e1 & E1 & B1 & (l1 & ->)).
      rewrite (b_ret _ _ _ _ _ E1). destruct (IH tss' (with_ch k l1) e1 _ A2 B1 Hk) as (k2 & e2 & E2 & B2 & (l2 & ->)).
      eexists _, _. split; [exact E2|]. split; [exact B2|]. eexists. reflexivity.
  Qed.

  Lemma look_of_children h y k l : nth_error h y = Some k -> c_vars k = [] -> Forall2 (fun y t => look f h y = Some t) (c_ch k) l ->
    look (S f) h y = Some (Seen (c_type k) (c_pos k) (c_bool k) (c_int k) (c_dec k) (c_str k) l [] (c_flags k)).
  Proof.
    intros H V F. cbn [look]. rewrite H, V. cbn [map all_some].
    replace (all_some (map (look f h) (c_ch k))) with (Some l); [reflexivity|]. symmetry. clear -F. induction F as [|y t ys ts E F IH]; [reflexivity|]. cbn [map all_some]. rewrite E, IH. reflexivity.
  Qed.
  Lemma look_parts f' h y t : look (S f') h y = Some t -> svars t = [] -> exists k, nth_error h y = Some k /\ c_vars k = [] /\ Forall2 (fun y t => look f' h y = Some t) (c_ch k) (sitems t)
    /\ t = Seen (c_type k) (c_pos k) (c_bool k) (c_int k) (c_dec k) (c_str k) (sitems t) [] (c_flags k).
  Proof.
    intro L. cbn [look] in L. destruct (nth_error h y) as [k|] eqn:E; [|discriminate].
    destruct (all_some (map (look f' h) (c_ch k))) as [ch|] eqn:C; [|discriminate].
    destruct (all_some (map (fun kv => look f' h (snd kv)) (c_vars k))) as [vs|] eqn:V; [|discriminate].
    injection L as <-. cbn [svars sitems]. intro Q. exists k. split; [reflexivity|].
    assert (Vk : c_vars k = []).
    { destruct (c_vars k) as [|kv r]; [reflexivity|]. cbn [map all_some] in V. destruct (look f' h (snd kv)) as [v0|]; [|discriminate V]. destruct (all_some (map (fun kv0 => look f' h (snd kv0)) r)) as [vr|]; [|discriminate V]. inversion V; subst vs. discriminate Q. }
    split; [exact Vk|]. split; [|rewrite Vk in *; reflexivity].
    clear - C. revert ch C. induction (c_ch k) as [|y ys IH]; intros ch C; cbn [map all_some] in C.
    - injection C as <-. constructor.
    - destruct (look f' h y) eqn:E; [|discriminate C]. destruct (all_some (map (look f' h) ys)) as [ch'|]; [|discriminate C]. inversion C; subst ch. constructor; auto.
  Qed.

  Variables (l : addr) (lc : cell) (tss : list (list seen)) (c : cell) (rest orest : list addr).
  Hypothesis Hn : has_children (c_type c) = true.
  Hypothesis Vn : NoDup (map fst (c_vars c)).
  Hypothesis Nl : n <> l.
  Hypothesis Ln : (n < l)%nat.
  Hypothesis Lt : has_children (c_type lc) = true.
  Hypothesis A : Forall2 inner_ok (c_ch lc) tss.
  Hypothesis Oend : no_more_selectors n h0 orest.
  Definition made (o : seen) : seen := with_items o (joined (spos o) (sitems o) tss).
  Lemma outer_run : forall outer os g copies ts, Forall2 (stable n h0 f) outer os -> Forall (fun o => stype o = ARG /\ svars o = []) os ->
    keeps [n] h0 g -> maps_ok g -> nth_error g n = Some (with_ch c (copies ++ rest)) -> nth_error g l = Some lc -> (S l <= length g)%nat ->
    closed_from (S l) g -> Forall (fun y => S l <= y)%nat copies -> Forall2 (fun y t => look (S f) g y = Some t) copies ts ->
    exists g' new, outer_loop f n l (Z.of_nat (length copies)) (outer ++ orest) (st g) = Ret tt (st g') /\ keeps [n] h0 g'
      /\ nth_error g' n = Some (with_ch c ((copies ++ new) ++ rest)) /\ Forall2 (fun y t => look (S f) g' y = Some t) (copies ++ new) (ts ++ map made os)
      /\ Forall (fun y => S l <= y)%nat (copies ++ new).
  Proof.
    induction outer as [|x outer IH]; intros os g copies ts So Oo K M Hc Hl Lg Cl Fc Ft.
    - inversion So; subst. exists g, []. cbn [map app]. rewrite !app_nil_r. split; [|split; [exact K|split; [exact Hc|split; [exact Ft|exact Fc]]]].
      destruct orest as [|y orest']; [reflexivity|]. destruct Oend as (Ny & ky & Hy & Ty). cbn [outer_loop].
      assert (Hg : nth_error g y = Some ky) by (destruct K as (_ & KK); rewrite KK; [exact Hy|eapply nth_lt; exact Hy|intros [E|[]]; congruence]).
      erewrite b_ret; [|eapply run_is; exact Hg]. rewrite (proj2 (ntype_eqb_neq _ _) Ty). reflexivity.
    - inversion So as [|? o ? os' S1 S2]; subst. inversion Oo as [|? ? (O1 & O2) O3]; subst. cbn [app outer_loop].
      set (f' := pred f). assert (Ef : S f' = f) by (apply Nat.succ_pred_pos; exact F1).
      pose proof (S1 g K) as Lx. destruct (look_type _ _ _ _ Lx) as (kx0 & Hx0 & Tx0).
      erewrite b_ret; [|eapply run_is; exact Hx0]. rewrite Tx0, O1. change (ntype_eqb ARG ARG) with true. cbv iota.
      pose proof (clone_shape g M f' x o) as CS. rewrite Ef in CS. destruct (CS Lx) as (k & e & R1 & C1 & L1 & P1 & M1).
      assert (Rc : lift (clone f x) (st g) = Ret (length g) (st (g ++ k :: e))) by (unfold lift; cbn [k_heap k_msgs k_paths]; rewrite R1; reflexivity).
      rewrite (b_ret _ _ _ _ _ Rc).
      assert (Hl1 : nth_error (g ++ k :: e) l = Some lc) by (rewrite nth_error_app1 by lia; exact Hl).
      erewrite b_ret; [|eapply run_load; exact Hl1].
      rewrite <- Ef in L1. destruct (look_parts _ _ _ _ L1 O2) as (k' & Hk' & Vk & Fk & Eo). rewrite nth_mid in Hk'. injection Hk' as <-.
      assert (Tk : c_type k = ARG) by (rewrite Eo in O1; exact O1).
      assert (B : building f g k e (sitems o)).
      { split; [exact C1|]. split; [exact M1|]. split; [exact Vk|]. split.
        - rewrite Forall_forall in *. intros y Hy. apply P1. unfold ptrs. apply in_or_app. auto.
        - eapply Forall2_impl; [|exact Fk]. intros y t Hy. eapply look_more; [|exact Hy]. lia. }
      destruct (args_run g K (c_ch lc) tss k e (sitems o) A B ltac:(rewrite Tk; reflexivity)) as (k1 & e1 & E1 & B1 & (l1 & Ek1)).
      rewrite (b_ret _ _ _ _ _ E1).
      destruct B1 as (C2 & M2 & V2 & P2 & F2).
      assert (Hnn : n <> length g) by lia.
      assert (Hc1 : nth_error (g ++ k1 :: e1) n = Some (with_ch c (copies ++ rest))) by (rewrite nth_error_app1 by lia; exact Hc).
      assert (Hy1 : nth_error (g ++ k1 :: e1) (length g) = Some k1) by apply nth_mid.
      assert (Tk1 : c_type k1 = ARG) by (rewrite Ek1; exact Tk).
      erewrite b_ret; [|eapply run_insert; [exact Hc1|exact Hn|exact Hy1|rewrite Tk1; discriminate|rewrite Tk1; discriminate|cbn [c_ch with_ch]; rewrite app_length; lia]].
      cbn [c_ch with_ch].
      assert (Ei : list_insert (Z.to_nat (Z.of_nat (length copies))) (length g) (copies ++ rest) = (copies ++ [length g]) ++ rest).
      { rewrite Nat2Z.id. apply insert_mid. }
      rewrite Ei. replace (Z.of_nat (length copies) + 1) with (Z.of_nat (length (copies ++ [length g]))) by (rewrite app_length; cbn [length]; lia).
      set (g1 := put (g ++ k1 :: e1) n (with_ch c ((copies ++ [length g]) ++ rest))).
      assert (Same : forall b, b <> n -> nth_error g1 b = nth_error (g ++ k1 :: e1) b) by (intros; apply put_other; auto).
      assert (Cg : closed_from (S l) (g ++ k1 :: e1)).
      { intros b cb Hb Eb p Hp. destruct (Nat.lt_trichotomy b (length g)) as [Q|[Q|Q]].
        - rewrite nth_error_app1 in Eb by auto. specialize (Cl _ _ Hb Eb p Hp). rewrite app_length. lia.
        - subst b. rewrite nth_mid in Eb. injection Eb as <-. unfold ptrs in Hp. rewrite V2, app_nil_r in Hp. rewrite Forall_forall in P2. specialize (P2 p Hp). lia.
        - specialize (C2 b cb ltac:(lia) Eb p Hp). lia. }
      assert (Mono : forall d y t, (S l <= y)%nat -> look d (g ++ k1 :: e1) y = Some t -> look d g1 y = Some t).
      { intros d y t Hy. apply (look_mono (fun b => (S l <= b)%nat)); [|exact Hy]. intros b cb Hb Eb. split; [rewrite Same by lia; exact Eb|]. intros p Hp. specialize (Cg b cb Hb Eb p Hp). lia. }
      assert (Mk : look (S f) g1 (length g) = Some (made o)).
      { apply Mono; [lia|]. assert (Lf := look_of_children (g ++ k1 :: e1) (length g) k1 (joined (c_pos k) (sitems o) tss)).
        rewrite (Lf Hy1 V2 F2). unfold made. rewrite Eo. cbn [with_items spos sitems]. rewrite Ek1. reflexivity. }
      destruct (IH os' g1 (copies ++ [length g]) (ts ++ [made o]) S2 O3) as (g' & new & Eg & Kg & Ng & Fg & Gg).
      + eapply keeps_trans; [|apply keeps_put; left; reflexivity]. eapply keeps_trans; [exact K|apply keeps_app].
      + apply maps_ok_put; [exact M2|exact Vn].
      + unfold g1. rewrite put_same; [reflexivity|rewrite app_length; lia].
      + rewrite Same by auto. rewrite nth_error_app1 by lia. exact Hl.
      + unfold g1. rewrite put_length, app_length. lia.
      + intros b cb Hb Eb. rewrite Same in Eb by lia. unfold g1. rewrite put_length. apply (Cg b cb Hb Eb).
      + apply Forall_app. split; [exact Fc|]. constructor; [lia|constructor].
      + apply Forall2_app; [|constructor; [exact Mk|constructor]].
        clearbody g1. clear - Fc Ft Mono. induction Ft as [|y t ys ts' E F IHl]; [constructor|]. inversion Fc; subst. constructor; [|auto]. apply Mono; [auto|]. eapply look_keeps; [apply keeps_app|exact E].
      + exists g', (length g :: new). split; [exact Eg|].
        replace (copies ++ length g :: new) with ((copies ++ [length g]) ++ new) by (exact (eq_sym (app_assoc copies [length g] new))).
        replace (ts ++ map made (o :: os')) with ((ts ++ [made o]) ++ map made os') by (exact (eq_sym (app_assoc ts [made o] _))). split; [exact Kg|]. split; [exact Ng|]. split; [exact Fg|exact Gg].
  Qed.
End Outer.

Section Take.
  Variables (m : list msg) (ps : list str) (n l : addr) (c : cell) (rest : list addr).
  Notation st h := (mkK h m ps).
  Hypothesis Hn : has_children (c_type c) = true.
  Hypothesis Nl : n <> l.
  Lemma take_run : forall sel fuel h lc, (length sel < fuel)%nat -> nth_error h n = Some (with_ch c (sel ++ rest)) -> nth_error h l = Some lc -> has_children (c_type lc) = true ->
    Forall (fun a => a <> n /\ a <> l /\ exists k, nth_error h a = Some k /\ c_type k = ARG) sel ->
    (match rest with y :: _ => exists k, nth_error h y = Some k /\ y <> n /\ y <> l /\ c_type k <> ARG | [] => True end) ->
    exists h', take_args fuel n l (st h) = Ret tt (st h') /\ length h' = length h /\ (forall b, b <> n -> b <> l -> nth_error h' b = nth_error h b)
      /\ nth_error h' n = Some (with_ch c rest) /\ nth_error h' l = Some (with_ch lc (c_ch lc ++ sel)) /\ (maps_ok h -> maps_ok h').
  Proof.
    induction sel as [|a sel IH]; intros fuel h lc Lf En El Hl Sel Re; (destruct fuel as [|f]; [cbn [length] in Lf; lia|]); cbn [take_args app] in *.
    - exists h. split; [|split; [reflexivity|split; [auto|split; [exact En|split; [rewrite app_nil_r; replace (with_ch lc (c_ch lc)) with lc by (destruct lc; reflexivity); exact El|auto]]]]].
      erewrite b_ret; [|eapply run_empty; [exact En|exact Hn]]. cbn [c_ch with_ch]. destruct rest as [|y rest']; [reflexivity|].
      destruct Re as (k & Hy & _ & _ & Ty).
      erewrite b_ret; [|eapply run_child0; [exact En|exact Hn|reflexivity]].
      erewrite b_ret; [|eapply run_is; exact Hy]. rewrite (proj2 (ntype_eqb_neq _ _) Ty). reflexivity.
    - inversion Sel as [|? ? (N1 & N2 & k & Hk & Tk) Sel']; subst.
      erewrite b_ret; [|eapply run_empty; [exact En|exact Hn]]. cbn [c_ch with_ch].
      erewrite b_ret; [|eapply run_child0; [exact En|exact Hn|reflexivity]].
      erewrite b_ret; [|eapply run_is; exact Hk]. rewrite Tk. change (ntype_eqb ARG ARG) with true. cbv iota.
      erewrite b_ret; [|eapply run_remove0; [exact En|exact Hn|reflexivity]].
      set (c1 := with_ch (with_ch c (a :: sel ++ rest)) (sel ++ rest)). set (h1 := put h n c1).
      assert (Hl1 : nth_error h1 l = Some lc) by (unfold h1; rewrite put_other by congruence; exact El).
      assert (Hk1 : nth_error h1 a = Some k) by (unfold h1; rewrite put_other by congruence; exact Hk).
      erewrite b_ret; [|eapply run_add; [exact Hl1|exact Hl|exact Hk1|rewrite Tk; discriminate|rewrite Tk; discriminate]].
      set (h2 := put h1 l (with_ch lc (c_ch lc ++ [a]))).
      assert (Same : forall b, b <> n -> b <> l -> nth_error h2 b = nth_error h b) by (intros b B1 B2; unfold h2, h1; rewrite !put_other by congruence; reflexivity).
      destruct (IH f h2 (with_ch lc (c_ch lc ++ [a]))) as (h' & R & L' & S' & N' & Z' & M').
      + cbn [length] in Lf. lia.
      + unfold h2, h1. rewrite put_other by congruence. rewrite put_same by (eapply nth_lt; exact En). reflexivity.
      + unfold h2. rewrite put_same; [reflexivity|]. unfold h1. rewrite put_length. eapply nth_lt; exact El.
      + exact Hl.
      + eapply Forall_impl; [|exact Sel']. cbv beta. intros b (B1 & B2 & kb & B3 & B4). split; [exact B1|]. split; [exact B2|]. exists kb. rewrite Same by auto. auto.
      + destruct rest as [|y rest']; [auto|]. destruct Re as (ky & Y1 & Y2 & Y3 & Y4). exists ky. rewrite Same by auto. auto.
      + exists h'. split; [exact R|]. split; [rewrite L'; unfold h2, h1; rewrite !put_length; reflexivity|]. split; [intros; rewrite S' by auto; auto|]. split; [exact N'|]. split.
        * rewrite Z'. cbn [c_ch with_ch]. rewrite <- app_assoc. reflexivity.
        * intro M. apply M'. unfold h2. apply maps_ok_put; [apply maps_ok_put; [exact M|]|]; [apply (M n _ En)|apply (M l _ El)].
  Qed.
End Take.

Lemma tidy_add cur x r : tidy (cur ++ x :: r) -> add cur x = cur ++ [x].
Proof.
  intro T. unfold add. replace (is_space x && ends_space cur) with false; [reflexivity|]. symmetry. unfold ends_space.
  induction cur as [|a cur IH]; [apply andb_false_r|]. destruct cur as [|b cur].
  - cbn in T |- *. destruct T as (_ & T & _). rewrite andb_comm. exact T.
  - destruct T as (_ & _ & T). specialize (IH T). cbn [rev] in *. destruct ((rev cur ++ [b])) as [|z zs] eqn:E; [destruct (rev cur); discriminate E|]. cbn [app]. exact IH.
Qed.
Lemma glue_tidy p : forall i cur, Forall (fun t => stype t <> REFERENCE) i -> tidy (cur ++ i) -> glue p cur false i = cur ++ i.
Proof.
  induction i as [|x i IH]; intros cur R T; [cbn; rewrite app_nil_r; reflexivity|]. inversion R as [|? ? R1 R2]; subst. cbn [glue]. rewrite (proj2 (ntype_eqb_neq _ _) R1), (tidy_add _ _ _ T).
  rewrite IH; [rewrite <- app_assoc; reflexivity|exact R2|rewrite <- app_assoc; exact T].
Qed.
Lemma glue_combined p o i t : combined p o i t -> glue p o true i = t.
Proof.
  intros [i' N R T|r i' Rf R T].
  - destruct i' as [|x i']; [congruence|]. inversion R as [|? ? R1 R2]; subst. cbn [glue]. rewrite (proj2 (ntype_eqb_neq _ _) R1).
    rewrite (tidy_add o (space p) (x :: i') T). rewrite (tidy_add (o ++ [space p]) x i'); [|rewrite <- app_assoc; exact T].
    rewrite glue_tidy; [rewrite <- !app_assoc; reflexivity|exact R2|rewrite <- !app_assoc; exact T].
  - cbn [glue]. rewrite (proj2 (ntype_eqb_spec _ _) Rf). apply glue_tidy; assumption.
Qed.
Lemma joined_sequence p o inner t : in_sequence p o inner t -> joined p o inner = t.
Proof. induction 1 as [|o i r t u H _ IH]; [reflexivity|]. unfold joined in *. cbn [fold_left]. rewrite (glue_combined _ _ _ _ H). exact IH. Qed.

(** ** Theorems

    [n] is the nested rule, which starts with the selectors [sel]; [root] the outer
    one, which starts with the selectors [outer]. Afterward, the nested rule
    starts with one selector per outer selector, followed by what it had after its
    own selectors. *)
Theorem c46_exact_partial m ps h f n c sel rest inner root rc outer orest os res :
  maps_ok h -> (length sel < f)%nat -> n <> root ->
  nth_error h n = Some c -> c_type c = COMPONENT_VALUE -> c_ch c = sel ++ rest -> Forall2 (selector n h f) sel inner -> Forall (Forall (fun t => stype t <> EOF_TOKEN)) inner -> no_more_selectors n h rest ->
  nth_error h root = Some rc -> has_children (c_type rc) = true -> c_ch rc = outer ++ orest -> no_more_selectors n h orest ->
  Forall2 (stable n h f) outer os -> Forall (fun o => stype o = ARG /\ svars o = []) os ->
  Forall2 (fun o t => in_sequence (spos o) (sitems o) inner t) os res ->
  exists h' copies, prepend_selectors f root n (mkK h m ps) = Ret tt (mkK h' m ps) /\ keeps [n] h h'
    /\ nth_error h' n = Some (with_ch c (copies ++ rest)) /\ Forall (fun y => length h <= y)%nat copies
    /\ Forall2 (fun y t => look (S f) h' y = Some t) copies (map (fun ot => with_items (fst ot) (snd ot)) (combine os res)).
Proof.
  intros M Lf Nr Hn Tn Cn Sel Ne Re Hr Tr Cr Or So Oo Rs.
  assert (Hc : has_children (c_type c) = true) by (rewrite Tn; reflexivity).
  assert (Ln : (n < length h)%nat) by (eapply nth_lt; exact Hn).
  unfold prepend_selectors. erewrite b_ret; [|eapply run_pos; exact Hn]. erewrite b_ret; [|apply run_new].
  set (l := length h) in *. set (h1 := h ++ [blank LIST (c_pos c)]).
  assert (Nl : n <> l) by lia.
  assert (Up : forall b, (b < l)%nat -> nth_error h1 b = nth_error h b) by (intros b B; unfold h1; apply nth_error_app1; exact B).
  destruct (take_run m ps n l c rest Hc Nl sel f h1 (blank LIST (c_pos c))) as (h2 & R2 & L2 & S2 & N2 & Z2 & M2).
  - exact Lf.
  - rewrite Up by exact Ln. rewrite Hn, <- Cn. destruct c; reflexivity.
  - unfold h1, l. apply nth_mid.
  - reflexivity.
  - clear - Sel Up. induction Sel as [|a ts sel inner (Na & k & Hk & Tk & _) _ IH]; constructor; [|exact IH]. assert (a < l)%nat by (eapply nth_lt; exact Hk). split; [exact Na|]. split; [intro Q; rewrite Q in *; eapply Nat.lt_irrefl; eassumption|]. exists k. rewrite Up by assumption. auto.
  - destruct rest as [|y rest']; [auto|]. destruct Re as (Ny & k & Hy & Ty). assert (y < l)%nat by (eapply nth_lt; exact Hy). exists k. rewrite Up by assumption. split; [exact Hy|]. split; [exact Ny|]. split; [intro Q; rewrite Q in *; eapply Nat.lt_irrefl; eassumption|exact Ty].
  - rewrite (b_ret _ _ _ _ _ R2). cbn [c_ch blank app] in Z2.
    assert (L2' : length h2 = S l) by (rewrite L2; unfold h1; rewrite app_length; cbn [length]; unfold l; lia).
    assert (K : keeps [n] h h2).
    { split; [fold l; lia|]. intros b Hb Nb. assert (b <> n) by (intro Q; apply Nb; left; auto). rewrite S2 by lia. apply Up. exact Hb. }
    assert (Hr2 : nth_error h2 root = Some rc) by (destruct K as (_ & KK); rewrite KK; [exact Hr|eapply nth_lt; exact Hr|intros [Q|[]]; congruence]).
    erewrite b_ret; [|eapply run_size; [exact Hr2|exact Tr]]. erewrite b_ret; [|eapply run_load; exact Hr2]. rewrite Cr.
    destruct (outer_run m ps n h f ltac:(lia) l (with_ch (blank LIST (c_pos c)) sel) inner c rest orest Hc (M n c Hn) Nl Ln) with (outer := outer) (os := os) (g := h2) (copies := @nil addr) (ts := @nil seen) as (h' & new & R & K' & N' & F' & G').
    + cbn [c_ch with_ch]. clear - Sel Ne. induction Sel as [|a ts sel inner H _ IH]; [constructor|]. inversion Ne; subst. constructor; [split; assumption|auto].
    + exact Or.
    + exact So.
    + exact Oo.
    + exact K.
    + apply M2. unfold h1. apply maps_ok_app; [exact M|constructor].
    + exact N2.
    + exact Z2.
    + lia.
    + intros b cb Hb Eb. apply nth_lt in Eb. lia.
    + constructor.
    + constructor.
    + exists h', new. cbn [app] in *. split; [exact R|]. split; [exact K'|]. split; [exact N'|]. split; [eapply Forall_impl; [|exact G']; cbv beta; intros; lia|].
      replace (map (fun ot => with_items (fst ot) (snd ot)) (combine os res)) with (map (made inner) os); [exact F'|].
      clear - Rs. induction Rs as [|o t os res H _ IH]; [reflexivity|]. cbn [map combine fst snd]. f_equal; [|exact IH]. unfold made. rewrite (joined_sequence _ _ _ _ H). reflexivity.
Qed.

(** With one inner selector, this is what is expected. *)
Theorem c46_one_selector_partial m ps h f n c a rest inner root rc outer orest os res :
  maps_ok h -> (1 < f)%nat -> n <> root ->
  nth_error h n = Some c -> c_type c = COMPONENT_VALUE -> c_ch c = a :: rest -> selector n h f a inner -> Forall (fun t => stype t <> EOF_TOKEN) inner -> no_more_selectors n h rest ->
  nth_error h root = Some rc -> has_children (c_type rc) = true -> c_ch rc = outer ++ orest -> no_more_selectors n h orest ->
  Forall2 (stable n h f) outer os -> Forall (fun o => stype o = ARG /\ svars o = []) os ->
  Forall2 (fun o t => combined (spos o) (sitems o) inner t) os res ->
  exists h' copies, prepend_selectors f root n (mkK h m ps) = Ret tt (mkK h' m ps) /\ keeps [n] h h'
    /\ nth_error h' n = Some (with_ch c (copies ++ rest)) /\ Forall (fun y => length h <= y)%nat copies
    /\ Forall2 (fun y t => look (S f) h' y = Some t) copies (map (fun ot => with_items (fst ot) (snd ot)) (combine os res)).
Proof.
  intros M Lf Nr Hn Tn Cn Sel Ne Re Hr Tr Cr Or So Oo Rs.
  apply (c46_exact_partial m ps h f n c [a] rest [inner] root rc outer orest os res); auto.
  eapply Forall2_impl; [|exact Rs]. intros o t H. econstructor; [exact H|constructor].
Qed.

(** Examples. [a, b { <rule> { x: y } }]: the outer rule is at 1, the nested one at 6. *)
Lemma stable_leaf n h f a k : a <> n -> nth_error h a = Some k -> c_ch k = [] -> c_vars k = [] ->
  stable n h (S f) a (Seen (c_type k) (c_pos k) (c_bool k) (c_int k) (c_dec k) (c_str k) [] [] (c_flags k)).
Proof.
  intros N H C V g (_ & K). cbn [look]. rewrite K; [rewrite H, C, V; reflexivity|eapply nth_lt; exact H|intros [Q|[]]; congruence].
Qed.
Lemma stable_one n h f a k b t : a <> n -> nth_error h a = Some k -> c_ch k = [b] -> c_vars k = [] -> stable n h f b t ->
  stable n h (S f) a (Seen (c_type k) (c_pos k) (c_bool k) (c_int k) (c_dec k) (c_str k) [t] [] (c_flags k)).
Proof.
  intros N H C V S g K. cbn [look]. rewrite (proj2 K); [rewrite H, C, V; cbn [map all_some]; rewrite (S g K); reflexivity|eapply nth_lt; exact H|intros [Q|[]]; congruence].
Qed.
Definition word (s : str) : seen := Seen IDENTIFIER (mkPos 1 1 1) false 0 (S754_zero false) s [] [] [].
Definition sel (l : list seen) : seen := Seen ARG (mkPos 1 1 1) false 0 (S754_zero false) [] l [] [].
Definition blank1 := space (mkPos 1 1 1).
Definition rules (inner : list addr) (more : heap) : heap :=
  [ node LIST "" [1%nat]; node COMPONENT_VALUE "" [2; 4; 7]%nat; node ARG "" [3%nat]; node IDENTIFIER "a" []; node ARG "" [5%nat]; node IDENTIFIER "b" [];
    node COMPONENT_VALUE "" (inner ++ [8%nat]); node OPEN_CURLYBRACKET "" [6%nat]; node OPEN_CURLYBRACKET "" [] ] ++ more.
Definition shown (h : heap) (l : list addr) : list (option seen) := map (look 5 h) l.
Definition after (r : outcome kst unit) : heap := match r with Ret _ s => k_heap s | _ => [] end.

(** The hypotheses are met by [a, b { c { } }], which gives [a c, b c { }]. *)
Example c46_example :
  let h := rules [9]%nat [node ARG "" [10%nat]; node IDENTIFIER "c" []] in
  exists h' copies, prepend_selectors 5 1%nat 6%nat (mkK h [] []) = Ret tt (mkK h' [] [])
    /\ nth_error h' 6%nat = Some (node COMPONENT_VALUE "" (copies ++ [8]%nat))
    /\ map (look 6 h') copies = [Some (sel [word (zs "a"); blank1; word (zs "c")]); Some (sel [word (zs "b"); blank1; word (zs "c")])].
Proof.
  cbv zeta. set (h := rules _ _).
  destruct (c46_one_selector_partial [] [] h 5 6%nat (node COMPONENT_VALUE "" [9; 8]%nat) 9%nat [8%nat] [word (zs "c")] 1%nat (node COMPONENT_VALUE "" [2; 4; 7]%nat) [2; 4]%nat [7%nat]
    [sel [word (zs "a")]; sel [word (zs "b")]] [[word (zs "a"); blank1; word (zs "c")]; [word (zs "b"); blank1; word (zs "c")]]) as (h' & cs & R & _ & N & _ & L).
  - intros a c H. assert (B : Forall (fun c => NoDup (map fst (c_vars c))) h) by (unfold h, rules; cbn [app]; repeat constructor). rewrite Forall_forall in B. apply B. eapply nth_error_In. exact H.
  - lia.
  - lia.
  - reflexivity.
  - reflexivity.
  - reflexivity.
  - split; [lia|]. exists (node ARG "" [10%nat]). split; [reflexivity|]. split; [reflexivity|]. constructor; [|constructor]. apply (stable_leaf 6%nat h 4 10%nat (node IDENTIFIER "c" [])); [lia|reflexivity|reflexivity|reflexivity].
  - repeat constructor; discriminate.
  - split; [lia|]. eexists. split; [reflexivity|discriminate].
  - reflexivity.
  - reflexivity.
  - reflexivity.
  - split; [lia|]. eexists. split; [reflexivity|discriminate].
  - constructor; [|constructor; [|constructor]].
    + apply (stable_one 6%nat h 4 2%nat (node ARG "" [3%nat]) 3%nat); [lia|reflexivity|reflexivity|reflexivity|]. apply (stable_leaf 6%nat h 3 3%nat (node IDENTIFIER "a" [])); [lia|reflexivity|reflexivity|reflexivity].
    + apply (stable_one 6%nat h 4 4%nat (node ARG "" [5%nat]) 5%nat); [lia|reflexivity|reflexivity|reflexivity|]. apply (stable_leaf 6%nat h 3 5%nat (node IDENTIFIER "b" [])); [lia|reflexivity|reflexivity|reflexivity].
  - repeat constructor.
  - constructor; [|constructor; [|constructor]]; apply combined_inside; try discriminate; repeat constructor; discriminate.
  - exists h', cs. split; [exact R|]. split; [exact N|]. cbn [combine map fst snd with_items sel] in L.
    inversion L as [|y1 t1 r1 s1 E1 L1]; subst. inversion L1 as [|y2 t2 r2 s2 E2 L2]; subst. inversion L2; subst. cbn [map]. rewrite E1, E2. reflexivity.
Qed.
(** [&] stands for the outer selector: [a, b { &c { } }] gives [ac, bc { }]. *)
Example c46_reference_example : combined (mkPos 1 1 1) [word (zs "a")] [Seen REFERENCE (mkPos 1 1 1) false 0 (S754_zero false) [] [] [] []; word (zs "c")] [word (zs "a"); word (zs "c")].
Proof. apply (combined_reference (mkPos 1 1 1) [word (zs "a")] _ [word (zs "c")]); [reflexivity|repeat constructor; discriminate|repeat constructor; discriminate]. Qed.

(** With several inner selectors, C46 is false: [a, b { c, d { } }] gives the two
    selectors [a c d] and [b c d], instead of [a c], [a d], [b c] and [b d]. The
    whole pass is run here. *)
Theorem c46_product_refuted :
  let h := rules [9; 11]%nat [node ARG "" [10%nat]; node IDENTIFIER "c" []; node ARG "" [12%nat]; node IDENTIFIER "d" []] in
  exists h' s1 s2, expand_nested_components 25 (mkX 0%nat [] false) 0%nat (mkK h [] []) = Ret tt (mkK h' [] [])
    /\ nth_error h' 0%nat = Some (node LIST "" [1; 6]%nat)
    /\ nth_error h' 6%nat = Some (node COMPONENT_VALUE "" [s1; s2; 8]%nat)
    /\ look 5 h' s1 = Some (sel [word (zs "a"); blank1; word (zs "c"); blank1; word (zs "d")])
    /\ look 5 h' s2 = Some (sel [word (zs "b"); blank1; word (zs "c"); blank1; word (zs "d")]).
Proof. cbv zeta. eexists _, _, _. split; [vm_compute; reflexivity|]. split; [vm_compute; reflexivity|]. split; [vm_compute; reflexivity|]. split; vm_compute; reflexivity. Qed.
