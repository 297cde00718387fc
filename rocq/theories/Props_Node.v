(** * Properties C21 to C24: nodes *)

From Coq Require Import String ZArith List Bool Lia ZifyBool Arith.
From Coq Require Import Floats.SpecFloat.
From Verif Require Import Base NodeHeap NodeSpec NodeProofs.
Import ListNotations.
Open Scope string_scope. Open Scope list_scope. Open Scope Z_scope.
Ltac Zify.zify_post_hook ::= idtac.

(** ** C21 *)

Definition last_ws (h : heap) (l : list addr) : bool :=
  match rev l with [] => false | b :: _ => match type_at h b with Some WHITESPACE => true | _ => false end end.

Lemma type_at_put h a c c' b : nth_error h a = Some c -> c_type c' = c_type c -> type_at (put h a c') b = type_at h b.
Proof.
  intros E T. unfold type_at. destruct (Nat.eq_dec a b) as [<-|D].
  - rewrite put_same by (now apply nth_lt in E). rewrite E. cbn. now rewrite T.
  - now rewrite put_other.
Qed.

Lemma last_ws_ext h h' l : (forall b, type_at h' b = type_at h b) -> last_ws h' l = last_ws h l.
Proof. intro H. unfold last_ws. destruct (rev l); auto. now rewrite H. Qed.
Lemma squeeze_ext f g l : (forall b, f b = g b) -> forall w, squeeze f w l = squeeze g w l.
Proof.
  intro H. induction l as [|x l IH]; intro w; cbn; auto. rewrite H.
  destruct (g x) as [[]|]; rewrite ?IH; auto. all: destruct w; rewrite ?IH; auto.
Qed.

Lemma add_all_spec a : forall l h c,
  nth_error h a = Some c -> has_children (c_type c) = true ->
  (forall x, In x l -> (x < length h)%nat) -> (forall x, In x (c_ch c) -> (x < length h)%nat) ->
  add_all a l h = Ret tt (put h a (with_ch c (c_ch c ++ squeeze (type_at h) (last_ws h (c_ch c)) l))).
Proof.
  induction l as [|x l IH]; intros h c E T V W.
  - cbn. rewrite app_nil_r. replace (with_ch c (c_ch c)) with c by now destruct c. now rewrite put_id.
  - cbn [add_all]. unfold bind at 1, add_child, bind at 1, load at 1. rewrite E.
    unfold bind at 1. rewrite T. cbn [supports ret].
    assert (Hx : (x < length h)%nat) by (apply V; now left).
    destruct (nth_error h x) as [k|] eqn:Ex; [|apply nth_error_None in Ex; lia].
    unfold bind at 1, load at 1. rewrite Ex.
    assert (Tx : type_at h x = Some (c_type k)) by (unfold type_at; now rewrite Ex).
    assert (Step : forall w, last_ws h (c_ch c ++ [x]) = w ->
      add_all a l (put h a (with_ch c (c_ch c ++ [x])))
      = Ret tt (put h a (with_ch c (c_ch c ++ x :: squeeze (type_at h) w l)))).
    { intros w Hw. set (c1 := with_ch c (c_ch c ++ [x])).
      rewrite (IH (put h a c1) c1).
      - rewrite put_put. cbn [c_ch with_ch c1].
        replace (with_ch c1 _) with (with_ch c (c_ch c ++ x :: squeeze (type_at h) w l)); auto.
        unfold c1 at 1. change (with_ch (with_ch c (c_ch c ++ [x]))) with (with_ch c). f_equal.
        rewrite (last_ws_ext h) by (intro; eapply type_at_put; eauto).
        change (c_ch c1) with (c_ch c ++ [x]).
        rewrite Hw, <- app_assoc. cbn [app]. do 2 f_equal. apply squeeze_ext. intro. symmetry. eapply type_at_put; eauto.
      - apply put_same. now apply nth_lt in E.
      - auto.
      - intros y Hy. rewrite put_length. apply V. now right.
      - intros y Hy. rewrite put_length. cbn in Hy. apply in_app_or in Hy. destruct Hy as [Hy|[<-|[]]]; auto. }
    cbn [squeeze]. rewrite Tx.
    destruct (ntype_eqb (c_type k) EOF_TOKEN) eqn:Eo.
    { apply ntype_eqb_spec in Eo. rewrite Eo. cbn [ret]. apply IH; auto. intros y Hy. apply V. now right. }
    destruct (ntype_eqb (c_type k) WHITESPACE) eqn:Ew.
    { apply ntype_eqb_spec in Ew. rewrite Ew in *.
      unfold last_ws at 1. destruct (rev (c_ch c)) as [|b r] eqn:Er.
      - cbn [store]. apply (Step true). unfold last_ws. rewrite rev_app_distr. cbn. now rewrite Tx.
      - assert (Hb : (b < length h)%nat) by (apply W; apply in_rev; rewrite Er; now left).
        unfold bind at 1, load at 1. destruct (nth_error h b) as [kb|] eqn:Eb; [|apply nth_error_None in Eb; lia].
        assert (Tb : type_at h b = Some (c_type kb)) by (unfold type_at; now rewrite Eb). rewrite Tb.
        destruct (ntype_eqb (c_type kb) WHITESPACE) eqn:Ekb.
        + apply ntype_eqb_spec in Ekb. rewrite Ekb. cbn [ret].
          rewrite (IH h c E T) by (auto; intros y Hy; apply V; now right). do 5 f_equal.
          unfold last_ws. now rewrite Er, Tb, Ekb.
        + cbn [store]. etransitivity; [apply (Step true)|].
          2:{ apply ntype_eqb_neq in Ekb. destruct (c_type kb); try reflexivity; contradiction. }
          unfold last_ws. rewrite rev_app_distr. cbn. now rewrite Tx. }
    apply ntype_eqb_neq in Eo, Ew. cbn [store]. etransitivity; [apply (Step false)|].
    2:{ destruct (c_type k); try reflexivity; contradiction. }
    unfold last_ws. rewrite rev_app_distr. cbn. rewrite Tx. destruct (c_type k); try reflexivity; contradiction.
Qed.

Lemma squeeze_in ty l : forall w x, In x (squeeze ty w l) -> In x l /\ ty x <> Some EOF_TOKEN.
Proof.
  induction l as [|y l IH]; intros w x H; [destruct H|]. cbn in H.
  assert (K : forall w', In x (squeeze ty w' l) -> In x (y :: l) /\ ty x <> Some EOF_TOKEN)
    by (intros w' X; apply IH in X; cbn; tauto).
  destruct (ty y) as [[]|] eqn:E; try (eapply K; exact H);
    try (destruct H as [<-|H]; [split; [now left|congruence]|eapply K; exact H]).
  destruct w; [eapply K; exact H|]. destruct H as [<-|H]; [split; [now left|congruence]|eapply K; exact H].
Qed.
Lemma squeeze_adj ty l : forall w,
  (w = true -> forall x, nth_error (squeeze ty w l) 0 = Some x -> ty x <> Some WHITESPACE)
  /\ forall i x y, nth_error (squeeze ty w l) i = Some x -> nth_error (squeeze ty w l) (S i) = Some y ->
     ty x = Some WHITESPACE -> ty y <> Some WHITESPACE.
Proof.
  induction l as [|z l IH]; intro w; cbn [squeeze].
  - split; [intros _ x H; discriminate H|intros [|i] x y H; discriminate H].
  - assert (A : forall w', (ty z = Some WHITESPACE -> w' = true) ->
      forall i x y, nth_error (z :: squeeze ty w' l) i = Some x -> nth_error (z :: squeeze ty w' l) (S i) = Some y ->
      ty x = Some WHITESPACE -> ty y <> Some WHITESPACE).
    { intros w' Hw i x y Hi Hj Hx. destruct (IH w') as [I1 I2]. destruct i as [|i].
      - cbn in Hi, Hj. injection Hi as ->. apply (I1 (Hw Hx)). exact Hj.
      - cbn [nth_error] in Hi, Hj. eapply I2; eauto. }
    assert (B : forall x, ty z <> Some WHITESPACE -> nth_error (z :: squeeze ty false l) 0 = Some x -> ty x <> Some WHITESPACE)
      by (intros x N H; injection H as ->; exact N).
    destruct (ty z) as [t|] eqn:E.
    + destruct (ntype_eq_dec t EOF_TOKEN) as [->|D1]; [apply IH|].
      destruct (ntype_eq_dec t WHITESPACE) as [->|D2].
      * destruct w; [apply IH|]. split; [discriminate|]. apply A. auto.
      * assert (S1 : (w = true -> forall x, nth_error (z :: squeeze ty false l) 0 = Some x -> ty x <> Some WHITESPACE)
          /\ forall i x y, nth_error (z :: squeeze ty false l) i = Some x -> nth_error (z :: squeeze ty false l) (S i) = Some y ->
               ty x = Some WHITESPACE -> ty y <> Some WHITESPACE).
        { split; [intros _ x; apply B; congruence|]. apply A. congruence. }
        destruct t; try exact S1; contradiction.
    + split; [intros _ x; apply B; discriminate|]. apply A. discriminate.
Qed.
Lemma squeeze_others ty l : forall w,
  filter (fun x => match ty x with Some EOF_TOKEN | Some WHITESPACE => false | _ => true end) (squeeze ty w l)
  = filter (fun x => match ty x with Some EOF_TOKEN | Some WHITESPACE => false | _ => true end) l.
Proof.
  induction l as [|z l IH]; intro w; cbn [squeeze]; auto. cbn [filter].
  destruct (ty z) as [t|] eqn:E; [|cbn [filter]; rewrite E, IH; reflexivity].
  destruct t; try (cbn [filter]; rewrite E, IH; reflexivity); auto.
  destruct w; auto. cbn [filter]. rewrite E. apply IH.
Qed.

(** Appending any children to an empty node: no EOF, never two white spaces in
    a row, all the others in order; more precisely each run of white space is
    reduced to its first item. Nothing else changes. *)
Theorem c21_append : forall h a c l,
  nth_error h a = Some c -> has_children (c_type c) = true -> c_ch c = [] ->
  (forall x, In x l -> (x < length h)%nat) ->
  exists r, add_all a l h = Ret tt (put h a (with_ch c r))
  /\ (forall x, In x r -> In x l /\ type_at h x <> Some EOF_TOKEN)
  /\ (forall i x y, nth_error r i = Some x -> nth_error r (S i) = Some y ->
        ~ (type_at h x = Some WHITESPACE /\ type_at h y = Some WHITESPACE))
  /\ (let other x := match type_at h x with Some EOF_TOKEN | Some WHITESPACE => false | _ => true end in
      filter other r = filter other l)
  /\ r = squeeze (type_at h) false l.
Proof.
  intros h a c l E T N V. exists (squeeze (type_at h) false l). split; [|split; [|split; [|split]]].
  - rewrite (add_all_spec a l h c E T V); [rewrite N; reflexivity|rewrite N; intros x []].
  - apply squeeze_in.
  - intros i x y Hx Hy [A B]. destruct (squeeze_adj (type_at h) l false) as [_ K]. exact (K i x y Hx Hy A B).
  - apply squeeze_others.
  - reflexivity.
Qed.

(** A node whose type has no children refuses them and is unchanged. *)
Theorem c21_refused : forall h a x c, nth_error h a = Some c -> has_children (c_type c) = false ->
  add_child a x h = Throw XNodeType h.
Proof. intros h a x c E T. unfold add_child, bind, load. rewrite E, T. reflexivity. Qed.

Definition pos1 := new_position 1 1.
Definition cell0 (t : ntype) : cell := mkCell t pos1 false 0 (S754_zero false) [] [] [] [] [].

Example c21_example :
  let h := map cell0 [LIST; WHITESPACE; IDENTIFIER; EOF_TOKEN] in
  exists h', add_all 0%nat [1; 1; 2; 3; 1; 3; 1; 2; 2]%nat h = Ret tt h' /\ children_at h' 0%nat = Some [1; 2; 1; 2; 2]%nat.
Proof. eexists. split; [reflexivity|reflexivity]. Qed.

(** Inserting does not have this guard: white space can be repeated. *)
Theorem c21_insert_refuted : exists h h', insert_child 0%nat 0 1%nat h = Ret tt h'
  /\ children_at h 0%nat = Some [1%nat] /\ children_at h' 0%nat = Some [1; 1]%nat /\ type_at h 1%nat = Some WHITESPACE.
Proof.
  exists [with_ch (cell0 LIST) [1%nat]; cell0 WHITESPACE]. eexists.
  split; [reflexivity|split; [reflexivity|split; reflexivity]].
Qed.

(** ** C22 *)

(** After any history of edits, cloning a node from which a finite structure
    is seen succeeds; the clone shows the same structure, and every node which
    existed before is unchanged. *)
Theorem c22_clone_same : forall history a t n,
  let h := run_edits [] history in
  look n h a = Some t ->
  exists r h', clone n a h = Ret r h'
  /\ shows h' r t /\ shows h' a t /\ r <> a
  /\ forall b, (b < length h)%nat -> nth_error h' b = nth_error h b.
Proof.
  intros history a t n h L.
  assert (M : maps_ok h) by (apply maps_ok_run, maps_ok_nil).
  destruct (clone_spec h M n a t h L (keeps_refl _ _)) as (e & R & L' & C & P).
  exists (length h), (h ++ e). split; [exact R|]. split; [now exists n|]. split; [|split].
  - exists n. eapply look_keeps; [apply keeps_app|exact L].
  - destruct n as [|n]; [discriminate|]. cbn [look] in L. destruct (nth_error h a) as [c|] eqn:E; [|discriminate].
    apply nth_lt in E. lia.
  - intros b Hb. now rewrite nth_error_app1.
Qed.

Lemma run_keeps l : forall h, keeps (flat_map edited l) h (run_edits h l).
Proof.
  induction l as [|e l IH]; intro h; cbn; [apply keeps_refl|].
  destruct (framed_edit e h) as [[L K] _]. destruct (IH (run_edit h e)) as [L2 K2].
  split; [cbn in L2; unfold run_edits in *; lia|]. intros b Hb Hn. unfold run_edits in *. rewrite K2.
  - apply K; auto. intro X. apply Hn. apply in_or_app. auto.
  - lia.
  - intro X. apply Hn. apply in_or_app. auto.
Qed.

(** Later edits of any nodes which are not in the clone (the nodes that existed
    before it and those created after it) leave the clone as it is; later edits
    of nodes of the clone, or created after it, leave the original as it is. *)
Theorem c22_independent : forall history a t n,
  let h := run_edits [] history in
  look n h a = Some t ->
  exists r h', clone n a h = Ret r h' /\ shows h' r t /\
  (forall later, (forall b, In b (flat_map edited later) -> (b < length h \/ length h' <= b)%nat) ->
     shows (run_edits h' later) r t)
  /\ (forall later, (forall b, In b (flat_map edited later) -> (length h <= b)%nat) ->
     shows (run_edits h' later) a t).
Proof.
  intros history a t n h L.
  assert (M : maps_ok h) by (apply maps_ok_run, maps_ok_nil).
  destruct (clone_spec h M n a t h L (keeps_refl _ _)) as (e & R & L' & C & P).
  exists (length h), (h ++ e). split; [exact R|]. split; [now exists n|]. split.
  - intros later Hl. exists n. destruct (run_keeps later (h ++ e)) as [KL K].
    revert L'. apply (look_mono (fun b => (length h <= b < length (h ++ e))%nat)).
    + intros b c Hb E. split.
      * rewrite K; [exact E|lia|]. intro X. apply Hl in X. rewrite app_length in *. lia.
      * intros p Hp. exact (C b c ltac:(lia) E p Hp).
    + rewrite app_length. lia.
  - intros later Hl. exists n. destruct (run_keeps later (h ++ e)) as [KL K].
    assert (L2 : look n (h ++ e) a = Some t) by (eapply look_keeps; [apply keeps_app|exact L]).
    revert L. apply (look_mono (fun _ => True)); auto.
    intros b c _ E. split; auto. assert (Hb := nth_lt _ _ _ E). rewrite K.
    + rewrite nth_error_app1; auto.
    + rewrite app_length. lia.
    + intro X. apply Hl in X. lia.
Qed.

(** The nodes of the clone are exactly new nodes: the clone shares none with
    what existed, whatever sharing there was in the original. *)
Inductive reaches (h : heap) : addr -> addr -> Prop :=
  | reach_self a : reaches h a a
  | reach_child a c b d : nth_error h a = Some c -> In b (c_ch c) -> reaches h b d -> reaches h a d
  | reach_var a c k b d : nth_error h a = Some c -> In (k, b) (c_vars c) -> reaches h b d -> reaches h a d.
Theorem c22_no_sharing : forall history a t n,
  let h := run_edits [] history in
  look n h a = Some t ->
  exists r h', clone n a h = Ret r h' /\ forall b, reaches h' r b -> (length h <= b)%nat.
Proof.
  intros history a t n h L.
  assert (M : maps_ok h) by (apply maps_ok_run, maps_ok_nil).
  destruct (clone_spec h M n a t h L (keeps_refl _ _)) as (e & R & L' & C & P).
  exists (length h), (h ++ e). split; [exact R|]. intros b Hb.
  assert (G : forall x y, reaches (h ++ e) x y -> (length h <= x)%nat -> (length h <= y)%nat).
  { induction 1 as [x|x c y d E I _ IH|x c k y d E I _ IH]; intro Hx; auto; apply IH.
    - assert (In y (ptrs c)) by (unfold ptrs; apply in_or_app; auto). specialize (C x c Hx E y H). lia.
    - assert (In y (ptrs c)) by (unfold ptrs; apply in_or_app; right; apply (in_map snd) in I; exact I).
      specialize (C x c Hx E y H). lia. }
  eapply G; eauto.
Qed.

(** The lower case form of the name is not copied (nothing reads it). *)
Theorem c22_lowercase_refuted : exists h r h', clone 1 0%nat h = Ret r h'
  /\ get_lowercase_string 0%nat h' = Ret (zs "px") h' /\ get_lowercase_string r h' = Ret [] h'.
Proof.
  exists [with_low (cell0 IDENTIFIER) (zs "px")]. eexists. eexists.
  split; [reflexivity|split; reflexivity].
Qed.

(** Example: a list with a shared child, a variable and flags. *)
Definition c22_history : list edit :=
  [ENew LIST pos1; ENew INTEGER pos1; ESetInteger 1%nat 5; EAddChild 0%nat 1%nat; EAddChild 0%nat 1%nat;
   ENew IDENTIFIER pos1; ESetString 2%nat (zs "red"); ESetVariable 0%nat (zs "x") 2%nat; ESetFlag 0%nat (zs "f") true].
Example c22_example :
  let h := run_edits [] c22_history in
  exists t r h', look 3 h 0%nat = Some t /\ clone 3 0%nat h = Ret r h' /\ children_at h' r = Some [4; 5]%nat
  /\ shows (run_edits h' [ESetInteger 1%nat 7; EClear 0%nat; EClearFlags 0%nat]) r t.
Proof.
  intro h. subst h.
  destruct (look 3 (run_edits [] c22_history) 0%nat) as [t|] eqn:L; [|discriminate L].
  destruct (c22_independent c22_history 0%nat t 3%nat L) as (r & h' & R & _ & I & _).
  exists t, r, h'. split; [reflexivity|]. split; [exact R|]. split.
  - vm_compute in R. injection R as <- <-. reflexivity.
  - apply I. cbn. intros b [<-|[<-|[<-|[]]]]; left; repeat constructor.
Qed.

(** ** C23 *)

(** Insertion before position [i]: the children before and after keep their
    place; only the node edited changes. At the end it is an append. *)
Theorem c23_insert : forall h a c l1 l2 x k,
  nth_error h a = Some c -> has_children (c_type c) = true -> c_ch c = l1 ++ l2 -> l2 <> [] ->
  nth_error h x = Some k -> c_type k <> EOF_TOKEN ->
  insert_child a (Z.of_nat (length l1)) x h = Ret tt (put h a (with_ch c (l1 ++ x :: l2))).
Proof.
  intros h a c l1 l2 x k E T Sp N Ex K. unfold insert_child, bind, load. rewrite E, Sp, app_length.
  destruct l2 as [|y l2]; [contradiction|]. cbn [length].
  replace (Z.of_nat (length l1) =? _) with false by lia. rewrite T. cbn [supports ret].
  replace (_ <=? Z.of_nat (length l1)) with false by lia. rewrite Ex.
  apply ntype_eqb_neq in K. rewrite K. unfold list_insert. rewrite Nat2Z.id.
  rewrite firstn_app, Nat.sub_diag, firstn_all, skipn_app, skipn_all, Nat.sub_diag. cbn. now rewrite app_nil_r.
Qed.
Theorem c23_insert_end : forall h a c x, nth_error h a = Some c ->
  insert_child a (Z.of_nat (length (c_ch c))) x h = add_child a x h.
Proof. intros h a c x E. unfold insert_child at 1, bind at 1, load at 1. rewrite E, Z.eqb_refl. reflexivity. Qed.
Theorem c23_insert_range : forall h a c i x, nth_error h a = Some c -> has_children (c_type c) = true ->
  Z.of_nat (length (c_ch c)) < i -> insert_child a i x h = Throw XChildRange h.
Proof.
  intros h a c i x E T L. unfold insert_child, bind, load. rewrite E, T.
  replace (i =? _) with false by lia. cbn. replace (_ <=? i) with true by lia. reflexivity.
Qed.

(** Removal by position and by pointer (first occurrence). *)
Theorem c23_remove_at : forall h a c l1 y l2,
  nth_error h a = Some c -> has_children (c_type c) = true -> c_ch c = l1 ++ y :: l2 ->
  remove_child_at a (Z.of_nat (length l1)) h = Ret tt (put h a (with_ch c (l1 ++ l2))).
Proof.
  intros h a c l1 y l2 E T Sp. unfold remove_child_at, bind, load. rewrite E, T, Sp, app_length. cbn [supports ret length].
  replace (_ <=? _) with false by lia. unfold list_erase. rewrite Nat2Z.id, firstn_app, Nat.sub_diag, firstn_all.
  rewrite skipn_app. replace (S (length l1) - length l1)%nat with 1%nat by lia.
  rewrite skipn_all2 by lia. cbn. now rewrite app_nil_r.
Qed.
Theorem c23_remove_at_range : forall h a c i, nth_error h a = Some c -> has_children (c_type c) = true ->
  Z.of_nat (length (c_ch c)) <= i -> remove_child_at a i h = Throw XChildRange h.
Proof.
  intros h a c i E T L. unfold remove_child_at, bind, load. rewrite E, T. cbn.
  replace (_ <=? i) with true by lia. reflexivity.
Qed.
Lemma find_child_first l1 y l2 : ~ In y l1 -> find_child y (l1 ++ y :: l2) = Some (length l1).
Proof.
  induction l1 as [|z l1 IH]; cbn; intro H.
  - now rewrite Nat.eqb_refl.
  - destruct (Nat.eqb_spec y z) as [->|D]; [tauto|]. rewrite IH; auto.
Qed.
Lemma find_child_none y l : ~ In y l -> find_child y l = None.
Proof.
  induction l as [|z l IH]; cbn; intro H; auto.
  destruct (Nat.eqb_spec y z) as [->|D]; [tauto|]. rewrite IH; auto.
Qed.
Theorem c23_remove : forall h a c l1 y l2,
  nth_error h a = Some c -> has_children (c_type c) = true -> c_ch c = l1 ++ y :: l2 -> ~ In y l1 ->
  remove_child a y h = Ret tt (put h a (with_ch c (l1 ++ l2))).
Proof.
  intros h a c l1 y l2 E T Sp N. rewrite <- (c23_remove_at h a c l1 y l2 E T Sp).
  unfold remove_child, remove_child_at, bind, load. rewrite E, T. cbn [supports ret]. rewrite Sp, find_child_first by auto.
  rewrite app_length. cbn [length]. replace (_ <=? _) with false by lia. now rewrite Nat2Z.id.
Qed.
Theorem c23_remove_absent : forall h a c y, nth_error h a = Some c -> has_children (c_type c) = true -> ~ In y (c_ch c) ->
  remove_child a y h = Throw XNotAChild h.
Proof. intros h a c y E T N. unfold remove_child, bind, load. rewrite E, T. cbn. now rewrite find_child_none. Qed.

(** Replacement of the first occurrence. *)
Theorem c23_replace : forall h a c l1 o l2 n,
  nth_error h a = Some c -> c_ch c = l1 ++ o :: l2 -> ~ In o l1 ->
  replace_child a o n h = Ret tt (put h a (with_ch c (l1 ++ n :: l2))).
Proof.
  intros h a c l1 o l2 n E Sp N. unfold replace_child, bind, load. rewrite E, Sp, find_child_first by auto.
  unfold list_erase, list_insert.
  assert (F : firstn (length l1) (l1 ++ o :: l2) = l1) by (rewrite firstn_app, Nat.sub_diag, firstn_all; cbn; now rewrite app_nil_r).
  assert (F2 : skipn (length l1) (l1 ++ o :: l2) = o :: l2) by (rewrite skipn_app, Nat.sub_diag, skipn_all; reflexivity).
  rewrite F, F2, firstn_app, skipn_app.
  replace (S (length l1) - length l1)%nat with 1%nat by lia.
  replace (S (S (length l1)) - length l1)%nat with 2%nat by lia.
  rewrite firstn_all2, skipn_all2 by lia. cbn. rewrite <- app_assoc. reflexivity.
Qed.
Theorem c23_replace_absent : forall h a c o n, nth_error h a = Some c -> ~ In o (c_ch c) ->
  replace_child a o n h = Throw XNotAChild h.
Proof. intros h a c o n E N. unfold replace_child, bind, load. rewrite E. now rewrite find_child_none. Qed.

(** Taking over: all the children move, the source is left empty. *)
Theorem c23_take_over : forall h a n c k, a <> n ->
  nth_error h a = Some c -> has_children (c_type c) = true ->
  nth_error h n = Some k -> has_children (c_type k) = true ->
  exists h', take_over_children_of a n h = Ret tt h'
  /\ nth_error h' a = Some (with_ch c (c_ch k)) /\ nth_error h' n = Some (with_ch k [])
  /\ forall b, b <> a -> b <> n -> nth_error h' b = nth_error h b.
Proof.
  intros h a n c k D E T E2 T2. pose proof (nth_lt _ _ _ E) as La. pose proof (nth_lt _ _ _ E2) as Ln.
  eexists. unfold take_over_children_of, bind at 1, load at 1. rewrite E. unfold bind at 1. rewrite T. cbn [supports ret].
  unfold bind at 1, load at 1. rewrite E2. unfold bind at 1. rewrite T2. cbn [supports ret].
  unfold bind at 1. cbn [store]. unfold bind at 1, load at 1. rewrite put_same by auto.
  unfold bind at 1, load at 1. rewrite put_other by auto. rewrite E2. unfold bind at 1. cbn [store].
  rewrite put_put. unfold bind at 1, load at 1. rewrite put_other by auto. rewrite E2. cbn [store].
  split; [reflexivity|]. split; [|split].
  - rewrite put_other by auto. rewrite put_same by auto. reflexivity.
  - rewrite put_same by (rewrite put_length; auto). reflexivity.
  - intros b B1 B2. now rewrite !put_other by auto.
Qed.
(** ... except that a node taking over its own children loses them. *)
Theorem c23_take_over_self_refuted : exists h h', take_over_children_of 0%nat 0%nat h = Ret tt h'
  /\ children_at h 0%nat = Some [1%nat] /\ children_at h' 0%nat = Some [].
Proof.
  exists [with_ch (cell0 LIST) [1%nat]; cell0 INTEGER]. eexists.
  split; [reflexivity|split; reflexivity].
Qed.

(** Reading children. *)
Theorem c23_get : forall h a c i, nth_error h a = Some c -> has_children (c_type c) = true -> 0 <= i ->
  get_child a i h = match nth_error (c_ch c) (Z.to_nat i) with Some x => Ret x h | None => Throw XChildRange h end.
Proof.
  intros h a c i E T P. unfold get_child, bind, load. rewrite E, T. cbn.
  destruct (_ <=? i) eqn:L.
  - replace (nth_error (c_ch c) (Z.to_nat i)) with (@None addr); auto. symmetry. apply nth_error_None. lia.
  - destruct (nth_error (c_ch c) (Z.to_nat i)) eqn:N; auto. apply nth_error_None in N. lia.
Qed.
Theorem c23_get_last : forall h a c l x, nth_error h a = Some c -> has_children (c_type c) = true ->
  c_ch c = l ++ [x] -> Z.of_nat (length l) < 18446744073709551616 -> get_last_child a h = Ret x h.
Proof.
  intros h a c l x E T Sp L. unfold get_last_child, bind at 1, load at 1. rewrite E.
  assert (U : u64 (Z.of_nat (length (c_ch c)) - 1) = Z.of_nat (length l)).
  { rewrite Sp, app_length. cbn. unfold u64. rewrite Z.mod_small; lia. }
  rewrite U, (c23_get h a c) by (auto; lia). rewrite Nat2Z.id, Sp, nth_error_app2, Nat.sub_diag by lia. reflexivity.
Qed.
Theorem c23_get_last_empty : forall h a c, nth_error h a = Some c -> has_children (c_type c) = true ->
  c_ch c = [] -> get_last_child a h = Throw XChildRange h.
Proof.
  intros h a c E T Sp. unfold get_last_child, bind at 1, load at 1. rewrite E, Sp. cbn [length].
  change (u64 (Z.of_nat 0 - 1)) with 18446744073709551615.
  rewrite (c23_get h a c) by (auto; lia). rewrite Sp. destruct (Z.to_nat _) eqn:Q; [lia|reflexivity].
Qed.
Theorem c23_position : forall h a c x, nth_error h a = Some c -> has_children (c_type c) = true ->
  (In x (c_ch c) -> exists l1 l2, c_ch c = l1 ++ x :: l2 /\ ~ In x l1 /\ child_position a x h = Ret (Z.of_nat (length l1)) h)
  /\ (~ In x (c_ch c) -> child_position a x h = Ret npos h).
Proof.
  intros h a c x E T. unfold child_position, bind, load. rewrite E, T. cbn [supports ret]. split.
  - intro I. assert (Sp : exists l1 l2, c_ch c = l1 ++ x :: l2 /\ ~ In x l1).
    { revert I. generalize (c_ch c). induction l as [|y l IH]; [intros []|]. intros [<-|I].
      - exists [], l. cbn. auto.
      - destruct (Nat.eq_dec x y) as [->|D]; [exists [], l; cbn; auto|].
        destruct (IH I) as (l1 & l2 & -> & N). exists (y :: l1), l2. cbn. split; auto. intros [->|X]; auto. }
    destruct Sp as (l1 & l2 & -> & N). exists l1, l2. split; auto. split; auto. now rewrite find_child_first.
  - intro N. now rewrite find_child_none.
Qed.

Example c23_example :
  let h := [with_ch (cell0 LIST) [1; 2; 1; 3]%nat; cell0 INTEGER; cell0 IDENTIFIER; cell0 STRING] in
  exists h1 h2 h3, insert_child 0%nat 1 3%nat h = Ret tt h1 /\ children_at h1 0%nat = Some [1; 3; 2; 1; 3]%nat
  /\ remove_child 0%nat 1%nat h1 = Ret tt h2 /\ children_at h2 0%nat = Some [3; 2; 1; 3]%nat
  /\ replace_child 0%nat 3%nat 2%nat h2 = Ret tt h3 /\ children_at h3 0%nat = Some [2; 2; 1; 3]%nat
  /\ remove_child 0%nat 7%nat h3 = Throw XNotAChild h3 /\ insert_child 0%nat 9 1%nat h3 = Throw XChildRange h3.
Proof. do 3 eexists. repeat split; reflexivity. Qed.

(** ** C24 *)

Lemma cut_none s a : cut_slash s = (a, None) -> a = s /\ ~ In 47 s.
Proof.
  revert a. induction s as [|c s IH]; cbn; intros a H.
  - injection H as <-. auto.
  - destruct (Z.eqb_spec c 47); [discriminate|]. destruct (cut_slash s) as [a' [b|]]; [discriminate|].
    injection H as <-. destruct (IH a' eq_refl) as [-> N]. split; auto. intros [X|X]; auto.
Qed.
Lemma cut_some s a b : cut_slash s = (a, Some b) -> exists b', b = 47 :: b' /\ s = a ++ 47 :: b' /\ ~ In 47 a.
Proof.
  revert a. induction s as [|c s IH]; cbn; intros a H; [discriminate|].
  destruct (Z.eqb_spec c 47) as [->|D].
  - injection H as <- <-. exists s. auto.
  - destruct (cut_slash s) as [a' [b1|]]; [|discriminate]. injection H as <- ->.
    destruct (IH a' eq_refl) as (b' & -> & -> & N). exists b'. split; auto. split; auto. intros [X|X]; auto.
Qed.
Lemma cut_no_slash a : ~ In 47 a -> cut_slash a = (a, None).
Proof.
  induction a as [|c a IH]; cbn; intro N; auto.
  destruct (Z.eqb_spec c 47) as [->|D]; [exfalso; auto|]. rewrite IH; auto.
Qed.
Lemma cut_app a b : ~ In 47 a -> cut_slash (a ++ 47 :: b) = (a, Some (47 :: b)).
Proof.
  induction a as [|c a IH]; cbn; intro N; auto.
  destruct (Z.eqb_spec c 47) as [->|D]; [exfalso; auto|]. rewrite IH; auto.
Qed.

Lemma dim1_facts s d : ~ In 47 d -> dim1_of (dim1_set s d) = d /\ dim2_of (dim1_set s d) = dim2_of s.
Proof.
  intro N. unfold dim1_set, dim1_of, dim2_of. destruct s as [|c s].
  - rewrite (cut_no_slash d N). auto.
  - destruct (cut_slash (c :: s)) as [a [b|]] eqn:E.
    + apply cut_some in E. destruct E as (b' & -> & E & _). rewrite (cut_app d b' N). auto.
    + rewrite (cut_no_slash d N). auto.
Qed.
Lemma dim2_facts s d : dim2_of (dim2_set s d) = d /\ dim1_of (dim2_set s d) = dim1_of s.
Proof.
  unfold dim2_set, dim1_of, dim2_of. destruct d as [|x d].
  - destruct (cut_slash s) as [a [b|]] eqn:E.
    + apply cut_some in E. destruct E as (b' & -> & E & N). rewrite (cut_no_slash a N). auto.
    + rewrite E. auto.
  - destruct s as [|c s].
    + cbn [cut_slash]. change (47 =? 47) with true. auto.
    + destruct (cut_slash (c :: s)) as [a [b|]] eqn:E.
      * apply cut_some in E. destruct E as (b' & -> & E & N). cbn [firstn].
        rewrite <- app_assoc. cbn [app]. rewrite (cut_app a _ N). auto.
      * apply cut_none in E. destruct E as [-> N]. rewrite (cut_app _ _ N). auto.
Qed.

(** What is set is read back, and the other dimension is the same. *)
Theorem c24_set_dim1 : forall h a d x y, ~ In (47) d ->
  get_dim1 a h = Ret x h -> get_dim2 a h = Ret y h ->
  exists h', set_dim1 a d h = Ret tt h' /\ get_dim1 a h' = Ret d h' /\ get_dim2 a h' = Ret y h'.
Proof.
  intros h a d x y N G1 G2. unfold get_dim1, get_dim2, set_dim1, bind, load in *.
  destruct (nth_error h a) as [c|] eqn:E; [|discriminate].
  destruct (has_metrics (c_type c)) eqn:T; [|discriminate]. cbn [supports ret] in *.
  eexists. split; [reflexivity|]. rewrite put_same by (now apply nth_lt in E). cbn [c_type with_str c_str]. rewrite T. cbn.
  destruct (dim1_facts (c_str c) d N) as [-> ->]. injection G2 as G2. rewrite G2. auto.
Qed.
Theorem c24_set_dim2 : forall h a d x y,
  get_dim1 a h = Ret x h -> get_dim2 a h = Ret y h ->
  exists h', set_dim2 a d h = Ret tt h' /\ get_dim1 a h' = Ret x h' /\ get_dim2 a h' = Ret d h'.
Proof.
  intros h a d x y G1 G2. unfold get_dim1, get_dim2, set_dim2, bind, load in *.
  destruct (nth_error h a) as [c|] eqn:E; [|discriminate].
  destruct (has_metrics (c_type c)) eqn:T; [|discriminate]. cbn [supports ret] in *.
  eexists. split; [reflexivity|]. rewrite put_same by (now apply nth_lt in E). cbn [c_type with_str c_str]. rewrite T. cbn.
  destruct (dim2_facts (c_str c) d) as [-> ->]. injection G1 as G1. rewrite G1. auto.
Qed.
(** A first dimension that has a slash is not read back. *)
Theorem c24_slash_refuted : exists h d h', In 47 d /\ set_dim1 0%nat d h = Ret tt h' /\ get_dim1 0%nat h' <> Ret d h'.
Proof.
  exists [cell0 FONT_METRICS], (zs "a/b"). eexists. split; [right; left; reflexivity|].
  split; [reflexivity|]. vm_compute. discriminate.
Qed.
(** Other types of nodes are refused. *)
Theorem c24_refused : forall h a c d, nth_error h a = Some c -> c_type c <> FONT_METRICS ->
  set_dim1 a d h = Throw XNodeType h /\ set_dim2 a d h = Throw XNodeType h
  /\ get_dim1 a h = Throw XNodeType h /\ get_dim2 a h = Throw XNodeType h.
Proof.
  intros h a c d E T. unfold set_dim1, set_dim2, get_dim1, get_dim2, bind, load. rewrite E.
  destruct (c_type c); try contradiction; repeat split; reflexivity.
Qed.
Example c24_example : exists h1 h2 h3, set_dim1 0%nat (zs "px") [cell0 FONT_METRICS] = Ret tt h1
  /\ set_dim2 0%nat (zs "em") h1 = Ret tt h2 /\ set_dim1 0%nat (zs "pt") h2 = Ret tt h3
  /\ get_dim1 0%nat h3 = Ret (zs "pt") h3 /\ get_dim2 0%nat h3 = Ret (zs "em") h3
  /\ option_map c_str (nth_error h3 0%nat) = Some (zs "pt/em").
Proof. do 3 eexists. repeat split; reflexivity. Qed.

(** Flags and variables of a node behave as sets and maps. *)
Theorem c23_flags : forall h a c k v, nth_error h a = Some c ->
  exists h', set_flag a k v h = Ret tt h' /\ get_flag a k h' = Ret v h'
  /\ forall k', k' <> k -> exists w, get_flag a k' h = Ret w h /\ get_flag a k' h' = Ret w h'.
Proof.
  intros h a c k v E. unfold set_flag, get_flag, bind, load. rewrite E. eexists. split; [reflexivity|].
  rewrite put_same by (now apply nth_lt in E). cbn [c_flags with_flags]. unfold ret. split.
  - f_equal. unfold flag_mem. destruct v.
    + destruct (existsb _ (c_flags c)) eqn:X; auto. etransitivity; [apply existsb_app|]. rewrite X. cbn. now rewrite str_eqb_refl.
    + induction (c_flags c) as [|y l IH]; cbn; auto. destruct (str_eqb k y) eqn:K; cbn; auto. now rewrite K.
  - intros k' N. eexists. split; [reflexivity|]. f_equal. unfold flag_mem. destruct v.
    + destruct (existsb (str_eqb k) (c_flags c)) eqn:X; auto. etransitivity; [apply existsb_app|]. cbn.
      replace (str_eqb k' k) with false by (symmetry; now apply str_eqb_neq). now rewrite !orb_false_r.
    + induction (c_flags c) as [|y l IH]; cbn; auto. destruct (str_eqb k y) eqn:K; cbn.
      * apply str_eqb_spec in K. subst y. rewrite IH.
        replace (str_eqb k' k) with false by (symmetry; now apply str_eqb_neq). reflexivity.
      * now rewrite IH.
Qed.
Theorem c23_variables : forall h a c k v, nth_error h a = Some c ->
  exists h', set_variable a k v h = Ret tt h' /\ get_variable a k h' = Ret (Some v) h'
  /\ forall k', k' <> k -> exists w, get_variable a k' h = Ret w h /\ get_variable a k' h' = Ret w h'.
Proof.
  intros h a c k v E. unfold set_variable, get_variable, bind, load. rewrite E. eexists. split; [reflexivity|].
  rewrite put_same by (now apply nth_lt in E). cbn [c_vars with_vars]. unfold ret. split.
  - f_equal. induction (c_vars c) as [|[q w] l IH]; cbn; [now rewrite str_eqb_refl|].
    destruct (str_eqb k q) eqn:K; cbn; rewrite K; auto.
  - intros k' N. eexists. split; [reflexivity|]. f_equal. induction (c_vars c) as [|[q w] l IH]; cbn.
    + replace (str_eqb k' k) with false by (symmetry; now apply str_eqb_neq). reflexivity.
    + destruct (str_eqb k q) eqn:K; cbn.
      * apply str_eqb_spec in K. subst q. replace (str_eqb k' k) with false by (symmetry; now apply str_eqb_neq). reflexivity.
      * destruct (str_eqb k' q); auto.
Qed.
