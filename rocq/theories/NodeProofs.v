(** * Proofs about nodes on the heap *)

From Coq Require Import ZArith List Bool Lia ZifyBool Arith.
From Coq Require Import Floats.SpecFloat.
From Verif Require Import Base NodeHeap NodeSpec.
Import ListNotations.
Open Scope Z_scope.
Ltac Zify.zify_post_hook ::= idtac.

Lemma put_length h a c : length (put h a c) = length h.
Proof. revert a. induction h as [|x h IH]; intros [|a]; cbn; auto. Qed.
Lemma put_same h a c : (a < length h)%nat -> nth_error (put h a c) a = Some c.
Proof. revert a. induction h as [|x h IH]; intros [|a] H; cbn in *; try lia; auto. apply IH. lia. Qed.
Lemma put_other h a b c : a <> b -> nth_error (put h a c) b = nth_error h b.
Proof. revert a b. induction h as [|x h IH]; intros [|a] [|b] H; cbn; auto; try lia. Qed.
Lemma put_put h a c c' : put (put h a c) a c' = put h a c'.
Proof. revert a. induction h as [|x h IH]; intros [|a]; cbn; auto. now rewrite IH. Qed.
Lemma put_id h a c : nth_error h a = Some c -> put h a c = h.
Proof. revert a. induction h as [|x h IH]; intros [|a] H; cbn in *; try discriminate; [congruence|]. now rewrite IH. Qed.
Lemma put_mid h c c' r : put (h ++ c :: r) (length h) c' = h ++ c' :: r.
Proof. induction h as [|x h IH]; cbn; auto. now rewrite IH. Qed.
Lemma nth_lt {A} (l : list A) n x : nth_error l n = Some x -> (n < length l)%nat.
Proof. intro H. apply nth_error_Some. congruence. Qed.
Lemma nth_mid {A} (l : list A) x r : nth_error (l ++ x :: r) (length l) = Some x.
Proof. rewrite nth_error_app2, Nat.sub_diag by lia. reflexivity. Qed.

(** Maps have no repeated key. *)
Definition maps_ok (h : heap) : Prop :=
  forall a c, nth_error h a = Some c -> NoDup (map fst (c_vars c)).

(** [h'] has all the nodes of [h], unchanged but for those of [A]. *)
Definition keeps (A : list addr) (h h' : heap) : Prop :=
  (length h <= length h')%nat
  /\ forall b, (b < length h)%nat -> ~ In b A -> nth_error h' b = nth_error h b.

Lemma keeps_refl A h : keeps A h h.
Proof. split; auto. Qed.
Lemma keeps_trans A h1 h2 h3 : keeps A h1 h2 -> keeps A h2 h3 -> keeps A h1 h3.
Proof.
  intros [L1 H1] [L2 H2]. split; [lia|]. intros b Hb Hn. rewrite H2 by (auto; lia). auto.
Qed.
Lemma keeps_put A h a c : In a A -> keeps A h (put h a c).
Proof. intro H. split; [now rewrite put_length|]. intros b _ Hb. apply put_other. intros ->. auto. Qed.
Lemma keeps_app A h e : keeps A h (h ++ e).
Proof. split; [rewrite app_length; lia|]. intros b Hb _. now rewrite nth_error_app1. Qed.

Lemma map_set_keys {A} (m : list (str * A)) k v : NoDup (map fst m) -> NoDup (map fst (map_set m k v)).
Proof.
  intro H.
  assert (K : forall x, In x (map fst (map_set m k v)) -> x = k \/ In x (map fst m)).
  { clear H. induction m as [|[k' v'] m IH]; cbn; intros x Hx.
    - destruct Hx as [<-|[]]. auto.
    - destruct (str_eqb k k'); cbn in Hx; [tauto|]. destruct Hx as [<-|Hx]; auto. apply IH in Hx. tauto. }
  induction m as [|[k' v'] m IH]; cbn.
  - constructor; auto.
  - inversion H as [|? ? H1 H2]. subst. destruct (str_eqb k k') eqn:E; cbn; [now constructor|].
    constructor; [|apply IH; auto].
    + intro Hx. apply str_eqb_neq in E.
      assert (K' : forall x, In x (map fst (map_set m k v)) -> x = k \/ In x (map fst m)).
      { clear. induction m as [|[k' v'] m IH]; cbn; intros x Hx.
        - destruct Hx as [<-|[]]. auto.
        - destruct (str_eqb k k'); cbn in Hx; [tauto|]. destruct Hx as [<-|Hx]; auto. apply IH in Hx. tauto. }
      destruct (K' _ Hx) as [->|?]; [now apply E|auto].
    + clear - K. intros x Hx.
      assert (K' : forall x, In x (map fst (map_set m k v)) -> x = k \/ In x (map fst m)).
      { clear. induction m as [|[k' v'] m IH]; cbn; intros x Hx.
        - destruct Hx as [<-|[]]. auto.
        - destruct (str_eqb k k'); cbn in Hx; [tauto|]. destruct Hx as [<-|Hx]; auto. apply IH in Hx. tauto. }
      auto.
Qed.

Lemma map_set_new {A} (m : list (str * A)) k v : ~ In k (map fst m) -> map_set m k v = m ++ [(k, v)].
Proof.
  induction m as [|[k' v'] m IH]; cbn; intro H; auto.
  destruct (str_eqb k k') eqn:E; [apply str_eqb_spec in E; subst; tauto|].
  rewrite IH; auto.
Qed.

Lemma maps_ok_put h a c : maps_ok h -> NoDup (map fst (c_vars c)) -> maps_ok (put h a c).
Proof.
  intros H N b c' Hb. destruct (Nat.eq_dec a b) as [<-|D].
  - pose proof (nth_lt _ _ _ Hb) as L. rewrite put_length in L. rewrite put_same in Hb by auto. congruence.
  - rewrite put_other in Hb by auto. eauto.
Qed.
Lemma maps_ok_app h c : maps_ok h -> NoDup (map fst (c_vars c)) -> maps_ok (h ++ [c]).
Proof.
  intros H N b c' Hb. destruct (Nat.lt_ge_cases b (length h)).
  - rewrite nth_error_app1 in Hb by auto. eauto.
  - rewrite nth_error_app2 in Hb by auto. destruct (b - length h)%nat; cbn in Hb; [congruence|].
    now destruct n.
Qed.

(** What every operation does to the heap, whatever its outcome: only the
    nodes of [A] change, and maps stay maps. *)
Definition framed {X} (A : list addr) (m : act X) : Prop :=
  forall h, keeps A h (heap_of h (m h)) /\ (maps_ok h -> maps_ok (heap_of h (m h))).

Lemma framed_ret {X} A (x : X) : framed A (ret x).
Proof. intro h. split; auto. apply keeps_refl. Qed.
Lemma framed_throw {X} A e : framed A (throw (A := X) e).
Proof. intro h. split; auto. apply keeps_refl. Qed.
Lemma framed_undef {X} A : framed A (fun h => Undef (A := X) h).
Proof. intro h. split; auto. apply keeps_refl. Qed.
Lemma framed_nofuel {X} A : framed A (fun _ => NoFuel (A := X)).
Proof. intro h. split; auto. apply keeps_refl. Qed.
Lemma framed_bind {X Y} A (m : act X) (f : X -> act Y) :
  framed A m -> (forall x, framed A (f x)) -> framed A (bind m f).
Proof.
  intros Hm Hf h. unfold bind. specialize (Hm h). destruct (m h) as [x h'|e h'|h'|] eqn:E; cbn in *; auto.
  destruct (Hf x h') as [K M]. destruct Hm as [K0 M0].
  destruct (f x h') as [y h2|e2 h2|h2|] eqn:E2; cbn in *.
  1-3: split; [eapply keeps_trans; eauto|auto].
  split; [apply keeps_refl|auto].
Qed.
Lemma framed_supports A b : framed A (supports b).
Proof. destruct b; [apply framed_ret|apply framed_throw]. Qed.

(** Loads give a cell whose map is a map. *)
Lemma framed_load {Y} A a (f : cell -> act Y) :
  (forall h c, nth_error h a = Some c ->
     keeps A h (heap_of h (f c h)) /\ (maps_ok h -> maps_ok (heap_of h (f c h)))) ->
  framed A (bind (load a) f).
Proof.
  intros H h. unfold bind, load. destruct (nth_error h a) as [c|] eqn:E; [|apply framed_undef].
  destruct (H h c E) as [K M].
  destruct (f c h) as [y h2|e2 h2|h2|] eqn:E2; cbn in *; auto.
Qed.

Lemma framed_store A a c : In a A -> NoDup (map fst (c_vars c)) -> framed A (store a c).
Proof. intros Ha N h. cbn. split; [now apply keeps_put|]. intro M. now apply maps_ok_put. Qed.

Definition nice {Y} (A : list addr) (h : heap) (m : act Y) : Prop :=
  keeps A h (heap_of h (m h)) /\ (maps_ok h -> maps_ok (heap_of h (m h))).
Lemma nice_store A a c h : In a A -> (maps_ok h -> NoDup (map fst (c_vars c))) -> nice A h (store a c).
Proof. intros Ha N. split; [now apply keeps_put|]. intro M. apply maps_ok_put; auto. Qed.
Lemma nice_supports {Y} A b h (m : act Y) : nice A h m -> nice A h (bind (supports b) (fun _ => m)).
Proof. intro H. destruct b; [exact H|]. split; auto. apply keeps_refl. Qed.
Lemma nice_load {Y} A a h (f : cell -> act Y) :
  (forall c, nth_error h a = Some c -> nice A h (f c)) -> nice A h (bind (load a) f).
Proof.
  intro H. unfold nice, bind, load. destruct (nth_error h a) as [c|] eqn:E.
  - apply H. reflexivity.
  - split; auto. apply keeps_refl.
Qed.
Lemma nice_framed {Y} A h (m : act Y) : framed A m -> nice A h m.
Proof. intro H. apply H. Qed.

Ltac nice1 :=
  match goal with
  | |- framed _ _ => intro
  | |- nice _ _ (bind (load _) _) => apply nice_load; intros
  | |- nice _ _ (bind (supports _) _) => apply nice_supports
  | |- nice _ _ (store _ _) => apply nice_store; [cbn; auto|intros; cbn; eauto]
  | |- nice _ _ (ret _) => apply nice_framed, framed_ret
  | |- nice _ _ (throw _) => apply nice_framed, framed_throw
  | |- nice _ _ (if ?b then _ else _) => destruct b
  | |- nice _ _ (match ?b with _ => _ end) => destruct b
  end.
Lemma framed_nice {Y} A (m : act Y) : (forall h, nice A h m) -> framed A m.
Proof. intros H h. apply H. Qed.
Ltac go_nice := apply framed_nice; intro; repeat nice1.

Lemma framed_new A t p : framed A (new_node t p).
Proof. intro h. cbn. split; [apply keeps_app|]. intro M. apply maps_ok_app; auto. constructor. Qed.

Lemma framed_set_variable A a k v : In a A -> framed A (set_variable a k v).
Proof. intro H. unfold set_variable. go_nice. apply map_set_keys. eauto. Qed.

Lemma framed_clone_children A cl r l : In r A -> (forall x, framed A (cl x)) -> framed A (clone_children cl r l).
Proof.
  intros Hr Hc. induction l as [|x l IH]; cbn [clone_children]; [apply framed_ret|].
  apply framed_bind; [auto|]. intro y. apply framed_load. intros h c Hc'.
  change (nice A h (bind (store r (with_ch c (c_ch c ++ [y]))) (fun _ => clone_children cl r l))).
  unfold nice, bind. cbn [store].
  assert (N : nice A h (store r (with_ch c (c_ch c ++ [y])))) by (apply nice_store; [auto|intros; cbn; eauto]).
  unfold nice in N. cbn [store heap_of] in N. destruct N as [K M].
  destruct (IH (put h r (with_ch c (c_ch c ++ [y])))) as [K2 M2].
  destruct (clone_children cl r l (put h r (with_ch c (c_ch c ++ [y])))); cbn in *.
  1-3: split; [eapply keeps_trans; eauto|auto].
  split; [apply keeps_refl|auto].
Qed.
Lemma framed_clone_vars A cl r l : In r A -> (forall x, framed A (cl x)) -> framed A (clone_vars cl r l).
Proof.
  intros Hr Hc. induction l as [|[k x] l IH]; cbn [clone_vars]; [apply framed_ret|].
  apply framed_bind; [auto|]. intro y. apply framed_bind; [now apply framed_set_variable|auto].
Qed.

Lemma keeps_fresh h h' h2 : (length h < length h')%nat ->
  keeps [] h h' -> keeps [length h] h' h2 -> keeps [] h h2.
Proof.
  intros L [L1 H1] [L2 H2]. split; [lia|]. intros b Hb _. rewrite H2; auto; try lia.
  - cbn. intros [E|[]]. lia.
Qed.

Lemma framed_weaken {X} A B (m : act X) : (forall x, In x A -> In x B) -> framed A m -> framed B m.
Proof.
  intros I H h. destruct (H h) as [[L K] M]. split; auto. split; auto.
Qed.

Lemma nice_bind {X Y} A h (m : act X) (f : X -> act Y) :
  nice A h m -> (forall x h', m h = Ret x h' -> nice A h' (f x)) -> nice A h (bind m f).
Proof.
  unfold nice, bind. intros [K M] H. destruct (m h) as [x h'|e h'|h'|] eqn:E; cbn [heap_of] in *; auto.
  destruct (H x h' eq_refl) as [K2 M2].
  destruct (f x h') as [y h2|e2 h2|h2|]; cbn [heap_of] in *.
  1-3: split; [exact (keeps_trans _ _ _ _ K K2)|exact (fun x => M2 (M x))].
  split; [apply keeps_refl|auto].
Qed.

Lemma nice_new {Y} h t p (f : addr -> act Y) :
  nice [length h] (h ++ [mkCell t p false 0 (S754_zero false) [] [] [] [] []]) (f (length h)) ->
  nice [] h (bind (new_node t p) f).
Proof.
  unfold nice, bind, new_node. set (h1 := h ++ _). intros [K M].
  assert (L1 : (length h < length h1)%nat) by (unfold h1; rewrite app_length; cbn; lia).
  assert (K1 : keeps [] h h1) by apply keeps_app.
  assert (M1 : maps_ok h -> maps_ok h1) by (intro X; apply maps_ok_app; auto; constructor).
  destruct (f (length h) h1); cbn [heap_of] in *.
  1-3: split; [exact (keeps_fresh _ _ _ L1 K1 K)|exact (fun x => M (M1 x))].
  split; [apply keeps_refl|auto].
Qed.

Lemma framed_clone n a : framed [] (clone n a).
Proof.
  revert a. induction n as [|n IH]; intro a; [apply framed_nofuel|]. cbn [clone].
  apply framed_nice. intro h. apply nice_load. intros c Hc. apply nice_new.
  apply nice_load. intros k Hk. apply nice_bind.
  - apply nice_store; [cbn; auto|intros; cbn; eauto].
  - intros _ g _. apply nice_framed. apply framed_bind; [|intros _; apply framed_bind; [|intros _; apply framed_ret]].
    + apply framed_clone_children; [cbn; auto|]. intro x. eapply framed_weaken; [|apply IH]. intros ? [].
    + apply framed_clone_vars; [cbn; auto|]. intro x. eapply framed_weaken; [|apply IH]. intros ? [].
Qed.

Lemma framed_copy_variable f a s : framed [a] (copy_variable f a s).
Proof.
  unfold copy_variable. apply framed_nice. intro h. apply nice_load. intros c _. apply nice_framed.
  apply framed_clone_vars; [cbn; auto|]. intro. eapply framed_weaken; [|apply framed_clone]. intros ? [].
Qed.

Lemma framed_add_child a x : framed [a] (add_child a x).
Proof. unfold add_child. go_nice. Qed.
Lemma framed_insert a i x : framed [a] (insert_child a i x).
Proof.
  unfold insert_child. apply framed_nice. intro h. apply nice_load. intros c Hc.
  destruct (_ =? _); [apply nice_framed, framed_add_child|]. repeat nice1.
Qed.
Lemma framed_take a n : framed [a; n] (take_over_children_of a n).
Proof.
  apply framed_nice. intro h. unfold take_over_children_of.
  apply nice_load. intros c Hc. apply nice_supports. apply nice_load. intros k Hk. apply nice_supports.
  apply nice_bind; [apply nice_store; [cbn; auto|intros; cbn; eauto]|]. intros _ h1 _.
  apply nice_load. intros c1 Hc1. apply nice_load. intros k1 Hk1.
  apply nice_bind; [apply nice_store; [cbn; auto|intros; cbn; eauto]|]. intros _ h2 _.
  apply nice_load. intros k2 Hk2. apply nice_store; [cbn; auto|intros; cbn; eauto].
Qed.

Lemma framed_edit e h : keeps (edited e) h (run_edit h e) /\ (maps_ok h -> maps_ok (run_edit h e)).
Proof.
  destruct e; cbn [run_edit edited].
  all: try (match goal with |- keeps _ _ (heap_of _ (?m _)) /\ _ => change (nice [a] h m) end).
  all: unfold set_string, set_lowercase_string, set_integer, set_boolean, set_decimal_number,
    set_font_size, set_dim1, set_dim2, clear_children, remove_child, remove_child_at, replace_child, clear_variables, set_flag, clear_flags.
  all: try (apply nice_load; intros c Hc; apply nice_supports; apply nice_store; [cbn; auto|intros; cbn; eauto]; fail).
  - apply nice_framed, framed_add_child.
  - apply nice_framed, framed_insert.
  - repeat nice1.
  - repeat nice1.
  - apply framed_take.
  - repeat nice1.
  - repeat nice1. constructor.
  - apply nice_framed, framed_set_variable. cbn. auto.
  - apply nice_framed, framed_copy_variable.
  - repeat nice1.
  - repeat nice1.
  - apply framed_new.
  - apply framed_clone.
Qed.

Lemma maps_ok_run l : forall h, maps_ok h -> maps_ok (run_edits h l).
Proof.
  induction l as [|e l IH]; intros h M; cbn; auto. apply IH. now apply framed_edit.
Qed.
Lemma maps_ok_nil : maps_ok [].
Proof. intros a c H. now destruct a. Qed.

(** ** Looking *)

Lemma all_some_map {A B} (f g : A -> option B) l r :
  (forall x y, In x l -> f x = Some y -> g x = Some y) -> all_some (map f l) = Some r -> all_some (map g l) = Some r.
Proof.
  revert r. induction l as [|x l IH]; cbn; intros r H E; auto.
  destruct (f x) as [y|] eqn:F; [|discriminate]. rewrite (H x y) by auto.
  destruct (all_some (map f l)) as [r'|] eqn:R; [|discriminate].
  rewrite (IH r') by auto. auto.
Qed.

(** Pointers of a node. *)
Definition ptrs (c : cell) : list addr := c_ch c ++ map snd (c_vars c).

Lemma look_mono (P : addr -> Prop) h h' :
  (forall b c, P b -> nth_error h b = Some c -> nth_error h' b = Some c /\ forall p, In p (ptrs c) -> P p) ->
  forall n a t, P a -> look n h a = Some t -> look n h' a = Some t.
Proof.
  intros H. induction n as [|n IH]; intros a t Ha L; [discriminate|]. cbn [look] in *.
  destruct (nth_error h a) as [c|] eqn:E; [|discriminate].
  destruct (H _ _ Ha E) as [-> P1].
  destruct (all_some (map (look n h) (c_ch c))) as [ch|] eqn:C; [|discriminate].
  destruct (all_some (map (fun kv => look n h (snd kv)) (c_vars c))) as [vs|] eqn:V; [|discriminate].
  rewrite (all_some_map _ (look n h') _ _ (fun x y Hx F => IH x y (P1 x (in_or_app _ _ _ (or_introl Hx))) F) C).
  erewrite (all_some_map _ (fun kv => look n h' (snd kv))); [exact L| |exact V].
  intros x y Hx F. apply IH; auto. apply P1. unfold ptrs. apply in_or_app. right. now apply in_map.
Qed.

Lemma look_keeps h h' n a t : keeps [] h h' -> look n h a = Some t -> look n h' a = Some t.
Proof.
  intros [L K]. apply (look_mono (fun _ => True)); auto. intros b c _ E. split; auto.
  rewrite K; auto. now apply nth_lt in E.
Qed.

Lemma look_more n m h a t : (n <= m)%nat -> look n h a = Some t -> look m h a = Some t.
Proof.
  revert m a t. induction n as [|n IH]; intros m a t Lm L; [discriminate|].
  destruct m as [|m]; [lia|]. cbn [look] in *. destruct (nth_error h a) as [c|]; [|discriminate].
  destruct (all_some (map (look n h) (c_ch c))) as [ch|] eqn:C; [|discriminate].
  destruct (all_some (map (fun kv => look n h (snd kv)) (c_vars c))) as [vs|] eqn:V; [|discriminate].
  rewrite (all_some_map _ (look m h) _ _ (fun x y _ F => IH m x y ltac:(lia) F) C).
  rewrite (all_some_map _ (fun kv => look m h (snd kv)) _ _ (fun x y _ F => IH m _ y ltac:(lia) F) V). auto.
Qed.
Lemma shows_fun h a t t' : shows h a t -> shows h a t' -> t = t'.
Proof.
  intros [n H] [m H']. apply (look_more n (n + m)) in H; [|lia]. apply (look_more m (n + m)) in H'; [|lia]. congruence.
Qed.

(** All the nodes from [k] on only point to nodes from [k] on that exist. *)
Definition closed_from (k : nat) (h : heap) : Prop :=
  forall b c, (k <= b)%nat -> nth_error h b = Some c -> forall p, In p (ptrs c) -> (k <= p < length h)%nat.

(** The loops of clone. In the heap [h ++ k :: e], [k] is the node being built
    and [e] the copies made so far. *)
Definition cloner (h : heap) (n : nat) (cl : addr -> act addr) : Prop :=
  forall x t g, look n h x = Some t -> keeps [] h g ->
    exists e, cl x g = Ret (length g) (g ++ e) /\ look n (g ++ e) (length g) = Some t
              /\ closed_from (length g) (g ++ e) /\ (0 < length e)%nat.

Lemma closed_app k (h e e' : heap) : (k <= length h)%nat -> closed_from k (h ++ e) ->
  closed_from (length (h ++ e)) ((h ++ e) ++ e') -> closed_from k ((h ++ e) ++ e').
Proof.
  intros Hk H1 H2 b c Hb E p Hp. destruct (Nat.lt_ge_cases b (length (h ++ e))) as [L|L].
  - rewrite nth_error_app1 in E by auto. specialize (H1 _ _ Hb E p Hp). rewrite app_length. lia.
  - specialize (H2 _ _ L E p Hp). rewrite app_length in H2. lia.
Qed.

Lemma look_swap (h e : heap) k k' n a t : closed_from (S (length h)) (h ++ k :: e) -> (S (length h) <= a)%nat ->
  look n (h ++ k :: e) a = Some t -> look n (h ++ k' :: e) a = Some t.
Proof.
  intros C Ha. apply (look_mono (fun b => (S (length h) <= b)%nat)); auto.
  intros b c Hb E. split.
  - destruct (nth_error_app2 h (k :: e) (n := b) ltac:(lia)).
    rewrite nth_error_app2 in * by lia. destruct (b - length h)%nat eqn:D; [lia|exact E].
  - intros p Hp. specialize (C _ _ Hb E p Hp). lia.
Qed.
Lemma closed_swap (h e : heap) k k' : closed_from (S (length h)) (h ++ k :: e) -> closed_from (S (length h)) (h ++ k' :: e).
Proof.
  intros C b c Hb E p Hp. rewrite app_length in *. cbn [length] in *.
  assert (E' : nth_error (h ++ k :: e) b = Some c).
  { rewrite nth_error_app2 in * by lia. destruct (b - length h)%nat eqn:D; [lia|exact E]. }
  specialize (C b c Hb E' p Hp). rewrite app_length in C. cbn [length] in C. lia.
Qed.

Lemma clone_children_spec h0 h n cl : cloner h0 n cl -> keeps [] h0 h -> forall l ts k e,
  all_some (map (look n h0) l) = Some ts -> closed_from (S (length h)) (h ++ k :: e) ->
  exists ys e', clone_children cl (length h) l (h ++ k :: e) = Ret tt (h ++ with_ch k (c_ch k ++ ys) :: e ++ e')
    /\ closed_from (S (length h)) (h ++ with_ch k (c_ch k ++ ys) :: e ++ e')
    /\ all_some (map (look n (h ++ with_ch k (c_ch k ++ ys) :: e ++ e')) ys) = Some ts
    /\ Forall (fun y => S (length h) <= y < S (length h) + length (e ++ e'))%nat ys.
Proof.
  intros Hcl Hk0. induction l as [|x l IH]; intros ts k e Hs Hc; cbn [map all_some clone_children] in *.
  - exists [], []. rewrite !app_nil_r. assert (Hk : with_ch k (c_ch k) = k) by (destruct k; reflexivity). rewrite Hk.
    split; [reflexivity|]. split; [assumption|]. split; [assumption|constructor].
  - destruct (look n h0 x) as [t|] eqn:Ex; [|discriminate].
    destruct (all_some (map (look n h0) l)) as [ts'|] eqn:El; [|discriminate]. injection Hs as <-.
    destruct (Hcl x t (h ++ k :: e) Ex (keeps_trans _ _ _ _ Hk0 (keeps_app _ _ _))) as (e1 & R1 & L1 & C1 & P1).
    set (y := length (h ++ k :: e)) in *.
    assert (Hy : y = (S (length h) + length e)%nat) by (unfold y; rewrite app_length; cbn; lia).
    unfold bind at 1. rewrite R1. unfold bind at 1, load at 1.
    rewrite <- app_assoc. cbn [app]. rewrite nth_mid. unfold bind at 1. cbn [store]. rewrite put_mid.
    set (k1 := with_ch k (c_ch k ++ [y])).
    assert (C2 : closed_from (S (length h)) (h ++ k1 :: e ++ e1)).
    { eapply closed_swap. instantiate (1 := k). replace (h ++ k :: e ++ e1) with ((h ++ k :: e) ++ e1) by (rewrite <- app_assoc; reflexivity).
      intros b c Hb E p Hp. destruct (Nat.lt_ge_cases b y) as [L|L].
      - rewrite nth_error_app1 in E by auto. specialize (Hc _ _ Hb E p Hp). rewrite app_length. fold y in Hc. lia.
      - specialize (C1 _ _ L E p Hp). fold y in C1. lia. }
    destruct (IH ts' k1 (e ++ e1) eq_refl C2) as (ys & e2 & R2 & C3 & A2 & F2).
    assert (Hk : with_ch k1 (c_ch k1 ++ ys) = with_ch k (c_ch k ++ y :: ys)).
    { unfold k1. destruct k. cbn. rewrite <- app_assoc. reflexivity. }
    rewrite Hk in *. exists (y :: ys), (e1 ++ e2). rewrite (app_assoc e e1 e2).
    split; [exact R2|]. split; [exact C3|]. split.
    + cbn [map all_some].
      assert (Ly : look n (h ++ with_ch k (c_ch k ++ y :: ys) :: (e ++ e1) ++ e2) y = Some t).
      { replace ((h ++ k :: e) ++ e1) with (h ++ k :: e ++ e1) in L1 by (rewrite <- app_assoc; reflexivity).
        apply (look_swap h _ k (with_ch k (c_ch k ++ y :: ys))) in L1; [| |lia].
        2:{ eapply closed_swap. exact C2. }
        eapply look_keeps; [|exact L1].
        replace (h ++ with_ch k (c_ch k ++ y :: ys) :: (e ++ e1) ++ e2)
          with ((h ++ with_ch k (c_ch k ++ y :: ys) :: e ++ e1) ++ e2) by (rewrite <- app_assoc; reflexivity).
        apply keeps_app. }
      rewrite Ly, A2. reflexivity.
    + constructor; [rewrite !app_length; lia|]. eapply Forall_impl; [|exact F2]. cbn. intros a. rewrite !app_length. lia.
Qed.

Lemma clone_vars_spec h0 h n cl : cloner h0 n cl -> keeps [] h0 h -> forall l ts k e,
  all_some (map (fun kv => look n h0 (snd kv)) l) = Some ts -> NoDup (map fst (c_vars k) ++ map fst l) ->
  closed_from (S (length h)) (h ++ k :: e) ->
  exists ys e', clone_vars cl (length h) l (h ++ k :: e)
      = Ret tt (h ++ with_vars k (c_vars k ++ combine (map fst l) ys) :: e ++ e')
    /\ closed_from (S (length h)) (h ++ with_vars k (c_vars k ++ combine (map fst l) ys) :: e ++ e')
    /\ all_some (map (look n (h ++ with_vars k (c_vars k ++ combine (map fst l) ys) :: e ++ e')) ys) = Some ts
    /\ Forall (fun y => S (length h) <= y < S (length h) + length (e ++ e'))%nat ys /\ length ys = length l.
Proof.
  intros Hcl Hk0. induction l as [|[q x] l IH]; intros ts k e Hs Hn Hc; cbn [map all_some clone_vars fst snd] in *.
  - exists [], []. rewrite !app_nil_r. assert (Hk : with_vars k (c_vars k) = k) by (destruct k; reflexivity). cbn [combine].
    rewrite ?app_nil_r, Hk.
    split; [reflexivity|]. split; [assumption|]. split; [assumption|]. split; [constructor|reflexivity].
  - destruct (look n h0 x) as [t|] eqn:Ex; [|discriminate].
    destruct (all_some (map (fun kv => look n h0 (snd kv)) l)) as [ts'|] eqn:El; [|discriminate]. injection Hs as <-.
    destruct (Hcl x t (h ++ k :: e) Ex (keeps_trans _ _ _ _ Hk0 (keeps_app _ _ _))) as (e1 & R1 & L1 & C1 & P1).
    set (y := length (h ++ k :: e)) in *.
    assert (Hy : y = (S (length h) + length e)%nat) by (unfold y; rewrite app_length; cbn; lia).
    unfold bind at 1. rewrite R1. unfold bind at 1, set_variable at 1, bind at 1, load at 1.
    rewrite <- app_assoc. cbn [app]. rewrite nth_mid. cbn [store]. rewrite put_mid.
    rewrite map_set_new.
    2:{ intro I. apply NoDup_remove_2 in Hn. apply Hn. apply in_or_app. auto. }
    set (k1 := with_vars k (c_vars k ++ [(q, y)])).
    assert (C2 : closed_from (S (length h)) (h ++ k1 :: e ++ e1)).
    { eapply closed_swap. instantiate (1 := k). replace (h ++ k :: e ++ e1) with ((h ++ k :: e) ++ e1) by (rewrite <- app_assoc; reflexivity).
      intros b c Hb E p Hp. destruct (Nat.lt_ge_cases b y) as [L|L].
      - rewrite nth_error_app1 in E by auto. specialize (Hc _ _ Hb E p Hp). rewrite app_length. fold y in Hc. lia.
      - specialize (C1 _ _ L E p Hp). fold y in C1. lia. }
    assert (N1 : NoDup (map fst (c_vars k1) ++ map fst l)).
    { unfold k1. cbn [c_vars with_vars]. rewrite map_app. cbn [map fst]. rewrite <- app_assoc. exact Hn. }
    destruct (IH ts' k1 (e ++ e1) eq_refl N1 C2) as (ys & e2 & R2 & C3 & A2 & F2 & G2).
    assert (Hk : with_vars k1 (c_vars k1 ++ combine (map fst l) ys) = with_vars k (c_vars k ++ combine (q :: map fst l) (y :: ys))).
    { unfold k1. destruct k. cbn. rewrite <- app_assoc. reflexivity. }
    rewrite Hk in *. exists (y :: ys), (e1 ++ e2).
    set (kk := with_vars k (c_vars k ++ combine (q :: map fst l) (y :: ys))) in *. rewrite (app_assoc e e1 e2).
    split; [exact R2|]. split; [exact C3|]. split; [|split].
    + cbn [map all_some].
      assert (Ly : look n (h ++ kk :: (e ++ e1) ++ e2) y = Some t).
      { replace ((h ++ k :: e) ++ e1) with (h ++ k :: e ++ e1) in L1 by (rewrite <- app_assoc; reflexivity).
        apply (look_swap h _ k kk) in L1; [| |lia].
        2:{ eapply closed_swap. exact C2. }
        eapply look_keeps; [|exact L1].
        replace (h ++ kk :: (e ++ e1) ++ e2) with ((h ++ kk :: e ++ e1) ++ e2) by (rewrite <- app_assoc; reflexivity).
        apply keeps_app. }
      assert (Q : all_some (look n (h ++ kk :: (e ++ e1) ++ e2) y :: map (look n (h ++ kk :: (e ++ e1) ++ e2)) ys) = Some (t :: ts'))
        by (cbn [all_some]; rewrite Ly, A2; reflexivity).
      exact Q.
    + constructor; [rewrite !app_length; lia|]. eapply Forall_impl; [|exact F2]. cbn. intros a. rewrite !app_length. lia.
    + cbn. now rewrite G2.
Qed.

Lemma map_snd_combine {A B} (l : list A) (m : list B) : length m = length l -> map snd (combine l m) = m.
Proof. revert m. induction l as [|x l IH]; intros [|y m] H; cbn in *; try discriminate; auto. f_equal. auto. Qed.
Lemma map_fst_combine {A B} (l : list A) (m : list B) : length m = length l -> map fst (combine l m) = l.
Proof. revert m. induction l as [|x l IH]; intros [|y m] H; cbn in *; try discriminate; auto. f_equal. auto. Qed.

(** Cloning what is seen from [x] in [h], in any extension of [h]. *)
Lemma clone_spec h : maps_ok h -> forall n, cloner h n (clone n).
Proof.
  intros M. induction n as [|n IH]; intros x t g L K; [discriminate|].
  cbn [look] in L. destruct (nth_error h x) as [c|] eqn:E; [|discriminate].
  destruct (all_some (map (look n h) (c_ch c))) as [ch|] eqn:C; [|discriminate].
  destruct (all_some (map (fun kv => look n h (snd kv)) (c_vars c))) as [vs|] eqn:V; [|discriminate].
  injection L as <-.
  assert (Eg : nth_error g x = Some c) by (destruct K as [_ K]; rewrite K; auto; now apply nth_lt in E).
  cbn [clone]. unfold bind at 1, load at 1. rewrite Eg. unfold bind at 1. cbn [new_node].
  unfold bind at 1, load at 1. rewrite nth_mid. unfold bind at 1. cbn [store]. rewrite put_mid.
  set (k := with_flags _ _).
  assert (C0 : closed_from (S (length g)) (g ++ [k])).
  { intros b c' Hb Eb. apply nth_lt in Eb. rewrite app_length in Eb. cbn in Eb. lia. }
  destruct (clone_children_spec h g n (clone n) IH K (c_ch c) ch k [] C C0) as (ys & e1 & R1 & C1 & A1 & F1).
  unfold bind at 1. rewrite R1. cbn [app] in *.
  set (k1 := with_ch k (c_ch k ++ ys)) in *.
  assert (N1 : NoDup (map fst (c_vars k1) ++ map fst (c_vars c))) by (cbn; eauto).
  destruct (clone_vars_spec h g n (clone n) IH K (c_vars c) vs k1 e1 V N1 C1) as (zs & e2 & R2 & C2 & A2 & F2 & G2).
  unfold bind at 1. rewrite R2. cbn [ret].
  set (k2 := with_vars k1 (c_vars k1 ++ combine (map fst (c_vars c)) zs)) in *.
  exists (k2 :: e1 ++ e2). split; [reflexivity|].
  assert (Hch : c_ch k2 = ys) by reflexivity.
  assert (Hvs : c_vars k2 = combine (map fst (c_vars c)) zs) by reflexivity.
  assert (Gz : length zs = length (map fst (c_vars c))) by now rewrite map_length.
  split; [|split].
  - cbn [look]. rewrite nth_mid. rewrite Hch, Hvs.
    assert (A1' : all_some (map (look n (g ++ k2 :: e1 ++ e2)) ys) = Some ch).
    { eapply all_some_map; [|exact A1]. intros y t Hy Ly. rewrite Forall_forall in F1. specialize (F1 y Hy).
      apply (look_swap g _ k1 k2) in Ly; [|exact C1|lia].
      eapply look_keeps; [|exact Ly].
      replace (g ++ k2 :: e1 ++ e2) with ((g ++ k2 :: e1) ++ e2) by (rewrite <- app_assoc; reflexivity). apply keeps_app. }
    rewrite A1'.
    assert (A2' : all_some (map (fun kv => look n (g ++ k2 :: e1 ++ e2) (snd kv)) (combine (map fst (c_vars c)) zs)) = Some vs).
    { rewrite <- (map_map snd (look n (g ++ k2 :: e1 ++ e2))), map_snd_combine by auto. exact A2. }
    rewrite A2', map_fst_combine by auto. reflexivity.
  - intros b c' Hb Eb p Hp. destruct (Nat.eq_dec b (length g)) as [->|D].
    + rewrite nth_mid in Eb. injection Eb as <-. unfold ptrs in Hp. rewrite Hch, Hvs in Hp.
      rewrite map_snd_combine in Hp by auto. rewrite app_length. cbn [length]. rewrite app_length in *.
      rewrite Forall_forall in F1, F2. apply in_app_or in Hp. destruct Hp as [Hp|Hp].
      * specialize (F1 p Hp). cbn in F1. lia.
      * specialize (F2 p Hp). lia.
    + specialize (C2 b c' ltac:(lia) Eb p Hp). lia.
  - cbn. lia.
Qed.
