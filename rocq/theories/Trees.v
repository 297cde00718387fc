(** * Trees of nodes held by the heap

    The nodes are shared pointers; here a tree of nodes as a value, used by the
    specifications of what the compiler does to a tree (C46, C47, C51). *)

From Coq Require Import String ZArith List Bool Lia Arith Floats.SpecFloat.
From Verif Require Import Base NodeHeap NodeProofs.
Import ListNotations.
Open Scope string_scope. Open Scope list_scope. Open Scope Z_scope.

(** The address of the node, its content (its own list of children is not
    looked at) and the trees of its children. *)
Inductive tree := Tree (a : addr) (c : cell) (l : list tree).
Definition top (t : tree) : addr := match t with Tree a _ _ => a end.
Definition data (t : tree) : cell := match t with Tree _ c _ => c end.
Definition kids (t : tree) : list tree := match t with Tree _ _ l => l end.
Definition kind (t : tree) : ntype := c_type (data t).
Fixpoint nodes (t : tree) : list addr := match t with Tree a _ l => a :: flat_map nodes l end.
(** The heap holds the tree. *)
Inductive holds (h : heap) : tree -> Prop :=
  | holds_tree a c l : nth_error h a = Some (with_ch c (map top l)) -> Forall (holds h) l -> holds h (Tree a c l).

(** Induction on trees. *)
Fixpoint tree_rect' (P : tree -> Prop) (H : forall a c l, Forall P l -> P (Tree a c l)) (t : tree) : P t :=
  match t with
  | Tree a c l => H a c l ((fix go (l : list tree) : Forall P l :=
      match l with [] => Forall_nil _ | x :: r => Forall_cons x (tree_rect' P H x) (go r) end) l)
  end.
Lemma tree_size t : (1 <= length (nodes t))%nat.
Proof. destruct t. cbn. lia. Qed.
Lemma flat_nodes_length l : (length l <= length (flat_map nodes l))%nat.
Proof. induction l as [|t l IH]; cbn [flat_map length]; [lia|]. rewrite app_length. pose proof (tree_size t). lia. Qed.
Lemma nodes_in t l : In t l -> (length (nodes t) <= length (flat_map nodes l))%nat.
Proof.
  induction l as [|x l IH]; cbn [In flat_map]; [tauto|]. rewrite app_length. intros [->|H]; [lia|]. specialize (IH H). lia.
Qed.
Lemma top_in t : In (top t) (nodes t). Proof. destruct t. cbn. auto. Qed.
Lemma tops_in l a : In a (map top l) -> In a (flat_map nodes l).
Proof. induction l as [|t l IH]; cbn; [tauto|]. intros [<-|H]; apply in_or_app; [left; apply top_in|right; auto]. Qed.
Lemma kids_in t l a : In t l -> In a (nodes t) -> In a (flat_map nodes l).
Proof. intros. apply in_flat_map. eauto. Qed.

Lemma holds_inv h a c l : holds h (Tree a c l) -> nth_error h a = Some (with_ch c (map top l)) /\ Forall (holds h) l.
Proof. inversion 1; subst. auto. Qed.
Lemma holds_top h t : holds h t -> nth_error h (top t) = Some (with_ch (data t) (map top (kids t))).
Proof. destruct t. intro H. apply holds_inv in H. apply H. Qed.
Lemma holds_lt h t a : holds h t -> In a (nodes t) -> (a < length h)%nat.
Proof.
  induction t as [b c l IH] using tree_rect'. intros H. apply holds_inv in H. destruct H as (H & F). cbn [nodes In]. intros [<-|I]; [eapply nth_lt; eauto|].
  apply in_flat_map in I. destruct I as (t & It & Ia). rewrite Forall_forall in IH, F. eauto.
Qed.
Lemma holds_keeps A h h' t : keeps A h h' -> (forall a, In a (nodes t) -> ~ In a A) -> holds h t -> holds h' t.
Proof.
  intros K. induction t as [b c l IH] using tree_rect'. intros D H. pose proof (holds_inv _ _ _ _ H) as (H0 & F). constructor.
  - destruct K as (_ & K). rewrite <- H0. apply K; [eapply nth_lt; eauto|apply D; cbn; auto].
  - rewrite Forall_forall in *. intros t It. apply IH; auto. intros a Ia. apply D. cbn [nodes In]. right. eapply kids_in; eauto.
Qed.
Lemma holds_all_keeps A h h' l : keeps A h h' -> (forall a, In a (flat_map nodes l) -> ~ In a A) -> Forall (holds h) l -> Forall (holds h') l.
Proof. intros K D F. rewrite Forall_forall in *. intros t It. eapply holds_keeps; eauto. intros a Ia. apply D. eapply kids_in; eauto. Qed.
