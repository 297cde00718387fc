(** * What the assembler wrote and reported is never taken back *)

From Coq Require Import String ZArith List Bool Floats.SpecFloat.
From Verif Require Import Base UnicodeRange OutText NthChild DecText DecFmt Color NodeHeap FloatBits.
From Verif Require Import Assembler.
Import ListNotations.
Open Scope string_scope. Open Scope list_scope. Open Scope Z_scope.

(** The text and the messages in the state after are those before and perhaps
    some more, however the computation ends. *)
Definition grows {A} (m : O A) : Prop :=
  forall s, match m s with
            | Ret _ s' | Throw _ s' | Undef s' =>
                (exists t, o_text s' = o_text s ++ t) /\ (exists l, o_msgs s' = o_msgs s ++ l)
            | NoFuel => True
            end.
Create HintDb grow.
Ltac still := split; exists []; cbn; now rewrite app_nil_r.
Lemma grows_oret {A} (x : A) : grows (oret x). Proof. intro s. still. Qed.
Lemma grows_othrow {A} e : grows (@othrow A e). Proof. intro s. still. Qed.
Lemma grows_oundef {A} : grows (@oundef A). Proof. intro s. still. Qed.
Lemma grows_nofuel {A} : grows (fun _ : ost => @NoFuel ost A). Proof. intro s. exact I. Qed.
Lemma grows_obind {A B} (m : O A) (f : A -> O B) : grows m -> (forall x, grows (f x)) -> grows (obind m f).
Proof.
  intros H K s. specialize (H s). unfold obind. destruct (m s) as [a s1| | |]; try exact H. specialize (K a s1). destruct H as ((t & E) & l & F).
  destruct (f a s1); try exact I; destruct K as ((t2 & ->) & l2 & ->); rewrite E, F, <- !app_assoc; split; eexists; reflexivity.
Qed.
Lemma grows_out t : grows (out t). Proof. intro s. cbn. split; [eauto|]. exists []. now rewrite app_nil_r. Qed.
Lemma grows_started b : grows (started b). Proof. intro s. still. Qed.
Lemma grows_is_started : grows is_started. Proof. intro s. still. Qed.
Lemma grows_say p t : grows (say p t). Proof. intro s. cbn. split; [exists []; now rewrite app_nil_r|eauto]. Qed.
#[export] Hint Resolve grows_oret grows_othrow grows_oundef grows_nofuel grows_out grows_started grows_is_started grows_say : grow.
Ltac walk :=
  intros; cbv zeta;
  lazymatch goal with
  | |- grows (obind _ _) => apply grows_obind; [walk|walk]
  | |- grows (match ?x with _ => _ end) => destruct x; walk
  | |- grows _ => auto 8 with grow
  | |- _ => idtac
  end.
Lemma grows_impl_string t : grows (impl_string t). Proof. unfold impl_string. walk. Qed.
#[export] Hint Resolve grows_impl_string : grow.
Lemma grows_base_operator t f : grows (base_operator t f). Proof. unfold base_operator. walk. Qed.
#[export] Hint Resolve grows_base_operator : grow.
Lemma grows_compact_operator t f : grows (compact_operator t f). Proof. unfold compact_operator. walk. Qed.
#[export] Hint Resolve grows_compact_operator : grow.
Lemma grows_expanded_operator t f : grows (expanded_operator t f). Proof. unfold expanded_operator. walk. Qed.
#[export] Hint Resolve grows_expanded_operator : grow.
Lemma grows_operator m t f : grows (operator m t f). Proof. unfold operator. walk. Qed.
#[export] Hint Resolve grows_operator : grow.
Lemma grows_newline m : grows (newline m). Proof. unfold newline. walk. Qed.
#[export] Hint Resolve grows_newline : grow.
Lemma grows_newline_if_not_empty : grows newline_if_not_empty. Proof. unfold newline_if_not_empty. walk. Qed.
#[export] Hint Resolve grows_newline_if_not_empty : grow.
Lemma grows_indentation m : grows (indentation m). Proof. unfold indentation. walk. Qed.
#[export] Hint Resolve grows_indentation : grow.

Section Output.
Variables (h : heap) (lm : libm) (prec : Z) (m : mode).
Lemma grows_read a : grows (read h a). Proof. unfold read. walk. Qed.
Hint Resolve grows_read : grow.
Lemma grows_is_a a t : grows (is_a h a t). Proof. unfold is_a. walk. Qed.
Hint Resolve grows_is_a : grow.
Lemma grows_verify_dimension c : grows (verify_dimension c). Proof. unfold verify_dimension. walk. Qed.
Hint Resolve grows_verify_dimension : grow.
Lemma grows_url t : grows (url m t). Proof. unfold url. walk. Qed.
Hint Resolve grows_url : grow.
Lemma grows_comment c : grows (comment c). Proof. unfold comment. walk. Qed.
Hint Resolve grows_comment : grow.
Section Loops.
Variable o : addr -> O unit.
Hypothesis G : forall a, grows (o a).
Lemma grows_each l : grows (each o l). Proof. induction l; cbn [each]; walk. Qed.
Hint Resolve grows_each : grow.
Lemma grows_separated t sep l : grows sep -> grows (separated h o t sep l).
Proof.
  intro Q. induction l as [|a l IH]; [cbn [separated]; walk|]. destruct l as [|b l]; [cbn [separated]; walk|].
  change (grows (obind (o a) (fun _ => obind (is_a h a t) (fun y => obind (if y : bool then sep else oret tt) (fun _ => separated h o t sep (b :: l)))))). walk.
Qed.
Lemma grows_arguments l : forall first, grows (arguments m o first l). Proof. induction l; intros; cbn [arguments]; walk. Qed.
Lemma grows_component_value l : forall first has_arg, grows (component_value h m o first has_arg l).
Proof. induction l as [|a l IH]; intros; cbn [component_value]; walk. Qed.
Lemma grows_at_children l : forall no_block, grows (at_children h m o no_block l).
Proof. induction l as [|a l IH]; intros; cbn [at_children]; walk. Qed.
Hint Resolve grows_at_children : grow.
Lemma grows_at_keyword c : grows (at_keyword h m o c). Proof. unfold at_keyword. walk. Qed.
Lemma grows_block l : grows (block h m o l).
Proof. unfold block. walk. apply grows_separated. walk. Qed.
End Loops.
Lemma grows_paren_children o p l : (forall a, grows (o a)) -> (forall a, grows (p a)) -> forall first, grows (paren_children h o p first l).
Proof. intros G1 G2. induction l as [|a l IH]; intros; cbn [paren_children]; walk. Qed.
Lemma grows_output : forall fuel, (forall a, grows (output h lm prec m fuel a)) /\ (forall a, grows (parenthesis h lm prec m fuel a)).
Proof.
  induction fuel as [|fuel (I1 & I2)]; [split; intro; cbn; auto with grow|].
  pose proof grows_each. pose proof grows_separated. pose proof grows_arguments. pose proof grows_component_value. pose proof grows_at_keyword. pose proof grows_block.
  pose proof grows_paren_children.
  split; intro a; [cbn [output]|cbn [parenthesis]]; walk.
Qed.
End Output.
