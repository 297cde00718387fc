(** * Proofs about argify *)

From Coq Require Import String ZArith List Bool Lia Arith.
From Verif Require Import Base Parser ArgSpec ParserProofs.
Import ListNotations.
Open Scope list_scope.

Section Arg.
Variable code : ntype -> Z.
Notation arg := (new_arg code).

(** Exactly what the code accepts: no segment but the last is blank, and the
    last one is not empty unless it is the only one. *)
Fixpoint accept (segs : list (list node)) : bool :=
  match segs with
  | [] => true
  | [_] => true
  | s :: ((l :: r) as t) => negb (blank s) && negb (match l, r with [], [] => true | _, _ => false end) && accept t
  end.
(** The arguments: trimmed, except the last one which keeps the white space at
    its end. *)
Fixpoint args_of (sep : ntype) (p : position) (segs : list (list node)) : list node :=
  match segs with
  | [] => []
  | [l] => [arg sep p (trim_left l)]
  | s :: t => arg sep p (trim s) :: args_of sep p t
  end.

Lemma trim_left_drop l : trim_left l = drop_front l.
Proof. induction l as [|x l IH]; [reflexivity|]. cbn. unfold space. change (ntype_eqb (n_type x) WHITESPACE) with (is_ws x). now rewrite IH. Qed.
Lemma blank_drop l : blank l = true <-> drop_front l = [].
Proof.
  induction l as [|x l IH]; cbn; [tauto|]. unfold space at 1. change (ntype_eqb (n_type x) WHITESPACE) with (is_ws x).
  destruct (is_ws x); cbn; [exact IH|]. split; discriminate.
Qed.
Lemma blank_back l : blank l = true <-> drop_back (drop_front l) = [].
Proof.
  rewrite blank_drop. split; [intros ->; reflexivity|].
  intro H. destruct (drop_front_split l) as (w & E & F). destruct (drop_back_split (drop_front l)) as (w2 & E2 & F2).
  rewrite H in E2. cbn in E2. destruct (drop_front l) as [|x r] eqn:D; auto.
  exfalso. rewrite <- E2 in F2. clear -D F2.
  assert (K : forall l, drop_front l = x :: r -> is_ws x = false).
  { induction l0 as [|y l0 IH]; cbn; [discriminate|]. destruct (is_ws y) eqn:W; auto. intro Q. inversion Q. now subst. }
  specialize (K l D). subst. inversion F2; subst; congruence.
Qed.
Lemma drop_front_snoc l x : drop_front (l ++ [x]) = if blank l then drop_front [x] else drop_front l ++ [x].
Proof.
  induction l as [|y l IH]; [reflexivity|]. cbn [app drop_front blank forallb]. unfold space at 1.
  change (ntype_eqb (n_type y) WHITESPACE) with (is_ws y). destruct (is_ws y); [exact IH|]. reflexivity.
Qed.
Lemma child_list_mid a x b : child_list (a ++ x :: b) = true ->
  is x EOF_TOKEN = false /\ (forall y r, a = r ++ [y] -> is_ws y && is_ws x = false).
Proof.
  induction a as [|z a IH]; intro H.
  - cbn in H. apply andb_true_iff in H. destruct H as [H _]. apply andb_true_iff in H. destruct H as [H _].
    apply negb_true_iff in H. split; [exact H|]. intros y r Q. destruct r; discriminate.
  - cbn [app child_list] in H. apply andb_true_iff in H. destruct H as [H H2]. apply andb_true_iff in H. destruct H as [_ H1].
    destruct (IH H2) as [A B]. split; [exact A|]. intros y r Q. destruct r as [|q r].
    + inversion Q. subst. cbn in H1. apply negb_true_iff in H1. exact H1.
    + inversion Q. subst. now apply (B y r).
Qed.
Lemma add_snoc a x b : child_list (a ++ x :: b) = true -> add_ch (drop_front a) x = drop_front a ++ [x].
Proof.
  intro H. destruct (child_list_mid a x b H) as [A B]. unfold add_ch. rewrite A. destruct (is_ws x) eqn:W; auto.
  pose proof (lastn_spec (drop_front a)) as L. destruct (lastn (drop_front a)) as [y|]; auto.
  destruct L as [r L]. destruct (drop_front_split a) as (w & E & _).
  assert (Q : is_ws y && true = false) by (apply (B y (w ++ r)); rewrite E, L, app_assoc; reflexivity).
  rewrite andb_true_r in Q. now rewrite Q.
Qed.

Lemma segments_ne sep l : segments sep l <> [].
Proof. destruct l as [|x l]; cbn; [discriminate|]. destruct (ntype_eqb (n_type x) sep); [discriminate|]. destruct (segments sep l); discriminate. Qed.

Definition with_pre (cur : list node) (segs : list (list node)) : list (list node) :=
  match segs with [] => [cur] | s :: t => (cur ++ s) :: t end.

Lemma child_list_tail x l : child_list (x :: l) = true -> child_list l = true.
Proof. cbn. intro H. now apply andb_true_iff in H. Qed.
Lemma child_list_app a b : child_list (a ++ b) = true -> child_list b = true.
Proof. induction a as [|x a IH]; auto. intro H. apply IH. now apply child_list_tail in H. Qed.

Definition no_block (l : list node) : Prop := Forall (fun x => n_type x <> OPEN_CURLYBRACKET) l.

Lemma first_block (body blk : list node) : (blk = [] \/ exists b, blk = [b] /\ n_type b = OPEN_CURLYBRACKET) -> no_block body ->
  match body ++ blk with [] => true | y :: _ => is y OPEN_CURLYBRACKET end = match body with [] => true | _ => false end.
Proof.
  intros B N. destruct body as [|y r]; cbn.
  - destruct B as [-> | (b & -> & T)]; auto. cbn. unfold is. rewrite T. reflexivity.
  - inversion N; subst. apply ntype_eqb_neq in H1. exact H1.
Qed.

Lemma args_cons sep p s t : t <> [] -> args_of sep p (s :: t) = arg sep p (trim s) :: args_of sep p t.
Proof. destruct t; [contradiction|]. reflexivity. Qed.

Lemma argify_loop_run sep p blk : sep <> WHITESPACE -> sep <> OPEN_CURLYBRACKET ->
  (blk = [] \/ exists b, blk = [b] /\ n_type b = OPEN_CURLYBRACKET) ->
  forall body cur args s, no_block body -> child_list (cur ++ body) = true ->
  let segs := with_pre cur (segments sep body) in
  if accept segs then argify_loop code sep p (body ++ blk) args (drop_front cur) s = Ret (true, args ++ args_of sep p segs ++ blk) s
  else exists l m, argify_loop code sep p (body ++ blk) args (drop_front cur) s = Ret (false, l) (mkPS (ps_toks s) (ps_eof s) (ps_msgs s ++ [m])) /\ m_level m = LError /\ m_pos m = p.
Proof.
  intros SW SO B. induction body as [|x body IH]; intros cur args s N CL.
  - cbn [segments with_pre app]. rewrite app_nil_r in *. cbn [accept args_of]. destruct B as [-> | (b & -> & T)]; cbn [argify_loop].
    + reflexivity.
    + unfold is. rewrite T, ntype_eqb_refl. reflexivity.
  - assert (Nx : n_type x <> OPEN_CURLYBRACKET) by (now inversion N). assert (Nb : no_block body) by (now inversion N).
    cbn [app argify_loop]. assert (E : is x OPEN_CURLYBRACKET = false) by now apply ntype_eqb_neq. rewrite E.
    cbn [segments]. change (is x sep) with (ntype_eqb (n_type x) sep). destruct (ntype_eqb (n_type x) sep) eqn:ES.
    + rewrite (first_block body blk B Nb). cbn [with_pre]. rewrite app_nil_r.
      pose proof (segments_ne sep body) as SN.
      destruct (drop_back (drop_front cur)) as [|d dr] eqn:ED.
      * assert (Bl : blank cur = true) by now apply blank_back.
        assert (Ac : accept (cur :: segments sep body) = false) by (destruct (segments sep body); [contradiction|]; cbn; now rewrite Bl).
        rewrite Ac. eexists. eexists. split; [reflexivity|]. split; reflexivity.
      * assert (Bl : blank cur = false).
        { destruct (blank cur) eqn:Q; auto. apply blank_back in Q. rewrite Q in ED. discriminate. }
        destruct body as [|y body].
        { cbn [segments accept]. rewrite Bl. cbn. eexists. eexists. split; [reflexivity|]. split; reflexivity. }
        assert (Ac : accept (cur :: segments sep (y :: body)) = accept (segments sep (y :: body))).
        { remember (segments sep (y :: body)) as sg. destruct sg as [|l r]; [contradiction|].
          cbn [accept]. rewrite Bl. cbn [negb andb]. destruct l as [|l1 l2]; [|reflexivity]. destruct r; [|reflexivity].
          exfalso. cbn in Heqsg. destruct (ntype_eqb (n_type y) sep); [|destruct (segments sep body); discriminate].
          inversion Heqsg. pose proof (segments_ne sep body). congruence. }
        rewrite Ac. assert (CL2 : child_list ([] ++ y :: body) = true) by (apply child_list_app in CL; now apply child_list_tail in CL).
        specialize (IH [] (args ++ [arg sep p (d :: dr)]) s Nb CL2). cbn zeta in IH.
        assert (W : with_pre [] (segments sep (y :: body)) = segments sep (y :: body)) by (destruct (segments sep (y :: body)); [contradiction|reflexivity]).
        rewrite W in IH. change (drop_front []) with (@nil node) in IH.
        destruct (accept (segments sep (y :: body))); [|exact IH].
        rewrite args_cons by exact SN. cbn [app] in IH |- *. rewrite IH. f_equal. f_equal.
        rewrite <- app_assoc. cbn [app]. unfold trim. change (rev (trim_left (rev (trim_left cur)))) with (drop_back (drop_front cur)). rewrite ED. reflexivity.
    + assert (St : with_pre cur (match segments sep body with s0 :: t => (x :: s0) :: t | [] => [[x]] end) = with_pre (cur ++ [x]) (segments sep body)).
      { destruct (segments sep body); cbn; [reflexivity|]. now rewrite <- app_assoc. }
      rewrite St.
      assert (CL2 : child_list ((cur ++ [x]) ++ body) = true) by (rewrite <- app_assoc; exact CL).
      specialize (IH (cur ++ [x]) args s Nb CL2). cbn zeta in IH. rewrite drop_front_snoc in IH.
      assert (Ad : add_ch (drop_front cur) x = drop_front cur ++ [x]) by (eapply add_snoc; exact CL).
      destruct (blank cur) eqn:Bl.
      * apply blank_drop in Bl. rewrite Bl in Ad |- *. cbn [drop_front] in IH. destruct (is_ws x); cbn [negb orb]; [exact IH|].
        rewrite Ad. exact IH.
      * assert (Q : drop_front cur <> []) by (intro Q; apply blank_drop in Q; congruence).
        destruct (drop_front cur) as [|c0 cr]; [contradiction|]. rewrite orb_true_r, Ad. exact IH.
Qed.
End Arg.
