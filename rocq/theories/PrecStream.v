(** * Reading the tokens of an expression *)

From Coq Require Import String ZArith List Bool Lia Arith ZifyBool Floats.SpecFloat.
From Verif Require Import Base UnicodeRange NodeHeap NodeProofs Color FloatBits Dim Expr ExprSpec ExprRun ExprFrame PrecSpec.
Import ListNotations.
Open Scope string_scope. Open Scope list_scope. Open Scope Z_scope.
Ltac Zify.zify_post_hook ::= idtac.

(** The nodes that exist are near. *)
Definition goes (st : bool) (s s' : est) : Prop :=
  nodes_near st (length (e_heap s)) (e_heap s) (e_heap s')
  /\ e_node s' = e_node s /\ e_start s' = e_start s /\ e_vars s' = e_vars s /\ e_font s' = e_font s.
Lemma goes_refl st s : goes st s s.
Proof. split; [apply nodes_near_refl|]. auto. Qed.
Lemma nodes_near_le st L L' h h' : (L <= L')%nat -> nodes_near st L' h h' -> nodes_near st L h h'.
Proof. intros Le (A & B). split; [auto|]. intros a c H. apply B. lia. Qed.
Lemma goes_trans st s1 s2 s3 : goes st s1 s2 -> goes st s2 s3 -> goes st s1 s3.
Proof.
  intros (A & B & C & D & E) (A' & B' & C' & D' & E'). split.
  - eapply nodes_near_trans; [exact A|]. eapply nodes_near_le; [|exact A']. destruct A; auto.
  - repeat split; congruence.
Qed.
Lemma goes_weak st s s' : goes st s s' -> goes false s s'.
Proof.
  intros ((A & A2) & B & C & D & E). split; [|auto]. split; [auto|]. intros a c La H. destruct (A2 a c La H) as (c' & H' & N).
  exists c'. split; [auto|]. eapply near_weak; eauto.
Qed.
Lemma goes_msgs st s s' m : goes st s s' -> goes st s (with_msgs s' m).
Proof. auto. Qed.
Lemma goes_len st s s' : goes st s s' -> (length (e_heap s) <= length (e_heap s'))%nat.
Proof. intros ((A & _) & _). exact A. Qed.
Lemma same_goes st s s' : same st (length (e_heap s)) s s' -> goes st s s'.
Proof. intros (A & B & C & D & E & F & G). split; auto. Qed.
Lemma near_at s s' a c : goes false s s' -> nth_error (e_heap s) a = Some c -> exists c', nth_error (e_heap s') a = Some c' /\ near false c c'.
Proof. intros ((A & B) & _) H. apply B; auto. now apply nth_lt in H. Qed.

(** ** What is kept *)
Lemma near_op c c' : near false c c' -> op_of c' = op_of c.
Proof.
  cbn. intros (T & _ & St). unfold op_of. rewrite T. destruct (c_type c) eqn:K; try reflexivity. rewrite St; auto.
Qed.
Lemma spaced_goes h h' : nodes_near false (length h) h h' -> forall l ts, spaced h l ts -> spaced h' l ts.
Proof.
  intros (Le & N) l ts S. induction S as [|a c l ts H T S IH|a c l ts H T S IH]; [constructor| |].
  - destruct (N a c (nth_lt _ _ _ H) H) as (c' & H' & T' & _). eapply spaced_ws; eauto. congruence.
  - destruct (N a c (nth_lt _ _ _ H) H) as (c' & H' & T' & _). eapply spaced_token; eauto. congruence.
Qed.
Lemma leading_goes h h' l ts : nodes_near false (length h) h h' -> spaced h l ts -> no_leading_space h l -> no_leading_space h' l.
Proof.
  intros (Le & N) Sp. destruct l as [|a l]; [auto|]. cbn. intros K c Hc.
  assert (exists c0, nth_error h a = Some c0) as (c0 & H0) by (inversion Sp; subst; eauto).
  destruct (N a c0 (nth_lt _ _ _ H0) H0) as (c' & H' & T' & _). assert (c = c') by congruence. subst. rewrite T'. now apply K.
Qed.
Lemma tokens_goes h h' : nodes_near false (length h) h h' -> forall t, tokens_of h t -> tokens_of h' t.
Proof.
  intros N. pose proof N as (Le & M).
  assert (K : forall a (P : cell -> Prop), (forall c c', near false c c' -> P c -> P c') ->
     (exists c, nth_error h a = Some c /\ P c) -> exists c, nth_error h' a = Some c /\ P c).
  { intros a P HP (c & H & Pc). destruct (M a c (nth_lt _ _ _ H) H) as (c' & H' & Nr). exists c'. split; [auto|]. eapply HP; eauto. }
  assert (KT : forall a T, (exists c, nth_error h a = Some c /\ c_type c = T) -> exists c, nth_error h' a = Some c /\ c_type c = T).
  { intros a T. apply (K a (fun c => c_type c = T)). intros c c' (T' & _) <-. exact T'. }
  induction t as [a|a x IH|a x IH|a x IH|o a l IHl r IHr|q c x IHx y IHy z IHz]; cbn [tokens_of].
  - apply (K a (fun c => operand_type (c_type c) = true)). intros c c' (T' & _) <-. now rewrite T'.
  - intros [(c & H & T & Sp & Ls) X]. split; [|auto]. destruct (M a c (nth_lt _ _ _ H) H) as (c' & H' & T' & C' & _).
    exists c'. split; [auto|]. split; [congruence|]. rewrite C'. split; [eapply spaced_goes; eauto|eapply leading_goes; eauto].
  - intros [A X]. split; auto.
  - intros [A X]. split; auto.
  - intros (A & X & Y). split; [|auto]. revert A. apply (K a (fun c => op_of c = Some o)). intros c c' Nr <-. now apply near_op.
  - intros (A & B & X & Y & Z). auto 10.
Qed.

(** ** The cursor *)
(** What [next] will find. *)
Definition before (s : est) (ts : list addr) : Prop :=
  exists c k, nth_error (e_heap s) (e_node s) = Some c /\ has_children (c_type c) = true /\ e_pos s = Z.of_nat k /\ (k <= length (c_ch c))%nat
    /\ spaced (e_heap s) (skipn k (c_ch c)) ts /\ no_leading_space (e_heap s) (skipn k (c_ch c)).
(** The current token is the first one of [ts], or the end; the following ones are to be read. *)
Definition placed (s : est) (a : addr) (ts : list addr) : Prop :=
  exists c k i, nth_error (e_heap s) (e_node s) = Some c /\ e_pos s = Z.of_nat k /\ (i < k <= length (c_ch c))%nat /\ nth_error (c_ch c) i = Some a
    /\ spaced (e_heap s) (skipn i (c_ch c)) (a :: ts) /\ no_leading_space (e_heap s) (skipn i (c_ch c)) /\ forall j, (i < j < k)%nat -> nth_error (c_ch c) j <> Some a.
Definition reads (s : est) (ts : list addr) : Prop :=
  match ts with
  | [] => (exists a e, e_cur s = Some a /\ nth_error (e_heap s) a = Some e /\ c_type e = EOF_TOKEN) /\ before s []
  | a :: ts' => e_cur s = Some a /\ (exists c, nth_error (e_heap s) a = Some c) /\ before s ts' /\ placed s a ts'
  end.
Definition moved (s s' : est) : Prop := e_node s' = e_node s /\ e_pos s' = e_pos s /\ e_cur s' = e_cur s.
Lemma before_goes s s' ts : nodes_near false (length (e_heap s)) (e_heap s) (e_heap s') -> e_node s' = e_node s -> e_pos s' = e_pos s -> before s ts -> before s' ts.
Proof.
  intros N En Ep (c & k & H & T & P & Le & Sp & Ls). pose proof N as (Le' & M). destruct (M _ _ (nth_lt _ _ _ H) H) as (c' & H' & T' & C' & _).
  exists c', k. rewrite En, Ep, C', T'. split; [auto|]. split; [auto|]. split; [auto|]. split; [auto|]. split; [eapply spaced_goes; eauto|eapply leading_goes; eauto].
Qed.
Lemma reads_goes s s' ts : nodes_near false (length (e_heap s)) (e_heap s) (e_heap s') -> moved s s' -> reads s ts -> reads s' ts.
Proof.
  intros N (En & Ep & Ec) R. pose proof N as (Le' & M). destruct ts as [|a ts]; cbn in *.
  - destruct R as [(a & e & C & H & T) B]. split; [|eapply before_goes; eauto]. destruct (M _ _ (nth_lt _ _ _ H) H) as (c' & H' & T' & _).
    exists a, c'. rewrite Ec. split; [auto|]. split; [auto|congruence].
  - destruct R as (C & (c & H) & B & Pl). split; [congruence|]. split; [destruct (M _ _ (nth_lt _ _ _ H) H) as (c' & H' & _); eauto|].
    split; [eapply before_goes; eauto|]. destruct Pl as (d & k & i & Hd & P & Le & Hi & Sp & Ld & U). destruct (M _ _ (nth_lt _ _ _ Hd) Hd) as (d' & Hd' & Td & Cd & _).
    exists d', k, i. rewrite En, Ep, Cd. split; [auto|]. split; [auto|]. split; [auto|]. split; [auto|]. split; [eapply spaced_goes; eauto|]. split; [eapply leading_goes; eauto|auto].
Qed.
Lemma reads_same s s' ts : same false (length (e_heap s)) s s' -> reads s ts -> reads s' ts.
Proof. intros (A & B & C & D & E & F & G). apply reads_goes; [exact A|]. split; [auto|]. split; auto. Qed.
Lemma reads_cur s ts : reads s ts -> exists a c, e_cur s = Some a /\ nth_error (e_heap s) a = Some c.
Proof. destruct ts; cbn; [intros [(a & e & A & B & _) _]|intros (A & (c & B) & _)]; eauto. Qed.
Lemma reads_msgs s m ts : reads s ts -> reads (with_msgs s m) ts.
Proof. exact (fun x => x). Qed.

Lemma skipn_nth {A} : forall k (l : list A) x r, skipn k l = x :: r -> nth_error l k = Some x /\ skipn (S k) l = r.
Proof. induction k; intros [|y l] x r; cbn; try discriminate; [intros [= <- <-]; auto|]. apply IHk. Qed.
Lemma skipn_none {A} k (l : list A) : skipn k l = [] -> (length l <= k)%nat.
Proof. intro H. pose proof (skipn_length k l). rewrite H in H0. cbn in H0. lia. Qed.

Section Skip.
  Variables (h : heap) (m : list msg) (nd : addr) (st : Z) (cu : option addr) (vs : list (str * option addr)) (fo : bool) (c : cell).
  Hypothesis Hn : nth_error h nd = Some c.
  Hypothesis Tc : has_children (c_type c) = true.
  Notation at_ k := (mkE h m nd (Z.of_nat k) st cu vs fo).
  Lemma run_node_size k : node_size (at_ k) = Ret (Z.of_nat (length (c_ch c))) (at_ k).
  Proof. unfold node_size. cbn [e_node]. apply run_size; auto. Qed.
  Lemma run_child_at k a : nth_error (c_ch c) k = Some a -> child (Z.of_nat k) (at_ k) = Ret a (at_ k).
  Proof.
    intro H. unfold child. cbn [e_node]. eapply run_child; eauto; [|rewrite Nat2Z.id; exact H]. pose proof (nth_lt _ _ _ H). lia.
  Qed.
  Lemma run_skip : forall l k ts f, skipn k (c_ch c) = l -> (k <= length (c_ch c))%nat -> spaced h l ts -> (length l < f)%nat ->
    exists k', skip_ws f (at_ k) = Ret tt (at_ k') /\ (k' <= length (c_ch c))%nat /\ spaced h (skipn k' (c_ch c)) ts /\ no_leading_space h (skipn k' (c_ch c))
      /\ (k <= k')%nat /\ forall j b, (k <= j < k')%nat -> nth_error (c_ch c) j = Some b -> exists d, nth_error h b = Some d /\ c_type d = WHITESPACE.
  Proof.
    induction l as [|a l IH]; intros k ts f Hl Hk Sp Lf; (destruct f as [|f]; [cbn in Lf; lia|]); cbn [skip_ws];
      (erewrite b_ret; [|reflexivity]); (erewrite b_ret; [|apply run_node_size]); cbn [e_pos].
    - pose proof (skipn_none _ _ Hl). replace (Z.of_nat k <? Z.of_nat (length (c_ch c))) with false by lia.
      exists k. rewrite Hl. split; [reflexivity|]. split; [auto|]. split; [auto|]. split; [exact I|]. split; [auto|]. intros; lia.
    - destruct (skipn_nth _ _ _ _ Hl) as [Hx Hr]. pose proof (nth_lt _ _ _ Hx). replace (Z.of_nat k <? Z.of_nat (length (c_ch c))) with true by lia.
      erewrite b_ret; [|apply run_child_at; exact Hx].
      inversion Sp as [|a' d l' ts' Ha Ta Sp' |a' d l' ts' Ha Ta Sp']; subst.
      + erewrite b_ret; [|eapply run_type; exact Ha]. rewrite Ta. change (ntype_eqb WHITESPACE WHITESPACE) with true. cbv iota.
        replace (Z.of_nat k + 1) with (Z.of_nat (S k)) by lia. erewrite b_ret; [|reflexivity].
        destruct (IH (S k) ts f eq_refl ltac:(lia) Sp' ltac:(cbn [length] in Lf; apply Nat.succ_lt_mono; exact Lf)) as (k' & K & R1 & R2 & R3 & R4 & R5). exists k'. split; [exact K|]. split; [auto|]. split; [auto|]. split; [auto|]. split; [lia|].
        intros j b Hj Hb. destruct (Nat.eq_dec j k) as [->|Nj]; [|apply (R5 j b); [lia|auto]]. assert (b = a) by congruence. subst b. eauto.
      + erewrite b_ret; [|eapply run_type; exact Ha]. rewrite (proj2 (ntype_eqb_neq _ _) Ta). exists k. rewrite Hl. split; [reflexivity|]. split; [lia|]. split; [auto|].
        split; [cbn; intros d' Hd'; congruence|]. split; [auto|]. intros; lia.
  Qed.
End Skip.

Lemma run_next s ts : before s ts -> (e_cur s = None \/ exists a c, e_cur s = Some a /\ nth_error (e_heap s) a = Some c) ->
  exists s', next s = Ret tt s' /\ reads s' ts /\ goes true s s' /\ e_msgs s' = e_msgs s.
Proof.
  intros (c & k & Hn & Tc & Ep & Le & Sp & Ls) Cu. destruct s as [h m nd ps sta cu vs fo]. cbn [e_heap e_node e_pos e_cur] in *. subst ps.
  unfold next. erewrite b_ret; [|reflexivity]. erewrite b_ret; [|apply run_node_size; eauto]. cbn [e_pos].
  destruct (skipn k (c_ch c)) as [|a l] eqn:Sk.
  - pose proof (skipn_none _ _ Sk). replace (Z.of_nat (length (c_ch c)) <=? Z.of_nat k) with true by lia. inversion Sp; subst.
    assert (B : forall h' cu', nodes_near false (length h) h h' -> before (mkE h' m nd (Z.of_nat k) sta cu' vs fo) []).
    { intros h' cu' N. eapply (before_goes (mkE h m nd (Z.of_nat k) sta cu vs fo)); [exact N|reflexivity|reflexivity|].
      exists c, k. cbn [e_heap e_node e_pos]. rewrite Sk. repeat (split; [auto|]). auto. }
    assert (New : exists s', (q <- (fun s => pos_of (e_node s) s) ;; a <- alloc EOF_TOKEN q ;; set_cur a) (mkE h m nd (Z.of_nat k) sta cu vs fo) = Ret tt s'
        /\ reads s' [] /\ goes true (mkE h m nd (Z.of_nat k) sta cu vs fo) s' /\ e_msgs s' = m).
    { erewrite b_ret; [|cbn [e_node]; eapply run_pos; exact Hn]. erewrite b_ret; [|apply run_alloc].
      eexists. split; [reflexivity|]. unfold set_cur, fresh, with_heap, with_cur. cbn [e_heap e_msgs e_node e_pos e_start e_cur e_vars e_font].
      assert (N : forall st, nodes_near st (length h) h (h ++ [blank EOF_TOKEN (c_pos c)])).
      { intro. split; [rewrite app_length; lia|]. intros b d Lb Hb. exists d. split; [rewrite nth_error_app1; auto|apply near_refl]. }
      split; [|split; [split; [apply N|cbn; auto]|reflexivity]].
      cbn [reads e_cur e_heap]. split; [|apply B, N]. exists (length h), (blank EOF_TOKEN (c_pos c)). split; [reflexivity|]. split; [apply nth_mid|reflexivity]. }
    unfold bind at 1. cbn [e_cur]. destruct Cu as [->|(x & d & -> & Hx)]; [exact New|].
    rewrite (b_ret _ _ _ _ _ (run_type (mkE h m nd (Z.of_nat k) sta (Some x) vs fo) _ _ Hx)). unfold ret at 1. destruct (ntype_eqb (c_type d) EOF_TOKEN) eqn:Te; [|exact New].
    apply ntype_eqb_spec in Te. eexists. split; [reflexivity|]. split; [|split; [apply goes_refl|reflexivity]].
    cbn [reads e_cur e_heap]. split; [eauto|]. apply B. apply nodes_near_refl.
  - destruct (skipn_nth _ _ _ _ Sk) as [Hx Hr]. pose proof (nth_lt _ _ _ Hx). replace (Z.of_nat (length (c_ch c)) <=? Z.of_nat k) with false by lia.
    erewrite b_ret; [|apply (run_child_at h m nd sta cu vs fo c Hn Tc); exact Hx].
    erewrite b_ret; [|reflexivity]. erewrite b_ret; [|reflexivity].
    inversion Sp as [|a' d l' ts' Ha Ta Sp' |a' d l' ts' Ha Ta Sp']; subst; [exfalso; exact (Ls _ Ha Ta)|].
    unfold with_cur, with_pos. cbn [e_heap e_msgs e_node e_pos e_start e_cur e_vars e_font].
    replace (Z.of_nat k + 1) with (Z.of_nat (S k)) by lia.
    destruct (run_skip h m nd sta (Some a) vs fo c Hn Tc _ (S k) ts' (S (Z.to_nat (Z.of_nat (length (c_ch c))))) eq_refl ltac:(lia) Sp') as (k' & K & Le' & Sp2 & Ls2 & Lk & Wk).
    { rewrite Nat2Z.id, skipn_length. lia. }
    exists (mkE h m nd (Z.of_nat k') sta (Some a) vs fo). split; [exact K|]. split; [|split; [split; [apply nodes_near_refl|cbn; auto]|]].
    + cbn [reads e_cur e_heap]. split; [reflexivity|]. split; [eauto|]. split; [exists c, k'; cbn [e_heap e_node e_pos]; auto 10|].
      exists c, k', k. cbn [e_heap e_node e_pos]. split; [auto|]. split; [auto|]. split; [lia|]. split; [auto|]. split; [rewrite Sk; auto|]. split; [rewrite Sk; auto|].
      intros j Hj Q. destruct (Wk j a ltac:(lia) Q) as (e & He & Te). congruence.
    + reflexivity.
Qed.
