(** * Proofs about lists of expressions *)

From Coq Require Import String ZArith List Bool Lia Arith ZifyBool Floats.SpecFloat.
From Verif Require Import Base UnicodeRange NodeHeap NodeProofs Color FloatBits Dim Expr ExprSpec ExprRun ExprFrame PrecSpec PrecStream PrecValue PrecParse PrecMain PrecMeaning ListSpec Compile.
Import ListNotations.
Open Scope string_scope. Open Scope list_scope. Open Scope Z_scope.
Ltac Zify.zify_post_hook ::= idtac.

(** ** The value of one expression *)
Lemma colour_not_word c : c_type c = IDENTIFIER -> set_named (c_str c) true <> None ->
  str_eqb (c_str c) (zs "null") = false /\ str_eqb (c_str c) (zs "true") = false /\ str_eqb (c_str c) (zs "false") = false.
Proof.
  intros _ H. repeat split; destruct (str_eqb _ _) eqn:E; try reflexivity; apply str_eqb_spec in E; rewrite E in H; exfalso; apply H; vm_compute; reflexivity.
Qed.
Lemma simple_value lm font t s rest : tokens_of (e_heap s) t -> reads s (flatten t ++ rest) -> e_vars s = [] -> e_font s = font -> simple (e_heap s) font t ->
  exists r s' d, value_of lm t s = Ret (Some r) s' /\ node_at s' r d /\ stands_for (e_heap s) t r d /\ keeps_nodes s s' /\ e_msgs s' = e_msgs s.
Proof.
  intros Tk R V Fo Si.
  assert (Si' : (exists a c, t = Atom a /\ nth_error (e_heap s) a = Some c /\ plain_operand c = true)
    \/ (exists a c k, t = Atom a /\ nth_error (e_heap s) a = Some c /\ colour_of c = Some k)
    \/ (font = false /\ exists v, meaning (e_heap s) t = Some v /\ computed (e_heap s) t)).
  { destruct Si as [A|[A|(F & v & M)]]; [auto|auto|]. destruct t as [a| | | | |]; try (right; right; split; [exact F|]; exists v; split; [exact M|intros ? ? Q; discriminate Q]).
    destruct Tk as (c & H & T). destruct (plain_operand c) eqn:P; [left; eauto|]. right. right. split; [exact F|]. exists v. split; [exact M|]. intros a' c' Q H'. injection Q as <-. congruence. }
  clear Si. destruct Si' as [(a & c & -> & H & P)|[(a & c & k & -> & H & P)|(-> & v & M & Cp)]].
  - cbn [flatten app value_of] in *. destruct (next_reads _ _ _ R) as (s1 & N1 & R1 & G1 & M1). pose proof (goes_keeps _ _ G1) as K. pose proof (K _ _ H) as H1.
    assert (V1 : e_vars s1 = []) by (destruct G1 as (_ & _ & _ & -> & _); exact V).
    exists a, s1, c. split; [|split; [exact H1|split; [left; auto|auto]]].
    assert (N : node_at s a c) by exact H. unfold operand. rewrite (b_ret _ _ _ _ _ (run_type s a c N)).
    unfold plain_operand in P. destruct (c_type c) eqn:T; try discriminate P; rewrite (b_ret _ _ _ _ _ N1); try reflexivity.
    unfold word. rewrite (b_ret _ _ _ _ _ (run_string s1 a c H1 ltac:(rewrite T; reflexivity))), (b_ret _ _ _ _ _ (run_pos s1 a c H1)).
    apply andb_true_iff in P. destruct P as (P & Q). apply negb_true_iff in P. apply orb_false_iff in P. destruct P as (P & P3). apply orb_false_iff in P. destruct P as (P1 & P2).
    rewrite P1, P2, P3. destruct (set_named (c_str c) true); [discriminate Q|]. rewrite V1. reflexivity.
  - cbn [flatten app value_of] in *. destruct (next_reads _ _ _ R) as (s1 & N1 & R1 & G1 & M1). pose proof (goes_keeps _ _ G1) as K. pose proof (K _ _ H) as H1.
    assert (N : node_at s a c) by exact H. unfold operand. rewrite (b_ret _ _ _ _ _ (run_type s a c N)).
    unfold colour_of in P. destruct (c_type c) eqn:T; try discriminate P.
    + (* HASH *) rewrite (b_ret _ _ _ _ _ (run_string s a c N ltac:(rewrite T; reflexivity))), (b_ret _ _ _ _ _ (run_pos s a c N)). rewrite P.
      rewrite (b_ret _ _ _ _ _ (run_new_color s (c_pos c) k)).
      assert (R' : reads (fresh s (with_color (blank COLOR (c_pos c)) k)) (a :: rest)).
      { eapply reads_goes; [|split; [|split]|exact R]; try reflexivity. split; [cbn; rewrite app_length; lia|]. intros b d Lb Hb. exists d. split; [cbn; rewrite nth_error_app1; auto|apply near_refl]. }
      destruct (next_reads _ _ _ R') as (s2 & N2 & _ & G2 & M2). rewrite (b_ret _ _ _ _ _ N2). eexists _, s2, _. split; [reflexivity|]. pose proof (goes_keeps _ _ G2) as K2.
      split; [apply K2, fresh_at|]. split; [right; left; exists a, c, k; repeat split; auto; unfold colour_of; now rewrite T|].
      split; [intros b d Hb; apply K2, fresh_keeps, Hb|]. rewrite M2. reflexivity.
    + (* IDENTIFIER *) rewrite (b_ret _ _ _ _ _ N1). unfold word. rewrite (b_ret _ _ _ _ _ (run_string s1 a c H1 ltac:(rewrite T; reflexivity))), (b_ret _ _ _ _ _ (run_pos s1 a c H1)).
      destruct (colour_not_word c T ltac:(congruence)) as (-> & -> & ->). rewrite P. rewrite run_new_color. eexists _, _, _. split; [reflexivity|]. split; [apply fresh_at|].
      split; [right; left; exists a, c, k; repeat split; auto; unfold colour_of; now rewrite T|]. split; [intros b d Hb; apply fresh_keeps, K, Hb|]. exact M1.
  - destruct (meaning_value lm t s rest v) as (r & s' & d & A & B & C & D & E & F); auto. { intros n x. rewrite V. discriminate. }
    exists r, s', d. split; [auto|]. split; [auto|]. split; [right; right; eauto|]. auto.
Qed.
(** The value is neither a list of values nor a flag. *)
Definition value_type (t : ntype) : bool := match t with EXCLAMATION | HASH => false | _ => operand_type t end.
Lemma stands_type h t r d : stands_for h t r d -> value_type (c_type d) = true.
Proof.
  intros [(_ & _ & P)|[(a & c & k & _ & _ & _ & ->)|(v & _ & R)]].
  - unfold plain_operand in P. destruct (c_type d); try discriminate P; reflexivity.
  - reflexivity.
  - destruct R as (R & _). destruct v; destruct R as (-> & _); reflexivity.
Qed.

(** ** Nodes that change their children only *)
Definition stable (t : ntype) : bool := match t with ARG | DECLARATION | FUNCTION | COMPONENT_VALUE | LIST | OPEN_CURLYBRACKET | FRAME | AT_KEYWORD => false | _ => true end.
Definition like (n : addr) (h h' : heap) : Prop :=
  (forall a c, a <> n -> nth_error h a = Some c -> nth_error h' a = Some c)
  /\ exists c c', nth_error h n = Some c /\ stable (c_type c) = false /\ nth_error h' n = Some c' /\ c_type c' = c_type c.
Definition alike (h h' : heap) : Prop :=
  forall a c, nth_error h a = Some c -> exists c', nth_error h' a = Some c' /\ c_type c' = c_type c /\ (stable (c_type c) = true -> c' = c).
Lemma alike_type h h' a c : alike h h' -> nth_error h a = Some c -> exists c', nth_error h' a = Some c' /\ c_type c' = c_type c.
Proof. intros K H. destruct (K a c H) as (c' & A & B & _). eauto. Qed.
Lemma alike_at h h' a c : alike h h' -> nth_error h a = Some c -> stable (c_type c) = true -> nth_error h' a = Some c.
Proof. intros K H T. destruct (K a c H) as (c' & A & _ & B). now rewrite <- (B T). Qed.
Lemma alike_refl h : alike h h. Proof. intros a c H. eauto. Qed.
Lemma alike_trans h1 h2 h3 : alike h1 h2 -> alike h2 h3 -> alike h1 h3.
Proof. intros K L a c H. destruct (K a c H) as (c' & A & T & B). destruct (L a c' A) as (c2 & A2 & T2 & B2). exists c2. split; [auto|]. split; [congruence|]. intro S1. rewrite <- (B S1). apply B2. congruence. Qed.
Lemma like_alike n h h' : like n h h' -> alike h h'.
Proof.
  intros (K & d & d' & Hd & Td & Hd' & Td') a c H. destruct (Nat.eq_dec a n) as [->|N]; [exists d'; split; [auto|split; [congruence|intro; congruence]]|exists c; auto].
Qed.
Lemma alike_spaced h h' : alike h h' -> forall l ts, spaced h l ts -> spaced h' l ts.
Proof.
  intros K l ts S. induction S as [|a c l ts H T S IH|a c l ts H T S IH]; [constructor| |]; destruct (alike_type _ _ _ _ K H) as (c' & H' & T'); [eapply spaced_ws|eapply spaced_token]; eauto; congruence.
Qed.
Lemma alike_leading h h' l ts : alike h h' -> spaced h l ts -> no_leading_space h l -> no_leading_space h' l.
Proof.
  intros K Sp. destruct l as [|a l]; [auto|]. cbn. intros L c Hc. assert (exists c0, nth_error h a = Some c0) as (c0 & H0) by (inversion Sp; subst; eauto).
  destruct (alike_type _ _ _ _ K H0) as (c' & H' & T'). assert (c = c') by congruence. subst. rewrite T'. now apply L.
Qed.
Lemma alike_tokens h h' : alike h h' -> forall t, tokens_of h t -> tokens_of h' t.
Proof.
  intros K. assert (A : forall a (P : cell -> Prop), (forall c, P c -> stable (c_type c) = true) -> (exists c, nth_error h a = Some c /\ P c) -> exists c, nth_error h' a = Some c /\ P c).
  { intros a P HP (c & H & Pc). exists c. split; [|auto]. eapply alike_at; eauto. }
  induction t as [a|a x IH|a x IH|a x IH|o a l IHl r IHr|q c x IHx y IHy z IHz]; cbn [tokens_of].
  - apply A. intros c P. destruct (c_type c); try discriminate P; reflexivity.
  - intros [(c & H & T & Sp & Ls) X]. split; [|auto]. exists c. split; [eapply alike_at; eauto; rewrite T; reflexivity|]. split; [auto|]. split; [eapply alike_spaced; eauto|eapply alike_leading; eauto].
  - intros [B X]. split; [|auto]. revert B. apply A. intros c ->. reflexivity.
  - intros [B X]. split; [|auto]. revert B. apply A. intros c ->. reflexivity.
  - intros (B & X & Y). split; [|auto]. revert B. apply A. intros c P. unfold op_of in P. destruct (c_type c); try discriminate P; reflexivity.
  - intros (B & D & X & Y & Z). split; [revert B; apply A; intros d ->; reflexivity|]. split; [revert D; apply A; intros d ->; reflexivity|]. auto.
Qed.
Lemma alike_meaning h h' : alike h h' -> forall t v, meaning h t = Some v -> meaning h' t = Some v.
Proof.
  intros K. induction t as [a|a x IH|a x IH|a x IH|o a l IHl r IHr|q c x IHx y IHy z IHz]; cbn [meaning]; intros v H; auto.
  - destruct (nth_error h a) as [c|] eqn:Q; [|discriminate]. rewrite (alike_at _ _ _ _ K Q); [exact H|]. unfold constant in H. destruct (c_type c); try discriminate H; reflexivity.
  - destruct (meaning h l); [|discriminate]. destruct (meaning h r); [|discriminate]. rewrite (IHl _ eq_refl), (IHr _ eq_refl). exact H.
  - destruct (meaning h x); [|discriminate]. destruct (meaning h y); [|discriminate]. destruct (meaning h z); [|discriminate].
    rewrite (IHx _ eq_refl), (IHy _ eq_refl), (IHz _ eq_refl). exact H.
Qed.
Lemma plain_arg c : plain_operand c = true -> stable (c_type c) = true. Proof. intros P. unfold plain_operand in P. destruct (c_type c); try discriminate P; reflexivity. Qed.
Lemma colour_arg c k : colour_of c = Some k -> stable (c_type c) = true. Proof. intros P. unfold colour_of in P. destruct (c_type c); try discriminate P; reflexivity. Qed.
Lemma operand_stable t : operand_type t = true -> stable t = true. Proof. destruct t; try discriminate; reflexivity. Qed.
Lemma alike_simple h h' fo t : alike h h' -> simple h fo t -> simple h' fo t.
Proof.
  intros K [(a & c & -> & H & P)|[(a & c & k & -> & H & P)|(F & v & M)]].
  - left. exists a, c. split; [auto|]. split; [eapply alike_at; eauto; eapply plain_arg; eauto|auto].
  - right. left. exists a, c, k. split; [auto|]. split; [eapply alike_at; eauto; eapply colour_arg; eauto|auto].
  - right. right. split; [auto|]. exists v. eapply alike_meaning; eauto.
Qed.
Lemma alike_ends h h' l : alike h h' -> ends h l -> ends h' l.
Proof.
  intros K. destruct l as [|a l]; [auto|]. intros (c & H & A & B). destruct (alike_type _ _ _ _ K H) as (c' & H' & T'). destruct (stable (c_type c)) eqn:E; [|].
  2:{ exists c'. split; [auto|]. unfold op_of. rewrite T'. destruct (c_type c); try discriminate E; repeat split; discriminate. }
  - exists c. split; [eapply alike_at; eauto|auto].
Qed.
Lemma alike_entry h h' fo e : alike h h' -> entry_ok h fo e -> entry_ok h' fo e.
Proof.
  intros K (A & B & C & D & E & F & G). split; [eapply alike_spaced; eauto|]. split; [eapply alike_leading; eauto|].
  split.
  { destruct (rev (e_nodes e)) as [|x l] eqn:Q; [exact I|]. intros d Hd. cbn in C. assert (I : In x (e_nodes e)) by (apply in_rev; rewrite Q; now left).
    pose proof (spaced_all _ _ _ A x I) as L. destruct (nth_error h x) as [d0|] eqn:H0; [|apply nth_error_None in H0; exfalso; exact (Nat.lt_irrefl _ (Nat.lt_le_trans _ _ _ L H0))].
    destruct (alike_type _ _ _ _ K H0) as (d' & Hd' & T'). assert (d = d') by congruence. subst. rewrite T'. now apply C. }
  split; [eapply alike_tokens; eauto|]. split; [auto|]. split; [eapply alike_simple; eauto|].
  destruct G as [G|(w & G & c & Hw & Tw)]; [auto|]. right. exists w. split; [auto|]. destruct (alike_type _ _ _ _ K Hw) as (c' & H' & T'). exists c'. split; [auto|congruence].
Qed.
Lemma alike_chained h h' fl : alike h h' -> forall es, chained h es fl -> chained h' es fl.
Proof. intros K. induction es as [|e es IH]; cbn; [auto|]. intros (A & B & C). split; [eapply alike_ends; eauto|]. auto. Qed.
Lemma alike_meaning_back h h' : alike h h' -> forall t, tokens_of h t -> meaning h' t = meaning h t.
Proof.
  intros K. induction t as [a|a x IH|a x IH|a x IH|o a l IHl r IHr|q c x IHx y IHy z IHz]; cbn [meaning tokens_of].
  - intros (c & H & T). rewrite H, (alike_at _ _ _ _ K H); [reflexivity|]. now apply operand_stable.
  - intros (_ & X). auto.
  - reflexivity.
  - intros (_ & X). auto.
  - intros (_ & X & Y). rewrite (IHl X), (IHr Y). reflexivity.
  - intros (_ & _ & X & Y & Z). rewrite (IHx X), (IHy Y), (IHz Z). reflexivity.
Qed.
Lemma alike_stands h h' t r d : alike h h' -> tokens_of h t -> stands_for h' t r d -> stands_for h t r d.
Proof.
  intros K Tk S. destruct S as [(-> & H & P)|[(a & c & k & -> & H & P & D)|(v & M & R)]].
  - left. split; [auto|]. split; [|auto]. destruct Tk as (c & Hc & Tc). pose proof (operand_stable _ Tc) as Ta. pose proof (alike_at _ _ _ _ K Hc Ta). congruence.
  - right. left. exists a, c, k. split; [auto|]. split; [|auto]. destruct Tk as (c' & Hc & Tc). pose proof (operand_stable _ Tc) as Ta. pose proof (alike_at _ _ _ _ K Hc Ta). congruence.
  - right. right. destruct R as (R & Cp). exists v. split; [rewrite <- (alike_meaning_back _ _ K t Tk); exact M|]. split; [exact R|].
    intros a c -> H. apply (Cp a c eq_refl). destruct Tk as (c' & Hc & Tc). pose proof (operand_stable _ Tc) as Ta. pose proof (alike_at _ _ _ _ K Hc Ta). congruence.
Qed.

Lemma like_type n h h' a c : like n h h' -> nth_error h a = Some c -> exists c', nth_error h' a = Some c' /\ c_type c' = c_type c.
Proof. intro K. apply alike_type, (like_alike _ _ _ K). Qed.
Lemma like_at n h h' a c : like n h h' -> nth_error h a = Some c -> stable (c_type c) = true -> nth_error h' a = Some c.
Proof. intro K. apply alike_at, (like_alike _ _ _ K). Qed.
Lemma like_spaced n h h' : like n h h' -> forall l ts, spaced h l ts -> spaced h' l ts.
Proof. intro K. apply alike_spaced, (like_alike _ _ _ K). Qed.
Lemma like_leading n h h' l ts : like n h h' -> spaced h l ts -> no_leading_space h l -> no_leading_space h' l.
Proof. intro K. apply alike_leading, (like_alike _ _ _ K). Qed.
Lemma like_tokens n h h' : like n h h' -> forall t, tokens_of h t -> tokens_of h' t.
Proof. intro K. apply alike_tokens, (like_alike _ _ _ K). Qed.
Lemma like_meaning n h h' : like n h h' -> forall t v, meaning h t = Some v -> meaning h' t = Some v.
Proof. intro K. apply alike_meaning, (like_alike _ _ _ K). Qed.
Lemma like_simple n h h' fo t : like n h h' -> simple h fo t -> simple h' fo t.
Proof. intro K. apply alike_simple, (like_alike _ _ _ K). Qed.
Lemma like_ends n h h' l : like n h h' -> ends h l -> ends h' l.
Proof. intro K. apply alike_ends, (like_alike _ _ _ K). Qed.
Lemma like_entry n h h' fo e : like n h h' -> entry_ok h fo e -> entry_ok h' fo e.
Proof. intro K. apply alike_entry, (like_alike _ _ _ K). Qed.
Lemma like_chained n h h' fl : like n h h' -> forall es, chained h es fl -> chained h' es fl.
Proof. intro K. apply alike_chained, (like_alike _ _ _ K). Qed.
Lemma like_meaning_back n h h' : like n h h' -> forall t, tokens_of h t -> meaning h' t = meaning h t.
Proof. intro K. apply alike_meaning_back, (like_alike _ _ _ K). Qed.
Lemma like_stands n h h' t r d : like n h h' -> tokens_of h t -> stands_for h' t r d -> stands_for h t r d.
Proof. intro K. apply alike_stands, (like_alike _ _ _ K). Qed.
(** ** Where the cursor is *)
Lemma spaced_app h l1 t1 l2 t2 : spaced h l1 t1 -> spaced h l2 t2 -> spaced h (l1 ++ l2) (t1 ++ t2).
Proof. intros A B. induction A; cbn; [auto|eapply spaced_ws; eauto|eapply spaced_token; eauto]. Qed.
(** The tail which starts with a token and has the given tokens is unique. *)
Lemma spaced_len h : forall l ts i ti, spaced h l ts -> spaced h (skipn i l) ti -> (length ti <= length ts)%nat.
Proof.
  induction l as [|x l IH]; intros ts i ti A B.
  - rewrite skipn_nil in B. inversion B. cbn. lia.
  - destruct i as [|i].
    + cbn [skipn] in B. rewrite (spaced_filter _ _ _ A), (spaced_filter _ _ _ B). lia.
    + cbn [skipn] in B. inversion A as [|a c l' ts' H T S|a c l' ts' H T S]; subst; [eapply IH; eauto|]. cbn [length]. pose proof (IH _ _ _ S B). lia.
Qed.
Lemma skipn_plus {A} : forall i k (l : list A), skipn (i + k) l = skipn k (skipn i l).
Proof. induction i; intros k l; [reflexivity|]. destruct l; cbn [skipn Nat.add]; [now rewrite skipn_nil|apply IHi]. Qed.
Lemma spaced_index h l i j a t : spaced h (skipn i l) (a :: t) -> no_leading_space h (skipn i l) ->
  spaced h (skipn j l) (a :: t) -> no_leading_space h (skipn j l) -> i = j.
Proof.
  revert i j. assert (W : forall i j, (i < j)%nat -> spaced h (skipn i l) (a :: t) -> no_leading_space h (skipn i l) -> spaced h (skipn j l) (a :: t) -> False).
  { intros i j L A LA B. destruct (skipn i l) as [|x r] eqn:Q; [inversion A|]. destruct (skipn_nth _ _ _ _ Q) as (_ & R).
    inversion A as [|x' c l' ts' H T Sp|x' c l' ts' H T Sp]; subst; [exact (LA _ H T)|].
    assert (E : skipn j l = skipn (j - S i) (skipn (S i) l)). { rewrite <- skipn_plus. f_equal. lia. }
    rewrite E in B. pose proof (spaced_len _ _ _ _ _ Sp B) as Le. cbn [length] in Le. lia. }
  intros i j A LA B LB. destruct (Nat.lt_trichotomy i j) as [C|[C|C]]; [|auto|]; exfalso; eauto.
Qed.

(** ** replace_with_result in the middle of a list *)
Section ReplaceAt.
  Variables (m : list msg) (nd : addr) (st : nat) (vs : list (str * option addr)) (fo : bool).
  Notation at_ h j cu := (mkE h m nd (Z.of_nat j) (Z.of_nat st) cu vs fo).
  Lemma run_remove_back_at cu : forall used before after h c f, nth_error h nd = Some c -> has_children (c_type c) = true ->
    c_ch c = before ++ used ++ after -> length before = st -> (length used <= f)%nat ->
    remove_back f (Z.of_nat st) (at_ h (st + length used)%nat cu) = Ret tt (at_ (put h nd (with_ch c (before ++ after))) st cu).
  Proof.
    induction used as [|x used IH] using rev_ind; intros before after h c f Hn Tc E Ls Lf.
    - cbn [app length] in *. rewrite Nat.add_0_r. replace (put h nd (with_ch c (before ++ after))) with h by (rewrite <- E; replace (with_ch c (c_ch c)) with c by (destruct c; reflexivity); rewrite put_id; auto).
      destruct f as [|f]; [reflexivity|]. cbn [remove_back]. erewrite b_ret; [|reflexivity]. cbn [e_pos]. rewrite Z.ltb_irrefl. reflexivity.
    - rewrite app_length in *. cbn [length] in *. destruct f as [|f]; [lia|]. cbn [remove_back]. erewrite b_ret; [|reflexivity]. cbn [e_pos].
      replace (Z.of_nat st <? Z.of_nat (st + (length used + 1))) with true by lia. erewrite b_ret; [|reflexivity]. unfold with_pos. cbn [e_heap e_msgs e_node e_pos e_start e_cur e_vars e_font].
      replace (Z.of_nat (st + (length used + 1)) - 1) with (Z.of_nat (st + length used)) by lia.
      assert (Er : list_erase (st + length used) (c_ch c) = before ++ used ++ after).
      { rewrite E. unfold list_erase. replace (st + length used)%nat with (length (before ++ used)) by (rewrite app_length; lia).
        rewrite <- !app_assoc. cbn [app]. rewrite (app_assoc before used (x :: after)). rewrite firstn_app, firstn_all, Nat.sub_diag. cbn [firstn]. rewrite app_nil_r.
        rewrite skipn_app. rewrite skipn_all2 by lia. replace (S (length (before ++ used)) - length (before ++ used))%nat with 1%nat by lia. cbn [skipn app]. now rewrite <- app_assoc. }
      erewrite (b_ret _ _ _ tt (at_ (put h nd (with_ch c (before ++ used ++ after))) (st + length used)%nat cu)).
      2:{ cbn [e_node]. unfold lift, remove_child_at, load, NodeHeap.bind, supports. cbn [e_heap]. rewrite Hn, Tc. unfold NodeHeap.ret, store.
          assert (Ll : (st + length used < length (c_ch c))%nat) by (rewrite E, !app_length; cbn [length]; lia).
          replace (Z.of_nat (length (c_ch c)) <=? Z.of_nat (st + length used)) with false by lia. rewrite Nat2Z.id, Er. reflexivity. }
      rewrite (IH before after _ (with_ch c (before ++ used ++ after)) f); [rewrite put_put; reflexivity| | |reflexivity|auto|lia]; [apply put_same; now apply nth_lt in Hn|exact Tc].
  Qed.
  Lemma run_back_at h c a : nth_error h nd = Some c -> has_children (c_type c) = true -> forall k i, (i < k <= length (c_ch c))%nat -> nth_error (c_ch c) i = Some a ->
    (forall j, (i < j < k)%nat -> nth_error (c_ch c) j <> Some a) ->
    back_to_current k (at_ h k (Some a)) = Ret tt (at_ h i (Some a)).
  Proof.
    intros Hn Tc. induction k as [|k IH]; intros i Le Hi U; [lia|]. cbn [back_to_current]. erewrite b_ret; [|reflexivity]. cbn [e_pos].
    replace (0 <? Z.of_nat (S k)) with true by lia. replace (Z.of_nat (S k) - 1) with (Z.of_nat k) by lia. erewrite b_ret; [|reflexivity].
    unfold with_pos. cbn [e_heap e_msgs e_node e_pos e_start e_cur e_vars e_font].
    destruct (nth_error (c_ch c) k) as [b|] eqn:Hk; [|apply nth_error_None in Hk; lia].
    rewrite (b_ret _ _ _ _ _ (run_child_at h m nd (Z.of_nat st) (Some a) vs fo c Hn Tc k b Hk)). erewrite b_ret; [|reflexivity].
    destruct (Nat.eqb_spec b a) as [->|Ne].
    - destruct (Nat.eq_dec i k) as [->|Ni]; [reflexivity|]. exfalso. apply (U k); [lia|auto].
    - apply IH; [|auto|intros j Hj; apply U; lia]. assert (i <> k) by (intros ->; congruence). lia.
  Qed.
  Lemma run_insert_at cu h c v k front after : nth_error h nd = Some c -> has_children (c_type c) = true -> c_ch c = front ++ after -> length front = st ->
    nth_error h v = Some k -> c_type k <> EOF_TOKEN -> c_type k <> WHITESPACE ->
    lift (insert_child nd (Z.of_nat st) v) (at_ h st cu) = Ret tt (at_ (put h nd (with_ch c (front ++ v :: after))) st cu).
  Proof.
    intros Hn Tc E Ls Hv Te Tw. unfold lift. cbn [e_heap].
    assert (X : insert_child nd (Z.of_nat st) v h = Ret tt (put h nd (with_ch c (front ++ v :: after)))); [|rewrite X; reflexivity].
    unfold insert_child, add_child, NodeHeap.bind at 1, load at 1. rewrite Hn.
    assert (Ll : length (c_ch c) = (st + length after)%nat) by (rewrite E, app_length; lia). rewrite Ll.
    destruct after as [|x after]; cbn [length].
    - replace (Z.of_nat st =? Z.of_nat (st + 0)) with true by lia. unfold NodeHeap.bind, load, supports. rewrite Hn, Tc. unfold NodeHeap.ret, store. rewrite Hv, (proj2 (ntype_eqb_neq _ _) Te), (proj2 (ntype_eqb_neq _ _) Tw).
      rewrite E, app_nil_r. destruct (rev front); reflexivity.
    - replace (Z.of_nat st =? Z.of_nat (st + S (length after))) with false by lia. unfold NodeHeap.bind, load, supports. rewrite ?Hn, Tc. unfold NodeHeap.ret, store.
      cbn [length]. replace (Z.of_nat (st + S (length after)) <=? Z.of_nat st) with false by lia. rewrite Hv, (proj2 (ntype_eqb_neq _ _) Te). rewrite Nat2Z.id.
      unfold list_insert. rewrite E, <- Ls. rewrite firstn_app, firstn_all, Nat.sub_diag. cbn [firstn]. rewrite app_nil_r. rewrite skipn_app, skipn_all, Nat.sub_diag. reflexivity.
  Qed.
End ReplaceAt.
Lemma find_space h l ts x : spaced h l ts -> In x l -> exists d, nth_error h x = Some d.
Proof. intros A I. pose proof (spaced_all _ _ _ A x I) as L. destruct (nth_error h x) eqn:H0; [eauto|]. apply nth_error_None in H0. exfalso. exact (Nat.lt_irrefl _ (Nat.lt_le_trans _ _ _ L H0)). Qed.
Lemma last_split {A} (l : list A) : l <> [] -> exists a x, l = a ++ [x] /\ rev l = x :: rev a.
Proof. intro N. destruct (@exists_last _ l N) as (a & x & ->). exists a, x. split; [auto|]. rewrite rev_app_distr. reflexivity. Qed.
Lemma replace_at s rest v k c front used tu gap more : reads s rest -> nth_error (e_heap s) (e_node s) = Some c ->
  c_ch c = front ++ used ++ gap ++ more -> e_start s = Z.of_nat (length front) ->
  spaced (e_heap s) used tu -> used <> [] -> no_leading_space (e_heap s) (rev used) ->
  (gap = [] \/ exists w, gap = [w] /\ is_space_node (e_heap s) w) -> spaced (e_heap s) more rest -> no_leading_space (e_heap s) more ->
  (rest = [] -> gap = [] /\ more = []) ->
  nth_error (e_heap s) v = Some k -> c_type k <> EOF_TOKEN -> c_type k <> WHITESPACE ->
  (match rest with a :: _ => forall d, nth_error (e_heap s) a = Some d -> c_type d <> EOF_TOKEN | [] => True end) ->
  replace_with_result (Some v) s
  = Ret (Some v) (mkE (put (e_heap s) (e_node s) (with_ch c (front ++ v :: gap ++ more))) (e_msgs s) (e_node s) (Z.of_nat (S (length front))) (Z.of_nat (S (length front))) (e_cur s) (e_vars s) (e_font s)).
Proof.
  intros R Hc Ec Es Su Nu Lu Gp Sm Lm Rn Hv Te Tw Nr. destruct (reads_cur _ _ R) as (a & e & Cu & Ha).
  assert (B : exists ts, before s ts) by (destruct rest; [exists []; apply R|exists rest; apply R]). destruct B as (ts & c' & p & Hc' & Tc & Ep & Lp & _). assert (c' = c) by congruence. subst c'.
  set (st := length front).
  assert (Fin : (fun s => remove_back (Z.to_nat (e_pos s)) (e_start s) s) (with_pos s (Z.of_nat (st + length used))) = Ret tt (mkE (put (e_heap s) (e_node s) (with_ch c (front ++ gap ++ more))) (e_msgs s) (e_node s) (Z.of_nat st) (Z.of_nat st) (e_cur s) (e_vars s) (e_font s))).
  { destruct s as [h m nd ps sta cu vs fo]. unfold with_pos. cbn [e_heap e_msgs e_node e_pos e_start e_cur e_vars e_font] in *. subst sta. rewrite Nat2Z.id. fold st.
    apply (run_remove_back_at m nd st vs fo cu used front (gap ++ more) h c); auto. lia. }
  assert (Fin2 : ((fun s => remove_back (Z.to_nat (e_pos s)) (e_start s) s) ;;; q <- get_pos ;; (fun s => lift (insert_child (e_node s) q v) s) ;;; set_pos (q + 1)) (with_pos s (Z.of_nat (st + length used)))
     = Ret tt (mkE (put (e_heap s) (e_node s) (with_ch c (front ++ v :: gap ++ more))) (e_msgs s) (e_node s) (Z.of_nat (S st)) (Z.of_nat st) (e_cur s) (e_vars s) (e_font s))).
  { rewrite (b_ret _ _ _ _ _ Fin). erewrite b_ret; [|reflexivity]. cbn [e_pos].
    assert (Nv : v = e_node s \/ v <> e_node s) by (destruct (Nat.eq_dec v (e_node s)); auto).
    erewrite b_ret. 2:{ cbn [e_node]. eapply (run_insert_at (e_msgs s) (e_node s) st (e_vars s) (e_font s) (e_cur s) _ (with_ch c (front ++ gap ++ more)) v (if Nat.eq_dec v (e_node s) then with_ch c (front ++ gap ++ more) else k) front (gap ++ more));
        [apply put_same; now apply nth_lt in Hc|exact Tc|reflexivity|reflexivity| | | ].
      - destruct (Nat.eq_dec v (e_node s)) as [->|N]; [apply put_same; now apply nth_lt in Hc|rewrite put_other; auto].
      - destruct (Nat.eq_dec v (e_node s)) as [->|N]; [cbn; congruence|auto].
      - destruct (Nat.eq_dec v (e_node s)) as [->|N]; [cbn; congruence|auto]. }
    unfold set_pos, with_pos. cbn [e_heap e_msgs e_node e_pos e_start e_cur e_vars e_font]. rewrite put_put. replace (Z.of_nat st + 1) with (Z.of_nat (S st)) by lia. reflexivity. }
  unfold replace_with_result.
  assert (Fin3 : forall m s0, m s0 = ((fun s => remove_back (Z.to_nat (e_pos s)) (e_start s) s) ;;; q <- get_pos ;; (fun s => lift (insert_child (e_node s) q v) s) ;;; set_pos (q + 1)) (with_pos s (Z.of_nat (st + length used))) ->
     (m ;;; mark_start ;;; ret (Some v)) s0 = Ret (Some v) (mkE (put (e_heap s) (e_node s) (with_ch c (front ++ v :: gap ++ more))) (e_msgs s) (e_node s) (Z.of_nat (S st)) (Z.of_nat (S st)) (e_cur s) (e_vars s) (e_font s))).
  { intros m s0 E. rewrite Fin2 in E. rewrite (b_ret _ _ _ _ _ E). reflexivity. }
  apply Fin3. clear Fin Fin2 Fin3. rewrite (b_ret _ _ _ _ _ (run_cur_type s a e Cu Ha)). rewrite (b_ret get_pos _ s (e_pos s) s eq_refl).
  destruct rest as [|r rest].
  - destruct (Rn eq_refl) as (-> & ->). cbn [app] in *. rewrite app_nil_r in Ec. destruct R as ((a' & e' & Cu' & He' & Te') & (c2 & p2 & Hc2 & Tc2 & Ep2 & Lp2 & Sp2 & Ld2)).
    assert (e = e') by congruence. subst e'. assert (c2 = c) by congruence. subst c2. rewrite Te'. change (ntype_eqb EOF_TOKEN EOF_TOKEN) with true. cbn [negb andb]. rewrite bind_ret.
    assert (P2 : p2 = (st + length used)%nat).
    { assert (skipn p2 (c_ch c) = []). { inversion Sp2 as [|x d l ts' Hd Td Sp'|]; subst; [reflexivity|]. rewrite <- H in Ld2. exfalso. exact (Ld2 _ Hd Td). }
      apply skipn_none in H. rewrite Ec, app_length in H, Lp2. fold st in H, Lp2. lia. }
    rewrite P2 in Ep2. unfold with_pos. rewrite <- Ep2. destruct s; reflexivity.
  - destruct R as (Cu' & _ & _ & (c2 & p2 & i & Hc2 & Ep2 & Li & Hi & Sp & Ld & U)). assert (a = r) by congruence. subst r. assert (c2 = c) by congruence. subst c2. assert (p2 = p) by lia. subst p2.
    rewrite (proj2 (ntype_eqb_neq _ _) (Nr e Ha)). cbn [negb andb]. rewrite Ep. replace (0 <? Z.of_nat p) with true by lia. rewrite Nat2Z.id.
    assert (Ei : i = length (front ++ used ++ gap)).
    { assert (Q : skipn (length (front ++ used ++ gap)) (c_ch c) = more). { rewrite Ec. replace (front ++ used ++ gap ++ more) with ((front ++ used ++ gap) ++ more) by (rewrite <- !app_assoc; reflexivity). rewrite skipn_app, skipn_all, Nat.sub_diag. reflexivity. }
      apply (spaced_index (e_heap s) (c_ch c) i (length (front ++ used ++ gap)) a rest); auto; [rewrite Q; exact Sm|rewrite Q; exact Lm]. }
    destruct s as [h m nd ps sta cu vs fo]. cbn [e_heap e_msgs e_node e_pos e_start e_cur e_vars e_font] in *. subst sta ps cu. unfold with_pos. cbn [e_heap e_msgs e_node e_pos e_start e_cur e_vars e_font].
    rewrite bind_assoc. rewrite (b_ret _ _ _ _ _ (run_back_at m nd st vs fo h c a Hc Tc p i Li Hi U)). rewrite bind_assoc. erewrite b_ret; [|reflexivity]. cbn [e_pos].
    assert (Pos : (0 < i)%nat) by (rewrite Ei, !app_length; destruct used; [congruence|cbn; lia]). replace (0 <? Z.of_nat i) with true by lia.
    replace (Z.of_nat i - 1) with (Z.of_nat (i - 1)) by lia.
    destruct (last_split used Nu) as (u0 & ul & Eu & Ru).
    destruct Gp as [->|(w & -> & dw & Hw & Tdw)].
    + cbn [app] in *. rewrite app_nil_r in Ei. assert (Hx : nth_error (c_ch c) (i - 1) = Some ul).
      { rewrite Ec, Eu. rewrite Ei, Eu, !app_length. cbn [length]. rewrite nth_error_app2 by lia. rewrite <- app_assoc. rewrite nth_error_app2 by lia. cbn [app].
        replace (length front + (length u0 + 1) - 1 - length front - length u0)%nat with 0%nat by lia. reflexivity. }
      destruct (find_space _ _ _ ul Su) as (dl & Hl); [rewrite Eu; apply in_or_app; right; now left|].
      rewrite bind_assoc. rewrite (b_ret (child _) _ _ ul (mkE h m nd (Z.of_nat i) (Z.of_nat st) (Some a) vs fo)).
      2:{ unfold child. cbn [e_node]. eapply run_child; [exact Hc|exact Tc| |rewrite Nat2Z.id; exact Hx]. apply nth_lt in Hx. lia. }
      rewrite bind_assoc. erewrite b_ret; [|eapply run_type; exact Hl]. assert (c_type dl <> WHITESPACE) as Q. { rewrite Ru in Lu. cbn in Lu. exact (Lu _ Hl). }
      rewrite (proj2 (ntype_eqb_neq _ _) Q). rewrite bind_ret. rewrite Ei, app_length. reflexivity.
    + assert (Hx : nth_error (c_ch c) (i - 1) = Some w).
      { rewrite Ec. rewrite Ei, !app_length. cbn [length]. rewrite nth_error_app2 by lia. rewrite nth_error_app2 by lia.
        replace (length front + (length used + 1) - 1 - length front - length used)%nat with 0%nat by lia. reflexivity. }
      rewrite bind_assoc. rewrite (b_ret (child _) _ _ w (mkE h m nd (Z.of_nat i) (Z.of_nat st) (Some a) vs fo)).
      2:{ unfold child. cbn [e_node]. eapply run_child; [exact Hc|exact Tc| |rewrite Nat2Z.id; exact Hx]. apply nth_lt in Hx. lia. }
      rewrite bind_assoc. erewrite b_ret; [|eapply run_type; exact Hw]. rewrite Tdw. change (ntype_eqb WHITESPACE WHITESPACE) with true. cbv iota.
      erewrite b_ret; [|reflexivity]. unfold with_pos. cbn [e_heap e_msgs e_node e_pos e_start e_cur e_vars e_font].
      replace (i - 1)%nat with (st + length used)%nat; [reflexivity|]. rewrite Ei, !app_length. cbn [length]. unfold st. lia.
Qed.

(** ** The loop of compile_list *)
Lemma next_space s c k w l : nth_error (e_heap s) (e_node s) = Some c -> has_children (c_type c) = true -> e_pos s = Z.of_nat k ->
  skipn k (c_ch c) = w :: l -> (exists ts, spaced (e_heap s) l ts) -> no_leading_space (e_heap s) l ->
  next s = Ret tt (mkE (e_heap s) (e_msgs s) (e_node s) (Z.of_nat (S k)) (e_start s) (Some w) (e_vars s) (e_font s)).
Proof.
  intros Hn Tc Ep Sk (ts & Sp) Ls. destruct s as [h m nd ps sta cu vs fo]. cbn [e_heap e_msgs e_node e_pos e_start e_cur e_vars e_font] in *. subst ps.
  unfold next. erewrite b_ret; [|reflexivity]. erewrite b_ret; [|apply run_node_size; eauto]. cbn [e_pos].
  destruct (skipn_nth _ _ _ _ Sk) as [Hx Hr]. pose proof (nth_lt _ _ _ Hx). replace (Z.of_nat (length (c_ch c)) <=? Z.of_nat k) with false by lia.
  erewrite b_ret; [|apply (run_child_at h m nd sta cu vs fo c Hn Tc); exact Hx].
  erewrite b_ret; [|reflexivity]. erewrite b_ret; [|reflexivity].
  unfold with_cur, with_pos. cbn [e_heap e_msgs e_node e_pos e_start e_cur e_vars e_font].
  replace (Z.of_nat k + 1) with (Z.of_nat (S k)) by lia.
  cbn [skip_ws]. erewrite b_ret; [|reflexivity]. erewrite b_ret; [|apply run_node_size; eauto]. cbn [e_pos].
  destruct l as [|y l].
  - apply skipn_none in Hr. replace (Z.of_nat (S k) <? Z.of_nat (length (c_ch c))) with false by lia. reflexivity.
  - destruct (skipn_nth _ _ _ _ Hr) as [Hy _]. pose proof (nth_lt _ _ _ Hy). replace (Z.of_nat (S k) <? Z.of_nat (length (c_ch c))) with true by lia.
    erewrite b_ret; [|apply (run_child_at h m nd sta (Some w) vs fo c Hn Tc); exact Hy].
    destruct (find_space _ _ _ y Sp (or_introl eq_refl)) as (d & Hd). erewrite b_ret; [|eapply run_type; exact Hd].
    rewrite (proj2 (ntype_eqb_neq _ _) (Ls _ Hd)). reflexivity.
Qed.
Lemma run_cur_is s a c t : e_cur s = Some a -> nth_error (e_heap s) a = Some c -> cur_is t s = Ret (ntype_eqb (c_type c) t) s.
Proof. intros Cu H. unfold cur_is. rewrite (b_ret _ _ _ _ _ (run_cur_type s a c Cu H)). reflexivity. Qed.
Lemma run_end s c : nth_error (e_heap s) (e_node s) = Some c -> has_children (c_type c) = true -> end_of_nodes s = Ret (Z.of_nat (length (c_ch c)) <=? e_pos s) s.
Proof. intros H T. unfold end_of_nodes. erewrite b_ret; [|reflexivity]. erewrite b_ret; [|unfold node_size; exact (run_size s (e_node s) c H T)]. reflexivity. Qed.
Lemma flatten_cons t : exists a l, flatten t = a :: l.
Proof. induction t as [a|a x IH|a x IH|a x IH|o a l IHl r IHr|q c x IHx y IHy z IHz]; cbn; eauto; [destruct IHl as (b & l' & ->)|destruct IHx as (b & l' & ->)]; cbn; eauto. Qed.
(** The first token of an expression which has a value is not a flag. *)
Lemma first_token h fo t a l : tokens_of h t -> simple h fo t -> flatten t = a :: l -> exists c, nth_error h a = Some c /\ c_type c <> EXCLAMATION /\ c_type c <> EOF_TOKEN.
Proof.
  intros Tk [(b & c & -> & H & P)|[(b & c & k & -> & H & P)|(_ & v & M)]] F.
  - injection F as <- _. exists c. split; [auto|]. unfold plain_operand in P. destruct (c_type c); try discriminate P; split; discriminate.
  - injection F as <- _. exists c. split; [auto|]. unfold colour_of in P. destruct (c_type c); try discriminate P; split; discriminate.
  - revert a l v Tk M F. induction t as [b|b x IH|b x IH|b x IH|o b t1 IHl t2 IHr|q d x IHx y IHy z IHz]; intros a l v Tk M F; cbn [flatten tokens_of meaning] in *.
    + injection F as <- _. destruct (nth_error h b) as [c|] eqn:H; [|discriminate]. exists c. split; [auto|]. unfold constant in M. destruct (c_type c); try discriminate M; split; discriminate.
    + injection F as <- _. destruct Tk as ((c & H & T & _) & _). exists c. rewrite T. split; [auto|split; discriminate].
    + discriminate.
    + injection F as <- _. destruct Tk as ((c & H & T) & _). exists c. rewrite T. split; [auto|split; discriminate].
    + destruct (meaning h t1) eqn:M1; [|discriminate]. destruct (flatten_cons t1) as (a' & l' & E). rewrite E in F. cbn in F. injection F as <- _. destruct Tk as (_ & T1 & _). eauto.
    + destruct (meaning h x) eqn:M1; [|discriminate]. destruct (flatten_cons x) as (a' & l' & E). rewrite E in F. cbn in F. injection F as <- _. destruct Tk as (_ & _ & T1 & _). eauto.
Qed.
Lemma row_spaced h fo fl : flag_ok h fl -> forall es, Forall (entry_ok h fo) es -> spaced h (row es ++ fl) (row_tokens es ++ fl).
Proof.
  intros Fl. induction es as [|e es IH]; intros A.
  - cbn. destruct Fl as [->|(a & c & -> & H & T)]; [constructor|]. eapply spaced_token; [exact H|congruence|constructor].
  - inversion A as [|? ? E A']; subst. unfold row, row_tokens in *. cbn [flat_map]. rewrite <- !app_assoc. destruct E as (Sp & _ & _ & _ & _ & _ & G). apply spaced_app; [auto|].
    destruct G as [->|(w & -> & c & Hw & Tw)]; [exact (IH A')|]. cbn [app]. eapply spaced_ws; eauto.
Qed.
Lemma row_leading h fo fl : flag_ok h fl -> forall es, Forall (entry_ok h fo) es -> no_leading_space h (row es ++ fl).
Proof.
  intros Fl [|e es] A.
  - cbn. destruct Fl as [->|(a & c & -> & H & T)]; [exact I|]. cbn. intros d Hd. congruence.
  - inversion A as [|? ? E A']; subst. unfold row. cbn [flat_map]. destruct E as (Sp & Ls & _). destruct (flatten_cons (e_tree e)) as (b & l & F). rewrite F in Sp.
    destruct (e_nodes e) as [|x r]; [inversion Sp|]. exact Ls.
Qed.
Lemma find_at x front : ~ In x front -> find_child x (front ++ [x]) = Some (length front).
Proof.
  induction front as [|y l IH]; cbn; intro N.
  - now rewrite Nat.eqb_refl.
  - destruct (Nat.eqb_spec x y) as [->|Ne]; [tauto|]. rewrite IH by tauto. reflexivity.
Qed.
Lemma in_results h fo x : forall es rs, Forall (entry_ok h fo) es -> In x (results es rs) -> In x rs \/ is_space_node h x.
Proof.
  induction es as [|e es IH]; intros rs A I; [destruct I|]. destruct rs as [|r rs]; [destruct I|]. inversion A as [|? ? E A']; subst. cbn [results] in I.
  destruct I as [<-|I]; [left; now left|]. apply in_app_or in I. destruct I as [I|I].
  - right. destruct E as (_ & _ & _ & _ & _ & _ & [G|(w & G & W)]); rewrite G in I; [destruct I|]. destruct I as [<-|[]]. exact W.
  - destruct (IH rs A' I); [left; now right|now right].
Qed.
Definition holds_values (h h' : heap) (es : list entry) (rs : list addr) : Prop :=
  Forall2 (fun e r => exists d, nth_error h' r = Some d /\ stands_for h (e_tree e) r d) es rs.

Section Loop.
  Variables (lm : libm) (fn : functions) (F : nat) (fo : bool) (fl : list addr) (parent : addr) (kp : cell).
  Hypothesis Tp : operand_type (c_type kp) = false.
  Theorem loop_run : forall es front s c f,
    nth_error (e_heap s) (e_node s) = Some c -> c_type c = ARG -> c_ch c = front ++ row es ++ fl ->
    e_start s = Z.of_nat (length front) -> reads s (row_tokens es ++ fl) -> e_vars s = [] -> e_font s = fo ->
    Forall (entry_ok (e_heap s) fo) es -> chained (e_heap s) es fl -> flag_ok (e_heap s) fl -> (es <> [] \/ fl <> []) ->
    (forall x, In x front -> exists d, nth_error (e_heap s) x = Some d /\ c_type d <> EXCLAMATION) ->
    nth_error (e_heap s) parent = Some kp -> parent <> e_node s ->
    Forall (fun e => (tree_size (e_tree e) < F)%nat) es -> (length es < f)%nat ->
    exists rs s', list_loop f (conditional lm fn F) parent s = Ret tt s'
      /\ holds_values (e_heap s) (e_heap s') es rs
      /\ nth_error (e_heap s') (e_node s) = Some (with_ch c (front ++ results es rs))
      /\ nth_error (e_heap s') parent = Some (flagged (e_heap s) fl kp)
      /\ (forall a k, a <> e_node s -> a <> parent -> nth_error (e_heap s) a = Some k -> nth_error (e_heap s') a = Some k)
      /\ e_msgs s' = e_msgs s.
  Proof.
    induction es as [|e es IH]; intros front s c f Hn Tc Ec Es R V Fo A Ch Fl Ne Fr Hp Np Sz Lf; (destruct f as [|f]; [cbn in Lf; lia|]).
    - (* the flag *)
      cbn [row row_tokens flat_map app] in *. destruct Ne as [Ne|Ne]; [congruence|]. destruct Fl as [->|(a & k & -> & Ha & Ta)]; [congruence|].
      destruct R as (Cu & _ & B & _). destruct B as (c' & p & Hc' & _ & Ep & Lp & Sp & Ld). assert (c' = c) by congruence. subst c'.
      assert (Pp : p = length (c_ch c)). { assert (skipn p (c_ch c) = []). { inversion Sp as [|x d l ts' Hd Td Sp'|]; subst; [reflexivity|]. rewrite <- H in Ld. exfalso. exact (Ld _ Hd Td). } apply skipn_none in H. lia. }
      assert (Hch : has_children (c_type c) = true) by (rewrite Tc; reflexivity).
      assert (Na : a <> e_node s) by (intro Q; rewrite Q in Ha; congruence). assert (Nap : a <> parent) by (intro Q; rewrite Q in Ha; assert (Q2 : k = kp) by congruence; rewrite <- Q2, Ta in Tp; discriminate Tp).
      cbn [list_loop]. rewrite (b_ret _ _ _ _ _ (run_cur_is s a k _ Cu Ha)), Ta. change (ntype_eqb EXCLAMATION EXCLAMATION) with true. cbv iota.
      set (h1 := put (e_heap s) (e_node s) (with_ch c front)).
      set (kp' := with_flags kp (if flag_mem (c_str k) (c_flags kp) then c_flags kp else c_flags kp ++ [c_str k])).
      assert (Tk : take_flag parent s = Ret tt (mkE (put h1 parent kp') (e_msgs s) (e_node s) (Z.of_nat (length front)) (e_start s) (e_cur s) (e_vars s) (e_font s))).
      { unfold take_flag. erewrite b_ret; [|unfold cur; rewrite Cu; reflexivity]. rewrite (b_ret _ _ _ _ _ (run_end s c Hn Hch)). rewrite Ep, Pp, Z.leb_refl. cbv iota. erewrite b_ret; [|reflexivity].
        assert (E1 : (fun s => lift (remove_child (e_node s) a) s) s = Ret tt (with_heap s h1)).
        { unfold lift, remove_child, NodeHeap.bind, load, supports. rewrite Hn, Hch. unfold NodeHeap.ret, store. rewrite Ec, find_at.
          - unfold h1, list_erase. rewrite firstn_app, firstn_all, Nat.sub_diag. cbn [firstn]. rewrite skipn_app, skipn_all2 by lia. replace (Datatypes.S (length front) - length front)%nat with 1%nat by lia. cbn [skipn]. now rewrite !app_nil_r.
          - intro I. destruct (Fr a I) as (d & Hd & Td). congruence. }
        rewrite (b_ret _ _ _ _ _ E1). erewrite b_ret; [|reflexivity]. cbn [e_pos with_heap]. rewrite Ep, Pp.
        assert (Ll : length (c_ch c) = Datatypes.S (length front)) by (rewrite Ec, app_length; cbn; lia). rewrite Ll. replace (0 <? Z.of_nat (Datatypes.S (length front))) with true by lia.
        erewrite b_ret; [|reflexivity]. replace (Z.of_nat (Datatypes.S (length front)) - 1) with (Z.of_nat (length front)) by lia.
        unfold with_pos. cbn [with_heap e_heap e_msgs e_node e_pos e_start e_cur e_vars e_font].
        assert (Ha1 : nth_error h1 a = Some k) by (unfold h1; rewrite put_other; auto).
        erewrite b_ret; [|eapply run_string; [exact Ha1|rewrite Ta; reflexivity]].
        unfold lift, set_flag, NodeHeap.bind, load. cbn [e_heap]. assert (Hp1 : nth_error h1 parent = Some kp) by (unfold h1; rewrite put_other; auto). rewrite Hp1. unfold store. reflexivity. }
      rewrite (b_ret _ _ _ _ _ Tk).
      assert (Hn2 : nth_error (put h1 parent kp') (e_node s) = Some (with_ch c front)) by (rewrite put_other by auto; unfold h1; apply put_same; now apply nth_lt in Hn).
      erewrite b_ret; [|eapply run_end; [exact Hn2|exact Hch]]. cbn [e_pos c_ch with_ch]. rewrite Z.leb_refl.
      exists []. eexists. split; [reflexivity|]. cbn [e_heap e_msgs results]. split; [constructor|]. split; [rewrite app_nil_r; exact Hn2|].
      split; [cbn [flagged]; rewrite Ha; apply put_same; unfold h1; rewrite put_length; now apply nth_lt in Hp|].
      split; [intros b d Nb Nb2 Hb; rewrite put_other by auto; unfold h1; rewrite put_other; auto|reflexivity].
    - (* an expression *)
      inversion A as [|? ? Ee A']; subst. inversion Sz as [|? ? Sze Sz']; subst. destruct Ch as (En & Lg & Ch').
      pose proof Ee as (Spe & Lee & Lre & Tke & Pre & Sie & Gpe).
      assert (Hch : has_children (c_type c) = true) by (rewrite Tc; reflexivity).
      set (rest := row_tokens es ++ fl) in *. assert (Rw : row_tokens (e :: es) ++ fl = flatten (e_tree e) ++ rest) by (unfold row_tokens, rest; cbn [flat_map]; now rewrite <- app_assoc).
      rewrite Rw in R. set (more := row es ++ fl). assert (Ec' : c_ch c = front ++ e_nodes e ++ e_gap e ++ more) by (rewrite Ec; unfold row, more; cbn [flat_map]; now rewrite <- !app_assoc).
      destruct (flatten_cons (e_tree e)) as (a1 & l1 & Fe). destruct (first_token _ _ _ _ _ Tke Sie Fe) as (k1 & Hk1 & Tk1 & Tk1').
      assert (Cu : e_cur s = Some a1) by (rewrite Fe in R; cbn [app reads] in R; apply R).
      cbn [list_loop]. rewrite (b_ret _ _ _ _ _ (run_cur_is s a1 k1 _ Cu Hk1)). rewrite (proj2 (ntype_eqb_neq _ _) Tk1). cbv iota.
      assert (Vo : vars_ok s) by (intros n v; rewrite V; discriminate).
      destruct (simple_value lm (e_font s) (e_tree e) s rest) as (r & s1 & d & Ev & Hr & Sd & K1 & M1); auto.
      destruct (value_reads lm (e_tree e) false s rest r s1) as (R1 & G1 & _); auto; [discriminate|].
      assert (Ec1 : conditional lm fn F s = Ret (Some r) s1) by (rewrite (conditional_value lm fn F (e_tree e) s rest); auto; congruence).
      pose proof (stands_type _ _ _ _ Sd) as Td. pose proof G1 as (Nr1 & En1 & Es1 & Ev1 & Ef1).
      assert (Hn1 : nth_error (e_heap s1) (e_node s1) = Some c) by (rewrite En1; apply K1; exact Hn).
      assert (Sm : spaced (e_heap s) more rest) by (eapply row_spaced; eauto).
      assert (Lm : no_leading_space (e_heap s) more) by (eapply row_leading; eauto).
      assert (Rn : rest = [] -> e_gap e = [] /\ more = []).
      { intro Q. assert (es = [] /\ fl = []) as (-> & ->). { unfold rest in Q. apply app_eq_nil in Q. destruct Q as (Q & ->). split; [|auto]. destruct es as [|e2 es2]; [auto|].
          unfold row_tokens in Q. cbn [flat_map] in Q. destruct (flatten_cons (e_tree e2)) as (b & l2 & Q2). rewrite Q2 in Q. discriminate. }
        split; [now apply Lg|reflexivity]. }
      assert (Rep : replace_with_result (Some r) s1 = Ret (Some r) (mkE (put (e_heap s1) (e_node s1) (with_ch c (front ++ r :: e_gap e ++ more))) (e_msgs s1) (e_node s1) (Z.of_nat (Datatypes.S (length front))) (Z.of_nat (Datatypes.S (length front))) (e_cur s1) (e_vars s1) (e_font s1))).
      { eapply (replace_at s1 rest r d c front (e_nodes e) (flatten (e_tree e)) (e_gap e) more); auto.
        - congruence.
        - eapply spaced_goes; eauto.
        - intros Q. rewrite Q in Spe. rewrite Fe in Spe. inversion Spe.
        - destruct (rev (e_nodes e)) as [|x l] eqn:Q; [exact I|]. intros dx Hx. cbn in Lre. assert (I : In x (e_nodes e)) by (apply in_rev; rewrite Q; now left).
          destruct (find_space _ _ _ x Spe I) as (d0 & H0). pose proof (K1 x d0 H0) as H1. unfold node_at in H1. assert (dx = d0) by congruence. subst. now apply Lre.
        - destruct Gpe as [G|(w & G & cw & Hw & Tw)]; [now left|]. right. exists w. split; [auto|]. exists cw. split; [apply K1; exact Hw|auto].
        - eapply spaced_goes; eauto.
        - eapply leading_goes; eauto.
        - intro Q. rewrite Q in Td. discriminate.
        - intro Q. rewrite Q in Td. discriminate.
        - destruct rest as [|a2 rest2] eqn:Q; [exact I|]. intros d2 Hd2. assert (H2 : exists k2, nth_error (e_heap s) a2 = Some k2 /\ c_type k2 <> EOF_TOKEN).
          { destruct es as [|e2 es2]; unfold rest, row_tokens in Q; cbn [flat_map app] in Q.
            - subst fl. destruct Fl as [Fl|(a3 & k3 & Fl & H3 & T3)]; [discriminate|]. injection Fl as -> ->. exists k3. split; [auto|congruence].
            - inversion A' as [|? ? E2 _]; subst. destruct E2 as (_ & _ & _ & Tk2 & _ & Si2 & _). destruct (flatten_cons (e_tree e2)) as (b & l2 & Q2). rewrite Q2 in Q. cbn in Q. injection Q as <- _.
              destruct (first_token _ _ _ _ _ Tk2 Si2 Q2) as (k2 & H2 & _ & T2). eauto. }
          destruct H2 as (k2 & H2 & T2). pose proof (K1 _ _ H2) as H3. unfold node_at in H3. assert (d2 = k2) by congruence. congruence. }
      assert (Step : (r <- conditional lm fn F ;; replace_with_result r ;;; ret tt) s = Ret tt (mkE (put (e_heap s1) (e_node s1) (with_ch c (front ++ r :: e_gap e ++ more))) (e_msgs s1) (e_node s1) (Z.of_nat (Datatypes.S (length front))) (Z.of_nat (Datatypes.S (length front))) (e_cur s1) (e_vars s1) (e_font s1))).
      { rewrite (b_ret _ _ _ _ _ Ec1), (b_ret _ _ _ _ _ Rep). reflexivity. }
      rewrite (b_ret _ _ _ _ _ Step). clear Step Rep Ec1. rewrite En1. set (h2 := put (e_heap s1) (e_node s) (with_ch c (front ++ r :: e_gap e ++ more))).
      set (c2 := with_ch c (front ++ r :: e_gap e ++ more)) in *.
      assert (Hn2 : nth_error h2 (e_node s) = Some c2) by (unfold h2; apply put_same; rewrite <- En1; now apply nth_lt in Hn1).
      assert (Lk : like (e_node s) (e_heap s) h2).
      { split; [|exists c, c2; rewrite Tc; auto]. intros a k Na Ha. unfold h2. rewrite put_other by auto. apply K1. exact Ha. }
      assert (Nrn : r <> e_node s) by (intros ->; unfold node_at in Hr; assert (d = c) by (rewrite En1 in Hn1; congruence); subst d; rewrite Tc in Td; discriminate).
      assert (Hr2 : nth_error h2 r = Some d) by (unfold h2; rewrite put_other by auto; exact Hr).
      assert (Hp2 : nth_error h2 parent = Some kp) by (unfold h2; rewrite put_other by auto; apply K1; exact Hp).
      assert (Nrp : r <> parent) by (intro Q; rewrite Q in Hr2; assert (Q2 : d = kp) by congruence; rewrite <- Q2 in Tp; unfold value_type in Td; destruct (c_type d); discriminate).
      erewrite b_ret; [|eapply run_end; [exact Hn2|exact Hch]]. cbn [e_pos c_ch with_ch c2].
      destruct rest as [|a2 rest2] eqn:Qr.
      + (* the end *)
        destruct (Rn eq_refl) as (Eg & Em). rewrite Eg, Em. cbn [app length]. rewrite app_length. cbn [length]. replace (Z.of_nat (length front + 1) <=? Z.of_nat (Datatypes.S (length front))) with true by lia. cbv iota.
        assert (es = [] /\ fl = []) as (-> & ->). { unfold rest in Qr. apply app_eq_nil in Qr. destruct Qr as (Q & ->). split; [|auto]. destruct es as [|e2 es2]; [auto|].
          unfold row_tokens in Q. cbn [flat_map] in Q. destruct (flatten_cons (e_tree e2)) as (b & l2 & Q2). rewrite Q2 in Q. discriminate. }
        exists [r]. eexists. split; [reflexivity|]. cbn [e_heap e_msgs results flagged]. split; [constructor; [exists d; auto|constructor]|].
        split; [rewrite Hn2; unfold c2; rewrite Eg, Em; reflexivity|]. split; [exact Hp2|]. split; [|exact M1]. intros a k Na _ Ha. unfold h2. rewrite put_other by auto. apply K1. exact Ha.
      + (* more to read *)
        assert (Nm : more <> []) by (intro Q; rewrite Q in Sm; inversion Sm).
        assert (Ll : (Datatypes.S (length front) + length (e_gap e) < length (front ++ r :: e_gap e ++ more))%nat).
        { rewrite app_length. cbn [length]. rewrite app_length. destruct more; [congruence|cbn [length]; lia]. }
        replace (Z.of_nat (length (front ++ r :: e_gap e ++ more)) <=? Z.of_nat (Datatypes.S (length front))) with false by lia. cbv iota.
        assert (Sk : skipn (Datatypes.S (length front)) (c_ch c2) = e_gap e ++ more).
        { unfold c2. cbn [c_ch with_ch]. rewrite skipn_app, skipn_all2 by lia. replace (Datatypes.S (length front) - length front)%nat with 1%nat by lia. reflexivity. }
        assert (Sm2 : spaced h2 more (a2 :: rest2)) by (eapply like_spaced; eauto).
        assert (Lm2 : no_leading_space h2 more) by (eapply like_leading; eauto).
        assert (Go : forall s3, before s3 (a2 :: rest2) -> (exists x y, e_cur s3 = Some x /\ nth_error (e_heap s3) x = Some y) -> e_heap s3 = h2 -> e_node s3 = e_node s -> e_start s3 = Z.of_nat (length (front ++ r :: e_gap e)) ->
            e_vars s3 = [] -> e_font s3 = e_font s -> e_msgs s3 = e_msgs s ->
            exists rs s', (next ;;; list_loop f (conditional lm fn F) parent) s3 = Ret tt s'
              /\ holds_values (e_heap s) (e_heap s') es rs
              /\ nth_error (e_heap s') (e_node s) = Some (with_ch c ((front ++ r :: e_gap e) ++ results es rs))
              /\ nth_error (e_heap s') parent = Some (flagged (e_heap s) fl kp)
              /\ (forall a k, a <> e_node s -> a <> parent -> nth_error h2 a = Some k -> nth_error (e_heap s') a = Some k)
              /\ e_msgs s' = e_msgs s).
        { intros s3 B3 C3 Eh3 En3 Es3 Ev3 Ef3 Em3. destruct (run_next s3 (a2 :: rest2) B3 (or_intror C3)) as (s4 & N4 & R4 & G4 & M4).
          rewrite (b_ret _ _ _ _ _ N4). pose proof (goes_keeps _ _ G4) as K4. pose proof G4 as (_ & En4 & Es4 & Ev4 & Ef4).
          assert (K24 : forall a k, nth_error h2 a = Some k -> nth_error (e_heap s4) a = Some k) by (intros a k Ha; apply K4; unfold node_at; rewrite Eh3; exact Ha).
          assert (Lk4 : like (e_node s) (e_heap s) (e_heap s4)).
          { split; [intros a k Na Ha; apply K24; apply (proj1 Lk); auto|]. exists c, c2. split; [auto|]. split; [rewrite Tc; reflexivity|]. split; [apply K24; exact Hn2|reflexivity]. }
          destruct (IH (front ++ r :: e_gap e) s4 c2 f) as (rs & s' & E5 & V5 & H5 & P5 & K5 & M5).
          - rewrite En4, En3. apply K24. exact Hn2.
          - exact Tc.
          - unfold c2, more. cbn [c_ch with_ch]. rewrite <- app_assoc. reflexivity.
          - congruence.
          - first [exact R4 | fold rest; rewrite Qr; exact R4 | idtac].
          - congruence.
          - congruence.
          - rewrite Forall_forall in *. intros e0 I0. eapply like_entry; eauto.
          - eapply like_chained; eauto.
          - destruct Fl as [Fl|(a3 & k3 & Fl & H3 & T3)]; [now left|]. right. exists a3, k3. split; [auto|]. split; [|auto]. eapply like_at; eauto; rewrite T3; reflexivity.
          - destruct es; [|left; discriminate]. right. unfold rest in Qr. cbn in Qr. rewrite Qr. discriminate.
          - intros x I. apply in_app_or in I. destruct I as [I|[<-|I]].
            + destruct (Fr x I) as (dx & Hx & Tx). destruct (like_type _ _ _ _ _ Lk4 Hx) as (dx' & Hx' & Tx'). exists dx'. split; [auto|congruence].
            + exists d. split; [apply K24; exact Hr2|]. intro Q. rewrite Q in Td. discriminate.
            + destruct Gpe as [G|(w & G & cw & Hw & Tw)]; rewrite G in I; [destruct I|]. destruct I as [<-|[]]. destruct (like_type _ _ _ _ _ Lk4 Hw) as (dx' & Hx' & Tx'). exists dx'. split; [auto|congruence].
          - apply K24. exact Hp2.
          - congruence.
          - exact Sz'.
          - cbn [length] in Lf. lia.
          - exists rs, s'. split; [exact E5|]. split.
            { clear - V5 A' Lk4. unfold holds_values in *. revert V5. induction 1 as [|e0 r0 es0 rs0 (dd & Hd & Sd) V5 IHv]; [constructor|]. inversion A' as [|? ? E0 A0]; subst. constructor; [|auto].
              exists dd. split; [auto|]. eapply like_stands; eauto. apply E0. }
            split; [rewrite En4, En3 in H5; exact H5|]. split.
            { rewrite P5. f_equal. unfold flagged. destruct Fl as [->|(a3 & k3 & -> & H3 & T3)]; [reflexivity|]. rewrite H3. rewrite (like_at _ _ _ _ _ Lk4 H3) by (rewrite T3; reflexivity). reflexivity. }
            split; [|congruence]. intros a k Na Nb Ha. apply K5; [congruence|auto|]. apply K24. exact Ha. }
        assert (Res : forall rs s', holds_values (e_heap s) (e_heap s') es rs -> nth_error (e_heap s') (e_node s) = Some (with_ch c ((front ++ r :: e_gap e) ++ results es rs)) ->
            nth_error (e_heap s') parent = Some (flagged (e_heap s) fl kp) -> (forall a k, a <> e_node s -> a <> parent -> nth_error h2 a = Some k -> nth_error (e_heap s') a = Some k) -> e_msgs s' = e_msgs s ->
            holds_values (e_heap s) (e_heap s') (e :: es) (r :: rs) /\ nth_error (e_heap s') (e_node s) = Some (with_ch c (front ++ results (e :: es) (r :: rs)))
            /\ nth_error (e_heap s') parent = Some (flagged (e_heap s) fl kp) /\ (forall a k, a <> e_node s -> a <> parent -> nth_error (e_heap s) a = Some k -> nth_error (e_heap s') a = Some k) /\ e_msgs s' = e_msgs s).
        { intros rs s' X1 X2 X3 X4 X5. split; [constructor; [exists d; split; [apply X4; auto|auto]|auto]|]. split; [rewrite X2; cbn [results]; rewrite <- app_assoc; reflexivity|]. split; [auto|]. split; [|auto].
          intros a k Na Nb Ha. apply X4; auto. apply (proj1 Lk); auto. }
        destruct (reads_cur _ _ R1) as (x1 & y1 & Cx & Hx1). destruct (like_type (e_node s) (e_heap s1) h2 x1 y1) as (y1' & Hx2 & _); [split; [intros a k Na Ha; unfold h2; rewrite put_other; auto|exists c, c2; rewrite <- En1 at 1; rewrite Tc; auto]|exact Hx1|].
        destruct Gpe as [Eg|(w & Eg & cw & Hw & Tw)].
        * (* no space *)
          set (s2 := mkE h2 (e_msgs s1) (e_node s) (Z.of_nat (Datatypes.S (length front))) (Z.of_nat (Datatypes.S (length front))) (e_cur s1) (e_vars s1) (e_font s1)).
          rewrite Eg in Sk. cbn [app] in Sk.
          assert (B2 : before s2 (a2 :: rest2)).
          { exists c2, (Datatypes.S (length front)). cbn [s2 e_heap e_node e_pos]. split; [exact Hn2|]. split; [exact Hch|]. split; [reflexivity|]. split; [unfold c2; cbn [c_ch with_ch]; lia|]. rewrite Sk. auto. }
          destruct (run_next s2 (a2 :: rest2) B2) as (s4 & N4 & R4 & G4 & M4); [right; exists x1, y1'; cbn [s2 e_cur e_heap]; auto|].
          destruct (Go s2 B2) as (rs & s' & E5 & X); [exists x1, y1'; cbn [s2 e_cur e_heap]; auto|reflexivity|reflexivity|cbn [s2 e_start]; rewrite Eg, app_length; cbn [length]; f_equal; lia|cbn [s2 e_vars]; congruence|cbn [s2 e_font]; congruence|cbn [s2 e_msgs]; congruence|].
          rewrite (b_ret _ _ _ _ _ N4) in E5. rewrite (b_ret _ _ _ _ _ N4).
          assert (C4 : e_cur s4 = Some a2) by (apply R4). destruct (find_space _ _ _ a2 Sm) as (k2 & H2). { rewrite (spaced_filter _ _ _ Sm) in Qr. assert (In a2 (a2 :: rest2)) by now left. rewrite (spaced_filter _ _ _ Sm) in H. apply filter_In in H. tauto. }
          destruct (like_type _ _ _ _ _ Lk H2) as (k2' & H2' & T2'). pose proof (goes_keeps _ _ G4 _ _ H2') as H4. unfold node_at in H4.
          rewrite (b_ret _ _ _ _ _ (run_cur_is s4 a2 k2' _ C4 H4)).
          assert (Tk2 : c_type k2' <> WHITESPACE). { assert (T : In a2 (filter (is_token (e_heap s)) more)) by (rewrite <- (spaced_filter _ _ _ Sm); now left). apply filter_In in T. destruct T as (_ & T). unfold is_token in T. rewrite H2 in T. apply negb_true_iff in T. apply ntype_eqb_neq in T. congruence. }
          rewrite (proj2 (ntype_eqb_neq _ _) Tk2). cbv iota. exists (r :: rs), s'. split; [exact E5|]. destruct X as (X1 & X2 & X3 & X4 & X5). apply Res; auto.
        * (* a space *)
          rewrite Eg in Sk. cbn [app] in Sk. destruct (like_type _ _ _ _ _ Lk Hw) as (cw' & Hw' & Tw').
          assert (Sk2 : skipn (Datatypes.S (Datatypes.S (length front))) (c_ch c2) = more) by (apply skipn_nth in Sk; apply Sk).
          erewrite b_ret. 2:{ eapply (next_space _ c2 (Datatypes.S (length front)) w more); cbn [e_heap e_node e_pos]; [exact Hn2|exact Hch|reflexivity|exact Sk|eauto|exact Lm2]. }
          cbn [e_heap e_msgs e_node e_pos e_start e_cur e_vars e_font].
          erewrite b_ret; [|eapply run_cur_is; [reflexivity|exact Hw']]. rewrite Tw', Tw. change (ntype_eqb WHITESPACE WHITESPACE) with true. cbv iota.
          erewrite b_ret; [|eapply run_end; [exact Hn2|exact Hch]]. cbn [e_pos]. rewrite Eg in Ll. cbn [length] in Ll.
          replace (Z.of_nat (length (c_ch c2)) <=? Z.of_nat (Datatypes.S (Datatypes.S (length front)))) with false by (unfold c2; cbn [c_ch with_ch]; rewrite Eg; lia). cbv iota.
          erewrite b_ret; [|reflexivity]. unfold with_start. cbn [e_heap e_msgs e_node e_pos e_start e_cur e_vars e_font].
          match goal with |- exists rs s', ?m ?st = _ /\ _ => destruct (Go st) as (rs & s' & E5 & X1 & X2 & X3 & X4 & X5) end.
          { exists c2, (Datatypes.S (Datatypes.S (length front))). cbn [e_heap e_node e_pos]. split; [exact Hn2|]. split; [exact Hch|]. split; [reflexivity|]. split; [unfold c2; cbn [c_ch with_ch]; rewrite Eg; lia|]. rewrite Sk2. auto. }
          { exists w, cw'. cbn [e_cur e_heap]. auto. }
          { reflexivity. } { reflexivity. } { cbn [e_start]. rewrite Eg, app_length. cbn [length]. f_equal. lia. } { cbn [e_vars]. congruence. } { cbn [e_font]. congruence. } { cbn [e_msgs]. congruence. }
          exists (r :: rs), s'. split; [exact E5|]. apply Res; auto.
  Qed.
End Loop.
