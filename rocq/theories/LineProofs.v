(** * Line counting of the lexer *)

From Coq Require Import String ZArith List Bool Lia Arith ZifyBool.
From Verif Require Import Base Utf8 Utf8Spec UnicodeRange Lexer Utf8Proofs LexerWp.
Import ListNotations.
Open Scope Z_scope.

Ltac Zify.zify_post_hook ::= idtac.

Lemma nosplit_tail x a b : a <> [] -> no_crlf_split (x :: a) b -> no_crlf_split a b.
Proof.
  intros Hne H (a' & b' & -> & ->). apply H. exists (x :: a'), b'. auto.
Qed.

Lemma nosplit_single x y b : no_crlf_split [x] (y :: b) -> x = 13 -> y <> 10.
Proof. intros H -> ->. apply H. exists [], b. auto. Qed.

Lemma terminators_cons2 x y r : terminators (x :: y :: r) =
  if x =? 10 then 1 + terminators (y :: r)
  else if x =? 13 then if y =? 10 then terminators (y :: r) else 1 + terminators (y :: r)
  else terminators (y :: r).
Proof. reflexivity. Qed.

Lemma terminators_app a b : no_crlf_split a b -> terminators (a ++ b) = terminators a + terminators b.
Proof.
  induction a as [|x a IH]; intro H; [reflexivity|].
  destruct a as [|y a].
  - cbn [app terminators]. destruct (x =? 10) eqn:E1; [lia|].
    destruct (x =? 13) eqn:E2; [|lia]. destruct b as [|z b]; [reflexivity|].
    pose proof (nosplit_single x z b H ltac:(lia)). destruct (z =? 10) eqn:E3; lia.
  - specialize (IH (nosplit_tail x (y :: a) b ltac:(discriminate) H)).
    change ((x :: y :: a) ++ b) with (x :: y :: (a ++ b)).
    rewrite !terminators_cons2. change ((y :: a) ++ b) with (y :: (a ++ b)) in IH. rewrite IH.
    destruct (x =? 10); [lia|]. destruct (x =? 13); [|lia].
    destruct (y =? 10); lia.
Qed.

Lemma form_feeds_app a b : form_feeds (a ++ b) = form_feeds a + form_feeds b.
Proof. induction a; cbn [app form_feeds]; lia. Qed.

Lemma since_cons x l : since_form_feed (x :: l) =
  match since_form_feed l with
  | Some n => Some n
  | None => if x =? 12 then Some (terminators l) else None
  end.
Proof. reflexivity. Qed.

Lemma since_app a b : no_crlf_split a b ->
  since_form_feed (a ++ b) =
  match since_form_feed b with
  | Some n => Some n
  | None => match since_form_feed a with Some n => Some (n + terminators b) | None => None end
  end.
Proof.
  induction a as [|x a IH]; intro H; [cbn; now destruct (since_form_feed b)|].
  destruct a as [|y a].
  - cbn [app since_form_feed]. destruct (since_form_feed b); [reflexivity|].
    destruct (x =? 12); reflexivity.
  - pose proof (nosplit_tail x (y :: a) b ltac:(discriminate) H) as H'. specialize (IH H').
    change ((x :: y :: a) ++ b) with (x :: ((y :: a) ++ b)).
    rewrite (since_cons x ((y :: a) ++ b)), IH, (since_cons x (y :: a)).
    destruct (since_form_feed b); [reflexivity|].
    destruct (since_form_feed (y :: a)); [reflexivity|].
    destruct (x =? 12); [|reflexivity].
    now rewrite (terminators_app (y :: a) b H').
Qed.

Definition counted (p : position) (text : list Z) (q : position) : Prop :=
  p_page q = page_after (p_page p) text
  /\ p_line q = line_after (p_line p) text
  /\ p_total q = total_after (p_total p) text.

Lemma counted_nil p : counted p [] p.
Proof. unfold counted, page_after, line_after, total_after. cbn. lia. Qed.

Lemma counted_app p a q b r : no_crlf_split a b ->
  counted p a q -> counted q b r -> counted p (a ++ b) r.
Proof.
  unfold counted, page_after, line_after, total_after.
  intros H (H1 & H2 & H3) (K1 & K2 & K3). rewrite form_feeds_app, terminators_app, since_app by assumption.
  repeat split; [lia| |lia].
  rewrite K2. destruct (since_form_feed b); [reflexivity|].
  rewrite H2. destruct (since_form_feed a); lia.
Qed.

Definition eaten (s s' : lexst) : Prop :=
  exists p, l_in s = p ++ l_in s' /\ no_crlf_split p (l_in s') /\ counted (l_pos s) p (l_pos s').

Lemma nosplit_nil b : no_crlf_split [] b.
Proof. intros (a' & b' & E & _). now destruct a'. Qed.

Lemma eaten_same s s' : l_in s' = l_in s -> l_pos s' = l_pos s -> eaten s s'.
Proof.
  intros E1 E2. exists []. rewrite E1, E2. repeat split; try apply nosplit_nil; apply counted_nil.
Qed.

Lemma nosplit_app a b c : no_crlf_split a (b ++ c) -> no_crlf_split b c -> no_crlf_split (a ++ b) c.
Proof.
  intros H1 H2 (a' & b' & E & ->). destruct b as [|y b] using rev_ind.
  - rewrite app_nil_r in E. apply H1. exists a', b'. auto.
  - rewrite app_assoc in E. apply app_inj_tail in E. destruct E as [_ ->].
    apply H2. exists b, b'. auto.
Qed.

Lemma nosplit_prefix a b c : no_crlf_split a (b ++ c) -> no_crlf_split a b.
Proof.
  intros H (a' & b' & E & ->). apply H. exists a', (b' ++ c). split; [exact E|reflexivity].
Qed.

Lemma eaten_trans a b c : eaten a b -> eaten b c -> eaten a c.
Proof.
  intros (p & P1 & P2 & P3) (q & Q1 & Q2 & Q3). exists (p ++ q).
  rewrite P1, Q1, app_assoc. split; [reflexivity|].
  rewrite Q1 in P2. split; [now apply nosplit_app|].
  eapply counted_app; [eapply nosplit_prefix; exact P2|exact P3|exact Q3].
Qed.

(** Bytes of a multi-byte character are not line terminators. *)
Lemma plain_counted bs : Forall (fun b => b <> 10 /\ b <> 13 /\ b <> 12) bs ->
  terminators bs = 0 /\ form_feeds bs = 0 /\ since_form_feed bs = None.
Proof.
  induction bs as [|b bs IH]; intro H; [auto|].
  inversion H as [|? ? (H1 & H2 & H3) H4]; subst. destruct (IH H4) as (I1 & I2 & I3).
  cbn [terminators form_feeds since_form_feed]. rewrite I1, I2, I3.
  replace (b =? 10) with false by lia. replace (b =? 13) with false by lia.
  replace (b =? 12) with false by lia. auto.
Qed.

Lemma utf8_plain c : 0 <= c < 1114112 -> c <> 10 -> c <> 13 -> c <> 12 ->
  Forall (fun b => b <> 10 /\ b <> 13 /\ b <> 12) (utf8 c).
Proof.
  intros Hc H1 H2 H3. destruct (Z.lt_ge_cases c 128) as [L|G].
  - rewrite utf8_ascii by lia. constructor; [lia|constructor].
  - destruct (utf8_shape c) as (b & mb & E & Hb & Hmb & _); [lia|]. rewrite E.
    constructor; [lia|]. apply Forall_forall. intros x Hx.
    rewrite forallb_forall in Hmb. specialize (Hmb x Hx). unfold is_follow in Hmb. lia.
Qed.

Ltac cnt :=
  unfold counted, page_after, line_after, total_after;
  cbn [l_pos l_in next_line next_page p_page p_line p_total];
  change (terminators [13]) with 1; change (form_feeds [13]) with 0; change (since_form_feed [13]) with (@None Z);
  change (terminators [13; 10]) with 1; change (form_feeds [13; 10]) with 0; change (since_form_feed [13; 10]) with (@None Z);
  change (terminators [10]) with 1; change (form_feeds [10]) with 0; change (since_form_feed [10]) with (@None Z);
  change (terminators [12]) with 0; change (form_feeds [12]) with 1; change (since_form_feed [12]) with (Some 0);
  cbv iota; lia.

Lemma eaten_getc s c s' : valid true s -> getc s = Ret c s' -> eaten s s'.
Proof.
  intros (Hb & Hu & Hc) E.
  destruct (l_unget s) as [|u us] eqn:Eu.
  2:{ unfold getc in E. rewrite Eu in E. unfold bind, set_unget, ret in E.
      destruct (u =? 0); injection E as _ <-; now apply eaten_same. }
  destruct (l_in s) as [|b rest] eqn:Ei.
  { unfold getc in E. rewrite Eu, Ei in E. injection E as _ <-. now apply eaten_same. }
  destruct (Hc eq_refl) as (l & Hl & El).
  destruct l as [|d l]; [discriminate|]. inversion Hl as [|? ? Hd1 Hl1]; subst.
  rewrite utf8s_cons in El.
  rewrite (getc_utf8 d (utf8s l)) in E; [|exact Hd1|exact Eu|now rewrite Ei|now apply clean_head].
  rewrite El in Ei. destruct Hd1 as (Hsc & Hnz & Hnf). unfold scalar in Hsc.
  unfold getc_tail in E. unfold eaten. rewrite Ei.
  destruct (d =? 13) eqn:E1; b2p.
  - subst d. rewrite utf8_ascii by lia. unfold bind, set_pos, set_in, ret in E.
    destruct (utf8s l) as [|x r] eqn:Er.
    + injection E as _ <-. exists [13]. cbn [l_in app]. split; [reflexivity|]. split.
      * intros (a' & b' & _ & E'). discriminate.
      * cnt.
    + injection E as _ <-. cbn [l_in l_pos]. destruct (x =? 10) eqn:Ex; b2p.
      * subst x. exists [13; 10]. split; [reflexivity|]. split.
        -- intros (a' & b' & E' & _). destruct a' as [|? [|? [|? ?]]]; discriminate.
        -- cnt.
      * exists [13]. split; [reflexivity|]. split.
        -- intros (a' & b' & _ & E'). apply cons_inj in E'. lia.
        -- cnt.
  - assert (Hns : no_crlf_split (utf8 d) (utf8s l)).
    { intros (a' & b' & E' & _). destruct (Z.lt_ge_cases d 128) as [L|G].
      - rewrite utf8_ascii in E' by lia. destruct a' as [|? [|? ?]]; [|discriminate|discriminate].
        apply cons_inj in E'. lia.
      - assert (H : Forall (fun b => b <> 10 /\ b <> 13 /\ b <> 12) (utf8 d)) by (apply utf8_plain; lia).
        rewrite E' in H. apply Forall_app in H. destruct H as [_ H]. inversion H; lia. }
    unfold bind, set_pos, set_in, ret in E.
    destruct (d =? 10) eqn:E2; b2p; [|destruct (d =? 12) eqn:E3; b2p].
    + injection E as _ <-. exists (utf8 d). cbn [l_in l_pos]. split; [reflexivity|]. split; [exact Hns|].
      subst d. rewrite utf8_ascii by lia.
      cnt.
    + injection E as _ <-. exists (utf8 d). cbn [l_in l_pos]. split; [reflexivity|]. split; [exact Hns|].
      subst d. rewrite utf8_ascii by lia.
      cnt.
    + assert (Ex : l_in s' = utf8s l /\ l_pos s' = l_pos s).
      { destruct (d =? 0); injection E as _ <-; auto. }
      destruct Ex as [Ex1 Ex2]. rewrite Ex1, Ex2.
      exists (utf8 d). split; [reflexivity|]. split; [exact Hns|].
      destruct (plain_counted (utf8 d)) as (P1 & P2 & P3); [apply utf8_plain; lia|].
      unfold counted, page_after, line_after, total_after. rewrite P1, P2, P3. lia.
Qed.

Lemma reach_eaten s s' : reach true s s' -> eaten s s'.
Proof.
  induction 1.
  - now apply eaten_same.
  - eapply eaten_trans; eauto.
  - eapply eaten_getc; eauto.
  - now apply eaten_same.
  - now apply eaten_same.
  - now apply eaten_same.
Qed.

(** On any input: bytes are consumed in order, messages are only added. *)
Lemma reach_log clean s s' : reach clean s s' -> exists l, l_log s' = l ++ l_log s.
Proof.
  induction 1 as [s|a b c _ [l1 H1] _ [l2 H2]|s c s' Hv E|s u|s m|s].
  - now exists [].
  - exists (l2 ++ l1). rewrite H2, H1. now rewrite app_assoc.
  - unfold getc in E. destruct (l_unget s) as [|u us].
    2:{ unfold bind, set_unget, ret in E. destruct (u =? 0); injection E as _ <-; now exists []. }
    assert (Ht : forall c1 rest s1, (exists l, l_log s1 = l ++ l_log s) ->
       getc_tail c1 rest s1 = Ret c s' -> exists l, l_log s' = l ++ l_log s).
    { intros c1 rest s1 Hs1 Et. destruct (getc_tail_eq c1 rest s1) as (s2 & E2 & _ & _ & Hlog & _).
      rewrite E2 in Et. injection Et as _ <-. now rewrite Hlog. }
    destruct (l_in s) as [|b rest]; [injection E as _ <-; now exists []|].
    destruct (b <? 128); [eapply Ht; [now exists []|exact E]|].
    destruct ((192 <=? b) && (b <? 255))%bool.
    + destruct (take_follow 7 rest) as [mb rest']. destruct (length mb =? 7)%nat.
      * injection E as _ <-. eexists [_]. reflexivity.
      * destruct (mbtowc (b :: mb)).
        -- unfold bind in E. cbn in E. eapply Ht; [|exact E]. eexists [_]. reflexivity.
        -- eapply Ht; [now exists []|exact E].
    + injection E as _ <-. eexists [_]. reflexivity.
  - now exists [].
  - now exists [m].
  - now exists [].
Qed.
