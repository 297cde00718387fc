(** * @keyframes: proofs *)

From Coq Require Import String ZArith List Bool Lia Arith ZifyBool Floats.SpecFloat.
From Verif Require Import Base NodeHeap NodeProofs.
From Verif Require Import ListSpec SplitSpec ListProofs.
From Verif Require Import Compiler CompRun Compile ValuesSpec ValuesProofs DeclCompile FramesSpec.
Import ListNotations.
Open Scope string_scope. Open Scope list_scope. Open Scope Z_scope.
Ltac Zify.zify_post_hook ::= idtac.

Lemma field_alike k fuel h h' n f : alike h h' -> nth_error h' n = nth_error h n -> field_ok k fuel h n f -> field_ok k fuel h' n f.
Proof. intros A E (c & H & T & D & R). exists c. split; [congruence|]. split; [exact T|]. split; [eapply alike_declares; eauto|exact R]. Qed.
Lemma done_before k fuel h h1 h' n f d : alike h h1 -> nth_error h1 n = nth_error h n -> field_ok k fuel h n f -> field_done k h1 h' n f d -> field_done k h h' n f d.
Proof. intros A E (c & H & T & D & R) (c1 & H1 & D1). assert (c1 = c) by congruence. subst. exists c. split; [exact H|]. eapply declared_before; eauto. Qed.

Lemma sf_opp x y : SFcompare y x = option_map CompOpp (SFcompare x y).
Proof.
  destruct x as [[]|[]| |[] m e]; destruct y as [[]|[]| |[] m' e']; try reflexivity; cbn [SFcompare option_map CompOpp];
  rewrite (Z.compare_antisym e e'); destruct (Z.compare e e'); cbn [CompOpp]; try reflexivity;
  change (Pos.compare_cont Eq) with Pos.compare; rewrite (Pos.compare_antisym m m'); destruct (Pos.compare m m'); reflexivity.
Qed.
Lemma moment_run c v a p h m ps : nth_error h a = Some c -> moment c v -> frame_position p a (mkK h m ps) = Ret (Some v) (mkK h m ps).
Proof.
  intros H M. unfold frame_position. erewrite b_ret; [|eapply run_type; exact H]. destruct M as [c T E|c T E|c T L1 L2].
  - rewrite T. cbv iota. change (ntype_eqb IDENTIFIER IDENTIFIER) with true. cbv iota. erewrite b_ret; [|eapply run_string; [exact H|rewrite T; reflexivity]]. rewrite E. reflexivity.
  - rewrite T. change (ntype_eqb IDENTIFIER IDENTIFIER) with true. cbv iota. erewrite b_ret; [|eapply run_string; [exact H|rewrite T; reflexivity]]. rewrite E. reflexivity.
  - rewrite T. change (ntype_eqb PERCENT IDENTIFIER) with false. change (ntype_eqb PERCENT PERCENT) with true. cbv iota.
    erewrite b_ret with (x := c_dec c) (s' := mkK h m ps). 2:{ unfold lift, get_decimal_number, NodeHeap.bind, load, supports. cbn [k_heap]. rewrite H, T. reflexivity. }
    assert (G : forall x y, SFleb x y = true -> SFltb y x = false).
    { intros x y. unfold SFleb, SFltb. rewrite (sf_opp x y). destruct (SFcompare x y) as [[]|]; cbn; congruence. }
    change (S754_zero false) with (f64_of_Z 0). rewrite (G _ _ L1). change one_f64 with (f64_of_Z 1). rewrite (G _ _ L2). reflexivity.
Qed.

(** The list of the declarations of a frame. *)
Lemma content_run k fuel h m ps cv f p q : frame_ok k fuel h cv f ->
  exists a ca ct kct hc, frame_content p q cv (mkK h m ps) = Ret (Some (ct, a)) (mkK hc m ps)
    /\ nth_error h a = Some ca /\ moment ca (fr_when f) /\ c_pos ca = fr_pos f
    /\ nth_error hc ct = Some kct /\ c_type kct = LIST /\ c_ch kct = fr_nodes f
    /\ (forall b cb, nth_error h b = Some cb -> nth_error hc b = Some cb)
    /\ (fr_list f = [ct] \/ nth_error h ct = None) /\ (length h <= length hc)%nat.
Proof.
  intros (c & a & ca & b & cb & i & ci & Hcv & Tcv & Ecv & Ha & Mo & Pa & Hb & Tb & Eb & Hi & Sh & _).
  exists a, ca. unfold frame_content. erewrite b_ret; [|eapply run_is; exact Hcv]. rewrite Tcv. change (negb (ntype_eqb COMPONENT_VALUE COMPONENT_VALUE)) with false. cbv iota.
  assert (Cc : has_children (c_type c) = true) by (rewrite Tcv; reflexivity). assert (Cb : has_children (c_type cb) = true) by (rewrite Tb; reflexivity).
  erewrite b_ret; [|eapply run_size; [exact Hcv|exact Cc]]. rewrite Ecv. change (negb (Z.of_nat (length [a; b]) =? 2)) with false. cbv iota.
  erewrite b_ret; [|eapply run_child1; [exact Hcv|exact Cc|exact Ecv]]. erewrite b_ret; [|eapply run_is; exact Hb]. rewrite Tb. change (negb (ntype_eqb OPEN_CURLYBRACKET OPEN_CURLYBRACKET)) with false. cbv iota.
  erewrite b_ret; [|eapply run_size; [exact Hb|exact Cb]]. rewrite Eb. change (negb (Z.of_nat (length [i]) =? 1)) with false. cbv iota.
  erewrite b_ret; [|eapply run_child0; [exact Hb|exact Cb|exact Eb]]. erewrite b_ret; [|eapply run_type; exact Hi].
  destruct Sh as [(Ti & El & En)|(Ti & El & En)]; rewrite Ti.
  - exists i, ci, h. change (ntype_eqb LIST COMPONENT_VALUE) with false. change (ntype_eqb LIST LIST) with true. cbv iota.
    erewrite b_ret; [|eapply run_child0; [exact Hcv|exact Cc|exact Ecv]]. split; [reflexivity|]. do 8 (split; [auto|]). lia.
  - set (hc := put (h ++ [blank LIST q]) (length h) (with_ch (blank LIST q) [i])). exists (length h), (with_ch (blank LIST q) [i]), hc. change (ntype_eqb COMPONENT_VALUE COMPONENT_VALUE) with true. cbv iota.
    assert (Hs : nth_error (h ++ [blank LIST q]) (length h) = Some (blank LIST q)) by apply nth_mid.
    assert (K : forall b0 cb0, nth_error h b0 = Some cb0 -> nth_error hc b0 = Some cb0). { intros b0 cb0 H0. pose proof (nth_lt _ _ _ H0). unfold hc. rewrite put_other by lia. rewrite nth_error_app1 by auto. exact H0. }
    erewrite b_ret; [|apply run_new]. erewrite b_ret; [|eapply run_add; [exact Hs|reflexivity|rewrite nth_error_app1 by (eapply nth_lt; eauto); exact Hi|congruence|congruence]]. cbn [c_ch blank app]. fold hc.
    erewrite b_ret; [|eapply run_child0; [apply K; exact Hcv|exact Cc|exact Ecv]]. split; [reflexivity|]. do 3 (split; [auto|]). split; [apply put_same; rewrite app_length; cbn; lia|]. split; [reflexivity|]. split; [cbn; auto|]. split; [exact K|]. split; [right; apply nth_error_None; lia|]. unfold hc. rewrite put_length, app_length. lia.
Qed.

Definition keeps_others (h h' : heap) : Prop := forall b cb, nth_error h b = Some cb -> c_type cb <> LIST -> c_type cb <> COMPONENT_VALUE -> nth_error h' b = Some cb.
Lemma frame_alike k fuel h h1 cv f : alike h h1 -> keeps_others h h1 -> (forall b, In b (cv :: frame_nodes f) -> nth_error h1 b = nth_error h b) -> frame_ok k fuel h cv f -> frame_ok k fuel h1 cv f.
Proof.
  intros A K Sm (c & a & ca & b & cb & i & ci & Hcv & Tcv & Ecv & Ha & Mo & Pa & Hb & Tb & Eb & Hi & Sh & Ff & Lf).
  exists c, a, ca, b, cb, i, ci. split; [rewrite Sm; [exact Hcv|now left]|]. do 2 (split; [auto|]). split; [apply K; [exact Ha| |]; destruct Mo; congruence|]. do 2 (split; [auto|]).
  split; [apply K; [exact Hb| |]; congruence|]. do 2 (split; [auto|]). split.
  { rewrite Sm; [exact Hi|]. right. unfold frame_nodes. destruct Sh as [(_ & E & _)|(_ & _ & E)]; rewrite E; [now left|apply in_or_app; right; now left]. }
  split; [exact Sh|]. split; [|exact Lf].
  assert (Q : forall n, In n (fr_nodes f) -> nth_error h1 n = nth_error h n) by (intros n I; apply Sm; right; unfold frame_nodes; apply in_or_app; now right).
  clear - Ff A Q. induction Ff as [|n g ns fs Hf Ff IH]; constructor; [eapply field_alike; eauto; apply Q; now left|]. apply IH. intros n' I. apply Q. now right.
Qed.
Lemma frame_kept k h h1 h' f d : keeps_others h1 h' -> frame_done k h h1 f d -> frame_done k h h' f d.
Proof.
  intros K (ds & Hd & V). exists ds. split; [apply K; [exact Hd|discriminate|discriminate]|]. clear - V K.
  induction V as [|nf e nfs es (c & Hc & D) V IH]; constructor; [|exact IH]. exists c. split; [exact Hc|]. pose proof D as (args & He & _). eapply declared_kept; [exact D|]. intros a ka Ha O.
  assert (c_type ka <> LIST /\ c_type ka <> COMPONENT_VALUE) as (T1 & T2); [|apply K; auto].
  destruct O as [->|[T|T]]; [|rewrite T; split; discriminate|split; intro Q; rewrite Q in T; discriminate].
  rewrite He in Ha. injection Ha as <-. rewrite (proj1 (all_flags_same _ _ _)). split; discriminate.
Qed.
Lemma frame_before k fuel h h1 h' f d : alike h h1 -> (forall n, In n (fr_nodes f) -> nth_error h1 n = nth_error h n) -> Forall2 (field_ok k fuel h) (fr_nodes f) (fr_fields f) ->
  frame_done k h1 h' f d -> frame_done k h h' f d.
Proof.
  intros A Sm Ff (ds & Hd & V). exists ds. split; [exact Hd|]. clear Hd. revert ds V Sm. induction Ff as [|n g ns fs Hf Ff IH]; intros ds V Sm; [inversion V; constructor|].
  cbn [combine] in *. inversion V as [|? e ? es He Ves]; subst. constructor; [|apply IH; auto; intros n' I; apply Sm; now right]. cbn [fst snd] in *. eapply done_before; eauto. apply Sm. now left.
Qed.

Section Frames.
  Variables (k : rules) (fuel : nat) (x : ctx) (p q : position) (l : addr).
  Let compile := run k (S fuel) Compile x.
  (** One frame. *)
  Lemma frame_step h m ps kl don cv f rest : nth_error h l = Some kl -> c_type kl = LIST -> c_ch kl = don -> frame_ok k fuel h cv f ->
    NoDup (frame_nodes f) -> ~ In l (fr_list f) ->
    exists h' d, frames_loop compile p q l (cv :: rest) None (mkK h m ps) = frames_loop compile p q l rest None (mkK h' m ps)
      /\ nth_error h' l = Some (with_ch kl (don ++ [d])) /\ frame_done k h h' f d /\ nth_error h d = None
      /\ (forall b cb, ~ In b (frame_nodes f) -> b <> l -> nth_error h b = Some cb -> nth_error h' b = Some cb) /\ alike h h'.
  Proof.
    intros Hl Tl El Fo Nd Nl. destruct (content_run k fuel h m ps cv f p q Fo) as (a & ca & ct & kct & hc & Rc & Ha & Mo & Pa & Hct & Tct & Ect & Kc & Ol & Lc).
    assert (Fl : forall b, In b (fr_list f) -> exists cb, nth_error h b = Some cb /\ c_type cb = LIST). { destruct Fo as (c & a' & ca' & b' & cb' & i & ci & _ & _ & _ & _ & _ & _ & _ & _ & _ & Hi & [(Ti & Ei & _)|(_ & Ei & _)] & _); rewrite Ei; [intros b [<-|[]]; eauto|intros b []]. }
    destruct Fo as (c & a' & ca' & b' & cb' & i & ci & _ & _ & _ & _ & _ & _ & _ & _ & _ & _ & _ & Ff & Lf).
    assert (Nlc : l <> ct). { intros <-. destruct Ol as [Ol|Ol]; [apply Nl; rewrite Ol; now left|congruence]. }
    cbn [frames_loop]. rewrite (b_ret _ _ _ _ _ Rc). cbv beta iota. erewrite b_ret; [|eapply moment_run; [apply Kc; exact Ha|exact Mo]]. cbv beta iota.
    erewrite b_ret; [|eapply run_pos; apply Kc; exact Ha]. rewrite Pa. erewrite b_ret; [|apply run_new].
    set (d := length hc) in *. set (fc := mkCell FRAME (fr_pos f) false 0 (fr_when f) [] [] [] [] []).
    pose proof (nth_lt _ _ _ Hct) as Lct. pose proof (nth_lt _ _ _ Hl) as Ll.
    set (h2 := put (hc ++ [blank FRAME (fr_pos f)]) d fc).
    assert (Rd : lift (set_decimal_number d (fr_when f)) (mkK (hc ++ [blank FRAME (fr_pos f)]) m ps) = Ret tt (mkK h2 m ps)).
    { unfold lift, set_decimal_number, NodeHeap.bind, load, supports, store. cbn [k_heap]. unfold d. rewrite nth_mid. reflexivity. }
    rewrite (b_ret _ _ _ _ _ Rd).
    assert (H2d : nth_error h2 d = Some fc) by (apply put_same; rewrite app_length; cbn; unfold d; lia).
    assert (H2o : forall b cb, nth_error hc b = Some cb -> nth_error h2 b = Some cb). { intros b cb Hb. pose proof (nth_lt _ _ _ Hb). unfold h2. rewrite put_other by (unfold d; lia). rewrite nth_error_app1 by auto. exact Hb. }
    assert (Ndc : d <> ct) by (unfold d; lia).
    erewrite b_ret; [|eapply run_take; [exact H2d|reflexivity|apply H2o; exact Hct|rewrite Tct; reflexivity|exact Ndc]].
    rewrite Ect. set (h3 := put (put h2 d (with_ch fc (fr_nodes f))) ct (with_ch kct [])).
    assert (L2 : length h2 = S d) by (unfold h2; rewrite put_length, app_length; cbn; unfold d; lia).
    assert (H3d : nth_error h3 d = Some (with_ch fc (fr_nodes f))). { unfold h3. rewrite put_other by auto. apply put_same. lia. }
    assert (Hcl : nth_error h3 l = Some kl). { unfold h3. rewrite put_other by auto. rewrite put_other by (unfold d; lia). apply H2o, Kc, Hl. }
    erewrite b_ret; [|eapply run_add; [exact Hcl|rewrite Tl; reflexivity|exact H3d|discriminate|discriminate]].
    rewrite El. set (h4 := put h3 l (with_ch kl (don ++ [d]))).
    assert (Nld : l <> d) by (unfold d; lia).
    assert (H4d : nth_error h4 d = Some (with_ch fc (fr_nodes f))) by (unfold h4; rewrite put_other by auto; exact H3d).
    assert (H4l : nth_error h4 l = Some (with_ch kl (don ++ [d]))). { unfold h4. apply put_same. unfold h3. rewrite !put_length. lia. }
    assert (H4o : forall b cb, nth_error h b = Some cb -> b <> l -> b <> ct -> nth_error h4 b = Some cb).
    { intros b cb Hb N1 N2. pose proof (nth_lt _ _ _ Hb). unfold h4, h3. rewrite put_other by auto. rewrite put_other by auto. rewrite put_other by (unfold d; lia). apply H2o, Kc, Hb. }
    assert (H4c : nth_error h4 ct = Some (with_ch kct [])). { unfold h4. rewrite put_other by auto. unfold h3. apply put_same. rewrite put_length. lia. }
    assert (Al : alike h h4).
    { intros b cb Hb. destruct (Nat.eq_dec b l) as [->|N1]; [exists (with_ch kl (don ++ [d])); split; [exact H4l|]; assert (cb = kl) by congruence; subst; split; [reflexivity|rewrite Tl; discriminate]|].
      destruct (Nat.eq_dec b ct) as [->|N2]; [|exists cb; auto]. exists (with_ch kct []). split; [exact H4c|]. assert (cb = kct) by (pose proof (Kc _ _ Hb); congruence). subst. split; [reflexivity|rewrite Tct; discriminate]. }
    assert (Same : forall n g, field_ok k fuel h n g -> nth_error h4 n = nth_error h n).
    { intros n g (cn & Hn & Tn & _). rewrite Hn. apply H4o; [exact Hn| |].
      - intros ->. rewrite Hl in Hn. injection Hn as <-. congruence.
      - intros ->. pose proof (Kc _ _ Hn). congruence. }
    assert (Ff4 : Forall2 (field_ok k fuel h4) (fr_nodes f) (fr_fields f)). { clear - Ff Al Same. clearbody h4. induction Ff as [|n g ns fs Hf Ff IH]; constructor; [eapply field_alike; eauto|exact IH]. }
    assert (Ndn : NoDup (fr_nodes f)) by (unfold frame_nodes in Nd; clear - Nd; induction (fr_list f) as [|y t IH]; [exact Nd|inversion Nd; auto]).
    destruct (block_loop k d x fuel m ps (fr_nodes f) (fr_fields f) [] h4 (with_ch fc (fr_nodes f)) fuel H4d (or_intror eq_refl) eq_refl Ndn ltac:(intros z []) Ff4 Lf) as (h5 & ds & E & Hd5 & V & K5 & Al5).
    assert (Rf : compile None d (mkK h4 m ps) = Ret None (mkK h5 m ps)).
    { unfold compile. cbn [run]. erewrite b_ret; [|eapply run_type; exact H4d]. exact E. }
    rewrite (b_ret _ _ _ _ _ Rf). exists h5, d. split; [reflexivity|].
    assert (Nln : ~ In l (fr_nodes f)). { intros I. clear - I Ff Hl Tl. induction Ff as [|n g ns fs (cn & Hn & Tn & _) Ff IH]; [destruct I|]. destruct I as [->|I]; [rewrite Hl in Hn; injection Hn as <-; congruence|auto]. }
    split; [apply K5; auto|]. split; [|split; [apply nth_error_None; unfold d; exact Lc|split; [|eapply alike_trans; eauto]]].
    - exists ds. split; [exact Hd5|]. clear - V Ff Al Same. clearbody h4. revert ds V. induction Ff as [|n g ns fs Hf Ff IH]; intros ds V; [inversion V; constructor|].
      cbn [combine] in *. inversion V as [|? e ? es He Ves]; subst. constructor; [|auto]. cbn [fst snd] in *. eapply done_before; eauto.
    - intros b cb Nb N1 Hb. apply K5; [intro; apply Nb; unfold frame_nodes; apply in_or_app; now right|intros ->; apply nth_lt in Hb; unfold d in Hb; lia|].
      apply H4o; [exact Hb|exact N1|]. intros ->. destruct Ol as [Ol|Ol]; [|congruence]. apply Nb. unfold frame_nodes. rewrite Ol. now left.
  Qed.
  Lemma frames_run : forall cvs frs rest don h m ps kl, nth_error h l = Some kl -> c_type kl = LIST -> c_ch kl = don -> Forall2 (frame_ok k fuel h) cvs frs ->
    NoDup (cvs ++ flat_map frame_nodes frs) -> ~ In l (flat_map frame_nodes frs) ->
    exists h' ds, frames_loop compile p q l (cvs ++ rest) None (mkK h m ps) = frames_loop compile p q l rest None (mkK h' m ps)
      /\ nth_error h' l = Some (with_ch kl (don ++ ds)) /\ Forall2 (frame_done k h h') frs ds
      /\ (forall b cb, ~ In b (flat_map frame_nodes frs) -> b <> l -> nth_error h b = Some cb -> nth_error h' b = Some cb) /\ alike h h'.
  Proof.
    induction cvs as [|cv cvs IH]; intros frs rest don h m ps kl Hl Tl El Fo Nd Nl; inversion Fo as [|? f ? frs' Hf Fo']; subst.
    - exists h, []. split; [reflexivity|]. split; [rewrite app_nil_r, with_ch_id; exact Hl|]. split; [constructor|]. split; [auto|apply alike_refl].
    - cbn [app flat_map] in *. inversion Nd as [|? ? Ncv Nd']; subst.
      assert (Nd1 : NoDup (frame_nodes f)). { clear - Nd'. induction cvs as [|y t IH]; [|inversion Nd'; auto]. cbn in Nd'. induction (frame_nodes f) as [|y t IH]; [constructor|]. inversion Nd' as [|? ? N Nd0]; subst. constructor; [intro; apply N; apply in_or_app; now left|auto]. }
      assert (Nd2 : NoDup (cvs ++ flat_map frame_nodes frs')). { clear - Nd'. induction cvs as [|y t IH]; cbn in *; [induction (frame_nodes f) as [|z u IHu]; [exact Nd'|inversion Nd'; auto]|]. inversion Nd' as [|? ? N Nd0]; subst. constructor; [|auto]. intro I. apply N. apply in_app_or in I. apply in_or_app. destruct I; [now left|right; apply in_or_app; now right]. }
      assert (Dj : forall b, In b (frame_nodes f) -> ~ In b (cvs ++ flat_map frame_nodes frs')).
      { clear - Nd'. intros b I J. revert Nd'. induction cvs as [|y t IH]; cbn in *; intros Nd'.
        - induction (frame_nodes f) as [|z u IHu]; [destruct I|]. inversion Nd' as [|? ? N Nd0]; subst. destruct I as [->|I]; [apply N; apply in_or_app; now right|auto].
        - inversion Nd' as [|? ? N Nd0]; subst. destruct J as [->|J]; [apply N; apply in_or_app; right; apply in_or_app; now left|auto]. }
      destruct (frame_step h m ps kl (c_ch kl) cv f (cvs ++ rest) Hl Tl eq_refl Hf Nd1) as (h1 & d & E & Hl1 & Dn & Fr & K1 & Al1).
      { intro I. apply Nl. apply in_or_app. left. unfold frame_nodes. apply in_or_app. now left. }
      assert (Ko : keeps_others h h1).
      { intros b cb Hb T1 T2. apply K1; [|intros ->; rewrite Hl in Hb; injection Hb as <-; contradiction|exact Hb]. intro I.
        destruct Hf as (c & a & ca & b' & cb' & i & ci & _ & _ & _ & _ & _ & _ & _ & _ & _ & Hi & Sh & Ff & _). unfold frame_nodes in I. apply in_app_or in I. destruct I as [I|I].
        - destruct Sh as [(Ti & Ei & _)|(_ & Ei & _)]; rewrite Ei in I; [|destruct I]. destruct I as [<-|[]]. congruence.
        - clear - Ff I Hb T2. induction Ff as [|n g ns fs (cn & Hn & Tn & _) Ff IHf]; [destruct I|]. destruct I as [->|I]; [congruence|auto]. }
      assert (Fo1 : Forall2 (frame_ok k fuel h1) cvs frs').
      { assert (Dj2 : forall b, In b (cvs ++ flat_map frame_nodes frs') -> ~ In b (frame_nodes f)) by (intros b I J; exact (Dj b J I)).
        assert (Nl2 : ~ In l (flat_map frame_nodes frs')) by (intro I; apply Nl; apply in_or_app; now right).
        clear - Fo' Al1 Ko K1 Dj2 Nl2 Hl Tl. induction Fo' as [|cv' f' cvs frs' Hf' Fo' IHf]; constructor.
        - assert (Hcv : exists cc, nth_error h cv' = Some cc /\ c_type cc = COMPONENT_VALUE) by (destruct Hf' as (cc & ? & ? & ? & ? & ? & ? & A & B & _); eauto). destruct Hcv as (cc & Hcv & Tcv).
          assert (Lv : forall b, In b (frame_nodes f') -> exists cb, nth_error h b = Some cb).
          { destruct Hf' as (c & a & ca & b' & cb' & i & ci & _ & _ & _ & _ & _ & _ & _ & _ & _ & Hi & Sh & Ff & _). intros b I. unfold frame_nodes in I. apply in_app_or in I. destruct I as [I|I].
            - destruct Sh as [(_ & Ei & _)|(_ & Ei & _)]; rewrite Ei in I; [|destruct I]. destruct I as [<-|[]]. eauto.
            - clear - Ff I. induction Ff as [|n g ns fs (cn & Hn & Tn & _) Ff IHf]; [destruct I|]. destruct I as [->|I]; [eauto|auto]. }
          eapply frame_alike; eauto. intros b [<-|I].
          + rewrite Hcv. apply K1; [apply Dj2; now left|intros ->; rewrite Hl in Hcv; injection Hcv as <-; congruence|exact Hcv].
          + destruct (Lv b I) as (cb & Hb). rewrite Hb. apply K1; [apply Dj2; apply in_or_app; right; cbn; apply in_or_app; now left|intros ->; apply Nl2; cbn; apply in_or_app; now left|exact Hb].
        - apply IHf; [|intro I; apply Nl2; cbn; apply in_or_app; now right]. intros b I. apply Dj2. apply in_app_or in I. destruct I as [I|I]; [right; apply in_or_app; now left|]. right. apply in_or_app. right. cbn. apply in_or_app. now right. }
      destruct (IH frs' rest (c_ch kl ++ [d]) h1 m ps _ Hl1 Tl eq_refl Fo1 Nd2) as (h2 & ds & E2 & Hl2 & V2 & K2 & Al2).
      { intro I. apply Nl. apply in_or_app. now right. }
      assert (Ko2 : keeps_others h1 h2).
      { intros b cb Hb T1 T2. apply K2; [|intros ->; rewrite Hl1 in Hb; injection Hb as <-; cbn in T1; contradiction|exact Hb]. intro I. clear - Fo1 I Hb T1 T2.
        induction Fo1 as [|cv' f' cvs frs' (c & a & ca & b' & cb' & i & ci & _ & _ & _ & _ & _ & _ & _ & _ & _ & Hi & Sh & Ff & _) Fo' IHf]; [destruct I|]. cbn in I. apply in_app_or in I. destruct I as [I|I]; [|auto]. unfold frame_nodes in I. apply in_app_or in I. destruct I as [I|I].
        - destruct Sh as [(Ti & Ei & _)|(_ & Ei & _)]; rewrite Ei in I; [|destruct I]. destruct I as [<-|[]]. congruence.
        - clear - Ff I Hb T2. induction Ff as [|n g ns fs (cn & Hn & Tn & _) Ff IHf]; [destruct I|]. destruct I as [->|I]; [congruence|auto]. }
      exists h2, (d :: ds). split; [rewrite E; exact E2|]. split; [rewrite Hl2; cbn [c_ch with_ch]; rewrite <- app_assoc; reflexivity|]. split; [|split; [|eapply alike_trans; eauto]].
      + constructor; [eapply frame_kept; eauto|].
        assert (Dj2 : forall b, In b (flat_map frame_nodes frs') -> ~ In b (frame_nodes f)) by (intros b I J; apply (Dj b J); apply in_or_app; now right).
        clear - V2 Fo' Al1 K1 Dj2 Hl Tl. revert cvs Fo' Dj2. induction V2 as [|f' d' frs' ds' Hd V2 IHv]; intros cvs Fo' Dj2; [constructor|]. inversion Fo' as [|cv' ? cvs' ? Hf' Fo'']; subst. constructor.
        * destruct Hf' as (c & a & ca & b' & cb' & i & ci & _ & _ & _ & _ & _ & _ & _ & _ & _ & _ & _ & Ff & _). eapply frame_before; [exact Al1| |exact Ff|exact Hd]. intros n I.
          assert (exists cn, nth_error h n = Some cn /\ c_type cn = COMPONENT_VALUE) as (cn & Hn & Tn). { clear - Ff I. induction Ff as [|n0 g ns fs (cn & Hn & Tn & _) Ff IHf]; [destruct I|]. destruct I as [->|I]; [eauto|auto]. }
          rewrite Hn. apply K1; [apply Dj2; cbn; apply in_or_app; left; unfold frame_nodes; apply in_or_app; now right|intros ->; rewrite Hl in Hn; injection Hn as <-; congruence|exact Hn].
        * eapply IHv; [exact Fo''|]. intros b I. apply Dj2. cbn. apply in_or_app. now right.
      + intros b cb Nb N1 Hb. apply K2; [intro; apply Nb; apply in_or_app; now right|exact N1|]. apply K1; [intro; apply Nb; apply in_or_app; now left|exact N1|exact Hb].
  Qed.
End Frames.
