(** * The selectors of a plain style sheet under compile() *)

From Coq Require Import String ZArith List Bool Lia Arith.
From Verif Require Import Base Parser Selector.
From Verif Require NodeHeap Trees.
From Verif Require Import WholeSpec LaySpec WholeShape WholeParse.
Import ListNotations.
Open Scope string_scope. Open Scope list_scope. Open Scope nat_scope.

(** ** argify *)
Section Argify.
  Variable code : ntype -> Z.
  Definition part_type (t : ntype) : Prop := t <> OPEN_CURLYBRACKET /\ t <> COMMA /\ t <> EOF_TOKEN.
  Lemma arg_leaves p l : forall args arg rest st, Forall (fun n => part_type (n_type n)) l -> apart (map n_type (arg ++ l)) ->
    (arg = [] -> hd COMMA (map n_type l) <> WHITESPACE) ->
    argify_loop code COMMA p (l ++ rest) args arg st = argify_loop code COMMA p rest args (arg ++ l) st.
  Proof.
    induction l as [|x l IH]; intros args arg rest st F A N; [now rewrite app_nil_r|]. inversion F as [|? ? (F1 & F2 & F3) Fl]; subst.
    cbn [app argify_loop]. rewrite (is_no x OPEN_CURLYBRACKET F1), (is_no x COMMA F2).
    assert (Q : negb (is_ws x) || match arg with [] => false | _ => true end = true).
    { destruct arg as [|z arg]; [|now rewrite orb_true_r]. specialize (N eq_refl). cbn in N. unfold is_ws. rewrite (is_no x WHITESPACE N). reflexivity. }
    rewrite Q. assert (E : add_ch arg x = arg ++ [x]).
    { apply add_plain; [exact F3|]. intros W a y E. subst arg. rewrite <- app_assoc, map_app in A. cbn [app map] in A. apply apart_mid in A. tauto. }
    rewrite E. rewrite IH; [now rewrite <- app_assoc|exact Fl|now rewrite <- app_assoc|intro Q'; destruct arg; discriminate Q'].
  Qed.
  Lemma arg_lead p w rest args st : few w -> argify_loop code COMMA p (w ++ rest) args [] st = argify_loop code COMMA p rest args [] st.
  Proof.
    intros [-> |(n & -> & W)]; [reflexivity|]. cbn [app argify_loop]. rewrite (is_no n OPEN_CURLYBRACKET) by (rewrite W; discriminate). rewrite (is_no n COMMA) by (rewrite W; discriminate).
    unfold is_ws. rewrite (proj2 (is_spec n WHITESPACE) W). reflexivity.
  Qed.
  Lemma complex_parts s l : complex_ok s -> complex_lay s (map node_shape l) -> Forall (fun n => part_type (n_type n)) l /\ tidy (map n_type l).
  Proof.
    intros Fs El. split; [|rewrite types_nodes; eapply tidy_complex; [exact Fs|exact El]]. apply (of_shapes part_type). revert El. generalize (map node_shape l). 
    assert (K : forall k, every (fun s => part_type (sh_type s)) (this (compound_leaves k))).
    { intro k. apply every_this. unfold compound_leaves. apply Forall_app. split; [destruct (k_name k); repeat constructor; discriminate|]. apply forall_flat. intros []; repeat constructor; discriminate. }
    apply every_then; [apply K|]. apply every_each. rewrite Forall_map. apply Forall_forall. intros (x & k) _. apply every_then; [|apply K].
    destruct x; cbn [fst link_leaves]; [apply every_this; repeat constructor; discriminate|apply every_spaced; repeat split; discriminate|apply every_spaced; repeat split; discriminate].
  Qed.
  Lemma groups_argify p blk : n_type blk = OPEN_CURLYBRACKET -> forall ss lead body args st, few lead -> ss <> [] -> Forall complex_ok ss ->
    between (spaced COMMA) (map complex_lay ss) (map node_shape body) ->
    exists gs, Forall2 (fun l s => complex_lay s (map node_shape l)) gs ss
      /\ argify_loop code COMMA p (lead ++ body ++ [blk]) args [] st = Ret (true, args ++ map (new_arg code COMMA p) gs ++ [blk]) st.
  Proof.
    intros Tb. induction ss as [|s ss IH]; intros lead body args st Fw N F E; [congruence|]. inversion F as [|? ? Fs Fss]; subst. rewrite arg_lead by exact Fw.
    destruct ss as [|s' ss].
    - cbn [map between] in E. destruct (complex_parts s body Fs E) as (P1 & P2 & P3 & P4). exists [body]. split; [constructor; [exact E|constructor]|].
      rewrite arg_leaves; [|exact P1|exact P2|intros _ Q; apply P3; destruct body; [discriminate Q|exact Q]]. cbn [app argify_loop map]. rewrite (proj2 (is_spec blk OPEN_CURLYBRACKET) Tb). reflexivity.
    - change (between (spaced COMMA) (map complex_lay (s :: s' :: ss))) with (complex_lay s # spaced COMMA # between (spaced COMMA) (map complex_lay (s' :: ss))) in E.
      apply lang_split in E. destruct E as (l1 & l2 & -> & E1 & E). apply lang_split in E. destruct E as (lc & l3 & -> & Ec & E3). apply spaced_split in Ec. destruct Ec as (w1 & cm & w2 & -> & F1 & E2 & F2).
      destruct (complex_parts s l1 Fs E1) as (P1 & P2).
      destruct (IH w2 l3 (args ++ [new_arg code COMMA p l1]) st F2 ltac:(discriminate) Fss E3) as (gs & G1 & G2). exists (l1 :: gs). split; [now constructor|].
      replace ((l1 ++ (w1 ++ cm :: w2) ++ l3) ++ [blk]) with ((l1 ++ w1) ++ cm :: (w2 ++ l3 ++ [blk])) by apps.
      pose proof (tidy_nodes _ P2) as Nl.
      rewrite arg_leaves; [|apply Forall_app; split; [exact P1|]; destruct F1 as [-> |(n & -> & W)]; [constructor|]; constructor; [rewrite W; repeat split; discriminate|constructor]
        |exact (apart_few [] l1 w1 (or_introl eq_refl) P2 F1)|intros _ Q; destruct P2 as (_ & P3 & _); apply P3; destruct l1; [congruence|exact Q]]. cbn [app argify_loop].
      pose proof (type_of _ _ E2) as Tc. cbn in Tc. rewrite (is_no cm OPEN_CURLYBRACKET) by (rewrite Tc; discriminate). rewrite (proj2 (is_spec cm COMMA) Tc). cbv zeta.
      rewrite (proj1 (drop_back_few w1 l1 F1 P2)). destruct l1 as [|x1 l1]; [congruence|].
      assert (D : match w2 ++ l3 ++ [blk] with [] => true | y :: _ => is y OPEN_CURLYBRACKET end = false).
      { destruct F2 as [-> |(n & -> & W)]; [|cbn [app]; apply is_no; rewrite W; discriminate]. cbn [app].
        inversion Fss as [|? ? Fs' _]; subst. pose proof (selector_plain (mkRule (s' :: ss) []) _ E3) as Sp. apply (of_shapes (fun t => selector_type t = true)) in Sp. destruct l3 as [|y l3].
        - exfalso. assert (is_tidy (between (spaced COMMA) (map complex_lay (s' :: ss)))) as Q by (apply is_tidy_between; [discriminate|discriminate|]; rewrite Forall_map; revert Fss; apply Forall_impl; exact tidy_complex). apply Q in E3. now apply tidy_nil in E3.
        - cbn [app]. inversion Sp as [|? ? Sy _]; subst. apply is_no. intro Q. rewrite Q in Sy. discriminate Sy. }
      rewrite D, G2. cbn [map]. rewrite <- app_assoc. reflexivity.
  Qed.
End Argify.

(** ** One selector *)
Definition named (n : node) : Prop := n_type n = IDENTIFIER.
Inductive term : list node -> Prop :=
  | term_name n : n_type n = IDENTIFIER -> term [n]
  | term_hash n : n_type n = HASH -> term [n]
  | term_class d n : n_type d = PERIOD -> n_type n = IDENTIFIER -> term [d; n].
(** What stands between two terms, and what remains of it. *)
Inductive linked : list node -> list node -> Prop :=
  | linked_nothing : linked [] []
  | linked_space n : n_type n = WHITESPACE -> linked [n] [n]
  | linked_sign a n b : few a -> n_type n = GREATER_THAN \/ n_type n = PRECEDED -> few b -> linked (a ++ n :: b) [n].
Inductive terms : list node -> list node -> Prop :=
  | terms_nil : terms [] []
  | terms_more b o t l l' : linked b o -> term t -> terms l l' -> terms (b ++ t ++ l) (o ++ t ++ l').
Lemma is_yes n t : n_type n = t -> is n t = true. Proof. apply is_spec. Qed.
Lemma term_first t : term t -> exists x r, t = x :: r /\ (n_type x = IDENTIFIER \/ n_type x = HASH \/ n_type x = PERIOD).
Proof. destruct 1; eauto 8. Qed.
Lemma terms_first l l' x r : terms l l' -> l = x :: r -> n_type x <> SCOPE /\ n_type x <> OPEN_SQUAREBRACKET.
Proof.
  destruct 1 as [|b o t l l' B T L]; intro E; [discriminate E|]. destruct (term_first t T) as (y & s & -> & Y).
  destruct B as [|n B|a n b Fa B Fb]; [..|destruct Fa as [-> |(w & -> & W)]]; cbn [app] in E; injection E as <- <-.
  - destruct Y as [Y|[Y|Y]]; rewrite Y; split; discriminate.
  - rewrite B. split; discriminate.
  - destruct B as [B|B]; rewrite B; split; discriminate.
  - rewrite W. split; discriminate.
Qed.
Lemma term_run k p don t l l' st : term t -> terms l l' -> selector_term k p (don, t ++ l) st = Ret (Some (don ++ t, l)) st.
Proof.
  intros T L. destruct T as [n T|n T|d n T T2]; unfold selector_term; cbn [app]; rewrite T; cbn [simple_term]; unfold simple_term; rewrite T.
  - destruct l as [|u r]; [reflexivity|]. destruct (terms_first _ _ _ _ L eq_refl) as (U1 & U2). rewrite (is_no u SCOPE U1). rewrite (is_no n MULTIPLY) by (rewrite T; discriminate). reflexivity.
  - reflexivity.
  - rewrite (is_yes n IDENTIFIER T2). reflexivity.
Qed.
Lemma ws_no n : n_type n <> WHITESPACE -> is_ws n = false. Proof. apply is_no. Qed.
Lemma ws_yes n : n_type n = WHITESPACE -> is_ws n = true. Proof. apply is_yes. Qed.
Lemma sign_no n : n_type n = IDENTIFIER \/ n_type n = HASH \/ n_type n = PERIOD -> is_combinator n = false /\ is_ws n = false.
Proof. intros [T|[T|T]]; unfold is_combinator, is_ws; rewrite !is_no; rewrite ?T; auto; discriminate. Qed.
Lemma linked_run p don b o t l st : linked b o -> term t -> skip_separator p (don, b ++ t ++ l) st = Ret (Some (don ++ o, t ++ l)) st.
Proof.
  intros B T. destruct (term_first t T) as (y & s & -> & Y). destruct (sign_no y Y) as (Y1 & Y2). destruct B as [|n B|a n b Fa B Fb]; unfold skip_separator; cbn [app].
  - rewrite Y2, Y1, app_nil_r. reflexivity.
  - rewrite (ws_yes n B), Y1. reflexivity.
  - assert (Wn : is_ws n = false) by (apply ws_no; destruct B as [B|B]; rewrite B; discriminate). assert (C : is_combinator n = true) by (unfold is_combinator; destruct B as [B|B]; rewrite (is_yes n _ B); rewrite ?orb_true_r; reflexivity).
    destruct Fa as [-> |(w & -> & W)]; destruct Fb as [-> |(w' & -> & W')]; cbn [app]; rewrite ?(ws_yes w W), ?Wn, ?C, ?(ws_yes w' W'), ?Y2; reflexivity.
Qed.
Lemma loop_run k p st : forall fuel don t l l', length (t ++ l) < fuel -> term t -> terms l l' -> selector_loop fuel k p (don, t ++ l) st = Ret (Some (don ++ t ++ l')) st.
Proof.
  induction fuel as [|f IH]; intros don t l l' Lf T L; [lia|]. cbn [selector_loop]. unfold bind at 1. rewrite (term_run k p don t l l' st T L).
  destruct L as [|b o t' l l' B T' L]; [rewrite app_nil_r; reflexivity|].
  pose proof (linked_run p (don ++ t) b o t' l st B T') as Q. destruct (b ++ t' ++ l) as [|z r] eqn:E; [exfalso; destruct (term_first t' T') as (y & s & -> & _); apply app_eq_nil in E; destruct E as (_ & E); discriminate E|].
  unfold bind. rewrite Q, (IH _ _ _ l'); [|rewrite app_length in Lf; rewrite <- E in Lf; rewrite app_length in Lf; destruct (term_first t T) as (? & ? & -> & _); cbn [length] in Lf; lia|exact T'|exact L].
  rewrite <- !app_assoc. reflexivity.
Qed.

(** The leaves of a selector. *)
Lemma terms_app a b a' b' : terms a a' -> terms b b' -> terms (a ++ b) (a' ++ b').
Proof. intros A B. induction A as [|s o t l l' Bt T A IH]; [exact B|]. rewrite <- !app_assoc. now constructor. Qed.
Lemma mark_terms m l : map node_shape l = mark_leaves m -> term l.
Proof.
  destruct m; cbn [mark_leaves]; intro E.
  - apply map_cons_split in E. destruct E as (a & l2 & -> & A & E). apply map_cons_split in E. destruct E as (b & l3 & -> & B & E). apply map_eq_nil in E. subst. apply term_class; [exact (type_of _ _ A)|exact (type_of _ _ B)].
  - apply map_cons_split in E. destruct E as (a & l2 & -> & A & E). apply map_eq_nil in E. subst. apply term_hash. exact (type_of _ _ A).
Qed.
Lemma marks_terms ms : forall l, map node_shape l = flat_map mark_leaves ms -> terms l l.
Proof.
  induction ms as [|m ms IH]; intros l E; cbn [flat_map] in E; [apply map_eq_nil in E; subst; constructor|]. apply map_split in E. destruct E as (l1 & l2 & -> & E1 & E2).
  change (terms ([] ++ l1 ++ l2) ([] ++ l1 ++ l2)). constructor; [constructor|eapply mark_terms; eauto|auto].
Qed.
Lemma compound_terms k l : compound_ok k -> map node_shape l = compound_leaves k -> exists t r, l = t ++ r /\ term t /\ terms r r.
Proof.
  intros (A & _) E. unfold compound_leaves in E. destruct (k_name k) as [w|].
  - cbn [app] in E. apply map_cons_split in E. destruct E as (a & l2 & -> & Ta & E). exists [a], l2. split; [reflexivity|]. split; [apply term_name; exact (type_of _ _ Ta)|eapply marks_terms; eauto].
  - cbn [app] in E. destruct (k_marks k) as [|m ms]; [congruence|]. cbn [flat_map] in E. apply map_split in E. destruct E as (l1 & l2 & -> & E1 & E2). exists l1, l2. split; [reflexivity|]. split; [eapply mark_terms; eauto|eapply marks_terms; eauto].
Qed.
Lemma link_linked x l : link_leaves x (map node_shape l) -> exists o, linked l o /\ map node_shape o = [sign (link_type x)].
Proof.
  destruct x; cbn [link_leaves]; intro H.
  - apply this_one in H. destruct H as (n & -> & E). exists [n]. split; [apply linked_space; exact (type_of _ _ E)|]. cbn [map]. now rewrite E.
  - apply spaced_split in H. destruct H as (a & n & b & -> & Fa & E & Fb). exists [n]. split; [apply linked_sign; [exact Fa|left; exact (type_of _ _ E)|exact Fb]|]. cbn [map]. now rewrite E.
  - apply spaced_split in H. destruct H as (a & n & b & -> & Fa & E & Fb). exists [n]. split; [apply linked_sign; [exact Fa|right; exact (type_of _ _ E)|exact Fb]|]. cbn [map]. now rewrite E.
Qed.
Lemma complex_terms s l : complex_ok s -> complex_lay s (map node_shape l) -> exists t r r', l = t ++ r /\ term t /\ terms r r' /\ map node_shape (t ++ r') = complex_leaves s.
Proof.
  intros (A & _) E. unfold complex_leaves, compounds in *. inversion A as [|? ? A1 A2]; subst. apply lang_split in E. destruct E as (l1 & l2 & -> & E1 & E2). unfold this in E1.
  destruct (compound_terms _ _ A1 E1) as (t & r & -> & T & R).
  assert (exists l2', terms l2 l2' /\ map node_shape l2' = flat_map (fun x => sign (link_type (fst x)) :: compound_leaves (snd x)) (s_more s)) as (l2' & R2 & S2).
  { clear - A2 E2. rewrite Forall_map in A2. revert l2 E2. induction A2 as [|(x & k) more Hk A2 IH]; intros l E; cbn [map each flat_map fst snd] in *.
    - unfold this in E. apply map_eq_nil in E. subst. exists []. split; [constructor|reflexivity].
    - apply lang_split in E. destruct E as (l0 & l4 & -> & E & E4). apply lang_split in E. destruct E as (lx & l3 & -> & Ex & E3). unfold this in E3. destruct (compound_terms _ _ Hk E3) as (t & r & -> & T & R).
      destruct (link_linked x lx Ex) as (o & Lo & So). destruct (IH l4 E4) as (l4' & R4 & S4). exists (o ++ t ++ (r ++ l4')). split.
      + replace ((lx ++ t ++ r) ++ l4) with (lx ++ t ++ (r ++ l4)) by apps. constructor; [exact Lo|exact T|]. now apply terms_app.
      + rewrite map_app, So. replace (t ++ r ++ l4') with ((t ++ r) ++ l4') by apps. rewrite map_app, E3, S4. reflexivity. }
  exists t, (r ++ l2), (r ++ l2'). split; [now rewrite app_assoc|]. split; [exact T|]. split; [now apply terms_app|]. rewrite app_assoc, map_app, E1, S2. reflexivity.
Qed.
Lemma selector_same k arg s st : complex_ok s -> complex_lay s (map node_shape (n_ch arg)) -> exists l, selector_list k arg st = Ret (Some (set_ch arg l)) st /\ map node_shape l = complex_leaves s.
Proof.
  intros Ok E. destruct (complex_terms s _ Ok E) as (t & r & r' & Er & T & R & Sh). exists (t ++ r'). split; [|exact Sh]. unfold selector_list, bind. rewrite Er. rewrite (loop_run k (n_pos arg) st _ [] t r r'); [reflexivity|lia|exact T|exact R].
Qed.

(** ** Identifiers *)
Definition hashed (l : list node) : nat := length (filter (fun x => is x HASH) l).
Lemma hashes_few p st : forall l seen, hashed l + length seen <= 1 -> exists seen', hashes p l seen false st = Ret (seen', false) st /\ length seen' <= 1.
Proof.
  unfold hashed. induction l as [|x l IH]; intros seen L; cbn [hashes filter] in *; [exists seen; split; [reflexivity|cbn in L; lia]|].
  destruct (is x HASH); [|now apply IH]. cbn [length] in L. destruct seen as [|y seen]; [|cbn [length] in L; lia]. cbn [known existsb]. apply IH. cbn [length]. lia.
Qed.
Lemma check_same arg st : hashed (n_ch arg) <= 1 -> check_hashes arg st = Ret tt st.
Proof.
  intro L. unfold check_hashes, bind. destruct (hashes_few (n_pos arg) st (n_ch arg) []) as (seen & -> & Ls); [cbn [length]; lia|]. cbn [fst snd].
  replace (Nat.ltb 1 (length seen)) with false by (symmetry; apply Nat.ltb_ge; exact Ls). reflexivity.
Qed.
Definition hash_shapes (l : list shape) : nat := length (filter (fun x => ntype_eqb (sh_type x) HASH) l).
Lemma hashed_shapes l : hashed l = hash_shapes (map node_shape l).
Proof. unfold hashed, hash_shapes. induction l as [|x l IH]; [reflexivity|]. cbn [map filter]. unfold is in *. rewrite (type_shape x). destruct (ntype_eqb (sh_type (node_shape x)) HASH); cbn [length]; [f_equal|]; exact IH. Qed.
Lemma hash_app a b : hash_shapes (a ++ b) = hash_shapes a + hash_shapes b.
Proof. unfold hash_shapes. rewrite filter_app. apply app_length. Qed.
Lemma compound_hashes k : hash_shapes (compound_leaves k) = length (flat_map mark_id (k_marks k)).
Proof.
  unfold compound_leaves. rewrite hash_app. replace (hash_shapes (match k_name k with Some w => [leaf IDENTIFIER w 0%Z] | None => [] end)) with 0 by (destruct (k_name k); reflexivity).
  induction (k_marks k) as [|m ms IH]; [reflexivity|]. cbn [flat_map]. rewrite hash_app, app_length. destruct m; cbn [mark_leaves mark_id length]; cbn in *; lia.
Qed.
Lemma complex_hashes s : hash_shapes (complex_leaves s) = length (flat_map (fun k => flat_map mark_id (k_marks k)) (compounds s)).
Proof.
  unfold complex_leaves, compounds. cbn [flat_map]. rewrite hash_app, app_length, compound_hashes. f_equal.
  induction (s_more s) as [|(x & k) l IH]; [reflexivity|]. cbn [flat_map map fst snd]. change (sign (link_type x) :: compound_leaves k) with ([sign (link_type x)] ++ compound_leaves k).
  rewrite !hash_app, app_length, compound_hashes, IH. replace (hash_shapes [sign (link_type x)]) with 0 by (destruct x; reflexivity). reflexivity.
Qed.

(** ** parse_selector *)
Lemma selectors_same code p k blk : n_type blk = OPEN_CURLYBRACKET -> forall gs ss acc st, Forall2 (fun l s => complex_lay s (map node_shape l)) gs ss -> Forall complex_ok ss ->
  exists gs', Forall2 (fun l s => map node_shape l = complex_leaves s) gs' ss /\
  selectors k (map (new_arg code COMMA p) gs ++ [blk]) acc st = Ret (Some (acc ++ map (new_arg code COMMA p) gs' ++ [blk])) st.
Proof.
  intros Tb gs ss acc st F. revert acc. induction F as [|l s gs ss E F IH]; intros acc Ok; cbn [map app selectors].
  - exists []. split; [constructor|]. rewrite (is_yes _ _ Tb). reflexivity.
  - inversion Ok as [|? ? O1 O2]; subst. set (arg := new_arg code COMMA p l). change (is arg OPEN_CURLYBRACKET) with false. change (is arg ARG) with true. cbn [negb].
    destruct (selector_same k arg s st O1 E) as (l' & El & Sl). destruct (IH (acc ++ [new_arg code COMMA p l']) O2) as (gs' & G1 & G2). exists (l' :: gs'). split; [now constructor|].
    unfold bind at 1. rewrite El. change (set_ch arg l') with (new_arg code COMMA p l'). unfold bind. rewrite check_same; [|change (n_ch (new_arg code COMMA p l')) with l'; rewrite hashed_shapes, Sl, complex_hashes; exact (proj2 O1)].
    rewrite G2. cbn [map]. rewrite <- app_assoc. reflexivity.
Qed.
Lemma parse_same code k n body blk r st : rule_ok r -> n_ch n = body ++ [blk] -> n_type blk = OPEN_CURLYBRACKET -> selector_lay r (map node_shape body) ->
  exists gs, Forall2 (fun l s => map node_shape l = complex_leaves s) gs (r_selectors r)
    /\ parse_selector code k n st = Ret (Some (set_ch n (map (new_arg code COMMA (n_pos n)) gs ++ [blk]))) st.
Proof.
  intros (N & F & _) E Tb S0. destruct (groups_argify code (n_pos n) blk Tb (r_selectors r) [] body [] st (or_introl eq_refl) N F S0) as (gs & G1 & G2).
  destruct (selectors_same code (n_pos n) k blk Tb gs (r_selectors r) [] st G1 F) as (gs' & G3 & G4). exists gs'. split; [exact G3|].
  unfold parse_selector, argify, bind. rewrite E. cbn [app] in G2, G4.
  destruct (body ++ [blk]) as [|x rest] eqn:Eb; [destruct body; discriminate Eb|].
  assert (Nx : is x ARG = false).
  { apply is_no. destruct body as [|y body]; cbn [app] in Eb; injection Eb as <- _; [rewrite Tb; discriminate|]. pose proof (selector_plain r _ S0) as Sp. apply (of_shapes (fun t => selector_type t = true)) in Sp.
    inversion Sp as [|? ? Sy _]; subst. intro Q. rewrite Q in Sy. discriminate Sy. }
  rewrite Nx, G2. cbn [fst snd negb ret]. unfold ret. cbn [fst snd negb]. destruct n. cbn [set_ch n_ch n_pos] in *.
  rewrite G4. reflexivity.
Qed.
