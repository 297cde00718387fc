(** * Selectors: the code and the grammar *)

From Coq Require Import String ZArith List Bool Lia.
From Verif Require Import Base NthChild Parser Selector SelectorSpec.
Import ListNotations.
Open Scope string_scope. Open Scope list_scope. Open Scope Z_scope.

(** The parameters of the grammar, for given checks. *)
Definition valid (k : checks) (sc : script) (s : str) : Prop := existsb is_error (k_run k sc s) = false.
Definition nth_arguments (k : checks) (l : list node) (v : Z) : Prop :=
  exists n, nth_parse (nth_make 0 0) (concat (map (k_text k) l)) = Some (true, n) /\ v = nth_value n.

Definition more (s : pstate) (l : list msg) : pstate := mkPS (ps_toks s) (ps_eof s) (ps_msgs s ++ l).
Lemma more_nil s : more s [] = s.
Proof. destruct s. unfold more. cbn. now rewrite app_nil_r. Qed.
Lemma more_more s a b : more (more s a) b = more s (a ++ b).
Proof. unfold more. cbn. now rewrite app_assoc. Qed.

(** ** Messages: a refusal is reported, an acceptance reports no error *)
Definition clean (l : list msg) : Prop := existsb is_error l = false.
Definition dirty (l : list msg) : Prop := existsb is_error l = true.
Definition says {A} (good : A -> bool) (m : P A) : Prop :=
  forall s, match m s with
            | Ret a s' => exists l, s' = more s l /\ (if good a then clean l else dirty l)
            | _ => True
            end.
Definition some {A} (o : option A) : bool := match o with Some _ => true | None => false end.

Lemma says_ret {A} (g : A -> bool) a : g a = true -> says g (ret a).
Proof. intros H s. cbn. exists []. rewrite more_nil, H. now split. Qed.
Lemma says_refuse {A} p t : says (@some A) (refuse p t).
Proof. intros s. cbn. exists [mkMsg LError p t]. now split. Qed.
Lemma says_fail {A} (g : A -> bool) e : says g (fail e).
Proof. intros s. exact I. Qed.
Lemma says_undef {A} (g : A -> bool) : says g (fun s => Undef s).
Proof. intros s. exact I. Qed.
Lemma clean_app a b : clean a -> clean b -> clean (a ++ b).
Proof. unfold clean. intros. rewrite existsb_app. now apply orb_false_iff. Qed.
Lemma dirty_app_r a b : dirty b -> dirty (a ++ b).
Proof. unfold dirty. intros H. rewrite existsb_app, H. apply orb_true_r. Qed.

(** A bad first answer ends the function with a bad answer. *)
Lemma says_bind {A B} (g : A -> bool) (h : B -> bool) (m : P A) (f : A -> P B) :
  says g m -> (forall a, g a = true -> says h (f a)) -> (forall a, g a = false -> exists b, h b = false /\ f a = ret b) -> says h (bind m f).
Proof.
  intros Hm Hf Hb s. unfold bind. specialize (Hm s). destruct (m s) as [a s1|e s1|s1|]; auto.
  destruct Hm as (l & -> & Hl). destruct (g a) eqn:E.
  - specialize (Hf a E (more s l)). destruct (f a (more s l)) as [b s2|e s2|s2|]; auto.
    destruct Hf as (l2 & -> & Hl2). exists (l ++ l2). rewrite more_more. split; [reflexivity|].
    destruct (h b); [now apply clean_app|now apply dirty_app_r].
  - destruct (Hb a E) as (b & Hb1 & ->). cbn. exists l. split; [reflexivity|]. now rewrite Hb1.
Qed.

Lemma passes_valid k sc s : passes (k_run k sc s) = true <-> valid k sc s.
Proof. unfold passes, valid. destruct (existsb is_error (k_run k sc s)); cbn; split; congruence. Qed.
Lemma run_validation_run k sc nm b s :
  run_validation k sc nm b s = Ret (passes (k_run k sc nm)) (if b then s else more s (k_run k sc nm)).
Proof. destruct b; reflexivity. Qed.
Lemma says_validation k sc nm : says (fun b : bool => b) (run_validation k sc nm false).
Proof.
  intros s. rewrite run_validation_run. exists (k_run k sc nm). split; [reflexivity|].
  unfold passes, clean, dirty. destruct (existsb is_error (k_run k sc nm)); reflexivity.
Qed.
Lemma says_check k sc nm : says (fun _ : bool => true) (run_validation k sc nm true).
Proof. intros s. rewrite run_validation_run. exists []. rewrite more_nil. now split. Qed.

Lemma says_attribute done n rest : says some (attribute_check done n rest).
Proof.
  unfold attribute_check.
  repeat first [apply says_refuse|apply says_fail|apply says_ret; reflexivity|
    match goal with |- says _ (match ?x with _ => _ end) => destruct x end].
Qed.
Lemma says_lang k f : says (fun b : bool => b) (lang_check k f).
Proof.
  unfold lang_check. 
  assert (R : forall p t, says (fun b : bool => b) (report p t ;;; ret false)).
  { intros p t s. cbn. exists [mkMsg LError p t]. now split. }
  destruct (n_ch f) as [|x [|? ?]]; try apply R.
  destruct (is x IDENTIFIER); [|apply R].
  eapply says_bind; [apply says_validation| |].
  - intros a Ha. cbn in Ha. rewrite Ha. destruct (before_dash (after_dash (n_str x))); [now apply says_ret|apply says_validation].
  - intros a Ha. cbn in Ha. rewrite Ha. now exists false.
Qed.
Lemma says_pseudo k p f : says some (pseudo_function k p f).
Proof.
  unfold pseudo_function. eapply says_bind; [apply says_check| |intros ? [=]].
  intros a _. destruct a.
  - destruct (nth_parse _ _) as [[[] n]|]; [now apply says_ret|apply says_refuse|apply says_undef].
  - eapply says_bind; [apply says_validation| |].
    + intros a Ha. cbn in Ha. subst a. cbn [negb]. destruct (str_eqb _ _); [apply says_refuse|].
      destruct (str_eqb _ _); [|now apply says_ret].
      eapply says_bind; [apply says_lang| |].
      * intros a Ha. cbn in Ha. subst a. now apply says_ret.
      * intros a Ha. cbn in Ha. subst a. now exists None.
    + intros a Ha. cbn in Ha. subst a. now exists None.
Qed.
Lemma says_simple k p c : says some (simple_term k p c).
Proof.
  unfold simple_term. destruct c as [done todo]. destruct todo as [|t r]; [apply says_fail|].
  destruct (n_type t);
    repeat first [apply says_refuse|apply says_fail|apply says_attribute|apply says_ret; reflexivity|
      match goal with |- says _ (match ?x with _ => _ end) => destruct x end].
  - eapply says_bind; [apply says_pseudo| |].
    + intros [a|] Ha; [|discriminate]. now apply says_ret.
    + intros [a|] Ha; [discriminate|]. now exists None.
  - eapply says_bind; [apply says_validation| |].
    + intros a Ha. cbn in Ha. subst a. now apply says_ret.
    + intros a Ha. cbn in Ha. subst a. now exists None.
Qed.
Lemma says_term k p c : says some (selector_term k p c).
Proof.
  unfold selector_term. destruct c as [done todo]. destruct todo as [|t r]; [apply says_fail|].
  destruct (n_type t);
    repeat first [apply says_refuse|apply says_fail|apply says_simple|apply says_ret; reflexivity|
      match goal with |- says _ (match ?x with _ => _ end) => destruct x end].
  - eapply says_bind; [apply says_validation| |].
    + intros a Ha. cbn in Ha. subst a. cbn. match goal with |- says _ (match ?x with _ => _ end) => destruct x end; [now apply says_ret|apply says_refuse].
    + intros a Ha. cbn in Ha. subst a. now exists None.
  - eapply says_bind; [apply says_simple| |].
    + intros [[i [|? ?]]|] Ha; [now apply says_ret|apply says_refuse|discriminate].
    + intros [a|] Ha; [discriminate|]. now exists None.
Qed.
Lemma says_separator p c : says some (skip_separator p c).
Proof.
  unfold skip_separator. destruct c as [done todo].
  repeat first [apply says_refuse|apply says_fail|apply says_ret; reflexivity|
    match goal with |- says _ (match ?x with _ => _ end) => destruct x end].
Qed.
Lemma says_loop k p : forall fuel c, says some (selector_loop fuel k p c).
Proof.
  induction fuel as [|fuel IH]; intros c; [intros s; exact I|]. cbn [selector_loop].
  eapply says_bind; [apply says_term| |].
  - intros [[d [|t r]]|] Ha; [now apply says_ret| |discriminate].
    eapply says_bind; [apply says_separator| |].
    + intros [c'|] Hc; [apply IH|discriminate].
    + intros [c'|] Hc; [discriminate|]. now exists None.
  - intros [a|] Ha; [discriminate|]. now exists None.
Qed.
Lemma says_list k n : says some (selector_list k n).
Proof.
  unfold selector_list. eapply says_bind; [apply says_loop| |].
  - intros [a|] Ha; [now apply says_ret|discriminate].
  - intros [a|] Ha; [discriminate|]. now exists None.
Qed.

(** ** Acceptance is the grammar *)
Lemma is_spec n t : is n t = true <-> n_type n = t.
Proof. unfold is. apply ntype_eqb_spec. Qed.
Lemma is_false n t : is n t = false <-> n_type n <> t.
Proof. unfold is. apply ntype_eqb_neq. Qed.

Lemma drop_space l : exists a, optional_space a /\ l = a ++ drop_front1 l.
Proof.
  destruct l as [|x r]; [exists []; split; [now left|reflexivity]|]. cbn. unfold is_ws. destruct (is x WHITESPACE) eqn:E.
  - exists [x]. split; [right; exists x; split; [reflexivity|now apply is_spec]|reflexivity].
  - exists []. split; [now left|reflexivity].
Qed.
Lemma drop_space_run a x r : optional_space a -> n_type x <> WHITESPACE -> drop_front1 (a ++ x :: r) = x :: r.
Proof.
  intros [->|(w & -> & W)] X; cbn; unfold is_ws.
  - apply is_false in X. now rewrite X.
  - apply is_spec in W. now rewrite W.
Qed.
Lemma drop_space_nil a : optional_space a -> drop_front1 a = [].
Proof. intros [->|(w & -> & W)]; [reflexivity|]. cbn. unfold is_ws. apply is_spec in W. now rewrite W. Qed.
Lemma attribute_operator_spec n : attribute_operator n = true <-> operator (n_type n).
Proof.
  unfold attribute_operator, operator. rewrite !orb_true_iff, !is_spec. cbn. intuition.
Qed.
Lemma attribute_value_spec n : attribute_value n = true <-> value (n_type n).
Proof. unfold attribute_value, value. rewrite !orb_true_iff, !is_spec. cbn. intuition. Qed.
Lemma is_name_spec n : is_name n = true <-> name (n_type n).
Proof. unfold is_name, name. rewrite !orb_true_iff, !is_spec. cbn. intuition. Qed.
Lemma is_combinator_spec n : is_combinator n = true <-> combinator (n_type n).
Proof. unfold is_combinator, combinator. rewrite !orb_true_iff, !is_spec. cbn. intuition. Qed.
Lemma not_space_operator n : operator (n_type n) -> n_type n <> WHITESPACE.
Proof. intros H E. rewrite E in H. cbn in H. intuition discriminate. Qed.
Lemma not_space_value n : value (n_type n) -> n_type n <> WHITESPACE.
Proof. intros H E. rewrite E in H. cbn in H. intuition discriminate. Qed.
Lemma not_space_combinator n : combinator (n_type n) -> n_type n <> WHITESPACE.
Proof. intros H E. rewrite E in H. cbn in H. intuition discriminate. Qed.

(** The tokens that replace a '[' with the content [l]. *)
Definition bracket (b : node) (l : list node) : list node :=
  match l with
  | [n; o; v] =>
      if is o NOT_EQUAL then
        [mk COLON (n_pos b); set_ch (set_str (mk FUNCTION (n_pos b)) (zs "not")) [set_ch b [n; mk EQUAL (n_pos b); v]]]
      else [set_ch b l]
  | _ => [set_ch b l]
  end.
Lemma attribute_run done b rest l s : attribute (n_ch b) l -> attribute_check done b rest s = Ret (Some (done ++ bracket b l, rest)) s.
Proof.
  intros H. unfold attribute_check. inversion H as [a n c Ha Hn Hc E El|a n c o d v Ha Hn Hc Ho Hd Hv E El]; subst l.
  - assert (N : n_ch b <> []) by (rewrite <- E; destruct a; discriminate).
    assert (W : n_type n <> WHITESPACE) by congruence. apply is_spec in Hn.
    rewrite <- E in *. rewrite (drop_space_run a n c Ha W), Hn, (drop_space_nil c Hc). cbn [negb].
    destruct (a ++ n :: c); [contradiction|reflexivity].
  - assert (N : n_ch b <> []) by (rewrite <- E; destruct a; discriminate).
    assert (W : n_type n <> WHITESPACE) by congruence. apply is_spec in Hn.
    rewrite <- E in *. rewrite (drop_space_run a n _ Ha W), Hn. cbn [negb].
    rewrite (drop_space_run c o _ Hc (not_space_operator _ Ho)).
    rewrite (drop_space_run d v _ Hd (not_space_value _ Hv)).
    apply attribute_operator_spec in Ho. apply attribute_value_spec in Hv. rewrite Ho, Hv. cbn [negb bracket].
    destruct (a ++ n :: c ++ o :: d ++ [v]); [contradiction|]. destruct (is o NOT_EQUAL); reflexivity.
Qed.
Lemma attribute_only done b rest s r s' : attribute_check done b rest s = Ret (Some r) s' ->
  exists l, attribute (n_ch b) l /\ r = (done ++ bracket b l, rest) /\ s' = s.
Proof.
  unfold attribute_check. intros H. destruct (n_ch b) as [|x0 r0] eqn:E0; [discriminate|]. rewrite <- E0 in *.
  destruct (drop_space (n_ch b)) as (a & Ha & Ea).
  destruct (drop_front1 (n_ch b)) as [|n r1] eqn:E1; [discriminate|].
  destruct (is n IDENTIFIER) eqn:En; [|discriminate]. cbn [negb] in H. apply is_spec in En.
  destruct (drop_space r1) as (c & Hc & Ec).
  destruct (drop_front1 r1) as [|o r2] eqn:E2.
  { injection H as <- <-. exists [n]. split; [|now split].
    rewrite Ea, Ec, app_nil_r. now constructor. }
  destruct (attribute_operator o) eqn:Eo; [|discriminate]. cbn [negb] in H. apply attribute_operator_spec in Eo.
  destruct (drop_space r2) as (d & Hd & Ed).
  destruct (drop_front1 r2) as [|v r3] eqn:E3; [discriminate|].
  destruct (attribute_value v) eqn:Ev; [|discriminate]. cbn [negb] in H. apply attribute_value_spec in Ev.
  destruct r3; [|discriminate].
  exists [n; o; v]. split.
  { rewrite Ea, Ec, Ed. now constructor. }
  cbn [bracket]. destruct (is o NOT_EQUAL); injection H as <- <-; now split.
Qed.

Lemma simple_bracket cn nn fn la co na b l rest : n_type b = OPEN_SQUAREBRACKET -> attribute (n_ch b) l ->
  simple cn nn fn la co na [b] rest (bracket b l).
Proof.
  intros B H. unfold bracket. inversion H as [a n c Ha Hn Hc E El|a n c o d v Ha Hn Hc Ho Hd Hv E El]; subst l.
  - apply si_attribute; [assumption|assumption|]. intros (? & ? & ? & X & _). discriminate.
  - destruct (is o NOT_EQUAL) eqn:Q.
    + apply is_spec in Q. eapply si_not_equal; eassumption.
    + apply si_attribute; [assumption|assumption|]. intros (? & ? & ? & X & Y). injection X as <- <- <-. apply is_false in Q. contradiction.
Qed.

(** *** Languages *)
Lemma before_dash_none s : ~ In 45 s -> before_dash s = s /\ after_dash s = [].
Proof.
  induction s as [|c r IH]; cbn; [now split|]. intros H.
  destruct (Z.eqb_spec c 45); [subst; exfalso; apply H; now left|].
  destruct (IH (fun X => H (or_intror X))) as [-> ->]. now split.
Qed.
Lemma before_dash_mid a r : ~ In 45 a -> before_dash (a ++ 45 :: r) = a /\ after_dash (a ++ 45 :: r) = r.
Proof.
  induction a as [|c a IH]; cbn; [now split|]. intros H.
  destruct (Z.eqb_spec c 45); [subst; exfalso; apply H; now left|].
  destruct (IH (fun X => H (or_intror X))) as [-> ->]. now split.
Qed.
Lemma dash_split s : ~ In 45 (before_dash s) /\ (s = before_dash s /\ after_dash s = [] \/ s = before_dash s ++ 45 :: after_dash s).
Proof.
  induction s as [|c r IH]; cbn; [split; [tauto|now left]|].
  destruct (Z.eqb_spec c 45); [subst; cbn; split; [tauto|now right]|].
  destruct IH as [I1 I2]. split; [intros [X|X]; [congruence|tauto]|].
  destruct I2 as [[I2 I3]|I2]; [left; split; [now rewrite <- I2|assumption]|right; cbn; now rewrite <- I2].
Qed.

Section Checks.
  Variable k : checks.
  Notation "'V' sc" := (valid k sc) (at level 9).
  Notation tagV := (tag (V Languages) (V Countries)).
  Notation pseudoV := (pseudo (V PseudoNthFunctions) (V PseudoFunctions) (V Languages) (V Countries) (nth_arguments k)).
  Notation simpleV := (simple (V PseudoClasses) (V PseudoNthFunctions) (V PseudoFunctions) (V Languages) (V Countries) (nth_arguments k)).
  Notation termV := (term (V PseudoClasses) (V PseudoNthFunctions) (V PseudoFunctions) (V PseudoElements) (V Languages) (V Countries) (nth_arguments k)).
  Notation termsV := (terms (V PseudoClasses) (V PseudoNthFunctions) (V PseudoFunctions) (V PseudoElements) (V Languages) (V Countries) (nth_arguments k)).

  Lemma lang_iff f s : (exists s', lang_check k f s = Ret true s') <-> exists x, n_ch f = [x] /\ n_type x = IDENTIFIER /\ tagV (n_str x).
  Proof.
    unfold lang_check. split.
    - intros (s' & H). destruct (n_ch f) as [|x [|? ?]]; try discriminate. exists x. split; [reflexivity|].
      destruct (is x IDENTIFIER) eqn:E; [|discriminate]. apply is_spec in E. split; [assumption|].
      unfold bind in H. rewrite run_validation_run in H. destruct (passes (k_run k Languages _)) eqn:Q; [|discriminate].
      apply passes_valid in Q. destruct (dash_split (n_str x)) as [D1 [[D2 D3]|D2]].
      + rewrite D2. apply tag_language; assumption.
      + rewrite D2. destruct (dash_split (after_dash (n_str x))) as [F1 F2].
        assert (C : before_dash (after_dash (n_str x)) = [] \/ V Countries (before_dash (after_dash (n_str x)))).
        { destruct (before_dash (after_dash (n_str x))) eqn:G; [now left|]. rewrite run_validation_run in H.
          injection H as H _. right. now apply passes_valid. }
        destruct F2 as [[F2 F3]|F2].
        * rewrite F2, <- (app_nil_r (before_dash (after_dash (n_str x)))). apply tag_country; auto.
        * rewrite F2. apply tag_country; auto. right. now eexists.
    - intros (x & -> & T & G). apply is_spec in T. rewrite T. unfold bind. rewrite run_validation_run.
      destruct G as [l N L|l c t N M Ht L C].
      + destruct (before_dash_none l N) as [-> ->]. apply passes_valid in L. rewrite L. cbn. now eexists.
      + unfold dash in *. destruct (before_dash_mid l (c ++ t) N) as [-> ->]. apply passes_valid in L. rewrite L.
        assert (B : before_dash (c ++ t) = c).
        { destruct Ht as [->|(r & ->)]; [rewrite app_nil_r; now apply before_dash_none|now apply before_dash_mid]. }
        rewrite B. destruct c; [now eexists|]. destruct C as [C|C]; [discriminate|].
        rewrite run_validation_run. apply passes_valid in C. rewrite C. now eexists.
  Qed.

  Lemma pseudo_iff p f f' s : (exists s', pseudo_function k p f s = Ret (Some f') s') <-> pseudoV f f'.
  Proof.
    unfold pseudo_function. unfold bind at 1. rewrite run_validation_run. cbn match. split.
    - intros (s' & H). destruct (passes (k_run k PseudoNthFunctions _)) eqn:Q.
      + apply passes_valid in Q. destruct (nth_parse _ _) as [[[] n]|] eqn:E; [|discriminate|discriminate].
        injection H as <- <-. apply ps_nth; [assumption|]. exists n. now split.
      + assert (NQ : ~ V PseudoNthFunctions (n_str f)) by (rewrite <- passes_valid; congruence).
        unfold bind at 1 in H. rewrite run_validation_run in H.
        destruct (passes (k_run k PseudoFunctions _)) eqn:Q2; [|discriminate]. apply passes_valid in Q2. cbn [negb] in H.
        destruct (str_eqb (n_str f) (zs "not")) eqn:E1; [discriminate|]. apply str_eqb_neq in E1.
        destruct (str_eqb (n_str f) (zs "lang")) eqn:E2.
        * apply str_eqb_spec in E2. unfold bind in H.
          destruct (lang_check k f _) as [[] s1|e s1|s1|] eqn:L; try discriminate.
          injection H as <- <-. assert (LL : exists s', lang_check k f (more s (k_run k PseudoFunctions (n_str f))) = Ret true s') by now exists s1.
          apply lang_iff in LL. destruct LL as (x & X1 & X2 & X3). eapply ps_lang; eassumption.
        * apply str_eqb_neq in E2. injection H as <- <-. now apply ps_other.
    - intros H. destruct H as [f v N (n & E & ->)|f x N F E X1 X2 X3|f N F E1 E2].
      + apply passes_valid in N. rewrite N, E. now eexists.
      + rewrite <- passes_valid in N. apply not_true_is_false in N. rewrite N. unfold bind at 1. rewrite run_validation_run.
        apply passes_valid in F. rewrite F. cbn [negb]. rewrite E.
        change (str_eqb (zs "lang") (zs "not")) with false. change (str_eqb (zs "lang") (zs "lang")) with true. cbn match.
        destruct (proj2 (lang_iff f (more s (k_run k PseudoFunctions (zs "lang"))))) as (s' & L); [now exists x|].
        unfold bind. rewrite L. now eexists.
      + rewrite <- passes_valid in N. apply not_true_is_false in N. rewrite N. unfold bind at 1. rewrite run_validation_run.
        apply passes_valid in F. rewrite F. cbn [negb].
        apply str_eqb_neq in E1. apply str_eqb_neq in E2. rewrite E1, E2. now eexists.
  Qed.

  (** *** Simple terms *)
  Lemma next_dec t l : {next_is t l} + {~ next_is t l}.
  Proof.
    destruct l as [|x r]; [right; intros (? & ? & ? & _); discriminate|].
    destruct (ntype_eq_dec (n_type x) t); [left; now exists x, r|right; intros (? & ? & E & ?)]. injection E as <- <-. contradiction.
  Qed.
  Lemma next_cons t x r : next_is t (x :: r) <-> n_type x = t.
  Proof. split; [intros (? & ? & E & ?); now injection E as <- <-|intros; now exists x, r]. Qed.
  Lemma next_nil t : ~ next_is t [].
  Proof. intros (? & ? & ? & _). discriminate. Qed.

  Lemma simple_run p done x rest y s : simpleV x rest y ->
    exists s', simple_term k p (done, x ++ rest) s = Ret (Some (done ++ y, rest)) s'.
  Proof.
    intros H. destruct H as [h rest H|x rest N NS NM|x rest X N|x b y rest X B Y|b y rest B Y|d x rest D X|c x rest C X K|c f f' rest C F H|b l rest B A NN|b n o v rest B A O];
      unfold simple_term; cbn [app].
    - rewrite H. now eexists.
    - destruct N as [N|[N|[]]].
      + rewrite <- N. destruct rest as [|u r]; [now eexists|]. rewrite next_cons in NS. apply is_false in NS. rewrite NS.
        replace (is x MULTIPLY) with false by (symmetry; apply is_false; congruence). now eexists.
      + rewrite <- N. destruct rest as [|u r]; [now eexists|]. rewrite next_cons in NS. apply is_false in NS. rewrite NS.
        rewrite !next_cons, <- !is_spec in NM.
        destruct (is x MULTIPLY); [|now eexists]. destruct (is u OPEN_SQUAREBRACKET); [tauto|]. destruct (is u PERIOD); [tauto|]. now eexists.
    - rewrite X. apply is_spec in X. rewrite X, app_nil_r. destruct rest as [|u r]; [exfalso; destruct N as [N|N]; eapply next_nil; exact N|].
      rewrite !next_cons, <- !is_spec in N.
      replace (is u SCOPE) with false.
      2: { symmetry. apply is_false. intros E. unfold is in N. rewrite E in N. destruct N; discriminate. }
      cbn [andb]. destruct N as [->|N]; [cbn; now eexists|]. rewrite N, orb_true_r. now eexists.
    - apply is_name_spec in Y. apply is_spec in B. rewrite B, Y. destruct X as [X|[X|[]]]; rewrite <- X; now eexists.
    - apply is_name_spec in Y. rewrite B, Y. now eexists.
    - apply is_spec in X. rewrite D, X. now eexists.
    - rewrite C, X. unfold bind. rewrite run_validation_run. apply passes_valid in K. rewrite K. now eexists.
    - rewrite C, F. unfold bind. destruct (proj2 (pseudo_iff p f f' s) H) as (s' & ->). now eexists.
    - rewrite B. rewrite (attribute_run done b rest l s A). exists s. repeat f_equal.
      unfold bracket. destruct l as [|n [|o [|v [|? ?]]]]; try reflexivity. destruct (is o NOT_EQUAL) eqn:Q; [|reflexivity].
      apply is_spec in Q. exfalso. apply NN. now exists n, o, v.
    - rewrite B. rewrite (attribute_run done b rest _ s A). exists s. cbn [bracket]. apply is_spec in O. now rewrite O.
  Qed.

  Lemma simple_only p done todo s c s' : simple_term k p (done, todo) s = Ret (Some c) s' ->
    exists x rest y, todo = x ++ rest /\ simpleV x rest y /\ c = (done ++ y, rest).
  Proof.
    unfold simple_term. intros H. destruct todo as [|t r]; [discriminate|].
    destruct (n_type t) eqn:T; try discriminate.
    - (* COLON *)
      destruct r as [|u r']; [discriminate|]. destruct (n_type u) eqn:U; try discriminate.
      + unfold bind in H. destruct (pseudo_function k p u s) as [[f|] s1|e s1|s1|] eqn:Q; try discriminate.
        injection H as <- <-. exists [t; u], r', [t; f]. split; [reflexivity|]. split; [|reflexivity].
        apply si_function; [assumption|assumption|]. apply (pseudo_iff p u f s). now exists s1.
      + unfold bind in H. rewrite run_validation_run in H. destruct (passes _) eqn:Q; [|discriminate]. apply passes_valid in Q.
        injection H as <- <-. exists [t; u], r', [t; u]. split; [reflexivity|]. split; [|reflexivity]. now apply si_pseudo_class.
    - (* HASH *) injection H as <- <-. exists [t], r, [t]. split; [reflexivity|]. split; [now apply si_id|reflexivity].
    - (* IDENTIFIER *)
      assert (NM : ~ (n_type t = MULTIPLY /\ (next_is OPEN_SQUAREBRACKET r \/ next_is PERIOD r))) by (intros [X _]; congruence).
      assert (Nt : name (n_type t)) by (rewrite T; now left).
      destruct r as [|u r'].
      { injection H as <- <-. exists [t], [], [t]. split; [reflexivity|]. split; [|reflexivity]. apply si_name; auto. apply next_nil. }
      destruct (is u SCOPE) eqn:U.
      + apply is_spec in U. destruct r' as [|v r'']; [discriminate|]. destruct (is_name v) eqn:W; [|discriminate]. apply is_name_spec in W.
        injection H as <- <-. exists [t; u; v], r'', [t; u; v]. split; [reflexivity|]. split; [|reflexivity]. now apply si_space_name.
      + replace (is t MULTIPLY) with false in H by (symmetry; apply is_false; congruence). cbn [andb] in H.
        injection H as <- <-. exists [t], (u :: r'), [t]. split; [reflexivity|]. split; [|reflexivity]. apply si_name; auto.
        rewrite next_cons. now apply is_false.
    - (* MULTIPLY *)
      assert (Nt : name (n_type t)) by (rewrite T; right; now left).
      destruct r as [|u r'].
      { injection H as <- <-. exists [t], [], [t]. split; [reflexivity|]. split; [|reflexivity]. apply si_name; auto; [apply next_nil|].
        intros [_ [X|X]]; eapply next_nil; exact X. }
      destruct (is u SCOPE) eqn:U.
      + apply is_spec in U. destruct r' as [|v r'']; [discriminate|]. destruct (is_name v) eqn:W; [|discriminate]. apply is_name_spec in W.
        injection H as <- <-. exists [t; u; v], r'', [t; u; v]. split; [reflexivity|]. split; [|reflexivity]. now apply si_space_name.
      + apply is_spec in T. rewrite T in H. cbn [andb] in H. destruct (is u OPEN_SQUAREBRACKET || is u PERIOD) eqn:W.
        * injection H as <- <-. exists [t], (u :: r'), []. split; [reflexivity|]. rewrite app_nil_r. split; [|reflexivity].
          apply si_star; [now apply is_spec|]. rewrite !next_cons, <- !is_spec. now apply orb_true_iff.
        * injection H as <- <-. exists [t], (u :: r'), [t]. split; [reflexivity|]. split; [|reflexivity].
          apply si_name; auto; [rewrite next_cons; now apply is_false|]. rewrite !next_cons, <- !is_spec. rewrite <- orb_true_iff. intuition congruence.
    - (* OPEN_SQUAREBRACKET *)
      destruct (attribute_only _ _ _ _ _ _ H) as (l & A & -> & ->). exists [t], r, (bracket t l). split; [reflexivity|].
      split; [|reflexivity]. now apply simple_bracket.
    - (* PERIOD *)
      destruct r as [|u r']; [discriminate|]. destruct (is u IDENTIFIER) eqn:U; [|discriminate]. apply is_spec in U.
      injection H as <- <-. exists [t; u], r', [t; u]. split; [reflexivity|]. split; [|reflexivity]. now apply si_class.
    - (* SCOPE *)
      destruct r as [|u r']; [discriminate|]. destruct (is_name u) eqn:U; [|discriminate]. apply is_name_spec in U.
      injection H as <- <-. exists [t; u], r', [t; u]. split; [reflexivity|]. split; [|reflexivity]. now apply si_no_space.
  Qed.

  (** *** Terms *)
  Hypothesis not_nth : ~ V PseudoNthFunctions (zs "not").
  Lemma pseudo_not f f' : pseudoV f f' -> n_str f <> zs "not".
  Proof. intros H. destruct H as [f v N A|f x N F E X1 X2 X3|f N F E1 E2]; intros X; rewrite X in *; try contradiction; discriminate. Qed.

  Lemma term_simple p done x rest y s : simpleV x rest y -> selector_term k p (done, x ++ rest) s = simple_term k p (done, x ++ rest) s.
  Proof.
    intros H. unfold selector_term.
    destruct H as [h rest H|x rest N NS NM|x rest X N|x b y rest X B Y|b y rest B Y|d x rest D X|c x rest C X K|c f f' rest C F H|b l rest B A NN|b n o v rest B A O]; cbn [app].
    - rewrite H. reflexivity.
    - destruct N as [N|[N|[]]]; rewrite <- N; reflexivity.
    - rewrite X. reflexivity.
    - destruct X as [X|[X|[]]]; rewrite <- X; reflexivity.
    - rewrite B. reflexivity.
    - rewrite D. reflexivity.
    - rewrite C, X. reflexivity.
    - rewrite C, F. apply pseudo_not in H. apply str_eqb_neq in H. rewrite H. reflexivity.
    - rewrite B. reflexivity.
    - rewrite B. reflexivity.
  Qed.

  Lemma term_run p done first x rest y s : (first = true -> done = []) -> termV first x rest y ->
    exists s', selector_term k p (done, x ++ rest) s = Ret (Some (done ++ y, rest)) s'.
  Proof.
    intros D H. destruct H as [x rest y H|h rest H|h rest H F|c f l rest C F E H|c d x C F X K].
    - rewrite (term_simple _ _ _ _ _ _ H). now apply simple_run.
    - cbn. rewrite H. now eexists.
    - rewrite (D F). cbn. rewrite H. now eexists.
    - unfold selector_term. cbn [app]. rewrite C, F, E. change (str_eqb (zs "not") (zs "not")) with true. cbn match. unfold bind.
      destruct (simple_run (n_pos f) [] (n_ch f) [] l s H) as (s' & R). rewrite app_nil_r in R. rewrite R. now eexists.
    - unfold selector_term. cbn [app]. rewrite C, F. apply is_spec in X. rewrite X. unfold bind. rewrite run_validation_run. apply passes_valid in K. rewrite K. now eexists.
  Qed.

  Definition nil_b {A} (l : list A) : bool := match l with [] => true | _ => false end.
  Lemma term_only p done todo s c s' : selector_term k p (done, todo) s = Ret (Some c) s' ->
    exists x rest y, todo = x ++ rest /\ termV (nil_b done) x rest y /\ c = (done ++ y, rest).
  Proof.
    unfold selector_term. intros H. destruct todo as [|t r]; [discriminate|].
    assert (G : simple_term k p (done, t :: r) s = Ret (Some c) s' ->
      exists x rest y, t :: r = x ++ rest /\ termV (nil_b done) x rest y /\ c = (done ++ y, rest)).
    { intros Q. destruct (simple_only _ _ _ _ _ _ Q) as (x & rest & y & E1 & E2 & E3). exists x, rest, y.
      split; [assumption|]. split; [now apply te_simple|assumption]. }
    destruct (n_type t) eqn:T; try discriminate; try (apply G; exact H).
    - (* COLON *)
      destruct r as [|u r']; [discriminate|]. destruct (n_type u) eqn:U; try discriminate; try (apply G; exact H).
      + destruct r' as [|v r'']; [discriminate|]. destruct (is v IDENTIFIER) eqn:W; [|discriminate]. apply is_spec in W.
        unfold bind in H. rewrite run_validation_run in H. destruct (passes _) eqn:Q; [|discriminate]. apply passes_valid in Q. cbn [negb] in H.
        destruct r''; [|discriminate]. injection H as <- <-. exists [t; u; v], [], [t; u; v]. split; [reflexivity|]. split; [|reflexivity].
        now apply te_element.
      + destruct (str_eqb (n_str u) (zs "not")) eqn:N; [|apply G; exact H]. apply str_eqb_spec in N.
        unfold bind in H. destruct (simple_term k (n_pos u) ([], n_ch u) s) as [[[inner [|? ?]]|] s1|e s1|s1|] eqn:Q; try discriminate.
        injection H as <- <-. destruct (simple_only _ _ _ _ _ _ Q) as (x & rest & y & E1 & E2 & E3).
        injection E3 as -> <-. rewrite app_nil_r in E1. subst x.
        exists [t; u], r', [t; set_ch u y]. split; [reflexivity|]. split; [|reflexivity]. now apply te_not.
    - (* PLACEHOLDER *) injection H as <- <-. exists [t], r, [t]. split; [reflexivity|]. split; [now apply te_placeholder|reflexivity].
    - (* REFERENCE *)
      destruct done as [|? ?]; [|discriminate]. injection H as <- <-. exists [t], r, [t]. split; [reflexivity|].
      split; [now apply te_reference|reflexivity].
  Qed.

  (** The first token of a term. *)
  Lemma simple_head x rest y : simpleV x rest y -> exists t r, x = t :: r /\ n_type t <> WHITESPACE /\ ~ combinator (n_type t) /\ n_type t <> REFERENCE.
  Proof.
    intros H. destruct H; eexists; eexists; (split; [reflexivity|]);
      repeat match goal with N : name (n_type _) |- _ => destruct N as [N|[N|[]]] end;
      match goal with
      | N : n_type ?z = _ |- n_type ?z <> _ /\ _ => rewrite N
      | N : _ = n_type ?z |- n_type ?z <> _ /\ _ => rewrite <- N
      end; (split; [discriminate|split; [intros [Q|[Q|[Q|[]]]]; discriminate|discriminate]]).
  Qed.
  Lemma term_head first x rest y : termV first x rest y -> exists t r, x = t :: r /\ n_type t <> WHITESPACE /\ ~ combinator (n_type t).
  Proof.
    intros H. destruct H as [x rest y H|h rest H|h rest H F|c f l rest C F E H|c d x C F X K].
    - destruct (simple_head _ _ _ H) as (t & r & E & N1 & N2 & _). now exists t, r.
    - exists h, []. rewrite H. split; [reflexivity|]. split; [discriminate|]. intros [Q|[Q|[Q|[]]]]; discriminate.
    - exists h, []. rewrite H. split; [reflexivity|]. split; [discriminate|]. intros [Q|[Q|[Q|[]]]]; discriminate.
    - exists c, [f]. rewrite C. split; [reflexivity|]. split; [discriminate|]. intros [Q|[Q|[Q|[]]]]; discriminate.
    - exists c, [d; x]. rewrite C. split; [reflexivity|]. split; [discriminate|]. intros [Q|[Q|[Q|[]]]]; discriminate.
  Qed.
  Lemma terms_head first l l' : termsV first l l' -> exists t r, l = t :: r /\ n_type t <> WHITESPACE /\ ~ combinator (n_type t).
  Proof.
    intros H. destruct H as [x y H|x y g g' r r' H B R].
    - now apply (term_head _ _ _ _ H).
    - destruct (term_head _ _ _ _ H) as (t & q & -> & N). exists t, (q ++ g ++ r). split; [reflexivity|assumption].
  Qed.

  Lemma separator_run p done g g' r s : between g g' -> (exists t q, r = t :: q /\ n_type t <> WHITESPACE /\ ~ combinator (n_type t)) ->
    skip_separator p (done, g ++ r) s = Ret (Some (done ++ g', r)) s.
  Proof.
    intros B (t & q & -> & NW & NC). apply is_false in NW. fold (is_ws t) in NW. rewrite <- is_combinator_spec in NC. apply not_true_is_false in NC.
    unfold skip_separator. destruct B as [|w W|a o b A O B].
    - cbn [app]. rewrite NW, NC, app_nil_r. reflexivity.
    - cbn [app]. apply is_spec in W. fold (is_ws w) in W. rewrite W, NC. reflexivity.
    - pose proof (not_space_combinator _ O) as OW. apply is_false in OW. fold (is_ws o) in OW. apply is_combinator_spec in O.
      assert (Q : forall d, match b ++ t :: q with [] => refuse p "found token, which is expected to be followed by another selector term."
          | u :: r' => if is_ws u then match r' with [] => fail XLogic | _ => ret (Some (d ++ [o], r')) end else ret (Some (d ++ [o], b ++ t :: q)) end s
         = Ret (Some (d ++ [o], t :: q)) s).
      { intros d. destruct B as [->|(w & -> & W)]; cbn [app]; [now rewrite NW|]. apply is_spec in W. fold (is_ws w) in W. now rewrite W. }
      destruct A as [->|(w & -> & W)]; cbn [app].
      + rewrite OW, O. rewrite <- (Q done). destruct (b ++ t :: q); reflexivity.
      + apply is_spec in W. fold (is_ws w) in W. rewrite W, O. rewrite <- (Q done). destruct (b ++ t :: q); reflexivity.
  Qed.
  Lemma separator_only p done todo s c s' : skip_separator p (done, todo) s = Ret (Some c) s' ->
    exists g g' r, todo = g ++ r /\ between g g' /\ c = (done ++ g', r) /\ (g' = [] -> g = []).
  Proof.
    unfold skip_separator. intros H. destruct todo as [|t r]; [discriminate|].
    assert (G : forall a o q, optional_space a -> combinator (n_type o) ->
      match q with [] => refuse p "found token, which is expected to be followed by another selector term."
          | u :: r' => if is_ws u then match r' with [] => fail XLogic | _ => ret (Some (done ++ [o], r')) end else ret (Some (done ++ [o], q)) end s
       = Ret (Some c) s' -> exists g g' r, a ++ o :: q = g ++ r /\ between g g' /\ c = (done ++ g', r) /\ (g' = [] -> g = [])).
    { intros a o q A O R. destruct q as [|u r']; [discriminate|]. destruct (is_ws u) eqn:U.
      - apply is_spec in U. destruct r' as [|u2 r']; [discriminate|]. injection R as <- <-. exists (a ++ o :: [u]), [o], (u2 :: r').
        split; [now rewrite <- app_assoc|]. split; [|split; [reflexivity|discriminate]]. apply be_operator; auto. right. now exists u.
      - injection R as <- <-. exists (a ++ [o]), [o], (u :: r'). split; [now rewrite <- app_assoc|].
        split; [|split; [reflexivity|discriminate]]. apply be_operator; auto. now left. }
    destruct (is_ws t) eqn:T.
    - apply is_spec in T. destruct r as [|u r']; [discriminate|]. destruct (is_combinator u) eqn:U.
      + apply is_combinator_spec in U. apply (G [t] u r'); [right; now exists t|assumption|exact H].
      + injection H as <- <-. exists [t], [t], (u :: r'). split; [reflexivity|]. split; [now apply be_space|]. split; [reflexivity|discriminate].
    - destruct (is_combinator t) eqn:U.
      + apply is_combinator_spec in U. apply (G [] t r); [now left|assumption|exact H].
      + injection H as <- <-. exists [], [], (t :: r). rewrite app_nil_r. split; [reflexivity|]. split; [constructor|]. now split.
  Qed.

  Lemma loop_run p : forall first l l', termsV first l l' -> forall done fuel s, (first = true -> done = []) -> (length l < fuel)%nat ->
    exists s', selector_loop fuel k p (done, l) s = Ret (Some (done ++ l')) s'.
  Proof.
    induction 1 as [first x y H|first x y g g' r r' H B R IH]; intros done fuel s D F; (destruct fuel as [|fuel]; [lia|]); cbn [selector_loop]; unfold bind.
    - destruct (term_run p done first x [] y s D H) as (s1 & T). rewrite app_nil_r in T. rewrite T. now eexists.
    - destruct (term_run p done first x (g ++ r) y s D H) as (s1 & T). rewrite T.
      assert (NE : g ++ r <> []).
      { destruct (terms_head _ _ _ R) as (t & q & -> & _). destruct g; discriminate. }
      destruct (g ++ r) as [|z zs'] eqn:E; [contradiction|]. rewrite <- E.
      rewrite (separator_run p (done ++ y) g g' r s1 B (terms_head _ _ _ R)).
      destruct (IH ((done ++ y) ++ g') fuel s1) as (s2 & Q).
      + discriminate.
      + destruct (term_head _ _ _ _ H) as (t & q & -> & _). rewrite !app_length in F. apply (f_equal (@length node)) in E. rewrite app_length in E. cbn in E, F. lia.
      + exists s2. rewrite Q. now rewrite <- !app_assoc.
  Qed.

  Lemma terms_not_first l l' t r : termsV true l l' -> l = t :: r -> n_type t <> REFERENCE -> termsV false l l'.
  Proof.
    intros H. remember true as b eqn:Eb. destruct H as [x y H|x y g g' q q' H B R]; intros E N; subst b.
    - apply tm_last. destruct H as [x rest y H|h rest H|h rest H F|c f z rest C F E2 H|c d x C F X K].
      + now apply te_simple.
      + now apply te_placeholder.
      + injection E as -> _. contradiction.
      + now apply te_not.
      + now apply te_element.
    - eapply tm_more; [|exact B|exact R]. remember (g ++ q) as rr eqn:Er. destruct H as [x rest y H|h rest H|h rest H F|c f z rest C F E2 H|c d x C F X K].
      + now apply te_simple.
      + now apply te_placeholder.
      + injection E as -> _. contradiction.
      + now apply te_not.
      + now apply te_element.
  Qed.

  Lemma term_gone first x rest : termV first x rest [] -> next_is OPEN_SQUAREBRACKET rest \/ next_is PERIOD rest.
  Proof.
    intros H. inversion H as [x' rest' y' Hs| | | |]; subst. inversion Hs; subst; auto.
  Qed.

  Lemma loop_only p : forall fuel done l s res s', selector_loop fuel k p (done, l) s = Ret (Some res) s' ->
    exists l', res = done ++ l' /\ termsV (nil_b done) l l'.
  Proof.
    induction fuel as [|fuel IH]; intros done l s res s' H; [discriminate|]. cbn [selector_loop] in H. unfold bind in H.
    destruct (selector_term k p (done, l) s) as [[[done1 rest1]|] s1|e s1|s1|] eqn:T; try discriminate.
    destruct (term_only p done l s _ s1 T) as (x & rest & y & -> & Ht & E). injection E as -> ->.
    destruct rest as [|z r].
    - injection H as <- <-. exists y. split; [reflexivity|]. rewrite app_nil_r. now apply tm_last.
    - destruct (skip_separator p (done ++ y, z :: r) s1) as [[[done2 rest2]|] s2|e s2|s2|] eqn:Q; try discriminate.
      destruct (separator_only p _ _ _ _ _ Q) as (g & g' & r2 & E2 & B & E3 & G). injection E3 as -> ->.
      destruct (IH _ _ _ _ _ H) as (l' & -> & L). exists (y ++ g' ++ l'). split; [now rewrite <- !app_assoc|].
      rewrite E2 in Ht |- *. apply tm_more; [assumption|assumption|].
      destruct (nil_b ((done ++ y) ++ g')) eqn:N; [|assumption].
      destruct ((done ++ y) ++ g') eqn:N2; [|discriminate]. apply app_eq_nil in N2. destruct N2 as [N2 N3]. apply app_eq_nil in N2. destruct N2 as [N1 N2].
      subst y. specialize (G N3). subst g. cbn [app] in *. apply term_gone in Ht. subst r2.
      rewrite !next_cons in Ht. eapply terms_not_first; [exact L|reflexivity|]. destruct Ht as [X|X]; rewrite X; discriminate.
  Qed.

  Lemma list_iff n n' s : (exists s', selector_list k n s = Ret (Some n') s') <-> exists l, termsV true (n_ch n) l /\ n' = set_ch n l.
  Proof.
    unfold selector_list, bind. split.
    - intros (s' & H). destruct (selector_loop _ k (n_pos n) ([], n_ch n) s) as [[l|] s1|e s1|s1|] eqn:E; try discriminate.
      injection H as <- <-. destruct (loop_only _ _ _ _ _ _ _ E) as (l' & -> & L). now exists l'.
    - intros (l & L & ->). destruct (loop_run (n_pos n) true _ _ L [] (S (length (n_ch n))) s) as (s' & R); [reflexivity|lia|]. rewrite R. now eexists.
  Qed.
End Checks.
