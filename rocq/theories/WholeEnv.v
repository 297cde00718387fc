(** * Scripts with variables: the shapes of a script and of its resolution *)

From Coq Require Import String ZArith List Bool Lia Arith ZifyBool Floats.SpecFloat.
From Verif Require Import Base NodeHeap NodeProofs.
From Verif Require WholeParse.
From Verif Require Import Trees WholeSpec LaySpec VarSpec WholeShape WholeTree WholeDecl WholeRule WholeMain WholeVars WholeScript WholeRoot.
Import ListNotations.
Open Scope string_scope. Open Scope list_scope. Open Scope Z_scope.
Ltac Zify.zify_post_hook ::= idtac.

(** ** Words of a language to words of another *)
Definition sends (st : store) (P Q : lang shape) : Prop := forall l, P l -> Forall (ready st) l /\ Q (flat_map (sub st) l).
Lemma sends_this st l l' : Forall (ready st) l -> flat_map (sub st) l = l' -> sends st (this l) (this l').
Proof. intros R E x ->. split; [exact R|exact E]. Qed.
Lemma sends_then st (P P' Q Q' : lang shape) : sends st P P' -> sends st Q Q' -> sends st (P # Q) (P' # Q').
Proof.
  intros A B x (a & b & -> & Ha & Hb). destruct (A _ Ha) as (A1 & A2). destruct (B _ Hb) as (B1 & B2). split; [apply Forall_app; auto|].
  rewrite flat_map_app. eexists _, _. split; [reflexivity|]. auto.
Qed.
Lemma sub_token st t s i f : token_type t = true -> sub st (Shape t s i f []) = [Shape t s i f []]. Proof. destruct t; try discriminate; reflexivity. Qed.
Definition token (s : shape) : Prop := sh_kids s = [] /\ token_type (sh_type s) = true.
Lemma token_ready st s : token s -> ready st s /\ sub st s = [s].
Proof. destruct s as [t x i f l]. intros (A & B). cbn in A, B. subst. split; [now constructor|now apply sub_token]. Qed.
Lemma tokens_ready st l : Forall token l -> Forall (ready st) l /\ flat_map (sub st) l = l.
Proof. induction 1 as [|s l H F (A & B)]; [split; [constructor|reflexivity]|]. destruct (token_ready st s H) as (C1 & C2). split; [now constructor|]. cbn [flat_map]. now rewrite B, C2. Qed.
Lemma sends_tokens st (P : lang shape) : WholeParse.every token P -> sends st P P.
Proof. intros H l Hl. destruct (tokens_ready st l (H l Hl)) as (A & B). split; [exact A|]. now rewrite B. Qed.
Lemma sends_between {A B} st (sep : lang shape) (f : A -> lang shape) (g : B -> lang shape) l l' : sends st sep sep -> Forall2 (fun x y => sends st (f x) (g y)) l l' -> sends st (between sep (map f l)) (between sep (map g l')).
Proof.
  intros Hs. induction 1 as [|x y l l' H F IH]; [apply sends_this; [constructor|reflexivity]|]. destruct F as [|x2 y2 l l' H2 F].
  - exact H.
  - change (sends st (f x # sep # between sep (map f (x2 :: l))) (g y # sep # between sep (map g (y2 :: l')))). apply sends_then; [exact H|]. apply sends_then; [exact Hs|exact IH].
Qed.

(** ** Values *)
Definition agrees (st : store) (e : env) : Prop :=
  (forall w, variable_name w -> st (variable_key w) = option_map group_leaves (e w)) /\ (forall w v, e w = Some v -> v <> [] /\ Forall value_ok v).
Lemma leaves_cons v w g : group_leaves (v :: w :: g) = value_leaf v :: sign WHITESPACE :: group_leaves (w :: g). Proof. reflexivity. Qed.
Lemma leaves_app a b : a <> [] -> b <> [] -> group_leaves (a ++ b) = group_leaves a ++ sign WHITESPACE :: group_leaves b.
Proof.
  intros Na Nb. induction a as [|v [|w a] IH]; [congruence| |].
  - destruct b as [|w b]; [congruence|]. reflexivity.
  - cbn [app]. rewrite !leaves_cons. cbn [app] in IH. rewrite IH by discriminate. reflexivity.
Qed.
Lemma value_sub st e v v' : agrees st e -> script_value v -> value_in e v = Some v' -> ready st (value_leaf v) /\ sub st (value_leaf v) = group_leaves v' /\ v' <> [] /\ Forall value_ok v' /\ ~ box (value_leaf v).
Proof.
  intros (A & B) Ok E. destruct v as [w|n u|w]; cbn [value_in] in E.
  - injection E as <-. repeat split; [now constructor|discriminate|constructor; [exact Ok|constructor]|discriminate].
  - injection E as <-. repeat split; [now constructor|discriminate|constructor; [exact Ok|constructor]|discriminate].
  - cbn [script_value] in Ok. specialize (A w Ok). rewrite E in A. cbn [option_map] in A. destruct (B _ _ E) as (B1 & B2). unfold value_leaf, leaf. split; [econstructor; exact A|]. split; [cbn [sub]; now rewrite A|]. split; [exact B1|]. split; [exact B2|discriminate].
Qed.
Lemma group_sub st e g g' : agrees st e -> g <> [] -> Forall script_value g -> group_in e g = Some g' ->
  Forall (ready st) (group_leaves g) /\ flat_map (sub st) (group_leaves g) = group_leaves g' /\ g' <> [] /\ Forall value_ok g' /\ Forall (fun s => ~ box s) (group_leaves g).
Proof.
  intros Ag. unfold group_in. revert g'. induction g as [|v g IH]; intros g' Ne Ok E; [congruence|]. cbn [all] in E. pose proof (Forall_inv Ok) as Ok1. apply Forall_inv_tail in Ok. destruct (value_in e v) as [v'|] eqn:Ev; [|discriminate].
  destruct (value_sub st e v v' Ag Ok1 Ev) as (R1 & R2 & R3 & R4 & R5). destruct (all (value_in e) g) as [gs|] eqn:Eg; [|discriminate]. cbn [option_map concat] in E. injection E as <-. destruct g as [|w g].
  - cbn [all] in Eg. injection Eg as <-. cbn [concat]. rewrite app_nil_r. change (group_leaves [v]) with [value_leaf v]. cbn [flat_map]. rewrite app_nil_r. repeat split; auto.
  - destruct (IH _ ltac:(discriminate) Ok eq_refl) as (A1 & A2 & A3 & A4 & A5). rewrite leaves_cons. split; [constructor; [exact R1|]; constructor; [now constructor|exact A1]|].
    split; [|split; [intro Q; apply app_eq_nil in Q; tauto|split; [apply Forall_app; auto|constructor; [exact R5|constructor; [discriminate|exact A5]]]]].
    change (flat_map (sub st) (value_leaf v :: sign WHITESPACE :: group_leaves (w :: g))) with (sub st (value_leaf v) ++ sub st (sign WHITESPACE) ++ flat_map (sub st) (group_leaves (w :: g))). rewrite A2, R2. change (sub st (sign WHITESPACE)) with [sign WHITESPACE]. cbn [app]. now rewrite leaves_app.
Qed.
Lemma group_spread g : g <> [] -> Forall value_ok g -> spread (group_leaves g) /\ (forall s i, group_leaves g = [leaf IDENTIFIER s i] -> s <> zs "null").
Proof.
  intros Ne Ok. split.
  - induction Ok as [|v [|w g] H F IH]; [congruence| |].
    + destruct v as [w|n u|w]; [| |destruct H]; now apply spread_one.
    + rewrite leaves_cons. specialize (IH ltac:(discriminate)). destruct v as [x|n u|x]; [| |destruct H]; now apply spread_more.
  - destruct g as [|v [|w g]]; [congruence| |rewrite leaves_cons; discriminate]. intros s i E. change (group_leaves [v]) with [value_leaf v] in E. pose proof (Forall_inv Ok) as H. destruct v as [x|n u|x]; [|discriminate|discriminate]. injection E as <- _. intros ->. destruct H as (_ & N & _). apply N. now left.
Qed.
Lemma agrees_set st e w g : agrees st e -> g <> [] -> Forall value_ok g -> agrees (upd st (variable_key w) (group_leaves g)) (set_to e w g).
Proof.
  intros (A & B) Ne Ok. split.
  - intros x Hx. unfold upd, set_to. destruct (str_eqb (variable_key x) (variable_key w)); [reflexivity|now apply A].
  - intros x v. unfold set_to. destruct (str_eqb (variable_key x) (variable_key w)); [intro E; injection E as <-; auto|apply B].
Qed.

(** ** Declarations and rules *)
Lemma all_forall {A B} (f : A -> option B) l l' : all f l = Some l' -> Forall2 (fun x y => f x = Some y) l l'.
Proof. revert l'. induction l as [|x l IH]; intros l' E; cbn [all] in E; [injection E as <-; constructor|]. destruct (f x) as [y|] eqn:Ef; [|discriminate]. destruct (all f l) as [z|]; [|discriminate]. injection E as <-. constructor; auto. Qed.
Lemma forall2_with {A B} (P : A -> Prop) (R : A -> B -> Prop) l l' : Forall P l -> Forall2 R l l' -> Forall2 (fun x y => P x /\ R x y) l l'.
Proof. intros F. induction 1; constructor; [split; [exact (Forall_inv F)|assumption]|]. apply IHForall2. exact (Forall_inv_tail F). Qed.
Lemma forall2_mono {A B} (R Q : A -> B -> Prop) l l' : (forall x y, R x y -> Q x y) -> Forall2 R l l' -> Forall2 Q l l'.
Proof. intros H. induction 1; constructor; auto. Qed.
Lemma forall2_right {A B} (P : B -> Prop) (R : A -> B -> Prop) l l' : (forall x y, R x y -> P y) -> Forall2 R l l' -> Forall P l'.
Proof. intros H. induction 1; constructor; eauto. Qed.
Lemma spaced_tokens t : token_type t = true -> WholeParse.every token (spaced t).
Proof. intro H. apply WholeParse.every_spaced; split; auto. Qed.
Lemma decl_sub st e d d' : agrees st e -> decl_with script_value d -> decl_in e d = Some d' ->
  decl_ok d' /\ d_name d' = d_name d /\ forall s, decl_shape d s -> ready st s /\ exists s', sub st s = [s'] /\ decl_shape d' s'.
Proof.
  intros Ag (W & Nf & Ne & Fg) E. unfold decl_in in E. destruct (all (group_in e) (d_groups d)) as [gs|] eqn:Eg; [|discriminate]. injection E as <-.
  apply all_forall in Eg. pose proof (forall2_with _ _ _ _ Fg Eg) as F2. clear Eg. split; [|split; [reflexivity|]].
  - split; [exact W|]. split; [exact Nf|]. cbn [d_groups]. split; [intros ->; inversion F2; congruence|]. revert F2. apply forall2_right. intros g g' ((N & F) & Eg). destruct (group_sub st e g g' Ag N F Eg) as (_ & _ & A & B & _). auto.
  - assert (Sd : sends st (decl_nodes d) (decl_nodes (mkDecl (d_name d) gs (d_important d)))).
    { unfold decl_nodes, decl_head. cbn [d_name d_groups]. apply sends_then; [apply sends_then|].
      - apply sends_tokens, WholeParse.every_this. repeat constructor.
      - apply sends_then; [apply sends_tokens; now apply spaced_tokens|]. unfold groups_leaves. apply sends_between; [apply sends_tokens; now apply spaced_tokens|]. revert F2. apply forall2_mono. intros g g' ((N & F) & Eg).
        destruct (group_sub st e g g' Ag N F Eg) as (A & B & _). now apply sends_this.
      - apply sends_tokens, WholeParse.every_this. unfold flag_leaves. cbn [d_important]. destruct (d_important d); repeat constructor. }
    intros s (l & Hl & ->). destruct (Sd l Hl) as (R & D). split.
    + destruct Hl as (a & b & -> & (c & q & -> & -> & _) & _). unfold inner. apply ready_box; [reflexivity|discriminate|exact R|]. intros _. discriminate.
    + exists (inner COMPONENT_VALUE (flat_map (sub st) l)). split; [reflexivity|]. exists (flat_map (sub st) l). auto.
Qed.
Lemma selector_tokens r : WholeParse.every token (selector_lay r).
Proof. intros sel L. rewrite Forall_forall. intros x I. pose proof (selector_bare r sel L) as B. rewrite Forall_forall in B. split; [apply (B x I)|]. apply (selector_types r sel _ L) in I. destruct (sh_type x); try discriminate I; reflexivity. Qed.
Lemma listed_sub st ds ds' : ds <> [] -> Forall2 (fun s s' => ready st s /\ sub st s = [s']) ds ds' -> ready st (listed ds) /\ sub st (listed ds) = [listed ds'].
Proof.
  intros Ne F. assert (Q : Forall (ready st) ds /\ flat_map (sub st) ds = ds') by (clear Ne; induction F as [|s s' ds ds' (A & B) F (C1 & C2)]; [split; [constructor|reflexivity]|]; split; [now constructor|]; cbn [flat_map]; now rewrite B, C2).
  destruct Q as (Q1 & Q2). destruct F as [|s s' l l' (A & B) F]; [congruence|]. destruct F as [|s2 s2' l l' H2 F]; [cbn [listed]; auto|].
  unfold listed, inner. split; [apply ready_box; [reflexivity|discriminate|exact Q1|discriminate]|]. cbn [sub]. cbn [sub] in Q2. rewrite Q2. reflexivity.
Qed.
Lemma rule_sub st e r r' : agrees st e -> rule_with script_value r -> rule_in e r = Some r' ->
  rule_ok r' /\ forall s, rule_shape r s -> ready st s /\ sh_type s = COMPONENT_VALUE /\ exists s', sub st s = [s'] /\ rule_shape r' s'.
Proof.
  intros Ag (Nr & Fs & Nd & Fd) E. unfold rule_in in E. destruct (all (decl_in e) (r_decls r)) as [ds|] eqn:Ed; [|discriminate]. injection E as <-. apply all_forall in Ed. pose proof (forall2_with _ _ _ _ Fd Ed) as F2. clear Ed. split.
  - split; [exact Nr|]. split; [exact Fs|]. cbn [r_decls]. split; [intros ->; inversion F2; congruence|]. revert F2. apply forall2_right. intros d d' (Ok & Ed). exact (proj1 (decl_sub st e d d' Ag Ok Ed)).
  - intros s (sel & ss & Hs & Hd & ->). destruct (tokens_ready st sel (selector_tokens r sel Hs)) as (A & B).
    assert (Q : exists ss', Forall2 (fun s s' => ready st s /\ sub st s = [s']) ss ss' /\ Forall2 decl_shape ds ss').
    { clear - F2 Hd Ag. revert ss Hd. induction F2 as [|d d' l l' (Ok & Ed) F IH]; intros ss Hd; inversion Hd as [|? s ? ss0 H1 H2]; subst; [exists []; split; constructor|]. destruct (IH _ H2) as (ss' & P1 & P2). destruct (decl_sub st e d d' Ag Ok Ed) as (_ & _ & K). destruct (K s H1) as (K1 & s' & K2 & K3). exists (s' :: ss'). split; constructor; auto. }
    destruct Q as (ss' & Q1 & Q2). assert (Ns : ss <> []) by (intros ->; inversion Hd; congruence). destruct (listed_sub st ss ss' Ns Q1) as (L1 & L2).
    assert (Rb : ready st (inner OPEN_CURLYBRACKET [listed ss])) by (unfold inner; apply ready_box; [reflexivity|discriminate|constructor; [exact L1|constructor]|discriminate]).
    split; [|split; [reflexivity|]].
    + unfold inner at 1. apply ready_box; [reflexivity|destruct sel; discriminate|apply Forall_app; split; [exact A|constructor; [exact Rb|constructor]]|]. intros _. destruct sel as [|x sel]; [discriminate|]. cbn [app hd]. pose proof (Forall_inv (selector_tokens r _ Hs)) as (_ & T). intro E. rewrite E in T. discriminate.
    + exists (inner COMPONENT_VALUE (sel ++ [inner OPEN_CURLYBRACKET [listed ss']])). split.
      * change (sub st (inner COMPONENT_VALUE (sel ++ [inner OPEN_CURLYBRACKET [listed ss]]))) with [inner COMPONENT_VALUE (flat_map (sub st) (sel ++ [inner OPEN_CURLYBRACKET [listed ss]]))].
        rewrite flat_map_app, B. change (flat_map (sub st) [inner OPEN_CURLYBRACKET [listed ss]]) with ([inner OPEN_CURLYBRACKET (sub st (listed ss) ++ [])] ++ []). rewrite L2. reflexivity.
      * exists sel, ss'. split; [exact Hs|]. split; [exact Q2|reflexivity].
Qed.

(** ** Fuel *)
Lemma cost_bound st s : ready st s -> (cost st s <= 2 * shape_size s + list_sum (map shape_size (sub st s)))%nat.
Proof.
  induction s as [t x i f l IH] using shape_ind'. intro R. inversion R as [? ? ? ? T|? ? ? v V|? ? ? ? ? T Nl Fl Fv]; subst.
  - rewrite sub_token by exact T. destruct t; try discriminate T; cbn; lia.
  - cbn [cost sub]. rewrite V. pose proof (sum_length v). cbn [shape_size map]. lia.
  - assert (Q : (list_sum (map (cost st) l) <= 2 * list_sum (map shape_size l) + list_sum (map shape_size (flat_map (sub st) l)))%nat).
    { clear - IH Fl. induction l as [|s l IHl]; [cbn; lia|]. cbn [map flat_map]. rewrite !sum_cons, map_app, list_sum_app. specialize (IHl (Forall_inv_tail IH) (Forall_inv_tail Fl)). pose proof (Forall_inv IH (Forall_inv Fl)). lia. }
    destruct t; try discriminate T; cbn [cost sub shape_size map]; rewrite sum_cons, sum_nil; cbn [shape_size]; lia.
Qed.
Lemma spaced_size b : spaced COLON b -> (list_sum (map shape_size b) <= 3)%nat /\ Forall token b.
Proof.
  intro H. pose proof (spaced_tokens COLON eq_refl b H) as T. split; [|exact T]. rewrite bare_sum; [|revert T; apply Forall_impl; intros s Q; apply Q]. exact (most_spaced COLON b H).
Qed.
Lemma spaced_parts' b : spaced COLON b -> exists y r, b = y :: r.
Proof. intros (w1 & r & -> & H1 & (c & w2 & -> & -> & H2)). destruct w1 as [|y w1]; cbn [app]; eauto. Qed.
Definition statement_size (s : statement) : nat := length (statement_text s).
Lemma statement_bound x s : statement_ok x -> statement_shape x s -> (shape_size s <= 4 * statement_size x)%nat.
Proof.
  destruct x as [w g|r]; cbn [statement_ok statement_shape statement_size].
  - intros (Nw & Ne & F) (b & Hb & ->). destruct (spaced_size b Hb) as (B & _). unfold inner. cbn [shape_size map]. rewrite sum_cons, map_app, list_sum_app. rewrite (bare_sum (group_leaves g)) by apply group_bare.
    change (shape_size (leaf VARIABLE (variable_key w) 0)) with 1%nat. pose proof (group_length g F) as L. unfold statement_size. cbn [statement_text]. rewrite !app_length. change (length (zs "$")) with 1%nat. change (length (zs ":")) with 1%nat. change (length (zs ";")) with 1%nat. lia.
  - intros Ok H. unfold statement_size. cbn [statement_text]. now apply rule_size.
Qed.

(** ** Scripts *)
Definition total (l : list statement) : nat := length (script_text l).
Lemma total_cons x l : total (x :: l) = (statement_size x + total l)%nat. Proof. unfold total, script_text. cbn [flat_map]. now rewrite app_length. Qed.
Lemma script_steps F l : forall st e l' ss, agrees st e -> Forall statement_ok l -> resolve e l = Some l' -> Forall2 statement_shape l ss -> (8 * total l + 4 * total l' < F)%nat ->
  Forall statement_ok l' /\ Forall rule_ok (styles l') /\ exists out, steps F st ss out /\ Forall2 rule_shape (styles l') out.
Proof.
  induction l as [|x l IH]; intros st e l' ss Ag Ok Er Hs Lf.
  - inversion Hs; subst. injection Er as <-. split; [constructor|]. split; [constructor|]. exists []. split; constructor.
  - inversion Hs as [|? s ? ss0 H1 H2]; subst. pose proof (Forall_inv Ok) as Ok1. apply Forall_inv_tail in Ok. rewrite total_cons in Lf. pose proof (statement_bound x s Ok1 H1) as Bs. destruct x as [w g|r]; cbn [resolve] in Er.
    + destruct (group_in e g) as [v|] eqn:Eg; [|discriminate]. destruct (resolve (set_to e w v) l) as [l2|] eqn:E2; [|discriminate]. injection Er as <-. rewrite total_cons in Lf. destruct Ok1 as (Nw & Ne & Fg). destruct H1 as (b & Hb & ->).
      destruct (group_sub st e g v Ag Ne Fg Eg) as (A1 & A2 & A3 & A4 & A5). destruct (group_spread v A3 A4) as (G1 & G2).
      destruct (IH _ _ _ _ (agrees_set st e w v Ag A3 A4) Ok E2 H2 ltac:(lia)) as (C1 & C2 & out & C3 & C4). split; [constructor; [split; [exact Nw|]; split; [exact A3|now apply values_script]|exact C1]|]. split; [exact C2|]. exists out. split; [|exact C4].
      apply steps_set with (vals := group_leaves v); auto; [intro Q; destruct g; [congruence|destruct g; discriminate Q]|].
      destruct (spaced_size b Hb) as (B1 & B2). destruct (tokens_ready st b B2) as (B3 & B4).
      assert (Rd : ready st (inner COMPONENT_VALUE (b ++ group_leaves g))).
      { unfold inner. apply ready_box; [reflexivity| |apply Forall_app; auto|].
        - intro Q. apply app_eq_nil in Q. destruct (spaced_parts' b Hb) as (y & r & ->). destruct Q. discriminate.
        - intros _. destruct (spaced_parts' b Hb) as (y & r & ->). pose proof (Forall_inv B2) as (_ & T). cbn [app hd]. intro E. rewrite E in T. discriminate. }
      pose proof (cost_bound st _ Rd) as Cb.
      change (sub st (inner COMPONENT_VALUE (b ++ group_leaves g))) with [inner COMPONENT_VALUE (flat_map (sub st) (b ++ group_leaves g))] in Cb. rewrite flat_map_app, B4, A2 in Cb.
      cbn [map] in Cb. rewrite sum_cons, sum_nil in Cb. unfold inner in Cb at 2 3. cbn [shape_size] in Cb. rewrite !map_app, !list_sum_app in Cb. rewrite !(bare_sum (group_leaves _)) in Cb by apply group_bare.
      pose proof (group_length g Fg) as L1. pose proof (group_length v (values_script _ A4)) as L2. unfold statement_size in Lf. cbn [statement_text] in Lf. rewrite !app_length in Lf. change (length (zs "$")) with 1%nat in Lf. change (length (zs ":")) with 1%nat in Lf. change (length (zs ";")) with 1%nat in Lf.
      lia.
    + destruct (rule_in e r) as [r'|] eqn:Eg; [|discriminate]. destruct (resolve e l) as [l2|] eqn:E2; [|discriminate]. injection Er as <-. rewrite total_cons in Lf.
      destruct (rule_sub st e r r' Ag Ok1 Eg) as (R1 & R2). destruct (R2 s H1) as (R3 & R4 & s' & R5 & R6).
      destruct (IH _ _ _ _ Ag Ok E2 H2 ltac:(lia)) as (C1 & C2 & out & C3 & C4). split; [constructor; [now apply rule_script|exact C1]|]. split; [constructor; [exact R1|exact C2]|].
      exists (s' :: out). split; [|constructor; [exact R6|exact C4]]. apply steps_style; auto. pose proof (cost_bound st _ R3) as Cb. rewrite R5 in Cb. cbn [map] in Cb. rewrite sum_cons, sum_nil in Cb. pose proof (rule_size r' s' (rule_script _ R1) R6). unfold statement_size in Lf at 2. cbn [statement_text] in Lf. lia.
Qed.
Lemma script_total l ss : Forall statement_ok l -> Forall2 statement_shape l ss -> (shape_size (inner LIST ss) <= 4 * total l + 1)%nat /\ (length ss <= 4 * total l)%nat.
Proof.
  intros Ok H. assert (Q : (list_sum (map shape_size ss) <= 4 * total l)%nat).
  { induction H as [|x s l ss H F IH]; [cbn; lia|]. cbn [map]. rewrite sum_cons, total_cons. pose proof (statement_bound x s (Forall_inv Ok) H). specialize (IH (Forall_inv_tail Ok)). lia. }
  unfold inner. cbn [shape_size]. pose proof (sum_length ss). lia.
Qed.
(** Scripts are mild. *)
Lemma tokens_mild (l : list shape) : Forall token l -> Forall mild l.
Proof. apply Forall_impl. intros [t s i f k] (A & B). cbn in *. subst. constructor. now left. Qed.
Lemma ready_mild st s : ready st s -> mild s.
Proof.
  induction s as [t x i f l IH] using shape_ind'. intro R. inversion R as [? ? ? ? T|? ? ? v V|? ? ? ? ? T Nl Fl Fv]; subst; [apply mild_token; now left|apply mild_token; now right|]. apply mild_box; [exact T|exact Nl|]. rewrite Forall_forall in *. auto.
Qed.
Lemma steps_mild F st ss out : steps F st ss out -> Forall mild ss.
Proof.
  induction 1 as [st|st key b leaves vals ss out Sb Rd Nb Nl Sv Sp Nu Fu Hs IH|st s s' ss out Rd Ts Ss Fu Hs IH]; [constructor| |constructor; [eapply ready_mild; exact Rd|exact IH]].
  constructor; [|exact IH]. unfold inner. apply mild_box; [reflexivity|discriminate|]. constructor; [apply mild_token; now right|]. apply Forall_app. split; [apply tokens_mild, (spaced_size b Sb)|]. revert Rd. apply Forall_impl. apply ready_mild.
Qed.
