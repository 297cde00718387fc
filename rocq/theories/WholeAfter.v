(** * A compiled compressed style sheet: no empty rule and nothing nested *)

From Coq Require Import String ZArith List Bool Lia Arith ZifyBool Floats.SpecFloat.
From Verif Require Import Base NodeHeap NodeProofs.
From Verif Require Import Compiler Compile CompRun IfProofs Props_Prune.
From Verif Require Import Trees WholeSpec WholeShape WholeTree.
Import ListNotations.
Open Scope string_scope. Open Scope list_scope. Open Scope Z_scope.
Ltac Zify.zify_post_hook ::= idtac.

Inductive body : shape -> Prop :=
  | body_decl s i f l : l <> [] -> Forall (fun x => sh_type x = ARG) l -> body (Shape DECLARATION s i f l)
  | body_box t s i f l : t = LIST \/ t = OPEN_CURLYBRACKET -> l <> [] -> Forall body l -> body (Shape t s i f l).
Inductive still : shape -> Prop :=
  | still_rule s i f args b : Forall (fun x => sh_type x = ARG) args -> sh_type b = OPEN_CURLYBRACKET -> body b -> still (Shape COMPONENT_VALUE s i f (args ++ [b]))
  | still_list s i f l : Forall still l -> still (Shape LIST s i f l).

Lemma body_inv t s i f l : body (Shape t s i f l) -> (t = DECLARATION /\ l <> [] /\ Forall (fun x => sh_type x = ARG) l) \/ ((t = LIST \/ t = OPEN_CURLYBRACKET) /\ l <> [] /\ Forall body l).
Proof. inversion 1; subst; [left|right]; auto. Qed.
Lemma still_inv t s i f l : still (Shape t s i f l) ->
  (t = COMPONENT_VALUE /\ exists args b, l = args ++ [b] /\ Forall (fun x => sh_type x = ARG) args /\ sh_type b = OPEN_CURLYBRACKET /\ body b) \/ (t = LIST /\ Forall still l).
Proof. inversion 1; subst; [left|right]; [split; [reflexivity|eauto 10]|auto]. Qed.

(** ** The loops when nothing is changed *)
Lemma step_same h m ps n c f : nth_error h n = Some c -> has_children (c_type c) = true -> forall rest don g, c_ch c = don ++ rest ->
  (forall a, In a rest -> f a (mkK h m ps) = Ret tt (mkK h m ps)) -> (length rest < g)%nat -> step_loop f n g (Z.of_nat (length don)) (mkK h m ps) = Ret tt (mkK h m ps).
Proof.
  intros H Ch. induction rest as [|a rest IH]; intros don g Ec Hf Lg; (destruct g as [|g]; [cbn [length] in Lg; lia|]); cbn [step_loop]; (erewrite b_ret; [|eapply run_size; [exact H|exact Ch]]); rewrite Ec, app_length; cbn [length].
  - rewrite Nat.add_0_r, Z.leb_refl. reflexivity.
  - replace (Z.of_nat (length don + S (length rest)) <=? Z.of_nat (length don)) with false by lia.
    assert (Nth : nth_error (c_ch c) (length don) = Some a) by (rewrite Ec; apply nth_mid).
    erewrite b_ret; [|eapply run_child; [exact H|exact Ch|rewrite Nat2Z.id; exact Nth|lia]].
    rewrite (b_ret _ _ _ _ _ (Hf a (or_introl eq_refl))). erewrite b_ret; [|eapply step_over_same; [exact H|exact Ch|exact Nth]].
    replace (S (length don)) with (length (don ++ [a])) by (rewrite app_length; cbn [length]; lia). apply IH; [rewrite <- app_assoc; exact Ec|intros b I; apply Hf; now right|cbn [length] in Lg; lia].
Qed.
Lemma ref_same h m ps n c f v : nth_error h n = Some c -> has_children (c_type c) = true -> forall rest don g, c_ch c = don ++ rest ->
  (forall a, In a rest -> f v a (mkK h m ps) = Ret v (mkK h m ps)) -> (length rest < g)%nat -> ref_loop f n g (Z.of_nat (length don)) v (mkK h m ps) = Ret v (mkK h m ps).
Proof.
  intros H Ch. induction rest as [|a rest IH]; intros don g Ec Hf Lg; (destruct g as [|g]; [cbn [length] in Lg; lia|]); cbn [ref_loop]; (erewrite b_ret; [|eapply run_size; [exact H|exact Ch]]); rewrite Ec, app_length; cbn [length].
  - rewrite Nat.add_0_r, Z.leb_refl. reflexivity.
  - replace (Z.of_nat (length don + S (length rest)) <=? Z.of_nat (length don)) with false by lia.
    assert (Nth : nth_error (c_ch c) (length don) = Some a) by (rewrite Ec; apply nth_mid).
    erewrite b_ret; [|eapply run_child; [exact H|exact Ch|rewrite Nat2Z.id; exact Nth|lia]].
    rewrite (b_ret _ _ _ _ _ (Hf a (or_introl eq_refl))). erewrite b_ret; [|eapply step_over_same; [exact H|exact Ch|exact Nth]].
    replace (S (length don)) with (length (don ++ [a])) by (rewrite app_length; cbn [length]; lia). apply IH; [rewrite <- app_assoc; exact Ec|intros b I; apply Hf; now right|cbn [length] in Lg; lia].
Qed.
Lemma type_in h T t : holds h T -> sh_type (tree_shape T) = t -> exists c, nth_error h (top T) = Some c /\ c_type c = t /\ c_ch c = map top (kids T).
Proof. intros H E. exists (with_ch (data T) (map top (kids T))). split; [now apply holds_top|]. destruct T. auto. Qed.
Lemma kid_size T l : In T l -> (shape_size (tree_shape T) <= list_sum (map shape_size (map tree_shape l)))%nat.
Proof. intro I. apply sum_in. now apply in_map. Qed.
Lemma kids_length (l : list tree) : (length l <= list_sum (map shape_size (map tree_shape l)))%nat.
Proof. pose proof (sum_length (map tree_shape l)). rewrite map_length in *. lia. Qed.

(** ** remove_empty_rules *)
Section Remove.
  Variables (h : heap) (m : list msg) (ps : list str).
  Notation st := (mkK h m ps).
  Lemma loop_all (f : addr -> C unit) a c l g : nth_error h a = Some (with_ch c (map top l)) -> has_children (c_type c) = true -> (forall T, In T l -> f (top T) st = Ret tt st) -> (length l < g)%nat ->
    step_loop f a g 0 st = Ret tt st.
  Proof.
    intros H Ch Hf Lg. apply (step_same h m ps a _ f H Ch (map top l) [] g eq_refl); [|now rewrite map_length]. intros b I. apply in_map_iff in I. destruct I as (T & <- & I). auto.
  Qed.
  Lemma arg_remove T fuel x : holds h T -> sh_type (tree_shape T) = ARG -> (0 < fuel)%nat -> remove_empty_rules fuel x (top T) st = Ret tt st.
  Proof. intros H E L. destruct fuel as [|f]; [lia|]. destruct (type_in h T ARG H E) as (c & Hc & Tc & _). cbn [remove_empty_rules]. erewrite b_ret; [|eapply run_type; exact Hc]. rewrite Tc. reflexivity. Qed.
  Lemma body_remove T : holds h T -> body (tree_shape T) -> forall fuel x, (shape_size (tree_shape T) + 1 < fuel)%nat -> remove_empty_rules fuel x (top T) st = Ret tt st.
  Proof.
    induction T as [a c l IH] using tree_rect'. intros H B fuel x L. pose proof (holds_inv _ _ _ _ H) as (Ha & Hl). cbn [tree_shape top shape_size] in *. destruct fuel as [|f]; [lia|]. cbn [remove_empty_rules]. erewrite b_ret; [|eapply run_type; exact Ha]. cbn [c_type with_ch].
    pose proof (kids_length l) as Kl. rewrite Forall_forall in Hl.
    destruct (body_inv _ _ _ _ _ B) as [(E1 & Ne & Fa)|(Tt & Ne & Fb)]; [symmetry in E1|].
    - rewrite <- E1. cbv iota.
      apply (loop_all _ a c l f Ha ltac:(rewrite <- E1; reflexivity)); [|lia]. intros T I. apply arg_remove; [auto| |lia]. rewrite Forall_forall in Fa. apply Fa. now apply in_map.
    - rewrite Forall_forall in Fb, IH. assert (Lp : step_loop (remove_empty_rules f (push x a)) a f 0 st = Ret tt st).
      { apply (loop_all _ a c l f Ha); [destruct Tt as [-> | ->]; reflexivity| |lia]. intros T I. apply IH; [auto|auto| |pose proof (kid_size T l I); lia]. apply Fb. now apply in_map. }
      destruct Tt as [Tt|Tt]; rewrite Tt in *; exact Lp.
  Qed.
  Lemma body_some b : body b -> sh_kids b <> []. Proof. destruct 1; assumption. Qed.
  Lemma still_remove T : holds h T -> still (tree_shape T) -> Z.of_nat (shape_size (tree_shape T)) < 18446744073709551616 -> forall fuel x, (shape_size (tree_shape T) + 1 < fuel)%nat -> remove_empty_rules fuel x (top T) st = Ret tt st.
  Proof.
    induction T as [a c l IH] using tree_rect'. intros H B Z0 fuel x L. pose proof (holds_inv _ _ _ _ H) as (Ha & Hl). cbn [tree_shape top shape_size] in *. destruct fuel as [|f]; [lia|]. cbn [remove_empty_rules]. erewrite b_ret; [|eapply run_type; exact Ha]. cbn [c_type with_ch].
    pose proof (kids_length l) as Kl. rewrite Forall_forall in Hl.
    destruct (still_inv _ _ _ _ _ B) as [(E1 & args & b & E5 & Fa & Tb & Bb)|(H1 & Fb)]; [symmetry in E1, E5|symmetry in H1].
    - rewrite <- E1. cbv iota. pose proof (empty_rule_run h m ps (Tree a c l) H (eq_sym E1) ltac:(rewrite nodes_size; change (2 ^ 64) with 18446744073709551616; cbn [tree_shape shape_size]; exact Z0)) as Er. cbn [top] in Er. rewrite (b_ret _ _ _ _ _ Er).
      assert (exists la tb, l = la ++ [tb] /\ map tree_shape la = args /\ tree_shape tb = b) as (la & tb & -> & El & Eb).
      { symmetry in E5. apply map_eq_app in E5. destruct E5 as (la & lb & -> & El & Eb). destruct lb as [|tb [|? ?]]; try discriminate. cbn [map] in Eb. injection Eb as Eb. eauto. }
      replace (empty_rule (Tree a c (la ++ [tb]))) with false.
      2:{ unfold empty_rule. cbn [kids]. rewrite rev_app_distr. cbn [rev app]. unfold empty_block. pose proof (body_some _ Bb) as Nk. rewrite <- Eb in Nk. destruct tb as [x1 x2 x3]. cbn [tree_shape sh_kids kids] in *. destruct x3; [exfalso; now apply Nk|]. now rewrite !andb_false_r. }
      apply (loop_all _ a c _ f Ha ltac:(rewrite <- E1; reflexivity)); [|lia]. intros T I. pose proof (kid_size T _ I). apply in_app_or in I. destruct I as [I|[<-|[]]].
      + apply arg_remove; [apply Hl, in_or_app; now left| |lia]. rewrite Forall_forall in Fa. apply Fa. rewrite <- El. now apply in_map.
      + apply body_remove; [apply Hl, in_or_app; right; now left|rewrite Eb; exact Bb|lia].
    - rewrite <- H1. cbv iota. rewrite Forall_forall in Fb, IH. apply (loop_all _ a c l f Ha ltac:(rewrite <- H1; reflexivity)); [|lia]. intros T I. pose proof (kid_size T _ I). apply IH; [auto|auto| |lia|lia]. apply Fb. now apply in_map.
  Qed.
End Remove.

(** ** expand_nested_components *)
Section Expand.
  Variables (h : heap) (m : list msg) (ps : list str).
  Notation st := (mkK h m ps).
  Lemma decl_expand a c l x p g : nth_error h a = Some (with_ch c (map top l)) -> c_type c = DECLARATION -> (forall T, In T l -> holds h T /\ sh_type (tree_shape T) = ARG) -> x_parents x <> [] ->
    (length l < g)%nat -> p = push x a -> expand_declaration g p a st = Ret tt st.
  Proof.
    intros Ha Tc Hl Px Lg ->. unfold expand_declaration. apply (loop_all h m ps _ a c l g Ha); [rewrite Tc; reflexivity| |exact Lg]. intros T I. destruct (Hl T I) as (HT & TT). destruct (type_in h T ARG HT TT) as (ct & Ht & Tt & _).
    erewrite b_ret; [|eapply run_string; [exact Ha|cbn [c_type with_ch]; rewrite Tc; reflexivity]]. unfold previous_parent. cbn [push x_parents]. destruct (x_parents x) as [|q qs]; [congruence|]. erewrite b_ret; [|reflexivity].
    destruct g as [|g]; [lia|]. erewrite b_ret; [|cbn [expand_declarations]; erewrite b_ret; [|eapply run_type; exact Ht]; rewrite Tt; reflexivity]. reflexivity.
  Qed.
  Lemma arg_expand T fuel x rules last : holds h T -> sh_type (tree_shape T) = ARG -> (0 < fuel)%nat -> expand fuel x rules last (top T) st = Ret last st.
  Proof. intros H E L. destruct fuel as [|f]; [lia|]. destruct (type_in h T ARG H E) as (c & Hc & Tc & _). cbn [expand]. erewrite b_ret; [|eapply run_type; exact Hc]. rewrite Tc. destruct rules as [(? & ?)|]; reflexivity. Qed.
  Lemma refs_all (f : addr -> addr -> C addr) v a c l g : nth_error h a = Some (with_ch c (map top l)) -> has_children (c_type c) = true -> (forall T, In T l -> f v (top T) st = Ret v st) -> (length l < g)%nat ->
    ref_loop f a g 0 v st = Ret v st.
  Proof.
    intros H Ch Hf Lg. apply (ref_same h m ps a _ f v H Ch (map top l) [] g eq_refl); [|now rewrite map_length]. intros b I. apply in_map_iff in I. destruct I as (T & <- & I). auto.
  Qed.
  Lemma body_expand T : holds h T -> body (tree_shape T) -> forall fuel x parent root last, x_parents x <> [] -> (shape_size (tree_shape T) + 1 < fuel)%nat ->
    expand fuel x (Some (parent, root)) last (top T) st = Ret last st.
  Proof.
    induction T as [a c l IH] using tree_rect'. intros H B fuel x parent root last Px L. pose proof (holds_inv _ _ _ _ H) as (Ha & Hl). cbn [tree_shape top shape_size] in *. destruct fuel as [|f]; [lia|]. cbn [expand]. erewrite b_ret; [|eapply run_type; exact Ha]. cbn [c_type with_ch].
    pose proof (kids_length l) as Kl. rewrite Forall_forall in Hl.
    destruct (body_inv _ _ _ _ _ B) as [(E1 & Ne & Fa)|(Tt & Ne & Fb)]; [symmetry in E1|].
    - rewrite <- E1. cbv iota. rewrite Forall_forall in Fa.
      erewrite b_ret; [|eapply (decl_expand a c l x); [exact Ha|symmetry; exact E1| |exact Px|lia|reflexivity]]. 2:{ intros T I. split; [auto|]. apply Fa. now apply in_map. }
      erewrite b_ret; [|eapply run_empty; [exact Ha|cbn [c_type with_ch]; rewrite <- E1; reflexivity]]. cbn [c_ch with_ch]. destruct l as [|T0 l0]; [exfalso; now apply Ne|]. reflexivity.
    - rewrite Forall_forall in Fb, IH. assert (Lp : ref_loop (fun l c => expand f (push x a) (Some (parent, root)) l c) a f 0 last st = Ret last st).
      { apply (refs_all _ last a c l f Ha); [destruct Tt as [-> | ->]; reflexivity| |lia]. intros T I. apply IH; [auto|auto| |discriminate|pose proof (kid_size T l I); lia]. apply Fb. now apply in_map. }
      destruct Tt as [Tt|Tt]; rewrite Tt in *; exact Lp.
  Qed.
  Lemma rule_expand T : holds h T -> still (tree_shape T) -> sh_type (tree_shape T) = COMPONENT_VALUE -> forall fuel x last, x_parents x <> [] -> (shape_size (tree_shape T) + 1 < fuel)%nat ->
    expand fuel x None last (top T) st = Ret last st.
  Proof.
    destruct T as [a c l]. intros H B Tc fuel x last Px L. pose proof (holds_inv _ _ _ _ H) as (Ha & Hl). cbn [tree_shape top shape_size sh_type] in *. destruct fuel as [|f]; [lia|]. cbn [expand]. erewrite b_ret; [|eapply run_type; exact Ha]. cbn [c_type with_ch]. rewrite Tc. cbv iota.
    pose proof (kids_length l) as Kl. rewrite Forall_forall in Hl. assert (Ch : has_children (c_type (with_ch c (map top l))) = true) by (cbn [c_type with_ch]; rewrite Tc; reflexivity).
    destruct (still_inv _ _ _ _ _ B) as [(E1 & args & b & E5 & Fa & Tb & Bb)|(H1 & Fb)]; [symmetry in E1, E5|congruence].
    erewrite b_ret; [|eapply run_size; [exact Ha|exact Ch]]. cbn [c_ch with_ch].
    assert (exists la tb, l = la ++ [tb] /\ map tree_shape la = args /\ tree_shape tb = b) as (la & tb & -> & El & Eb).
    { symmetry in E5. apply map_eq_app in E5. destruct E5 as (la & lb & -> & El & Eb). destruct lb as [|tb [|? ?]]; try discriminate. cbn [map] in Eb. injection Eb as Eb. eauto. }
    replace (Z.of_nat (length (map top (la ++ [tb]))) =? 0) with false by (rewrite map_length, app_length; cbn [length]; lia).
    unfold previous_parent. cbn [push x_parents]. destruct (x_parents x) as [|q qs] eqn:Eq; [congruence|]. erewrite b_ret; [reflexivity|]. erewrite b_ret; [|reflexivity].
    erewrite b_ret; [reflexivity|]. apply (refs_all _ a a c (la ++ [tb]) f Ha Ch); [|lia].
    intros T I. pose proof (kid_size T _ I). apply in_app_or in I. destruct I as [I|[<-|[]]].
    - apply arg_expand; [apply Hl, in_or_app; now left| |lia]. rewrite Forall_forall in Fa. apply Fa. rewrite <- El. now apply in_map.
    - apply body_expand; [apply Hl, in_or_app; right; now left|rewrite Eb; exact Bb|discriminate|lia].
  Qed.
  Lemma list_expand T l : holds h T -> tree_shape T = inner LIST l -> Forall (fun s => still s /\ sh_type s = COMPONENT_VALUE) l -> forall fuel x, (shape_size (tree_shape T) + 2 < fuel)%nat ->
    expand_nested_components fuel x (top T) st = Ret tt st.
  Proof.
    destruct T as [a c k]. intros H Es F fuel x L. pose proof (holds_inv _ _ _ _ H) as (Ha & Hl). cbn [tree_shape top shape_size] in *. injection Es as Tc _ _ _ Ek. unfold expand_nested_components. destruct fuel as [|f]; [lia|]. cbn [expand]. rewrite bind_assoc. erewrite b_ret; [|eapply run_type; exact Ha]. cbn [c_type with_ch]. rewrite Tc. cbv iota.
    pose proof (kids_length k) as Kl. rewrite Forall_forall in Hl, F. rewrite bind_assoc. erewrite b_ret; [reflexivity|]. apply (loop_all h m ps _ a c k f Ha ltac:(rewrite Tc; reflexivity)); [|lia].
    intros T I. pose proof (kid_size T _ I). destruct (F (tree_shape T)) as (S1 & T1); [rewrite <- Ek; now apply in_map|]. erewrite b_ret; [reflexivity|]. apply rule_expand; [auto|exact S1|exact T1|discriminate|lia].
  Qed.
End Expand.

(** ** A compiled style sheet *)
Lemma done_decl_body d : decl_ok d -> body (done_decl d).
Proof.
  intros (_ & _ & Ne & _). unfold done_decl. constructor; [destruct (d_groups d); [congruence|discriminate]|]. rewrite Forall_forall. intros s I. apply in_map_iff in I. destruct I as (g & <- & _). reflexivity.
Qed.
Lemma done_rule_still r : rule_ok r -> still (done_rule r) /\ sh_type (done_rule r) = COMPONENT_VALUE.
Proof.
  intros (_ & _ & Ne & Fd). split; [|reflexivity]. unfold done_rule, inner at 1. constructor; [|reflexivity|].
  - rewrite Forall_forall. intros s I. apply in_map_iff in I. destruct I as (g & <- & _). reflexivity.
  - destruct (r_decls r) as [|d [|d2 l]]; [congruence| |]; unfold inner at 1; apply body_box; [now right|discriminate| |now right|discriminate|].
    + constructor; [|constructor]. inversion Fd; subst. now apply done_decl_body.
    + constructor; [|constructor]. unfold inner. apply body_box; [now left|discriminate|]. rewrite Forall_forall in *. intros s I. apply in_map_iff in I. destruct I as (e & <- & I). apply done_decl_body. exact (Fd e I).
Qed.
Lemma done_sheet_remove h m ps T l fuel x : holds h T -> tree_shape T = done_sheet l -> Forall rule_ok l -> Z.of_nat (shape_size (done_sheet l)) < 18446744073709551616 -> (shape_size (done_sheet l) + 1 < fuel)%nat ->
  remove_empty_rules fuel x (top T) (mkK h m ps) = Ret tt (mkK h m ps).
Proof.
  intros H E F Zs L. apply still_remove; rewrite ?E; auto. unfold done_sheet, inner. constructor. rewrite Forall_forall in *. intros s I. apply in_map_iff in I. destruct I as (r & <- & I). apply done_rule_still. auto.
Qed.
Lemma done_sheet_expand h m ps T l fuel x : holds h T -> tree_shape T = done_sheet l -> Forall rule_ok l -> (shape_size (done_sheet l) + 2 < fuel)%nat ->
  expand_nested_components fuel x (top T) (mkK h m ps) = Ret tt (mkK h m ps).
Proof.
  intros H E F L. eapply (list_expand h m ps T (map done_rule l)); [exact H|exact E| |rewrite E; exact L]. rewrite Forall_forall in *. intros s I. apply in_map_iff in I. destruct I as (r & <- & I). apply done_rule_still. auto.
Qed.
