(** * The parser on the tokens of a plain style sheet *)

From Coq Require Import String ZArith List Bool Lia Arith.
From Verif Require Import Base Parser.
From Verif Require NodeHeap Trees.
From Verif Require Import WholeSpec LaySpec VarSpec WholeShape.
Import ListNotations.
Open Scope string_scope. Open Scope list_scope. Open Scope nat_scope.

(** ** Lists of node types *)
Fixpoint apart (l : list ntype) : Prop :=
  match l with
  | a :: ((b :: _) as r) => ~ (a = WHITESPACE /\ b = WHITESPACE) /\ apart r
  | _ => True
  end.
Definition tidy (l : list ntype) : Prop :=
  apart l /\ hd WHITESPACE l <> WHITESPACE /\ last l WHITESPACE <> WHITESPACE.

Lemma apart_app a b : apart a -> apart b -> ~ (last a COMMA = WHITESPACE /\ hd COMMA b = WHITESPACE) -> apart (a ++ b).
Proof.
  induction a as [|x a IH]; intros A B N; [exact B|]. destruct a as [|y a].
  - destruct b as [|z b]; [exact I|]. cbn [app apart]. cbn [last hd] in N. auto.
  - cbn [app apart] in *. destruct A as (A1 & A2). split; [exact A1|]. apply IH; auto.
Qed.
Lemma apart_mid a x y b : apart (a ++ x :: y :: b) -> ~ (x = WHITESPACE /\ y = WHITESPACE).
Proof.
  induction a as [|z a IH]; intro A; [exact (proj1 A)|]. apply IH. destruct a as [|w a]; cbn [app apart] in *; tauto.
Qed.
Lemma last_app {A} (a b : list A) d : b <> [] -> last (a ++ b) d = last b d.
Proof. intro H. induction a as [|x a IH]; [reflexivity|]. cbn [app]. destruct (a ++ b) eqn:E; [apply app_eq_nil in E; tauto|]. rewrite <- IH. reflexivity. Qed.
Lemma last_dep {A} (a : list A) d d' : a <> [] -> last a d = last a d'.
Proof. induction a as [|x [|y a] IH]; intro H; [congruence|reflexivity|]. cbn [last] in *. apply IH. discriminate. Qed.
Lemma tidy_nil : ~ tidy []. Proof. intros (_ & H & _). now apply H. Qed.
Lemma tidy_ne l : tidy l -> l <> []. Proof. intros H ->. now apply tidy_nil in H. Qed.
Lemma tidy_app a b : tidy a -> tidy b -> tidy (a ++ b).
Proof.
  intros Ta Tb. pose proof (tidy_ne _ Ta) as Na. pose proof (tidy_ne _ Tb) as Nb. destruct Ta as (A1 & A2 & A3), Tb as (B1 & B2 & B3).
  split; [|split].
  - apply apart_app; auto. rewrite (last_dep a COMMA WHITESPACE Na). tauto.
  - destruct a; [congruence|exact A2].
  - rewrite last_app by exact Nb. exact B3.
Qed.
Lemma tidy_sep a s b : tidy a -> tidy b -> tidy (a ++ [s] ++ b).
Proof.
  intros Ta Tb. pose proof (tidy_ne _ Ta) as Na. pose proof (tidy_ne _ Tb) as Nb. destruct Ta as (A1 & A2 & A3), Tb as (B1 & B2 & B3).
  split; [|split].
  - apply apart_app; [exact A1| |rewrite (last_dep a COMMA WHITESPACE Na); tauto]. apply apart_app; [exact I|exact B1|]. destruct b; [congruence|]. cbn [hd] in *. tauto.
  - destruct a; [congruence|exact A2].
  - rewrite last_app by discriminate. rewrite last_app by exact Nb. exact B3.
Qed.
Lemma tidy_one t : t <> WHITESPACE -> tidy [t]. Proof. intro H. split; [exact I|]. split; exact H. Qed.

Definition types (l : list shape) : list ntype := map sh_type l.
Lemma types_app a b : types (a ++ b) = types a ++ types b. Proof. apply map_app. Qed.
Lemma tidy_glue s l : l <> [] -> Forall (fun x => tidy (types x)) l -> tidy (types (glue [s] l)).
Proof.
  intros N F. induction F as [|x l H F IH]; [congruence|]. destruct l as [|y l]; [exact H|].
  change (glue [s] (x :: y :: l)) with (x ++ [s] ++ glue [s] (y :: l)). rewrite !types_app. apply tidy_sep; [exact H|]. apply IH. discriminate.
Qed.

Definition is_tidy (L : lang shape) : Prop := forall l, L l -> tidy (types l).
Lemma tidy_spaced t a s b : t <> WHITESPACE -> spaced t s -> tidy (types a) -> tidy (types b) -> tidy (types (a ++ s ++ b)).
Proof.
  intros N (w1 & r & -> & B1 & r1 & w2 & -> & -> & B2) Ta Tb. rewrite <- !app_assoc.
  assert (T2 : tidy (types ([sign t] ++ w2 ++ b))).
  { destruct B2 as [-> | ->]; rewrite !types_app; [apply tidy_app; [now apply tidy_one|exact Tb]|apply tidy_sep; [now apply tidy_one|exact Tb]]. }
  destruct B1 as [-> | ->]; rewrite types_app; [cbn [app]; rewrite <- types_app; rewrite types_app; now apply tidy_app|].
  rewrite types_app. now apply tidy_sep.
Qed.
Lemma is_tidy_between t l : t <> WHITESPACE -> l <> [] -> Forall is_tidy l -> is_tidy (between (spaced t) l).
Proof.
  intros N Nl F. induction F as [|P l H F IH]; [congruence|]. destruct l as [|Q l]; [exact H|].
  intros x (a & y & -> & Ha & s & b & -> & Hs & Hb). eapply tidy_spaced; [exact N|exact Hs|now apply H|]. apply IH; [discriminate|exact Hb].
Qed.
Lemma tidy_group g : g <> [] -> tidy (types (group_leaves g)).
Proof.
  intro N. apply tidy_glue; [destruct g; [congruence|discriminate]|]. apply Forall_forall. intros x H. apply in_map_iff in H. destruct H as (v & <- & _).
  apply tidy_one. destruct v; discriminate.
Qed.
Lemma tidy_head OkV d : decl_with OkV d -> is_tidy (decl_head d).
Proof.
  intros (_ & _ & N & F) l (a & y & -> & -> & s & b & -> & Hs & Hb). eapply tidy_spaced; [|exact Hs|apply tidy_one; discriminate|]; [discriminate|].
  revert b Hb. apply is_tidy_between; [discriminate|destruct (d_groups d); [congruence|discriminate]|]. rewrite Forall_map. revert F. apply Forall_impl. intros g (G & _) x ->. now apply tidy_group.
Qed.
Lemma tidy_mark m : tidy (types (mark_leaves m)).
Proof. destruct m; cbn; (split; [cbn; intuition discriminate|split; discriminate]). Qed.
Lemma tidy_marks a l : tidy (types a) -> tidy (types (a ++ flat_map mark_leaves l)).
Proof.
  revert a. induction l as [|m l IH]; intros a H; [cbn [flat_map]; now rewrite app_nil_r|]. cbn [flat_map]. rewrite app_assoc. apply IH. rewrite types_app. apply tidy_app; [exact H|apply tidy_mark].
Qed.
Lemma tidy_compound k : compound_ok k -> tidy (types (compound_leaves k)).
Proof.
  intros (A & _). unfold compound_leaves. destruct (k_name k); [apply tidy_marks, tidy_one; discriminate|].
  destruct (k_marks k) as [|m l]; [congruence|]. cbn [app flat_map]. apply tidy_marks, tidy_mark.
Qed.
Lemma tidy_complex s : complex_ok s -> is_tidy (complex_lay s).
Proof.
  intros (A & _). unfold compounds in A. inversion A as [|? ? A1 A2]; subst. intros x (a & y & -> & -> & Hy). pose proof (tidy_compound _ A1) as T.
  revert y Hy. generalize (compound_leaves (s_first s)) T. rewrite Forall_map in A2. clear A A1 T. induction A2 as [|(q & k) l H A2 IH]; intros a Ta y Hy; [unfold each, map, this in Hy; subst y; now rewrite app_nil_r|].
  cbn [map each fst snd] in Hy, H. destruct Hy as (b & c & -> & (b1 & b2 & -> & Hb1 & ->) & Hc). rewrite app_assoc. apply IH; [|exact Hc].
  destruct q; [cbn [link_leaves] in Hb1; unfold this in Hb1; subst b1; rewrite !types_app; apply tidy_sep; [exact Ta|now apply tidy_compound]|..];
    (eapply tidy_spaced; [|exact Hb1|exact Ta|now apply tidy_compound]; discriminate).
Qed.
Lemma tidy_selector OkV r : rule_with OkV r -> is_tidy (selector_lay r).
Proof.
  intros (N & F & _). apply is_tidy_between; [discriminate|destruct (r_selectors r); [congruence|discriminate]|]. rewrite Forall_map. revert F. apply Forall_impl. apply tidy_complex.
Qed.

(** Types of the leaves. *)
Definition plain_type (t : ntype) : bool :=
  match t with IDENTIFIER | INTEGER | COLON | COMMA | WHITESPACE | PERIOD | HASH | GREATER_THAN | PRECEDED | VARIABLE => true | _ => false end.
Definition selector_type (t : ntype) : bool := plain_type t && negb (Base.ntype_eqb t COLON) && negb (Base.ntype_eqb t VARIABLE).
Lemma forall_glue' {A} (P : A -> Prop) sep l : Forall P sep -> Forall (Forall P) l -> Forall P (glue sep l).
Proof. intros H F. induction F as [|x l Hx F IH]; [constructor|]. destruct l as [|y l]; [exact Hx|]. cbn [glue] in *. repeat (apply Forall_app; split); auto. Qed.
Lemma forall_flat {A B} (P : B -> Prop) (g : A -> list B) l : (forall x, Forall P (g x)) -> Forall P (flat_map g l).
Proof. intro H. induction l as [|x l IH]; [constructor|]. cbn [flat_map]. apply Forall_app. split; auto. Qed.
Definition every (p : shape -> Prop) (L : lang shape) : Prop := forall l, L l -> Forall p l.
Lemma every_this p l : Forall p l -> every p (this l). Proof. intros H x ->. exact H. Qed.
Lemma every_then p P Q : every p P -> every p Q -> every p (P # Q).
Proof. intros A B x (a & b & -> & Ha & Hb). apply Forall_app. auto. Qed.
Lemma every_blanks (p : shape -> Prop) : p (sign WHITESPACE) -> every p blanks.
Proof. intros H x [-> | ->]; repeat constructor. exact H. Qed.
Lemma every_spaced (p : shape -> Prop) t : p (sign WHITESPACE) -> p (sign t) -> every p (spaced t).
Proof. intros H K. apply every_then; [now apply every_blanks|]. apply every_then; [apply every_this; constructor; [exact K|constructor]|now apply every_blanks]. Qed.
Lemma every_between p Q l : every p Q -> Forall (every p) l -> every p (between Q l).
Proof.
  intros H F. induction F as [|P l A F IH]; [apply every_this; constructor|]. destruct l as [|P2 l]; [exact A|]. change (every p (P # Q # between Q (P2 :: l))).
  apply every_then; [exact A|]. now apply every_then.
Qed.
Lemma every_each p l : Forall (every p) l -> every p (each l).
Proof. intro F. induction F as [|P l A F IH]; [apply every_this; constructor|]. cbn [each]. now apply every_then. Qed.
Definition plain_leaf (s : shape) : Prop := plain_type (sh_type s) = true.
Lemma head_plain d : every plain_leaf (decl_head d).
Proof.
  apply every_then; [apply every_this; repeat constructor|]. apply every_then; [now apply every_spaced|]. apply every_between; [now apply every_spaced|].
  rewrite Forall_map. apply Forall_forall. intros g _. apply every_this. apply forall_glue'; [repeat constructor|]. rewrite Forall_map. apply Forall_forall. intros v _. constructor; [|constructor]. destruct v; reflexivity.
Qed.
Lemma selector_plain r : every (fun s => selector_type (sh_type s) = true) (selector_lay r).
Proof.
  apply every_between; [now apply every_spaced|]. rewrite Forall_map. apply Forall_forall. intros s _.
  assert (K : forall k, every (fun s => selector_type (sh_type s) = true) (this (compound_leaves k))).
  { intro k. apply every_this. unfold compound_leaves. apply Forall_app. split; [destruct (k_name k); repeat constructor|]. apply forall_flat. intros []; repeat constructor. }
  apply every_then; [apply K|]. apply every_each. rewrite Forall_map. apply Forall_forall. intros (x & k) _. apply every_then; [|apply K].
  destruct x; cbn [fst link_leaves]; [apply every_this; repeat constructor|now apply every_spaced|now apply every_spaced].
Qed.

(** ** Nodes and their shapes *)
Lemma type_shape n : n_type n = sh_type (node_shape n). Proof. now destruct n. Qed.
Lemma str_shape n : n_str n = sh_str (node_shape n). Proof. now destruct n. Qed.
Lemma types_nodes l : map n_type l = types (map node_shape l).
Proof. unfold types. rewrite map_map. apply map_ext. apply type_shape. Qed.
Lemma set_ch_shape n l t s i k : node_shape n = Shape t s i [] k -> node_shape (set_ch n l) = Shape t s i [] (map node_shape l).
Proof. destruct n. cbn. intro E. injection E as -> -> -> _. reflexivity. Qed.
Lemma set_str_shape n x t s i k : node_shape n = Shape t s i [] k -> node_shape (set_str n x) = Shape t x i [] k.
Proof. destruct n. cbn. intro E. injection E as -> -> -> <-. reflexivity. Qed.
Lemma type_of n x : node_shape n = x -> n_type n = sh_type x. Proof. intros <-. apply type_shape. Qed.

Lemma is_spec n t : is n t = true <-> n_type n = t.
Proof. unfold is. apply ntype_eqb_spec. Qed.
Lemma is_no n t : n_type n <> t -> is n t = false.
Proof. intro H. unfold is. now apply ntype_eqb_neq. Qed.

Lemma lastn_last l x : lastn (l ++ [x]) = Some x.
Proof. unfold lastn. now rewrite rev_app_distr. Qed.
Lemma add_plain cur b : n_type b <> EOF_TOKEN -> (n_type b = WHITESPACE -> forall a x, cur = a ++ [x] -> n_type x <> WHITESPACE) ->
  add_ch cur b = cur ++ [b].
Proof.
  intros H W. unfold add_ch. rewrite is_no by exact H. unfold is_ws. destruct (is b WHITESPACE) eqn:E; [|reflexivity].
  apply is_spec in E. destruct cur as [|x cur _] using rev_ind; [reflexivity|]. rewrite lastn_last. rewrite is_no; [reflexivity|]. eapply W; eauto.
Qed.

Lemma leaf_step f fl rp cp don cur n r e m : plain_type (n_type n) = true -> 1 <= f ->
  (n_type n = WHITESPACE -> forall a x, cur = a ++ [x] -> n_type x <> WHITESPACE) ->
  cv_loop (S f) fl rp cp don cur (mkPS (n :: r) e m) = cv_loop f fl rp cp don (cur ++ [n]) (mkPS r e m).
Proof.
  intros P F W. destruct f as [|f]; [lia|].
  assert (A : add_ch cur n = cur ++ [n]) by (apply add_plain; [intro E; rewrite E in P; discriminate|exact W]).
  set (F1 := S f). cbn [cv_loop]. unfold bind at 1. unfold last_token at 1. cbn [ps_toks].
  assert (St : stops fl (n_type n) = false) by (destruct (n_type n); try discriminate P; reflexivity). rewrite St.
  assert (C : component_value F1 n (mkPS (n :: r) e m) = Ret n (mkPS r e m)).
  { subst F1. cbn [component_value]. destruct (n_type n); try discriminate P; reflexivity. }
  destruct (n_type n); try discriminate P; unfold bind; rewrite C, A; reflexivity.
Qed.

Lemma leaves_run l : forall cur k fl rp cp don r e m, Forall (fun n => plain_type (n_type n) = true) l -> apart (map n_type (cur ++ l)) -> 1 <= k ->
  cv_loop (length l + k) fl rp cp don cur (mkPS (l ++ r) e m) = cv_loop k fl rp cp don (cur ++ l) (mkPS r e m).
Proof.
  induction l as [|n l IH]; intros cur k fl rp cp don r e m F A K; [cbn [length app plus]; now rewrite app_nil_r|].
  inversion F as [|? ? Fn Fl]; subst. cbn [length plus app]. rewrite leaf_step.
  - rewrite IH; [now rewrite <- app_assoc|exact Fl| |exact K]. now rewrite <- app_assoc.
  - exact Fn.
  - lia.
  - intros E a x ->. rewrite <- app_assoc in A. cbn [app] in A. rewrite map_app in A. cbn [map] in A. apply apart_mid in A. tauto.
Qed.

(** ** Trimming *)
Definition few (l : list node) : Prop := l = [] \/ exists n, l = [n] /\ n_type n = WHITESPACE.
Lemma few_blanks l : blanks (map node_shape l) -> few l.
Proof.
  intros [H|H]; unfold this in H; [left; now apply map_eq_nil in H|right]. apply map_eq_cons in H. destruct H as (n & r & -> & E & H). apply map_eq_nil in H. subst r.
  exists n. split; [reflexivity|]. now rewrite type_shape, E.
Qed.
Lemma tidy_nodes l : tidy (map n_type l) -> l <> []. Proof. intros H ->. now apply tidy_nil in H. Qed.
Lemma drop_front_tidy l r : tidy (map n_type l) -> drop_front (l ++ r) = l ++ r /\ drop_front1 (l ++ r) = l ++ r.
Proof. intro H. pose proof (tidy_nodes _ H) as N. destruct H as (_ & H & _). destruct l as [|x l]; [congruence|]. cbn [map hd] in H. cbn [app drop_front drop_front1]. unfold is_ws. rewrite is_no by exact H. auto. Qed.
Lemma drop_front_few w l r : few w -> tidy (map n_type l) -> drop_front (w ++ l ++ r) = l ++ r /\ drop_front1 (w ++ l ++ r) = l ++ r.
Proof.
  intros [-> |(n & -> & W)] T; [exact (drop_front_tidy l r T)|]. destruct (drop_front_tidy l r T) as (A & B). cbn [app drop_front drop_front1]. unfold is_ws. rewrite (proj2 (is_spec n WHITESPACE) W). auto.
Qed.
Lemma drop_back_few w l : few w -> tidy (map n_type l) -> drop_back (l ++ w) = l /\ drop_back1 (l ++ w) = l.
Proof.
  intros Fw T. pose proof (tidy_nodes _ T) as N. destruct T as (_ & _ & H). unfold drop_back, drop_back1. destruct l as [|x l _] using rev_ind; [congruence|].
  rewrite map_app, last_app in H by discriminate. cbn [map last] in H. rewrite !rev_app_distr. cbn [rev app].
  destruct Fw as [-> |(n & -> & W)]; cbn [rev app drop_front drop_front1]; unfold is_ws; [|rewrite (proj2 (is_spec n WHITESPACE) W); cbn [drop_front]; unfold is_ws]; rewrite ?(is_no x) by exact H; cbn [rev]; rewrite rev_involutive; auto.
Qed.
Lemma drop_back1_lead w1 w l : few w -> tidy (map n_type l) -> drop_back1 (w1 ++ l ++ w) = w1 ++ l.
Proof.
  intros Fw T. pose proof (tidy_nodes _ T) as N. destruct T as (_ & _ & H). unfold drop_back1. destruct l as [|x l _] using rev_ind; [congruence|].
  rewrite map_app, last_app in H by discriminate. cbn [map last] in H. rewrite !rev_app_distr. cbn [rev app].
  destruct Fw as [-> |(n & -> & W)]; cbn [rev app drop_front1]; unfold is_ws; [rewrite (is_no x) by exact H|rewrite (proj2 (is_spec n WHITESPACE) W)]; cbn [rev]; rewrite rev_app_distr, !rev_involutive, <- app_assoc; reflexivity.
Qed.
Lemma apart_few w1 l w2 : few w1 -> tidy (map n_type l) -> few w2 -> apart (map n_type (w1 ++ l ++ w2)).
Proof.
  intros F1 T F2. pose proof (tidy_ne _ T) as N. destruct T as (A & B & Cc). rewrite !map_app.
  assert (D : apart (map n_type l ++ map n_type w2)).
  { apply apart_app; [exact A|destruct F2 as [-> |(n & -> & _)]; exact I|]. rewrite (last_dep _ COMMA WHITESPACE N). tauto. }
  apply apart_app; [destruct F1 as [-> |(n & -> & _)]; exact I|exact D|]. destruct (map n_type l); [congruence|]. cbn [app hd] in *. tauto.
Qed.
Lemma plain_few w : few w -> Forall (fun n => plain_type (n_type n) = true) w.
Proof. intros [-> |(n & -> & W)]; [constructor|]. constructor; [now rewrite W|constructor]. Qed.

Lemma map_split {A B} (f : A -> B) l a b : map f l = a ++ b -> exists l1 l2, l = l1 ++ l2 /\ map f l1 = a /\ map f l2 = b.
Proof. intro H. apply map_eq_app in H. destruct H as (l1 & l2 & -> & E1 & E2). eauto. Qed.
Lemma map_cons_split {A B} (f : A -> B) l x b : map f l = x :: b -> exists y l2, l = y :: l2 /\ f y = x /\ map f l2 = b.
Proof. intro H. apply map_eq_cons in H. destruct H as (y & l2 & -> & E1 & E2). eauto. Qed.

Lemma of_shapes (P : ntype -> Prop) l : Forall (fun s => P (sh_type s)) (map node_shape l) -> Forall (fun n => P (n_type n)) l.
Proof. rewrite Forall_map. apply Forall_impl. intros n H. now rewrite type_shape. Qed.

Ltac apps := repeat (rewrite <- app_assoc; cbn [app]); reflexivity.
Lemma lang_split {A B} (f : A -> B) (P Q : lang B) l : (P # Q) (map f l) -> exists l1 l2, l = l1 ++ l2 /\ P (map f l1) /\ Q (map f l2).
Proof. intros (a & b & E & Ha & Hb). apply map_split in E. destruct E as (l1 & l2 & -> & <- & <-). eauto. Qed.
Lemma this_one {A B} (f : A -> B) s l : this [s] (map f l) -> exists n, l = [n] /\ f n = s.
Proof. unfold this. intro H. apply map_eq_cons in H. destruct H as (n & r & -> & E & H). apply map_eq_nil in H. subst r. eauto. Qed.
Lemma spaced_split t l : spaced t (map node_shape l) -> exists a n b, l = a ++ n :: b /\ few a /\ node_shape n = sign t /\ few b.
Proof.
  intro H. apply lang_split in H. destruct H as (a & r & -> & Ha & H). apply lang_split in H. destruct H as (c & b & -> & Hc & Hb). apply this_one in Hc. destruct Hc as (n & -> & E).
  exists a, n, b. split; [reflexivity|]. split; [now apply few_blanks|]. split; [exact E|now apply few_blanks].
Qed.

(** One declaration. *)
Lemma decl_run OkV d w1 toks w2 k fl rp cp don x r e m : decl_with OkV d -> few w1 -> decl_tokens d (map node_shape toks) -> few w2 -> 1 <= k ->
  n_type x <> WHITESPACE ->
  exists j cur w3, k <= j /\ few w3 /\ cv_loop (length (w1 ++ toks ++ w2) + k) fl rp cp don [] (mkPS (w1 ++ toks ++ w2 ++ x :: r) e m) = cv_loop j fl rp cp don (w1 ++ cur ++ w3) (mkPS (x :: r) e m)
    /\ decl_nodes d (map node_shape cur) /\ tidy (map n_type cur).
Proof.
  intros Ok F1 H F2 K X. apply lang_split in H. destruct H as (l1 & l2 & -> & H1 & H2).
  assert (P1 : Forall (fun n => plain_type (n_type n) = true) l1) by (apply (of_shapes (fun t => plain_type t = true)); eapply head_plain; exact H1).
  assert (T1 : tidy (map n_type l1)) by (rewrite types_nodes; eapply tidy_head; [exact Ok|exact H1]).
  unfold decl_nodes, flag_leaves. destruct (d_important d).
  - apply lang_split in H2. destruct H2 as (l3 & l4 & -> & H2 & H3). apply spaced_split in H2. destruct H2 as (b1 & n & b2 & -> & B1 & E1 & B2). apply this_one in H3. destruct H3 as (w & -> & E2).
    exists (length b2 + 1 + length w2 + k), (l1 ++ [set_str n (n_str w)]), []. split; [lia|]. split; [now left|]. 
    assert (Yn : n_type (set_str n (n_str w)) = EXCLAMATION) by (pose proof (type_of _ _ E1) as Y; destruct n; exact Y).
    split; [|split].
    + pose proof (type_of _ _ E1) as Y1. pose proof (type_of _ _ E2) as Y2. cbn in Y1, Y2.
      replace (length (w1 ++ (l1 ++ (b1 ++ n :: b2) ++ [w]) ++ w2) + k) with (length (w1 ++ l1 ++ b1) + S (length b2 + 1 + length w2 + k)) by (rewrite !app_length; cbn [length]; rewrite ?app_length; cbn [length]; lia).
      replace (w1 ++ (l1 ++ (b1 ++ n :: b2) ++ [w]) ++ w2 ++ x :: r) with ((w1 ++ l1 ++ b1) ++ n :: b2 ++ w :: w2 ++ x :: r) by apps.
      rewrite leaves_run; [|apply Forall_app; split; [now apply plain_few|apply Forall_app; split; [exact P1|now apply plain_few]]|cbn [app]; now apply apart_few|lia]. cbn [app].
      set (F := length b2 + 1 + length w2 + k). cbn [cv_loop]. unfold bind at 1. unfold last_token at 1. cbn [ps_toks]. rewrite Y1. cbn [stops].
      assert (Sk : forall (A : Type) (g : node -> P A), bind (fun s => bind next_token (fun e0 => if is_ws e0 then next_token else ret e0) s) g (mkPS (n :: b2 ++ w :: w2 ++ x :: r) e m) = g w (mkPS (w :: w2 ++ x :: r) e m)).
      { intros A g. destruct B2 as [-> |(n2 & -> & W2)]; unfold bind, next_token, last_token; cbn [ps_toks tl app]; unfold is_ws.
        - rewrite (is_no w) by (rewrite Y2; discriminate). reflexivity.
        - rewrite (proj2 (is_spec n2 WHITESPACE) W2). reflexivity. }
      match goal with |- ?lhs = _ => transitivity (bind (fun s => bind next_token (fun e0 => if is_ws e0 then next_token else ret e0) s) (fun e1 => if is e1 IDENTIFIER then
         bind next_token (fun _ => bind skip_space (fun _ => cv_loop F fl rp cp don (add_ch (drop_back1 (w1 ++ l1 ++ b1)) (set_str n (n_str e1))))) else bind (report (n_pos e1) "A '!' must be followed by an identifier.") (fun _ => cv_loop F fl rp cp don (w1 ++ l1 ++ b1))) (mkPS (n :: b2 ++ w :: w2 ++ x :: r) e m)) end.
      { destruct B2 as [-> |(n2 & -> & W2)]; unfold bind, next_token, last_token; cbn [ps_toks tl app]; destruct (is_ws _); reflexivity. }
      rewrite Sk. assert (is w IDENTIFIER = true) as -> by now apply is_spec.
      unfold bind at 1, next_token at 1, last_token at 1. cbn [ps_toks tl].
      rewrite (drop_back1_lead w1 b1 l1 B1 T1). rewrite add_plain; [|rewrite Yn; discriminate|rewrite Yn; discriminate]. rewrite app_nil_r, <- app_assoc.
      unfold skip_space, bind, last_token. destruct F2 as [-> |(n2 & -> & W2)]; cbn [ps_toks app]; unfold is_ws.
      * rewrite (is_no x) by exact X. reflexivity.
      * rewrite (proj2 (is_spec n2 WHITESPACE) W2). reflexivity.
    + rewrite map_app. exists (map node_shape l1), [leaf EXCLAMATION (zs "important") 0]. split; [|split; [exact H1|reflexivity]]. f_equal. cbn [map]. rewrite (set_str_shape _ _ _ _ _ _ E1). rewrite str_shape, E2. reflexivity.
    + rewrite map_app. apply tidy_app; [exact T1|]. apply tidy_one. rewrite Yn. discriminate.
  - unfold this in H2. apply map_eq_nil in H2. subst l2. rewrite app_nil_r. exists k, l1, w2. split; [lia|]. split; [exact F2|]. split; [|split].
    + replace (w1 ++ l1 ++ w2 ++ x :: r) with ((w1 ++ l1 ++ w2) ++ x :: r) by now rewrite <- !app_assoc.
      rewrite leaves_run; [reflexivity|apply Forall_app; split; [now apply plain_few|apply Forall_app; split; [exact P1|now apply plain_few]]|cbn [app]; now apply apart_few|lia].
    + exists (map node_shape l1), []. rewrite app_nil_r. split; [reflexivity|]. split; [exact H1|reflexivity].
    + exact T1.
Qed.

Lemma finish_shape rp cp don w1 cur w2 : few w1 -> few w2 -> tidy (map n_type cur) ->
  node_shape (cv_finish rp cp don (w1 ++ cur ++ w2)) = listed (map node_shape don ++ [inner COMPONENT_VALUE (map node_shape cur)]).
Proof.
  intros F1 F2 T. unfold cv_finish. destruct (drop_front_few w1 cur w2 F1 T) as (_ & ->). destruct (drop_back_few w2 cur F2 T) as (_ & ->).
  destruct cur as [|c cur]; [now apply tidy_nil in T|]. set (l := c :: cur). destruct don as [|x [|y don]]; [reflexivity|reflexivity|].
  cbn [app map listed node_shape set_ch mk]. unfold inner. rewrite map_app. reflexivity.
Qed.
Lemma finish_few rp cp don w : few w -> node_shape (cv_finish rp cp don w) = listed (map node_shape don).
Proof.
  intro F. unfold cv_finish. assert (drop_back1 (drop_front1 w) = []) as ->.
  { destruct F as [-> |(n & -> & W)]; [reflexivity|]. cbn [drop_front1]. unfold is_ws. now rewrite (proj2 (is_spec n WHITESPACE) W). }
  destruct don as [|x [|y don]]; reflexivity.
Qed.
Lemma semi_step j rp cp don w1 cur w2 s r e m : few w1 -> few w2 -> tidy (map n_type cur) -> n_type s = SEMICOLON ->
  cv_loop (S j) (mkFlags false false) rp cp don (w1 ++ cur ++ w2) (mkPS (s :: r) e m)
  = cv_loop j (mkFlags false false) rp (n_pos s) (don ++ [set_ch (mk COMPONENT_VALUE cp) cur]) [] (mkPS r e m).
Proof.
  intros F1 F2 T Y. cbn [cv_loop]. unfold bind at 1, last_token at 1. cbn [ps_toks]. rewrite Y. cbn [stops on_semi].
  unfold bind at 1, next_token at 1, last_token at 1. cbn [ps_toks tl on_var]. destruct (drop_front_few w1 cur w2 F1 T) as (-> & _). destruct (drop_back_few w2 cur F2 T) as (-> & _).
  unfold bind at 1. unfold ret at 1. destruct cur as [|c cur]; [now apply tidy_nil in T|]. reflexivity.
Qed.
Lemma stop_step j fl rp cp don cur x r e m : n_type x = CLOSE_CURLYBRACKET ->
  cv_loop (S j) fl rp cp don cur (mkPS (x :: r) e m) = Ret (cv_finish rp cp don cur) (mkPS (x :: r) e m).
Proof. intro X. cbn [cv_loop]. unfold bind at 1, last_token at 1. cbn [ps_toks]. rewrite X. reflexivity. Qed.

Definition block_end : lang shape := either (this []) (blanks # this [sign SEMICOLON]) # blanks.
Lemma decls_run OkV ds : forall w1 toks w2 f rp cp don x r e m, ds <> [] -> Forall (decl_with OkV) ds -> few w1 -> between (spaced SEMICOLON) (map decl_tokens ds) (map node_shape toks) ->
  block_end (map node_shape w2) -> n_type x = CLOSE_CURLYBRACKET -> length (w1 ++ toks ++ w2) + 1 <= f ->
  exists n, cv_loop f (mkFlags false false) rp cp don [] (mkPS (w1 ++ toks ++ w2 ++ x :: r) e m) = Ret n (mkPS (x :: r) e m)
    /\ exists cs, node_shape n = listed (map node_shape don ++ cs) /\ Forall2 decl_shape ds cs.
Proof.
  induction ds as [|d ds IH]; intros w1 toks w2 f rp cp don x r e m N F F1 H H2 X K; [congruence|]. inversion F as [|? ? Fd Fs]; subst. destruct ds as [|d2 ds].
  - cbn [map between] in H. apply lang_split in H2. destruct H2 as (a & b & -> & Ha & Hb). apply few_blanks in Hb. destruct Ha as [Ha|Ha].
    + unfold this in Ha. apply map_eq_nil in Ha. subst a. cbn [app] in *. replace f with (length (w1 ++ toks ++ b) + (f - length (w1 ++ toks ++ b))) by lia.
      destruct (decl_run OkV d w1 toks b (f - length (w1 ++ toks ++ b)) (mkFlags false false) rp cp don x r e m Fd F1 H Hb) as (j & cur & w3 & J & F3 & E & Sh & T); [lia|rewrite X; discriminate|].
      rewrite E. destruct j as [|j]; [lia|]. rewrite stop_step by exact X. eexists. split; [reflexivity|]. exists [inner COMPONENT_VALUE (map node_shape cur)]. rewrite finish_shape by assumption. split; [reflexivity|].
      constructor; [|constructor]. exists (map node_shape cur). auto.
    + apply lang_split in Ha. destruct Ha as (a1 & a2 & -> & Ha & Hs). apply few_blanks in Ha. apply this_one in Hs. destruct Hs as (s & -> & Es). pose proof (type_of _ _ Es) as Ys. cbn in Ys.
      assert (Ln : length (w1 ++ toks ++ (a1 ++ [s]) ++ b) = length (w1 ++ toks ++ a1) + 1 + length b) by (rewrite !app_length; cbn [length]; lia). rewrite Ln in K.
      replace f with (length (w1 ++ toks ++ a1) + (f - length (w1 ++ toks ++ a1))) by lia.
      replace (((a1 ++ [s]) ++ b) ++ x :: r) with (a1 ++ s :: b ++ x :: r) by apps.
      destruct (decl_run OkV d w1 toks a1 (f - length (w1 ++ toks ++ a1)) (mkFlags false false) rp cp don s (b ++ x :: r) e m Fd F1 H Ha) as (j & cur & w3 & J & F3 & E & Sh & T); [lia|rewrite Ys; discriminate|].
      rewrite E. destruct j as [|j]; [lia|]. rewrite semi_step by assumption.
      replace j with (length b + (j - length b)) by lia. rewrite leaves_run; [|now apply plain_few|cbn [app]; destruct Hb as [-> |(z & -> & _)]; exact I|lia]. cbn [app].
      destruct (j - length b) as [|j'] eqn:Ej; [lia|]. rewrite stop_step by exact X. eexists. split; [reflexivity|]. exists [inner COMPONENT_VALUE (map node_shape cur)]. rewrite finish_few by exact Hb. rewrite map_app. cbn [map node_shape set_ch mk]. split; [reflexivity|].
      constructor; [|constructor]. exists (map node_shape cur). auto.
  - change (between (spaced SEMICOLON) (map decl_tokens (d :: d2 :: ds))) with (decl_tokens d # spaced SEMICOLON # between (spaced SEMICOLON) (map decl_tokens (d2 :: ds))) in H.
    apply lang_split in H. destruct H as (l1 & l2 & -> & H1 & H). apply lang_split in H. destruct H as (ls & l3 & -> & Hs & H). apply spaced_split in Hs. destruct Hs as (a1 & s & b & -> & Ha & Es & Hb). pose proof (type_of _ _ Es) as Ys. cbn in Ys.
    assert (Ln : length (w1 ++ (l1 ++ (a1 ++ s :: b) ++ l3) ++ w2) = length (w1 ++ l1 ++ a1) + 1 + length (b ++ l3 ++ w2)) by (rewrite !app_length; cbn [length]; lia). rewrite Ln in K.
    replace f with (length (w1 ++ l1 ++ a1) + (f - length (w1 ++ l1 ++ a1))) by lia.
    replace (w1 ++ (l1 ++ (a1 ++ s :: b) ++ l3) ++ w2 ++ x :: r) with (w1 ++ l1 ++ a1 ++ s :: b ++ l3 ++ w2 ++ x :: r) by apps.
    destruct (decl_run OkV d w1 l1 a1 (f - length (w1 ++ l1 ++ a1)) (mkFlags false false) rp cp don s (b ++ l3 ++ w2 ++ x :: r) e m Fd F1 H1 Ha) as (j & cur & w3 & J & F3 & E & Sh & T); [lia|rewrite Ys; discriminate|].
    rewrite E. destruct j as [|j]; [lia|]. rewrite semi_step by assumption.
    destruct (IH b l3 w2 j rp (n_pos s) (don ++ [set_ch (mk COMPONENT_VALUE cp) cur]) x r e m) as (n & En & cs & Sn & Fc); [discriminate|exact Fs|exact Hb|exact H|exact H2|exact X|lia|].
    exists n. split; [exact En|]. exists (inner COMPONENT_VALUE (map node_shape cur) :: cs). split.
    + rewrite Sn, map_app, <- app_assoc. reflexivity.
    + constructor; [|exact Fc]. exists (map node_shape cur). auto.
Qed.

(** The block of a rule. *)
Lemma block_run OkV ds b w1 toks w2 f x r e m : ds <> [] -> Forall (decl_with OkV) ds -> few w1 -> between (spaced SEMICOLON) (map decl_tokens ds) (map node_shape toks) ->
  block_end (map node_shape w2) ->
  node_shape b = sign OPEN_CURLYBRACKET -> n_type x = CLOSE_CURLYBRACKET -> length (w1 ++ toks ++ w2) + 3 <= f ->
  exists n, component_value f b (mkPS (b :: w1 ++ toks ++ w2 ++ x :: r) e m) = Ret n (mkPS r e m)
    /\ exists cs, node_shape n = inner OPEN_CURLYBRACKET [listed cs] /\ Forall2 decl_shape ds cs.
Proof.
  intros N F F1 H H2 B X K. pose proof (type_of _ _ B) as Y. cbn in Y. destruct f as [|f]; [lia|]. destruct f as [|f]; [lia|].
  assert (Bc : n_ch b = []) by (destruct b as [? ? ? ? ? ? ? c]; cbn in B; injection B as _ _ _ B; destruct c; [reflexivity|discriminate]).
  set (t := match w1 ++ toks ++ w2 ++ x :: r with [] => mk EOF_TOKEN e | t :: _ => t end).
  destruct (decls_run OkV ds w1 toks w2 f (n_pos t) (n_pos t) [] x r e m N F F1 H H2 X) as (c & E & cs & Sc & Fc); [lia|]. cbn [map app] in Sc.
  exists (set_ch b (add_ch (n_ch b) c)). split.
  - cbn [component_value]. rewrite Y. unfold bind at 1, next_token at 1, last_token at 1. cbn [ps_toks tl]. cbn [block_list]. unfold bind at 1, last_token at 1. cbn [ps_toks ps_eof]. fold t.
    unfold bind at 1. cbn [ps_eof ps_msgs] in *. rewrite E. unfold bind at 1, last_token at 1. cbn [ps_toks]. rewrite X. unfold bind at 1, ret at 1. unfold bind at 1, last_token at 1. cbn [ps_toks]. rewrite X. reflexivity.
  - exists cs. split; [|exact Fc]. rewrite (set_ch_shape _ _ _ _ _ _ B). rewrite Bc. rewrite add_plain; [|rewrite type_shape, Sc|intros _ a y; destruct a; discriminate].
    + cbn [app map]. rewrite Sc. reflexivity.
    + destruct cs as [|s [|s2 cs]]; [discriminate| |discriminate]. inversion Fc as [|? ? ? ? (l & _ & ->) _]; subst. discriminate.
Qed.

(** A rule. *)
Lemma rule_run OkV w toks f r e m : rule_with OkV w -> rule_tokens w (map node_shape toks) -> length toks + 4 <= f ->
  exists n, qualified_rule f (mkPS (toks ++ r) e m) = Ret n (mkPS r e m) /\ rule_shape w (node_shape n).
Proof.
  intros Ok H K. pose proof (tidy_selector OkV w Ok) as T. pose proof (selector_plain w) as SP. destruct Ok as (_ & _ & N & F).
  apply lang_split in H. destruct H as (sel & l2 & -> & H1 & H). apply lang_split in H. destruct H as (lb & l3 & -> & Hb & H). apply spaced_split in Hb. destruct Hb as (w0 & b & w1 & -> & F0 & B & F1).
  apply lang_split in H. destruct H as (l4 & l5 & -> & H3 & H).
  assert (exists w2 x, l5 = w2 ++ [x] /\ block_end (map node_shape w2) /\ node_shape x = sign CLOSE_CURLYBRACKET) as (w2 & x & -> & H2 & X).
  { apply lang_split in H. destruct H as (e1 & e2 & -> & He1 & H). apply lang_split in H. destruct H as (e3 & e4 & -> & He3 & H). apply this_one in H. destruct H as (x & -> & X). exists (e1 ++ e3), x. split; [now rewrite app_assoc|]. split; [|exact X].
    rewrite map_app. eexists _, _. split; [reflexivity|]. split; [exact He1|exact He3]. }
  specialize (T _ H1). specialize (SP _ H1). rewrite <- types_nodes in T. apply (of_shapes (fun t => selector_type t = true)) in SP.
  pose proof (type_of _ _ X) as Yx. pose proof (type_of _ _ B) as Yb. cbn in Yx, Yb.
  assert (Fp : Forall (fun n => plain_type (n_type n) = true) sel) by (revert SP; apply Forall_impl; intros n Q; unfold selector_type in Q; rewrite !andb_true_iff in Q; tauto).
  assert (Ln : length (sel ++ (w0 ++ b :: w1) ++ l4 ++ w2 ++ [x]) = length (sel ++ w0) + 2 + length (w1 ++ l4 ++ w2)) by (rewrite !app_length; cbn [length]; rewrite ?app_length; cbn [length]; lia). rewrite Ln in K.
  assert (exists s0 sel', sel = s0 :: sel') as (s0 & sel' & Es) by (destruct sel; [now apply tidy_nil in T|eauto]).
  set (k := f - length (sel ++ w0)). destruct (block_run OkV (r_decls w) b w1 l4 w2 (pred k) x r e m N F F1 H3 H2 B Yx) as (n & En & cs & Sn & Fc); [subst k; lia|].
  pose proof (type_of _ _ Sn) as Yn. cbn in Yn.
  assert (V : forall wb, is_variable_set (sel ++ [n]) wb = Some false).
  { intro wb. unfold is_variable_set. destruct (Nat.ltb _ 3); [reflexivity|]. rewrite Es. cbn [app child_is nth_error obind].
    assert (S0 : selector_type (n_type s0) = true) by (rewrite Es in SP; now inversion SP). unfold child_is. cbn [nth_error obind]. rewrite is_no by (intro Q; rewrite Q in S0; discriminate). cbn [obind].
    rewrite is_no by (intro Q; rewrite Q in S0; discriminate). reflexivity. }
  assert (D : is_nested_declaration (sel ++ [n]) = Some false).
  { unfold is_nested_declaration. destruct (Nat.ltb (length (sel ++ [n])) 3) eqn:L; [reflexivity|]. apply Nat.ltb_ge in L.
    unfold child_is. rewrite lastn_last.
    assert (C : forall i, i < 3 -> exists z, nth_error (sel ++ [n]) i = Some z /\ is z COLON = false).
    { intros i Hi. destruct (nth_error (sel ++ [n]) i) as [z|] eqn:Z; [|apply nth_error_None in Z; lia]. exists z. split; [reflexivity|]. apply nth_error_In in Z. apply in_app_iff in Z. destruct Z as [Z|[<-|[]]].
      - rewrite Forall_forall in SP. specialize (SP z Z). apply is_no. intro Q. rewrite Q in SP. discriminate.
      - apply is_no. rewrite Yn. discriminate. }
    destruct (C 0) as (z0 & -> & _); [lia|]. destruct (C 1) as (z1 & -> & C1); [lia|]. destruct (C 2) as (z2 & E2 & C2); [lia|]. cbn [obind].
    destruct (is z0 IDENTIFIER); [|reflexivity]. cbn [negb]. destruct (is n OPEN_CURLYBRACKET); [|reflexivity]. cbn [negb].
    destruct (is z1 WHITESPACE); cbv zeta; [rewrite E2; cbn [obind]; now rewrite C2|]. 
    destruct (C 1) as (z1' & -> & C1'); [lia|]. cbn [obind]. now rewrite C1'. }
  exists (set_ch (mk COMPONENT_VALUE (n_pos s0)) (sel ++ [n])). split.
  - replace ((sel ++ (w0 ++ b :: w1) ++ l4 ++ w2 ++ [x]) ++ r) with (sel ++ w0 ++ b :: w1 ++ l4 ++ w2 ++ x :: r) by apps.
    unfold qualified_rule. rewrite Es at 1. cbn [app]. unfold bind at 1, last_token at 1. cbn [ps_toks].
    assert (S0 : plain_type (n_type s0) = true) by (rewrite Es in Fp; now inversion Fp).
    rewrite (is_no s0 EOF_TOKEN) by (intro Q; rewrite Q in S0; discriminate). rewrite (is_no s0 SEMICOLON) by (intro Q; rewrite Q in S0; discriminate).
    unfold component_value_list. unfold bind at 1, bind at 1, last_token at 1. cbn [ps_toks].
    assert (R : cv_loop f (mkFlags false true) (n_pos s0) (n_pos s0) [] [] (mkPS (s0 :: sel' ++ w0 ++ b :: w1 ++ l4 ++ w2 ++ x :: r) e m) = Ret (set_ch (mk COMPONENT_VALUE (n_pos s0)) (sel ++ [n])) (mkPS r e m)).
    { replace f with (length (sel ++ w0) + k) by (subst k; lia). replace (s0 :: sel' ++ w0 ++ b :: w1 ++ l4 ++ w2 ++ x :: r) with ((sel ++ w0) ++ b :: w1 ++ l4 ++ w2 ++ x :: r) by (rewrite Es, <- app_assoc; reflexivity).
      rewrite leaves_run; [|apply Forall_app; split; [exact Fp|now apply plain_few]|exact (apart_few [] sel w0 (or_introl eq_refl) T F0)|subst k; lia]. cbn [app]. assert (Hk : 1 <= k) by (subst k; lia). clearbody k. destruct k as [|k']; [lia|]. cbn [pred] in En.
      cbn [cv_loop]. unfold bind at 1, last_token at 1. cbn [ps_toks]. rewrite Yb. cbn [stops].
      unfold bind at 1. rewrite En. destruct (drop_back_few w0 sel F0 T) as (_ & ->).
      rewrite add_plain; [|rewrite Yn; discriminate|rewrite Yn; discriminate].
      destruct (drop_front_tidy sel [n] T) as (-> & _).
      unfold bind at 1. rewrite V. unfold lift at 1, ret at 1. unfold bind at 1. rewrite D. unfold lift, ret. cbn [negb andb].
      assert (T2 : tidy (map n_type (sel ++ [n]))) by (rewrite map_app; apply tidy_app; [exact T|apply tidy_one; rewrite Yn; discriminate]).
      unfold cv_finish. destruct (drop_front_tidy sel [n] T) as (_ & ->). pose proof (drop_back_few [] _ (or_introl eq_refl) T2) as (_ & DB). rewrite app_nil_r in DB. rewrite DB. rewrite Es. reflexivity. }
    rewrite R. change (n_ch (set_ch (mk COMPONENT_VALUE (n_pos s0)) (sel ++ [n]))) with (sel ++ [n]). rewrite lastn_last. rewrite V. unfold bind at 1, lift, ret at 1. rewrite (proj2 (is_spec n OPEN_CURLYBRACKET) Yn). reflexivity.
  - exists (map node_shape sel), cs. split; [exact H1|]. split; [exact Fc|]. cbn [node_shape set_ch mk]. rewrite map_app. cbn [map]. rewrite Sn. reflexivity.
Qed.

(** ** The whole style sheet *)
Lemma blank_step w : forall toks f acc e m, few w -> stylesheet_loop (length w + f) acc (mkPS (w ++ toks) e m) = stylesheet_loop f acc (mkPS toks e m).
Proof.
  intros toks f acc e m [-> |(n & -> & W)]; [reflexivity|]. cbn [length plus app stylesheet_loop]. unfold bind at 1, last_token at 1. cbn [ps_toks].
  rewrite (is_no n EOF_TOKEN) by (rewrite W; discriminate). rewrite (is_no n CDO) by (rewrite W; discriminate). rewrite (is_no n CDC) by (rewrite W; discriminate). unfold is_ws. rewrite (proj2 (is_spec n WHITESPACE) W). reflexivity.
Qed.
(** A variable. *)
Lemma set_run w g toks f r e m : g <> [] -> statement_tokens (Set_to w g) (map node_shape toks) -> length toks + 4 <= f ->
  exists n, qualified_rule f (mkPS (toks ++ r) e m) = Ret n (mkPS r e m) /\ statement_shape (Set_to w g) (node_shape n).
Proof.
  intros N H K. cbn [statement_tokens] in H. apply lang_split in H. destruct H as (l0 & l1 & -> & H0 & H). apply this_one in H0. destruct H0 as (v & -> & Ev).
  apply lang_split in H. destruct H as (lc & l2 & -> & Hc & H). pose proof Hc as Hc'. apply spaced_split in Hc'. destruct Hc' as (b1 & c & b2 & Elc & B1 & Ec & B2).
  apply lang_split in H. destruct H as (lg & l3 & -> & Hg & H). apply lang_split in H. destruct H as (w2 & l4 & -> & Hw & H). apply few_blanks in Hw. apply this_one in H. destruct H as (s & -> & Es).
  pose proof (type_of _ _ Ev) as Yv. pose proof (type_of _ _ Ec) as Yc. pose proof (type_of _ _ Es) as Ys. cbn in Yv, Yc, Ys.
  set (cur := v :: lc ++ lg).
  assert (T : tidy (map n_type cur)).
  { subst cur. rewrite types_nodes. cbn [map]. rewrite map_app. change (node_shape v :: map node_shape lc ++ map node_shape lg) with ([node_shape v] ++ map node_shape lc ++ map node_shape lg).
    eapply tidy_spaced; [|exact Hc| |]; [discriminate| |]; [apply tidy_one; rewrite Ev; discriminate|]. unfold this in Hg. rewrite Hg. now apply tidy_group. }
  assert (Fp : Forall (fun n => plain_type (n_type n) = true) cur).
  { subst cur. constructor; [now rewrite Yv|]. apply Forall_app. split.
    - apply (of_shapes (fun t => plain_type t = true)). revert Hc. now apply every_spaced.
    - apply (of_shapes (fun t => plain_type t = true)). unfold this in Hg. rewrite Hg. apply forall_glue'; [repeat constructor|]. rewrite Forall_map. apply Forall_forall. intros x _. constructor; [|constructor]. destruct x; reflexivity. }
  assert (L3 : 3 <= length cur).
  { subst cur. rewrite Elc. cbn [length]. rewrite !app_length. cbn [length]. assert (1 <= length lg); [|lia]. unfold this in Hg. apply (f_equal (@length _)) in Hg. rewrite map_length in Hg. rewrite Hg. pose proof (tidy_group g N) as Tg. apply tidy_ne in Tg. destruct (group_leaves g); [now contradict Tg|cbn; lia]. }
  assert (V : is_variable_set cur false = Some true).
  { unfold is_variable_set. replace (Nat.ltb (length cur) 3) with false by (symmetry; apply Nat.ltb_ge; exact L3). subst cur. rewrite Elc. unfold child_is.
    destruct B1 as [-> |(n1 & -> & W1)]; cbn [app nth_error obind]; rewrite (proj2 (is_spec v VARIABLE) Yv); cbn [obind negb].
    - rewrite (is_no c WHITESPACE) by (rewrite Yc; discriminate). cbv zeta; cbn [obind nth_error app]. rewrite (proj2 (is_spec c COLON) Yc). reflexivity.
    - rewrite (proj2 (is_spec n1 WHITESPACE) W1). cbv zeta; cbn [obind nth_error app]. rewrite (proj2 (is_spec c COLON) Yc). reflexivity. }
  exists (set_ch (mk COMPONENT_VALUE (n_pos v)) cur). split.
  - replace (([v] ++ lc ++ lg ++ w2 ++ [s]) ++ r) with (v :: lc ++ lg ++ w2 ++ s :: r) by (cbn [app]; f_equal; apps).
    unfold qualified_rule. unfold bind at 1, last_token at 1. cbn [ps_toks].
    rewrite (is_no v EOF_TOKEN) by (rewrite Yv; discriminate). rewrite (is_no v SEMICOLON) by (rewrite Yv; discriminate).
    unfold component_value_list. unfold bind at 1, bind at 1, last_token at 1. cbn [ps_toks].
    assert (Ln : length ([v] ++ lc ++ lg ++ w2 ++ [s]) = length (cur ++ w2) + 1) by (subst cur; cbn [app length]; rewrite !app_length; cbn [length]; lia). rewrite Ln in K.
    assert (R : cv_loop f (mkFlags false true) (n_pos v) (n_pos v) [] [] (mkPS (v :: lc ++ lg ++ w2 ++ s :: r) e m) = Ret (set_ch (mk COMPONENT_VALUE (n_pos v)) cur) (mkPS r e m)).
    { set (k := f - length (cur ++ w2)). assert (Hk : 5 <= k) by (subst k; lia). replace f with (length (cur ++ w2) + k) by (subst k; lia). clearbody k. replace (v :: lc ++ lg ++ w2 ++ s :: r) with ((cur ++ w2) ++ s :: r) by (subst cur; cbn [app]; f_equal; apps).
      rewrite leaves_run; [|apply Forall_app; split; [exact Fp|now apply plain_few]|exact (apart_few [] cur w2 (or_introl eq_refl) T Hw)|lia]. cbn [app]. destruct k as [|k']; [lia|].
      cbn [cv_loop]. unfold bind at 1, last_token at 1. cbn [ps_toks]. rewrite Ys. cbn [stops on_semi].
      unfold bind at 1, next_token at 1, last_token at 1. cbn [ps_toks tl on_var]. destruct (drop_front_tidy cur w2 T) as (-> & _). destruct (drop_back_few w2 cur Hw T) as (-> & _).
      rewrite V. unfold bind at 1, lift, ret at 1. unfold cv_finish. pose proof (drop_front_tidy cur [] T) as (_ & DF). rewrite app_nil_r in DF. rewrite DF. pose proof (drop_back_few [] _ (or_introl eq_refl) T) as (_ & DB). rewrite app_nil_r in DB. rewrite DB. subst cur. reflexivity. }
    rewrite R. change (n_ch (set_ch (mk COMPONENT_VALUE (n_pos v)) cur)) with cur.
    assert (exists z, lastn cur = Some z) as (z & ->) by (assert (Ne : cur <> []) by (subst cur; discriminate); destruct (exists_last Ne) as (q & z & ->); exists z; apply lastn_last). rewrite V. reflexivity.
  - exists (map node_shape lc). split; [exact Hc|]. cbn [node_shape set_ch mk]. subst cur. cbn [map]. rewrite map_app, Ev. unfold this in Hg. rewrite Hg. reflexivity.
Qed.
Lemma statement_run x toks f r e m : statement_ok x -> statement_tokens x (map node_shape toks) -> length toks + 4 <= f ->
  exists n, qualified_rule f (mkPS (toks ++ r) e m) = Ret n (mkPS r e m) /\ statement_shape x (node_shape n).
Proof.
  destruct x as [w g|x]; intros Ok H K; [apply set_run; [apply Ok|exact H|exact K]|]. now apply (rule_run script_value).
Qed.
Lemma statements_run l : forall toks f acc e m, Forall statement_ok l -> each (map (fun r => statement_tokens r # blanks) l) (map node_shape toks) -> length toks + 6 <= f ->
  exists ns, stylesheet_loop f acc (mkPS toks e m) = Ret (acc ++ ns) (mkPS [] e m) /\ Forall2 statement_shape l (map node_shape ns).
Proof.
  induction l as [|w l IH]; intros toks f acc e m F H K.
  - unfold map at 1, each, this in H. apply map_eq_nil in H. subst toks. destruct f as [|f]; [lia|]. exists []. rewrite app_nil_r. split; [reflexivity|constructor].
  - inversion F as [|? ? Fw Fl]; subst. cbn [map each] in H. apply lang_split in H. destruct H as (l0 & l2 & -> & H1 & H2). apply lang_split in H1. destruct H1 as (l1 & b & -> & H1 & Hb). apply few_blanks in Hb.
    rewrite !app_length in K.
    assert (exists s0 l1', l1 = s0 :: l1' /\ plain_type (n_type s0) = true /\ n_type s0 <> WHITESPACE) as (s0 & l1' & E & S0 & W0).
    { pose proof H1 as H0. destruct w as [v g|w].
      - cbn [statement_tokens] in H0. apply lang_split in H0. destruct H0 as (a & b0 & -> & H0 & _). apply this_one in H0. destruct H0 as (x & -> & Ex). exists x, b0. pose proof (type_of _ _ Ex) as Y. cbn in Y. rewrite Y. repeat split. discriminate.
      - cbn [statement_tokens] in H0. apply lang_split in H0. destruct H0 as (sel & l3 & -> & Hs & _). pose proof (tidy_selector script_value w Fw _ Hs) as T. pose proof (selector_plain w _ Hs) as SP. destruct sel as [|s0 sel]; [now apply tidy_nil in T|].
        exists s0, (sel ++ l3). rewrite type_shape. cbn [map] in T, SP. inversion SP as [|? ? SP1 _]; subst. destruct T as (_ & T & _). cbn in T. unfold selector_type in SP1. rewrite !andb_true_iff in SP1. split; [reflexivity|]. tauto. }
    destruct f as [|f]; [lia|].
    destruct (statement_run w l1 f (b ++ l2) e m Fw H1) as (n & En & Sn); [lia|].
    assert (Hl : 1 <= length l1) by (rewrite E; cbn [length]; lia).
    destruct (IH l2 (f - length b) (acc ++ [n]) e m Fl H2) as (ns & E2 & S2); [lia|].
    exists (n :: ns). split; [|cbn [map]; now constructor].
    assert (Yn : n_type n = COMPONENT_VALUE) by (destruct w; [destruct Sn as (x1 & _ & Q)|destruct Sn as (x1 & x2 & _ & _ & Q)]; rewrite type_shape, Q; reflexivity).
    assert (Z : forall t, plain_type t = false -> is s0 t = false) by (intros t Q; apply is_no; intro Q'; rewrite Q' in S0; congruence).
    replace (mkPS ((l1 ++ b) ++ l2) e m) with (mkPS (s0 :: l1' ++ b ++ l2) e m) by (rewrite E, <- app_assoc; reflexivity).
    cbn [stylesheet_loop]. unfold bind at 1, last_token at 1. cbn [ps_toks]. rewrite !Z by reflexivity.
    unfold is_ws. rewrite (is_no s0 WHITESPACE) by exact W0. cbn [orb].
    assert (closer (n_type s0) = false) as -> by (destruct (n_type s0); try discriminate S0; reflexivity).
    replace (mkPS (s0 :: l1' ++ b ++ l2) e m) with (mkPS (l1 ++ b ++ l2) e m) by (rewrite E; reflexivity).
    unfold bind at 1. rewrite En. rewrite add_plain by (rewrite Yn; discriminate). replace f with (length b + (f - length b)) by lia. rewrite blank_step by exact Hb. rewrite E2, <- app_assoc. reflexivity.
Qed.
Theorem script_parsed l toks e m : Forall statement_ok l -> script_tokens l (map node_shape toks) ->
  exists n, parse EStylesheet (enough toks) (mkPS toks e m) = Ret n (mkPS [] e m) /\ script_shape l (node_shape n).
Proof.
  intros F H. apply lang_split in H. destruct H as (b & r & -> & Hb & H). apply few_blanks in Hb.
  destruct (statements_run l r (enough (b ++ r) - length b) [] e m F H) as (ns & E & Sn); [unfold enough; rewrite app_length; lia|].
  cbn [parse]. unfold stylesheet, bind at 1, last_token at 1. cbn [ps_toks]. unfold bind.
  pose proof (blank_step b r (enough (b ++ r) - length b) [] e m Hb) as Q. replace (length b + (enough (b ++ r) - length b)) with (enough (b ++ r)) in Q by (unfold enough; rewrite app_length; lia). rewrite Q, E. cbn [app].
  eexists. split; [reflexivity|]. cbn [node_shape set_ch mk]. exists (map node_shape ns). split; [exact Sn|reflexivity].
Qed.
