(** * The nodes of a compressed style sheet before compile() *)

From Coq Require Import String ZArith List Bool Lia Arith ZifyBool Floats.SpecFloat.
From Verif Require Import Base NodeHeap NodeProofs Trees.
From Verif Require Import Compiler CompRun IfSpec IfProofs Pipeline Props_Prune.
From Verif Require Import WholeSpec WholeShape.
From Verif Require ParserProofs.
Import ListNotations.
Open Scope string_scope. Open Scope list_scope. Open Scope Z_scope.
Ltac Zify.zify_post_hook ::= idtac.

Fixpoint shape_size (s : shape) : nat := match s with Shape _ _ _ _ l => S (list_sum (map shape_size l)) end.
Fixpoint shape_ind' (P : shape -> Prop) (H : forall t s i f l, Forall P l -> P (Shape t s i f l)) (s : shape) : P s :=
  match s with
  | Shape t x i f l => H t x i f l ((fix go (l : list shape) : Forall P l :=
      match l with [] => Forall_nil _ | y :: r => Forall_cons y (shape_ind' P H y) (go r) end) l)
  end.
Fixpoint node_ind' (P : node -> Prop) (H : forall t p b i d s w l, Forall P l -> P (Node t p b i d s w l)) (n : node) : P n :=
  match n with
  | Node t p b i d s w l => H t p b i d s w l ((fix go (l : list node) : Forall P l :=
      match l with [] => Forall_nil _ | y :: r => Forall_cons y (node_ind' P H y) (go r) end) l)
  end.
Lemma nodes_size t : length (nodes t) = shape_size (tree_shape t).
Proof.
  induction t as [a c l IH] using tree_rect'. cbn [nodes length tree_shape shape_size]. f_equal. rewrite map_map.
  induction IH as [|t l H F IH]; [reflexivity|]. cbn [flat_map map list_sum fold_right]. rewrite app_length, H. cbn [list_sum] in IH. now rewrite IH.
Qed.

(** ** Planting *)
Definition planted (n : node) (h : heap) (T : tree) (h' : heap) : Prop :=
  holds h' T /\ tree_shape T = node_shape n /\ NoDup (nodes T) /\ (forall a, In a (nodes T) -> (length h <= a < length h')%nat)
  /\ (exists e, h' = h ++ e) /\ length h' = (length h + shape_size (node_shape n))%nat.
Definition planted_all (l : list node) (h : heap) (Ts : list tree) (h' : heap) : Prop :=
  Forall (holds h') Ts /\ map tree_shape Ts = map node_shape l /\ NoDup (flat_map nodes Ts) /\ (forall a, In a (flat_map nodes Ts) -> (length h <= a < length h')%nat)
  /\ (exists e, h' = h ++ e) /\ length h' = (length h + list_sum (map shape_size (map node_shape l)))%nat.
Lemma holds_more h e T : holds h T -> holds (h ++ e) T.
Proof.
  apply (holds_keeps []); [|intros ? ? []]. split; [rewrite app_length; lia|]. intros b L _. now apply nth_error_app1.
Qed.
Lemma plant_go : forall l h, (fix go (l : list node) (h : heap) : list addr * heap :=
       match l with
       | [] => ([], h)
       | x :: r => let '(a, h1) := plant x h in let '(b, h2) := go r h1 in (a :: b, h2)
       end) l h = plant_all l h.
Proof. induction l as [|x l IH]; intro h; [reflexivity|]. cbn [plant_all]. destruct (plant x h) as (a & h1). rewrite IH. reflexivity. Qed.
Lemma plant_eq n h : plant n h = let '(l, h1) := plant_all (n_ch n) h in (length h1, h1 ++ [cell_of n l]).
Proof. destruct n. cbn [plant n_ch]. rewrite plant_go. reflexivity. Qed.
Lemma plant_all_holds l : Forall (fun n => forall h, exists T, plant n h = (top T, snd (plant n h)) /\ planted n h T (snd (plant n h))) l ->
  forall h, exists Ts, fst (plant_all l h) = map top Ts /\ planted_all l h Ts (snd (plant_all l h)).
Proof.
  induction 1 as [|n l H F IH]; intro h.
  - exists []. split; [reflexivity|]. unfold planted_all. cbn. split; [constructor|]. split; [reflexivity|]. split; [constructor|]. split; [tauto|]. split; [exists []; now rewrite app_nil_r|lia].
  - destruct (H h) as (T & E & A1 & A2 & A3 & A4 & (e & A5) & A6). cbn [plant_all]. rewrite E. cbn [snd] in *. set (h1 := snd (plant n h)) in *. destruct (IH h1) as (Ts & E2 & B1 & B2 & B3 & B4 & (e2 & B5) & B6).
    destruct (plant_all l h1) as (bs & h2). cbn [fst snd] in *. exists (T :: Ts). split; [cbn [map]; now rewrite E2|]. repeat split.
    + constructor; [|exact B1]. rewrite B5. now apply holds_more.
    + cbn [map]. now rewrite A2, B2.
    + cbn [flat_map]. clear - A3 B3 A4 B4. induction (nodes T) as [|a r IHr]; [exact B3|]. cbn [app]. inversion A3; subst. constructor; [|apply IHr; auto; intros; apply A4; now right].
      intro I. apply in_app_or in I. destruct I as [I|I]; [contradiction|]. specialize (A4 a (or_introl eq_refl)). specialize (B4 a I). lia.
    + cbn [flat_map] in H0. apply in_app_or in H0. destruct H0 as [I|I]; [apply A4 in I|apply B4 in I]; lia.
    + cbn [flat_map] in H0. apply in_app_or in H0. assert (length h1 <= length h2)%nat by (rewrite B5, app_length; lia). destruct H0 as [I|I]; [apply A4 in I|apply B4 in I]; lia.
    + exists (e ++ e2). rewrite B5, A5, <- app_assoc. reflexivity.
    + cbn [map list_sum fold_right]. rewrite B6, A6. unfold list_sum. lia.
Qed.
Lemma plant_holds n : forall h, exists T, plant n h = (top T, snd (plant n h)) /\ planted n h T (snd (plant n h)).
Proof.
  induction n as [t p b i d s w l IH] using node_ind'. intro h. rewrite plant_eq. cbn [n_ch]. destruct (plant_all_holds l IH h) as (Ts & E & A1 & A2 & A3 & A4 & (e & A5) & A6).
  destruct (plant_all l h) as (bs & h1). cbn [fst snd] in *. subst bs. set (c := cell_of (Node t p b i d s w l) (map top Ts)).
  exists (Tree (length h1) c Ts). split; [reflexivity|]. split; [|repeat split].
  - constructor; [rewrite nth_error_app2 by apply le_n; rewrite Nat.sub_diag; reflexivity|]. rewrite Forall_forall in *. intros T I. apply holds_more. auto.
  - cbn [tree_shape node_shape]. rewrite A2. reflexivity.
  - cbn [nodes]. constructor; [|exact A3]. intro I. apply A4 in I. lia.
  - cbn [nodes In] in H. rewrite A6 in *. destruct H as [<-|I]; [lia|]. apply A4 in I. lia.
  - rewrite app_length. cbn [length]. cbn [nodes In] in H. destruct H as [<-|I]; [lia|]. apply A4 in I. lia.
  - exists (e ++ [c]). rewrite A5, <- app_assoc. reflexivity.
  - rewrite app_length, A6. cbn [length node_shape shape_size]. rewrite map_map. cbn. lia.
Qed.
Lemma plant_all_spec l h : exists Ts, plant_all l h = (map top Ts, snd (plant_all l h)) /\ planted_all l h Ts (snd (plant_all l h)).
Proof.
  destruct (plant_all_holds l ltac:(apply Forall_forall; intros; apply plant_holds) h) as (Ts & E & A). exists Ts. split; [|exact A]. destruct (plant_all l h). cbn [fst snd] in *. now subst.
Qed.

(** ** Calm trees: tokens in component values, lists and blocks *)
Definition token_type (t : ntype) : bool :=
  match t with IDENTIFIER | INTEGER | COLON | COMMA | WHITESPACE | PERIOD | HASH | GREATER_THAN | PRECEDED | EXCLAMATION => true | _ => false end.
Definition box_type (t : ntype) : bool := match t with COMPONENT_VALUE | LIST | OPEN_CURLYBRACKET => true | _ => false end.
Inductive calm : shape -> Prop :=
  | calm_token t s i f : token_type t = true -> calm (Shape t s i f [])
  | calm_box t s i f l : box_type t = true -> l <> [] -> Forall calm l -> calm (Shape t s i f l).
(** The same with variables. *)
Inductive mild : shape -> Prop :=
  | mild_token t s i f : token_type t = true \/ t = VARIABLE -> mild (Shape t s i f [])
  | mild_box t s i f l : box_type t = true -> l <> [] -> Forall mild l -> mild (Shape t s i f l).
Lemma calm_mild s : calm s -> mild s.
Proof.
  induction s as [t x i f l IH] using shape_ind'. intro C. inversion C as [? ? ? ? T0|? ? ? ? ? T0 N0 C0]; subst; [apply mild_token; now left|]. apply mild_box; [exact T0|exact N0|].
  rewrite Forall_forall in *. auto.
Qed.
Lemma calm_type s : calm s -> token_type (sh_type s) = true \/ box_type (sh_type s) = true.
Proof. destruct 1; auto. Qed.

(** Nodes whose boolean changes. *)
Definition rebool (h h' : heap) : Prop :=
  length h' = length h /\ forall a c, nth_error h a = Some c -> exists b, nth_error h' a = Some (with_bool c b).
Lemma rebool_refl h : rebool h h.
Proof. split; [reflexivity|]. intros a c H. exists (c_bool c). now destruct c. Qed.
Lemma rebool_trans h1 h2 h3 : rebool h1 h2 -> rebool h2 h3 -> rebool h1 h3.
Proof. intros (L1 & A) (L2 & B). split; [congruence|]. intros a c H. destruct (A a c H) as (b & H2). destruct (B a _ H2) as (b2 & H3). exists b2. exact H3. Qed.
Lemma rebool_put h a c b : nth_error h a = Some c -> rebool h (put h a (with_bool c b)).
Proof.
  intro H. split; [apply put_length|]. intros x k Hx. destruct (Nat.eq_dec x a) as [->|N].
  - assert (k = c) by congruence. subst. exists b. apply put_same. now apply nth_lt in H.
  - exists (c_bool k). rewrite put_other by auto. rewrite Hx. now destruct k.
Qed.
Lemma holds_rebool h h' T : rebool h h' -> holds h T -> exists T', holds h' T' /\ tree_shape T' = tree_shape T /\ nodes T' = nodes T /\ top T' = top T.
Proof.
  intros R. induction T as [a c l IH] using tree_rect'. intro H. apply holds_inv in H. destruct H as (H & F).
  assert (exists l', Forall (holds h') l' /\ map tree_shape l' = map tree_shape l /\ flat_map nodes l' = flat_map nodes l /\ map top l' = map top l) as (l' & A & B & C & D).
  { clear H. induction IH as [|T l HT IH IHl]; [exists []; repeat split; constructor|]. inversion F as [|? ? F1 F2]; subst. destruct (HT F1) as (T' & A1 & A2 & A3 & A4). destruct (IHl F2) as (l' & B1 & B2 & B3 & B4).
    exists (T' :: l'). cbn [map flat_map]. repeat split; [now constructor|congruence..]. }
  destruct R as (_ & R). destruct (R _ _ H) as (b & Hb). exists (Tree a (with_bool c b) l'). split; [|cbn; repeat split; congruence].
  constructor; [|exact A]. rewrite Hb, D. reflexivity.
Qed.

Lemma calm_first h T : holds h T -> calm (tree_shape T) -> exists c, nth_error h (top T) = Some c /\ c_type c <> VARIABLE /\ c_type c <> VARIABLE_FUNCTION.
Proof.
  intros H C. exists (with_ch (data T) (map top (kids T))). split; [now apply holds_top|]. destruct T as [a c l]. apply calm_type in C. cbn in *. destruct C as [C|C]; destruct (c_type c); try discriminate C; split; discriminate.
Qed.
Lemma calm_no_variable h m ps n c (wb : bool) l : nth_error h n = Some c -> c_ch c = map top l -> Forall (holds h) l -> Forall calm (map tree_shape l) ->
  is_variable_set n wb (mkK h m ps) = Ret false (mkK h m ps).
Proof.
  intros H E Ho Fa. unfold is_variable_set. erewrite b_ret; [|eapply run_load; exact H].
  unfold child_nodes, bind. cbn [k_heap]. rewrite E.
  destruct l as [|a [|b [|e l]]]; cbn [map]; try reflexivity.
  inversion Ho as [|? ? Ha _]; subst. cbn [map] in Fa. inversion Fa as [|? ? Ca _]; subst. destruct (calm_first _ _ Ha Ca) as (k & Hk & V1 & V2). rewrite Hk.
  unfold Parser.is_variable_set, Parser.child_is, Parser.obind, is. cbn [length nth_error]. change ((_ <? 3)%nat) with false. cbv iota. cbn [n_type mk].
  replace (ntype_eqb (c_type k) VARIABLE) with false by (symmetry; now apply ntype_eqb_neq).
  replace (ntype_eqb (c_type k) VARIABLE_FUNCTION) with false by (symmetry; now apply ntype_eqb_neq). reflexivity.
Qed.

(** mark_selectors only sets booleans. *)
Definition marks (fuel : nat) (s : shape) : Prop :=
  forall T h m ps, tree_shape T = s -> holds h T -> exists h', mark_selectors fuel (top T) (mkK h m ps) = Ret tt (mkK h' m ps) /\ rebool h h'.
Lemma holds_all_rebool h h' l : rebool h h' -> Forall (holds h) l -> exists l', Forall (holds h') l' /\ map tree_shape l' = map tree_shape l /\ map top l' = map top l.
Proof.
  intros R H. induction H as [|x l Hx H2 IHl]; [exists []; repeat split; constructor|]. destruct IHl as (l' & A & B & D). destruct (holds_rebool _ _ _ R Hx) as (x' & A' & B' & _ & D').
  exists (x' :: l'). cbn [map]. repeat split; [now constructor|congruence..].
Qed.
Lemma each_marks fuel S : Forall (marks fuel) S -> forall l h m ps, map tree_shape l = S -> Forall (holds h) l ->
  exists h', each (mark_selectors fuel) (map top l) (mkK h m ps) = Ret tt (mkK h' m ps) /\ rebool h h'.
Proof.
  induction 1 as [|s S M F IH]; intros l h m ps E Ho; (destruct l as [|T l]; [|cbn [map] in E]); try discriminate E.
  - exists h. split; [reflexivity|apply rebool_refl].
  - injection E as E1 E2. inversion Ho as [|? ? H1 H2]; subst.
    destruct (M T h m ps eq_refl H1) as (h1 & Q1 & R1).
    destruct (holds_all_rebool _ _ _ R1 H2) as (l' & A & B & D).
    destruct (IH l' h1 m ps B A) as (h2 & Q2 & R2).
    exists h2. cbn [map each]. rewrite (b_ret _ _ _ _ _ Q1), <- D. split; [exact Q2|]. eapply rebool_trans; eauto.
Qed.
Lemma sum_in (s : shape) l : In s l -> (shape_size s <= list_sum (map shape_size l))%nat.
Proof.
  unfold list_sum. induction l as [|x l IH]; cbn [In map fold_right]; [tauto|]. intros [->|H]; [lia|]. specialize (IH H). lia.
Qed.
Lemma size_pos s : (1 <= shape_size s)%nat. Proof. destruct s. cbn [shape_size]. lia. Qed.
Lemma sum_length l : (length l <= list_sum (map shape_size l))%nat.
Proof. unfold list_sum. induction l as [|x l IH]; cbn [length map fold_right]; [lia|]. pose proof (size_pos x). lia. Qed.
Lemma variable_set_runs h m ps n c wb : nth_error h n = Some c -> exists b, is_variable_set n wb (mkK h m ps) = Ret b (mkK h m ps).
Proof.
  intro H. unfold is_variable_set. erewrite b_ret; [|eapply run_load; exact H]. unfold child_nodes, bind. cbn [k_heap].
  destruct (ParserProofs.is_variable_set_some (map (fun a => match nth_error h a with Some c => mk (c_type c) (c_pos c) | None => mk UNKNOWN (mkPos 1 1 1) end) (c_ch c)) wb) as (b & E). rewrite E. exists b. reflexivity.
Qed.
Lemma mark_token t fuel n h m ps c : nth_error h n = Some c -> c_type c = t -> token_type t = true \/ t = VARIABLE ->
  mark_selectors (S fuel) n (mkK h m ps) = Ret tt (mkK h m ps).
Proof. intros H <- T. cbn [mark_selectors]. erewrite b_ret; [|eapply run_type; exact H]. destruct T as [T|T]; destruct (c_type c); try discriminate T; reflexivity. Qed.
Lemma box_children t : box_type t = true -> has_children t = true. Proof. destruct t; try discriminate; reflexivity. Qed.
Lemma mark_run s : mild s -> Z.of_nat (shape_size s) < 2 ^ 64 -> forall fuel, (shape_size s < fuel)%nat -> marks fuel s.
Proof.
  induction s as [t x i f S IH] using shape_ind'. intros Ca L fuel Fu T h m ps E H. destruct fuel as [|fuel]; [lia|]. pose proof (holds_top _ _ H) as H0. destruct T as [a c l]. cbn [top data kids] in *. apply holds_inv in H. destruct H as (_ & Ho).
  cbn [tree_shape] in E. injection E as E1 E2 E3 E4 E5. inversion Ca as [? ? ? ? T0|? ? ? ? ? T0 N0 C0]; subst.
  - exists h. split; [|apply rebool_refl]. eapply mark_token; [exact H0|reflexivity|exact T0].
  - cbn [shape_size] in L, Fu. pose proof (sum_length (map tree_shape l)) as Le. rewrite map_length in Le.
    assert (exists l1 y, l = l1 ++ [y]) as (l1 & y & El). { destruct (exists_last (l:=l)) as (l1 & y & ->); [intro; subst; now apply N0|]. eauto. }
    assert (exists h1, (e <- lift (child_empty a) ;;
          (if e : bool then ret tt
           else
             v <- is_variable_set a true ;;
             if v : bool then ret tt
             else
               l <- lift (get_last_child a) ;;
               b <- is_a l OPEN_CURLYBRACKET ;;
               if b : bool then lift (set_boolean l true) else ret tt)) (mkK h m ps) = Ret tt (mkK h1 m ps) /\ rebool h h1) as (h1 & Q1 & R1).
    { erewrite b_ret; [|eapply run_empty; [exact H0|exact (box_children _ T0)]]. cbn [with_ch c_ch]. replace (match map top l with [] => true | _ => false end) with false by (destruct l; [now contradict N0|reflexivity]).
      cbv iota. destruct (variable_set_runs h m ps a (with_ch c (map top l)) true H0) as (vb & Ev). erewrite b_ret; [|exact Ev]. destruct vb; [exists h; split; [reflexivity|apply rebool_refl]|].
      erewrite b_ret; [|eapply (run_last _ _ _ _ _ (map top l1) (top y)); [exact H0|exact (box_children _ T0)|cbn [with_ch c_ch]; rewrite El, map_app; reflexivity|rewrite map_length; assert (length l1 < length l)%nat by (rewrite El, app_length; cbn [length]; lia); lia]].
      assert (Hy : holds h y) by (rewrite Forall_forall in Ho; apply Ho; rewrite El; apply in_or_app; cbn; auto). apply holds_top in Hy.
      erewrite b_ret; [|eapply run_is; exact Hy]. destruct (ntype_eqb (c_type _) _) eqn:Ty.
      - eexists. split; [eapply run_set_boolean; [exact Hy|apply ntype_eqb_spec in Ty; rewrite Ty; reflexivity]|]. now apply rebool_put.
      - exists h. split; [reflexivity|apply rebool_refl]. }
    destruct (holds_all_rebool _ _ _ R1 Ho) as (l' & A & B & D).
    assert (M : Forall (marks fuel) (map tree_shape l)).
    { rewrite Forall_forall in *. intros s I. pose proof (sum_in s _ I). apply IH; auto; lia. }
    destruct (each_marks fuel _ M l' h1 m ps B A) as (h2 & Q2 & R2).
    exists h2. split; [|eapply rebool_trans; eauto]. cbn [mark_selectors]. erewrite b_ret; [|eapply run_type; exact H0]. cbn [with_ch c_type].
    assert (H1 : exists b, nth_error h1 a = Some (with_bool (with_ch c (map top l)) b)) by (apply R1; exact H0). destruct H1 as (b & H1).
    assert (Q : forall k : unit -> C unit, bind (e <- lift (child_empty a) ;;
          (if e : bool then ret tt
           else
             v <- is_variable_set a true ;;
             if v : bool then ret tt
             else
               l <- lift (get_last_child a) ;;
               b <- is_a l OPEN_CURLYBRACKET ;;
               if b : bool then lift (set_boolean l true) else ret tt)) k (mkK h m ps) = k tt (mkK h1 m ps)) by (intro; now apply b_ret).
    assert (W : (c0 <- lift (load a) ;; each (mark_selectors fuel) (c_ch c0)) (mkK h1 m ps) = Ret tt (mkK h2 m ps)).
    { erewrite b_ret; [|eapply run_load; exact H1]. cbn [with_bool with_ch c_ch]. rewrite <- D. exact Q2. }
    clear - Q W T0. specialize (Q (fun _ => c0 <- lift (load a) ;; each (mark_selectors fuel) (c_ch c0))). rewrite bind_assoc in Q. cbv beta in Q. rewrite W in Q.
    destruct (c_type c); try discriminate T0; exact Q.
Qed.

(** replace_variables has nothing to do. *)
Lemma calm_settled h T : holds h T -> calm (tree_shape T) -> forall d, (shape_size (tree_shape T) < d)%nat -> settled [] h d (top T).
Proof.
  induction T as [a c l IH] using tree_rect'. intros H C d L. pose proof (holds_top _ _ H) as H0. apply holds_inv in H. destruct H as (_ & Ho). cbn [top data kids tree_shape] in *.
  inversion C as [? ? ? ? T0|? ? ? ? ? T0 N0 C0]; subst.
  - eapply settled_simple; [tauto|exact H0|]. cbn. destruct (c_type c); try discriminate T0; reflexivity.
  - cbn [shape_size] in L. pose proof (sum_length (map tree_shape l)) as Le. rewrite map_length in Le. destruct d as [|d]; [lia|].
    eapply settled_group; [tauto|exact H0|left; cbn; destruct (c_type c); try discriminate T0; reflexivity|intros _ E; cbn in E; destruct l; [now apply N0|discriminate]| |].
    + cbn [with_ch c_ch]. rewrite map_length. lia.
    + cbn [with_ch c_ch]. apply Forall_forall. intros x I. apply in_map_iff in I. destruct I as (T & <- & I). rewrite Forall_forall in IH, Ho, C0. apply IH; auto.
      * apply C0. now apply in_map.
      * pose proof (sum_in _ _ (in_map tree_shape _ _ I)). lia.
Qed.
Lemma calm_variables w h T fuel x m ps : holds h T -> calm (tree_shape T) -> (S (shape_size (tree_shape T)) < fuel)%nat ->
  replace_variables w fuel x (top T) (mkK h m ps) = Ret tt (mkK h m ps).
Proof. intros H C L. apply (settled_run w [] h m ps (S (shape_size (tree_shape T)))); [|exact L]. apply calm_settled; auto. Qed.
