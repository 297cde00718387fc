(** * The declarations of a plain style sheet under compile() *)

From Coq Require Import String ZArith List Bool Lia Arith ZifyBool Floats.SpecFloat.
From Verif Require Import Base NodeHeap NodeProofs Color FloatBits.
From Verif Require Expr ExprRun Parser WholeParse.
From Verif Require Import PrecSpec ListSpec SplitSpec.
From Verif Require Import Compiler CompRun Compile ValuesSpec DeclCompile ListProofs.
From Verif Require Import Trees WholeSpec LaySpec WholeShape WholeTree.
Import ListNotations.
Open Scope string_scope. Open Scope list_scope. Open Scope Z_scope.
Ltac Zify.zify_post_hook ::= idtac.

(** ** Leaves *)
Definition sh_int (s : shape) : Z := match s with Shape _ _ i _ _ => i end.
Definition sh_flags (s : shape) : list str := match s with Shape _ _ _ f _ => f end.
Definition shows (c : cell) (s : shape) : Prop :=
  c_type c = sh_type s /\ c_str c = sh_str s /\ c_int c = sh_int s /\ c_flags c = sh_flags s /\ c_ch c = [] /\ sh_kids s = [].
Definition leaf_at (h : heap) (a : addr) (s : shape) : Prop := exists c, nth_error h a = Some c /\ shows c s.
Lemma leaf_of h T : holds h T -> sh_kids (tree_shape T) = [] -> leaf_at h (top T) (tree_shape T) /\ nodes T = [top T].
Proof.
  intros H K. pose proof (holds_top _ _ H) as H0. destruct T as [a c l]. cbn [top data kids tree_shape sh_kids] in *. apply map_eq_nil in K. subst l.
  split; [|reflexivity]. eexists. split; [exact H0|]. repeat split.
Qed.
Lemma leaves_of h l : Forall (holds h) l -> Forall (fun s => sh_kids s = []) (map tree_shape l) ->
  Forall2 (leaf_at h) (map top l) (map tree_shape l) /\ flat_map nodes l = map top l.
Proof.
  induction 1 as [|T l H F IH]; intro K; [split; constructor|]. cbn [map] in *. inversion K as [|? ? K1 K2]; subst. destruct (IH K2) as (A & B). destruct (leaf_of h T H K1) as (C & D).
  split; [now constructor|]. cbn [flat_map]. rewrite D, B. reflexivity.
Qed.
Lemma tree_of h a s : leaf_at h a s -> exists T, holds h T /\ tree_shape T = s /\ top T = a /\ nodes T = [a].
Proof.
  intros (c & H & A & B & C & D & E & F). exists (Tree a c []). split; [constructor; [|constructor]|].
  - cbn [map]. rewrite <- E. now rewrite with_ch_id.
  - cbn [tree_shape map]. rewrite A, B, C, D. destruct s. cbn in *. subst. auto.
Qed.
Lemma trees_of h la ss : Forall2 (leaf_at h) la ss -> exists l, Forall (holds h) l /\ map tree_shape l = ss /\ map top l = la /\ flat_map nodes l = la.
Proof.
  induction 1 as [|a s la ss H F (l & A & B & C & D)]; [exists []; repeat split; constructor|]. destruct (tree_of h a s H) as (T & A' & B' & C' & D').
  exists (T :: l). cbn [map flat_map]. rewrite B, C, D, B', C', D'. repeat split. now constructor.
Qed.
Lemma leaf_lt h a s : leaf_at h a s -> (a < length h)%nat. Proof. intros (c & H & _). eapply nth_lt; eauto. Qed.

(** ** The values of a group *)
Fixpoint entries (la : list addr) : list entry :=
  match la with
  | [] => []
  | [a] => [mkEntry (Atom a) [a] []]
  | a :: w :: r => mkEntry (Atom a) [a] [w] :: entries r
  end.
Lemma neqb x y : x <> y -> str_eqb x y = false. Proof. intro H. now apply str_eqb_neq. Qed.
Lemma value_plain h a v : value_ok v -> leaf_at h a (value_leaf v) -> exists c, nth_error h a = Some c /\ plain_operand c = true /\ operand_type (c_type c) = true
  /\ op_of c = None /\ (c_type c = IDENTIFIER \/ c_type c = INTEGER).
Proof.
  intros Ok (c & H & A & B & _). exists c. split; [exact H|]. destruct v as [w|n u|w]; [| |contradiction]; cbn in A, B; unfold plain_operand, op_of; rewrite A.
  - destruct Ok as (_ & R & K). rewrite B. unfold is_colour in K. assert (Q : forall z, In z reserved -> str_eqb w z = false) by (intros z I; apply neqb; intros ->; auto).
    rewrite !Q by (unfold reserved; cbn [map In]; tauto). cbn [orb negb andb]. destruct (set_named w true); [discriminate K|]. auto.
  - auto.
Qed.
Lemma group_entries h font fl g : g <> [] -> Forall value_ok g -> flag_ok h fl -> forall la, Forall2 (leaf_at h) la (group_leaves g) ->
  row (entries la) = la /\ list_ok h font (entries la) fl /\ length (entries la) = length g
  /\ Forall (fun e => PrecSpec.tree_size (e_tree e) = 1%nat) (entries la).
Proof.
  intros N Ok Fl. induction Ok as [|v g Hv Ok IH]; [congruence|]. intros la Fo. clear N.
  assert (E1 : forall a gap, leaf_at h a (value_leaf v) -> (gap = [] \/ exists w, gap = [w] /\ is_space_node h w) -> entry_ok h font (mkEntry (Atom a) [a] gap)).
  { intros a gap La G. destruct (value_plain h a v Hv La) as (c & H & P & O & _ & T). assert (Tw : c_type c <> WHITESPACE) by (destruct T as [-> | ->]; discriminate).
    unfold entry_ok. cbn [e_nodes e_tree e_gap flatten rev app]. split; [eapply spaced_token; [exact H|exact Tw|constructor]|]. split; [cbn; intros k Hk; congruence|]. split; [cbn; intros k Hk; congruence|].
    split; [exists c; auto|]. split; [exact I|]. split; [left; exists a, c; auto|]. exact G. }
  destruct g as [|v' g].
  - change (group_leaves [v]) with [value_leaf v] in Fo. inversion Fo as [|a ? ? ? La Fo']; subst. inversion Fo'; subst. cbn [entries row flat_map e_nodes e_gap app length]. split; [reflexivity|].
    split; [|split; [reflexivity|constructor; [reflexivity|constructor]]]. split; [constructor; [|constructor]; apply E1; auto|]. split; [|split; [exact Fl|discriminate]].
    cbn [chained]. split; [|split; [reflexivity|exact I]]. cbn [row_tokens flat_map app]. destruct Fl as [-> |(f & cf & -> & Hf & Tf)]; [exact I|].
    exists cf. split; [exact Hf|]. unfold op_of. rewrite Tf. repeat split; discriminate.
  - change (group_leaves (v :: v' :: g)) with (value_leaf v :: sign WHITESPACE :: group_leaves (v' :: g)) in Fo. inversion Fo as [|a ? ? ? La Fo1]; subst. inversion Fo1 as [|w ? la' ? Lw Fo2]; subst.
    destruct (IH ltac:(discriminate) la' Fo2) as (A & (B1 & B2 & B3 & B4) & C & D). cbn [entries].
    change (row (mkEntry (Atom a) [a] [w] :: entries la')) with (a :: w :: row (entries la')). rewrite A. split; [reflexivity|].
    split; [|split; [cbn [length] in *; lia|constructor; [reflexivity|exact D]]]. split; [constructor; [|exact B1]|].
    { apply E1; [exact La|]. right. exists w. split; [reflexivity|]. destruct Lw as (cw & Hw & Tw & _). exists cw. auto. }
    split; [|split; [exact Fl|discriminate]]. cbn [chained]. split; [|split; [congruence|exact B2]].
    assert (Lv : exists b r, la' = b :: r /\ leaf_at h b (value_leaf v')).
    { destruct g as [|v2 g]; [change (group_leaves [v']) with [value_leaf v'] in Fo2|change (group_leaves (v' :: v2 :: g)) with (value_leaf v' :: sign WHITESPACE :: group_leaves (v2 :: g)) in Fo2]; inversion Fo2; subst; eauto. }
    destruct Lv as (b & r & -> & Lb). inversion Ok as [|? ? Hv' _]; subst. destruct (value_plain h b v' Hv' Lb) as (cb & Hb & _ & _ & Ob & Tb).
    assert (Et : exists t, row_tokens (entries (b :: r)) = b :: t) by (destruct r as [|w2 r]; cbn [entries row_tokens flat_map e_tree flatten app]; eauto).
    destruct Et as (t & ->). cbn [app ends]. exists cb. split; [exact Hb|]. split; [exact Ob|]. destruct Tb as [-> | ->]; repeat split; discriminate.
Qed.

(** ** Types of the leaves and the spaces between them *)
Lemma forall2_types h la ss : Forall2 (leaf_at h) la ss -> Forall2 (fun a s => exists c, nth_error h a = Some c /\ c_type c = sh_type s) la ss.
Proof. induction 1 as [|a s la ss (c & H & T & _) F IH]; constructor; eauto. Qed.
Definition typed (h : heap) : list addr -> list shape -> Prop := Forall2 (fun a s => exists c, nth_error h a = Some c /\ c_type c = sh_type s).
Lemma spaces_type h a c : nth_error h a = Some c -> spaces h [a] -> c_type c = WHITESPACE.
Proof. intros H S0. destruct (S0 a (or_introl eq_refl)) as (k & A & B). congruence. Qed.
Lemma typed_apart h la ss : typed h la ss -> WholeParse.apart (WholeParse.types ss) -> apart h la.
Proof.
  induction 1 as [|a s la ss (c & H & T) F IH]; intro A; [exact I|]. destruct F as [|b s2 la ss (c2 & H2 & T2) F]; [exact I|].
  cbn [apart]. cbn in A. destruct A as (A1 & A2). split; [|apply IH; exact A2]. intros (P & Q). apply A1. rewrite <- T, <- T2. split; eapply spaces_type; eauto.
Qed.
Lemma typed_in h la ss x : typed h la ss -> In x la -> exists c s, nth_error h x = Some c /\ c_type c = sh_type s /\ In s ss.
Proof. induction 1 as [|a s la ss (c & H & T) F IH]; intro J; [destruct J|]. destruct J as [->|J]; [exists c, s; cbn; auto|]. destruct (IH J) as (c' & s' & A & B & C). exists c', s'. cbn; auto. Qed.
Lemma typed_hd h la ss x : typed h la ss -> hd WHITESPACE (WholeParse.types ss) <> WHITESPACE -> hd_error la = Some x -> ~ spaces h [x].
Proof. destruct 1 as [|a s la ss (c & H & T) F]; intros N E; [discriminate E|]. cbn in E, N. injection E as <-. intro S0. apply N. rewrite <- T. eapply spaces_type; eauto. Qed.
Lemma typed_rev h la ss : typed h la ss -> typed h (rev la) (rev ss).
Proof. induction 1 as [|a s la ss H F IH]; [constructor|]. cbn [rev]. apply Forall2_app; [exact IH|]. constructor; [exact H|constructor]. Qed.
Lemma last_rev {A} (l : list A) d : hd d (rev l) = last l d.
Proof. destruct l as [|x l _] using rev_ind; [reflexivity|]. rewrite rev_app_distr, last_last. reflexivity. Qed.
Lemma typed_last h la ss x : typed h la ss -> last (WholeParse.types ss) WHITESPACE <> WHITESPACE -> hd_error (rev la) = Some x -> ~ spaces h [x].
Proof. intros T N. apply (typed_hd h _ _ _ (typed_rev _ _ _ T)). unfold WholeParse.types in *. rewrite map_rev, last_rev. exact N. Qed.
Lemma typed_group h la ss : typed h la ss -> WholeParse.tidy (WholeParse.types ss) -> Forall (fun s => sh_type s <> COMMA /\ sh_type s <> OPEN_CURLYBRACKET /\ sh_type s <> EOF_TOKEN) ss ->
  group_ok h COMMA la.
Proof.
  intros T Ti F. split.
  { intros ->. inversion T; subst. now apply WholeParse.tidy_nil in Ti. }
  destruct Ti as (A & B & C). split; [eapply typed_apart; eauto|]. split; [intros x E; eapply typed_hd; eauto|]. split; [intros x E; eapply typed_last; eauto|].
  intros x J. destruct (typed_in _ _ _ _ T J) as (c & s & H & Ty & Is). exists c. rewrite Ty. rewrite Forall_forall in F. split; [exact H|]. now apply F.
Qed.

(** ** The groups *)
Fixpoint items (las : list (list addr)) (fl : list addr) : list item :=
  match las with
  | [] => []
  | [la] => [mkItem (entries la) fl]
  | la :: r => mkItem (entries la) [] :: items r fl
  end.
Lemma entries_length : forall n la, (length la <= n)%nat -> (length (entries la) <= length la)%nat.
Proof.
  induction n as [|n IH]; intros [|a [|w la]] L; cbn [entries length] in *; try lia. specialize (IH la). lia.
Qed.
Definition flag_shape (fs : list shape) : Prop := fs = [] \/ fs = [leaf EXCLAMATION (zs "important") 0].
Lemma flag_typed h fl fs : Forall2 (leaf_at h) fl fs -> flag_shape fs -> flag_ok h fl.
Proof.
  intros F [-> | ->].
  - inversion F; subst. now left.
  - inversion F as [|a ? ? ? (c & H & T & _) F']; subst. inversion F'; subst. right. exists a, c. auto.
Qed.
Lemma group_types g : Forall (fun s => sh_type s <> COMMA /\ sh_type s <> OPEN_CURLYBRACKET /\ sh_type s <> EOF_TOKEN) (group_leaves g).
Proof.
  apply WholeParse.forall_glue'; [repeat constructor; discriminate|]. rewrite Forall_map. apply Forall_forall. intros v _. constructor; [|constructor]. destruct v; repeat split; discriminate.
Qed.
Lemma blanks_at h w ss : Forall2 (leaf_at h) w ss -> blanks ss -> w = [] \/ exists a, w = [a] /\ is_space_node h a.
Proof.
  intros F [-> | ->]; inversion F as [|a ? ? ? (c & H & T & _) F']; subst; [now left|]. inversion F'; subst. right. exists a. split; [reflexivity|]. exists c. auto.
Qed.
Lemma blanks_spaces h w ss : Forall2 (leaf_at h) w ss -> blanks ss -> spaces h w.
Proof. intros F B. destruct (blanks_at h w ss F B) as [-> |(a & -> & c & H & T)]; [intros x []|]. intros x [<-|[]]. eauto. Qed.
Lemma spaced_at h l t ss : Forall2 (leaf_at h) l ss -> spaced t ss -> exists a x b sa sb, l = a ++ x :: b /\ Forall2 (leaf_at h) a sa /\ blanks sa /\ Forall2 (leaf_at h) b sb /\ blanks sb /\ leaf_at h x (sign t).
Proof.
  intros F (sa & s1 & -> & Ba & s2 & sb & -> & -> & Bb). apply Forall2_app_inv_r in F. destruct F as (a & r & Fa & F & ->). cbn [app] in F. inversion F as [|x ? b ? Hx Fb]; subst.
  exists a, x, b, sa, sb. auto 10.
Qed.
Lemma nodup_mid {A} (a b : list A) x : NoDup (a ++ x :: b) -> ~ In x a.
Proof. intros H I. apply NoDup_remove_2 in H. apply H, in_or_app. now left. Qed.
Lemma nodup_r {A} (a b : list A) : NoDup (a ++ b) -> NoDup b.
Proof. induction a as [|x a IH]; [auto|]. cbn [app]. intro H. inversion H; auto. Qed.
Lemma groups_items h font fl fs : Forall2 (leaf_at h) fl fs -> flag_shape fs ->
  forall gs, gs <> [] -> Forall (fun g => g <> [] /\ Forall value_ok g) gs ->
  forall lead vs ss, spaces h lead -> NoDup vs -> groups_leaves gs ss -> Forall2 (leaf_at h) vs ss ->
  exists las ags, Forall2 (fun la g => Forall2 (leaf_at h) la (group_leaves g)) las gs
    /\ grouped h COMMA (lead ++ vs ++ fl) ags /\ items_ok h font ags (items las fl)
    /\ Forall (fun it => (length (i_values it) <= length vs)%nat /\ Forall (fun e => PrecSpec.tree_size (e_tree e) = 1%nat) (i_values it)) (items las fl)
    /\ (length (items las fl) <= length vs)%nat /\ (forall la a, In la las -> In a la -> In a vs).
Proof.
  intros Ff Sf gs N Ok. pose proof (flag_typed _ _ _ Ff Sf) as Fl. induction Ok as [|g gs (Ng & Vg) Ok IH]; [congruence|]. clear N. intros lead vs ss Sl Nd Sg Fo.
  pose proof (WholeParse.tidy_group g Ng) as Ti. pose proof (group_types g) as Ty. destruct gs as [|g' gs].
  - change (groups_leaves [g]) with (this (group_leaves g)) in Sg. unfold this in Sg. subst ss. destruct (group_entries h font fl g Ng Vg Fl vs Fo) as (A & B & C & D).
    exists [vs], [vs ++ fl]. split; [constructor; [exact Fo|constructor]|]. split; [|split; [|split]].
    + apply (grouped_last h COMMA lead (vs ++ fl)); [exact Sl|]. apply (typed_group h (vs ++ fl) (group_leaves g ++ fs)).
      * apply Forall2_app; apply forall2_types; assumption.
      * unfold WholeParse.types in *. rewrite map_app. destruct Sf as [-> | ->]; [cbn [map]; now rewrite app_nil_r|]. apply WholeParse.tidy_app; [exact Ti|apply WholeParse.tidy_one; discriminate].
      * apply Forall_app. split; [exact Ty|]. destruct Sf as [-> | ->]; repeat constructor; discriminate.
    + cbn [items]. constructor; [|constructor]. cbn [i_values i_flag]. rewrite A. auto.
    + cbn [items]. constructor; [|constructor]. cbn [i_values]. split; [exact (entries_length _ vs (le_n _))|exact D].
    + split; [|intros la a [<-|[]] J; exact J]. cbn [items length]. destruct vs; [|cbn [length]; lia]. inversion Fo as [E0 E1|]. rewrite <- E1 in Ti. now apply WholeParse.tidy_nil in Ti.
  - change (groups_leaves (g :: g' :: gs)) with (this (group_leaves g) # spaced COMMA # groups_leaves (g' :: gs)) in Sg.
    destruct Sg as (sg & s1 & -> & -> & sc & sr & -> & Sc & Sr).
    apply Forall2_app_inv_r in Fo. destruct Fo as (la & rest & Fa & Fr & ->). apply Forall2_app_inv_r in Fr. destruct Fr as (lc & vs' & Fc & Fv & ->).
    destruct (spaced_at h lc COMMA sc Fc Sc) as (b1 & cm & b2 & sa & sb & -> & Fb1 & B1 & Fb2 & B2 & (cc & Hc & Tc & _)).
    assert (Nv : NoDup vs') by (apply nodup_r in Nd; apply nodup_r in Nd; exact Nd).
    destruct (IH ltac:(discriminate) b2 vs' sr (blanks_spaces _ _ _ Fb2 B2) Nv Sr Fv) as (las & ags & A1 & A2 & A3 & A4 & A5 & A6).
    destruct (group_entries h font [] g Ng Vg (or_introl eq_refl) la Fa) as (G1 & G2 & G3 & G4).
    exists (la :: las), (la :: ags). split; [now constructor|].
    assert (Ei : items (la :: las) fl = mkItem (entries la) [] :: items las fl) by (inversion A1; subst; reflexivity). rewrite Ei.
    split; [|split; [|split; [|split]]].
    + replace (lead ++ (la ++ (b1 ++ cm :: b2) ++ vs') ++ fl) with (lead ++ la ++ b1 ++ cm :: (b2 ++ vs' ++ fl)) by (repeat (rewrite <- app_assoc; cbn [app]); reflexivity).
      apply (grouped_more h COMMA lead la b1 cm cc (b2 ++ vs' ++ fl) ags); [exact Sl| | |exact Hc|exact Tc|exact A2].
      * apply (typed_group h la (group_leaves g)); [now apply forall2_types|exact Ti|exact Ty].
      * pose proof (blanks_spaces _ _ _ Fb1 B1) as Sp. destruct (blanks_at _ _ _ Fb1 B1) as [-> |(w & -> & _)]; [now left|]. right. exists w. split; [reflexivity|]. split; [exact Sp|].
        cbn [app] in Nd. now apply nodup_mid in Nd.
    + constructor; [|exact A3]. cbn [i_values i_flag]. rewrite G1, app_nil_r. auto.
    + constructor; [|revert A4; apply Forall_impl; intros it (Q1 & Q2)]; (split; [|assumption]); cbn [i_values] in *; rewrite !app_length; cbn [length]; [|lia]. pose proof (entries_length _ la (le_n _)). lia.
    + rewrite !app_length. cbn [length]. lia.
    + intros l a [<-|J] K; apply in_or_app; [now left|]. right. apply in_or_app. right. eauto.
Qed.

(** ** A declaration *)
Lemma flag_leaves_ok d : flag_shape (flag_leaves d). Proof. unfold flag_leaves, flag_shape. destruct (d_important d); auto. Qed.
Lemma groups_every (p : shape -> Prop) gs : p (sign WHITESPACE) -> p (sign COMMA) -> (forall v, p (value_leaf v)) -> WholeParse.every p (groups_leaves gs).
Proof.
  intros A B D. apply WholeParse.every_between; [now apply WholeParse.every_spaced|]. rewrite Forall_map. apply Forall_forall. intros g _. apply WholeParse.every_this.
  apply WholeParse.forall_glue'; [constructor; [exact A|constructor]|]. rewrite Forall_map. apply Forall_forall. intros v _. constructor; [apply D|constructor].
Qed.
Lemma groups_every_ok (ok : value -> Prop) (p : shape -> Prop) gs : p (sign WHITESPACE) -> p (sign COMMA) -> (forall v, ok v -> p (value_leaf v)) -> Forall (fun g => g <> [] /\ Forall ok g) gs -> WholeParse.every p (groups_leaves gs).
Proof.
  intros A B D F. apply WholeParse.every_between; [now apply WholeParse.every_spaced|]. rewrite Forall_map. revert F. apply Forall_impl. intros g (_ & F). apply WholeParse.every_this.
  apply WholeParse.forall_glue'; [constructor; [exact A|constructor]|]. rewrite Forall_map. revert F. apply Forall_impl. intros v Ov. constructor; [now apply D|constructor].
Qed.
Lemma decl_leaves d : WholeParse.every (fun s => sh_kids s = []) (decl_nodes d).
Proof.
  unfold decl_nodes, decl_head. apply WholeParse.every_then; [apply WholeParse.every_then; [apply WholeParse.every_this; repeat constructor|]; apply WholeParse.every_then; [now apply WholeParse.every_spaced|]|].
  - apply groups_every; [reflexivity|reflexivity|]. intros []; reflexivity.
  - apply WholeParse.every_this. unfold flag_leaves. destruct (d_important d); repeat constructor.
Qed.
Lemma tokens_types d ss : groups_leaves (d_groups d) ss -> Forall (fun s => sh_type s <> LIST /\ sh_type s <> COMPONENT_VALUE /\ sh_type s <> ARG /\ sh_type s <> OPEN_CURLYBRACKET /\ sh_type s <> EOF_TOKEN)
  (ss ++ flag_leaves d).
Proof.
  intro H. apply Forall_app. split.
  - revert ss H. apply groups_every; [repeat split; discriminate|repeat split; discriminate|]. intros []; repeat split; discriminate.
  - unfold flag_leaves. destruct (d_important d); repeat constructor; discriminate.
Qed.
Lemma decl_field k fuel h T d : holds h T -> NoDup (nodes T) -> decl_shape d (tree_shape T) -> decl_ok d -> r_slash k (d_name d) = false ->
  Z.of_nat (shape_size (tree_shape T)) < 18446744073709551616 -> (shape_size (tree_shape T) + 4 < fuel)%nat ->
  exists las fl, field_ok k fuel h (top T) (mkField (d_name d) (items las fl))
    /\ Forall2 (fun la g => Forall2 (leaf_at h) la (group_leaves g)) las (d_groups d) /\ Forall2 (leaf_at h) fl (flag_leaves d)
    /\ (forall la a, In la las -> In a la -> In a (nodes T) /\ a <> top T).
Proof.
  intros H Nd (dn & Dn & E) Ok Sl Sz Fu. pose proof (holds_top _ _ H) as H0. rewrite E in Sz, Fu. destruct T as [n c l]. apply holds_inv in H. destruct H as (_ & Ho). cbn [top data kids] in *.
  cbn [tree_shape] in E. unfold inner in E. injection E as E1 E2 E3 E4 E5.
  destruct (leaves_of h l Ho ltac:(rewrite E5; eapply decl_leaves; exact Dn)) as (Fo & Nn). rewrite E5 in Fo.
  assert (Nt : NoDup (map top l)) by (cbn [nodes] in Nd; rewrite Nn in Nd; now inversion Nd).
  assert (Ls0 : (length (map top l) + 1 <= shape_size (inner COMPONENT_VALUE dn))%nat).
  { unfold inner. cbn [shape_size]. rewrite <- E5. pose proof (sum_length (map tree_shape l)) as Q. rewrite map_length in Q |- *. lia. }
  destruct Dn as (dh & df & -> & (s1 & s2 & -> & -> & s3 & ss & -> & Sc & Sg) & ->).
  apply Forall2_app_inv_r in Fo. destruct Fo as (lh & fl & Fo & Ff & Ec). apply Forall2_app_inv_r in Fo. destruct Fo as (li & lr & Fi & Fo & ->). apply Forall2_app_inv_r in Fo. destruct Fo as (lc & vs & Fc & Fv & ->).
  inversion Fi as [|id ? ? ? (cid & Hid & Tid & Sid & _) Fi']; subst. inversion Fi'; subst. clear Fi Fi'.
  destruct (spaced_at h lc COLON s3 Fc Sc) as (w1 & cl & w2 & sa & sb & -> & Fw1 & B1 & Fw2 & B2 & (cc & Hc & Tc & _)).
  pose proof Ok as (Wn & Nf & Ng & Fg).
  assert (Ec' : map top l = id :: w1 ++ cl :: w2 ++ vs ++ fl) by (rewrite Ec; repeat (rewrite <- app_assoc; cbn [app]); reflexivity). clear Ec. rename Ec' into Ec.
  assert (Nv : NoDup vs).
  { rewrite Ec in Nt. change (id :: w1 ++ cl :: w2 ++ vs ++ fl) with ([id] ++ w1 ++ [cl] ++ w2 ++ vs ++ fl) in Nt. do 4 apply nodup_r in Nt. clear - Nt. induction vs as [|v vs IH]; [constructor|]. cbn [app] in Nt. inversion Nt; subst. constructor; [|auto]. intro I. apply H1, in_or_app. now left. }
  destruct (groups_items h (r_metrics k (d_name d)) fl (flag_leaves d) Ff (flag_leaves_ok d) (d_groups d) Ng Fg [] vs ss ltac:(intros x []) Nv Sg Fv) as (las & ags & A1 & A2 & A3 & A4 & A5 & A6). cbn [app] in A2.
  assert (Ls : (length (vs ++ fl) + 3 <= shape_size (inner COMPONENT_VALUE (([leaf IDENTIFIER (d_name d) 0] ++ s3 ++ ss) ++ flag_leaves d)))%nat).
  { rewrite Ec in Ls0. cbn [length] in Ls0. rewrite app_length in Ls0. cbn [length] in Ls0. rewrite app_length in Ls0. lia. }
  exists las, fl. split; [|split; [exact A1|split; [exact Ff|]]].
  - exists (with_ch c (map top l)). split; [exact H0|]. split; [cbn; exact E1|]. cbn [f_name f_items].
    assert (Se : separator k (d_name d) = COMMA) by (unfold separator; now rewrite Sl). rewrite Se. split; [|split; [exact Nf|split; [|split]]].
    + exists id, cid, w1, cl, cc, w2, (vs ++ fl), ags. cbn [app with_ch c_ch]. split; [exact Ec|]. split; [exact Hid|]. split; [exact Tid|]. split; [exact Sid|]. split; [exact Hc|]. split; [exact Tc|].
      split; [exact (blanks_at _ _ _ Fw1 B1)|]. split; [exact (blanks_at _ _ _ Fw2 B2)|].
      assert (Ty : typed h (vs ++ fl) (ss ++ flag_leaves d)) by (apply Forall2_app; apply forall2_types; assumption).
      assert (Ti : WholeParse.tidy (WholeParse.types (ss ++ flag_leaves d))).
      { assert (Tg : WholeParse.tidy (WholeParse.types ss)).
        { revert ss Sg Ty Fv E5 Sz Fu Ls0 Ls. intros ss Sg _ _ _ _ _ _ _. revert ss Sg. apply WholeParse.is_tidy_between; [discriminate|destruct (d_groups d); [congruence|discriminate]|]. rewrite Forall_map. revert Fg. apply Forall_impl. intros g (G & _) x ->. now apply WholeParse.tidy_group. }
        unfold WholeParse.types in *. rewrite map_app. unfold flag_leaves. destruct (d_important d); [|cbn [map]; now rewrite app_nil_r]. apply WholeParse.tidy_app; [exact Tg|apply WholeParse.tidy_one; discriminate]. }
      split; [|split; [|split; [exact A2|split; [exact A3|]]]].
      * unfold no_leading_space. destruct (vs ++ fl) as [|a r] eqn:Ev; [exact I|]. intros k0 Hk Tk. apply (typed_hd h _ _ a Ty (proj1 (proj2 Ti)) eq_refl). intros w [<-|[]]. eauto.
      * eapply typed_apart; [exact Ty|exact (proj1 Ti)].
      * intros y Iy. destruct (typed_in _ _ _ _ Ty Iy) as (cy & sy & Hy & Tyy & Isy). exists cy. split; [exact Hy|]. rewrite Tyy. pose proof (tokens_types d ss Sg) as Tt. rewrite Forall_forall in Tt. now apply Tt.
    + intro Q. rewrite Q in Wn. destruct Wn as (Wn & _). unfold small in Wn. cbn in Wn. lia.
    + cbn [with_ch c_ch]. lia.
    + rewrite app_length in Ls. split; [lia|]. revert A4. apply Forall_impl. intros it (V1 & V2). split; [lia|]. revert V2. apply Forall_impl. intros e ->. lia.
  - intros la a Ia Ja. cbn [nodes In]. rewrite Nn. pose proof (A6 la a Ia Ja) as Iv. assert (It : In a (map top l)) by (rewrite Ec; right; apply in_or_app; right; right; apply in_or_app; right; apply in_or_app; now left). split; [now right|].
    intros ->. cbn [nodes] in Nd. rewrite Nn in Nd. inversion Nd; contradiction.
Qed.

(** What becomes of it. *)
Lemma results_same h h' g : g <> [] -> Forall value_ok g -> forall la rs, Forall2 (leaf_at h) la (group_leaves g) ->
  Forall2 (fun e r => exists v, nth_error h' r = Some v /\ stands_for h (e_tree e) r v) (entries la) rs ->
  (forall a s, In a la -> leaf_at h a s -> sh_type s = WHITESPACE -> leaf_at h' a s) ->
  results (entries la) rs = la /\ Forall2 (leaf_at h') la (group_leaves g).
Proof.
  intros N Ok. induction Ok as [|v g Hv Ok IH]; [congruence|]. intros la rs Fo Fr Kw. clear N.
  assert (E1 : forall a r, leaf_at h a (value_leaf v) -> (exists w, nth_error h' r = Some w /\ stands_for h (Atom a) r w) -> r = a /\ leaf_at h' a (value_leaf v)).
  { intros a r La (w & Hw & St). destruct (value_plain h a v Hv La) as (c & H & P & O & _ & T). destruct La as (c' & H' & Sh). assert (c' = c) by congruence. subst c'.
    destruct St as [(Q & Hr & _)|[(a' & c' & k & Q & H2 & Co & _)|(x & _ & _ & Cm)]].
    - injection Q as <-. split; [reflexivity|]. exists c. split; [congruence|exact Sh].
    - injection Q as <-. assert (c' = c) by congruence. subst c'. exfalso. clear - P Co. unfold plain_operand, colour_of in *. destruct (c_type c); try discriminate Co; try discriminate P. rewrite Co in P. rewrite andb_false_r in P. discriminate P.
    - exfalso. pose proof (Cm a c eq_refl H). congruence. }
  destruct g as [|v' g].
  - change (group_leaves [v]) with [value_leaf v] in *. inversion Fo as [|a ? ? ? La Fo']; subst. inversion Fo'; subst. cbn [entries] in *. inversion Fr as [|? r ? ? St Fr']; subst. inversion Fr'; subst. cbn [e_tree] in St.
    destruct (E1 a r La St) as (-> & L'). cbn [results e_gap app]. split; [reflexivity|]. constructor; [exact L'|constructor].
  - change (group_leaves (v :: v' :: g)) with (value_leaf v :: sign WHITESPACE :: group_leaves (v' :: g)) in *. inversion Fo as [|a ? ? ? La Fo1]; subst. inversion Fo1 as [|w ? la' ? Lw Fo2]; subst.
    cbn [entries] in *. inversion Fr as [|? r ? rs' St Fr']; subst. cbn [e_tree] in St. destruct (E1 a r La St) as (-> & L').
    destruct (IH ltac:(discriminate) la' rs' Fo2 Fr' ltac:(intros b s Ib; apply Kw; right; now right)) as (A & B). cbn [results e_gap app]. rewrite A. split; [reflexivity|].
    constructor; [exact L'|]. constructor; [apply Kw; [right; now left|exact Lw|reflexivity]|exact B].
Qed.
Lemma items_flags h las fl d k : Forall2 (leaf_at h) fl (flag_leaves d) -> las <> [] -> c_flags k = [] ->
  c_flags (all_flags h (items las fl) k) = (if d_important d then [zs "important"] else []) /\ c_str (all_flags h (items las fl) k) = c_str k /\ c_int (all_flags h (items las fl) k) = c_int k.
Proof.
  intros Ff N. revert k. induction las as [|la las IH]; [congruence|]. intros k K. destruct las as [|la' las].
  - cbn [items]. unfold all_flags. cbn [fold_left i_flag]. unfold flagged. unfold flag_leaves in Ff. destruct (d_important d).
    + inversion Ff as [|a ? ? ? (c & H & _ & Sc & _) Ff']; subst. rewrite H, K. cbn [flag_mem existsb app]. rewrite Sc. cbn. auto.
    + inversion Ff; subst. auto.
  - change (items (la :: la' :: las) fl) with (mkItem (entries la) [] :: items (la' :: las) fl). unfold all_flags in *. cbn [fold_left i_flag flagged]. apply IH; [discriminate|exact K].
Qed.
Lemma items_rel {A} (P : A -> item -> Prop) fl las : forall args, Forall2 P args (items las fl) ->
  Forall2 (fun a la => exists f, P a (mkItem (entries la) f)) args las.
Proof.
  induction las as [|la las IH]; intros args F; [inversion F; subst; constructor|]. destruct las as [|la' las].
  - cbn [items] in F. inversion F as [|a ? args' ? Pa F']; subst. inversion F'; subst. constructor; [eauto|constructor].
  - change (items (la :: la' :: las) fl) with (mkItem (entries la) [] :: items (la' :: las) fl) in F. inversion F as [|a ? args' ? Pa F']; subst. constructor; [eauto|]. now apply IH.
Qed.
Definition new_type (t : ntype) : Prop := t = ARG \/ t = DECLARATION.
Lemma decl_done k h h' n las fl d dd : decl_ok d -> r_slash k (d_name d) = false ->
  Forall2 (fun la g => Forall2 (leaf_at h) la (group_leaves g)) las (d_groups d) -> Forall2 (leaf_at h) fl (flag_leaves d) ->
  field_done k h h' n (mkField (d_name d) (items las fl)) dd ->
  (forall la a s, In la las -> In a la -> leaf_at h a s -> sh_type s = WHITESPACE -> leaf_at h' a s) ->
  exists T', holds h' T' /\ top T' = dd /\ tree_shape T' = done_decl d
    /\ forall a, In a (nodes T') -> (exists la, In la las /\ In a la) \/ exists c, nth_error h' a = Some c /\ new_type (c_type c).
Proof.
  intros (_ & _ & Ng & Fg) Sl Fl Ff (c & Hn & args & Hd & Fa) Kw. cbn [f_name f_items] in *. unfold separator in *. rewrite Sl in *.
  apply (items_rel _ fl) in Fa.
  assert (exists l, map top l = args /\ Forall (holds h') l /\ map tree_shape l = map (fun g => arg_shape (group_leaves g)) (d_groups d)
    /\ forall a, In a (flat_map nodes l) -> (exists la, In la las /\ In a la) \/ exists c, nth_error h' a = Some c /\ new_type (c_type c)) as (l & Lt & Lh & Ls & Ln).
  { clear Hd Ff Ng. revert args Fa. induction Fl as [|la g las gs Lg Fl IH]; intros args Fa; [inversion Fa; subst; exists []; cbn; repeat split; [constructor|tauto]|].
    inversion Fa as [|a ? args' ? (f & rs & Ha & Fr) Fa']; subst. inversion Fg as [|? ? (Ng & Vg) Fg']; subst. cbn [i_values] in *.
    destruct (results_same h h' g Ng Vg la rs Lg Fr ltac:(intros b s Ib; apply (Kw la); [now left|exact Ib])) as (Er & Le). rewrite Er in Ha.
    destruct (trees_of h' la _ Le) as (ts & Hts & Sts & Tts & Nts).
    destruct (IH Fg' ltac:(intros l0 b s I0; apply Kw; now right) args' Fa') as (l & Lt & Lh & Ls & Ln).
    exists (Tree a (argument (c_pos c) COMMA la) ts :: l). cbn [map top]. split; [now rewrite Lt|]. split; [|split].
    - constructor; [|exact Lh]. constructor; [|exact Hts]. rewrite Tts. exact Ha.
    - rewrite Ls. f_equal. cbn [tree_shape]. rewrite Sts. reflexivity.
    - cbn [flat_map nodes]. intros b Ib. cbn [app In] in Ib. destruct Ib as [<-|Ib]; [right; eexists; split; [exact Ha|now left]|]. apply in_app_or in Ib. destruct Ib as [Ib|Ib].
      + rewrite Nts in Ib. left. exists la. split; [now left|exact Ib].
      + destruct (Ln b Ib) as [(l0 & I0 & J0)|Q]; [left; exists l0; split; [now right|exact J0]|now right]. }
  assert (Nl : las <> []) by (intros ->; inversion Fl; congruence).
  match type of Hd with _ = Some ?X => set (cd := X) in * end.
  assert (Td : c_type cd = DECLARATION) by (unfold cd; rewrite (proj1 (all_flags_same _ _ _)); reflexivity).
  assert (Cd : c_ch cd = args) by (unfold cd; rewrite (proj2 (all_flags_same _ _ _)); reflexivity).
  exists (Tree dd cd l). split; [|split; [reflexivity|split]].
  - constructor; [|exact Lh]. rewrite Lt, <- Cd, with_ch_id. exact Hd.
  - cbn [tree_shape]. rewrite Td, Ls. unfold done_decl. destruct (items_flags h las fl d _ Ff Nl (eq_refl : c_flags (mkCell DECLARATION (c_pos c) false 0 (S754_zero false) (d_name d) [] args [] []) = [])) as (Q1 & Q2 & Q3).
    fold cd in Q1, Q2, Q3. rewrite Q1, Q2, Q3. reflexivity.
  - cbn [nodes In]. intros a [<-|Ia]; [right; exists cd; split; [exact Hd|now right]|]. now apply Ln.
Qed.

(** ** A list of declarations *)
Record part := mkPart { p_tree : tree; p_decl : decl; p_las : list (list addr); p_fl : list addr }.
Definition p_field (p : part) : field := mkField (d_name (p_decl p)) (items (p_las p) (p_fl p)).
Definition part_ok (k : rules) (fuel : nat) (h : heap) (p : part) : Prop :=
  field_ok k fuel h (top (p_tree p)) (p_field p) /\ decl_ok (p_decl p) /\ r_slash k (d_name (p_decl p)) = false
  /\ Forall2 (fun la g => Forall2 (leaf_at h) la (group_leaves g)) (p_las p) (d_groups (p_decl p)) /\ Forall2 (leaf_at h) (p_fl p) (flag_leaves (p_decl p))
  /\ (forall la a, In la (p_las p) -> In a la -> In a (nodes (p_tree p)) /\ a <> top (p_tree p)).
Lemma nodup_apart {A} (a b : list A) : NoDup (a ++ b) -> NoDup a /\ NoDup b.
Proof. intro H. split; [|now apply nodup_r in H]. induction a as [|x a IH]; [constructor|]. cbn [app] in H. inversion H; subst. constructor; [|auto]. intro I. apply H2, in_or_app. now left. Qed.
Lemma parts k fuel h : forall ds Ts, Forall2 decl_shape ds (map tree_shape Ts) -> Forall (holds h) Ts -> NoDup (flat_map nodes Ts) -> Forall decl_ok ds -> Forall (fun d => r_slash k (d_name d) = false) ds ->
  Forall (fun T => Z.of_nat (shape_size (tree_shape T)) < 18446744073709551616 /\ (shape_size (tree_shape T) + 4 < fuel)%nat) Ts ->
  exists ps, map p_tree ps = Ts /\ map p_decl ps = ds /\ Forall (part_ok k fuel h) ps.
Proof.
  induction ds as [|d ds IH]; intros [|T Ts] E Ho Nd Od Sd Zd; [exists []; repeat split; constructor|inversion E|inversion E|]. cbn [map] in E. inversion E as [|? ? ? ? E1 E2]; subst. cbn [flat_map] in Nd. destruct (nodup_apart _ _ Nd) as (N1 & N2).
  inversion Ho as [|? ? H1 H2]; subst. inversion Od as [|? ? O1 O2]; subst. inversion Sd as [|? ? S1 S2]; subst. inversion Zd as [|? ? (Z1 & Z2) Z3]; subst.
  destruct (IH Ts E2 H2 N2 O2 S2 Z3) as (ps & A & B & C). destruct (decl_field k fuel h T d H1 N1 E1 O1 S1 Z1 Z2) as (las & fl & D1 & D2 & D3 & D4).
  exists (mkPart T d las fl :: ps). cbn [map p_tree p_decl]. rewrite A, B. repeat split. constructor; [|exact C]. unfold part_ok, p_field. cbn [p_tree p_decl p_las p_fl]. do 5 (split; [assumption|]). exact D4.
Qed.
Lemma combine_map {A B D} (f : A -> B) (g : A -> D) l : combine (map f l) (map g l) = map (fun x => (f x, g x)) l.
Proof. induction l as [|x l IH]; [reflexivity|]. cbn [map combine]. now rewrite IH. Qed.
Lemma forall2_map {A B D} (P : B -> D -> Prop) (f : A -> B) (l : list A) : forall r, Forall2 P (map f l) r -> Forall2 (fun x y => P (f x) y) l r.
Proof. induction l as [|x l IH]; intros r F; inversion F; subst; constructor; auto. Qed.
Lemma forall2_maps {A B D} (P : B -> D -> Prop) (f : A -> B) (g : A -> D) (l : list A) : Forall (fun x => P (f x) (g x)) l -> Forall2 P (map f l) (map g l).
Proof. induction 1; constructor; auto. Qed.
Lemma tops_nodup l : NoDup (flat_map nodes l) -> NoDup (map top l).
Proof.
  induction l as [|T l IH]; cbn [flat_map map]; intro H; [constructor|]. constructor.
  - intro I. apply tops_in in I. destruct T as [a c k]. cbn [nodes top] in *. inversion H as [|? ? N _]; subst. apply N. apply in_or_app. now right.
  - apply IH. clear - H. induction (nodes T); [exact H|]. inversion H; auto.
Qed.
Section Fields.
  Variables (k : rules) (l : addr) (x : ctx) (stop : bool) (fn : option addr -> addr -> C (option addr)) (fuel : nat) (m : list msg) (ps : list str).
  Hypothesis Fn : forall r a s cc, nth_error (k_heap s) a = Some cc -> c_type cc = COMPONENT_VALUE \/ c_type cc = DECLARATION -> fn r a s = run k fuel Compile (push x l) r a s.
  Lemma decls_compile ds Ts h kl g : nth_error h l = Some kl -> holder (c_type kl) = true -> c_ch kl = map top Ts ->
    Forall2 decl_shape ds (map tree_shape Ts) -> Forall (holds h) Ts -> NoDup (flat_map nodes Ts) -> Forall decl_ok ds -> Forall (fun d => r_slash k (d_name d) = false) ds ->
    Forall (fun T => Z.of_nat (shape_size (tree_shape T)) < 18446744073709551616 /\ (shape_size (tree_shape T) + 4 < fuel)%nat) Ts ->
    (2 * length Ts < g)%nat ->
    exists h' Ts', result_loop stop fn l g 0 None (mkK h m ps) = Ret None (mkK h' m ps)
      /\ nth_error h' l = Some (with_ch kl (map top Ts')) /\ Forall (holds h') Ts' /\ map tree_shape Ts' = map done_decl ds
      /\ (forall b cb, ~ In b (map top Ts) -> b <> l -> nth_error h b = Some cb -> nth_error h' b = Some cb)
      /\ alike h h'
      /\ forall a, In a (flat_map nodes Ts') -> In a (flat_map nodes Ts) \/ exists c, nth_error h' a = Some c /\ new_type (c_type c).
  Proof.
    intros Hl Tl El Es Ho Nd Od Sd Zd Lg. destruct (parts k fuel h ds Ts Es Ho Nd Od Sd Zd) as (qs & A & B & P).
    pose (fs := map p_field qs).
    assert (Fo : Forall2 (field_ok k fuel h) (map top Ts) fs).
    { rewrite <- A, map_map. apply forall2_maps. revert P. apply Forall_impl. intros q Q. apply Q. }
    destruct (fields_loop k l x stop fn fuel m ps Fn (map top Ts) fs [] h kl g Hl Tl El (tops_nodup _ Nd) ltac:(intros a []) Fo ltac:(now rewrite map_length)) as (h' & dd & E & Hl' & V & K & Al).
    cbn [app] in Hl'.
    rewrite <- A, map_map in V. unfold fs in V. rewrite combine_map in V. apply forall2_map in V. cbn [fst snd] in V.
    assert (Lw : forall q la a s, In q qs -> In la (p_las q) -> In a la -> leaf_at h a s -> sh_type s = WHITESPACE -> leaf_at h' a s).
    { intros q la a s _ _ _ (c & Hc & Sh) Tw. exists c. split; [|exact Sh]. destruct Sh as (T & _). eapply alike_at; eauto. rewrite T, Tw. reflexivity. }
    assert (exists Ts', map top Ts' = dd /\ Forall (holds h') Ts' /\ map tree_shape Ts' = map done_decl (map p_decl qs)
      /\ forall a, In a (flat_map nodes Ts') -> In a (flat_map nodes (map p_tree qs)) \/ exists c, nth_error h' a = Some c /\ new_type (c_type c)) as (Ts' & Q1 & Q2 & Q3 & Q4).
    { clear - P V Lw. revert P. induction V as [|q d qs dd Vq V IH]; intro P; [exists []; cbn; repeat split; [constructor|tauto]|]. inversion P as [|? ? Pq P']; subst.
      destruct IH as (Ts' & Q1 & Q2 & Q3 & Q4); [intros; eapply Lw; eauto; now right|exact P'|].
      destruct Pq as (_ & Ok & Sl & Fg & Ff & In1). destruct (decl_done k h h' _ (p_las q) (p_fl q) (p_decl q) d Ok Sl Fg Ff Vq ltac:(intros; eapply (Lw q); eauto; now left)) as (T' & W1 & W2 & W3 & W4).
      exists (T' :: Ts'). cbn [map flat_map]. rewrite Q1, W2, W3, Q3. split; [reflexivity|]. split; [now constructor|]. split; [reflexivity|].
      intros a I. apply in_app_or in I. destruct I as [I|I].
      - destruct (W4 a I) as [(la & I1 & I2)|Q]; [left; apply in_or_app; left; now apply (In1 la)|now right].
      - destruct (Q4 a I) as [Q|Q]; [left; apply in_or_app; now right|now right]. }
    rewrite B in Q3. rewrite A in Q4. exists h', Ts'. rewrite Q1. split; [exact E|]. split; [exact Hl'|]. split; [exact Q2|]. split; [exact Q3|]. split; [exact K|]. split; [exact Al|exact Q4].
  Qed.
End Fields.
