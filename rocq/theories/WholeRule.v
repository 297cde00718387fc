(** * compile() on a plain rule and on a plain style sheet *)

From Coq Require Import String ZArith List Bool Lia Arith ZifyBool Floats.SpecFloat.
From Verif Require Import Base NodeHeap NodeProofs.
From Verif Require Import Compiler Compile CompRun ListProofs DeclSpec DeclCompile IfProofs Props_Prune Pipeline.
From Verif Require Parser Selector WholeParse WholeSelect.
From Verif Require Import Trees WholeSpec LaySpec WholeShape WholeTree WholeDecl.
Import ListNotations.
Open Scope string_scope. Open Scope list_scope. Open Scope Z_scope.
Ltac Zify.zify_post_hook ::= idtac.

(** ** The selectors of a rule *)
Definition bare (s : shape) : Prop := sh_kids s = [] /\ sh_flags s = [].
Lemma selector_bare r : WholeParse.every bare (selector_lay r).
Proof.
  apply WholeParse.every_between; [apply WholeParse.every_spaced; repeat constructor|]. rewrite Forall_map. apply Forall_forall. intros s _.
  assert (K : forall k, WholeParse.every bare (this (compound_leaves k))).
  { intro k. apply WholeParse.every_this. unfold compound_leaves. apply Forall_app. split; [destruct (k_name k); repeat constructor|]. apply WholeParse.forall_flat. intros [w|w]; repeat constructor. }
  apply WholeParse.every_then; [apply K|]. apply WholeParse.every_each. rewrite Forall_map. apply Forall_forall. intros (x & k) _. apply WholeParse.every_then; [|apply K].
  destruct x; cbn [fst link_leaves]; [apply WholeParse.every_this; repeat constructor|apply WholeParse.every_spaced; repeat constructor|apply WholeParse.every_spaced; repeat constructor].
Qed.
Lemma split_last_app {A} (l : list A) x : split_last (l ++ [x]) = Some (l, x).
Proof. induction l as [|y l IH]; [reflexivity|]. cbn [app split_last]. rewrite IH. destruct (l ++ [x]) eqn:E; [|reflexivity]. destruct l; discriminate. Qed.
Lemma dig_leaves h l : Forall (holds h) l -> Forall bare (map tree_shape l) -> exists ns, dig_all h (map top l) = Some ns /\ map node_shape ns = map tree_shape l.
Proof.
  induction 1 as [|T l H F IH]; intro K; [exists []; auto|]. cbn [map] in *. inversion K as [|? ? (K1 & K2) K3]; subst. destruct (IH K3) as (ns & A & B).
  pose proof (holds_top _ _ H) as H0. destruct T as [a c kk]. cbn [top data kids tree_shape sh_kids sh_flags] in *. apply map_eq_nil in K1. subst kk.
  cbn [dig_all]. rewrite A. cbn [dig]. rewrite H0. cbn [c_ch with_ch map]. eexists. split; [reflexivity|]. cbn [map node_shape]. rewrite B, K2. reflexivity.
Qed.
Lemma selectors_heap o x h m ps n c Ls b r : nth_error h n = Some c -> c_ch c = map top Ls ++ [b] -> Forall (holds h) Ls -> selector_lay r (map tree_shape Ls) -> rule_ok r ->
  exists h2 As, selector_pass o x n (mkK h m ps) = Ret true (mkK h2 m ps) /\ nth_error h2 n = Some (with_ch c (map top As ++ [b])) /\ Forall (holds h2) As
    /\ map tree_shape As = map (fun s => arg_shape (complex_leaves s)) (r_selectors r) /\ keeps [n] h h2 /\ (forall a, In a (flat_map nodes As) -> (length h <= a)%nat).
Proof.
  intros Hn Ec Ho Es Ok. destruct (dig_leaves h Ls Ho ltac:(eapply selector_bare; exact Es)) as (ns & Dg & Sh). rewrite <- Sh in Es. clear Sh. rename Es into Sh.
  unfold selector_pass. cbn [k_heap k_msgs k_paths]. rewrite Hn, Ec, split_last_app, Dg.
  destruct (WholeSelect.parse_same sep_code (o_checks o) (set_ch (mk (c_type c) (c_pos c)) (ns ++ [the_block (c_pos c)])) ns (the_block (c_pos c)) r (Parser.mkPS [] (c_pos c) m) Ok eq_refl eq_refl Sh) as (gs & Fg & E).
  rewrite E. cbn [Parser.ps_msgs n_ch set_ch]. replace (n_ch _) with (map (Parser.new_arg sep_code COMMA (c_pos c)) gs ++ [the_block (c_pos c)]) by reflexivity.
  rewrite removelast_last. destruct (plant_all_spec (map (Parser.new_arg sep_code COMMA (c_pos c)) gs) h) as (As & Ep & A1 & A2 & A3 & A4 & (e & A5) & A6). rewrite Ep. cbn [fst snd] in *.
  set (h1 := snd (plant_all _ h)) in *. clearbody h1. assert (Ln : (n < length h)%nat) by (eapply nth_lt; eauto).
  assert (Hn1 : nth_error h1 n = Some c) by (rewrite A5, nth_error_app1 by auto; exact Hn).
  exists (put h1 n (with_ch c (map top As ++ [b]))), As. split; [reflexivity|]. split; [apply put_same; now apply nth_lt in Hn1|]. split.
  - eapply (holds_all_keeps [n]); [|intros a I [<-|[]]; apply A4 in I; lia|exact A1]. split; [now rewrite put_length|]. intros q _ Nq. apply put_other. intros ->. apply Nq. now left.
  - split; [|split; [|intros a I; apply A4 in I; lia]].
    + rewrite A2, map_map. clear - Fg. induction Fg as [|l s gs ss H F IH]; [reflexivity|]. cbn [map]. rewrite IH. f_equal. unfold Parser.new_arg. cbn. unfold arg_shape. now rewrite H.
    + split; [rewrite put_length, A5, app_length; lia|]. intros q Lq Nq. rewrite put_other by (intros ->; apply Nq; now left). rewrite A5. now rewrite nth_error_app1.
Qed.

(** ** The block of a rule *)
Lemma alike_length h h' : alike h h' -> (length h <= length h')%nat.
Proof. intro A. destruct (Nat.le_gt_cases (length h) (length h')) as [L|L]; [exact L|]. destruct (nth_error h (length h')) as [c|] eqn:E; [|apply nth_error_None in E; lia]. destruct (A _ _ E) as (c' & E' & _). apply nth_lt in E'. lia. Qed.
Definition block_fn (k : rules) (F : nat) (x : ctx) : option addr -> addr -> C (option addr) := fun r child =>
  let x := push x child in
  t <- type_of child ;;
  if ntype_eqb t LIST then result_loop false (fun r item => run k F Value (push x item) r item) child F 0 r
  else if ntype_eqb t COMPONENT_VALUE then run k F Value x r child
  else ret r.
Lemma value_compile k F x r a s cc : (1 <= F)%nat -> nth_error (k_heap s) a = Some cc -> c_type cc = COMPONENT_VALUE \/ c_type cc = DECLARATION ->
  run k F Value (push x a) r a s = run k (S F) Compile x r a s.
Proof.
  intros LF H T. destruct s as [h m ps]. cbn [k_heap] in H.
  change (run k (S F) Compile x r a (mkK h m ps)) with ((t <- type_of a ;; match t with LIST | FRAME => result_loop true (fun r child => run k F Compile (push x a) r child) a F 0 r | DECLARATION | COMMENT => ret r | COMPONENT_VALUE => run k F Value (push x a) r a | AT_KEYWORD => run k F At (push x a) r a | _ => throw XLogic end) (mkK h m ps)).
  symmetry. erewrite b_ret; [|eapply run_type; exact H]. destruct T as [T|T]; rewrite T; [reflexivity|]. destruct F as [|F]; [lia|].
  change (run k (S F) Value (push x a) r a (mkK h m ps)) with (compile_component_value k F (run k F At) (run k F Values) (run k F Value) (push x a) r a (mkK h m ps)).
  unfold compile_component_value. erewrite b_ret; [|eapply run_type; exact H]. rewrite T. reflexivity.
Qed.
Definition fresh_or (h h' : heap) (old : list addr) (a : addr) : Prop :=
  In a old \/ (length h <= a)%nat \/ exists c, nth_error h' a = Some c /\ new_type (c_type c).
Lemma sum_le (l : list shape) : Forall (fun s => (shape_size s <= list_sum (map shape_size l))%nat) l.
Proof. apply Forall_forall. intros s I. now apply sum_in. Qed.
Lemma listed_size l : l <> [] -> (list_sum (map shape_size l) <= shape_size (listed l))%nat.
Proof. destruct l as [|x [|y l]]; intro H; [congruence|cbn; lia|]. unfold listed, inner. cbn [shape_size]. lia. Qed.
Lemma block_compiles k x F h m ps B ds cs : holds h B -> tree_shape B = inner OPEN_CURLYBRACKET [listed cs] -> Forall2 decl_shape ds cs -> ds <> [] -> Forall decl_ok ds ->
  Forall (fun d => r_slash k (d_name d) = false) ds -> NoDup (nodes B) -> Z.of_nat (shape_size (tree_shape B)) < 18446744073709551616 -> (2 * shape_size (tree_shape B) + 4 < F)%nat ->
  exists h' B', result_loop false (block_fn k F (push x (top B))) (top B) F 0 None (mkK h m ps) = Ret None (mkK h' m ps) /\ holds h' B'
    /\ tree_shape B' = inner OPEN_CURLYBRACKET (match ds with [d] => [done_decl d] | l => [inner LIST (map done_decl l)] end) /\ top B' = top B
    /\ keeps (nodes B) h h' /\ alike h h' /\ forall a, In a (nodes B') -> fresh_or h h' (nodes B) a.
Proof.
  intros Ho Es Fc Ne Ok Sl Nd Zs Lf. destruct B as [b cb kk]. cbn [tree_shape top] in Es |- *. injection Es as Tb Sb Ib Fb Kb. destruct kk as [|J [|J2 kk]]; [discriminate| |discriminate]. cbn [map] in Kb. injection Kb as Kb.
  apply holds_inv in Ho. cbn [map] in Ho. destruct Ho as (Hb & Hj). inversion Hj as [|? ? HJ _]; subst. cbn [tree_shape map shape_size list_sum fold_right] in Zs, Lf. rewrite Kb in Zs, Lf.
  assert (Nc : cs <> []) by (intros ->; inversion Fc; congruence).
  assert (Sz : Forall (fun s => Z.of_nat (shape_size s) < 18446744073709551616 /\ (shape_size s + 4 < S F)%nat) cs).
  { pose proof (listed_size _ Nc). pose proof (sum_le cs) as S1. revert S1. apply Forall_impl. intros d I. lia. }
  assert (Ld : (length cs <= shape_size (listed cs))%nat).
  { pose proof (listed_size _ Nc). pose proof (sum_length cs). lia. }
  cbn [nodes flat_map] in Nd. rewrite app_nil_r in Nd. inversion Nd as [|? ? Nb Nj]; subst.
  destruct Fc as [|d c1 ds cs Fd Fc]; [congruence|]. destruct Fc as [|d2 c2 ds cs Fd2 Fc].
  - (* one declaration *)
    cbn [listed] in Kb, Lf, Zs.
    destruct (decls_compile k b x false (block_fn k F (push x b)) (S F) m ps) with (ds := [d]) (Ts := [J]) (h := h) (kl := with_ch cb [top J]) (g := F) as (h' & Ts' & E & Hb' & Ht & St & Ko & Al & Nn).
    { intros r a s cc Ha Ta. rewrite <- (value_compile k F _ r a s cc ltac:(lia) Ha Ta). unfold block_fn. cbv zeta. destruct s as [h0 m0 p0]. cbn [k_heap] in Ha. erewrite b_ret; [|eapply run_type; exact Ha].
      destruct Ta as [Ta|Ta]; rewrite Ta; [reflexivity|]. change (ntype_eqb DECLARATION LIST) with false. change (ntype_eqb DECLARATION COMPONENT_VALUE) with false. cbv iota.
      destruct F as [|F]; [lia|]. change (run k (S F) Value (push (push x b) a) r a (mkK h0 m0 p0)) with (compile_component_value k F (run k F At) (run k F Values) (run k F Value) (push (push x b) a) r a (mkK h0 m0 p0)).
      unfold compile_component_value. erewrite b_ret; [|eapply run_type; exact Ha]. rewrite Ta. reflexivity. }
    { exact Hb. } { cbn [c_type with_ch]. rewrite Tb. reflexivity. } { reflexivity. } { cbn [map]. rewrite Kb. constructor; [exact Fd|constructor]. } { constructor; [exact HJ|constructor]. } { cbn [flat_map]. now rewrite app_nil_r. } { exact Ok. } { exact Sl. } { constructor; [|constructor]. rewrite Kb. now inversion Sz. } { cbn [length] in *. pose proof (size_pos c1). lia. }
    exists h', (Tree b cb Ts'). split; [exact E|]. split; [constructor; [exact Hb'|exact Ht]|]. split; [cbn [tree_shape]; rewrite Tb, Sb, Ib, Fb, St; reflexivity|]. split; [reflexivity|]. split; [|split; [exact Al|]].
    + split; [now apply alike_length|]. intros q Lq Nq. destruct (nth_error h q) as [cq|] eqn:Eq; [|apply nth_error_None in Eq; lia]. apply Ko; [| |exact Eq].
      * intros [<-|[]]. apply Nq. cbn [nodes flat_map]. right. apply in_or_app. left. apply top_in.
      * intros ->. apply Nq. now left.
    + intros a [<-|I]; [left; now left|]. destruct (Nn a I) as [Q|Q]; [left; right; exact Q|right; right; exact Q].
  - (* several *)
    set (dl := d :: d2 :: ds) in *. set (cl0 := c1 :: c2 :: cs) in *. assert (El : listed cl0 = inner LIST cl0) by reflexivity. rewrite El in *. assert (L2 : (2 <= length dl)%nat) by (unfold dl; cbn [length]; lia).
    assert (Fc2 : Forall2 decl_shape dl cl0) by (constructor; [exact Fd|constructor; [exact Fd2|exact Fc]]). clear El. clearbody dl cl0.
    destruct J as [l cl Ts]. cbn [tree_shape] in Kb. injection Kb as Tl Sl2 Il Fl Kl. pose proof (holds_inv _ _ _ _ HJ) as (Hl & Hts). cbn [top] in *.
    cbn [nodes] in Nj, Nb. inversion Nj as [|? ? Nl Nts]; subst. assert (Nlb : l <> b) by (intros ->; apply Nb; now left).
    destruct (decls_compile k l (push x b) false (fun r item => run k F Value (push (push (push x b) l) item) r item) (S F) m ps) with (ds := dl) (Ts := Ts) (h := h) (kl := with_ch cl (map top Ts)) (g := F) as (h' & Ts' & E & Hl' & Ht & St & Ko & Al & Nn).
    { intros r a s cc Ha Ta. apply (value_compile k F _ r a s cc ltac:(lia) Ha Ta). }
    { exact Hl. } { cbn [c_type with_ch]. rewrite Tl. reflexivity. } { reflexivity. } { exact Fc2. } { exact Hts. } { exact Nts. } { exact Ok. } { exact Sl. } { rewrite Forall_map in Sz. exact Sz. } { rewrite map_length in Ld. lia. }
    assert (Hb' : nth_error h' b = Some (with_ch cb [l])). { apply Ko; [|auto|exact Hb]. intro I. apply Nb. right. now apply tops_in. }
    assert (Cb : has_children (c_type (with_ch cb [l])) = true) by (cbn [c_type with_ch]; rewrite Tb; reflexivity).
    exists h', (Tree b cb [Tree l cl Ts']). split.
    { destruct F as [|F]; [lia|]. cbn [result_loop]. erewrite b_ret; [|eapply run_size; [exact Hb|exact Cb]]. cbn [c_ch with_ch length]. change (Z.of_nat 1 <=? 0) with false. cbn [orb andb].
      erewrite b_ret; [|eapply run_child0; [exact Hb|exact Cb|reflexivity]].
      erewrite b_ret. 2:{ unfold block_fn at 1. cbv zeta. erewrite b_ret; [|eapply run_type; exact Hl]. cbn [c_type with_ch]. rewrite Tl. change (ntype_eqb LIST LIST) with true. cbv iota. exact E. }
      erewrite b_ret; [|apply (step_over_same h' m ps b _ 0 l Hb' Cb); reflexivity].
      destruct F as [|F]; [lia|]. cbn [result_loop]. erewrite b_ret; [|eapply run_size; [exact Hb'|exact Cb]]. reflexivity. }
    split. { constructor; [exact Hb'|]. constructor; [|constructor]. constructor; [exact Hl'|exact Ht]. }
    split. { cbn [tree_shape map]. rewrite Tb, Sb, Ib, Fb, Tl, Sl2, Il, Fl, St. destruct dl as [|e1 [|e2 dl]]; [congruence|cbn [length] in L2; lia|reflexivity]. }
    split; [reflexivity|]. split; [|split; [exact Al|]].
    + split; [now apply alike_length|]. intros q Lq Nq. destruct (nth_error h q) as [cq|] eqn:Eq; [|apply nth_error_None in Eq; lia]. apply Ko; [| |exact Eq].
      * intro I. apply Nq. cbn [nodes flat_map]. rewrite app_nil_r. right. right. now apply tops_in.
      * intros ->. apply Nq. cbn [nodes flat_map]. right. now left.
    + cbn [nodes flat_map]. rewrite !app_nil_r. intros a [<-|[<-|I]]; [left; now left|left; right; now left|]. destruct (Nn a I) as [Q|Q]; [left; right; right; exact Q|right; right; exact Q].
Qed.

(** ** A rule *)
Lemma not_nested (l : list node) : Forall (fun n => n_type n <> COLON) l -> Parser.is_nested_declaration l = Some false.
Proof.
  intro F. unfold Parser.is_nested_declaration. destruct (Nat.ltb (length l) 3) eqn:L; [reflexivity|]. apply Nat.ltb_ge in L.
  destruct l as [|a [|b [|c l]]]; cbn [length] in L; try lia. inversion F as [|? ? Fa F1]; subst. inversion F1 as [|? ? Fb F2]; subst. inversion F2 as [|? ? Fc F3]; subst.
  unfold Parser.child_is at 1. cbn [nth_error Parser.obind]. destruct (is a IDENTIFIER); [cbn [negb]|reflexivity].
  unfold Parser.lastn. destruct (rev (a :: b :: c :: l)) as [|y r] eqn:R; [apply (f_equal (@length _)) in R; rewrite rev_length in R; discriminate|]. cbn [Parser.obind]. destruct (is y OPEN_CURLYBRACKET); [cbn [negb]|reflexivity].
  unfold Parser.child_is. cbn [nth_error Parser.obind]. destruct (is b WHITESPACE); cbn [nth_error Parser.obind]; unfold is.
  - replace (ntype_eqb (n_type c) COLON) with false by (symmetry; now apply ntype_eqb_neq). reflexivity.
  - replace (ntype_eqb (n_type b) COLON) with false by (symmetry; now apply ntype_eqb_neq). reflexivity.
Qed.
Lemma head_type h T : holds h T -> exists c, nth_error h (top T) = Some c /\ c_type c = sh_type (tree_shape T).
Proof. intro H. exists (with_ch (data T) (map top (kids T))). split; [now apply holds_top|]. now destruct T. Qed.
Lemma selector_types r ss s : selector_lay r ss -> In s ss -> WholeParse.selector_type (sh_type s) = true.
Proof. intros L I. pose proof (WholeParse.selector_plain r ss L) as F. rewrite Forall_forall in F. now apply F. Qed.
Lemma count_none h m ps : forall l, (forall y, In y l -> exists ky, nth_error h y = Some ky /\ c_type ky <> COMPONENT_VALUE) -> count_type COMPONENT_VALUE l (mkK h m ps) = Ret 0 (mkK h m ps).
Proof.
  induction l as [|y l IH]; intro A; [reflexivity|]. cbn [count_type]. destruct (A y (or_introl eq_refl)) as (ky & Hy & Tky). erewrite b_ret; [|eapply run_is; exact Hy]. erewrite b_ret; [|apply IH; intros z I; apply A; now right]. rewrite (proj2 (ntype_eqb_neq _ _) Tky). reflexivity.
Qed.
Lemma selector_some r ss : rule_ok r -> selector_lay r ss -> ss <> [].
Proof. intros Ok L E. pose proof (WholeParse.tidy_selector value_ok r Ok ss L) as T. rewrite E in T. now apply WholeParse.tidy_nil in T. Qed.
Lemma between_length {A} (sep : lang A) (l : list (lang A)) : Forall (fun P : lang A => forall x, P x -> x <> []) l -> forall x, between sep l x -> (length l <= length x)%nat.
Proof.
  induction 1 as [|P l H F IH]; intros x Hx; [cbn; lia|]. destruct l as [|Q l].
  - cbn [between length] in *. apply H in Hx. destruct x; [congruence|cbn; lia].
  - change ((P # sep # between sep (Q :: l)) x) in Hx. destruct Hx as (a & y & -> & Ha & b & c & -> & _ & Hc). apply IH in Hc. apply H in Ha. rewrite !app_length. destruct a; [congruence|]. cbn [length] in *. lia.
Qed.
Lemma selectors_length r ss : rule_ok r -> selector_lay r ss -> (length (r_selectors r) <= length ss)%nat.
Proof.
  intros (_ & F & _) L. rewrite <- (map_length complex_lay). revert ss L. apply between_length. rewrite Forall_map. revert F. apply Forall_impl. intros s Hs x Hx E. pose proof (WholeParse.tidy_complex s Hs x Hx) as T. rewrite E in T. now apply WholeParse.tidy_nil in T.
Qed.
Lemma rule_compiles o k x F h m ps T r : r_selector k = selector_pass o -> holds h T -> rule_shape r (tree_shape T) -> Forall calm (sh_kids (tree_shape T)) -> rule_ok r ->
  Forall (fun d => r_slash k (d_name d) = false) (r_decls r) -> NoDup (nodes T) -> Z.of_nat (shape_size (tree_shape T)) < 18446744073709551616 -> (2 * shape_size (tree_shape T) + 4 < F)%nat ->
  exists h' T', run k (S (S F)) Compile x None (top T) (mkK h m ps) = Ret None (mkK h' m ps) /\ holds h' T' /\ tree_shape T' = done_rule r /\ top T' = top T
    /\ keeps (nodes T) h h' /\ forall a, In a (nodes T') -> fresh_or h h' (nodes T) a.
Proof.
  intros Rk Ho (ss & cs & Lss & Fcs & Es) Cm Ok Sl Nd Zs Lf. rewrite Es in Cm, Zs, Lf. set (whole := inner COMPONENT_VALUE (ss ++ [inner OPEN_CURLYBRACKET [listed cs]])) in Zs, Lf. destruct T as [n c kk]. cbn [tree_shape top] in *. pose proof (holds_inv _ _ _ _ Ho) as (Hn & Hk). cbn [inner sh_kids] in Cm. injection Es as Tn Sn In0 Fn Kn.
  destruct (WholeParse.map_split _ _ _ _ Kn) as (Ls & Bs & -> & ELs & EB). destruct Bs as [|B [|B2 Bs]]; [discriminate| |discriminate]. cbn [map] in EB. injection EB as EB.
  rewrite map_app in Hn, Kn. cbn [map] in Hn, Kn. apply Forall_app in Hk. destruct Hk as (HLs & HB). pose proof (Forall_inv HB) as HB1. clear HB.
  rewrite (flat_map_app nodes) in * || idtac.
  assert (NB : NoDup (nodes B) /\ ~ In n (nodes B) /\ (forall a, In a (flat_map nodes Ls) -> ~ In a (nodes B))).
  { cbn [nodes] in Nd. rewrite flat_map_app in Nd. cbn [flat_map] in Nd. rewrite app_nil_r in Nd. apply NoDup_cons_iff in Nd. destruct Nd as (N1 & N2). clear - N1 N2. split; [|split].
    - induction (flat_map nodes Ls) as [|y l IH]; [exact N2|]. inversion N2; subst. apply IH; [|assumption]. intro I. apply N1. now right.
    - intro I. apply N1. apply in_or_app. now right.
    - induction (flat_map nodes Ls) as [|y l IH]; [intros ? []|]. inversion N2 as [|? ? Q1 Q2]; subst. intros a [<-|I]; [intro J; apply Q1, in_or_app; now right|]. apply IH; auto. intro J. apply N1. now right. }
  destruct NB as (NB & Nn & NLB).
  assert (Sz : (length Ls + shape_size (tree_shape B) + 1 <= shape_size whole)%nat).
  { unfold whole, inner at 1. cbn [shape_size]. rewrite <- EB, <- ELs, map_app, list_sum_app. cbn [map list_sum fold_right]. pose proof (sum_length (map tree_shape Ls)). rewrite map_length in *. lia. }
  assert (Tn' : c_type (with_ch c (map top Ls ++ [top B])) = COMPONENT_VALUE) by exact Tn.
  assert (Ch : has_children (c_type (with_ch c (map top Ls ++ [top B]))) = true) by (rewrite Tn'; reflexivity).
  (* the selectors *)
  destruct (selectors_heap o (push x n) h m ps n _ Ls (top B) r Hn eq_refl HLs ltac:(rewrite ELs; exact Lss) Ok) as (h2 & As & E2 & Hn2 & HA & SA & K2 & FA).
  assert (HB2 : holds h2 B) by (eapply (holds_keeps [n]); [exact K2|intros a I [<-|[]]; auto|exact HB1]).
  (* the block *)
  destruct (block_compiles k (push x n) F h2 m ps B (r_decls r) cs HB2) as (h3 & B' & E3 & HB3 & SB & TB & K3 & Al & FB).
  { exact EB. } { exact Fcs. } { apply Ok. } { apply Ok. } { exact Sl. } { exact NB. } { lia. } { lia. }
  assert (Hn3 : nth_error h3 n = Some (with_ch c (map top As ++ [top B']))). { destruct K3 as (_ & K3). rewrite K3; [rewrite Hn2, TB; reflexivity|now apply nth_lt in Hn2|exact Nn]. }
  assert (HA3 : Forall (holds h3) As). { eapply holds_all_keeps; [exact K3| |exact HA]. intros a I J. apply FA in I. pose proof (holds_lt _ _ _ HB1 J). lia. }
  destruct (head_type h2 B HB2) as (kb & Hkb & Tkb). rewrite EB in Tkb. cbn [sh_type inner] in Tkb.
  assert (Hkb0 : exists k0, nth_error h (top B) = Some k0 /\ c_type k0 = OPEN_CURLYBRACKET) by (destruct (head_type h B HB1) as (k0 & A & B0); exists k0; rewrite EB in B0; auto).
  destruct Hkb0 as (kb0 & Hkb0 & Tkb0).
  exists h3, (Tree n c (As ++ [B'])). split; [|split; [|split; [|split; [|split]]]].
  - change (run k (S (S F)) Compile x None n (mkK h m ps)) with ((t <- type_of n ;; match t with LIST | FRAME => result_loop true (fun r child => run k (S F) Compile (push x n) r child) n (S F) 0 None | DECLARATION | COMMENT => ret None | COMPONENT_VALUE => run k (S F) Value (push x n) None n | AT_KEYWORD => run k (S F) At (push x n) None n | _ => throw XLogic end) (mkK h m ps)).
    erewrite b_ret; [|eapply run_type; exact Hn]. rewrite Tn'. cbv iota.
    change (run k (S F) Value (push x n) None n (mkK h m ps)) with (compile_component_value k F (run k F At) (run k F Values) (run k F Value) (push x n) None n (mkK h m ps)).
    unfold compile_component_value. erewrite b_ret; [|eapply run_type; exact Hn]. rewrite Tn'. change (ntype_eqb COMPONENT_VALUE DECLARATION) with false. cbv iota.
    destruct Ls as [|L0 Ls0] eqn:ELs0. { exfalso. apply (selector_some r ss Ok Lss). now rewrite <- ELs. }
    erewrite b_ret; [|eapply run_empty; [exact Hn|exact Ch]]. cbn [c_ch with_ch map app]. cbv iota.
    erewrite b_ret; [|eapply run_child0; [exact Hn|exact Ch|reflexivity]].
    pose proof (Forall_inv HLs) as HL0. pose proof (Forall_inv_tail HLs) as HLs0. destruct (head_type h L0 HL0) as (k0 & Hk0 & Tk0).
    assert (Tsel : forall L, In L (L0 :: Ls0) -> WholeParse.selector_type (sh_type (tree_shape L)) = true). { intros L I. apply (selector_types r ss _ Lss). rewrite <- ELs. now apply in_map. }
    pose proof (Tsel L0 (or_introl eq_refl)) as Tl0. rewrite <- Tk0 in Tl0.
    erewrite b_ret; [|eapply run_type; exact Hk0].
    replace (ntype_eqb (c_type k0) COMMENT) with false by (destruct (c_type k0); try discriminate Tl0; reflexivity).
    replace (ntype_eqb (c_type k0) ARG) with false by (destruct (c_type k0); try discriminate Tl0; reflexivity).
    replace (ntype_eqb (c_type k0) AT_KEYWORD) with false by (destruct (c_type k0); try discriminate Tl0; reflexivity). cbv iota.
    erewrite b_ret; [|eapply run_load; exact Hn].
    assert (Types : forall y, In y (map top (L0 :: Ls0) ++ [top B]) -> exists ky, nth_error h y = Some ky /\ (WholeParse.selector_type (c_type ky) = true \/ c_type ky = OPEN_CURLYBRACKET)).
    { intros y I. apply in_app_or in I. destruct I as [I|[<-|[]]]; [|exists kb0; auto]. apply in_map_iff in I. destruct I as (L & <- & I). rewrite Forall_forall in HLs. destruct (head_type h L (HLs L I)) as (ky & Hy & Ty). exists ky. split; [exact Hy|]. left. rewrite Ty. now apply Tsel. }
    cbn [c_ch with_ch]. erewrite b_ret; [|apply count_none; intros y I; destruct (Types y I) as (ky & Hy & Ty); exists ky; split; [exact Hy|]; destruct Ty as [Ty|Ty]; intro Q; rewrite Q in Ty; discriminate].
    replace (0 =? Z.of_nat (length (map top (L0 :: Ls0) ++ [top B]))) with false by (cbn [map app length]; lia). change (negb (0 =? 0)) with false. cbv iota.
    erewrite b_ret; [|eapply (calm_no_variable h m ps n _ true ((L0 :: Ls0) ++ [B]) Hn); [rewrite map_app; reflexivity|exact (proj2 (holds_inv _ _ _ _ Ho))|rewrite map_app; change (map tree_shape [B]) with [tree_shape B]; rewrite ELs, EB; exact Cm]]. cbv iota.
    erewrite b_ret. 2:{ unfold is_nested_declaration. erewrite b_ret; [|eapply run_load; exact Hn]. erewrite b_ret; [|reflexivity]. rewrite not_nested; [reflexivity|]. apply Forall_forall. intros y I. apply in_map_iff in I. destruct I as (a & <- & I). cbn [k_heap]. destruct (Types a I) as (ky & Hy & Ty). rewrite Hy. cbn [n_type mk]. destruct Ty as [Ty|Ty]; intro Q; rewrite Q in Ty; discriminate. }
    cbv iota. erewrite b_ret; [|eapply run_last; [exact Hn|exact Ch|reflexivity|rewrite map_length; change (2 ^ 64) with 18446744073709551616; lia]].
    erewrite b_ret; [|eapply run_is; exact Hkb0]. rewrite Tkb0. change (ntype_eqb OPEN_CURLYBRACKET OPEN_CURLYBRACKET) with true. cbv iota.
    unfold compile_qualified_rule. erewrite b_ret; [|eapply run_size; [exact Hn|exact Ch]]. erewrite b_ret; [|eapply run_pos; exact Hn].
    replace (Z.of_nat (length (c_ch (with_ch c (map top (L0 :: Ls0) ++ [top B])))) <=? 1) with false by (cbn [c_ch with_ch map app length]; rewrite app_length; cbn [length]; lia).
    rewrite Rk. rewrite (b_ret _ _ _ _ _ E2). cbn [negb]. cbv iota.
    assert (LA : (length As <= length ss)%nat). { rewrite <- (map_length tree_shape As), SA, map_length. now apply selectors_length. }
    erewrite b_ret; [|eapply run_last; [exact Hn2|exact Ch|reflexivity|rewrite map_length; change (2 ^ 64) with 18446744073709551616; rewrite <- ELs, map_length in LA; lia]].
    erewrite b_ret; [|eapply run_empty; [exact Hkb|rewrite Tkb; reflexivity]].
    assert (Nk : c_ch kb <> []). { pose proof (holds_top _ _ HB2) as Q. rewrite Hkb in Q. injection Q as Q. rewrite Q. cbn [c_ch with_ch]. clear - EB. destruct B as [b0 cb0 kk]. cbn [tree_shape kids] in *. injection EB as _ _ _ _ EB. destruct kk; [discriminate|discriminate]. }
    destruct (c_ch kb) as [|kb1 kbl]; [congruence|]. cbv iota. exact E3.
  - constructor; [rewrite map_app; exact Hn3|]. apply Forall_app. split; [exact HA3|]. constructor; [exact HB3|constructor].
  - cbn [tree_shape]. rewrite map_app, SA. cbn [map]. rewrite SB, Tn, Sn, In0, Fn. unfold done_rule. destruct (r_decls r) as [|? [|? ?]]; reflexivity.
  - reflexivity.
  - destruct K2 as (L2 & K2). destruct K3 as (L3 & K3). split; [lia|]. intros q Lq Nq. cbn [nodes] in Nq. rewrite flat_map_app in Nq. cbn [flat_map] in Nq. rewrite app_nil_r in Nq. rewrite K3; [apply K2; [exact Lq|]|lia|].
    + intros [<-|[]]. apply Nq. now left.
    + intro I. apply Nq. right. apply in_or_app. now right.
  - cbn [nodes]. rewrite !flat_map_app. cbn [flat_map]. rewrite !app_nil_r. intros a [<-|I]; [left; now left|]. apply in_app_or in I. destruct I as [I|I]; [right; left; now apply FA|].
    destruct K2 as (L2 & K2). destruct (FB a I) as [Q|[Q|Q]]; [left; right; apply in_or_app; now right|right; left; lia|right; right; exact Q].
Qed.

(** ** The style sheet *)
Lemma tokens_calm (l : list shape) : Forall (fun s => sh_kids s = [] /\ token_type (sh_type s) = true) l -> Forall calm l.
Proof. apply Forall_impl. intros [t s i f k] (A & B). cbn in *. subst. now constructor. Qed.
Lemma decl_calm d s : decl_ok d -> decl_shape d s -> calm s.
Proof.
  intros (_ & _ & _ & Fg) (l & L & ->). unfold inner. apply calm_box; [reflexivity| |].
  - destruct L as (a & b & -> & (c & e & -> & -> & _) & _). discriminate.
  - apply tokens_calm. revert l L. apply WholeParse.every_then; [apply WholeParse.every_then; [apply WholeParse.every_this; repeat constructor|apply WholeParse.every_then; [apply WholeParse.every_spaced; split; reflexivity|]]|].
    + apply (groups_every_ok value_ok); [split; reflexivity|split; reflexivity| |exact Fg]. intros [w|n u|w] Ov; [split; reflexivity|split; reflexivity|destruct Ov].
    + apply WholeParse.every_this. unfold flag_leaves. destruct (d_important d); repeat constructor.
Qed.
Lemma rule_calm r s : rule_ok r -> rule_shape r s -> calm s.
Proof.
  intros Ok (sel & ds & L & Fd & ->). unfold inner. apply calm_box; [reflexivity|destruct sel; discriminate|]. apply Forall_app. split.
  - apply tokens_calm. rewrite Forall_forall. intros x I. pose proof (selector_bare r sel L) as B. rewrite Forall_forall in B. split; [apply (B x I)|]. apply (selector_types r sel _ L) in I. destruct (sh_type x); try discriminate I; reflexivity.
  - constructor; [|constructor]. apply calm_box; [reflexivity|discriminate|]. constructor; [|constructor]. destruct Ok as (_ & _ & Ne & Od).
    assert (Cs : Forall calm ds) by (clear - Fd Od; induction Fd as [|d s l ss H F IH]; [constructor|]; apply Forall_cons_iff in Od; destruct Od as (O1 & O2); constructor; [eapply decl_calm; [exact O1|exact H]|now apply IH]).
    destruct ds as [|d1 [|d2 l]]; [inversion Fd; congruence| |].
    + now inversion Cs.
    + unfold listed, inner. apply calm_box; [reflexivity|discriminate|exact Cs].
Qed.
Lemma sheet_calm l s : l <> [] -> Forall rule_ok l -> sheet_shape l s -> calm s.
Proof.
  intros Ne F (rs & Fr & ->). unfold inner. apply calm_box; [reflexivity|intros ->; inversion Fr; congruence|]. clear Ne. induction Fr as [|r s l rs H Fr IH]; [constructor|]. inversion F; subst. constructor; [eapply rule_calm; eassumption|auto].
Qed.
Lemma calm_nodes h T a : holds h T -> calm (tree_shape T) -> In a (nodes T) -> exists c, nth_error h a = Some c /\ (token_type (c_type c) = true \/ box_type (c_type c) = true).
Proof.
  induction T as [b c l IH] using tree_rect'. intros H Ca I. pose proof (holds_inv _ _ _ _ H) as (Hb & Hl). cbn [nodes In] in I. destruct I as [<-|I].
  - eexists. split; [exact Hb|]. apply calm_type in Ca. exact Ca.
  - apply in_flat_map in I. destruct I as (T & IT & Ia). rewrite Forall_forall in IH, Hl. apply (IH T IT (Hl T IT)); [|exact Ia]. cbn [tree_shape] in Ca. inversion Ca as [? ? ? ? _ Q|? ? ? ? ? _ _ Q]; subst; [destruct l; [destruct IT|discriminate]|]. rewrite Forall_forall in Q. apply Q. now apply in_map.
Qed.
Lemma calm_not_new t : token_type t = true \/ box_type t = true -> ~ new_type t.
Proof. intros H [-> | ->]; destruct H; discriminate. Qed.

Lemma rules_loop o k x root kr F m ps : r_selector k = selector_pass o -> c_type kr = LIST ->
  forall rs rest don h g, nth_error h root = Some kr -> c_ch kr = map top (don ++ rest) -> Forall (holds h) don -> Forall (holds h) rest -> Forall2 rule_shape rs (map tree_shape rest) -> Forall rule_ok rs ->
  Forall (fun r => Forall (fun d => r_slash k (d_name d) = false) (r_decls r)) rs -> NoDup (root :: flat_map nodes rest) -> (forall a, In a (flat_map nodes don) -> ~ In a (flat_map nodes rest)) ->
  Forall (fun T => Z.of_nat (shape_size (tree_shape T)) < 18446744073709551616 /\ (2 * shape_size (tree_shape T) + 4 < F)%nat) rest -> (length rest < g)%nat ->
  exists h' done', result_loop true (fun r child => run k (S (S F)) Compile (push x root) r child) root g (Z.of_nat (length don)) None (mkK h m ps) = Ret None (mkK h' m ps)
    /\ nth_error h' root = Some kr /\ Forall (holds h') (don ++ done') /\ map tree_shape done' = map done_rule rs /\ map top done' = map top rest.
Proof.
  intros Rk Tr. assert (Ch : has_children (c_type kr) = true) by (rewrite Tr; reflexivity).
  induction rs as [|r rs IH]; intros rest don h g Hr Ec Hd Ho Es Ok Sl Nd Dj Sz Lg; destruct rest as [|T rest]; try solve [inversion Es]; (destruct g as [|g]; [cbn [length] in Lg; lia|]); cbn [result_loop].
  - exists h, []. erewrite b_ret; [|eapply run_size; [exact Hr|exact Ch]]. rewrite Ec, !app_nil_r, map_length, Z.leb_refl. cbn [orb]. split; [reflexivity|]. split; [exact Hr|]. split; [exact Hd|]. split; reflexivity.
  - cbn [map] in Es. inversion Es as [|? ? ? ? E1 E2]; subst. inversion Ho as [|? ? HT Hrest]; subst. inversion Ok as [|? ? Ok1 Ok2]; subst. inversion Sl as [|? ? Sl1 Sl2]; subst. inversion Sz as [|? ? (Z1 & Z2) Sz2]; subst.
    cbn [flat_map] in Nd, Dj. assert (Nr : ~ In root (nodes T)) by (inversion Nd as [|? ? Q _]; subst; intro I; apply Q, in_or_app; now left).
    assert (NT : NoDup (nodes T) /\ (forall a, In a (nodes T) -> ~ In a (flat_map nodes rest)) /\ NoDup (root :: flat_map nodes rest)).
    { apply NoDup_cons_iff in Nd. destruct Nd as (N1 & N2). clear - N1 N2. split; [|split].
      - revert N2. generalize (flat_map nodes rest). intro l. clear. induction (nodes T) as [|y t IHt]; intro N; [constructor|]. inversion N as [|? ? Q1 Q2]; subst. constructor; [intro I; apply Q1, in_or_app; now left|auto].
      - clear N1. induction (nodes T) as [|y t IHt]; [intros ? []|]. inversion N2 as [|? ? Q1 Q2]; subst. intros a [<-|I]; [intro J; apply Q1, in_or_app; now right|]. now apply IHt.
      - constructor; [intro I; apply N1, in_or_app; now right|]. clear N1. induction (nodes T); [exact N2|]. inversion N2; subst. auto. }
    destruct NT as (NT & Nrest & Nd2).
    pose proof (rule_calm r _ Ok1 E1) as Cr. assert (Cr2 : Forall calm (sh_kids (tree_shape T))). { destruct Cr as [t0 s0 i0 f0 Q|t0 s0 i0 f0 l0 Q0 Q1 Q2]; cbn [sh_kids]; [constructor|exact Q2]. }
    destruct (rule_compiles o k (push x root) F h m ps T r Rk HT E1 Cr2 Ok1 Sl1 NT Z1 Z2) as (h1 & T' & E & HT' & ST & TT & K & Fr).
    erewrite b_ret; [|eapply run_size; [exact Hr|exact Ch]]. rewrite Ec, map_length, app_length. cbn [length]. replace (Z.of_nat (length don + S (length rest)) <=? Z.of_nat (length don)) with false by lia. cbn [orb andb].
    assert (Nth : nth_error (c_ch kr) (length don) = Some (top T)) by (rewrite Ec, map_app; cbn [map]; rewrite <- (map_length top don); apply nth_mid).
    erewrite b_ret; [|eapply run_child; [exact Hr|exact Ch|rewrite Nat2Z.id; exact Nth|lia]].
    rewrite (b_ret _ _ _ _ _ E).
    assert (Hr1 : nth_error h1 root = Some kr) by (destruct K as (_ & K); rewrite K; [exact Hr|now apply nth_lt in Hr|exact Nr]).
    erewrite b_ret; [|eapply step_over_same; [exact Hr1|exact Ch|exact Nth]].
    assert (Hrest1 : Forall (holds h1) rest) by (eapply holds_all_keeps; [exact K|intros a I J; exact (Nrest a J I)|exact Hrest]).
    destruct (IH rest (don ++ [T']) h1 g Hr1) as (h' & done' & E' & Hr' & Hd' & Sd & Td).
    { rewrite Ec, !map_app. cbn [map]. rewrite TT, <- app_assoc. reflexivity. }
    { apply Forall_app. split; [|constructor; [exact HT'|constructor]]. eapply holds_all_keeps; [exact K|intros a I J; apply (Dj a I), in_or_app; now left|exact Hd]. }
    { exact Hrest1. } { exact E2. } { exact Ok2. } { exact Sl2. } { exact Nd2. }
    { intros a I J. rewrite flat_map_app in I. apply in_app_or in I. destruct I as [I|I]; [apply (Dj a I), in_or_app; now right|]. cbn [flat_map] in I. rewrite app_nil_r in I.
      destruct (Fr a I) as [Q|[Q|(c & Hc & Q)]]; [exact (Nrest a Q J)| |].
      - apply in_flat_map in J. destruct J as (R & IR & Ja). rewrite Forall_forall in Hrest. pose proof (holds_lt _ _ _ (Hrest R IR) Ja). lia.
      - apply in_flat_map in J. destruct J as (R & IR & Ja). rewrite Forall_forall in Hrest1. destruct (calm_nodes h1 R a (Hrest1 R IR)) as (c' & Hc' & Tc); [|exact Ja|].
        + clear - IR E2 Ok2. revert E2 Ok2. revert rs. induction rest as [|R0 rest IHr]; intros rs E2 Ok2; [destruct IR|]. cbn [map] in E2. inversion E2 as [|q ? rs' ? Q1 Q2]; subst. inversion Ok2; subst. destruct IR as [->|IR]; [eapply rule_calm; eassumption|eapply IHr; eassumption].
        + apply (calm_not_new _ Tc). assert (c = c') by congruence. now subst. }
    { exact Sz2. } { cbn [length] in Lg. lia. }
    rewrite app_length in E'. cbn [length] in E'. replace (Z.of_nat (S (length don))) with (Z.of_nat (length don + 1)) by lia.
    exists h', (T' :: done'). split; [exact E'|]. split; [exact Hr'|]. split; [rewrite <- app_assoc in Hd'; exact Hd'|]. cbn [map]. rewrite ST, TT, Sd, Td. split; reflexivity.
Qed.

Lemma sheet_compiles o k x F h m ps T l : r_selector k = selector_pass o -> holds h T -> sheet_shape l (tree_shape T) -> Forall rule_ok l ->
  Forall (fun r => Forall (fun d => r_slash k (d_name d) = false) (r_decls r)) l -> NoDup (nodes T) -> Z.of_nat (shape_size (tree_shape T)) < 18446744073709551616 -> (2 * shape_size (tree_shape T) + 8 < F)%nat ->
  exists h' T', run k F Compile x None (top T) (mkK h m ps) = Ret None (mkK h' m ps) /\ holds h' T' /\ tree_shape T' = done_sheet l /\ top T' = top T.
Proof.
  intros Rk Ho (rs & Frs & Es) Ok Sl Nd Zs Lf. rewrite Es in Zs, Lf. destruct T as [n c kk]. cbn [tree_shape top] in *. pose proof (holds_inv _ _ _ _ Ho) as (Hn & Hk). unfold inner in Es. injection Es as Tn Sn In0 Fn Kn.
  destruct F as [|[|[|F]]]; [lia..|]. unfold inner in Zs, Lf. cbn [shape_size] in Zs, Lf. subst rs.
  assert (Sz : Forall (fun T => (shape_size (tree_shape T) <= list_sum (map shape_size (map tree_shape kk)))%nat) kk).
  { apply Forall_forall. intros r I. apply sum_in. now apply in_map. }
  assert (Ln : (length kk <= list_sum (map shape_size (map tree_shape kk)))%nat). { pose proof (sum_length (map tree_shape kk)). rewrite map_length in *. lia. }
  destruct (rules_loop o k x n (with_ch c (map top kk)) F m ps Rk Tn l kk [] h (S (S F)) Hn eq_refl ltac:(constructor) Hk Frs Ok Sl Nd ltac:(intros a [])) as (h' & done' & E & Hr & Hd & Sd & Td).
  { revert Sz. apply Forall_impl. intros r I. lia. } { lia. }
  exists h', (Tree n c done'). split; [|split; [|split; [|reflexivity]]].
  - change (run k (S (S (S F))) Compile x None n (mkK h m ps)) with ((t <- type_of n ;; match t with LIST | FRAME => result_loop true (fun r child => run k (S (S F)) Compile (push x n) r child) n (S (S F)) 0 None | DECLARATION | COMMENT => ret None | COMPONENT_VALUE => run k (S (S F)) Value (push x n) None n | AT_KEYWORD => run k (S (S F)) At (push x n) None n | _ => throw XLogic end) (mkK h m ps)).
    erewrite b_ret; [|eapply run_type; exact Hn]. cbn [c_type with_ch]. rewrite Tn. cbv iota. exact E.
  - constructor; [rewrite Td; exact Hr|exact Hd].
  - cbn [tree_shape]. rewrite Tn, Sn, In0, Fn, Sd. reflexivity.
Qed.
