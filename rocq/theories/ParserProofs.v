(** * Proofs about the parser *)

From Coq Require Import String ZArith List Bool Lia Arith.
From Coq Require Import Floats.SpecFloat.
From Verif Require Import Base Parser ParseSpec.
Import ListNotations.
Open Scope string_scope. Open Scope list_scope. Open Scope nat_scope.

Notation flats := (flat_map tokens_of).
Notation sig := significant_tokens.
Notation toks := (fun s => length (ps_toks s)).

(** Running [m] from [s] returns [a] after eating the tokens [e] and sending
    the messages [w]. *)
Definition runs {A} (m : P A) (s : pstate) (Q : A -> list node -> list msg -> pstate -> Prop) : Prop :=
  exists a e w s', m s = Ret a s' /\ ps_toks s = e ++ ps_toks s' /\ ps_msgs s' = ps_msgs s ++ w
    /\ ps_eof s' = ps_eof s /\ Forall (fun m => m_level m = LError) w /\ Q a e w s'.

Lemma runs_ret {A} (x : A) s (Q : A -> list node -> list msg -> pstate -> Prop) : Q x [] [] s -> runs (ret x) s Q.
Proof. intro H. exists x, [], [], s. rewrite app_nil_r. auto 10. Qed.
Lemma runs_bind {A B} (m : P A) (f : A -> P B) s Q :
  runs m s (fun a e1 w1 s1 => runs (f a) s1 (fun b e2 w2 s2 => Q b (e1 ++ e2) (w1 ++ w2) s2)) -> runs (bind m f) s Q.
Proof.
  intros (a & e1 & w1 & s1 & R1 & T1 & M1 & E1 & F1 & b & e2 & w2 & s2 & R2 & T2 & M2 & E2 & F2 & H).
  exists b, (e1 ++ e2), (w1 ++ w2), s2. unfold bind. rewrite R1, R2, T1, T2, M2, M1, E2, !app_assoc.
  assert (F : Forall (fun m => m_level m = LError) (w1 ++ w2)) by (apply Forall_app; auto). auto 10.
Qed.
Lemma runs_weaken {A} (m : P A) s (Q R : A -> list node -> list msg -> pstate -> Prop) :
  runs m s Q -> (forall a e w s', ps_toks s = e ++ ps_toks s' -> Q a e w s' -> R a e w s') -> runs m s R.
Proof. intros (a & e & w & s' & R1 & T1 & M1 & E1 & F1 & H) K. exists a, e, w, s'. repeat split; auto. Qed.

Definition head (s : pstate) : node := match ps_toks s with [] => mk EOF_TOKEN (ps_eof s) | t :: _ => t end.
Definition tail (s : pstate) : pstate := mkPS (tl (ps_toks s)) (ps_eof s) (ps_msgs s).

Lemma runs_last s (Q : node -> list node -> list msg -> pstate -> Prop) : Q (head s) [] [] s -> runs last_token s Q.
Proof. intro H. exists (head s), [], [], s. rewrite app_nil_r. unfold last_token, head. auto 10. Qed.
(** Reading past a token which is there. *)
Lemma runs_next s t r (Q : node -> list node -> list msg -> pstate -> Prop) : ps_toks s = t :: r ->
  Q (head (tail s)) [t] [] (tail s) -> runs next_token s Q.
Proof.
  intros E H. exists (head (tail s)), [t], [], (tail s). unfold next_token, last_token. rewrite E. cbn [tl app].
  unfold tail at 2 3 4. cbn [ps_toks ps_eof ps_msgs]. rewrite E, app_nil_r. unfold head, tail. cbn. rewrite E. repeat split; auto.
  unfold head, tail in H. cbn in H. rewrite E in H. exact H.
Qed.
Arguments runs_next s t r {Q} _ _.
Lemma runs_next_any s (Q : node -> list node -> list msg -> pstate -> Prop) :
  (forall e, ps_toks s = e ++ tl (ps_toks s) -> length e <= 1 -> Q (head (tail s)) e [] (tail s)) -> runs next_token s Q.
Proof.
  intro H. destruct (ps_toks s) as [|t r] eqn:E.
  - exists (head (tail s)), [], [], (tail s).
    assert (K : Q (head (tail s)) [] [] (tail s)) by (apply H; auto).
    repeat split; auto.
    + unfold tail. cbn. now rewrite E.
    + cbn. now rewrite app_nil_r.
  - apply (runs_next s t r); auto.
Qed.
Lemma runs_report s p text (Q : unit -> list node -> list msg -> pstate -> Prop) :
  Q tt [] [mkMsg LError p text] (mkPS (ps_toks s) (ps_eof s) (ps_msgs s ++ [mkMsg LError p text])) -> runs (report p text) s Q.
Proof. intro H. eexists tt, [], [_], _. split; [reflexivity|]. repeat split; auto. Qed.

(** ** Lists of nodes *)

Lemma is_true n t : is n t = true -> n_type n = t.
Proof. apply ntype_eqb_spec. Qed.
Lemma is_false n t : is n t = false -> n_type n <> t.
Proof. apply ntype_eqb_neq. Qed.
Lemma ws_tokens n : is_ws n = true -> tokens_of n = [].
Proof. intro H. apply is_true in H. destruct n. cbn in *. now subst. Qed.

Lemma lastn_spec l : match lastn l with None => l = [] | Some x => exists r, l = r ++ [x] end.
Proof.
  unfold lastn. destruct (rev l) as [|x r] eqn:E.
  - rewrite <- (rev_involutive l), E. reflexivity.
  - exists (rev r). rewrite <- (rev_involutive l), E. reflexivity.
Qed.
Lemma flats_drop_front l : flats (drop_front l) = flats l.
Proof. induction l as [|x l IH]; cbn; auto. destruct (is_ws x) eqn:E; auto. now rewrite IH, (ws_tokens x E). Qed.
Lemma flats_drop_front1 l : flats (drop_front1 l) = flats l.
Proof. destruct l as [|x l]; cbn; auto. destruct (is_ws x) eqn:E; auto. now rewrite (ws_tokens x E). Qed.
Lemma drop_front_split l : exists w, l = w ++ drop_front l /\ Forall (fun x => is_ws x = true) w.
Proof.
  induction l as [|x l (w & E & F)]; [exists []; auto|]. cbn. destruct (is_ws x) eqn:W.
  - exists (x :: w). cbn. rewrite <- E. auto.
  - exists []. auto.
Qed.
Lemma drop_front1_split l : exists w, l = w ++ drop_front1 l /\ Forall (fun x => is_ws x = true) w.
Proof.
  destruct l as [|x l]; [exists []; auto|]. cbn. destruct (is_ws x) eqn:W; [exists [x]|exists []]; auto.
Qed.
Lemma flats_ws w : Forall (fun x => is_ws x = true) w -> flats w = [].
Proof. induction 1 as [|x w H _ IH]; cbn; auto. now rewrite (ws_tokens x H). Qed.
Lemma sig_ws w : Forall (fun x => is_ws x = true) w -> sig w = [].
Proof. induction 1 as [|x w H _ IH]; cbn; auto. apply is_true in H. rewrite H. cbn. exact IH. Qed.
Lemma drop_back_split l : exists w, l = drop_back l ++ w /\ Forall (fun x => is_ws x = true) w.
Proof.
  unfold drop_back. destruct (drop_front_split (rev l)) as (w & E & F). exists (rev w).
  split; [|now apply Forall_rev]. rewrite <- rev_app_distr, <- E. now rewrite rev_involutive.
Qed.
Lemma drop_back1_split l : exists w, l = drop_back1 l ++ w /\ Forall (fun x => is_ws x = true) w.
Proof.
  unfold drop_back1. destruct (drop_front1_split (rev l)) as (w & E & F). exists (rev w).
  split; [|now apply Forall_rev]. rewrite <- rev_app_distr, <- E. now rewrite rev_involutive.
Qed.
Lemma flats_drop_back l : flats (drop_back l) = flats l.
Proof. destruct (drop_back_split l) as (w & E & F). rewrite E at 2. rewrite flat_map_app, (flats_ws w F), app_nil_r. auto. Qed.
Lemma flats_drop_back1 l : flats (drop_back1 l) = flats l.
Proof. destruct (drop_back1_split l) as (w & E & F). rewrite E at 2. rewrite flat_map_app, (flats_ws w F), app_nil_r. auto. Qed.
Lemma flats_add l x : n_type x <> EOF_TOKEN -> flats (add_ch l x) = flats l ++ tokens_of x.
Proof.
  intro H. unfold add_ch. destruct (is x EOF_TOKEN) eqn:E; [apply is_true in E; contradiction|].
  assert (A : flats (l ++ [x]) = flats l ++ tokens_of x) by (rewrite flat_map_app; cbn; now rewrite app_nil_r).
  destruct (is_ws x) eqn:W; [|exact A].
  destruct (lastn l) as [b|]; [|exact A]. destruct (is_ws b); [|exact A].
  now rewrite (ws_tokens x W), app_nil_r.
Qed.

(** All the nodes of the tree are fine: no closing bracket. *)
Fixpoint tree_ok (n : node) : bool := negb (closing (n_type n)) && forallb tree_ok (n_ch n).
Notation oks := (forallb tree_ok).
Lemma oks_app a b : oks (a ++ b) = oks a && oks b.
Proof. apply forallb_app. Qed.
Lemma oks_drop_front l : oks l = true -> oks (drop_front l) = true.
Proof. destruct (drop_front_split l) as (w & E & _). rewrite E at 1. rewrite oks_app. intro H. now apply andb_true_iff in H. Qed.
Lemma oks_drop_front1 l : oks l = true -> oks (drop_front1 l) = true.
Proof. destruct (drop_front1_split l) as (w & E & _). rewrite E at 1. rewrite oks_app. intro H. now apply andb_true_iff in H. Qed.
Lemma oks_drop_back l : oks l = true -> oks (drop_back l) = true.
Proof. destruct (drop_back_split l) as (w & E & _). rewrite E at 1. rewrite oks_app. intro H. now apply andb_true_iff in H. Qed.
Lemma oks_drop_back1 l : oks l = true -> oks (drop_back1 l) = true.
Proof. destruct (drop_back1_split l) as (w & E & _). rewrite E at 1. rewrite oks_app. intro H. now apply andb_true_iff in H. Qed.
Lemma oks_add l x : oks l = true -> tree_ok x = true -> oks (add_ch l x) = true.
Proof.
  intros L X. unfold add_ch. assert (A : oks (l ++ [x]) = true) by (rewrite oks_app, L; cbn; now rewrite X).
  destruct (is x EOF_TOKEN); auto. destruct (is_ws x); auto. destruct (lastn l) as [b|]; auto. now destruct (is_ws b).
Qed.

Definition group (n : node) : Prop := n_type n = LIST \/ n_type n = COMPONENT_VALUE.
Lemma group_tokens n : group n -> tokens_of n = flats (n_ch n).
Proof. destruct n. unfold group. cbn. now intros [->| ->]. Qed.
Lemma group_ok n : group n -> tree_ok n = oks (n_ch n).
Proof. destruct n. unfold group. cbn. now intros [->| ->]. Qed.
Lemma n_ch_set n l : n_ch (set_ch n l) = l.
Proof. now destruct n. Qed.
Lemma n_type_set n l : n_type (set_ch n l) = n_type n.
Proof. now destruct n. Qed.
Lemma n_type_set_str n l : n_type (set_str n l) = n_type n.
Proof. now destruct n. Qed.
Lemma view_set n l : view (set_ch n l) = view n.
Proof. now destruct n. Qed.

Lemma finish_group rp cp don cur : Forall (fun x => n_type x = COMPONENT_VALUE) don -> group (cv_finish rp cp don cur).
Proof.
  intro H. unfold cv_finish. set (c := drop_back1 _).
  set (all := match c with [] => don | _ => don ++ [set_ch (mk COMPONENT_VALUE cp) c] end).
  assert (F : Forall (fun x => n_type x = COMPONENT_VALUE) all).
  { unfold all. destruct c; auto. apply Forall_app. split; auto. }
  destruct all as [|x [|y r]]; [left; reflexivity| |left; reflexivity].
  inversion F. right. auto.
Qed.
Lemma finish_tokens rp cp don cur : Forall (fun x => n_type x = COMPONENT_VALUE) don ->
  tokens_of (cv_finish rp cp don cur) = flats don ++ flats cur.
Proof.
  intro H. unfold cv_finish. set (c := drop_back1 _).
  assert (C : flats c = flats cur) by (unfold c; now rewrite flats_drop_back1, flats_drop_front1).
  set (all := match c with [] => don | _ => don ++ [set_ch (mk COMPONENT_VALUE cp) c] end).
  assert (F : flats all = flats don ++ flats cur).
  { unfold all. destruct c as [|x c]; [rewrite <- C; cbn; now rewrite app_nil_r|].
    rewrite flat_map_app, <- C. cbn. now rewrite app_nil_r. }
  destruct all as [|x [|y r]]; rewrite <- F; cbn; rewrite ?app_nil_r; auto.
Qed.
Lemma finish_ok rp cp don cur : oks don = true -> oks cur = true -> tree_ok (cv_finish rp cp don cur) = true.
Proof.
  intros D U. unfold cv_finish. set (c := drop_back1 _).
  assert (C : oks c = true) by (unfold c; now apply oks_drop_back1, oks_drop_front1).
  set (all := match c with [] => don | _ => don ++ [set_ch (mk COMPONENT_VALUE cp) c] end).
  assert (F : oks all = true).
  { unfold all. destruct c as [|x c]; auto. rewrite oks_app, D. cbn. cbn in C. now rewrite C. }
  destruct all as [|x [|y r]]; auto. cbn in F. now rewrite andb_true_r in F.
Qed.

(** Tests on lists of children never go out of range. *)
Lemma child_is_some l i t : i < length l -> exists b, child_is l i t = Some b.
Proof.
  intro H. unfold child_is. destruct (nth_error l i) eqn:E; [eauto|]. apply nth_error_None in E. lia.
Qed.
Lemma is_variable_set_some l b : exists r, is_variable_set l b = Some r.
Proof.
  unfold is_variable_set. destruct (Nat.ltb_spec (length l) 3) as [L|L]; [eauto|].
  destruct (child_is_some l 0 VARIABLE ltac:(lia)) as [v ->]. cbn [obind].
  destruct (child_is_some l 0 VARIABLE_FUNCTION ltac:(lia)) as [v2 E2]. rewrite E2.
  destruct v; cbn [obind]; [|destruct v2; cbn [negb]; [|eauto]]; cbn [negb];
  (destruct (child_is_some l 1 WHITESPACE ltac:(lia)) as [w ->]; cbn [obind];
   destruct (child_is_some l (if w then 2 else 1) COLON ltac:(destruct w; lia)) as [c ->]; cbn [obind];
   destruct (negb c); [eauto|]; destruct (negb b); [eauto|];
   match goal with |- context [obind (if ?x <? ?y then _ else _) _] => destruct (Nat.ltb_spec x y) as [L2|L2] end;
   [destruct (child_is_some l _ WHITESPACE L2) as [w2 ->]|]; cbn [obind];
   match goal with |- context [if ?x <? ?y then _ else _] => destruct (Nat.ltb_spec x y) as [L3|L3] end; eauto; now apply child_is_some).
Qed.
Lemma nested_loop_some l : l <> [] -> exists r, nested_loop l = Some r.
Proof.
  induction l as [|x l IH]; [contradiction|]. intros _. cbn. destruct l as [|y l].
  - destruct (n_type x); eauto.
  - destruct (IH ltac:(discriminate)) as [r E]. rewrite E. destruct (n_type x); eauto.
Qed.
Lemma is_nested_some l : exists r, is_nested_declaration l = Some r.
Proof.
  unfold is_nested_declaration. destruct (Nat.ltb_spec (length l) 3) as [L|L]; [eauto|].
  destruct (child_is_some l 0 IDENTIFIER ltac:(lia)) as [i ->]. cbn [obind]. destruct (negb i); [eauto|].
  pose proof (lastn_spec l) as LS. destruct (lastn l) as [x|]; [|subst l; cbn in L; lia]. cbn [obind].
  destruct (negb (is x OPEN_CURLYBRACKET)); [eauto|].
  destruct (child_is_some l 1 WHITESPACE ltac:(lia)) as [w ->]. cbn [obind].
  destruct (child_is_some l (if w then 2 else 1) COLON ltac:(destruct w; lia)) as [c ->]. cbn [obind].
  destruct (negb c); [eauto|].
  match goal with |- context [if ?x <=? ?y then _ else _] => destruct (Nat.leb_spec x y) as [L2|L2] end; [eauto|].
  destruct (child_is_some l _ WHITESPACE L2) as [w2 ->]. cbn [obind].
  destruct (child_is_some l _ OPEN_CURLYBRACKET L2) as [o ->]. cbn [obind].
  destruct (w2 || o); [eauto|].
  destruct (child_is_some l _ FUNCTION L2) as [f ->]. cbn [obind].
  match goal with |- context [f && (?x <=? ?y)] => destruct (f && (x <=? y)) eqn:EF end; [eauto|].
  apply nested_loop_some. intro E. apply (f_equal (@length node)) in E. rewrite skipn_length in E. cbn [length] in E.
  destruct f; cbn [andb] in EF; [apply Nat.leb_gt in EF|]; lia.
Qed.

(** ** The parser *)

Lemma sig_app a b : sig (a ++ b) = sig a ++ sig b.
Proof. apply flat_map_app. Qed.

Definition good_toks (s : pstate) : Prop := Forall token (ps_toks s).

(** No error: the tokens eaten are those of the trees. *)
Definition kept (w : list msg) (before : list tview) (e : list node) (after : list tview) : Prop :=
  w = [] -> before ++ sig e = after.

Definition cv_post (fl : cflags) (s : pstate) (don cur : list node) (r : node) (e : list node) (w : list msg) (s' : pstate) : Prop :=
  group r /\ (stops fl (n_type (head s)) = false -> toks s' < toks s)
  /\ (w = [] -> tokens_of r = flats don ++ flats cur ++ sig e)
  /\ (w = [] -> oks don = true -> oks cur = true -> tree_ok r = true).
Definition tree_post (n : node) (s : pstate) (r : node) (e : list node) (w : list msg) (s' : pstate) : Prop :=
  n_type r = n_type n /\ toks s' < toks s
  /\ (w = [] -> tokens_of r = sig e) /\ (w = [] -> tree_ok r = true).
Definition bl_post (b : node) (s : pstate) (r : node) (e : list node) (w : list msg) (s' : pstate) : Prop :=
  n_type r = n_type b
  /\ (w = [] -> tokens_of r = view b :: flats (n_ch b) ++ sig e) /\ (w = [] -> oks (n_ch b) = true -> tree_ok r = true).

Definition spec_cv f := forall fl rp cp don cur s, 3 * toks s + 1 <= f -> good_toks s ->
  Forall (fun x => n_type x = COMPONENT_VALUE) don -> runs (cv_loop f fl rp cp don cur) s (cv_post fl s don cur).
Definition spec_at f := forall n s, 3 * toks s - 1 <= f -> good_toks s -> n_type n = AT_KEYWORD -> head s = n -> ps_toks s <> [] ->
  runs (at_rule f n) s (tree_post n s).
Definition spec_val f := forall n s, 3 * toks s <= f -> good_toks s -> stops (mkFlags false false) (n_type n) = false -> n_type n <> SEMICOLON ->
  n_type n <> AT_KEYWORD -> n_type n <> EXCLAMATION ->
  head s = n -> ps_toks s <> [] -> runs (component_value f n) s (tree_post n s).
Definition spec_block f := forall n c s, 3 * toks s - 1 <= f -> good_toks s -> closes (n_type n) = Some c -> n_type n <> OPEN_CURLYBRACKET ->
  head s = n -> ps_toks s <> [] -> runs (block f n c) s (tree_post n s).
Definition spec_bl f := forall b s, 3 * toks s + 2 <= f -> good_toks s -> n_type b = OPEN_CURLYBRACKET ->
  runs (block_list f b) s (bl_post b s).

Lemma toks_head s : ps_toks s <> [] -> exists r, ps_toks s = head s :: r.
Proof. unfold head. destruct (ps_toks s); [contradiction|eauto]. Qed.
Lemma head_eof s : n_type (head s) <> EOF_TOKEN -> ps_toks s <> [].
Proof. unfold head. destruct (ps_toks s); [|discriminate]. intro H. now contradiction H. Qed.
Lemma good_tail s : good_toks s -> good_toks (tail s).
Proof. unfold good_toks, tail. cbn. destruct (ps_toks s); auto. intro H. now inversion H. Qed.
Lemma good_suffix s s' e : good_toks s -> ps_toks s = e ++ ps_toks s' -> good_toks s'.
Proof. unfold good_toks. intros H E. rewrite E in H. now apply Forall_app in H. Qed.
Lemma good_head s : good_toks s -> ps_toks s <> [] -> token (head s).
Proof. intros H N. destruct (toks_head s N) as [r E]. unfold good_toks in H. rewrite E in H. now inversion H. Qed.
Lemma toks_tail s : ps_toks s <> [] -> toks (tail s) = toks s - 1.
Proof. unfold tail. cbn. destruct (ps_toks s); [contradiction|]. cbn. lia. Qed.

Lemma runs_skip_space s (Q : node -> list node -> list msg -> pstate -> Prop) :
  (forall e s', ps_toks s = e ++ ps_toks s' -> sig e = [] -> ps_msgs s' = ps_msgs s -> ps_eof s' = ps_eof s ->
     Q (head s') e [] s') -> runs skip_space s Q.
Proof.
  intro H. unfold skip_space. apply runs_bind, runs_last. destruct (is_ws (head s)) eqn:W.
  - assert (N : ps_toks s <> []) by (apply head_eof; apply is_true in W; rewrite W; discriminate).
    destruct (toks_head s N) as [r E]. apply (runs_next s (head s) r E). cbn [app].
    apply H; auto; cbn; [now rewrite E|]. apply is_true in W. rewrite W. reflexivity.
  - apply runs_ret. apply H; auto.
Qed.
Lemma runs_lift {A} (o : option A) s (Q : A -> list node -> list msg -> pstate -> Prop) b : o = Some b -> Q b [] [] s -> runs (lift o) s Q.
Proof. intros -> H. now apply runs_ret. Qed.

Lemma flat_closed n c l : closes (n_type n) = Some c -> tokens_of (set_ch n l) = view n :: flats l ++ [bare c].
Proof. destruct n. cbn. destruct ty; try discriminate; intro H; injection H as <-; reflexivity. Qed.
Lemma closes_closing t c : closes t = Some c -> closing t = false /\ closing c = true /\ insignificant c = false /\ insignificant t = false.
Proof. destruct t; try discriminate; intro H; injection H as <-; auto. Qed.
Lemma view_close n c t : closes t = Some c -> n_type n = c -> view n = bare c.
Proof. intros H E. destruct n. cbn in E. subst. destruct t; try discriminate; injection H as <-; reflexivity. Qed.
Lemma ok_set n l : closing (n_type n) = false -> oks l = true -> tree_ok (set_ch n l) = true.
Proof. destruct n. cbn. intros -> ->. reflexivity. Qed.

Lemma toks_app s s' e : ps_toks s = e ++ ps_toks s' -> toks s = length e + toks s'.
Proof. intro H. cbn. rewrite H, app_length. reflexivity. Qed.

Lemma step_at f : spec_cv f -> spec_at (S f).
Proof.
  intros IH n s F G T Hn N. cbn [at_rule]. destruct (toks_head s N) as [r E].
  apply runs_bind, (runs_next s _ r E). apply runs_bind.
  eapply runs_weaken.
  { apply IH; [|now apply good_tail|constructor]. pose proof (toks_tail s N). cbn in *. destruct (ps_toks s); [contradiction|cbn in *; lia]. }
  intros c e w s' Te (Gc & Pc & Kc & Oc). cbn [flat_map app] in *.
  assert (L : toks s' < toks s).
  { apply toks_app in Te. rewrite (toks_tail s N) in Te. cbn in *. rewrite E in *. cbn in *. lia. }
  pose proof (lastn_spec (n_ch c)) as LS. destruct (lastn (n_ch c)) as [x|].
  - apply runs_bind, runs_last. apply runs_bind.
    assert (R : forall e2 w2 s2, ps_toks s' = e2 ++ ps_toks s2 -> sig e2 = [] ->
      tree_post n s (set_ch n (n_ch c)) (head s :: e ++ e2) (w ++ w2) s2).
    { intros e2 w2 s2 T2 S2. repeat split.
      - apply n_type_set.
      - apply toks_app in T2. cbn in *. lia.
      - intro W. apply app_eq_nil in W. destruct W as [W _]. specialize (Kc W). rewrite (group_tokens c Gc) in Kc.
        cbn [significant_tokens flat_map]. fold (sig (e ++ e2)). rewrite sig_app, S2, app_nil_r.
        rewrite Hn, T. cbn [insignificant app]. rewrite <- Kc. destruct n. cbn in T. subst. reflexivity.
      - intro W. apply app_eq_nil in W. destruct W as [W _]. specialize (Oc W eq_refl eq_refl). rewrite (group_ok c Gc) in Oc.
        apply ok_set; auto. now rewrite T. }
    destruct (is (head s') SEMICOLON) eqn:ES.
    + assert (N' : ps_toks s' <> []) by (apply head_eof; apply is_true in ES; rewrite ES; discriminate).
      destruct (toks_head s' N') as [r' E']. apply runs_bind, (runs_next s' _ r' E'). apply runs_ret. apply runs_ret.
      cbn [app]. rewrite ?app_nil_r.
      assert (R' := R [head s'] [] (tail s')). rewrite ?app_nil_r in R'. apply R'.
      * cbn. now rewrite E'.
      * apply is_true in ES. cbn. rewrite ES. reflexivity.
    + destruct (is x OPEN_CURLYBRACKET).
      * apply runs_ret. apply runs_ret. cbn [app]. rewrite ?app_nil_r.
        specialize (R [] [] s' eq_refl eq_refl). now rewrite !app_nil_r in R.
      * apply runs_report. apply runs_ret. cbn [app]. rewrite ?app_nil_r.
        specialize (R [] [mkMsg LError (n_pos n) "At '@' command must end with a block or a ';'."]
          (mkPS (ps_toks s') (ps_eof s') (ps_msgs s' ++ [mkMsg LError (n_pos n) "At '@' command must end with a block or a ';'."])) eq_refl eq_refl).
        now rewrite !app_nil_r in R.
  - apply runs_bind, runs_report. apply runs_ret. rewrite !app_nil_r. cbn [app]. repeat split.
    + exact L.
    + intro W. now apply app_eq_nil in W.
    + intro W. now apply app_eq_nil in W.
Qed.

Lemma step_block f : spec_cv f -> spec_block (S f).
Proof.
  intros IH n c s F G T Nc Hn N. cbn [block]. destruct (toks_head s N) as [r E].
  apply runs_bind, (runs_next s _ r E). apply runs_bind.
  eapply runs_weaken.
  { apply IH; [|now apply good_tail|constructor]. pose proof (toks_tail s N). cbn in *. destruct (ps_toks s); [contradiction|cbn in *; lia]. }
  intros k e w s' Te (Gc & Pc & Kc & Oc). cbn [flat_map app] in *.
  assert (L : toks s' < toks s).
  { apply toks_app in Te. rewrite (toks_tail s N) in Te. cbn in *. rewrite E in *. cbn in *. lia. }
  apply runs_bind, runs_skip_space. intros e2 s2 T2 S2 M2 E2. apply runs_bind.
  destruct (closes_closing _ _ T) as (C1 & C2 & C3 & C4).
  destruct (is (head s2) c) eqn:EC.
  - apply is_true in EC.
    assert (N2 : ps_toks s2 <> []) by (apply head_eof; rewrite EC; destruct (n_type n); try discriminate; injection T as <-; discriminate).
    destruct (toks_head s2 N2) as [r2 E2']. apply runs_bind, (runs_next s2 _ r2 E2'). apply runs_ret. apply runs_ret.
    cbn [app]. rewrite ?app_nil_r. repeat split.
    + apply n_type_set.
    + apply toks_app in T2. pose proof (toks_tail s2 N2). cbn in *. lia.
    + intro W. specialize (Kc W). rewrite (group_tokens k Gc) in Kc. rewrite (flat_closed n c _ T), Kc.
      cbn [significant_tokens flat_map]. fold (sig (e ++ e2 ++ [head s2])). rewrite !sig_app, S2.
      rewrite Hn, C4. cbn [app]. do 2 f_equal. cbn. rewrite EC, C3. cbn. now rewrite (view_close _ _ _ T EC).
    + intro W. specialize (Oc W eq_refl eq_refl). rewrite (group_ok k Gc) in Oc. now apply ok_set.
  - apply runs_report. apply runs_ret. cbn [app]. rewrite ?app_nil_r. repeat split.
    + apply n_type_set.
    + apply toks_app in T2. cbn in *. lia.
    + intro W. now apply app_eq_nil in W.
    + intro W. now apply app_eq_nil in W.
Qed.

Lemma step_val f : spec_block f -> spec_bl f -> spec_val (S f).
Proof.
  intros IB IL n s F G St NS NA NE Hn N. cbn [component_value]. destruct (toks_head s N) as [r E].
  assert (D : runs (next_token;;; ret n) s (tree_post n s) \/ closes (n_type n) <> None).
  { destruct (closes (n_type n)) eqn:C; [right; discriminate|left].
    apply runs_bind, (runs_next s _ r E). apply runs_ret. cbn [app]. repeat split.
    - pose proof (toks_tail s N). cbn in *. rewrite E in *. cbn in *. lia.
    - intros _. pose proof (good_head s G N) as Tk. rewrite Hn in Tk. destruct Tk as (K1 & K2 & K3 & K4).
      rewrite Hn. destruct n as [t p b i d st lo ch]. cbn in *. subst ch.
      destruct t; cbn in *; try reflexivity; try discriminate; contradiction.
    - intros _. pose proof (good_head s G N) as Tk. rewrite Hn in Tk. destruct Tk as (K1 & _).
      destruct n as [t p b i d st lo ch]. cbn in *. subst ch. cbn. destruct t; try discriminate; reflexivity. }
  assert (B : forall c, closes (n_type n) = Some c -> n_type n <> OPEN_CURLYBRACKET -> runs (block f n c) s (tree_post n s)).
  { intros c C O. apply IB; auto. destruct (ps_toks s); cbn in *; [contradiction|lia]. }
  destruct (n_type n) eqn:Ty; try (destruct D as [D|D]; [exact D|now contradiction D]); try (apply B; [reflexivity|discriminate]).
  apply runs_bind, (runs_next s _ r E). eapply runs_weaken.
  { apply IL; [|now apply good_tail|exact Ty]. pose proof (toks_tail s N). cbn in *. rewrite E in *. cbn in *. lia. }
  intros b e w s' Te (Tb & Kb & Ob). cbn [app].
  assert (Tk : n_ch n = []) by (pose proof (good_head s G N) as Tk; rewrite Hn in Tk; apply Tk).
  rewrite Tk in *. cbn [flat_map app] in *. repeat split.
  - congruence.
  - apply toks_app in Te. pose proof (toks_tail s N). cbn in *. rewrite E in *. cbn in *. lia.
  - intro W. rewrite (Kb W). cbn. rewrite Hn, Ty. reflexivity.
  - intro W. apply (Ob W). reflexivity.
Qed.

Lemma step_bl f : spec_cv f -> spec_bl f -> spec_bl (S f).
Proof.
  intros IC IL b s F G T. cbn [block_list]. apply runs_bind, runs_last. apply runs_bind.
  eapply runs_weaken; [apply IC; [cbn in *; lia|exact G|constructor]|].
  intros c e w s1 Te (Gc & Pc & Kc & Oc). cbn [flat_map app] in *.
  assert (G1 : good_toks s1) by (eapply good_suffix; eauto).
  set (b1 := set_ch b (add_ch (n_ch b) c)).
  assert (Tb1 : n_type b1 = OPEN_CURLYBRACKET) by (unfold b1; now rewrite n_type_set).
  assert (Vb1 : view b1 = view b) by apply view_set.
  assert (Hc : n_type c <> EOF_TOKEN) by (destruct Gc as [X|X]; rewrite X; discriminate).
  assert (Kb1 : w = [] -> flats (n_ch b1) = flats (n_ch b) ++ sig e).
  { intro W. unfold b1. rewrite n_ch_set, flats_add by auto. now rewrite (Kc W). }
  assert (Ob1 : w = [] -> oks (n_ch b) = true -> oks (n_ch b1) = true).
  { intros W O. unfold b1. rewrite n_ch_set. apply oks_add; auto. }
  apply runs_bind, runs_last. apply runs_bind.
  (* the tail of the iteration *)
  assert (R : forall e2 w2 s2, ps_toks s1 = e2 ++ ps_toks s2 -> (w2 = [] -> sig e2 = []) ->
     good_toks s2 -> (toks s2 < toks s \/ n_type (head s2) = EOF_TOKEN \/ n_type (head s2) = CLOSE_CURLYBRACKET) ->
     runs (k2 <- last_token ;;
       match n_type k2 with
       | CLOSE_CURLYBRACKET => next_token ;;; ret b1
       | EOF_TOKEN => report (n_pos b1) "Block expected to end with CLOSE_CURLYBRACKET." ;;; next_token ;;; ret b1
       | _ => block_list f b1
       end) s2 (fun r e3 w3 s3 => bl_post b s r (e ++ e2 ++ e3) (w ++ w2 ++ w3) s3)).
  { intros e2 w2 s2 T2 S2 G2 Lt. apply runs_bind, runs_last. cbn [app].
    assert (Rec : n_type (head s2) <> EOF_TOKEN -> n_type (head s2) <> CLOSE_CURLYBRACKET ->
      runs (block_list f b1) s2 (fun r e3 w3 s3 => bl_post b s r (e ++ e2 ++ e3) (w ++ w2 ++ w3) s3)).
    { intros N1 N2. eapply runs_weaken; [apply IL; auto; cbn in *; intuition lia|].
      intros r3 e3 w3 s3 T3 (Tr & Kr & Or). repeat split.
      - congruence.
      - intro W. apply app_eq_nil in W. destruct W as [W1 W]. apply app_eq_nil in W. destruct W as [W2 W3].
        rewrite (Kr W3), (Kb1 W1), Vb1, !sig_app, (S2 W2), <- app_assoc. reflexivity.
      - intros W O. apply app_eq_nil in W. destruct W as [W1 W]. apply app_eq_nil in W. destruct W as [W2 W3].
        apply Or; auto. }
    destruct (n_type (head s2)) eqn:Ty; try (apply Rec; congruence).
    - assert (N2 : ps_toks s2 <> []) by (apply head_eof; rewrite Ty; discriminate).
      destruct (toks_head s2 N2) as [r2 E2]. apply runs_bind, (runs_next s2 _ r2 E2). apply runs_ret. cbn [app].
      repeat split.
      + congruence.
      + intro W. rewrite app_nil_r in W. apply app_eq_nil in W. destruct W as [W1 W2].
        unfold b1. rewrite (flat_closed b CLOSE_CURLYBRACKET) by (rewrite T; reflexivity).
        specialize (Kb1 W1). unfold b1 in Kb1. rewrite n_ch_set in Kb1.
        rewrite Kb1, !sig_app, (S2 W2), <- app_assoc. cbn [app]. do 3 f_equal.
        cbn. rewrite Ty. cbn. f_equal. destruct (head s2); cbn in Ty; subst; reflexivity.
      + intros W O. rewrite app_nil_r in W. apply app_eq_nil in W. destruct W as [W1 W2].
        specialize (Ob1 W1 O). destruct b1. cbn in *. subst. cbn. exact Ob1.
    - apply runs_bind, runs_report. apply runs_bind, runs_next_any. intros e3 _ _. apply runs_ret. cbn [app]. repeat split.
      + congruence.
      + intro W. apply app_eq_nil in W. destruct W as [_ W]. apply app_eq_nil in W. now destruct W as [_ W].
      + intro W. apply app_eq_nil in W. destruct W as [_ W]. apply app_eq_nil in W. now destruct W as [_ W]. }
  assert (Next : ps_toks s1 <> [] -> forall w2, (w2 = [] -> sig [head s1] = []) ->
     forall s1', ps_toks s1' = ps_toks s1 -> ps_eof s1' = ps_eof s1 ->
     runs (next_token ;;; ret tt) s1' (fun _ e2 w2' s2 =>
       runs (k2 <- last_token ;;
       match n_type k2 with
       | CLOSE_CURLYBRACKET => next_token ;;; ret b1
       | EOF_TOKEN => report (n_pos b1) "Block expected to end with CLOSE_CURLYBRACKET." ;;; next_token ;;; ret b1
       | _ => block_list f b1
       end) s2 (fun r e3 w3 s3 => bl_post b s r (e ++ e2 ++ e3) (w ++ w2 ++ w2' ++ w3) s3))).
  { intros N1 w2 Hw s1' Es1 _. destruct (toks_head s1 N1) as [r1 E1].
    assert (Hh : head s1' = head s1) by (unfold head; rewrite Es1, E1; reflexivity).
    apply runs_bind, (runs_next s1' (head s1') r1); [rewrite Es1, Hh; exact E1|]. apply runs_ret. cbn [app].
    rewrite Hh. apply (R [head s1] w2 (tail s1')); auto.
    - cbn. rewrite Es1, E1. reflexivity.
    - unfold good_toks, tail. cbn. rewrite Es1. fold (tail s1). apply (good_tail s1). exact G1.
    - left. apply toks_app in Te. cbn in *. rewrite Es1, E1 in *. cbn in *. lia. }
  assert (Stay : stops (mkFlags false false) (n_type (head s1)) = false \/ n_type (head s1) = EOF_TOKEN \/ n_type (head s1) = CLOSE_CURLYBRACKET ->
     runs (ret tt) s1 (fun _ e2 w2 s2 => runs (k2 <- last_token ;;
       match n_type k2 with
       | CLOSE_CURLYBRACKET => next_token ;;; ret b1
       | EOF_TOKEN => report (n_pos b1) "Block expected to end with CLOSE_CURLYBRACKET." ;;; next_token ;;; ret b1
       | _ => block_list f b1
       end) s2 (fun r e3 w3 s3 => bl_post b s r (e ++ e2 ++ e3) (w ++ w2 ++ w3) s3))).
  { intro H. apply runs_ret. apply R; auto. destruct H as [H|[H|H]]; auto.
    left. destruct e as [|y e]; [|apply toks_app in Te; cbn in *; lia].
    apply Pc. assert (N1 : ps_toks s1 <> []) by (apply head_eof; intro X; rewrite X in H; discriminate).
    unfold head in *. cbn in Te. rewrite Te. destruct (ps_toks s1); [contradiction|exact H]. }
  destruct (n_type (head s1)) eqn:Ty; try (apply Stay; left; reflexivity);
    try (apply Stay; right; left; reflexivity); try (apply Stay; right; right; reflexivity);
    (assert (N1 : ps_toks s1 <> []) by (apply head_eof; rewrite Ty; discriminate)).
  - apply (Next N1 []); auto. intros _. cbn. now rewrite Ty.
  - apply (Next N1 []); auto. intros _. cbn. now rewrite Ty.
  - apply runs_bind, runs_report. eapply runs_weaken; [apply (Next N1 [mkMsg LError (n_pos b1) "Block expected to end with CLOSE_CURLYBRACKET."]); auto; discriminate|].
    intros u e2 w2 s2 _ H. eapply runs_weaken; [exact H|]. intros r3 e3 w3 s3 _ K. cbn [app] in *. exact K.
  - apply runs_bind, runs_report. eapply runs_weaken; [apply (Next N1 [mkMsg LError (n_pos b1) "Block expected to end with CLOSE_CURLYBRACKET."]); auto; discriminate|].
    intros u e2 w2 s2 _ H. eapply runs_weaken; [exact H|]. intros r3 e3 w3 s3 _ K. cbn [app] in *. exact K.
  - apply (Next N1 []); auto. intros _. cbn. now rewrite Ty.
Qed.

(** The next iteration of the loop. *)
Lemma cv_next f fl rp (cp cp' : position) don cur don' cur' s s1 e1 w1 : spec_cv f -> 3 * toks s + 1 <= S f -> good_toks s ->
  ps_toks s = e1 ++ ps_toks s1 -> toks s1 < toks s ->
  Forall (fun x => n_type x = COMPONENT_VALUE) don' ->
  (w1 = [] -> flats don' ++ flats cur' = flats don ++ flats cur ++ sig e1) ->
  (w1 = [] -> oks don = true -> oks cur = true -> oks don' = true /\ oks cur' = true) ->
  runs (cv_loop f fl rp cp' don' cur') s1 (fun r e2 w2 s2 => cv_post fl s don cur r (e1 ++ e2) (w1 ++ w2) s2).
Proof.
  intros IC F G T L D K O. eapply runs_weaken.
  { apply IC; [cbn in *; lia|eapply good_suffix; eauto|exact D]. }
  intros r e2 w2 s2 T2 (Gr & Pr & Kr & Or). repeat split; auto.
  - intros _. apply toks_app in T2. cbn in *. lia.
  - intro W. apply app_eq_nil in W. destruct W as [W1 W2]. rewrite (Kr W2), sig_app, app_assoc, (K W1), !app_assoc. reflexivity.
  - intros W O1 O2. apply app_eq_nil in W. destruct W as [W1 W2]. destruct (O W1 O1 O2) as [A B]. now apply Or.
Qed.
(** Leaving the loop. *)
Lemma cv_leave fl rp cp don cur cur' s s1 e1 w1 :
  ps_toks s = e1 ++ ps_toks s1 -> (stops fl (n_type (head s)) = false -> toks s1 < toks s) ->
  Forall (fun x => n_type x = COMPONENT_VALUE) don ->
  (w1 = [] -> flats cur' = flats cur ++ sig e1) -> (w1 = [] -> oks cur = true -> oks cur' = true) ->
  runs (ret (cv_finish rp cp don cur')) s1 (fun r e2 w2 s2 => cv_post fl s don cur r (e1 ++ e2) (w1 ++ w2) s2).
Proof.
  intros T L D K O. apply runs_ret. rewrite !app_nil_r. repeat split; auto.
  - now apply finish_group.
  - intro W. rewrite (finish_tokens _ _ _ _ D), (K W). reflexivity.
  - intros W O1 O2. apply finish_ok; auto.
Qed.

Lemma runs_skip_spaces s (Q : unit -> list node -> list msg -> pstate -> Prop) :
  (forall e s', ps_toks s = e ++ ps_toks s' -> sig e = [] -> Q tt e [] s') -> runs skip_spaces s Q.
Proof.
  intro H. destruct (drop_front_split (ps_toks s)) as (w & E & F).
  exists tt, w, [], (mkPS (drop_front (ps_toks s)) (ps_eof s) (ps_msgs s)). cbn. rewrite app_nil_r.
  repeat split; auto. apply H; auto. now apply sig_ws.
Qed.

Lemma lastn_ne l x : lastn (l ++ [x]) = Some x.
Proof. unfold lastn. now rewrite rev_app_distr. Qed.
Lemma drop_front_ne l x : is_ws x = false -> drop_front (l ++ [x]) <> [].
Proof.
  intros W. induction l as [|y l IH]; cbn; [rewrite W; discriminate|]. destruct (is_ws y); [exact IH|discriminate].
Qed.

Lemma set_str_tokens n e : n_type n = EXCLAMATION -> n_type e = IDENTIFIER -> tokens_of (set_str n (n_str e)) = [view n; view e].
Proof. destruct n, e. cbn. intros -> ->. reflexivity. Qed.

Ltac fin Hp := cbn [app] in *; repeat (rewrite <- app_assoc in Hp); repeat rewrite <- app_assoc; cbn [app] in *; exact Hp.
Lemma step_cv f : spec_cv f -> spec_at f -> spec_val f -> spec_cv (S f).
Proof.
  intros IC IA IV fl rp cp don cur s F G D. cbn [cv_loop]. apply runs_bind, runs_last. cbn [app].
  destruct (stops fl (n_type (head s))) eqn:St.
  { eapply runs_weaken; [apply (cv_leave fl rp cp don cur cur s s [] [])|]; auto; try congruence.
    - intros _. cbn. now rewrite app_nil_r. }
  assert (N : ps_toks s <> []) by (apply head_eof; intro X; rewrite X in St; discriminate).
  destruct (toks_head s N) as [r E].
  assert (Ltail : toks (tail s) < toks s) by (pose proof (toks_tail s N); cbn in *; rewrite E in *; cbn in *; lia).
  (* adding the value of the current token *)
  assert (Val : forall cur', flats cur' = flats cur -> (oks cur = true -> oks cur' = true) ->
    stops (mkFlags false false) (n_type (head s)) = false -> n_type (head s) <> SEMICOLON -> n_type (head s) <> AT_KEYWORD ->
    n_type (head s) <> EXCLAMATION ->
    runs (b <- component_value f (head s) ;; cv_loop f fl rp cp don (add_ch cur' b)) s (cv_post fl s don cur)).
  { intros cur' Fc Oc S1 S2 S3 S4. apply runs_bind. eapply runs_weaken; [apply IV; auto; cbn in *; lia|].
    intros b e1 w1 s1 T1 (Tb & Lb & Kb & Ob).
    assert (Nb : n_type b <> EOF_TOKEN) by (rewrite Tb; intro X; rewrite X in St; discriminate).
    apply (cv_next f fl rp cp cp don cur don (add_ch cur' b) s s1 e1 w1); auto.
    - intro W. rewrite flats_add by auto. rewrite Fc, (Kb W). reflexivity.
    - intros W O1 O2. split; auto. apply oks_add; auto. }
  destruct (n_type (head s)) eqn:Ty; cbn [stops] in St; try discriminate St;
    try (apply Val; [reflexivity|auto|reflexivity|discriminate|discriminate|discriminate]);
    try (apply Val; [apply flats_drop_back1|apply oks_drop_back1|reflexivity|discriminate|discriminate|discriminate]).
  - (* AT_KEYWORD *)
    apply runs_bind. eapply runs_weaken; [apply IA; auto; cbn in *; lia|].
    intros b e1 w1 s1 T1 (Tb & Lb & Kb & Ob).
    assert (Nb : n_type b <> EOF_TOKEN) by (rewrite Tb, Ty; discriminate).
    apply (cv_next f fl rp cp cp don cur don (add_ch cur b) s s1 e1 w1); auto.
    + intro W. rewrite flats_add by auto. now rewrite (Kb W).
    + intros W O1 O2. split; auto. apply oks_add; auto.
  - (* EXCLAMATION *)
    apply runs_bind, (runs_next s _ r E). apply runs_bind.
    assert (W1 : runs (if is_ws (head (tail s)) then next_token else ret (head (tail s))) (tail s)
       (fun x e w s2 => w = [] /\ sig e = [] /\ x = head s2 /\ toks s2 <= toks (tail s))).
    { destruct (is_ws (head (tail s))) eqn:W.
      - assert (N1 : ps_toks (tail s) <> []) by (apply head_eof; apply is_true in W; rewrite W; discriminate).
        destruct (toks_head _ N1) as [r1 E1]. apply (runs_next _ _ r1 E1). repeat split; auto.
        + apply is_true in W. cbn. rewrite W. reflexivity.
        + cbn. destruct (tl (ps_toks s)); cbn; lia.
      - apply runs_ret. auto. }
    eapply runs_weaken; [exact W1|]. clear W1. intros x e2 w2 s2 T2 (-> & S2 & -> & L2).
    destruct (is (head s2) IDENTIFIER) eqn:EI.
    + apply is_true in EI. assert (N2 : ps_toks s2 <> []) by (apply head_eof; rewrite EI; discriminate).
      destruct (toks_head _ N2) as [r2 E2]. apply runs_bind, (runs_next s2 _ r2 E2).
      apply runs_bind, runs_skip_space. intros e3 s3 T3 S3 _ _.
      assert (Te : ps_toks s = (head s :: e2 ++ [head s2] ++ e3) ++ ps_toks s3).
      { rewrite E. cbn. f_equal. rewrite <- !app_assoc. cbn in T2. rewrite E in T2. cbn in T2. rewrite T2, E2. cbn. f_equal. f_equal.
        cbn in T3. rewrite E2 in T3. exact T3. }
      eapply runs_weaken.
      { apply (cv_next f fl rp cp cp don cur don (add_ch (drop_back1 cur) (set_str (head s) (n_str (head s2)))) s s3 (head s :: e2 ++ [head s2] ++ e3) []); auto.
        - apply toks_app in Te. cbn in *. lia.
        - intros _. rewrite flats_add by (rewrite n_type_set_str, Ty; discriminate).
          rewrite flats_drop_back1, (set_str_tokens _ _ Ty EI). f_equal. f_equal.
          cbn. rewrite Ty. cbn. rewrite flat_map_app. fold (sig e2). rewrite S2. cbn. rewrite EI. cbn. fold (sig e3). rewrite S3. reflexivity.
        - intros _ O1 O2. split; auto. apply oks_add; [now apply oks_drop_back1|].
          pose proof (good_head s G N) as (Hch & _). destruct (head s). cbn in *. subst. reflexivity. }
      intros a e4 w4 s4 _ Hp. fin Hp.
    + apply runs_bind, runs_report.
      assert (Te : ps_toks s = (head s :: e2) ++ ps_toks s2) by (rewrite E; cbn; f_equal; cbn in T2; rewrite E in T2; exact T2).
      set (ms := mkMsg _ _ _).
      eapply runs_weaken.
      { apply (cv_next f fl rp cp cp don cur don cur s (mkPS (ps_toks s2) (ps_eof s2) (ps_msgs s2 ++ [ms])) (head s :: e2) [ms]); auto; try discriminate.
        cbn in *. lia. }
      intros a e4 w4 s4 _ Hp. fin Hp.
  - (* OPEN_CURLYBRACKET *)
    apply runs_bind. eapply runs_weaken; [apply IV; auto; try (rewrite Ty; try reflexivity; discriminate); cbn in *; lia|].
    intros b e1 w1 s1 T1 (Tb & Lb & Kb & Ob). rewrite Ty in Tb.
    set (cur1 := drop_front (add_ch (drop_back1 cur) b)).
    assert (Fc : w1 = [] -> flats cur1 = flats cur ++ sig e1).
    { intro W. unfold cur1. rewrite flats_drop_front, flats_add by (rewrite Tb; discriminate). now rewrite flats_drop_back1, (Kb W). }
    assert (Oc : w1 = [] -> oks cur = true -> oks cur1 = true).
    { intros W O. unfold cur1. apply oks_drop_front, oks_add; auto. now apply oks_drop_back1. }
    destruct (is_variable_set_some cur1 true) as [v Ev]. apply runs_bind, (runs_lift _ _ _ v Ev). cbn [app].
    destruct (is_nested_some cur1) as [d Ed].
    assert (Rd : forall Q : bool -> list node -> list msg -> pstate -> Prop,
       (forall d', (v = true -> d' = false) -> Q d' [] [] s1) -> runs (if v then ret false else lift (is_nested_declaration cur1)) s1 Q).
    { intros Q H. destruct v; [apply runs_ret, H; auto|]. apply (runs_lift _ _ _ d Ed). apply H. discriminate. }
    apply runs_bind, Rd. intros d' _. cbn [app].
    destruct (negb v && negb d').
    + eapply runs_weaken; [apply (cv_leave fl rp cp don cur cur1 s s1 e1 w1); auto|].
      intros a e4 w4 s4 _ Hp. fin Hp.
    + apply runs_bind, runs_skip_spaces. intros e2 s2 T2 S2. apply runs_bind, runs_last. apply runs_bind.
      assert (Te : ps_toks s = (e1 ++ e2) ++ ps_toks s2) by (rewrite T1, T2, app_assoc; reflexivity).
      assert (Nc : cur1 <> []).
      { assert (A : add_ch (drop_back1 cur) b = drop_back1 cur ++ [b]) by (unfold add_ch, is_ws, is; rewrite Tb; reflexivity).
        unfold cur1. rewrite A. apply drop_front_ne. unfold is_ws, is. now rewrite Tb. }
      assert (L2 : toks s2 < toks s) by (apply toks_app in T2; cbn in *; lia).
      destruct (is (head s2) SEMICOLON).
      * apply runs_ret. eapply runs_weaken.
        { apply (cv_next f fl rp cp cp don cur don cur1 s s2 (e1 ++ e2) w1); auto.
          - intro W. rewrite (Fc W), sig_app, S2, app_nil_r. reflexivity. }
        intros a e4 w4 s4 _ Hp. fin Hp.
      * destruct cur1 as [|x cur2] eqn:Ecur; [contradiction|]. apply runs_report. set (ms := mkMsg _ _ _).
        eapply runs_weaken.
        { apply (cv_next f fl rp cp cp don cur don (x :: cur2) s (mkPS (ps_toks s2) (ps_eof s2) (ps_msgs s2 ++ [ms])) (e1 ++ e2) (w1 ++ [ms])); auto.
          - intro W. apply app_eq_nil in W. now destruct W.
          - intro W. apply app_eq_nil in W. now destruct W. }
        intros a e4 w4 s4 _ Hp. fin Hp.
  - (* SEMICOLON *)
    apply runs_bind, (runs_next s _ r E). set (cur1 := drop_back (drop_front cur)).
    assert (Sg : sig [head s] = []) by (cbn; now rewrite Ty).
    assert (Fc : flats cur1 = flats cur) by (unfold cur1; now rewrite flats_drop_back, flats_drop_front).
    assert (Oc : oks cur = true -> oks cur1 = true) by (intro; unfold cur1; now apply oks_drop_back, oks_drop_front).
    destruct (is_variable_set_some cur1 false) as [v Ev].
    assert (Rd : forall Q : bool -> list node -> list msg -> pstate -> Prop,
       (forall d', Q d' [] [] (tail s)) -> runs (if on_var fl then lift (is_variable_set cur1 false) else ret false) (tail s) Q).
    { intros Q H. destruct (on_var fl); [|now apply runs_ret]. apply (runs_lift _ _ _ v Ev). apply H. }
    apply runs_bind, Rd. intro d'. cbn [app].
    assert (Te : ps_toks s = [head s] ++ ps_toks (tail s)) by (cbn; now rewrite E).
    destruct d'.
    + eapply runs_weaken; [apply (cv_leave fl rp cp don cur cur1 s (tail s) [head s] []); auto|].
      * intros _. now rewrite Fc, Sg, app_nil_r.
      * intros a e4 w4 s4 _ Hp. fin Hp.
    + destruct cur1 as [|x cur2] eqn:Ecur.
      * eapply runs_weaken; [apply (cv_next f fl rp cp cp don cur don [] s (tail s) [head s] []); auto|].
        -- intros _. rewrite Sg, <- Fc. reflexivity.
        -- intros a e4 w4 s4 _ Hp. fin Hp.
      * eapply runs_weaken; [apply (cv_next f fl rp cp (n_pos (head s)) don cur (don ++ [set_ch (mk COMPONENT_VALUE cp) (x :: cur2)]) [] s (tail s) [head s] []); auto|].
        -- apply Forall_app. split; auto.
        -- intros _. rewrite flat_map_app, Sg, <- Fc. cbn [flat_map]. rewrite (group_tokens (set_ch _ _)) by (right; reflexivity).
           rewrite n_ch_set, !app_nil_r. reflexivity.
        -- intros _ O1 O2. split; auto. rewrite oks_app, O1. cbn [forallb andb]. rewrite (group_ok (set_ch _ _)) by (right; reflexivity).
           rewrite n_ch_set, Oc; auto.
        -- intros a e4 w4 s4 _ Hp. fin Hp.
Qed.

Lemma parser_specs f : spec_cv f /\ spec_at f /\ spec_val f /\ spec_block f /\ spec_bl f.
Proof.
  induction f as [|f (IC & IA & IV & IB & IL)].
  - repeat split; red; intros; exfalso; try (cbn in *; lia).
    + destruct (ps_toks s); cbn in *; [contradiction|lia].
    + destruct (ps_toks s); cbn in *; [contradiction|lia].
    + destruct (ps_toks s); cbn in *; [contradiction|lia].
  - split; [now apply step_cv|]. split; [now apply step_at|]. split; [now apply step_val|].
    split; [now apply step_block|now apply step_bl].
Qed.
