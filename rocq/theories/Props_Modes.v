(** * Output modes (C48) *)

From Coq Require Import String ZArith List Bool Lia Floats.SpecFloat.
From Verif Require Import Base NodeHeap Assembler ModeSpec.
Import ListNotations.
Open Scope string_scope. Open Scope list_scope. Open Scope Z_scope.
Ltac Zify.zify_post_hook ::= idtac.

(** ** Proof *)
Lemma mode_choice {T} (P : mode -> T -> Prop) : (forall m, exists t, P m t) -> exists f, forall m, P m (f m).
Proof.
  intro H. destruct (H COMPACT) as (a & A), (H COMPRESSED) as (b & B), (H EXPANDED) as (c & C), (H TIDY) as (d & D).
  exists (fun m => match m with COMPACT => a | COMPRESSED => b | EXPANDED => c | TIDY => d end). intros []; assumption.
Qed.
Lemma spells_app a b t u : spells a t -> spells b u -> spells (a ++ b) (t ++ u).
Proof.
  intros H K. induction H; [exact K| | | | |]; rewrite <- ?app_assoc; try (constructor; assumption).
Qed.
Lemma white_app a b : white a -> white b -> white (a ++ b).
Proof. intros. apply Forall_app. auto. Qed.
Lemma spells_more ps t w x : spells (ps ++ [Op t]) x -> white w -> spells (ps ++ [Op t]) (x ++ w).
Proof.
  intros H W. remember (ps ++ [Op t]) as l eqn:E. revert ps E. induction H as [|? ? ? H IH|? r u w1 w2 W1 W2 H IH|? ? ? ? ? H IH|? ? ? ? ? H IH|? ? ? ? ? ? ? H IH]; intros ps E.
  - destruct ps; discriminate E.
  - destruct ps as [|p ps]; [discriminate E|]. injection E as <- ->. cbn [app]. rewrite <- !app_assoc. constructor. eapply IH. reflexivity.
  - destruct ps as [|p ps].
    + injection E as -> ->. inversion H; subst. rewrite <- !app_assoc. cbn [app]. rewrite <- (app_nil_r w) at 1. rewrite app_assoc with (l := w2). apply sp_op; [assumption|apply white_app; assumption|constructor].
    + injection E as <- ->. cbn [app]. rewrite <- !app_assoc. constructor; [assumption|assumption|]. eapply IH. reflexivity.
  - destruct ps as [|p ps]; [discriminate E|]. injection E as <- ->. cbn [app]. rewrite <- !app_assoc. constructor; [assumption|]. eapply IH. reflexivity.
  - destruct ps as [|p ps]; [discriminate E|]. injection E as <- ->. cbn [app]. rewrite <- !app_assoc. constructor; [assumption|]. eapply IH. reflexivity.
  - destruct ps as [|p ps]; [discriminate E|]. injection E as <- ->. rewrite <- !app_assoc. apply (sp_close semi (ps ++ [Op t]) (u ++ w)); [assumption|assumption|]. eapply IH. reflexivity.
Qed.

(** All the modes do the same, up to the spelling. *)
Definition goes {A} (x : mode -> O A) (s : mode -> ost) (f : ost -> outcome ost A) (ps : list piece) (ms : list msg) : Prop :=
  Forall legal ps /\ forall m, exists s' t, x m (s m) = f s' /\ o_msgs s' = ms /\ o_text s' = o_text (s m) ++ t /\ spells ps t.
Definition agree {A} (x : mode -> O A) (Q : A -> list piece -> Prop) : Prop :=
  forall (s : mode -> ost) ms, (forall m, o_msgs (s m) = ms) ->
  (exists a ps ms', Q a ps /\ goes x s (fun s' => Ret a s') ps ms')
  \/ (exists e ps ms', goes x s (fun s' => Throw e s') ps ms')
  \/ (exists ps ms', goes x s (fun s' => Undef s') ps ms')
  \/ (forall m, x m (s m) = NoFuel).
Definition any {A} : A -> list piece -> Prop := fun _ _ => True.

Lemma agree_ext {A} (x y : mode -> O A) Q : (forall m s, x m s = y m s) -> agree y Q -> agree x Q.
Proof.
  intros E H s ms S. destruct (H s ms S) as [(a & ps & ms' & q & L & G)|[(e & ps & ms' & L & G)|[(ps & ms' & L & G)|G]]].
  - left. exists a, ps, ms'. split; [exact q|]. split; [exact L|]. intro m. rewrite E. apply G.
  - right; left. exists e, ps, ms'. split; [exact L|]. intro m. rewrite E. apply G.
  - right; right; left. exists ps, ms'. split; [exact L|]. intro m. rewrite E. apply G.
  - right; right; right. intro m. rewrite E. apply G.
Qed.
Lemma agree_weak {A} (x : mode -> O A) (Q R : A -> list piece -> Prop) : (forall a ps, Q a ps -> R a ps) -> agree x Q -> agree x R.
Proof.
  intros E H s ms S. destruct (H s ms S) as [(a & ps & ms' & q & G)|G]; [left; exists a, ps, ms'; auto|right; exact G].
Qed.
Lemma agree_bind {A B} (x : mode -> O A) (f : A -> mode -> O B) (Q : A -> list piece -> Prop) (R : B -> list piece -> Prop) :
  agree x Q -> (forall a ps1, Q a ps1 -> agree (f a) (fun b ps2 => R b (ps1 ++ ps2))) -> agree (fun m => obind (x m) (fun a => f a m)) R.
Proof.
  intros H K s ms S. destruct (H s ms S) as [(a & ps & ms1 & q & L & G)|[(e & ps & ms' & L & G)|[(ps & ms' & L & G)|G]]].
  - destruct (mode_choice _ G) as (s1 & G1).
    assert (S1 : forall m, o_msgs (s1 m) = ms1) by (intro m; destruct (G1 m) as (t & _ & E & _); exact E).
    destruct (K a ps q s1 ms1 S1) as [(b & ps2 & ms2 & r & L2 & G2)|[(e & ps2 & ms2 & L2 & G2)|[(ps2 & ms2 & L2 & G2)|G2]]].
    + left. exists b, (ps ++ ps2), ms2. split; [exact r|]. split; [apply Forall_app; auto|]. intro m. destruct (G1 m) as (t & E & _ & T & Sp), (G2 m) as (s2 & t2 & E2 & M2 & T2 & Sp2).
      exists s2, (t ++ t2). unfold obind. rewrite E. split; [exact E2|]. split; [exact M2|]. split; [rewrite T2, T, app_assoc; reflexivity|apply spells_app; assumption].
    + right; left. exists e, (ps ++ ps2), ms2. split; [apply Forall_app; auto|]. intro m. destruct (G1 m) as (t & E & _ & T & Sp), (G2 m) as (s2 & t2 & E2 & M2 & T2 & Sp2).
      exists s2, (t ++ t2). unfold obind. rewrite E. split; [exact E2|]. split; [exact M2|]. split; [rewrite T2, T, app_assoc; reflexivity|apply spells_app; assumption].
    + right; right; left. exists (ps ++ ps2), ms2. split; [apply Forall_app; auto|]. intro m. destruct (G1 m) as (t & E & _ & T & Sp), (G2 m) as (s2 & t2 & E2 & M2 & T2 & Sp2).
      exists s2, (t ++ t2). unfold obind. rewrite E. split; [exact E2|]. split; [exact M2|]. split; [rewrite T2, T, app_assoc; reflexivity|apply spells_app; assumption].
    + right; right; right. intro m. destruct (G1 m) as (t & E & _). unfold obind. rewrite E. apply G2.
  - right; left. exists e, ps, ms'. split; [exact L|]. intro m. destruct (G m) as (s' & t & E & R1). exists s', t. unfold obind. rewrite E. auto.
  - right; right; left. exists ps, ms'. split; [exact L|]. intro m. destruct (G m) as (s' & t & E & R1). exists s', t. unfold obind. rewrite E. auto.
  - right; right; right. intro m. unfold obind. rewrite G. reflexivity.
Qed.
Lemma agree_seq {A B} (x : mode -> O A) (f : A -> mode -> O B) : agree x any -> (forall a, agree (f a) any) -> agree (fun m => obind (x m) (fun a => f a m)) any.
Proof. intros H K. eapply agree_bind; [exact H|]. intros a ps _. eapply agree_weak; [|apply K]. unfold any. auto. Qed.

(** The elementary actions. *)
Lemma one {A} (x : mode -> O A) (a : A) (p : list piece) (Q : A -> list piece -> Prop) : Q a p -> Forall legal p ->
  (forall m s, exists b t, x m s = Ret a (mkO (o_text s ++ t) b (o_msgs s)) /\ spells p t) -> agree x Q.
Proof.
  intros q L H s ms S. left. exists a, p, ms. split; [exact q|]. split; [exact L|]. intro m. destruct (H m (s m)) as (b & t & E & Sp). eexists _, t. split; [exact E|]. cbn [o_msgs o_text]. auto.
Qed.
Lemma state_eta s : s = mkO (o_text s) (o_started s) (o_msgs s). Proof. destruct s; reflexivity. Qed.
Lemma agree_ret {A} (a : A) (Q : A -> list piece -> Prop) : Q a [] -> agree (fun _ => oret a) Q.
Proof. intro q. apply (one _ a [] Q q (Forall_nil _)). intros m s. exists (o_started s), []. split; [|constructor]. rewrite app_nil_r. unfold oret. rewrite <- state_eta. reflexivity. Qed.
Lemma agree_throw {A} e Q : agree (fun _ => @othrow A e) Q.
Proof. intros s ms S. right; left. exists e, [], ms. split; [constructor|]. intro m. exists (s m), []. split; [reflexivity|]. split; [auto|]. split; [rewrite app_nil_r; reflexivity|constructor]. Qed.
Lemma agree_undef {A} Q : agree (fun _ => @oundef A) Q.
Proof. intros s ms S. right; right; left. exists [], ms. split; [constructor|]. intro m. exists (s m), []. split; [reflexivity|]. split; [auto|]. split; [rewrite app_nil_r; reflexivity|constructor]. Qed.
Lemma agree_nofuel {A} Q : agree (fun _ => (fun _ => NoFuel) : O A) Q.
Proof. intros s ms S. right; right; right. reflexivity. Qed.
Ltac wh := repeat (apply Forall_cons; [auto|]); apply Forall_nil.
Lemma sp_word1 t : spells [Word t] t.
Proof. rewrite <- (app_nil_r t) at 2. constructor. constructor. Qed.
Lemma sp_op1 w1 t w2 : white w1 -> white w2 -> spells [Op t] (w1 ++ t ++ w2).
Proof. intros. rewrite <- (app_nil_r w2). apply sp_op; [assumption|assumption|constructor]. Qed.
Lemma agree_out t : agree (fun _ => out t) any.
Proof. apply (one _ tt [Word t] any I); [repeat constructor|]. intros m s. exists (o_started s), t. split; [reflexivity|apply sp_word1]. Qed.
Lemma agree_impl t : agree (fun _ => impl_string t) any.
Proof.
  apply (one _ tt [Word t] any I); [repeat constructor|]. intros m s. unfold impl_string. destruct (rev t) as [|c r]; (eexists _, t; split; [reflexivity|apply sp_word1]).
Qed.
Lemma impl_run t s : exists b, impl_string t s = Ret tt (mkO (o_text s ++ t) b (o_msgs s)).
Proof. unfold impl_string. destruct (rev t); eexists; reflexivity. Qed.
Lemma plain_run m t s : exists b, operator m t NoFlag s = Ret tt (mkO (o_text s ++ t) b (o_msgs s)).
Proof.
  destruct m; cbn [operator expanded_operator compact_operator base_operator]; try apply impl_run; unfold compact_operator, base_operator, obind, started; apply (impl_run t (mkO (o_text s) true (o_msgs s))).
Qed.
Lemma agree_plain t : agree (fun m => operator m t NoFlag) any.
Proof.
  apply (one _ tt [Word t] any I); [repeat constructor|]. intros m s. destruct (plain_run m t s) as (b & E). exists b, t. split; [exact E|apply sp_word1].
Qed.
Lemma op_run m t f s : f <> OptOperator -> exists b w1 w2, operator m t f s = Ret tt (mkO (o_text s ++ w1 ++ t ++ w2) b (o_msgs s)) /\ white w1 /\ white w2.
Proof.
  intro N.
  assert (Im : exists b w1 w2, impl_string t s = Ret tt (mkO (o_text s ++ w1 ++ t ++ w2) b (o_msgs s)) /\ white w1 /\ white w2).
  { destruct (impl_run t s) as (b & E). exists b, [], []. rewrite E. cbn [app]. rewrite app_nil_r. split; [reflexivity|split; wh]. }
  destruct m, f; try congruence; cbn [operator expanded_operator compact_operator base_operator]; try exact Im; unfold compact_operator, base_operator, obind, started, out, nl; cbn [o_text o_msgs o_started].
  all: first [ destruct (impl_run t (mkO (o_text s) true (o_msgs s))) as (b & E); exists b, [], []; rewrite E; cbn [app o_text o_msgs]; rewrite app_nil_r; split; [reflexivity|split; wh]
             | eexists _, [32], [32]; split; [reflexivity|split; wh]
             | eexists _, [10], [10]; split; [reflexivity|split; wh]
             | eexists _, [32], []; rewrite app_nil_r; split; [reflexivity|split; wh]
             | eexists _, [10], []; rewrite app_nil_r; split; [reflexivity|split; wh]
             | eexists _, [], [32]; split; [reflexivity|split; wh]
             | eexists _, [], [10]; split; [reflexivity|split; wh] ].
Qed.
Lemma agree_op t f : f <> OptOperator -> In t operators -> agree (fun m => operator m t f) any.
Proof.
  intros N L. apply (one _ tt [Op t] any I); [constructor; [exact L|constructor]|]. intros m s. destruct (op_run m t f s N) as (b & w1 & w2 & E & W1 & W2). exists b, (w1 ++ t ++ w2). split; [exact E|]. apply sp_op1; assumption.
Qed.
Lemma newline_run m s : exists b w, newline m s = Ret tt (mkO (o_text s ++ w) b (o_msgs s)) /\ white w.
Proof.
  destruct m; cbn [newline].
  2: exists (o_started s), []; rewrite app_nil_r; unfold oret; rewrite <- state_eta; split; [reflexivity|wh].
  all: eexists _, [10]; split; [reflexivity|wh].
Qed.
(** An operator and the end of line that follows. *)
Lemma agree_op_newline t f : f <> OptOperator -> In t operators -> agree (fun m => obind (operator m t f) (fun _ => newline m)) (fun _ ps => ps = [Op t]).
Proof.
  intros N L. apply (one _ tt [Op t] _ eq_refl); [constructor; [exact L|constructor]|]. intros m s. destruct (op_run m t f s N) as (b & w1 & w2 & E & W1 & W2).
  unfold obind. rewrite E. destruct (newline_run m (mkO (o_text s ++ w1 ++ t ++ w2) b (o_msgs s))) as (b' & w & E' & W). rewrite E'. cbn [o_text o_msgs]. exists b', (w1 ++ t ++ w2 ++ w). split; [rewrite <- !app_assoc; reflexivity|]. apply sp_op1; [exact W1|apply white_app; assumption].
Qed.
Lemma agree_open t : In t operators -> agree (fun m => obind (newline m) (fun _ => obind (operator m t NoFlag) (fun _ => newline m))) any.
Proof.
  intros L. apply (one _ tt [Op t] any I); [constructor; [exact L|constructor]|]. intros m s. destruct (newline_run m s) as (b0 & w0 & E0 & W0). unfold obind. rewrite E0.
  destruct (op_run m t NoFlag (mkO (o_text s ++ w0) b0 (o_msgs s)) ltac:(discriminate)) as (b & w1 & w2 & E & W1 & W2). rewrite E. cbn [o_text o_msgs] in *.
  destruct (newline_run m (mkO ((o_text s ++ w0) ++ w1 ++ t ++ w2) b (o_msgs s))) as (b' & w & E' & W). rewrite E'. cbn [o_text o_msgs]. exists b', ((w0 ++ w1) ++ t ++ w2 ++ w). split; [rewrite <- !app_assoc; reflexivity|]. apply sp_op1; apply white_app; assumption.
Qed.
Lemma agree_close : agree (fun m => obind (operator m (zs ";") OptOperator) (fun _ => obind (operator m (zs "}") OptBeforeNl) (fun _ => newline m))) any.
Proof.
  apply (one _ tt [Close] any I); [repeat constructor|]. intros m s.
  assert (E0 : exists b (semi : bool), operator m (zs ";") OptOperator s = Ret tt (mkO (o_text s ++ if semi then [59] else []) b (o_msgs s))).
  { destruct m; cbn [operator expanded_operator compact_operator base_operator]; unfold compact_operator, base_operator, obind, started, oret, out; cbn [o_text o_msgs o_started].
    - eexists _, false. rewrite app_nil_r. reflexivity.
    - exists (o_started s), false. rewrite app_nil_r, <- state_eta. reflexivity.
    - eexists _, true. reflexivity.
    - exists (o_started s), false. rewrite app_nil_r, <- state_eta. reflexivity. }
  destruct E0 as (b0 & semi & E0). unfold obind. rewrite E0.
  set (s0 := if semi then [59] else []) in *.
  destruct (op_run m (zs "}") OptBeforeNl (mkO (o_text s ++ s0) b0 (o_msgs s)) ltac:(discriminate)) as (b & w1 & w2 & E & W1 & W2). rewrite E. cbn [o_text o_msgs] in *.
  destruct (newline_run m (mkO ((o_text s ++ s0) ++ w1 ++ zs "}" ++ w2) b (o_msgs s))) as (b' & w & E' & W). rewrite E'. cbn [o_text o_msgs]. exists b', (s0 ++ w1 ++ [125] ++ (w2 ++ w) ++ []).
  split; [rewrite app_nil_r, <- !app_assoc; reflexivity|]. apply sp_close; [assumption|apply white_app; assumption|constructor].
Qed.
Lemma comment_starts cpp t : comment_text cpp t = [] \/ exists r, comment_text cpp t = zs "/*" ++ r.
Proof. unfold comment_text. destruct cpp; [destruct (lines t) as ([|x l], [|c e])|]; auto; right; eexists; reflexivity. Qed.
Lemma agree_comment c : agree (fun _ => comment c) any.
Proof.
  apply (one _ tt [Comment (comment_text (c_int c =? 0) (c_str c))] any I); [constructor; [apply comment_starts|constructor]|]. intros m s. unfold comment, newline_if_not_empty, obind, is_started, started, out. cbn [o_text o_started o_msgs].
  set (t := comment_text _ _).
  destruct (o_started s) eqn:E; cbn [o_text o_started o_msgs oret].
  - exists false, (nl ++ t ++ []). split; [rewrite app_nil_r, <- app_assoc; reflexivity|]. apply sp_comment; [wh|constructor].
  - exists false, ([] ++ t ++ []). split; [rewrite app_nil_r; cbn [app]; rewrite E; reflexivity|]. apply sp_comment; [wh|constructor].
Qed.
Lemma agree_name t : agree (fun m => obind (indentation m) (fun _ => out t)) any.
Proof.
  apply (one _ tt [Name t] any I); [repeat constructor|]. intros m s.
  assert (exists w, white w /\ obind (indentation m) (fun _ => out t) s = Ret tt (mkO (o_text s ++ w ++ t) (o_started s) (o_msgs s))) as (w & W & E).
  { destruct m; cbn [indentation]; unfold obind, oret, out; cbn [o_text o_started o_msgs].
    3: exists [32; 32]; split; [wh|rewrite <- app_assoc; reflexivity].
    all: exists []; split; [wh|reflexivity]. }
  exists (o_started s), (w ++ t ++ []). split; [rewrite app_nil_r; exact E|]. apply sp_name; [exact W|constructor].
Qed.
Lemma agree_say p t : agree (fun _ => say p t) any.
Proof.
  intros s ms S. left. exists tt, [], (ms ++ [mkMsg LError p t]). split; [exact I|]. split; [constructor|]. intro m. eexists _, []. split; [reflexivity|]. cbn [o_msgs o_text]. split; [rewrite S; reflexivity|]. split; [rewrite app_nil_r; reflexivity|constructor].
Qed.
Lemma assoc_run {A B D} (x : O A) (f : A -> O B) (g : B -> O D) s : obind (obind x f) g s = obind x (fun a => obind (f a) g) s.
Proof. unfold obind. destruct (x s); reflexivity. Qed.

Section Tree.
Variables (h : heap) (lm : libm) (prec : Z).
Lemma agree_read a : agree (fun _ => read h a) any.
Proof. unfold read. destruct (nth_error h a); [apply agree_ret; exact I|apply agree_undef]. Qed.
Lemma agree_is a t : agree (fun _ => is_a h a t) any.
Proof. unfold is_a. apply (agree_seq (fun _ => read h a) (fun c _ => oret (ntype_eqb (c_type c) t))); [apply agree_read|]. intro c. apply agree_ret. exact I. Qed.
Lemma agree_dimension c : agree (fun _ => verify_dimension c) any.
Proof. unfold verify_dimension. destruct (existsb _ _); [apply agree_say|apply agree_ret; exact I]. Qed.
Ltac inop := unfold operators; cbn [map In]; repeat (first [left; reflexivity|right]).
Ltac seq := match goal with |- agree (fun m => obind (@?x m) (fun a => @?f m a)) any => apply (agree_seq x (fun a m => f m a)); [|intro] end.
Ltac oprt := first [apply agree_plain | apply agree_op; [discriminate|inop]].

Section Loops.
Variable o : mode -> addr -> O unit.
Hypothesis Ho : forall a, agree (fun m => o m a) any.
Lemma agree_each l : agree (fun m => each (o m) l) any.
Proof. induction l as [|x l IH]; cbn [each]; [apply agree_ret; exact I|]. seq; [apply Ho|exact IH]. Qed.
Lemma agree_separated t sep : agree sep any -> forall l, agree (fun m => separated h (o m) t (sep m) l) any.
Proof.
  intros Hs. induction l as [|x l IH]; cbn [separated]; [apply agree_ret; exact I|]. destruct l as [|y l].
  - seq; [apply Ho|]. seq; [apply agree_is|]. apply agree_ret. exact I.
  - seq; [apply Ho|]. seq; [apply agree_is|]. seq; [destruct a0; [exact Hs|apply agree_ret; exact I]|]. exact IH.
Qed.
Lemma agree_arguments : forall l first, agree (fun m => arguments m (o m) first l) any.
Proof.
  induction l as [|x l IH]; intro first; cbn [arguments]; [apply agree_ret; exact I|].
  seq; [destruct first; [apply agree_ret; exact I|oprt]|]. seq; [apply Ho|]. apply IH.
Qed.
Lemma agree_component : forall l first has_arg, agree (fun m => component_value h m (o m) first has_arg l) any.
Proof.
  induction l as [|x l IH]; intros first has_arg; cbn [component_value]; [apply agree_ret; exact I|].
  seq; [apply agree_read|]. destruct (c_type a); try apply agree_throw.
  - seq; [destruct has_arg; [apply Ho|apply agree_ret; exact I]|]. apply IH.
  - seq; [destruct (rev (c_ch a)); [apply agree_ret; exact I|apply agree_is]|]. destruct a0; [apply IH|]. seq; [destruct first; [apply agree_ret; exact I|oprt]|]. seq; [apply Ho|]. apply IH.
Qed.
Lemma agree_block l : agree (fun m => block h m (o m) l) any.
Proof.
  unfold block. seq; [oprt|]. seq; [apply agree_separated; oprt|]. apply agree_close.
Qed.
Definition ends_op (ps : list piece) : Prop := exists ps0 t, ps = ps0 ++ [Op t].
Lemma ends_op_app a b : ends_op b -> ends_op (a ++ b).
Proof. intros (p & t & ->). exists (a ++ p), t. apply app_assoc. Qed.
Lemma agree_at_children : forall l nb, agree (fun m => at_children h m (o m) nb l) (fun b ps => b = false -> nb = false \/ ends_op ps).
Proof.
  induction l as [|x l IH]; intro nb; cbn [at_children]; [apply agree_ret; auto|].
  assert (Tail : forall ps, agree (fun m => at_children h m (o m) nb l) (fun b ps2 => b = false -> nb = false \/ ends_op (ps ++ ps2))).
  { intro ps. eapply agree_weak; [|apply IH]. cbv beta. intros b ps2 H E. destruct (H E); auto using ends_op_app. }
  eapply (agree_bind (fun _ => read h x) _ any); [apply agree_read|]. intros c ps0 _. cbv beta.
  assert (Default : forall ps0, agree (fun m => obind (o m x) (fun _ => at_children h m (o m) nb l)) (fun b ps2 => b = false -> nb = false \/ ends_op (ps0 ++ ps2))).
  { intro ps1. eapply (agree_bind (fun m => o m x) (fun _ m => at_children h m (o m) nb l) any); [apply Ho|]. intros _ ps2 _. eapply agree_weak; [|apply (Tail (ps1 ++ ps2))]. cbv beta. intros b ps3. rewrite app_assoc. auto. }
  destruct (c_type c); try apply Default.
  - (* a block *)
    eapply agree_ext.
    { intros m s. instantiate (1 := fun m => obind (obind (match l with [] => newline m | _ :: _ => oret tt end) (fun _ => obind (operator m (zs "{") NoFlag) (fun _ => newline m)))
        (fun _ => obind (each (o m) (c_ch c)) (fun _ => obind (obind (operator m (zs "}") NoFlag) (fun _ => newline m)) (fun _ => at_children h m (o m) (match l with [] => false | _ :: _ => nb end) l)))). cbv beta.
      rewrite assoc_run. unfold obind. destruct (match l with [] => newline m | _ :: _ => oret tt end s); try reflexivity. destruct (operator m (zs "{") NoFlag s0); try reflexivity. destruct (newline m s1); try reflexivity.
      destruct (each (o m) (c_ch c) s2); try reflexivity. destruct (operator m (zs "}") NoFlag s3); reflexivity. }
    eapply (agree_bind _ _ any).
    { destruct l; [apply agree_open; inop|]. eapply agree_ext; [|eapply agree_weak; [|apply (agree_op_newline (zs "{") NoFlag)]]; [intros m s; reflexivity|unfold any; auto|discriminate|inop]. }
    intros _ ps1 _. eapply (agree_bind _ _ any); [apply agree_each|]. intros _ ps2 _.
    eapply (agree_bind _ _ (fun _ ps => ps = [Op (zs "}")])); [apply agree_op_newline; [discriminate|inop]|]. intros _ ps3 ->.
    destruct l as [|y l].
    + cbn [at_children]. apply agree_ret. intros _. right. rewrite app_nil_r. rewrite !app_assoc. eexists _, _. reflexivity.
    + eapply agree_weak; [|apply (Tail (((ps0 ++ ps1) ++ ps2) ++ [Op (zs "}")]))]. cbv beta. intros b ps4. rewrite <- !app_assoc. auto.
  - (* an argument *)
    eapply (agree_bind (fun m => o m x) _ any); [apply Ho|]. intros _ ps1 _.
    eapply (agree_bind _ _ any).
    { destruct l as [|y l']; [apply agree_ret; exact I|]. eapply (agree_seq (fun _ => is_a h y ARG)); [apply agree_is|]. intros []; [oprt|apply agree_ret; exact I]. }
    intros _ ps2 _. eapply agree_weak; [|apply (Tail ((ps0 ++ ps1) ++ ps2))]. cbv beta. intros b ps4. rewrite <- !app_assoc. auto.
Qed.
Lemma agree_last_newline x : agree x (fun b ps => b = false -> ends_op ps) ->
  agree (fun m => obind (x m) (fun b : bool => obind (if b then out (zs ";") else oret tt) (fun _ => newline m))) any.
Proof.
  intros H s ms S. destruct (H s ms S) as [(b & ps & ms1 & q & L & G)|[(e & ps & ms' & L & G)|[(ps & ms' & L & G)|G]]].
  - left. exists tt. destruct b.
    + exists (ps ++ [Op (zs ";")]), ms1. split; [exact I|]. split; [apply Forall_app; split; [exact L|constructor; [inop|constructor]]|]. intro m. destruct (G m) as (s1 & t & E & M & T & Sp).
      unfold obind. rewrite E. unfold out. destruct (newline_run m (mkO (o_text s1 ++ zs ";") (o_started s1) (o_msgs s1))) as (b' & w & E' & W). eexists _, (t ++ [] ++ zs ";" ++ w). split; [exact E'|]. cbn [o_text o_msgs]. split; [exact M|]. split; [rewrite T, <- !app_assoc; reflexivity|]. apply spells_app; [exact Sp|]. apply sp_op1; [wh|exact W].
    + destruct (q eq_refl) as (ps0 & t0 & ->). exists (ps0 ++ [Op t0]), ms1. split; [exact I|]. split; [exact L|]. intro m. destruct (G m) as (s1 & t & E & M & T & Sp).
      unfold obind. rewrite E. unfold oret. destruct (newline_run m s1) as (b' & w & E' & W). eexists _, (t ++ w). split; [exact E'|]. cbn [o_text o_msgs]. split; [exact M|]. split; [rewrite T, <- app_assoc; reflexivity|]. apply spells_more; assumption.
  - right; left. exists e, ps, ms'. split; [exact L|]. intro m. destruct (G m) as (s' & t & E & R1). exists s', t. unfold obind. rewrite E. auto.
  - right; right; left. exists ps, ms'. split; [exact L|]. intro m. destruct (G m) as (s' & t & E & R1). exists s', t. unfold obind. rewrite E. auto.
  - right; right; right. intro m. unfold obind. rewrite G. reflexivity.
Qed.
Lemma agree_at_keyword c : agree (fun m => at_keyword h m (o m) c) any.
Proof.
  unfold at_keyword. seq; [apply agree_out|].
  apply agree_last_newline. destruct (c_ch c) as [|x l]; [apply agree_ret; discriminate|].
  destruct (is_keyframes (c_str c)).
  - eapply (agree_bind (fun m => o m x) _ any); [apply Ho|]. intros _ ps0 _.
    eapply agree_ext.
    { intros m s. instantiate (1 := fun m => obind (obind (operator m (zs "{") OptBefore) (fun _ => newline m)) (fun _ => obind (each (o m) l) (fun _ => obind (operator m (zs "}") NoFlag) (fun _ => oret false)))). cbv beta.
      rewrite assoc_run. reflexivity. }
    eapply (agree_bind _ _ (fun _ ps => ps = [Op (zs "{")])); [apply agree_op_newline; [discriminate|inop]|]. intros _ ps1 _.
    eapply (agree_bind _ _ any); [apply agree_each|]. intros _ ps2 _.
    eapply (agree_bind _ _ (fun _ ps => ps = [Op (zs "}")])).
    + apply (one _ tt [Op (zs "}")] _ eq_refl); [constructor; [inop|constructor]|]. intros m s. destruct (op_run m (zs "}") NoFlag s ltac:(discriminate)) as (b & w1 & w2 & E & W1 & W2). exists b, (w1 ++ zs "}" ++ w2). split; [exact E|]. apply sp_op1; assumption.
    + intros _ ps3 ->. apply agree_ret. intros _. rewrite app_nil_r, !app_assoc. eexists _, _. reflexivity.
  - eapply agree_weak; [|apply agree_at_children]. cbv beta. intros b ps H E. destruct (H E); [discriminate|assumption].
Qed.
Lemma agree_paren (p : mode -> addr -> O unit) : (forall a, agree (fun m => p m a) any) -> forall l first, agree (fun m => paren_children h (o m) (p m) first l) any.
Proof.
  intro Hp. induction l as [|x l IH]; intro first; cbn [paren_children]; [apply agree_ret; exact I|].
  seq; [apply agree_is|]. seq; [|apply IH]. destruct a; [|apply Ho]. seq; [destruct first; [apply agree_ret; exact I|apply agree_out]|]. apply Hp.
Qed.
End Loops.

Lemma agree_url t : agree (fun m => url m t) any.
Proof. unfold url. seq; [apply agree_out|]. seq; [oprt|]. seq; [apply agree_out|]. oprt. Qed.
Lemma agree_output : forall f, (forall a, agree (fun m => output h lm prec m f a) any) /\ (forall a, agree (fun m => parenthesis h lm prec m f a) any).
Proof.
  induction f as [|f (IH & IHp)]; (split; intro a; [|]); cbn [output parenthesis]; try apply agree_nofuel.
  2:{ seq; [apply agree_read|]. seq; [oprt|]. seq; [apply agree_paren; assumption|]. oprt. }
  seq; [apply agree_read|]. rename a0 into c.
  destruct (c_type c); try apply agree_throw; try oprt; try apply agree_out.
  - (* AT_KEYWORD *) apply agree_at_keyword. exact IH.
  - (* COLOR *) destruct (Color.to_string lm (FloatBits.cell_color c)); [apply agree_impl|apply agree_undef].
  - (* COMMENT *) apply agree_comment.
  - (* DECIMAL_NUMBER *) seq; [apply agree_dimension|apply agree_out].
  - (* FUNCTION *) seq; [apply agree_out|]. seq; [oprt|]. seq; [|oprt]. destruct (c_ch c) as [|x l] eqn:E; [apply agree_ret; exact I|]. seq; [apply agree_is|]. destruct a2; [apply agree_arguments|apply agree_each]; exact IH.
  - (* IDENTIFIER *) destruct (OutText.escape_id (c_str c)); [apply agree_out|apply agree_throw].
  - (* INTEGER *) seq; [apply agree_dimension|apply agree_out].
  - (* OPEN_CURLYBRACKET *) apply agree_block. exact IH.
  - (* OPEN_PARENTHESIS *) seq; [apply agree_out|]. seq; [oprt|]. seq; [apply agree_paren; assumption|]. oprt.
  - (* OPEN_SQUAREBRACKET *) seq; [oprt|]. seq; [apply agree_each; exact IH|]. oprt.
  - (* UNICODE_RANGE *) destruct (UnicodeRange.ur_to_string _); [apply agree_out|apply agree_throw].
  - (* URL *) apply agree_url.
  - (* ARG *) apply agree_each. exact IH.
  - (* COMPONENT_VALUE *) apply agree_component. exact IH.
  - (* DECLARATION *)
    eapply agree_ext.
    { intros m s. instantiate (1 := fun m => obind (obind (indentation m) (fun _ => out (c_str c))) (fun _ => obind (operator m (zs ":") OptAfter) (fun _ =>
        obind (separated h (output h lm prec m f) ARG (operator m (zs ",") OptAfter) (c_ch c)) (fun _ => if flag_mem (zs "important") (c_flags c) then obind (operator m (zs "!") OptBefore) (fun _ => out (zs "important")) else oret tt)))). cbv beta. rewrite assoc_run. reflexivity. }
    seq; [apply agree_name|]. seq; [oprt|]. seq; [apply agree_separated; [exact IH|oprt]|]. destruct (flag_mem _ _); [|apply agree_ret; exact I]. seq; [oprt|apply agree_out].
  - (* LIST *) apply agree_separated; [exact IH|oprt].
  - (* FRAME *) seq; [destruct (SFleb _ _); apply agree_out|]. apply agree_block. exact IH.
Qed.
End Tree.

Lemma bare_app a b : bare_text (a ++ b) = fold_right (fun c r => if (c =? 59) && (match r with d :: _ => d =? 125 | [] => false end) then r else c :: r) (bare_text b) (filter (fun c => negb ((c =? 32) || (c =? 10))) a).
Proof.
  unfold bare_text. rewrite filter_app. induction (filter _ a) as [|c l IH]; [reflexivity|]. cbn [app drop_semicolons fold_right]. rewrite IH. reflexivity.
Qed.
Lemma white_gone w : white w -> filter (fun c => negb ((c =? 32) || (c =? 10))) w = [].
Proof. induction 1 as [|c w [-> | ->] _ IH]; [reflexivity|exact IH|exact IH]. Qed.
Lemma bare_white w t : white w -> bare_text (w ++ t) = bare_text t.
Proof. intro W. rewrite bare_app, (white_gone w W). reflexivity. Qed.
Lemma bare_cong t a b : bare_text a = bare_text b -> bare_text (t ++ a) = bare_text (t ++ b).
Proof. intro E. rewrite !bare_app, E. reflexivity. Qed.
Lemma bare_brace t : bare_text ([59] ++ 125 :: t) = bare_text (125 :: t).
Proof. reflexivity. Qed.
Lemma spells_bare ps : forall t u, spells ps t -> spells ps u -> bare_text t = bare_text u.
Proof.
  induction ps as [|p ps IH]; intros t u H K.
  - inversion H; inversion K; reflexivity.
  - destruct p; inversion H; subst; inversion K; subst.
    + apply bare_cong. apply IH; assumption.
    + rewrite (bare_white w1), (bare_white w0) by assumption. apply bare_cong. rewrite (bare_white w2), (bare_white w3) by assumption. apply IH; assumption.
    + rewrite (bare_white w), (bare_white w0) by assumption. apply bare_cong. apply IH; assumption.
    + rewrite (bare_white w), (bare_white w0) by assumption. apply bare_cong. apply IH; assumption.
    + assert (Q : forall (b : bool) (w1 w2 v : str), white w1 -> white w2 -> bare_text ((if b then [59] else []) ++ w1 ++ [125] ++ w2 ++ v) = bare_text (125 :: v)).
      { intros b w1' w2' v W1 W2. transitivity (bare_text ((if b then [59] else []) ++ 125 :: v)).
        - apply bare_cong. rewrite bare_white by assumption. apply (bare_cong [125]). apply bare_white. assumption.
        - destruct b; reflexivity. }
      rewrite !Q by assumption. apply (bare_cong [125]). apply IH; assumption.
Qed.

(** ** Theorems *)

(** Whatever the tree, the result is the same in the four modes (the output ends
    or fails in the same way, with the same messages) and the four texts are
    spellings of the same pieces. *)
Theorem c48_pieces h lm prec fuel a ms :
  (exists ps ms', Forall legal ps /\ forall m, exists t b, output h lm prec m fuel a (mkO [] false ms) = Ret tt (mkO t b ms') /\ spells ps t)
  \/ (exists e ps ms', Forall legal ps /\ forall m, exists t b, output h lm prec m fuel a (mkO [] false ms) = Throw e (mkO t b ms') /\ spells ps t)
  \/ (exists ps ms', Forall legal ps /\ forall m, exists t b, output h lm prec m fuel a (mkO [] false ms) = Undef (mkO t b ms') /\ spells ps t)
  \/ (forall m, output h lm prec m fuel a (mkO [] false ms) = NoFuel).
Proof.
  destruct (proj1 (agree_output h lm prec fuel) a (fun _ => mkO [] false ms) ms ltac:(reflexivity)) as [([] & ps & ms' & _ & L & G)|[(e & ps & ms' & L & G)|[(ps & ms' & L & G)|G]]].
  - left. exists ps, ms'. split; [exact L|]. intro m. destruct (G m) as ([t0 b0 m0] & t & E & M & T & Sp). cbn [o_text o_msgs app] in *. subst. exists t, b0. auto.
  - right; left. exists e, ps, ms'. split; [exact L|]. intro m. destruct (G m) as ([t0 b0 m0] & t & E & M & T & Sp). cbn [o_text o_msgs app] in *. subst. exists t, b0. auto.
  - right; right; left. exists ps, ms'. split; [exact L|]. intro m. destruct (G m) as ([t0 b0 m0] & t & E & M & T & Sp). cbn [o_text o_msgs app] in *. subst. exists t, b0. auto.
  - right; right; right. exact G.
Qed.
(** In short: white space and semicolons before closing brackets aside, the four
    texts are equal. *)
Theorem c48_same_text h lm prec fuel a ms m1 m2 s1 :
  output h lm prec m1 fuel a (mkO [] false ms) = Ret tt s1 ->
  exists s2, output h lm prec m2 fuel a (mkO [] false ms) = Ret tt s2 /\ o_msgs s2 = o_msgs s1 /\ bare_text (o_text s2) = bare_text (o_text s1).
Proof.
  intro H. destruct (c48_pieces h lm prec fuel a ms) as [(ps & ms' & L & G)|[(e & ps & ms' & L & G)|[(ps & ms' & L & G)|G]]].
  - destruct (G m1) as (t1 & b1 & E1 & S1), (G m2) as (t2 & b2 & E2 & S2). rewrite E1 in H. injection H as <-. eexists. split; [exact E2|]. split; [reflexivity|]. eapply spells_bare; eassumption.
  - destruct (G m1) as (t1 & b1 & E1 & _). congruence.
  - destruct (G m1) as (t1 & b1 & E1 & _). congruence.
  - rewrite (G m1) in H. discriminate H.
Qed.

(** Example: [a > b { c: d, e; f: 3px }] followed by a comment. *)
Definition cell1 (t : ntype) (s : string) (i : Z) (ch : list addr) : cell := mkCell t (new_position 1 1) false i (S754_zero false) (zs s) [] ch [] [].
Definition sheet : heap :=
  [ cell1 LIST "" 0 [1; 16]; cell1 COMPONENT_VALUE "" 0 [2; 6]; cell1 ARG "" 0 [3; 4; 5]; cell1 IDENTIFIER "a" 0 []; cell1 GREATER_THAN "" 0 []; cell1 IDENTIFIER "b" 0 [];
    cell1 OPEN_CURLYBRACKET "" 0 [7]; cell1 LIST "" 0 [8; 13]; cell1 DECLARATION "c" 0 [9; 11]; cell1 ARG "" 0 [10]; cell1 IDENTIFIER "d" 0 []; cell1 ARG "" 0 [12]; cell1 IDENTIFIER "e" 0 [];
    cell1 DECLARATION "f" 0 [14]; cell1 ARG "" 0 [15]; cell1 INTEGER "px" 3 []; cell1 COMMENT "@preserve" 1 [] ]%nat.
Definition lines_of (l : list string) : str := concat (map (fun s => zs s ++ [10]) l).
Definition text_of (m : mode) : str :=
  match output sheet (Base.mkLibm (fun x _ => x)) 3 m 20 0%nat (mkO [] false []) with Ret _ s => o_text s | _ => [] end.
Example c48_example :
  text_of COMPRESSED = lines_of ["a>b{c:d,e;f:3px}"; "/* @preserve */"]
  /\ text_of TIDY = lines_of ["a>b{c:d,e;f:3px}"; "/* @preserve */"]
  /\ text_of COMPACT = lines_of ["a > b { c: d, e; f: 3px }"; "/* @preserve */"]
  /\ text_of EXPANDED = lines_of ["a > b"; "{"; "  c: d, e;"; "  f: 3px;"; "}"; "/* @preserve */"].
Proof. vm_compute. split; [reflexivity|]. split; [reflexivity|]. split; reflexivity. Qed.
