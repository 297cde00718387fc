(** * Variables in comments (C45) *)

From Coq Require Import String ZArith List Bool Lia Arith ZifyBool Floats.SpecFloat.
From Verif Require Import Base NodeHeap NodeProofs Compiler CompRun IfProofs CommentSpec Props_If.
Import ListNotations.
Open Scope string_scope. Open Scope list_scope. Open Scope Z_scope.
Ltac Zify.zify_post_hook ::= idtac.

Lemma find_app c : forall l r k, find_from c (l ++ r) (length l + k) = option_map (Nat.add (length l)) (find_from c r k).
Proof.
  induction l as [|a l IH]; intros r k; cbn [app length Nat.add find_from]; [destruct (find_from c r k); reflexivity|].
  rewrite IH. destruct (find_from c r k); reflexivity.
Qed.
Lemma find_none c : forall r, find_from c r 0 = None <-> ~ In c r.
Proof.
  induction r as [|a r IH]; cbn [find_from In]; [tauto|]. destruct (Z.eqb_spec a c) as [->|N]; [split; [discriminate|tauto]|].
  destruct (find_from c r 0); cbn [option_map]; [split; [discriminate|]|tauto]. intro H. exfalso. assert (Some n = None) by (apply IH; tauto). discriminate.
Qed.
Lemma find_first c : forall f r, ~ In c f -> find_from c (f ++ c :: r) 0 = Some (length f).
Proof.
  induction f as [|a f IH]; intros r N; cbn [app find_from length]; [now rewrite Z.eqb_refl|].
  cbn [In] in N. destruct (Z.eqb_spec a c); [tauto|]. rewrite IH by tauto. reflexivity.
Qed.
Lemma find_split c : forall r i, find_from c r 0 = Some i -> exists f r', r = f ++ c :: r' /\ ~ In c f /\ length f = i.
Proof.
  induction r as [|a r IH]; intros i; cbn [find_from]; [discriminate|]. destruct (Z.eqb_spec a c) as [->|N].
  - intros [= <-]. exists [], r. cbn. auto.
  - destruct (find_from c r 0) as [j|]; [|discriminate]. intros [= <-]. destruct (IH j eq_refl) as (f & r' & -> & F & L). exists (a :: f), r'. cbn [app length In]. split; [reflexivity|]. split; [intros [?|?]; auto|lia].
Qed.
Lemma name_spec : forall f, name_of f = match find_from 40 f 0 with Some i => firstn i f | None => f end.
Proof.
  induction f as [|c f IH]; cbn [name_of find_from]; [reflexivity|]. destruct (c =? 40); [reflexivity|]. rewrite IH. destruct (find_from 40 f 0); reflexivity.
Qed.
Lemma nth_tail (l r : str) k : nth (length l + k) (l ++ r) 0 = nth k r 0.
Proof. rewrite app_nth2 by lia. f_equal. lia. Qed.
Lemma firstn_tail {A} (l r : list A) : firstn (length l) (l ++ r) = l.
Proof. rewrite firstn_app, firstn_all, Nat.sub_diag. cbn. apply app_nil_r. Qed.
Lemma skipn_tail {A} (l r : list A) k : skipn (length l + k) (l ++ r) = skipn k r.
Proof. rewrite skipn_app. rewrite skipn_all2 by lia. cbn. f_equal. lia. Qed.

(** ** One step of the loop *)
Section Loop.
  Variables (w : world) (x : ctx) (p : position) (h : heap) (ps : list str) (v : str -> option str).
  Hypothesis T : texts w x h v.
  Definition warnings (l : list msg) : Prop := Forall (fun m => m_level m = LWarning) l.
  Notation st m := (mkK h m ps).

  Lemma loop_skip f out c r : c <> 123 -> comment_loop w x p f (length out) (out ++ c :: r) = comment_loop w x p f (length (out ++ [c])) ((out ++ [c]) ++ r).
  Proof.
    intro N. destruct f as [|f]; [reflexivity|]. rewrite <- app_assoc. cbn [app]. rewrite app_length. cbn [length comment_loop].
    rewrite <- (Nat.add_0_r (length out)) at 1. rewrite !find_app. cbn [find_from]. rewrite (proj2 (Z.eqb_neq _ _) N).
    destruct (find_from 123 r 0); reflexivity.
  Qed.
  (** A reference to a variable which has a value. *)
  Lemma loop_ref f out (hash : bool) fu t r m : ~ In 125 fu -> v (name_of fu) = Some t -> (hash = false -> last out 0 <> 35) ->
    exists m', warnings m' /\ comment_loop w x p (S f) (length out) (out ++ written hash fu ++ r) (st m) = comment_loop w x p f (length (out ++ t)) ((out ++ t) ++ r) (st (m ++ m')).
  Proof.
    intros N V L.
    assert (E : exists out2, out ++ written hash fu ++ r = out2 ++ 123 :: 36 :: fu ++ 125 :: r /\ (if hash then out2 = out ++ [35] else out2 = out)
      /\ find_from 123 (out ++ written hash fu ++ r) (length out) = Some (length out2)
      /\ (if (0 <? length out2)%nat && (nth (length out2 - 1) (out2 ++ 123 :: 36 :: fu ++ 125 :: r) 0 =? 35) then (length out2 - 1)%nat else length out2) = length out).
    { unfold written. change (zs "{$") with [123; 36]. change (zs "}") with [125]. change (zs "#") with [35]. destruct hash.
      - exists (out ++ [35]). repeat (rewrite <- app_assoc; cbn [app]). split; [reflexivity|]. split; [reflexivity|]. split.
        + rewrite <- (Nat.add_0_r (length out)) at 1. rewrite find_app. cbn [find_from]. change (35 =? 123) with false. change (123 =? 123) with true. cbn. rewrite app_length. reflexivity.
        + rewrite app_length. cbn [length]. replace (length out + 1 - 1)%nat with (length out + 0)%nat by lia. rewrite nth_tail. cbn [nth]. replace (0 <? length out + 1)%nat with true by lia. cbn [andb]. change (35 =? 35) with true. cbv iota. apply Nat.add_0_r.
      - exists out. repeat (rewrite <- app_assoc; cbn [app]). split; [reflexivity|]. split; [reflexivity|]. split.
        + rewrite <- (Nat.add_0_r (length out)) at 1. rewrite find_app. cbn [find_from]. change (123 =? 123) with true. cbn. f_equal. lia.
        + specialize (L eq_refl). destruct (Nat.ltb_spec 0 (length out)); [|reflexivity]. cbn [andb].
          replace (nth (length out - 1) (out ++ 123 :: 36 :: fu ++ 125 :: r) 0) with (last out 0).
          * rewrite (proj2 (Z.eqb_neq _ _) L). reflexivity.
          * destruct (exists_last (l := out)) as (o & y & ->); [destruct out; [cbn in H; lia|discriminate]|]. rewrite last_last. rewrite app_length. cbn [length]. replace (length o + 1 - 1)%nat with (length o + 0)%nat by lia.
            rewrite <- app_assoc. rewrite nth_tail. reflexivity. }
    destruct E as (out2 & E & O & F & Sv). cbn [comment_loop]. rewrite F. rewrite E. rewrite Sv.
    assert (L2 : (length out <= length out2 <= length out + 1)%nat) by (destruct hash; subst out2; rewrite ?app_length; cbn [length]; lia).
    rewrite app_length. cbn [length]. rewrite app_length. cbn [length].
    replace (length out2 + 2 <? length out2 + S (S (length fu + S (length r))))%nat with true by lia.
    rewrite nth_tail. cbn [nth andb]. change (36 =? 36) with true. cbv iota.
    assert (Fe : find_from 125 (out2 ++ 123 :: 36 :: fu ++ 125 :: r) (length out + 2) = Some (length out2 + (2 + length fu))%nat).
    { destruct hash; subst out2.
      - replace (length out + 2)%nat with (length (out ++ [35%Z]) + 1)%nat by (rewrite app_length; cbn [length]; lia). rewrite find_app. cbn [find_from]. change (36 =? 125) with false. cbv iota. rewrite find_first by auto. reflexivity.
      - rewrite find_app. cbn [find_from]. rewrite find_first by auto. reflexivity. }
    rewrite Fe.
    assert (Fn : sub (out2 ++ 123 :: 36 :: fu ++ 125 :: r) (length out2 + 2) (length out2 + (2 + length fu) - (length out2 + 2)) = fu).
    { unfold sub. rewrite skipn_tail. cbn [skipn]. replace (length out2 + (2 + length fu) - (length out2 + 2))%nat with (length fu) by lia. apply firstn_tail. }
    rewrite Fn. pose proof (T (name_of fu) m ps) as Tn. rewrite V in Tn. destruct Tn as (a & c & var & val & k & G & Ha & Tc & Cc & Hv & K1 & K2 & Tx).
    match goal with |- context [match ?X with (_, _) => _ end] => assert (Nm : exists isf : bool, X = (name_of fu, isf)) end.
    { rewrite name_spec. destruct (find_from 40 fu 0); eauto. }
    destruct Nm as (isf & ->).
    rewrite (b_ret _ _ _ _ _ G). cbv iota. rewrite (b_ret _ _ _ _ _ (run_is h m ps a c Ha LIST)). rewrite Tc. change (ntype_eqb LIST LIST) with true. cbv iota.
    assert (Sz : lift (size a) (st m) = Ret 2 (st m)) by (rewrite (run_size h m ps a c Ha); [rewrite Cc; reflexivity|rewrite Tc; reflexivity]).
    rewrite (b_ret _ _ _ _ _ Sz). change (negb (2 =? 2)) with false. cbv iota.
    assert (G0 : lift (get_child a 0) (st m) = Ret var (st m)) by (apply (run_child h m ps a c Ha 0 var); [rewrite Tc; reflexivity|rewrite Cc; reflexivity|lia]).
    assert (G1 : forall m, lift (get_child a 1) (st m) = Ret val (st m)) by (intro; eapply (run_child h _ ps a c Ha 1 val); [rewrite Tc; reflexivity|rewrite Cc; reflexivity|lia]).
    rewrite (b_ret _ _ _ _ _ G0). rewrite (b_ret _ _ _ _ _ (run_type h m ps var k Hv)).
    rewrite (proj2 (ntype_eqb_neq _ _) K1), (proj2 (ntype_eqb_neq _ _) K2). cbn [orb].
    set (m' := if isf then [mkMsg LWarning p "variable is not a function, yet you referenced it as such."] else []).
    exists m'. split; [subst m'; destruct isf; repeat constructor|].
    erewrite b_ret with (s' := st (m ++ m')); [|subst m'; destruct isf; [apply run_say|rewrite app_nil_r; reflexivity]].
    rewrite (b_ret _ _ _ _ _ (G1 _)). cbn [k_heap]. rewrite Tx.
    replace (length out2 + (2 + length fu) + 1)%nat with (length out2 + S (S (S (length fu))))%nat by lia. rewrite skipn_tail.
    change (skipn (S (S (S (length fu)))) (123 :: 36 :: fu ++ 125 :: r)) with (skipn (S (length fu)) (fu ++ 125 :: r)).
    replace (S (length fu)) with (length fu + 1)%nat by lia. rewrite skipn_tail. cbn [skipn].
    assert (Fo : firstn (length out) (out2 ++ 123 :: 36 :: fu ++ 125 :: r) = out).
    { destruct hash; subst out2; [rewrite <- app_assoc|]; apply firstn_tail. }
    rewrite Fo. rewrite app_length. now rewrite app_assoc.
  Qed.
  (** A '\{' which is not. *)
  Lemma loop_brace f out r m : ~ reference v (123 :: r) ->
    exists m', warnings m' /\ comment_loop w x p (S f) (length out) (out ++ 123 :: r) (st m) = comment_loop w x p f (length (out ++ [123])) ((out ++ [123]) ++ r) (st (m ++ m')).
  Proof.
    intro N. rewrite <- app_assoc. cbn [app]. rewrite app_length. cbn [length]. replace (length out + 1)%nat with (S (length out)) by lia.
    assert (F : find_from 123 (out ++ 123 :: r) (length out) = Some (length out)).
    { rewrite <- (Nat.add_0_r (length out)) at 1. rewrite find_app. cbn [find_from]. change (123 =? 123) with true. cbn. f_equal. lia. }
    assert (Z : forall k, comment_loop w x p f (S (length out)) (out ++ 123 :: r) k = comment_loop w x p f (S (length out)) (out ++ 123 :: r) k) by reflexivity.
    cbn [comment_loop]. rewrite F. destruct ((length out + 2 <? length (out ++ 123%Z :: r))%nat && (nth (length out + 1) (out ++ 123 :: r) 0 =? 36)) eqn:C;
      [|exists []; rewrite app_nil_r; split; [constructor|reflexivity]].
    apply andb_prop in C. destruct C as (C1 & C2). rewrite nth_tail in C2. rewrite app_length in C1. cbn [length] in C1. destruct r as [|d r]; [cbn [length] in C1; lia|]. cbn [nth] in C2. assert (d = 36) by lia. subst d.
    set (sv := if (0 <? length out)%nat && (nth (length out - 1) (out ++ 123 :: 36 :: r) 0 =? 35) then (length out - 1)%nat else length out).
    assert (Sv : (sv + 2 = length out + 2 \/ sv + 2 = length out + 1)%nat) by (subst sv; destruct ((0 <? length out)%nat && _) eqn:Q; [apply andb_prop in Q; lia|lia]).
    assert (Fe : find_from 125 (out ++ 123 :: 36 :: r) (sv + 2) = option_map (fun i => (length out + (2 + i))%nat) (find_from 125 r 0)).
    { destruct Sv as [->| ->]; rewrite find_app; cbn [find_from]; change (36 =? 125) with false; cbv iota; destruct (find_from 125 r 0); reflexivity. }
    rewrite Fe. destruct (find_from 125 r 0) as [i|] eqn:Fr; cbn [option_map]; [|exists []; rewrite app_nil_r; split; [constructor|reflexivity]].
    destruct (find_split _ _ _ Fr) as (fu & r' & -> & Nf & Li). subst i.
    assert (Fn : sub (out ++ 123 :: 36 :: fu ++ 125 :: r') (length out + 2) (length out + (2 + length fu) - (length out + 2)) = fu).
    { unfold sub. rewrite skipn_tail. cbn [skipn]. replace (length out + (2 + length fu) - (length out + 2))%nat with (length fu) by lia. apply firstn_tail. }
    rewrite Fn.
    match goal with |- context [match ?X with (_, _) => _ end] => assert (Nm : exists isf : bool, X = (name_of fu, isf)) end.
    { rewrite name_spec. destruct (find_from 40 fu 0); eauto. }
    destruct Nm as (isf & ->).
    assert (V : v (name_of fu) = None).
    { destruct (v (name_of fu)) as [t|] eqn:V; [|reflexivity]. exfalso. apply N. exists false, fu, t, r'. split; [|auto]. unfold written. change (zs "{$") with [123; 36]. change (zs "}") with [125]. repeat (rewrite <- app_assoc; cbn [app]). reflexivity. }
    pose proof (T (name_of fu) m ps) as Tn. rewrite V in Tn. destruct Tn as [G|(a & c & var & val & k & G & Ha & Tc & Cc & Hv & K)].
    - rewrite (b_ret _ _ _ _ _ G). cbv iota. destruct (x_quiet x).
      + exists []. rewrite app_nil_r. split; [constructor|]. reflexivity.
      + eexists. split; [|rewrite (b_ret _ _ _ _ _ (run_say h m ps _ _ _)); reflexivity]. repeat constructor.
    - rewrite (b_ret _ _ _ _ _ G). cbv iota. rewrite (b_ret _ _ _ _ _ (run_is h m ps a c Ha LIST)). rewrite Tc. change (ntype_eqb LIST LIST) with true. cbv iota.
      assert (Sz : lift (size a) (st m) = Ret 2 (st m)) by (rewrite (run_size h m ps a c Ha); [rewrite Cc; reflexivity|rewrite Tc; reflexivity]).
      rewrite (b_ret _ _ _ _ _ Sz). change (negb (2 =? 2)) with false. cbv iota.
      assert (G0 : lift (get_child a 0) (st m) = Ret var (st m)) by (apply (run_child h m ps a c Ha 0 var); [rewrite Tc; reflexivity|rewrite Cc; reflexivity|lia]).
      rewrite (b_ret _ _ _ _ _ G0). rewrite (b_ret _ _ _ _ _ (run_type h m ps var k Hv)).
      replace (ntype_eqb (c_type k) FUNCTION || ntype_eqb (c_type k) VARIABLE_FUNCTION) with true by (destruct K as [-> | ->]; reflexivity).
      eexists. split; [|rewrite (b_ret _ _ _ _ _ (run_say h m ps _ _ _)); reflexivity]. repeat constructor.
  Qed.
  Lemma loop_expands out s o : expands v out s o -> forall f m, (length s <= f)%nat ->
    exists m', warnings m' /\ comment_loop w x p (S f) (length out) (out ++ s) (st m) = Ret (out ++ o) (st (m ++ m')).
  Proof.
    induction 1 as [out|out hash fu t r o N V L E IH|out c r o N E IH]; intros f m Lf.
    - exists []. rewrite !app_nil_r. split; [constructor|]. cbn [comment_loop].
      assert (find_from 123 out (length out) = None) as ->.
      { pose proof (find_app 123 out [] 0) as Q. rewrite app_nil_r, Nat.add_0_r in Q. rewrite Q. reflexivity. }
      reflexivity.
    - destruct (loop_ref f out hash fu t r m N V L) as (m1 & W1 & E1). rewrite E1. rewrite app_length in Lf.
      assert (W3 : (3 <= length (written hash fu))%nat) by (unfold written; rewrite !app_length; cbn; lia).
      destruct f as [|f]; [lia|]. destruct (IH f (m ++ m1)) as (m2 & W2 & E2); [lia|]. rewrite E2. exists (m1 ++ m2). split; [apply Forall_app; auto|]. now rewrite <- !app_assoc.
    - cbn [length] in Lf. destruct (Z.eq_dec c 123) as [->|Nc].
      + destruct (loop_brace f out r m N) as (m1 & W1 & E1). rewrite E1. destruct f as [|f]; [lia|]. destruct (IH f (m ++ m1)) as (m2 & W2 & E2); [lia|]. rewrite E2.
        exists (m1 ++ m2). split; [apply Forall_app; auto|]. now rewrite <- !app_assoc.
      + rewrite loop_skip by auto. destruct (IH f m) as (m2 & W2 & E2); [lia|]. rewrite E2. exists m2. split; [auto|]. now rewrite <- app_assoc.
  Qed.
End Loop.

(** ** C45 *)
(** The comment becomes its expansion; no other node is changed; only warnings
    are reported. *)
Theorem c45_expansion : forall w x h v n c o m ps, texts w x h v ->
  nth_error h n = Some c -> c_type c = COMMENT -> expands v [] (c_str c) o ->
  exists m', replace_variables_in_comment w x n (mkK h m ps) = Ret tt (mkK (put h n (with_str c o)) (m ++ m') ps)
    /\ Forall (fun k => m_level k = LWarning) m'.
Proof.
  intros w x h v n c o m ps T Hn Tc E. destruct (loop_expands w x (c_pos c) h ps v T [] (c_str c) o E (length (c_str c)) m (le_n _)) as (m' & W & L).
  cbn [app length] in L. exists m'. split; [|exact W]. unfold replace_variables_in_comment.
  assert (Sc : has_str (c_type c) = true) by (rewrite Tc; reflexivity).
  rewrite (b_ret _ _ _ _ _ (run_string h m ps n c Hn Sc)). rewrite (b_ret _ _ _ _ _ (run_pos h m ps n c Hn)). rewrite (b_ret _ _ _ _ _ L).
  eapply run_set_string; eauto.
Qed.
(** The expansion is unique, *)
Lemma written_inj h f r h' f' r' : ~ In 125 f -> ~ In 125 f' -> written h f ++ r = written h' f' ++ r' -> h = h' /\ f = f' /\ r = r'.
Proof.
  unfold written. change (zs "{$") with [123; 36]. change (zs "}") with [125]. change (zs "#") with [35]. intros N N' E. repeat (rewrite <- app_assoc in E; cbn [app] in E).
  assert (K : forall f f' r r', ~ In 125 f -> ~ In 125 f' -> f ++ 125 :: r = f' ++ 125 :: r' -> f = f' /\ r = r').
  { clear. induction f as [|a f IH]; intros [|b f'] r r' N N' E; cbn [app In] in *; [injection E as ->; auto| | |].
    - injection E as <- _. tauto.
    - injection E as -> _. tauto.
    - injection E as -> E. destruct (IH f' r r') as (-> & ->); auto. }
  destruct h, h'; cbn [app] in E; try discriminate E.
  - injection E as E. destruct (K _ _ _ _ N N' E) as (-> & ->). auto.
  - injection E as E. destruct (K _ _ _ _ N N' E) as (-> & ->). auto.
Qed.
Theorem c45_unique : forall v out s o, expands v out s o -> forall o', expands v out s o' -> o = o'.
Proof.
  induction 1 as [out|out hash fu t r o N V L E IH|out c r o N E IH]; intros o' E'.
  - inversion E' as [|out' hash fu t' r' o2 N' V' L' E2 Q1 Q2 Q3| ]; [reflexivity|]. exfalso. destruct hash; discriminate Q2.
  - inversion E' as [? Q|out' hash' fu' t' r' o2 N' V' L' E2 Q1 Q2|out' c r' o2 N' E2 Q1 Q2 Q3]; subst.
    + exfalso. match goal with H : [] = written hash _ ++ _ |- _ => destruct hash; discriminate H end.
    + destruct (written_inj _ _ _ _ _ _ N' N Q2) as (-> & -> & ->). assert (t = t') by congruence. subst. f_equal. auto.
    + exfalso. apply N'. rewrite Q2. exists hash, fu, t, r. auto.
  - inversion E' as [|out' hash' fu' t' r' o2 N' V' L' E2 Q1 Q2|out' c' r' o2 N' E2 Q1 Q2 Q3]; subst.
    + exfalso. apply N. rewrite <- Q2. exists hash', fu', t', r'. auto.
    + f_equal. auto.
Qed.
(** and exists for every comment when no value is empty or ends with '#'. *)
Lemma reference_dec v s : {hash : bool & {f & {t & {r | s = written hash f ++ r /\ ~ In 125 f /\ v (name_of f) = Some t}}}} + {~ reference v s}.
Proof.
  assert (D : forall (hash : bool) r0, s = (if hash then [35] else []) ++ 123 :: 36 :: r0 ->
     {f & {t & {r | s = written hash f ++ r /\ ~ In 125 f /\ v (name_of f) = Some t}}} + {~ reference v s}).
  { intros hash r0 Es. destruct (find_from 125 r0 0) as [i|] eqn:F.
    - destruct (v (name_of (firstn i r0))) as [t|] eqn:V.
      + left. exists (firstn i r0), t, (skipn (S i) r0). destruct (find_split _ _ _ F) as (f & r' & -> & N & L). subst i. rewrite firstn_tail in *.
        replace (S (length f)) with (length f + 1)%nat by lia. rewrite skipn_tail. cbn [skipn]. split; [|auto]. rewrite Es. unfold written. change (zs "{$") with [123; 36]. change (zs "}") with [125]. change (zs "#") with [35].
        repeat (rewrite <- app_assoc; cbn [app]). reflexivity.
      + right. intros (hash' & f & t & r & E & N & V'). destruct (find_split _ _ _ F) as (f2 & r2 & -> & N2 & L). subst i. rewrite firstn_tail in V.
        assert (W : s = written hash f2 ++ r2) by (rewrite Es; unfold written; change (zs "{$") with [123; 36]; change (zs "}") with [125]; change (zs "#") with [35]; repeat (rewrite <- app_assoc; cbn [app]); reflexivity).
        rewrite W in E. destruct (written_inj _ _ _ _ _ _ N2 N E) as (-> & -> & ->). congruence.
    - right. intros (hash' & f & t & r & E & N & V'). apply find_none in F. apply F. rewrite Es in E. unfold written in E. change (zs "{$") with [123; 36] in E. change (zs "}") with [125] in E. change (zs "#") with [35] in E.
      repeat (rewrite <- app_assoc in E; cbn [app] in E). destruct hash, hash'; cbn [app] in E; try discriminate E; injection E as ->; apply in_or_app; right; now left. }
  destruct s as [|a s]; [right; intros (hash & f & t & r & E & _); destruct hash; discriminate E|].
  destruct (Z.eq_dec a 123) as [->|N1].
  - destruct s as [|b s]; [right; intros (hash & f & t & r & E & _); destruct hash; discriminate E|]. destruct (Z.eq_dec b 36) as [->|N2].
    + destruct (D false s eq_refl) as [(f & t & r & H)|H]; [left; exists false; eauto|right; exact H].
    + right. intros (hash & f & t & r & E & _). destruct hash; [discriminate E|]. injection E as E _. congruence.
  - destruct (Z.eq_dec a 35) as [->|N2]; [|right; intros (hash & f & t & r & E & _); destruct hash; injection E as E _; congruence].
    destruct s as [|b [|c s]]; try (right; intros (hash & f & t & r & E & _); destruct hash; discriminate E).
    destruct (Z.eq_dec b 123) as [->|N2]; [|right; intros (hash & f & t & r & E & _); destruct hash; [injection E as E _; congruence|discriminate E]].
    destruct (Z.eq_dec c 36) as [->|N3]; [|right; intros (hash & f & t & r & E & _); destruct hash; [injection E as E _; congruence|discriminate E]].
    destruct (D true s eq_refl) as [(f & t & r & H)|H]; [left; exists true; eauto|right; exact H].
Qed.
Theorem c45_exists_partial : forall v, (forall n t, v n = Some t -> t <> [] /\ last t 0 <> 35) -> forall s, exists o, expands v [] s o.
Proof.
  intros v Hv s.
  enough (G : forall k s out, (length s <= k)%nat -> (last out 0 = 35 -> forall f t r, s = written false f ++ r -> ~ In 125 f -> v (name_of f) = Some t -> False) -> exists o, expands v out s o)
    by (apply (G (length s) s []); [lia|cbn; discriminate]).
  clear s. induction k as [|k IH]; intros s out L H.
  - destruct s; [exists []; constructor|cbn in L; lia].
  - destruct (reference_dec v s) as [(hash & f & t & r & -> & N & V)|N].
    + destruct (IH r (out ++ t)) as (o & E).
      * rewrite app_length in L. assert (3 <= length (written hash f))%nat by (unfold written; rewrite !app_length; cbn; lia). lia.
      * intro Q. destruct (Hv _ _ V) as (T1 & T2). destruct (exists_last T1) as (t' & y & ->). rewrite app_assoc in Q. rewrite last_last in *. congruence.
      * exists (t ++ o). apply exp_ref; auto. intros -> Q. eapply H; eauto.
    + destruct s as [|c s]; [exists []; constructor|]. destruct (IH s (out ++ [c])) as (o & E).
      * cbn in L. lia.
      * rewrite last_last. intros -> f t r -> Nf V. apply N. exists true, f, t, r. split; [reflexivity|auto].
      * exists (c :: o). constructor; auto.
Qed.

(** ** Counter example and example

    With [$a: x\#; $b: y], the comment [\{$a\}\{$b\}] should become [x#y]; the
    '#' of the first value is lost. *)
Definition reads_strings : world :=
  mkW (mkLibm (fun x _ => x)) (fun _ => fun _ _ _ => NoFuel) (fun _ => false) (fun _ g => Ret None g)
      (fun h a => match nth_error h a with Some c => c_str c | None => [] end).
Definition two_variables (text : string) : heap :=
  [with_vars (node LIST "" [7]) [(zs "a", 1%nat); (zs "b", 4%nat)];
   node LIST "" [2; 3]; node VARIABLE "a" []; node IDENTIFIER "x#" [];
   node LIST "" [5; 6]; node VARIABLE "b" []; node IDENTIFIER "y" [];
   node COMMENT text []]%nat.
Definition two_values (name : str) : option str :=
  if str_eqb (zs "a") name then Some (zs "x#") else if str_eqb (zs "b") name then Some (zs "y") else None.
Lemma two_texts text quiet : texts reads_strings (mkX 0%nat [] quiet) (two_variables text) two_values.
Proof.
  assert (G : forall name m ps, state_get_variable (mkX 0%nat [] quiet) name (mkK (two_variables text) m ps)
            = Ret (map_get [(zs "a", 1%nat); (zs "b", 4%nat)] name) (mkK (two_variables text) m ps)) by reflexivity.
  intros name m ps. unfold two_values. cbn [map_get] in G.
  destruct (str_eqb (zs "a") name) eqn:A.
  - apply str_eqb_spec in A. subst name. eexists _, _, _, _, _. split; [rewrite G; reflexivity|]. do 4 (split; [reflexivity|]). split; [discriminate|]. split; [discriminate|reflexivity].
  - destruct (str_eqb (zs "b") name) eqn:B.
    + apply str_eqb_spec in B. subst name. eexists _, _, _, _, _. split; [rewrite G; reflexivity|]. do 4 (split; [reflexivity|]). split; [discriminate|]. split; [discriminate|reflexivity].
    + left. rewrite G. cbn [map_get]. assert (str_eqb name (zs "a") = false /\ str_eqb name (zs "b") = false) as (-> & ->); [|reflexivity].
      split; apply str_eqb_neq; intros ->; [rewrite str_eqb_refl in A|rewrite str_eqb_refl in B]; discriminate.
Qed.
Theorem c45_hash_refuted : exists s' c,
  replace_variables_in_comment reads_strings (mkX 0%nat [] false) 7%nat (mkK (two_variables "{$a}{$b}") [] []) = Ret tt s'
  /\ nth_error (k_heap s') 7%nat = Some c /\ c_str c = zs "xy".
Proof. eexists _, _. split; [vm_compute; reflexivity|]. split; reflexivity. Qed.
(** With a '#', and a variable which is not set: [#\{$a(1)\}#\{$b\} \{$c\}]. *)
Example c45_example : exists m', replace_variables_in_comment reads_strings (mkX 0%nat [] false) 7%nat (mkK (two_variables "#{$a(1)}#{$b} {$c}") [] [])
  = Ret tt (mkK (put (two_variables "#{$a(1)}#{$b} {$c}") 7%nat (with_str (node COMMENT "#{$a(1)}#{$b} {$c}" []) (zs "x#y {$c}"))) m' [])
  /\ length m' = 2%nat.
Proof. eexists. split; [vm_compute; reflexivity|reflexivity]. Qed.
(** That comment has an expansion, and so has any comment when [$b: y] is the only variable. *)
Definition only_b (name : str) : option str := if str_eqb (zs "b") name then Some (zs "y") else None.
Example c45_exists_example : forall s, exists o, expands only_b [] s o.
Proof.
  apply c45_exists_partial. unfold only_b. intros n t. destruct (str_eqb (zs "b") n); [|discriminate]. intros [= <-]. split; [discriminate|]. cbn. lia.
Qed.
Example c45_expands_example : expands two_values [] (zs "#{$a(1)}p#{$b}") (zs "x#py").
Proof.
  change (zs "#{$a(1)}p#{$b}") with (written true (zs "a(1)") ++ 112 :: written true (zs "b") ++ []). change (zs "x#py") with (zs "x#" ++ 112 :: zs "y" ++ []).
  apply exp_ref; [cbn; lia|reflexivity|discriminate|].
  apply exp_char; [intros (hash & f & t & r & E & _); destruct hash; discriminate E|].
  apply exp_ref; [cbn; lia|reflexivity|discriminate|]. apply exp_end.
Qed.
