(** * Nested declarations: proofs *)

From Coq Require Import String ZArith List Bool Lia Arith Floats.SpecFloat.
From Verif Require Import Base NodeHeap NodeProofs Compiler CompRun ScopeProofs IfProofs Trees DeclSpec Props_Prune.
Import ListNotations.
Open Scope string_scope. Open Scope list_scope. Open Scope Z_scope.
Ltac Zify.zify_post_hook ::= idtac.

(** ** Lists *)
Lemma NoDup_app_intro {A} (l r : list A) : NoDup l -> NoDup r -> (forall x, In x l -> ~ In x r) -> NoDup (l ++ r).
Proof.
  induction l as [|a l IH]; cbn; intros D1 D2 D; [auto|]. inversion D1; subst. constructor; [|apply IH; auto]. intro I. apply in_app_or in I. destruct I; [auto|]. eapply D; eauto.
Qed.
Lemma NoDup_replace {A} (B X X' Y : list A) : NoDup (B ++ X ++ Y) -> NoDup X' -> incl X' X -> NoDup (B ++ X' ++ Y).
Proof.
  intros N N' I. apply NoDup_app_inv in N. destruct N as (NB & N & D). apply NoDup_app_inv in N. destruct N as (NX & NY & D2).
  apply NoDup_app_intro; [auto| |].
  - apply NoDup_app_intro; auto.
  - intros x Ix J. apply in_app_or in J. apply (D x Ix). apply in_or_app. destruct J; auto.
Qed.
Lemma flat_incl (f : tree -> list addr) l : (forall t, In t l -> incl (f t) (nodes t)) -> incl (flat_map f l) (flat_map nodes l).
Proof. intros H x I. apply in_flat_map in I. destruct I as (t & It & I). apply in_flat_map. exists t. split; [auto|]. apply H; auto. Qed.
Lemma flat_NoDup (f : tree -> list addr) l : (forall t, In t l -> NoDup (nodes t) -> NoDup (f t)) -> (forall t, In t l -> incl (f t) (nodes t)) -> NoDup (flat_map nodes l) -> NoDup (flat_map f l).
Proof.
  induction l as [|t l IH]; cbn [flat_map]; intros H I N; [constructor|]. apply NoDup_app_inv in N. destruct N as (N1 & N2 & D). apply NoDup_app_intro.
  - apply H; [now left|auto].
  - apply IH; auto; intros; [apply H|apply I]; auto; now right.
  - intros x Ix J. apply (D x); [eapply I; eauto; now left|]. eapply (flat_incl f l); [|exact J]. intros. apply I. now right.
Qed.
Lemma map_flat {A B C} (f : B -> C) (g : A -> list B) l : map f (flat_map g l) = flat_map (fun x => map f (g x)) l.
Proof. induction l; cbn; [reflexivity|]. now rewrite map_app, IHl. Qed.
Lemma flat_flat {A B C} (f : B -> list C) (g : A -> list B) l : flat_map f (flat_map g l) = flat_map (fun x => flat_map f (g x)) l.
Proof. induction l; cbn; [reflexivity|]. now rewrite flat_map_app, IHl. Qed.
Lemma flat_length {A B} (f : A -> list B) (g : A -> list B) l : (forall x, In x l -> (length (f x) <= length (g x))%nat) -> (length (flat_map f l) <= length (flat_map g l))%nat.
Proof. induction l as [|a l IH]; cbn; intro H; [lia|]. rewrite !app_length. specialize (H a (or_introl eq_refl)) as Ha. assert (length (flat_map f l) <= length (flat_map g l))%nat by auto. lia. Qed.

(** ** Footprints *)
Lemma stay_nodes t : incl (flat_map nodes (stay t)) (nodes t).
Proof.
  induction t as [a c l IH] using tree_rect'. cbn [stay].
  assert (Df : incl (flat_map nodes [Tree a c l]) (nodes (Tree a c l))) by (cbn [flat_map]; rewrite app_nil_r; apply incl_refl).
  assert (Gr : incl (flat_map nodes (match flat_map stay l with [] => [] | r => [Tree a c r] end)) (nodes (Tree a c l))).
  { assert (G : incl (flat_map nodes (flat_map stay l)) (flat_map nodes l)).
    { rewrite flat_flat. apply (flat_incl (fun x => flat_map nodes (stay x))). rewrite Forall_forall in IH. exact IH. }
    destruct (flat_map stay l) as [|u r] eqn:E; [intros ? []|]. cbn [flat_map]. rewrite app_nil_r. change (nodes (Tree a c (u :: r))) with (a :: flat_map nodes (u :: r)). cbn [nodes]. apply incl_cons; [now left|]. apply incl_tl, G. }
  destruct (c_type c); try exact Df; try exact Gr. intros ? [].
Qed.
Lemma moved_nodes t : forall name, incl (flat_map nodes (moved name t)) (nodes t).
Proof.
  induction t as [a c l IH] using tree_rect'. intro name. cbn [moved]. rewrite Forall_forall in IH.
  assert (G : forall n, incl (flat_map nodes (flat_map (moved n) l)) (flat_map nodes l)) by (intro n; rewrite flat_flat; apply (flat_incl (fun x => flat_map nodes (moved n x))); auto).
  assert (Gs : incl (flat_map nodes (flat_map stay l)) (flat_map nodes l)) by (rewrite flat_flat; apply (flat_incl (fun x => flat_map nodes (stay x))); intros; apply stay_nodes).
  destruct (c_type c); try (cbn [flat_map]; apply incl_nil_l); try (cbn [nodes]; apply incl_tl, G).
  cbn [flat_map nodes]. cbn [app]. apply incl_cons; [now left|]. apply incl_app; [apply incl_tl, Gs|apply incl_tl, G].
Qed.
Lemma tops_nodes l : incl (map top l) (flat_map nodes l). Proof. intros x. apply tops_in. Qed.
Lemma moved_tops name t : incl (map top (moved name t)) (nodes t).
Proof. eapply incl_tran; [apply tops_nodes|apply moved_nodes]. Qed.
Lemma moved_NoDup t : forall name, NoDup (nodes t) -> NoDup (map top (moved name t)).
Proof.
  induction t as [a c l IH] using tree_rect'. intros name N. cbn [moved]. rewrite Forall_forall in IH. cbn [nodes] in N. inversion N as [|? ? Na Nl]; subst.
  assert (G : forall n, NoDup (map top (flat_map (moved n) l))).
  { intro n. rewrite map_flat. apply flat_NoDup; auto. intros; apply moved_tops. }
  destruct (c_type c); try constructor; try apply G.
  intro I. apply Na. change (In a (map top (flat_map (moved (prefix name ++ c_str c)) l))) in I. rewrite map_flat in I. revert I. apply (flat_incl (fun x => map top (moved _ x))). intros; apply moved_tops.
Qed.
Lemma moved_length t : forall name, (length (moved name t) <= length (nodes t))%nat.
Proof.
  induction t as [a c l IH] using tree_rect'. intro name. cbn [moved nodes length]. rewrite Forall_forall in IH.
  assert (G : forall n, (length (flat_map (moved n) l) <= length (flat_map nodes l))%nat).
  { intro n. clear -IH. induction l as [|t l IHl]; cbn [flat_map]; [reflexivity|]. rewrite !app_length. assert (length (moved n t) <= length (nodes t))%nat by (apply IH; now left). assert (length (flat_map (moved n) l) <= length (flat_map nodes l))%nat by (apply IHl; intros; apply IH; now right). lia. }
  destruct (c_type c); cbn [length]; try lia; try (pose proof (G name); lia). pose proof (G (prefix name ++ c_str c)). lia.
Qed.
Lemma stay_top t : stay t = [] \/ exists k, stay t = [k] /\ top k = top t.
Proof.
  destruct t as [a c l]. cbn [stay]. destruct (c_type c); try (right; eexists; split; [reflexivity|reflexivity]); try (left; reflexivity);
  destruct (flat_map stay l); try (left; reflexivity); right; eexists; split; reflexivity.
Qed.
Lemma keeps_incl A B h h' : incl A B -> keeps A h h' -> keeps B h h'.
Proof. intros I (L & K). split; [exact L|]. intros b Lb Nb. apply K; auto. Qed.
Lemma run_position h m ps a c (x : addr) i : nth_error h a = Some c -> has_children (c_type c) = true -> find_child x (c_ch c) = Some i ->
  lift (child_position a x) (mkK h m ps) = Ret (Z.of_nat i) (mkK h m ps).
Proof. intros H E F. unfold lift, child_position, NodeHeap.bind, load, supports. cbn [k_heap]. rewrite H, E. unfold NodeHeap.ret. rewrite F. reflexivity. Qed.

Lemma insert_after_run h m ps P pc B post (d : addr) k : nth_error h P = Some (with_ch pc (B ++ post)) -> has_children (c_type pc) = true -> NoDup B -> B <> [] ->
  nth_error h d = Some k -> c_type k = DECLARATION \/ c_type k = COMPONENT_VALUE -> Z.of_nat (length B) < 2 ^ 64 ->
  insert_after P (last B 0%nat) d (mkK h m ps) = Ret tt (mkK (put h P (with_ch pc (B ++ d :: post))) m ps).
Proof.
  intros H E N Ne K Tk L. destruct (exists_last Ne) as (B0 & r & ->). rewrite last_last. rewrite app_length in L. cbn [length] in L.
  assert (F : find_child r ((B0 ++ [r]) ++ post) = Some (length B0)).
  { rewrite <- app_assoc. cbn [app]. apply find_mid. apply NoDup_app_inv in N. destruct N as (_ & _ & D). intro I. apply (D _ I). now left. }
  unfold insert_after. erewrite b_ret; [|eapply run_position; [exact H|exact E|exact F]].
  assert (U : u64 (Z.of_nat (length B0) + 1) = Z.of_nat (length (B0 ++ [r]))) by (unfold u64; rewrite app_length; cbn [length]; rewrite Z.mod_small; lia).
  rewrite U. erewrite run_insert; [|exact H|exact E|exact K|intro Z; rewrite Z in Tk; destruct Tk; discriminate|intro Z; rewrite Z in Tk; destruct Tk; discriminate|].
  - cbn [c_ch with_ch]. rewrite Nat2Z.id, insert_mid. reflexivity.
  - cbn [c_ch with_ch]. split; [apply Nat2Z.is_nonneg|]. apply inj_le. rewrite (app_length (B0 ++ [r])). apply Nat.le_add_r.
Qed.
(** The step after a child which was, or was not, removed. *)
Lemma step_gone h m ps a c done (t : addr) rest : nth_error h a = Some (with_ch c (done ++ rest)) -> has_children (c_type c) = true -> ~ In t rest ->
  step_over a t (Z.of_nat (length done)) (mkK h m ps) = Ret (Z.of_nat (length done)) (mkK h m ps).
Proof.
  intros H E N. unfold step_over. erewrite b_ret; [|eapply run_size; [exact H|exact E]]. cbn [c_ch with_ch]. rewrite app_length.
  destruct rest as [|u rest]; cbn [length]; [replace (_ <? _) with false by lia; reflexivity|]. replace (_ <? _) with true by lia.
  erewrite b_ret; [|eapply (run_child h m ps a _ H (Z.of_nat (length done)) u); [exact E|cbn [c_ch with_ch]; rewrite Nat2Z.id; apply nth_mid|lia]].
  destruct (Nat.eqb_spec t u) as [->|]; [exfalso; apply N; now left|reflexivity].
Qed.
Lemma step_there h m ps a c done (t : addr) rest : nth_error h a = Some (with_ch c (done ++ t :: rest)) -> has_children (c_type c) = true ->
  step_over a t (Z.of_nat (length done)) (mkK h m ps) = Ret (Z.of_nat (length (done ++ [t]))) (mkK h m ps).
Proof.
  intros H E. erewrite step_over_same; [|exact H|exact E|cbn [c_ch with_ch]; apply nth_mid]. rewrite app_length. cbn [length]. do 2 f_equal. lia.
Qed.

(** ** The walk through the nested declarations *)
Section Walk.
  Variables (m : list msg) (ps : list str).
  Notation st h := (mkK h m ps).
  Definition walks (f : nat) : Prop := forall t x0 q qs qc L R name P pc B post h,
    x_parents x0 = q :: qs -> holds h t -> nth_error h q = Some (with_ch qc (L ++ top t :: R)) -> has_children (c_type qc) = true -> ~ In (top t) L ->
    nth_error h P = Some (with_ch pc (B ++ post)) -> has_children (c_type pc) = true -> q <> P -> B <> [] -> NoDup (B ++ nodes t) ->
    ~ In q (nodes t) -> ~ In P (nodes t) -> only_declarations t -> (length (nodes t) < f)%nat -> Z.of_nat (length B + length (nodes t)) < 2 ^ 64 ->
    exists h', expand_declarations f x0 name P (last B 0%nat) (top t) (st h) = Ret (last (B ++ map top (moved name t)) 0%nat) (st h')
      /\ nth_error h' q = Some (with_ch qc (L ++ map top (stay t) ++ R))
      /\ nth_error h' P = Some (with_ch pc (B ++ map top (moved name t) ++ post))
      /\ Forall (holds h') (stay t) /\ Forall (holds h') (moved name t)
      /\ keeps (q :: P :: nodes t) h h' /\ length h' = length h.

  Lemma loop_decl f (Hf : walks f) x qs a c name P pc (Xa : x_parents x = a :: qs) (Hc : has_children (c_type c) = true) (Hp : has_children (c_type pc) = true) (aP : a <> P) post :
    forall l done g B h,
    Forall (holds h) l -> nth_error h a = Some (with_ch c (done ++ map top l)) -> (forall b, In b done -> ~ In b (flat_map nodes l)) ->
    nth_error h P = Some (with_ch pc (B ++ post)) -> B <> [] -> NoDup (B ++ flat_map nodes l) ->
    ~ In a (flat_map nodes l) -> ~ In P (flat_map nodes l) -> Forall only_declarations l -> (length l < g)%nat -> (forall t, In t l -> (length (nodes t) < f)%nat) ->
    Z.of_nat (length B + length (flat_map nodes l)) < 2 ^ 64 ->
    exists h', ref_loop (fun r k => expand_declarations f x name P r k) a g (Z.of_nat (length done)) (last B 0%nat) (st h) = Ret (last (B ++ map top (flat_map (moved name) l)) 0%nat) (st h')
      /\ nth_error h' a = Some (with_ch c (done ++ map top (flat_map stay l)))
      /\ nth_error h' P = Some (with_ch pc (B ++ map top (flat_map (moved name) l) ++ post))
      /\ Forall (holds h') (flat_map stay l) /\ Forall (holds h') (flat_map (moved name) l)
      /\ keeps (a :: P :: flat_map nodes l) h h' /\ length h' = length h.
  Proof.
    induction l as [|t l IH]; intros done g B h F Ha Dd HP Bn N Na NP O Lg Lf L64.
    - destruct g as [|g]; [cbn in Lg; lia|]. exists h. cbn [flat_map map]. split.
      + cbn [ref_loop]. erewrite b_ret; [|eapply run_size; [exact Ha|exact Hc]]. cbn [c_ch with_ch map]. rewrite !app_nil_r. rewrite Z.leb_refl. reflexivity.
      + rewrite !app_nil_r. cbn [map] in Ha. rewrite app_nil_r in Ha. cbn [app]. split; [exact Ha|]. split; [exact HP|]. split; [constructor|]. split; [constructor|]. split; [apply keeps_refl|reflexivity].
    - destruct g as [|g]; [cbn in Lg; lia|]. cbn [flat_map map] in *. rewrite app_length in L64.
      inversion F as [|? ? Ft Fl]; subst. inversion O as [|? ? Ot Ol]; subst.
      destruct (NoDup_app_inv _ _ N) as (NB & Ntl & DB). destruct (NoDup_app_inv _ _ Ntl) as (Nt & Nl & Dtl).
      assert (NBt : NoDup (B ++ nodes t)) by (apply NoDup_app_intro; auto; intros b Ib J; apply (DB b Ib), in_or_app; auto).
      assert (Ndone : ~ In (top t) done) by (intro I; apply (Dd _ I), in_or_app; left; apply top_in).
      cbn [ref_loop]. erewrite b_ret; [|eapply run_size; [exact Ha|exact Hc]]. cbn [c_ch with_ch]. rewrite app_length. cbn [length]. rewrite map_length.
      replace (Z.of_nat (length done + S (length l)) <=? Z.of_nat (length done)) with false by lia.
      erewrite b_ret; [|eapply (run_child h m ps a _ Ha (Z.of_nat (length done)) (top t)); [exact Hc|cbn [c_ch with_ch]; rewrite Nat2Z.id; apply nth_mid|lia]].
      destruct (Hf t x a qs c done (map top l) name P pc B post h) as (h1 & E1 & A1 & P1 & S1 & M1 & K1 & L1); auto.
      { intro I. apply Na, in_or_app; auto. }
      { intro I. apply NP, in_or_app; auto. }
      { apply Lf; now left. }
      { lia. }
      erewrite b_ret; [|exact E1].
      set (B1 := B ++ map top (moved name t)) in *.
      assert (G : exists done1, step_over a (top t) (Z.of_nat (length done)) (st h1) = Ret (Z.of_nat (length done1)) (st h1) /\ done1 = done ++ map top (stay t)).
      { destruct (stay_top t) as [Es|(k & Es & Tk)]; rewrite Es in *.
        - exists done. cbn [map]. rewrite app_nil_r. split; [|reflexivity]. cbn [map app] in A1. eapply step_gone; [exact A1|exact Hc|]. intro I. apply (Dtl (top t)); [apply top_in|apply tops_in; auto].
        - cbn [map app] in *. rewrite Tk in *. exists (done ++ [top t]). split; [|reflexivity]. eapply step_there; eauto. }
      destruct G as (done1 & Es & Ed). erewrite b_ret; [|exact Es].
      assert (DK : forall b, In b (flat_map nodes l) -> ~ In b (a :: P :: nodes t)).
      { intros b Ib [<-|[<-|J]]; [apply Na, in_or_app; auto|apply NP, in_or_app; auto|eapply Dtl; eauto]. }
      destruct (IH done1 g B1 h1) as (h2 & E2 & A2 & P2 & S2 & M2 & K2 & L2).
      + eapply holds_all_keeps; [exact K1|exact DK|exact Fl].
      + rewrite A1, Ed, <- app_assoc. reflexivity.
      + intros b Ib J. rewrite Ed in Ib. apply in_app_or in Ib. destruct Ib as [Ib|Ib]; [apply (Dd _ Ib), in_or_app; auto|].
        apply tops_in in Ib. apply stay_nodes in Ib. eapply Dtl; eauto.
      + rewrite P1. unfold B1. now rewrite <- app_assoc.
      + unfold B1. destruct B; [congruence|discriminate].
      + unfold B1. rewrite <- app_assoc. eapply NoDup_replace; [exact N|apply moved_NoDup; auto|apply moved_tops].
      + intro I; apply Na, in_or_app; auto.
      + intro I; apply NP, in_or_app; auto.
      + exact Ol.
      + cbn in Lg. lia.
      + intros; apply Lf; now right.
      + unfold B1. rewrite app_length, map_length. pose proof (moved_length t name). lia.
      + exists h2. assert (Kb : forall u, incl (flat_map nodes u) (nodes t) -> Forall (holds h1) u -> Forall (holds h2) u).
        { intros u Iu Fu. eapply holds_all_keeps; [exact K2| |exact Fu]. intros b Ib. specialize (Iu _ Ib). intros [<-|[<-|J]]; [apply Na, in_or_app; auto|apply NP, in_or_app; auto|eapply Dtl; eauto]. }
        split; [rewrite E2; unfold B1; rewrite map_app, <- app_assoc; reflexivity|].
        split; [rewrite A2, Ed, map_app, <- app_assoc; reflexivity|].
        split; [rewrite P2; unfold B1; rewrite map_app, <- !app_assoc; reflexivity|].
        split; [apply Forall_app; split; [apply Kb; [apply stay_nodes|exact S1]|exact S2]|].
        split; [apply Forall_app; split; [apply Kb; [apply moved_nodes|exact M1]|exact M2]|].
        split; [|lia]. eapply keeps_trans; eapply keeps_incl; [|exact K1| |exact K2]; intros b [<-|[<-|I]]; [now left|right; now left|right; right; apply in_or_app; auto|now left|right; now left|right; right; apply in_or_app; auto].
  Qed.
  Lemma walks_all : forall f, walks f.
  Proof.
    induction f as [|f IH]; intros t x0 q qs qc L R name P pc B post h X H Hq Eq NL HP Ep qP Bn N Nq NP O Lt L64; [lia|].
    destruct t as [a c l]. pose proof (holds_inv _ _ _ _ H) as (Ha & F). cbn [top nodes length] in *.
    inversion O as [? ? ? T1 T2 Ol]; subst. cbn [expand_declarations]. erewrite b_ret; [|eapply run_type; exact Ha]. cbn [c_type with_ch].
    destruct (NoDup_app_inv _ _ N) as (NB & Nal & DB). inversion Nal as [|? ? Nal1 Nl]; subst.
    pose proof (flat_nodes_length l) as Ll.
    assert (aP : a <> P) by (intros ->; apply NP; now left). assert (aq : a <> q) by (intros ->; apply Nq; now left).
    assert (Pl : ~ In P (flat_map nodes l)) by (intro; apply NP; now right).
    assert (Lf : forall t, In t l -> (length (nodes t) < f)%nat) by (intros t It; pose proof (nodes_in _ _ It); lia).
    assert (Df : stay (Tree a c l) = [Tree a c l] -> moved name (Tree a c l) = [] ->
       exists h', (ret (last B 0%nat) : C addr) (st h) = Ret (last (B ++ map top (moved name (Tree a c l))) 0%nat) (st h')
      /\ nth_error h' q = Some (with_ch qc (L ++ map top (stay (Tree a c l)) ++ R)) /\ nth_error h' P = Some (with_ch pc (B ++ map top (moved name (Tree a c l)) ++ post))
      /\ Forall (holds h') (stay (Tree a c l)) /\ Forall (holds h') (moved name (Tree a c l)) /\ keeps (q :: P :: a :: flat_map nodes l) h h' /\ length h' = length h).
    { intros -> ->. exists h. cbn [map app]. rewrite app_nil_r. split; [reflexivity|]. split; [exact Hq|]. split; [exact HP|]. split; [constructor; [exact H|constructor]|]. split; [constructor|]. split; [apply keeps_refl|reflexivity]. }
    assert (Gr : In (c_type c) [DECLARATION; LIST; OPEN_CURLYBRACKET] -> has_children (c_type c) = true -> 
       stay (Tree a c l) = match flat_map stay l with [] => [] | r => [Tree a c r] end -> moved name (Tree a c l) = flat_map (moved name) l ->
       exists h', (r <- ref_loop (fun r c => expand_declarations f (push x0 a) name P r c) a f 0 (last B 0%nat) ;;
          e <- lift (child_empty a) ;;
          (if e : bool then p <- previous_parent (push x0 a) ;; lift (remove_child p a) else ret tt) ;;;
          ret r) (st h) = Ret (last (B ++ map top (moved name (Tree a c l))) 0%nat) (st h')
      /\ nth_error h' q = Some (with_ch qc (L ++ map top (stay (Tree a c l)) ++ R)) /\ nth_error h' P = Some (with_ch pc (B ++ map top (moved name (Tree a c l)) ++ post))
      /\ Forall (holds h') (stay (Tree a c l)) /\ Forall (holds h') (moved name (Tree a c l)) /\ keeps (q :: P :: a :: flat_map nodes l) h h' /\ length h' = length h).
    { intros Ty Hc -> ->. specialize (Ol Ty).
      destruct (loop_decl f IH (push x0 a) (x_parents x0) a c name P pc eq_refl Hc Ep aP post l [] f B h) as (h1 & E1 & A1 & P1 & S1 & M1 & K1 & L1); auto.
      { apply NoDup_app_intro; auto. intros b Ib J. apply (DB b Ib). now right. }
      { lia. }
      { lia. }
      rewrite (b_ret _ _ _ _ _ E1). cbn [app] in A1. erewrite b_ret; [|eapply run_empty; [exact A1|exact Hc]]. cbn [c_ch with_ch].
      assert (Q1 : nth_error h1 q = Some (with_ch qc (L ++ a :: R))).
      { destruct K1 as (_ & K1). rewrite K1; [exact Hq|eapply nth_lt; eauto|]. intros [E|[E|I]]; [congruence|congruence|apply Nq; now right]. }
      destruct (flat_map stay l) as [|u r] eqn:Es.
      - cbn [map]. unfold previous_parent, push. cbn [x_parents]. rewrite X. rewrite bind_assoc. rewrite bind_ret.
        erewrite b_ret; [|eapply run_remove; [exact Q1|exact Eq|cbn [c_ch with_ch]; apply find_mid; exact NL]]. cbn [c_ch with_ch]. rewrite erase_mid.
        set (h2 := put h1 q _). exists h2. split; [reflexivity|]. cbn [app].
        assert (K2 : keeps [q] h1 h2) by (apply keeps_put; now left).
        split; [apply put_same; rewrite L1; eapply nth_lt; eauto|].
        split; [unfold h2; rewrite put_other by auto; exact P1|]. split; [constructor|].
        split; [eapply holds_all_keeps; [exact K2| |exact M1]; intros b Ib [<-|[]]; apply Nq; right; rewrite flat_flat in Ib; revert Ib; apply (flat_incl (fun x => flat_map nodes (moved name x))); intros; apply moved_nodes|].
        split; [|unfold h2; rewrite put_length; exact L1].
        eapply keeps_trans; eapply keeps_incl; [|exact K1| |exact K2]; [intros b [<-|[<-|I]]; cbn; auto|intros b [<-|[]]; cbn; auto].
      - cbn [map]. rewrite bind_ret. exists h1. split; [reflexivity|]. split; [exact Q1|]. split; [exact P1|].
        split; [constructor; [|constructor]; constructor; [exact A1|exact S1]|]. split; [exact M1|]. split; [|exact L1].
        eapply keeps_incl; [|exact K1]. intros b [<-|[<-|I]]; cbn; auto. }
    destruct (ntype_eqb (c_type c) DECLARATION) eqn:Dt.
    - apply ntype_eqb_spec in Dt. rewrite Dt. cbv iota. assert (Hc : has_children (c_type c) = true) by (rewrite Dt; reflexivity).
      assert (Hs : has_str (c_type c) = true) by (rewrite Dt; reflexivity). assert (Ty : In (c_type c) [DECLARATION; LIST; OPEN_CURLYBRACKET]) by (rewrite Dt; now left). specialize (Ol Ty).
      assert (Es : stay (Tree a c l) = []) by (cbn [stay]; rewrite Dt; reflexivity).
      set (full := prefix name ++ c_str c).
      assert (Em : moved name (Tree a c l) = Tree a (with_str c full) (flat_map stay l) :: flat_map (moved full) l) by (cbn [moved]; rewrite Dt; reflexivity).
      erewrite b_ret; [|eapply run_string; [exact Ha|exact Hs]]. cbn [c_str with_ch]. fold (prefix name). fold full.
      unfold previous_parent at 1, push at 1. cbn [x_parents]. rewrite X. rewrite bind_ret.
      erewrite b_ret; [|eapply run_remove; [exact Hq|exact Eq|cbn [c_ch with_ch]; apply find_mid; exact NL]]. cbn [c_ch with_ch]. rewrite erase_mid.
      set (h1 := put h q _). assert (Lq : (q < length h)%nat) by (eapply nth_lt; eauto). assert (LP : (P < length h)%nat) by (eapply nth_lt; eauto). assert (La : (a < length h)%nat) by (eapply nth_lt; eauto).
      assert (Ha1 : nth_error h1 a = Some (with_ch c (map top l))) by (unfold h1; rewrite put_other by auto; exact Ha).
      assert (HP1 : nth_error h1 P = Some (with_ch pc (B ++ post))) by (unfold h1; rewrite put_other by auto; exact HP).
      erewrite b_ret; [|eapply insert_after_run; [exact HP1|exact Ep|exact NB|exact Bn|exact Ha1|left; exact Dt|lia]].
      set (h2 := put h1 P _).
      assert (Ha2 : nth_error h2 a = Some (with_ch c (map top l))) by (unfold h2; rewrite put_other by auto; exact Ha1).
      erewrite b_ret; [|eapply run_set_string; [exact Ha2|exact Hs]].
      set (h3 := put h2 a _). assert (Ll1 : length h1 = length h) by apply put_length. assert (Ll2 : length h2 = length h) by (unfold h2; rewrite put_length; auto). assert (Ll3 : length h3 = length h) by (unfold h3; rewrite put_length; auto).
      assert (Ha3 : nth_error h3 a = Some (with_ch (with_str c full) (map top l))) by (unfold h3; rewrite put_same by lia; reflexivity).
      assert (HP3 : nth_error h3 P = Some (with_ch pc ((B ++ [a]) ++ post))) by (unfold h3; rewrite put_other by auto; unfold h2; rewrite put_same by lia; now rewrite <- app_assoc).
      assert (Hq3 : nth_error h3 q = Some (with_ch qc (L ++ R))) by (unfold h3; rewrite put_other by auto; unfold h2; rewrite put_other by auto; unfold h1; apply put_same; auto).
      assert (K3 : keeps [q; P; a] h h3).
      { unfold h3. eapply keeps_trans; [|apply keeps_put; cbn; auto]. unfold h2. eapply keeps_trans; [|apply keeps_put; cbn; auto]. apply keeps_put. cbn; auto. }
      destruct (loop_decl f IH (push x0 a) (x_parents x0) a (with_str c full) full P pc eq_refl Hc Ep aP post l [] f (B ++ [a]) h3) as (h4 & E4 & A4 & P4 & S4 & M4 & K4 & L4); auto.
      { eapply holds_all_keeps; [exact K3| |exact F]. intros b Ib [<-|[<-|[<-|[]]]]; [apply Nq; now right|auto|auto]. }
      { destruct B; discriminate. }
      { rewrite <- app_assoc. exact N. }
      { lia. }
      { rewrite app_length. cbn [length]. lia. }
      rewrite last_last in E4. exists h4. rewrite Es, Em. split; [cbn [map]; rewrite <- app_assoc in E4; exact E4|].
      assert (Q4 : nth_error h4 q = Some (with_ch qc (L ++ R))).
      { destruct K4 as (_ & K4). rewrite K4; [exact Hq3|lia|]. intros [E|[E|I]]; [congruence|congruence|apply Nq; now right]. }
      cbn [map app top]. split; [exact Q4|]. split; [rewrite P4; rewrite <- app_assoc; reflexivity|]. split; [constructor|].
      split; [constructor; [constructor; [exact A4|exact S4]|exact M4]|]. split; [|lia].
      eapply keeps_trans; eapply keeps_incl; [|exact K3| |exact K4]; [intros b [<-|[<-|[<-|[]]]]; cbn; auto|intros b [<-|[<-|I]]; cbn; auto].
    - cbn [stay moved] in Df, Gr |- *. destruct (c_type c); try discriminate Dt; try congruence;
        first [apply Df; reflexivity | apply Gr; [cbn; auto|reflexivity|reflexivity|reflexivity]].
  Qed.
End Walk.
