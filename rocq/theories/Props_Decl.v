(** * Nested declarations (C47) *)

From Coq Require Import String ZArith List Bool Lia Arith Floats.SpecFloat.
From Verif Require Import Base NodeHeap NodeProofs Compiler CompRun ScopeProofs IfProofs Trees DeclSpec Props_If Props_Prune DeclProofs.
Import ListNotations.
Open Scope string_scope. Open Scope list_scope. Open Scope Z_scope.
Ltac Zify.zify_post_hook ::= idtac.

(** ** What is moved has nothing left to move *)
Lemma stay_again t : flat_map stay (stay t) = stay t /\ forall n, flat_map (moved n) (stay t) = [].
Proof.
  induction t as [a c l IH] using tree_rect'. rewrite Forall_forall in IH.
  assert (I1 : flat_map stay (flat_map stay l) = flat_map stay l).
  { rewrite flat_flat. clear -IH. induction l as [|t l IHl]; cbn [flat_map]; [reflexivity|]. rewrite IHl by (intros; apply IH; now right). f_equal. apply IH. now left. }
  assert (I2 : forall n, flat_map (moved n) (flat_map stay l) = []).
  { intro n. rewrite flat_flat. clear -IH. induction l as [|t l IHl]; cbn [flat_map]; [reflexivity|]. rewrite IHl by (intros; apply IH; now right). rewrite app_nil_r. apply IH. now left. }
  cbn [stay]. destruct (c_type c) eqn:T; try (split; [cbn [flat_map]; cbn [stay]; rewrite T; reflexivity|intro n; cbn [flat_map]; cbn [moved]; rewrite T; reflexivity]);
  try (destruct (flat_map stay l) as [|u r] eqn:E; [split; reflexivity|]; split; [cbn [flat_map]; cbn [stay]; rewrite T, I1; reflexivity|intro n; cbn [flat_map]; cbn [moved]; rewrite T, (I2 n); reflexivity]).
  split; reflexivity.
Qed.
Lemma stays_again l : flat_map stay (flat_map stay l) = flat_map stay l.
Proof. rewrite flat_flat. induction l as [|t l IHl]; cbn [flat_map]; [reflexivity|]. now rewrite IHl, (proj1 (stay_again t)). Qed.
Lemma stays_moved n l : flat_map (moved n) (flat_map stay l) = [].
Proof. rewrite flat_flat. induction l as [|t l IHl]; cbn [flat_map]; [reflexivity|]. now rewrite IHl, (proj2 (stay_again t)). Qed.
(** A declaration whose own value has no block. *)
Definition settled_decl (t : tree) : Prop := kind t = DECLARATION /\ flat_map stay (kids t) = kids t /\ forall n, flat_map (moved n) (kids t) = [].
Lemma moved_settled t : forall n, Forall settled_decl (moved n t).
Proof.
  induction t as [a c l IH] using tree_rect'. intro n. rewrite Forall_forall in IH.
  assert (G : forall n, Forall settled_decl (flat_map (moved n) l)).
  { intro k. apply Forall_forall. intros u Iu. apply in_flat_map in Iu. destruct Iu as (t & It & Iu). specialize (IH t It k). rewrite Forall_forall in IH. auto. }
  cbn [moved]. destruct (c_type c) eqn:T; try constructor; try apply G; try exact (G _).
  unfold settled_decl, kind. cbn [data kids c_type with_str]. split; [exact T|]. split; [apply stays_again|intro; apply stays_moved].
Qed.
Lemma stay_only t : only_declarations t -> Forall only_declarations (stay t).
Proof.
  induction t as [a c l IH] using tree_rect'. intro O. rewrite Forall_forall in IH. inversion O as [? ? ? T1 T2 Ol]; subst. cbn [stay].
  assert (G : In (c_type c) [DECLARATION; LIST; OPEN_CURLYBRACKET] -> Forall only_declarations (flat_map stay l)).
  { intro Ty. specialize (Ol Ty). apply Forall_forall. intros u Iu. apply in_flat_map in Iu. destruct Iu as (t & It & Iu). rewrite Forall_forall in Ol. specialize (IH t It (Ol t It)). rewrite Forall_forall in IH. auto. }
  assert (Gr : In (c_type c) [DECLARATION; LIST; OPEN_CURLYBRACKET] -> Forall only_declarations (match flat_map stay l with [] => [] | r => [Tree a c r] end)).
  { intro Ty. specialize (G Ty). destruct (flat_map stay l); constructor; [|constructor]. constructor; auto. }
  destruct (c_type c); first [apply Gr; cbn; auto; fail | constructor; [exact O|constructor] | constructor].
Qed.
Lemma stays_only l : Forall only_declarations l -> Forall only_declarations (flat_map stay l).
Proof. intro O. apply Forall_forall. intros u Iu. apply in_flat_map in Iu. destruct Iu as (t & It & Iu). rewrite Forall_forall in O. pose proof (stay_only t (O t It)) as S. rewrite Forall_forall in S. auto. Qed.
Lemma moved_only t : forall n, only_declarations t -> Forall only_declarations (moved n t).
Proof.
  induction t as [a c l IH] using tree_rect'. intros n O. rewrite Forall_forall in IH. inversion O as [? ? ? T1 T2 Ol]; subst. cbn [moved].
  assert (G : In (c_type c) [DECLARATION; LIST; OPEN_CURLYBRACKET] -> forall k, Forall only_declarations (flat_map (moved k) l)).
  { intros Ty k. specialize (Ol Ty). apply Forall_forall. intros u Iu. apply in_flat_map in Iu. destruct Iu as (t & It & Iu). rewrite Forall_forall in Ol. specialize (IH t It k (Ol t It)). rewrite Forall_forall in IH. auto. }
  destruct (c_type c) eqn:T; try (constructor; fail); try (apply G; cbn; auto; fail).
  constructor; [|apply G; cbn; auto]. constructor; cbn [c_type with_str]; rewrite ?T; [discriminate|discriminate|]. intros _. apply stays_only, Ol. now left.
Qed.
Lemma both_NoDup (f g : tree -> list addr) l : (forall t, In t l -> NoDup (nodes t) -> NoDup (f t ++ g t)) -> (forall t, In t l -> incl (f t ++ g t) (nodes t)) ->
  NoDup (flat_map nodes l) -> NoDup (flat_map f l ++ flat_map g l).
Proof.
  induction l as [|t l IH]; cbn [flat_map]; intros H I N; [constructor|]. apply NoDup_app_inv in N. destruct N as (N1 & N2 & D).
  assert (IHl : NoDup (flat_map f l ++ flat_map g l)) by (apply IH; auto; intros; [apply H|apply I]; auto; now right).
  assert (It : incl (f t ++ g t) (nodes t)) by (apply I; now left). assert (Nt : NoDup (f t ++ g t)) by (apply H; [now left|auto]).
  assert (Il : incl (flat_map f l ++ flat_map g l) (flat_map nodes l)).
  { apply incl_app; apply flat_incl; intros u Iu x Ix; apply (I u); [now right|apply in_or_app; auto|now right|apply in_or_app; auto]. }
  apply NoDup_app_inv in IHl. destruct IHl as (Nf & Ng & Dfg). apply NoDup_app_inv in Nt. destruct Nt as (Ntf & Ntg & Dt).
  assert (X : forall x, In x (nodes t) -> ~ In x (flat_map f l) /\ ~ In x (flat_map g l)).
  { intros x Ix. split; intro J; apply (D x Ix), Il, in_or_app; auto. }
  apply NoDup_app_intro; [apply NoDup_app_intro; auto; intros x Ix; apply X, It, in_or_app; auto|apply NoDup_app_intro; auto; intros x Ix; apply X, It, in_or_app; auto|].
  intros x J K. apply in_app_or in J. apply in_app_or in K. destruct J as [J|J], K as [K|K].
  - eapply Dt; eauto.
  - eapply (proj2 (X x ltac:(apply It, in_or_app; auto))); eauto.
  - eapply (proj1 (X x ltac:(apply It, in_or_app; auto))); eauto.
  - eapply Dfg; eauto.
Qed.
Lemma parts_NoDup t : forall n, NoDup (nodes t) -> NoDup (flat_map nodes (stay t) ++ flat_map nodes (moved n t)).
Proof.
  induction t as [a c l IH] using tree_rect'. intros n N. rewrite Forall_forall in IH. cbn [nodes] in N. inversion N as [|? ? Na Nl]; subst.
  assert (Inc : forall k, forall t, In t l -> incl (flat_map nodes (stay t) ++ flat_map nodes (moved k t)) (nodes t)).
  { intros k t _. apply incl_app; [apply stay_nodes|apply moved_nodes]. }
  assert (G : forall k, NoDup (flat_map nodes (flat_map stay l) ++ flat_map nodes (flat_map (moved k) l))).
  { intro k. rewrite !flat_flat. apply both_NoDup; auto. }
  assert (Gi : forall k, incl (flat_map nodes (flat_map stay l) ++ flat_map nodes (flat_map (moved k) l)) (flat_map nodes l)).
  { intro k. rewrite !flat_flat. apply incl_app; apply flat_incl; intros u Iu; [apply stay_nodes|apply moved_nodes]. }
  assert (Gr : NoDup (flat_map nodes (match flat_map stay l with [] => [] | r => [Tree a c r] end) ++ flat_map nodes (flat_map (moved n) l))).
  { destruct (flat_map stay l) as [|u r] eqn:E; [specialize (G n); exact G|]. rewrite <- E in *. cbn [flat_map nodes]. rewrite app_nil_r. cbn [app]. constructor; [|apply G]. intro I. apply Na, (Gi n), I. }
  cbn [stay moved]. destruct (c_type c); cbn [flat_map app]; rewrite ?app_nil_r; try exact N; try exact Gr.
  cbn [nodes]. cbn [app]. constructor; [|apply G]. intro I. apply Na. eapply Gi, I.
Qed.

(** ** One declaration *)
Section Decl.
  Variables (m : list msg) (ps : list str).
  Notation st h := (mkK h m ps).
  Lemma loop_one f x qs n c P pc pre post (X : x_parents x = n :: P :: qs) (Tc : c_type c = DECLARATION) (Hp : has_children (c_type pc) = true) (nP : n <> P) :
    forall l done mv g h,
    Forall (holds h) l -> nth_error h n = Some (with_ch c (done ++ map top l)) -> (forall b, In b done -> ~ In b (flat_map nodes l)) ->
    nth_error h P = Some (with_ch pc (pre ++ n :: mv ++ post)) -> NoDup ((pre ++ [n]) ++ flat_map nodes l) ->
    ~ In P (flat_map nodes l) -> Forall only_declarations l -> (length l < g)%nat -> (forall t, In t l -> (length (nodes t) < f)%nat) ->
    Z.of_nat (length pre + 1 + length (flat_map nodes l)) < 2 ^ 64 ->
    exists h', step_loop (fun k => s <- lift (get_string n) ;; p <- previous_parent x ;; expand_declarations f x s p n k ;;; ret tt) n g (Z.of_nat (length done)) (st h) = Ret tt (st h')
      /\ nth_error h' n = Some (with_ch c (done ++ map top (flat_map stay l)))
      /\ nth_error h' P = Some (with_ch pc (pre ++ n :: map top (concat (rev (map (moved (c_str c)) l))) ++ mv ++ post))
      /\ Forall (holds h') (flat_map stay l) /\ Forall (holds h') (flat_map (moved (c_str c)) l)
      /\ keeps (n :: P :: flat_map nodes l) h h' /\ length h' = length h.
  Proof.
    assert (Hc : has_children (c_type c) = true) by (rewrite Tc; reflexivity). assert (Hs : has_str (c_type c) = true) by (rewrite Tc; reflexivity).
    induction l as [|t l IH]; intros done mv g h F Hn Dd HP N NP O Lg Lf L64.
    - destruct g as [|g]; [cbn in Lg; lia|]. exists h. cbn [flat_map map rev concat app]. split.
      + cbn [step_loop]. erewrite b_ret; [|eapply run_size; [exact Hn|exact Hc]]. cbn [c_ch with_ch map]. rewrite !app_nil_r. rewrite Z.leb_refl. reflexivity.
      + split; [exact Hn|]. split; [exact HP|]. split; [constructor|]. split; [constructor|]. split; [apply keeps_refl|reflexivity].
    - destruct g as [|g]; [cbn in Lg; lia|]. cbn [flat_map map rev concat] in *. rewrite app_length in L64.
      inversion F as [|? ? Ft Fl]; subst. inversion O as [|? ? Ot Ol]; subst.
      destruct (NoDup_app_inv _ _ N) as (NB & Ntl & DB). destruct (NoDup_app_inv _ _ Ntl) as (Nt & Nl & Dtl).
      assert (NBt : NoDup ((pre ++ [n]) ++ nodes t)) by (apply NoDup_app_intro; auto; intros b Ib J; apply (DB b Ib), in_or_app; auto).
      assert (Nn : ~ In n (nodes t ++ flat_map nodes l)) by (apply DB, in_or_app; right; now left).
      assert (Ndone : ~ In (top t) done) by (intro I; apply (Dd _ I), in_or_app; left; apply top_in).
      cbn [step_loop]. erewrite b_ret; [|eapply run_size; [exact Hn|exact Hc]]. cbn [c_ch with_ch]. rewrite app_length. cbn [length]. rewrite map_length.
      replace (Z.of_nat (length done + S (length l)) <=? Z.of_nat (length done)) with false by lia.
      erewrite b_ret; [|eapply (run_child h m ps n _ Hn (Z.of_nat (length done)) (top t)); [exact Hc|cbn [c_ch with_ch]; rewrite Nat2Z.id; apply nth_mid|lia]].
      destruct (walks_all m ps f t x n (P :: qs) c done (map top l) (c_str c) P pc (pre ++ [n]) (mv ++ post) h) as (h1 & E1 & A1 & P1 & S1 & M1 & K1 & L1); auto.
      { rewrite <- app_assoc. exact HP. }
      { destruct pre; discriminate. }
      { intro I. apply Nn, in_or_app; auto. }
      { intro I. apply NP, in_or_app; auto. }
      { apply Lf; now left. }
      { rewrite app_length. cbn [length]. lia. }
      rewrite last_last in E1.
      assert (Ea : (s <- lift (get_string n) ;; p <- previous_parent x ;; expand_declarations f x s p n (top t) ;;; ret tt) (st h) = Ret tt (st h1)).
      { erewrite b_ret; [|eapply run_string; [exact Hn|exact Hs]]. cbn [c_str with_ch]. unfold previous_parent. rewrite X, bind_ret. rewrite (b_ret _ _ _ _ _ E1). reflexivity. }
      erewrite b_ret; [|exact Ea].
      assert (G : exists done1, step_over n (top t) (Z.of_nat (length done)) (st h1) = Ret (Z.of_nat (length done1)) (st h1) /\ done1 = done ++ map top (stay t)).
      { destruct (stay_top t) as [Es|(k & Es & Tk)]; rewrite Es in *.
        - exists done. cbn [map]. rewrite app_nil_r. split; [|reflexivity]. cbn [map app] in A1. eapply step_gone; [exact A1|exact Hc|]. intro I. apply (Dtl (top t)); [apply top_in|apply tops_in; auto].
        - cbn [map app] in *. rewrite Tk in *. exists (done ++ [top t]). split; [|reflexivity]. eapply step_there; eauto. }
      destruct G as (done1 & Es & Ed). erewrite b_ret; [|exact Es].
      assert (DK : forall b, In b (flat_map nodes l) -> ~ In b (n :: P :: nodes t)).
      { intros b Ib [<-|[<-|J]]; [apply Nn, in_or_app; auto|apply NP, in_or_app; auto|eapply Dtl; eauto]. }
      destruct (IH done1 (map top (moved (c_str c) t) ++ mv) g h1) as (h2 & E2 & A2 & P2 & S2 & M2 & K2 & L2).
      + eapply holds_all_keeps; [exact K1|exact DK|exact Fl].
      + rewrite A1, Ed, <- app_assoc. reflexivity.
      + intros b Ib J. rewrite Ed in Ib. apply in_app_or in Ib. destruct Ib as [Ib|Ib]; [apply (Dd _ Ib), in_or_app; auto|].
        apply tops_in in Ib. apply stay_nodes in Ib. eapply Dtl; eauto.
      + rewrite P1. repeat (rewrite <- app_assoc; cbn [app]). reflexivity.
      + apply NoDup_app_intro; auto. intros b Ib J. apply (DB b Ib), in_or_app; auto.
      + intro I; apply NP, in_or_app; auto.
      + exact Ol.
      + cbn in Lg. lia.
      + intros; apply Lf; now right.
      + lia.
      + exists h2. assert (Kb : forall u, incl (flat_map nodes u) (nodes t) -> Forall (holds h1) u -> Forall (holds h2) u).
        { intros u Iu Fu. eapply holds_all_keeps; [exact K2| |exact Fu]. intros b Ib. specialize (Iu _ Ib). intros [<-|[<-|J]]; [apply Nn, in_or_app; auto|apply NP, in_or_app; auto|eapply Dtl; eauto]. }
        split; [exact E2|].
        split; [rewrite A2, Ed, map_app, <- app_assoc; reflexivity|].
        split; [rewrite P2, concat_app, map_app; cbn [concat]; rewrite app_nil_r, <- !app_assoc; reflexivity|].
        split; [apply Forall_app; split; [apply Kb; [apply stay_nodes|exact S1]|exact S2]|].
        split; [apply Forall_app; split; [apply Kb; [apply moved_nodes|exact M1]|exact M2]|].
        split; [|lia]. eapply keeps_trans; eapply keeps_incl; [|exact K1| |exact K2]; intros b [<-|[<-|I]]; [now left|right; now left|right; right; apply in_or_app; auto|now left|right; now left|right; right; apply in_or_app; auto].
  Qed.
End Decl.
(** With one block the order is kept. *)
Lemma value_moved l n : Forall value_token l -> map (moved n) l = map (fun _ => []) l.
Proof.
  induction 1 as [|t l V _ IH]; cbn [map]; [reflexivity|]. rewrite IH. f_equal. destruct t as [a c k]. unfold value_token, kind in V. cbn [data] in V. cbn [moved]. destruct (c_type c); try reflexivity; exfalso; apply V; cbn; auto.
Qed.
Lemma concat_nils {A B} (l : list A) : concat (map (fun _ => @nil B) l) = [].
Proof. induction l; cbn; auto. Qed.
Definition in_order (t : tree) : Prop := forall n, concat (rev (map (moved n) (kids t))) = flat_map (moved n) (kids t).
Lemma one_block_order t : one_block t -> in_order t.
Proof.
  intros (l & r & Vl & Vr & [E|(b & E)]) n; rewrite E, !flat_map_concat_map, !map_app; cbn [map]; rewrite !(value_moved _ n Vl), !(value_moved _ n Vr), rev_app_distr.
  - rewrite <- !map_rev. rewrite !concat_app, !concat_nils. reflexivity.
  - cbn [rev]. rewrite <- !map_rev. rewrite !concat_app, !concat_nils. cbn [concat]. rewrite !concat_nils. now rewrite !app_nil_r.
Qed.
Lemma settled_order t : settled_decl t -> in_order t.
Proof.
  intros (_ & _ & M) n. rewrite M. specialize (M n). rewrite flat_map_concat_map in M. revert M. induction (kids t) as [|k l IH]; cbn [map concat rev]; [auto|]. intro M. apply app_eq_nil in M. destruct M as (M1 & M2).
  rewrite concat_app, IH by auto. cbn. rewrite M1. reflexivity.
Qed.

(** ** A block of declarations *)
Definition has_value (t : tree) : bool := match kids t with [] => false | _ => true end.
Definition written_out (t : tree) : list tree := filter has_value (declared t).
Lemma written_settled l : Forall settled_decl l -> flat_map written_out l = filter has_value l.
Proof.
  induction 1 as [|t l (K & S & M) _ IH]; cbn [flat_map filter]; [reflexivity|]. rewrite IH. destruct t as [a c k]. cbn [kids] in *. unfold written_out, declared. rewrite S, M. cbn [filter]. destruct (has_value (Tree a c k)); reflexivity.
Qed.
Definition weight (t : tree) : nat := length (declared t).
Lemma weight_settled l : Forall settled_decl l -> length (flat_map declared l) = length l.
Proof. induction 1 as [|t l (K & S & M) _ IH]; cbn [flat_map length]; [reflexivity|]. rewrite app_length, IH. destruct t as [a c k]. cbn [kids] in *. unfold declared. rewrite M. reflexivity. Qed.
Lemma declared_weight t : (length (declared t) <= length (nodes t))%nat.
Proof.
  destruct t as [a c l]. cbn [declared nodes length]. apply le_n_S. induction l as [|k l IH]; cbn [flat_map]; [reflexivity|]. rewrite !app_length. pose proof (moved_length k (c_str c)). lia.
Qed.

Section Block.
  Variables (m : list msg) (ps : list str).
  Notation st h := (mkK h m ps).
  Lemma run_one f x0 rules last P qs pc pre post t h :
    x_parents x0 = P :: qs -> holds h t -> kind t = DECLARATION -> Forall only_declarations (kids t) -> in_order t ->
    nth_error h P = Some (with_ch pc (pre ++ top t :: post)) -> has_children (c_type pc) = true -> ~ In P (nodes t) -> NoDup (pre ++ nodes t) ->
    (length (nodes t) <= f)%nat -> Z.of_nat (length pre + length (nodes t)) < 2 ^ 64 ->
    exists h', expand (S f) x0 (Some rules) last (top t) (st h) = Ret last (st h')
      /\ nth_error h' P = Some (with_ch pc (pre ++ map top (filter has_value [Tree (top t) (data t) (flat_map stay (kids t))]) ++ map top (flat_map (moved (c_str (data t))) (kids t)) ++ post))
      /\ holds h' (Tree (top t) (data t) (flat_map stay (kids t))) /\ Forall (holds h') (flat_map (moved (c_str (data t))) (kids t))
      /\ keeps (P :: nodes t) h h' /\ length h' = length h.
  Proof.
    destruct t as [n c l]. unfold kind. cbn [top kids data nodes length]. intros X H Tc O Ord HP Ep NP N Lf L64. pose proof (holds_inv _ _ _ _ H) as (Hn & F).
    destruct (NoDup_app_inv _ _ N) as (Npre & Nnl & Dp). inversion Nnl as [|? ? Nn Nl]; subst. pose proof (flat_nodes_length l) as Ll.
    assert (nP : n <> P) by (intros ->; apply NP; now left).
    destruct (loop_one m ps f (push x0 n) qs n c P pc pre post ltac:(unfold push; cbn [x_parents]; rewrite X; reflexivity) Tc Ep nP l [] [] f h) as (h1 & E1 & A1 & P1 & S1 & M1 & K1 & L1); auto.
    { rewrite <- app_assoc. exact N. }
    { intro I. apply NP. now right. }
    { lia. }
    { intros t It. pose proof (nodes_in _ _ It). lia. }
    { lia. }
    assert (Hc : has_children (c_type c) = true) by (rewrite Tc; reflexivity).
    cbn [expand]. destruct rules as (parent & root). erewrite b_ret; [|eapply run_type; exact Hn]. cbn [c_type with_ch]. rewrite Tc. cbv iota.
    unfold expand_declaration. rewrite (b_ret _ _ _ _ _ E1). cbn [app] in A1, P1. erewrite b_ret; [|eapply run_empty; [exact A1|exact Hc]]. cbn [c_ch with_ch].
    specialize (Ord (c_str c)). cbn [kids] in Ord. rewrite Ord in P1.
    destruct (flat_map stay l) as [|u r] eqn:Es.
    - cbn [map]. unfold previous_parent, push. cbn [x_parents]. rewrite X. rewrite bind_assoc, bind_ret.
      erewrite b_ret; [|eapply run_remove; [exact P1|exact Ep|cbn [c_ch with_ch]; apply find_mid; intro I; apply (Dp _ I); now left]]. cbn [c_ch with_ch]. rewrite erase_mid.
      set (h2 := put h1 P _). exists h2. split; [reflexivity|]. cbn [filter has_value kids map app].
      assert (K2 : keeps [P] h1 h2) by (apply keeps_put; now left).
      split; [apply put_same; rewrite L1; eapply nth_lt; eauto|].
      split; [constructor; [unfold h2; rewrite put_other by auto; exact A1|constructor]|].
      split; [eapply holds_all_keeps; [exact K2| |exact M1]; intros b Ib [<-|[]]; apply NP; right; rewrite flat_flat in Ib; revert Ib; apply (flat_incl (fun x => flat_map nodes (moved (c_str c) x))); intros; apply moved_nodes|].
      split; [|unfold h2; rewrite put_length; exact L1].
      eapply keeps_trans; eapply keeps_incl; [|exact K1| |exact K2]; [intros b [<-|[<-|I]]; cbn; auto|intros b [<-|[]]; cbn; auto].
    - cbn [map]. rewrite bind_ret. exists h1. split; [reflexivity|]. cbn [filter has_value kids map app top].
      split; [exact P1|]. split; [constructor; [exact A1|exact S1]|]. split; [exact M1|]. split; [|exact L1].
      eapply keeps_incl; [|exact K1]. intros b [<-|[<-|I]]; cbn; auto.
  Qed.
  Lemma loop_block f x qs P pc rules last (X : x_parents x = P :: qs) (Ep : has_children (c_type pc) = true) : forall k l done g h,
    (length (flat_map declared l) <= k)%nat -> (k < g)%nat ->
    Forall (holds h) l -> Forall (fun t => kind t = DECLARATION) l -> Forall (fun t => Forall only_declarations (kids t)) l -> Forall in_order l ->
    nth_error h P = Some (with_ch pc (done ++ map top l)) -> NoDup (P :: done ++ flat_map nodes l) ->
    (forall t, In t l -> (length (nodes t) <= f)%nat) -> Z.of_nat (length done + length (flat_map nodes l)) < 2 ^ 64 ->
    exists h', ref_loop (fun v c => expand (S f) x (Some rules) v c) P g (Z.of_nat (length done)) last (st h) = Ret last (st h')
      /\ nth_error h' P = Some (with_ch pc (done ++ map top (flat_map written_out l))) /\ Forall (holds h') (flat_map written_out l)
      /\ keeps (P :: flat_map nodes l) h h' /\ length h' = length h.
  Proof.
    induction k as [|k IH]; intros l done g h Lk Lg F Kd O Ord HP N Lf L64; (destruct g as [|g]; [lia|]);
      destruct l as [|t l].
    1, 3: exists h; cbn [flat_map map] in *; split; [cbn [ref_loop]; erewrite b_ret; [|eapply run_size; [exact HP|exact Ep]]; cbn [c_ch with_ch]; rewrite app_nil_r, Z.leb_refl; reflexivity|];
      (split; [exact HP|]; split; [constructor|]; split; [apply keeps_refl|reflexivity]).
    { exfalso. destruct t. cbn in Lk. lia. }
    inversion F as [|? ? Ft Fl]; subst. inversion Kd as [|? ? Kt Kl]; subst. inversion O as [|? ? Ot Ol]; subst. inversion Ord as [|? ? Rt Rl]; subst.
    cbn [flat_map map] in *. rewrite app_length in L64, Lk. inversion N as [|? ? NP Nd]; subst. destruct (NoDup_app_inv _ _ Nd) as (Nd1 & Ntl & Dd). destruct (NoDup_app_inv _ _ Ntl) as (Nt & Nl & Dtl).
    assert (NPt : ~ In P (nodes t)) by (intro; apply NP, in_or_app; right; apply in_or_app; auto).
    assert (NPl : ~ In P (flat_map nodes l)) by (intro; apply NP, in_or_app; right; apply in_or_app; auto).
    cbn [ref_loop]. erewrite b_ret; [|eapply run_size; [exact HP|exact Ep]]. cbn [c_ch with_ch]. rewrite app_length. cbn [length]. rewrite map_length.
    replace (Z.of_nat (length done + S (length l)) <=? Z.of_nat (length done)) with false by lia.
    erewrite b_ret; [|eapply (run_child h m ps P _ HP (Z.of_nat (length done)) (top t)); [exact Ep|cbn [c_ch with_ch]; rewrite Nat2Z.id; apply nth_mid|lia]].
    destruct (run_one f x rules last P qs pc done (map top l) t h X Ft Kt Ot Rt HP Ep NPt) as (h1 & E1 & P1 & S1 & M1 & K1 & L1).
    { apply NoDup_app_intro; auto. intros b Ib J. apply (Dd b Ib), in_or_app; auto. }
    { apply Lf; now left. }
    { lia. }
    rewrite (b_ret _ _ _ _ _ E1).
    set (own := Tree (top t) (data t) (flat_map stay (kids t))) in *. set (mv := flat_map (moved (c_str (data t))) (kids t)) in *.
    assert (Ed : declared t = own :: mv) by (destruct t; reflexivity).
    assert (Pn : NoDup (top t :: flat_map nodes (flat_map stay (kids t)) ++ flat_map nodes mv) /\ incl (top t :: flat_map nodes (flat_map stay (kids t)) ++ flat_map nodes mv) (nodes t)).
    { destruct t as [n c ll]. unfold mv. cbn [top kids data nodes] in *. inversion Nt as [|? ? Q1 Q2]; subst.
      assert (Qi : incl (flat_map nodes (flat_map stay ll) ++ flat_map nodes (flat_map (moved (c_str c)) ll)) (flat_map nodes ll)).
      { rewrite !flat_flat. apply incl_app; apply flat_incl; intros; [apply stay_nodes|apply moved_nodes]. }
      split; [constructor; [intro I; apply Q1, Qi, I|]|apply incl_cons; [now left|apply incl_tl, Qi]].
      rewrite !flat_flat. apply both_NoDup; auto; [intros; apply parts_NoDup; auto|]. intros; apply incl_app; [apply stay_nodes|apply moved_nodes]. }
    destruct Pn as (Pn & Pi). inversion Pn as [|? ? Pt Pr]; subst. apply NoDup_app_inv in Pr. destruct Pr as (Ps & Pm & Psm).
    assert (Im : incl (flat_map nodes mv) (nodes t)) by (intros b Ib; apply Pi; right; apply in_or_app; auto).
    assert (G : exists done1, step_over P (top t) (Z.of_nat (length done)) (st h1) = Ret (Z.of_nat (length done1)) (st h1) /\ done1 = done ++ map top (filter has_value [own]) /\ incl done1 (done ++ [top t]) /\ NoDup done1 /\ (length done1 <= length done + 1)%nat).
    { cbn [filter] in *. destruct (has_value own); cbn [map app] in *.
      - exists (done ++ [top own]). cbn [top own] in *. split; [eapply step_there; eauto|]. split; [reflexivity|]. split; [apply incl_refl|]. split; [|rewrite app_length; cbn; lia].
        apply NoDup_app_intro; auto; [repeat constructor; auto|]. intros b Ib [<-|[]]. apply (Dd _ Ib), in_or_app. left. apply top_in.
      - exists done. rewrite app_nil_r. split; [|split; [reflexivity|split; [apply incl_appl, incl_refl|split; [auto|lia]]]].
        eapply step_gone; [exact P1|exact Ep|]. intro I. apply in_app_or in I. destruct I as [I|I].
        + apply Pt, in_or_app. right. apply tops_in, I.
        + apply (Dtl (top t)); [apply top_in|apply tops_in, I]. }
    destruct G as (done1 & Es & Ed1 & Id1 & Nd3 & Ld1). rewrite (b_ret _ _ _ _ _ Es).
    assert (Wm : length mv = length (flat_map declared mv)).
    { symmetry. apply weight_settled. unfold mv. apply Forall_forall. intros u Iu. apply in_flat_map in Iu. destruct Iu as (t1 & It & Iu). pose proof (moved_settled t1 (c_str (data t))) as Q. rewrite Forall_forall in Q. auto. }
    assert (Sm : Forall settled_decl mv).
    { unfold mv. apply Forall_forall. intros u Iu. apply in_flat_map in Iu. destruct Iu as (t1 & It & Iu). pose proof (moved_settled t1 (c_str (data t))) as Q. rewrite Forall_forall in Q. auto. }
    assert (Om : Forall only_declarations mv).
    { unfold mv. apply Forall_forall. intros u Iu. apply in_flat_map in Iu. destruct Iu as (t1 & It & Iu). rewrite Forall_forall in Ot. pose proof (moved_only t1 (c_str (data t)) (Ot _ It)) as Q. rewrite Forall_forall in Q. auto. }
    assert (Lmn : (length (flat_map nodes mv) + 1 <= length (nodes t))%nat).
    { assert (Q : (length (top t :: flat_map nodes mv) <= length (nodes t))%nat).
      { apply NoDup_incl_length; [constructor; [intro I; apply Pt, in_or_app; auto|auto]|]. apply incl_cons; [apply top_in|exact Im]. }
      cbn [length] in Q. apply Nat.le_trans with (2 := Q). rewrite Nat.add_1_r. apply le_n. }
    destruct (IH (mv ++ l) done1 g h1) as (h2 & E2 & P2 & S2 & K2 & L2).
    - rewrite flat_map_app, app_length. rewrite Ed in Lk. cbn [length] in Lk. lia.
    - lia.
    - apply Forall_app. split; [exact M1|]. eapply holds_all_keeps; [exact K1| |exact Fl]. intros b Ib [<-|J]; [auto|eapply Dtl; eauto].
    - apply Forall_app. split; [|exact Kl]. eapply Forall_impl; [|exact Sm]. intros u Su. apply Su.
    - apply Forall_app. split; [|exact Ol]. apply Forall_forall. intros u Iu. rewrite Forall_forall in Om, Sm. specialize (Om u Iu). destruct (Sm u Iu) as (Ku & _). destruct u as [ua uc ul]. cbn [kids]. inversion Om as [? ? ? _ _ Q]; subst. apply Q. unfold kind in Ku. cbn [data] in Ku. rewrite Ku. now left.
    - apply Forall_app. split; [|exact Rl]. eapply Forall_impl; [|exact Sm]. intros. now apply settled_order.
    - rewrite P1, Ed1, map_app, <- app_assoc. reflexivity.
    - rewrite flat_map_app. constructor.
      + intro I. apply NP. apply in_app_or in I. destruct I as [I|I]; [apply Id1 in I; apply in_app_or in I; apply in_or_app; destruct I as [I|[<-|[]]]; [auto|right; apply in_or_app; left; apply top_in]|].
        apply in_or_app. right. apply in_or_app. apply in_app_or in I. destruct I; auto.
      + apply NoDup_app_intro; [exact Nd3| |].
        * apply NoDup_app_intro; auto.
        * intros b Ib J. apply Id1 in Ib. apply in_app_or in Ib. destruct Ib as [Ib|[<-|[]]].
          -- apply (Dd b Ib). apply in_app_or in J. apply in_or_app. destruct J; auto.
          -- apply in_app_or in J. destruct J as [J|J]; [apply Pt, in_or_app; auto|eapply Dtl; [apply top_in|exact J]].
    - intros u Iu. apply in_app_or in Iu. destruct Iu as [Iu|Iu]; [|apply Lf; now right]. assert (Q1 : (length (nodes t) <= f)%nat) by (apply Lf; now left). pose proof (nodes_in _ _ Iu). lia.
    - rewrite flat_map_app, app_length. lia.
    - exists h2. split; [exact E2|]. rewrite flat_map_app in *. rewrite (written_settled _ Sm) in *.
      assert (Ew : written_out t = filter has_value [own] ++ filter has_value mv) by (unfold written_out; rewrite Ed; change (own :: mv) with ([own] ++ mv); now rewrite filter_app).
      rewrite Ew. split; [rewrite P2, Ed1, !map_app, <- !app_assoc; reflexivity|].
      split; [rewrite <- app_assoc; apply Forall_app; split; [|exact S2]|].
      { assert (Q : holds h2 own).
        { eapply holds_keeps; [exact K2| |exact S1]. intros b Ib. assert (Ibt : In b (nodes t)).
          { unfold own in Ib. cbn [nodes] in Ib. apply Pi. destruct Ib as [<-|Ib]; [now left|right; apply in_or_app; auto]. }
          intros [<-|J]; [auto|]. apply in_app_or in J. destruct J as [J|J]; [|eapply Dtl; eauto].
          unfold own in Ib. cbn [nodes] in Ib. destruct Ib as [<-|Ib]; [apply Pt, in_or_app; auto|eapply Psm; eauto]. }
        cbn [filter]. destruct (has_value own); constructor; [exact Q|constructor]. }
      split; [|lia]. eapply keeps_trans; eapply keeps_incl; [|exact K1| |exact K2].
      + intros b [<-|I]; [now left|right; apply in_or_app; auto].
      + intros b [<-|I]; [now left|right; apply in_app_or in I; apply in_or_app; destruct I; auto].
  Qed.
End Block.

Lemma declared_settled l : Forall settled_decl l -> flat_map declared l = l.
Proof.
  induction 1 as [|t l (K & S & M) _ IH]; cbn [flat_map]; [reflexivity|]. rewrite IH. destruct t as [a c k]. cbn [kids] in *. unfold declared. rewrite S, M. reflexivity.
Qed.
Section Components.
  Variables (m : list msg) (ps : list str).
  Notation st h := (mkK h m ps).
  Lemma run_here f x0 last P qs pc pre post t h :
    x_parents x0 = P :: qs -> holds h t -> kind t = DECLARATION -> Forall only_declarations (kids t) -> in_order t ->
    nth_error h P = Some (with_ch pc (pre ++ top t :: post)) -> has_children (c_type pc) = true -> ~ In P (nodes t) -> NoDup (pre ++ nodes t) ->
    (length (nodes t) <= f)%nat -> Z.of_nat (length pre + length (nodes t)) < 2 ^ 64 ->
    exists h', expand (S f) x0 None last (top t) (st h) = Ret last (st h')
      /\ nth_error h' P = Some (with_ch pc (pre ++ map top ([Tree (top t) (data t) (flat_map stay (kids t))]) ++ map top (flat_map (moved (c_str (data t))) (kids t)) ++ post))
      /\ holds h' (Tree (top t) (data t) (flat_map stay (kids t))) /\ Forall (holds h') (flat_map (moved (c_str (data t))) (kids t))
      /\ keeps (P :: nodes t) h h' /\ length h' = length h.
  Proof.
    destruct t as [n c l]. unfold kind. cbn [top kids data nodes length]. intros X H Tc O Ord HP Ep NP N Lf L64. pose proof (holds_inv _ _ _ _ H) as (Hn & F).
    destruct (NoDup_app_inv _ _ N) as (Npre & Nnl & Dp). inversion Nnl as [|? ? Nn Nl]; subst. pose proof (flat_nodes_length l) as Ll.
    assert (nP : n <> P) by (intros ->; apply NP; now left).
    destruct (loop_one m ps f (push x0 n) qs n c P pc pre post ltac:(unfold push; cbn [x_parents]; rewrite X; reflexivity) Tc Ep nP l [] [] f h) as (h1 & E1 & A1 & P1 & S1 & M1 & K1 & L1); auto.
    { rewrite <- app_assoc. exact N. }
    { intro I. apply NP. now right. }
    { lia. }
    { intros t It. pose proof (nodes_in _ _ It). lia. }
    { lia. }
    assert (Hc : has_children (c_type c) = true) by (rewrite Tc; reflexivity).
    cbn [expand]. erewrite b_ret; [|eapply run_type; exact Hn]. cbn [c_type with_ch]. rewrite Tc. cbv iota.
    unfold expand_declaration. rewrite (b_ret _ _ _ _ _ E1). cbn [app] in A1, P1.
    specialize (Ord (c_str c)). cbn [kids] in Ord. rewrite Ord in P1.
    exists h1. split; [reflexivity|]. cbn [map app top].
    split; [exact P1|]. split; [constructor; [exact A1|exact S1]|]. split; [exact M1|]. split; [|exact L1].
    eapply keeps_incl; [|exact K1]. intros b [<-|[<-|I]]; cbn; auto.
  Qed.
  Lemma loop_components f x qs P pc last (X : x_parents x = P :: qs) (Ep : has_children (c_type pc) = true) : forall k l done g h,
    (length (flat_map declared l) <= k)%nat -> (k < g)%nat ->
    Forall (holds h) l -> Forall (fun t => kind t = DECLARATION) l -> Forall (fun t => Forall only_declarations (kids t)) l -> Forall in_order l ->
    nth_error h P = Some (with_ch pc (done ++ map top l)) -> NoDup (P :: done ++ flat_map nodes l) ->
    (forall t, In t l -> (length (nodes t) <= f)%nat) -> Z.of_nat (length done + length (flat_map nodes l)) < 2 ^ 64 ->
    exists h', step_loop (fun c => expand (S f) x None last c ;;; ret tt) P g (Z.of_nat (length done)) (st h) = Ret tt (st h')
      /\ nth_error h' P = Some (with_ch pc (done ++ map top (flat_map declared l))) /\ Forall (holds h') (flat_map declared l)
      /\ keeps (P :: flat_map nodes l) h h' /\ length h' = length h.
  Proof.
    induction k as [|k IH]; intros l done g h Lk Lg F Kd O Ord HP N Lf L64; (destruct g as [|g]; [lia|]);
      destruct l as [|t l].
    1, 3: exists h; cbn [flat_map map] in *; split; [cbn [step_loop]; erewrite b_ret; [|eapply run_size; [exact HP|exact Ep]]; cbn [c_ch with_ch]; rewrite app_nil_r, Z.leb_refl; reflexivity|];
      (split; [exact HP|]; split; [constructor|]; split; [apply keeps_refl|reflexivity]).
    { exfalso. destruct t. cbn in Lk. lia. }
    inversion F as [|? ? Ft Fl]; subst. inversion Kd as [|? ? Kt Kl]; subst. inversion O as [|? ? Ot Ol]; subst. inversion Ord as [|? ? Rt Rl]; subst.
    cbn [flat_map map] in *. rewrite app_length in L64, Lk. inversion N as [|? ? NP Nd]; subst. destruct (NoDup_app_inv _ _ Nd) as (Nd1 & Ntl & Dd). destruct (NoDup_app_inv _ _ Ntl) as (Nt & Nl & Dtl).
    assert (NPt : ~ In P (nodes t)) by (intro; apply NP, in_or_app; right; apply in_or_app; auto).
    assert (NPl : ~ In P (flat_map nodes l)) by (intro; apply NP, in_or_app; right; apply in_or_app; auto).
    cbn [step_loop]. erewrite b_ret; [|eapply run_size; [exact HP|exact Ep]]. cbn [c_ch with_ch]. rewrite app_length. cbn [length]. rewrite map_length.
    replace (Z.of_nat (length done + S (length l)) <=? Z.of_nat (length done)) with false by lia.
    erewrite b_ret; [|eapply (run_child h m ps P _ HP (Z.of_nat (length done)) (top t)); [exact Ep|cbn [c_ch with_ch]; rewrite Nat2Z.id; apply nth_mid|lia]].
    destruct (run_here f x last P qs pc done (map top l) t h X Ft Kt Ot Rt HP Ep NPt) as (h1 & E1 & P1 & S1 & M1 & K1 & L1).
    { apply NoDup_app_intro; auto. intros b Ib J. apply (Dd b Ib), in_or_app; auto. }
    { apply Lf; now left. }
    { lia. }
    rewrite bind_assoc, (b_ret _ _ _ _ _ E1), bind_ret.
    set (own := Tree (top t) (data t) (flat_map stay (kids t))) in *. set (mv := flat_map (moved (c_str (data t))) (kids t)) in *.
    assert (Ed : declared t = own :: mv) by (destruct t; reflexivity).
    assert (Pn : NoDup (top t :: flat_map nodes (flat_map stay (kids t)) ++ flat_map nodes mv) /\ incl (top t :: flat_map nodes (flat_map stay (kids t)) ++ flat_map nodes mv) (nodes t)).
    { destruct t as [n c ll]. unfold mv. cbn [top kids data nodes] in *. inversion Nt as [|? ? Q1 Q2]; subst.
      assert (Qi : incl (flat_map nodes (flat_map stay ll) ++ flat_map nodes (flat_map (moved (c_str c)) ll)) (flat_map nodes ll)).
      { rewrite !flat_flat. apply incl_app; apply flat_incl; intros; [apply stay_nodes|apply moved_nodes]. }
      split; [constructor; [intro I; apply Q1, Qi, I|]|apply incl_cons; [now left|apply incl_tl, Qi]].
      rewrite !flat_flat. apply both_NoDup; auto; [intros; apply parts_NoDup; auto|]. intros; apply incl_app; [apply stay_nodes|apply moved_nodes]. }
    destruct Pn as (Pn & Pi). inversion Pn as [|? ? Pt Pr]; subst. apply NoDup_app_inv in Pr. destruct Pr as (Ps & Pm & Psm).
    assert (Im : incl (flat_map nodes mv) (nodes t)) by (intros b Ib; apply Pi; right; apply in_or_app; auto).
    assert (G : exists done1, step_over P (top t) (Z.of_nat (length done)) (st h1) = Ret (Z.of_nat (length done1)) (st h1) /\ done1 = done ++ map top [own] /\ incl done1 (done ++ [top t]) /\ NoDup done1 /\ (length done1 <= length done + 1)%nat).
    { cbn [map app] in *. exists (done ++ [top own]). cbn [top own] in *. split; [eapply step_there; eauto|]. split; [reflexivity|]. split; [apply incl_refl|]. split; [|rewrite app_length; cbn; lia].
        apply NoDup_app_intro; auto; [repeat constructor; auto|]. intros b Ib [<-|[]]. apply (Dd _ Ib), in_or_app. left. apply top_in. }
    destruct G as (done1 & Es & Ed1 & Id1 & Nd3 & Ld1). rewrite (b_ret _ _ _ _ _ Es).
    assert (Wm : length mv = length (flat_map declared mv)).
    { symmetry. apply weight_settled. unfold mv. apply Forall_forall. intros u Iu. apply in_flat_map in Iu. destruct Iu as (t1 & It & Iu). pose proof (moved_settled t1 (c_str (data t))) as Q. rewrite Forall_forall in Q. auto. }
    assert (Sm : Forall settled_decl mv).
    { unfold mv. apply Forall_forall. intros u Iu. apply in_flat_map in Iu. destruct Iu as (t1 & It & Iu). pose proof (moved_settled t1 (c_str (data t))) as Q. rewrite Forall_forall in Q. auto. }
    assert (Om : Forall only_declarations mv).
    { unfold mv. apply Forall_forall. intros u Iu. apply in_flat_map in Iu. destruct Iu as (t1 & It & Iu). rewrite Forall_forall in Ot. pose proof (moved_only t1 (c_str (data t)) (Ot _ It)) as Q. rewrite Forall_forall in Q. auto. }
    assert (Lmn : (length (flat_map nodes mv) + 1 <= length (nodes t))%nat).
    { assert (Q : (length (top t :: flat_map nodes mv) <= length (nodes t))%nat).
      { apply NoDup_incl_length; [constructor; [intro I; apply Pt, in_or_app; auto|auto]|]. apply incl_cons; [apply top_in|exact Im]. }
      cbn [length] in Q. apply Nat.le_trans with (2 := Q). rewrite Nat.add_1_r. apply le_n. }
    destruct (IH (mv ++ l) done1 g h1) as (h2 & E2 & P2 & S2 & K2 & L2).
    - rewrite flat_map_app, app_length. rewrite Ed in Lk. cbn [length] in Lk. lia.
    - lia.
    - apply Forall_app. split; [exact M1|]. eapply holds_all_keeps; [exact K1| |exact Fl]. intros b Ib [<-|J]; [auto|eapply Dtl; eauto].
    - apply Forall_app. split; [|exact Kl]. eapply Forall_impl; [|exact Sm]. intros u Su. apply Su.
    - apply Forall_app. split; [|exact Ol]. apply Forall_forall. intros u Iu. rewrite Forall_forall in Om, Sm. specialize (Om u Iu). destruct (Sm u Iu) as (Ku & _). destruct u as [ua uc ul]. cbn [kids]. inversion Om as [? ? ? _ _ Q]; subst. apply Q. unfold kind in Ku. cbn [data] in Ku. rewrite Ku. now left.
    - apply Forall_app. split; [|exact Rl]. eapply Forall_impl; [|exact Sm]. intros. now apply settled_order.
    - rewrite P1, Ed1, map_app, <- app_assoc. reflexivity.
    - rewrite flat_map_app. constructor.
      + intro I. apply NP. apply in_app_or in I. destruct I as [I|I]; [apply Id1 in I; apply in_app_or in I; apply in_or_app; destruct I as [I|[<-|[]]]; [auto|right; apply in_or_app; left; apply top_in]|].
        apply in_or_app. right. apply in_or_app. apply in_app_or in I. destruct I; auto.
      + apply NoDup_app_intro; [exact Nd3| |].
        * apply NoDup_app_intro; auto.
        * intros b Ib J. apply Id1 in Ib. apply in_app_or in Ib. destruct Ib as [Ib|[<-|[]]].
          -- apply (Dd b Ib). apply in_app_or in J. apply in_or_app. destruct J; auto.
          -- apply in_app_or in J. destruct J as [J|J]; [apply Pt, in_or_app; auto|eapply Dtl; [apply top_in|exact J]].
    - intros u Iu. apply in_app_or in Iu. destruct Iu as [Iu|Iu]; [|apply Lf; now right]. assert (Q1 : (length (nodes t) <= f)%nat) by (apply Lf; now left). pose proof (nodes_in _ _ Iu). lia.
    - rewrite flat_map_app, app_length. lia.
    - exists h2. split; [exact E2|]. rewrite flat_map_app in *. rewrite (declared_settled _ Sm) in *.
      rewrite Ed. split; [rewrite P2, Ed1; cbn [map app]; rewrite !map_app, <- !app_assoc; reflexivity|].
      split; [cbn [app]; constructor; [|exact S2]|].
      { eapply holds_keeps; [exact K2| |exact S1]. intros b Ib. assert (Ibt : In b (nodes t)).
          { unfold own in Ib. cbn [nodes] in Ib. apply Pi. destruct Ib as [<-|Ib]; [now left|right; apply in_or_app; auto]. }
          intros [<-|J]; [auto|]. apply in_app_or in J. destruct J as [J|J]; [|eapply Dtl; eauto].
          unfold own in Ib. cbn [nodes] in Ib. destruct Ib as [<-|Ib]; [apply Pt, in_or_app; auto|eapply Psm; eauto]. }
      split; [|lia]. eapply keeps_trans; eapply keeps_incl; [|exact K1| |exact K2].
      + intros b [<-|I]; [now left|right; apply in_or_app; auto].
      + intros b [<-|I]; [now left|right; apply in_app_or in I; apply in_or_app; destruct I; auto].
  Qed.
End Components.

(** ** C47 *)
(** The declarations of a block of a rule are replaced with all the declarations which have a
    value: each one, followed by those nested in it at any depth, in the
    original order, each under the name of the one it was nested in, a dash and
    its own name. *)
Theorem c47_block : forall a c l x0 rules last h m ps fuel,
  holds h (Tree a c l) -> NoDup (nodes (Tree a c l)) -> c_type c = LIST \/ c_type c = OPEN_CURLYBRACKET ->
  Forall (fun t => kind t = DECLARATION) l -> Forall only_declarations l -> Forall one_block l ->
  (length (nodes (Tree a c l)) < fuel)%nat -> Z.of_nat (length (nodes (Tree a c l))) < 2 ^ 64 ->
  exists h', expand fuel x0 (Some rules) last a (mkK h m ps) = Ret last (mkK h' m ps)
    /\ holds h' (Tree a c (filter has_value (flat_map declared l)))
    /\ keeps (nodes (Tree a c l)) h h' /\ length h' = length h.
Proof.
  intros a c l x0 rules last h m ps fuel H N Tc Kd O B Lf L64. cbn [nodes length] in Lf, L64. pose proof (holds_inv _ _ _ _ H) as (Ha & F).
  destruct fuel as [|[|f]]; [lia|lia|]. assert (Hc : has_children (c_type c) = true) by (destruct Tc as [-> | ->]; reflexivity).
  destruct (loop_block m ps f (push x0 a) (x_parents x0) a c rules last eq_refl Hc (length (flat_map declared l)) l [] (S f) h) as (h' & E & P & S & K & L); auto.
  { enough (length (flat_map declared l) <= length (flat_map nodes l))%nat by lia. clear. induction l as [|t l IH]; cbn [flat_map]; [reflexivity|]. rewrite !app_length. pose proof (declared_weight t). lia. }
  { rewrite Forall_forall in *. intros t It. specialize (O t It). specialize (Kd t It). destruct t as [b k u]. cbn [kids]. inversion O as [? ? ? _ _ Q]; subst. apply Q. unfold kind in Kd. cbn [data] in Kd. rewrite Kd. now left. }
  { eapply Forall_impl; [|exact B]. apply one_block_order. }
  { intros t It. pose proof (nodes_in _ _ It). lia. }
  { cbn [length]. lia. }
  assert (Ew : forall l, flat_map written_out l = filter has_value (flat_map declared l)).
  { clear. induction l as [|t l IH]; cbn [flat_map]; [reflexivity|]. rewrite filter_app, IH. reflexivity. }
  exists h'. split; [|split; [constructor; rewrite <- Ew; [exact P|exact S]|split; [exact K|exact L]]].
  cbn [expand]. destruct rules as (parent & root). erewrite b_ret; [|eapply run_type; exact Ha]. cbn [c_type with_ch]. destruct Tc as [-> | ->]; exact E.
Qed.
(** The same in an at-keyword, or without any rule; declarations without a value remain. *)
Theorem c47_components : forall a c l x0 last h m ps fuel,
  holds h (Tree a c l) -> NoDup (nodes (Tree a c l)) -> c_type c = LIST \/ c_type c = OPEN_CURLYBRACKET \/ c_type c = AT_KEYWORD ->
  Forall (fun t => kind t = DECLARATION) l -> Forall only_declarations l -> Forall one_block l ->
  (length (nodes (Tree a c l)) < fuel)%nat -> Z.of_nat (length (nodes (Tree a c l))) < 2 ^ 64 ->
  exists h', expand fuel x0 None last a (mkK h m ps) = Ret last (mkK h' m ps)
    /\ holds h' (Tree a c (flat_map declared l))
    /\ keeps (nodes (Tree a c l)) h h' /\ length h' = length h.
Proof.
  intros a c l x0 last h m ps fuel H N Tc Kd O B Lf L64. cbn [nodes length] in Lf, L64. pose proof (holds_inv _ _ _ _ H) as (Ha & F).
  destruct fuel as [|[|f]]; [lia|lia|]. assert (Hc : has_children (c_type c) = true) by (destruct Tc as [-> | [-> | ->]]; reflexivity).
  destruct (loop_components m ps f (push x0 a) (x_parents x0) a c last eq_refl Hc (length (flat_map declared l)) l [] (S f) h) as (h' & E & P & S & K & L); auto.
  { enough (length (flat_map declared l) <= length (flat_map nodes l))%nat by lia. clear. induction l as [|t l IH]; cbn [flat_map]; [reflexivity|]. rewrite !app_length. pose proof (declared_weight t). lia. }
  { rewrite Forall_forall in *. intros t It. specialize (O t It). specialize (Kd t It). destruct t as [b k u]. cbn [kids]. inversion O as [? ? ? _ _ Q]; subst. apply Q. unfold kind in Kd. cbn [data] in Kd. rewrite Kd. now left. }
  { eapply Forall_impl; [|exact B]. apply one_block_order. }
  { intros t It. pose proof (nodes_in _ _ It). lia. }
  { cbn [length]. lia. }
  exists h'. split; [|split; [constructor; [exact P|exact S]|split; [exact K|exact L]]].
  cbn [expand]. erewrite b_ret; [|eapply run_type; exact Ha]. cbn [c_type with_ch]. destruct Tc as [-> | [-> | ->]]; rewrite (b_ret _ _ _ _ _ E); reflexivity.
Qed.
(** [font: bold \{ family: a; size: \{ x: b \} \}] in a block. *)
Definition nested_font : heap :=
  [node OPEN_CURLYBRACKET "" [1]; node DECLARATION "font" [2; 4]; node ARG "" [3]; node IDENTIFIER "bold" [];
   node OPEN_CURLYBRACKET "" [5; 8]; node DECLARATION "family" [6]; node ARG "" [7]; node IDENTIFIER "a" [];
   node DECLARATION "size" [9]; node OPEN_CURLYBRACKET "" [10]; node DECLARATION "x" [11]; node ARG "" [12]; node IDENTIFIER "b" []]%nat.
Definition arg (a b : addr) (s : string) : tree := Tree a (node ARG "" []) [Tree b (node IDENTIFIER s []) []].
Definition nested_decl : tree :=
  Tree 1%nat (node DECLARATION "font" [])
    [arg 2%nat 3%nat "bold";
     Tree 4%nat (node OPEN_CURLYBRACKET "" [])
       [Tree 5%nat (node DECLARATION "family" []) [arg 6%nat 7%nat "a"];
        Tree 8%nat (node DECLARATION "size" []) [Tree 9%nat (node OPEN_CURLYBRACKET "" []) [Tree 10%nat (node DECLARATION "x" []) [arg 11%nat 12%nat "b"]]]]].
Example c47_example :
  let block := Tree 0%nat (node OPEN_CURLYBRACKET "" []) [nested_decl] in
  holds nested_font block /\ NoDup (nodes block) /\ only_declarations nested_decl /\ one_block nested_decl
  /\ filter has_value (declared nested_decl) =
     [Tree 1%nat (node DECLARATION "font" []) [arg 2%nat 3%nat "bold"];
      Tree 5%nat (node DECLARATION "font-family" []) [arg 6%nat 7%nat "a"];
      Tree 10%nat (node DECLARATION "font-size-x" []) [arg 11%nat 12%nat "b"]].
Proof.
  cbn zeta. split; [repeat (constructor; [reflexivity|]); repeat constructor|]. split; [cbn; repeat (constructor; [cbn; lia|]); constructor|].
  assert (A : forall a b s, only_declarations (arg a b s)) by (intros; constructor; [discriminate|discriminate|cbn; intuition discriminate]).
  assert (G : forall a t s l, In t [DECLARATION; OPEN_CURLYBRACKET] -> Forall only_declarations l -> only_declarations (Tree a (node t s []) l)).
  { intros a t s l It Fl. constructor; cbn [node c_type]; [destruct It as [<-|[<-|[]]]; discriminate|destruct It as [<-|[<-|[]]]; discriminate|auto]. }
  split; [|split].
  - apply G; [cbn; auto|]. constructor; [apply A|]. constructor; [|constructor]. apply G; [cbn; auto|]. constructor; [apply G; [cbn; auto|constructor; [apply A|constructor]]|]. constructor; [|constructor].
    apply G; [cbn; auto|]. constructor; [|constructor]. apply G; [cbn; auto|]. constructor; [|constructor]. apply G; [cbn; auto|]. constructor; [apply A|constructor].
  - eexists [_], []. split; [constructor; [|constructor]|split; [constructor|right; eexists; reflexivity]]. cbn. intros [E|[E|[E|[]]]]; discriminate E.
  - vm_compute. reflexivity.
Qed.
(** Outside of a rule ([@font-face \{ font: \{ family: a \} \}]) the declaration without a
    value is not removed. *)
Definition font_face : heap :=
  [node AT_KEYWORD "font-face" [1]; node OPEN_CURLYBRACKET "" [2]; node DECLARATION "font" [3];
   node OPEN_CURLYBRACKET "" [4]; node DECLARATION "family" [5]; node ARG "" [6]; node IDENTIFIER "a" []]%nat.
Theorem c47_font_face_refuted : exists s' b d,
  expand_nested_components 20 (mkX 0%nat [] false) 0%nat (mkK font_face [] []) = Ret tt s'
  /\ nth_error (k_heap s') 1%nat = Some b /\ c_ch b = [2; 4]%nat
  /\ nth_error (k_heap s') 2%nat = Some d /\ c_type d = DECLARATION /\ c_ch d = [].
Proof. eexists _, _, _. split; [vm_compute; reflexivity|]. do 4 (split; [reflexivity|]). reflexivity. Qed.
