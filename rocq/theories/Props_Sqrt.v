(** * C62: square roots and their units *)

From Coq Require Import String ZArith List Bool Lia Arith ZifyBool Reals Lra Floats.SpecFloat.
From Verif Require Import Base UnicodeRange NodeHeap NodeProofs Color FloatBits Dim DimSpec DimProofs Expr ExprSpec ExprRun Hsl Functions FunctionSpec FunctionRun
  FloatFacts FloatMath Props_Functions Props_Math.
Import ListNotations.
Open Scope string_scope. Open Scope list_scope. Open Scope Z_scope.
Ltac Zify.zify_post_hook ::= idtac.

Lemma rev_last (l : list str) x r : rev l = x :: r -> l = removelast l ++ [x].
Proof.
  intro H. assert (E : l = rev r ++ [x]) by (rewrite <- (rev_involutive l), H; reflexivity). rewrite E. rewrite removelast_app by discriminate.
  cbn [removelast]. now rewrite app_nil_r.
Qed.
Lemma remove_first_length x l l' : remove_first x l = Some l' -> length l = S (length l').
Proof.
  revert l'. induction l as [|y l IH]; intros l' H; [discriminate|]. cbn [remove_first] in H. destruct (str_eqb y x); [injection H as <-; reflexivity|].
  destruct (remove_first x l) as [r|]; [|discriminate]. injection H as <-. cbn [length]. rewrite (IH r eq_refl). reflexivity.
Qed.
Lemma not_in_zero x l : ~ In x l -> occurrences x l = 0.
Proof.
  induction l as [|y l IH]; intro N; [reflexivity|]. cbn [occurrences]. destruct (str_eqb y x) eqn:E; [apply str_eqb_spec in E; exfalso; apply N; left; exact E|].
  rewrite IH; [reflexivity|]. intro I. apply N. now right.
Qed.
Lemma halve_spec : forall fuel l, (length l <= fuel)%nat ->
  match halve fuel l with
  | Some h => incl h l /\ forall n, occurrences n l = 2 * occurrences n h
  | None => exists n, Z.odd (occurrences n l) = true
  end.
Proof.
  induction fuel as [|fuel IH]; intros l L; cbn [halve].
  - destruct l; [|cbn in L; lia]. split; [intros x []|reflexivity].
  - destruct (rev l) as [|x r] eqn:R.
    + assert (l = []) as -> by (rewrite <- (rev_involutive l), R; reflexivity). split; [intros x []|reflexivity].
    + pose proof (rev_last l x r R) as E. set (l1 := removelast l) in *. clearbody l1. subst l. rewrite app_length in L. cbn [length] in L.
      destruct (remove_first x l1) as [l2|] eqn:F.
      * pose proof (remove_first_length x l1 l2 F) as L2. destruct (remove_first_some _ _ _ F) as (I1 & I2 & O).
        specialize (IH l2 ltac:(lia)). destruct (halve fuel l2) as [h|].
        -- destruct IH as (I & H). split.
           ++ intros y [<-|Y]; [apply in_or_app; right; left; reflexivity|apply in_or_app; left; apply I2, I, Y].
           ++ intro n. rewrite occurrences_app. cbn [occurrences]. rewrite (O n), (H n). destruct (str_eqb x n); lia.
        -- destruct IH as (n & H). exists n. rewrite occurrences_app. cbn [occurrences]. rewrite (O n).
           replace ((if str_eqb x n then 1 else 0) + occurrences n l2 + ((if str_eqb x n then 1 else 0) + 0)) with (occurrences n l2 + 2 * (if str_eqb x n then 1 else 0)) by lia.
           rewrite Z.odd_add_mul_2. exact H.
      * apply remove_first_none in F. exists x. rewrite occurrences_app, (not_in_zero x l1 F). cbn [occurrences]. rewrite str_eqb_refl. reflexivity.
Qed.
(** Each name is there an even number of times. *)
Definition paired (l : list str) : Prop := forall n, Z.even (occurrences n l) = true.
Lemma halve_paired l : paired l -> exists h, halve (length l) l = Some h /\ incl h l /\ forall n, occurrences n l = 2 * occurrences n h.
Proof.
  intro P. pose proof (halve_spec (length l) l (le_n _)) as H. destruct (halve (length l) l) as [h|]; [exists h; auto|].
  destruct H as (n & H). specialize (P n). rewrite <- Z.negb_odd, H in P. discriminate.
Qed.
Lemma halve_unpaired l n : Z.even (occurrences n l) = false -> halve (length l) l = None.
Proof.
  intro N. pose proof (halve_spec (length l) l (le_n _)) as H. destruct (halve (length l) l) as [h|]; [|reflexivity].
  destruct H as (_ & H). rewrite (H n), Z.even_mul in N. discriminate.
Qed.
Lemma paired_length l : paired l -> Nat.even (length l) = true.
Proof.
  assert (G : forall k l, (length l <= k)%nat -> paired l -> Nat.even (length l) = true).
  { induction k as [|k IH]; intros m L P; destruct m as [|x m]; try reflexivity; [cbn in L; lia|].
    destruct (remove_first x m) as [m'|] eqn:F.
    - pose proof (remove_first_length x m m' F) as L'. destruct (remove_first_some _ _ _ F) as (_ & _ & O).
      cbn [length]. rewrite L'. change (Nat.even (length m') = true). apply IH; [cbn in L; lia|]. intro n. specialize (P n). cbn [occurrences] in P. rewrite (O n) in P.
      replace ((if str_eqb x n then 1 else 0) + ((if str_eqb x n then 1 else 0) + occurrences n m')) with (occurrences n m' + 2 * (if str_eqb x n then 1 else 0)) in P by lia.
      rewrite Z.even_add_mul_2 in P. exact P.
    - apply remove_first_none in F. specialize (P x). cbn [occurrences] in P. rewrite str_eqb_refl, (not_in_zero x m F) in P. discriminate P. }
  exact (G (length l) l (le_n _)).
Qed.
Lemma rebuild_nil up down : Forall unit_name up -> Forall unit_name down -> up <> [] \/ down <> [] -> rebuild up down <> [].
Proof.
  intros U D N E. pose proof (rebuild_ok up down U D) as T. rewrite E in T.
  assert (X : forall l, ~ product l []) by (intros l P; apply product_head in P; destruct P as (c & r & Q & _); discriminate Q).
  inversion T as [|t u P|t u sl t' d P S P'|sl t' d S P']; subst.
  - destruct N; congruence.
  - exact (X _ P).
  - apply product_head in P. destruct P as (c & r & -> & _). discriminate.
Qed.

Section Sqrt.
  Variables (s : est) (func x : addr) (c : cell) (k : Z + f64) (l : str) (u d : list str).
  Hypothesis C : called s func (zs "sqrt") [[x]].
  Hypothesis H : node_at s x c.
  Hypothesis N : number c k l.
  Hypothesis T : unit_text l u d.
  Hypothesis V : f64_valid (as_double k).
  Hypothesis F : f64_finite (as_double k).

  Lemma number_str : c_str c = l /\ has_str (c_type c) = true /\ (c_type c = INTEGER \/ c_type c = DECIMAL_NUMBER).
  Proof. destruct N as [c' v u' (A & B & E)|c' v u' (A & B & E)]; rewrite A; auto. Qed.
  (** Once the unit is known. *)
  Lemma sqrt_start : (0 <= f64_R (as_double k))%R ->
    fn_sqrt func s =
    match (match l with [] => Some [] | _ => match half_dimension u d with [] => None | t => Some t end end) with
    | None => wrong "sqrt() expects dimensions to be squarely defined (i.e. 'px * px')." s
    | Some t => (r <- as_decimal x ;; lift (set_decimal_number r (SFsqrt 53 1024 (as_double k))) ;;; lift (set_string r t) ;;; ret (Some r)) s
    end.
  Proof.
    intro P. unfold fn_sqrt. pose proof (pick_number s func _ _ 0 x c k l C eq_refl H N) as G. change (Z.of_nat 0) with 0 in G.
    rewrite (b_ret _ _ _ _ _ G). cbv beta iota.
    destruct zero_facts as (V0 & F0 & R0). pose proof (f64_ltb_spec _ _ V F V0 F0) as L. rewrite R0 in L.
    destruct (SFltb (as_double k) f_zero); [exfalso; pose proof (proj1 L eq_refl); lra|].
    destruct number_str as (S1 & S2 & _). rewrite (b_ret _ _ _ _ _ (run_string s x c H S2)), S1.
    destruct l as [|a l'] eqn:E; [rewrite bind_ret; reflexivity|]. rewrite <- E in *.
    step. step. rewrite (vectors_ok _ _ _ T). cbn [app report_dims]. step. step. step.
    destruct (half_dimension u d) as [|b t]; reflexivity.
  Qed.
  Lemma sqrt_result t : exists s', (r <- as_decimal x ;; lift (set_decimal_number r (SFsqrt 53 1024 (as_double k))) ;;; lift (set_string r t) ;;; ret (Some r)) s
      = Ret (Some (if ntype_eqb (c_type c) INTEGER then new_addr s else x)) s' /\
    e_msgs s' = e_msgs s /\ (exists r, node_at s' (if ntype_eqb (c_type c) INTEGER then new_addr s else x) r /\ dec_node r (SFsqrt 53 1024 (as_double k)) t)
    /\ (forall a e, a <> x -> node_at s a e -> node_at s' a e).
  Proof.
    destruct number_str as (S1 & S2 & S3). unfold as_decimal. step. step. destruct S3 as [S3|S3]; rewrite S3.
    - change (ntype_eqb INTEGER INTEGER) with true. cbv iota. steps. eexists. split; [reflexivity|]. split; [reflexivity|]. split.
      + eexists. split; [apply fresh_at|]. split; [reflexivity|split; reflexivity].
      + intros a e _ A. exact (fresh_keeps _ _ _ _ A).
    - change (ntype_eqb DECIMAL_NUMBER INTEGER) with false. cbv iota. steps.
      rewrite (b_ret _ _ _ _ _ (run_set_decimal s x c H (SFsqrt 53 1024 (as_double k)) ltac:(has))).
      set (c1 := with_dec c (SFsqrt 53 1024 (as_double k))). set (s1 := with_heap s (put (e_heap s) x c1)).
      assert (H1 : node_at s1 x c1) by (unfold node_at, s1; cbn [e_heap with_heap]; apply put_same; exact (at_lt _ _ _ H)).
      rewrite (b_ret _ _ _ _ _ (run_set_string s1 x c1 H1 t S2)). eexists. split; [reflexivity|]. split; [reflexivity|]. split.
      + eexists. split; [unfold node_at; cbn [e_heap with_heap]; apply put_same; exact (at_lt _ _ _ H1)|]. split; [exact S3|split; reflexivity].
      + intros a e A B. unfold node_at. cbn [e_heap with_heap s1]. rewrite !put_other by congruence. exact B.
  Qed.
End Sqrt.

(** The square root of a positive number: the nearest double of the real square
    root; each name of the unit must be there an even number of times in the
    dividend and in the divisor, and half of them are left. *)
Theorem c62_sqrt : forall env s func x c k l u d, called s func (zs "sqrt") [[x]] -> node_at s x c -> number c k l -> unit_text l u d ->
  f64_valid (as_double k) -> f64_finite (as_double k) -> (0 <= f64_R (as_double k))%R -> paired u -> paired d ->
  yields env s func [x] (fun r => exists w t u' d', dec_node r w t /\ f64_finite w /\ f64_R w = rnd (sqrt (f64_R (as_double k)))
    /\ unit_text t u' d' /\ forall n, occurrences n u = 2 * occurrences n u' /\ occurrences n d = 2 * occurrences n d').
Proof.
  intros env s func x c k l u d C H N T V F P Pu Pd.
  destruct (text_names _ _ _ T) as (Nu & Nd). destruct (halve_paired u Pu) as (hu & Eu & Iu & Ou). destruct (halve_paired d Pd) as (hd & Ed & Id & Od).
  assert (Hu : Forall unit_name hu) by (rewrite Forall_forall in *; auto). assert (Hd : Forall unit_name hd) by (rewrite Forall_forall in *; auto).
  destruct (f64_sqrt_spec _ V F P) as (_ & W1 & W2).
  assert (M : (match l with [] => Some [] | _ => match half_dimension u d with [] => None | t => Some t end end) = Some (rebuild hu hd)).
  { unfold half_dimension. rewrite (paired_length u Pu), (paired_length d Pd), Eu, Ed. cbn [andb].
    destruct l as [|a l'].
    - assert (X : forall l, ~ product l []) by (intros l0 Q; apply product_head in Q; destruct Q as (c0 & r & Q & _); discriminate Q).
      assert (u = [] /\ d = []) as (-> & ->).
      { inversion T as [|t u0 Q|t u0 sl t' d0 Q S Q' E|sl t' d0 S Q']; subst; auto; [exfalso; exact (X _ Q)|]. apply product_head in Q. destruct Q as (c0 & r & -> & _). discriminate E. }
      cbn in Eu, Ed. injection Eu as <-. injection Ed as <-. reflexivity.
    - destruct (rebuild hu hd) eqn:R; [|reflexivity]. exfalso. apply (rebuild_nil hu hd Hu Hd); [|exact R].
      destruct u as [|a0 u0], d as [|b0 d0].
      + exfalso. inversion T; subst; repeat match goal with P : product [] _ |- _ => inversion P | P : product _ _ |- _ => inversion P; subst; clear P | _ => fail end.
      + right. intros ->. specialize (Od b0). cbn [occurrences] in Od. rewrite str_eqb_refl in Od.
        assert (0 <= occurrences b0 d0) by (clear; induction d0 as [|y r IH]; cbn [occurrences]; [lia|destruct (str_eqb y b0); lia]). lia.
      + left. intros ->. specialize (Ou a0). cbn [occurrences] in Ou. rewrite str_eqb_refl in Ou.
        assert (0 <= occurrences a0 u0) by (clear; induction u0 as [|y r IH]; cbn [occurrences]; [lia|destruct (str_eqb y a0); lia]). lia.
      + left. intros ->. specialize (Ou a0). cbn [occurrences] in Ou. rewrite str_eqb_refl in Ou.
        assert (0 <= occurrences a0 u0) by (clear; induction u0 as [|y r IH]; cbn [occurrences]; [lia|destruct (str_eqb y a0); lia]). lia. }
  destruct (sqrt_result s x c k l u d H N T V F (rebuild hu hd)) as (s' & R & M1 & (r & Hr & Dr) & K).
  intro n. exists (if ntype_eqb (c_type c) INTEGER then new_addr s else x), s', r. split.
  - eapply exec_plain; [exact C|reflexivity|unfold simple; reflexivity|cbn [t_min t_max length]; lia|reflexivity|cbv beta].
    rewrite (sqrt_start s func x c k l u d C H N T V F P), M. exact R.
  - split; [exact Hr|]. split.
    + exists (SFsqrt 53 1024 (as_double k)), (rebuild hu hd), hu, hd. split; [exact Dr|]. split; [exact W1|]. split; [exact W2|].
      split; [apply rebuild_ok; assumption|]. intro m. split; [apply Ou|apply Od].
    + split; [exact M1|]. intros a e A. apply K. intro; apply A; left; congruence.
Qed.
Theorem c62_not_square : forall env s func x c k l u d, called s func (zs "sqrt") [[x]] -> current_ok s -> node_at s x c -> number c k l -> unit_text l u d ->
  f64_valid (as_double k) -> f64_finite (as_double k) -> (0 <= f64_R (as_double k))%R -> ~ (paired u /\ paired d) -> denied env s func.
Proof.
  intros env s func x c k l u d C K H N T V F P NP.
  assert (M : (match l with [] => Some [] | _ => match half_dimension u d with [] => None | t => Some t end end) = None).
  { assert (l <> []).
    { intros ->. apply NP.
      assert (X : forall l, ~ product l []) by (intros l0 Q; apply product_head in Q; destruct Q as (c0 & r & Q & _); discriminate Q).
      inversion T as [|t u0 Q|t u0 sl t' d0 Q S Q' E|sl t' d0 S Q']; subst; [split; intro; reflexivity|exfalso; exact (X _ Q)|].
      apply product_head in Q. destruct Q as (c0 & r & -> & _). discriminate E. }
    destruct l as [|a l']; [congruence|]. unfold half_dimension.
    destruct (Nat.even (length u) && Nat.even (length d)); [|reflexivity].
    pose proof (halve_spec (length u) u (le_n _)) as Qu. pose proof (halve_spec (length d) d (le_n _)) as Qd.
    destruct (halve (length u) u) as [hu|]; [|reflexivity]. destruct (halve (length d) d) as [hd|]; [|reflexivity].
    exfalso. apply NP. split; intro n; [rewrite (proj2 Qu n)|rewrite (proj2 Qd n)]; rewrite Z.even_mul; reflexivity. }
  eapply denied_plain; [exact C|reflexivity|unfold simple; reflexivity|cbn [t_min t_max length]; lia|reflexivity|].
  unfold fails. destruct (run_wrong s "sqrt() expects dimensions to be squarely defined (i.e. 'px * px')." K) as (p & W). exists p. eexists.
  rewrite (sqrt_start s func x c k l u d C H N T V F P), M. exact W.
Qed.
Theorem c62_negative : forall env s func x c k l, called s func (zs "sqrt") [[x]] -> current_ok s -> node_at s x c -> number c k l ->
  f64_valid (as_double k) -> f64_finite (as_double k) -> (f64_R (as_double k) < 0)%R -> denied env s func.
Proof.
  intros env s func x c k l C K H N V F P.
  eapply denied_plain; [exact C|reflexivity|unfold simple; reflexivity|cbn [t_min t_max length]; lia|reflexivity|].
  unfold fn_sqrt. pose proof (pick_number s func _ _ 0 x c k l C eq_refl H N) as G. change (Z.of_nat 0) with 0 in G.
  eapply fails_bind; [exact G|]. cbv beta iota.
  destruct zero_facts as (V0 & F0 & R0). pose proof (proj2 (f64_ltb_spec _ _ V F V0 F0)) as L. rewrite R0 in L. rewrite (L P).
  apply fails_wrong. exact K.
Qed.

Example c62_ex : unit_text (zs "px * px") [zs "px"; zs "px"] [] /\ paired [zs "px"; zs "px"] /\ ~ paired [zs "px"]
  /\ match execute trivial_env 0 0%nat (call "sqrt" [num 16 "px * px"]) with
     | Ret (Some r, n) s => exists c, node_at s r c /\ dec_node c (f64_of_Z 4) (zs "px")
     | _ => False
     end.
Proof.
  split; [|split; [|split]].
  - apply unit_up. apply (product_more (zs "px") (zs " * ") [zs "px"] (zs "px")).
    + split; [discriminate|split; [discriminate|repeat constructor; vm_compute; discriminate]].
    + right. right. right. left. reflexivity.
    + constructor. split; [discriminate|split; [discriminate|repeat constructor; vm_compute; discriminate]].
  - intro n. cbn [occurrences]. destruct (str_eqb (zs "px") n); reflexivity.
  - intro P. specialize (P (zs "px")). vm_compute in P. discriminate.
  - vm_compute. eexists. split; [reflexivity|]. split; [reflexivity|split; reflexivity].
Qed.
