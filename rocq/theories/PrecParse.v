(** * The parser evaluates the proper tree *)

From Coq Require Import String ZArith List Bool Lia Arith ZifyBool Floats.SpecFloat.
From Verif Require Import Base UnicodeRange NodeHeap NodeProofs Color FloatBits Dim Expr ExprSpec ExprRun ExprFrame PrecSpec PrecStream PrecValue.
Import ListNotations.
Open Scope string_scope. Open Scope list_scope. Open Scope Z_scope.
Ltac Zify.zify_post_hook ::= idtac.

Section Operators.
  Variables (s : est) (a : addr) (c : cell).
  Hypothesis Cu : e_cur s = Some a.
  Hypothesis Ha : nth_error (e_heap s) a = Some c.
  Lemma run_cur : cur s = Ret a s. Proof. unfold cur. now rewrite Cu. Qed.
  Lemma run_cur_type : cur_type s = Ret (c_type c) s.
  Proof. unfold cur_type. rewrite (b_ret _ _ _ _ _ run_cur). now apply run_type. Qed.
  Lemma run_cur_is t : cur_is t s = Ret (ntype_eqb (c_type c) t) s.
  Proof. unfold cur_is. rewrite (b_ret _ _ _ _ _ run_cur_type). reflexivity. Qed.
  Lemma run_cur_word w : cur_is_word w s = Ret (ntype_eqb (c_type c) IDENTIFIER && str_eqb (c_str c) (zs w)) s.
  Proof.
    unfold cur_is_word. rewrite (b_ret _ _ _ _ _ run_cur). rewrite (b_ret _ _ _ _ _ (run_type _ _ _ Ha)).
    destruct (ntype_eqb (c_type c) IDENTIFIER) eqn:T; [|reflexivity]. apply ntype_eqb_spec in T.
    rewrite (b_ret _ _ _ _ _ (run_string _ _ _ Ha ltac:(now rewrite T))). reflexivity.
  Qed.
  Definition is_pow (o : option binop) : bool := match o with Some OPow => true | _ => false end.
  Definition as_mul (o : option binop) : option mulop := match o with Some (OMul o) => Some o | _ => None end.
  Definition as_add (o : option binop) : option bool := match o with Some (OAdd o) => Some o | _ => None end.
  Definition as_rel (o : option binop) : option relop := match o with Some (ORel o) => Some o | _ => None end.
  Definition as_eq (o : option binop) : option eqop := match o with Some (OEq o) => Some o | _ => None end.
  Definition as_and (o : option binop) : option unit := match o with Some OAnd => Some tt | _ => None end.
  Definition as_or (o : option binop) : option unit := match o with Some OOr => Some tt | _ => None end.
  (** The words are different. *)
  Ltac words := repeat match goal with
    | |- context [str_eqb ?x (zs ?w)] => let E := fresh in destruct (str_eqb x (zs w)) eqn:E; [apply str_eqb_spec in E; rewrite E in *; clear E; try (vm_compute; reflexivity)|]
    end.
  Ltac cases T := destruct (c_type c) eqn:T; try reflexivity.
  Lemma run_power_operator : power_operator s = Ret (is_pow (op_of c)) s.
  Proof.
    unfold power_operator. rewrite (b_ret _ _ _ _ _ (run_cur_word _)). rewrite bind_cond. rewrite run_cur_is. unfold op_of.
    cases T. change (ntype_eqb IDENTIFIER IDENTIFIER) with true. change (ntype_eqb IDENTIFIER POWER) with false. cbn [andb]. unfold ret. words; reflexivity.
  Qed.
  Lemma run_mul_operator : multiplicative_operator s = Ret (as_mul (op_of c)) s.
  Proof.
    unfold multiplicative_operator. rewrite (b_ret _ _ _ _ _ run_cur). rewrite (b_ret _ _ _ _ _ (run_type _ _ _ Ha)). unfold op_of.
    cases T. rewrite (b_ret _ _ _ _ _ (run_string _ _ _ Ha ltac:(now rewrite T))). unfold ret. words; reflexivity.
  Qed.
  Lemma run_add_operator : additive_operator s = Ret (as_add (op_of c)) s.
  Proof. unfold additive_operator. rewrite (b_ret _ _ _ _ _ run_cur_type). unfold op_of. cases T. unfold ret. words; reflexivity. Qed.
  Lemma run_rel_operator : relational_operator s = Ret (as_rel (op_of c)) s.
  Proof. unfold relational_operator. rewrite (b_ret _ _ _ _ _ run_cur_type). unfold op_of. cases T. unfold ret. words; reflexivity. Qed.
  Lemma run_eq_operator : equality_operator s = Ret (as_eq (op_of c)) s.
  Proof.
    unfold equality_operator. rewrite (b_ret _ _ _ _ _ run_cur). rewrite (b_ret _ _ _ _ _ (run_type _ _ _ Ha)). unfold op_of.
    cases T. rewrite (b_ret _ _ _ _ _ (run_string _ _ _ Ha ltac:(now rewrite T))). unfold ret. words; reflexivity.
  Qed.
  Lemma run_and_operator : and_operator s = Ret (as_and (op_of c)) s.
  Proof.
    unfold and_operator. rewrite (b_ret _ _ _ _ _ (run_cur_word _)). rewrite (b_ret _ _ _ _ _ (run_cur_is _)). unfold op_of.
    cases T. change (ntype_eqb IDENTIFIER IDENTIFIER) with true. change (ntype_eqb IDENTIFIER AND) with false. cbn [andb]. rewrite orb_false_r. unfold ret. words; reflexivity.
  Qed.
  Lemma run_or_operator : or_operator s = Ret (as_or (op_of c)) s.
  Proof.
    unfold or_operator. rewrite (b_ret _ _ _ _ _ (run_cur_word _)). rewrite (b_ret _ _ _ _ _ (run_cur_is _)). unfold op_of.
    cases T. change (ntype_eqb IDENTIFIER IDENTIFIER) with true. change (ntype_eqb IDENTIFIER COLUMN) with false. cbn [andb]. rewrite orb_false_r. unfold ret. words; reflexivity.
  Qed.
End Operators.

(** The token that follows is not an operator of level [n] or more. *)
Definition limit (n : nat) : nat := match n with 8%nat => 7%nat | _ => n end.
Definition stop_cell (n : nat) (c : cell) : Prop :=
  (forall o, op_of c = Some o -> (level_of o < limit n)%nat) /\ c_type c <> OPEN_SQUAREBRACKET /\ c_type c <> PERIOD /\ (n = 0%nat -> c_type c <> CONDITIONAL).
Definition stops (n : nat) (h : heap) (rest : list addr) : Prop :=
  match rest with [] => True | a :: _ => exists c, nth_error h a = Some c /\ stop_cell n c end.
Lemma limit_le n m : (n <= m)%nat -> (limit n <= limit m)%nat.
Proof. intro H. do 9 (destruct n as [|n]; [do 9 (destruct m as [|m]; [cbn; lia|]); cbn [limit]; lia|]). do 9 (destruct m as [|m]; [lia|]). cbn [limit]. lia. Qed.
Lemma limit_small n : (n <= 7)%nat -> limit n = n.
Proof. intro H. do 8 (destruct n as [|n]; [reflexivity|]). lia. Qed.
Lemma stops_le n m h rest : (n <= m)%nat -> stops n h rest -> stops m h rest.
Proof.
  intros Le. destruct rest as [|a rest]; [auto|]. intros (c & H & A & B & C & D). exists c. split; [auto|]. split; [|split; [auto|split; [auto|]]].
  - intros o Ho. pose proof (limit_le _ _ Le). specialize (A o Ho). lia.
  - intro Z. apply D. lia.
Qed.
Lemma stops_goes n h h' rest : nodes_near false (length h) h h' -> stops n h rest -> stops n h' rest.
Proof.
  intros (Le & M). destruct rest as [|a rest]; [auto|]. intros (c & H & A). destruct (M a c (nth_lt _ _ _ H) H) as (c' & H' & Nr).
  exists c'. split; [auto|]. unfold stop_cell. rewrite (near_op _ _ Nr). destruct Nr as (-> & _). exact A.
Qed.
Lemma stops_cur n s rest : reads s rest -> stops n (e_heap s) rest -> exists a c, e_cur s = Some a /\ nth_error (e_heap s) a = Some c /\ stop_cell n c.
Proof.
  destruct rest as [|a rest]; cbn.
  - intros [(a & e & C & H & T) _] _. exists a, e. split; [auto|]. split; [auto|]. unfold stop_cell, op_of. rewrite T.
    split; [discriminate|]. split; [discriminate|]. split; discriminate.
  - intros (C & _) (c & H & A). eauto.
Qed.
Lemma spaced_rest n h a ts o c : nth_error h a = Some c -> op_of c = Some o -> (level_of o < limit n)%nat -> stops n h (a :: ts).
Proof.
  intros H Ho L. exists c. split; [auto|]. split; [intros o' Ho'; congruence|]. unfold op_of in Ho.
  destruct (c_type c); try discriminate; (split; [discriminate|split; discriminate]).
Qed.
Lemma stops_op n h a ts o : (exists c, nth_error h a = Some c /\ op_of c = Some o) -> (level_of o < limit n)%nat -> stops n h (a :: ts).
Proof. intros (c & H & Ho). eapply spaced_rest; eauto. Qed.

Section Parser.
  Variables (lm : libm) (fn : functions).
  (** The situation in which the tokens of [t], then [rest], are about to be read. *)
  Definition poised (n f : nat) (t : tree) (s : est) (rest : list addr) : Prop :=
    proper t /\ (tree_size t <= f)%nat /\ tokens_of (e_heap s) t /\ reads s (flatten t ++ rest) /\ vars_ok s /\ stops n (e_heap s) rest
    /\ value_of lm t s <> NoFuel.
  Definition good (n N : nat) (P : nat -> E (option addr)) : Prop :=
    forall f t s rest, (tree_size t <= N)%nat -> (n <= rank t)%nat -> poised n f t s rest -> P f s = value_of lm t s.

  Lemma size_pos t : (1 <= tree_size t)%nat. Proof. destruct t; cbn; lia. Qed.
  (** What is true after the evaluation. *)
  Lemma after n f t s rest v s' : poised n f t s rest -> value_of lm t s = Ret (Some v) s' ->
    reads s' rest /\ goes false s s' /\ (v < length (e_heap s'))%nat /\ vars_ok s' /\ stops n (e_heap s') rest.
  Proof.
    intros (P & Sz & Tk & R & V & St & _) E. destruct (value_reads lm t false s rest v s' ltac:(discriminate) Tk R V E) as (A & B & C).
    split; [auto|]. split; [auto|]. split; [auto|]. split; [eapply vars_goes; eauto|]. eapply stops_goes; [exact (proj1 B)|auto].
  Qed.

  Fixpoint spine (n : nat) (t : tree) : nat :=
    match t with Bin o _ l _ => if Nat.eqb (level_of o) n then S (spine n l) else 0 | _ => 0 end.
  Lemma spine_size n t : (spine n t < tree_size t)%nat.
  Proof. induction t; cbn [spine tree_size]; try lia. destruct (Nat.eqb (level_of o) n); lia. Qed.
  Lemma spine_zero n t : (n < rank t)%nat -> spine n t = 0%nat.
  Proof. destruct t; cbn [spine rank]; try reflexivity. intro H. destruct (Nat.eqb_spec (level_of o) n); [lia|reflexivity]. Qed.

  Section Lev.
    Variables (n N : nat) (op : Type) (lower : nat -> E (option addr)) (operator : E (option op)) (apply : op -> position -> addr -> addr -> E (option addr)).
    Variables (inj : op -> binop) (proj : option binop -> option op).
    Hypothesis Hn : (1 <= n <= 6)%nat.
    Hypothesis Hop : forall s a c, e_cur s = Some a -> nth_error (e_heap s) a = Some c -> operator s = Ret (proj (op_of c)) s.
    Hypothesis Hinj : forall o, proj (Some (inj o)) = Some o.
    Hypothesis Hlevel : forall b, level_of b = n -> exists o, b = inj o.
    Hypothesis Hother : forall b, level_of b <> n -> proj (Some b) = None.
    Hypothesis Hnone : proj None = None.
    Hypothesis Happly : forall o p l r, operation lm (inj o) p l r = apply o p l r.
    Hypothesis Hlower : good (S n) N lower.
    Notation loop f := (level_loop op (lower f) operator apply).
    Notation lev f := (level op (lower f) operator apply f).

    Lemma proper_bin o a l r : level_of o = n -> proper (Bin o a l r) -> (n <= rank l)%nat /\ (S n <= rank r)%nat /\ proper l /\ proper r.
    Proof. intros L P. destruct o; cbn [proper level_of] in *; try lia; intuition lia. Qed.

    Lemma spine_run : forall t s rest f, (tree_size t <= N)%nat -> (n <= rank t)%nat -> poised (S n) f t s rest ->
      lev f s = bind (value_of lm t) (fun v => match v with None => ret None | Some r => loop f (f - spine n t)%nat r end) s.
    Proof.
      assert (Base : forall t s rest f, (tree_size t <= N)%nat -> (n < rank t)%nat -> poised (S n) f t s rest ->
        lev f s = bind (value_of lm t) (fun v => match v with None => ret None | Some r => loop f (f - spine n t)%nat r end) s).
      { intros t s rest f Sz Rk Po. rewrite (spine_zero n t Rk), Nat.sub_0_r. unfold level, bind. rewrite (Hlower f t s rest); auto. }
      induction t as [a|a x IH|a x IH|a x IH|o a l IHl r IHr|q c x IHx y IHy z IHz]; intros s rest f Sz Rk Po;
        try (eapply Base; [exact Sz|cbn; lia|exact Po]); [|cbn in Rk; lia].
      cbn [rank] in Rk. destruct (Nat.eq_dec (level_of o) n) as [El|Ne]; [|eapply Base; [exact Sz|cbn; lia|exact Po]].
      destruct Po as (P & Sf & Tk & R & V & St & NF). destruct (proper_bin _ _ _ _ El P) as (Rl & Rr & Pl & Pr).
      cbn [spine]. rewrite El, Nat.eqb_refl. cbn [tree_size flatten tokens_of] in *. destruct Tk as (To & Tl & Tr). rewrite <- app_assoc in R. cbn [app] in R.
      assert (Pl1 : poised (S n) f l s (a :: flatten r ++ rest)).
      { split; [auto|]. split; [lia|]. split; [auto|]. split; [auto|]. split; [auto|]. split.
        - eapply stops_op; [exact To|]. rewrite El, limit_small by lia. lia.
        - intro Q. apply NF. cbn [value_of]. unfold with_value, bind. now rewrite Q. }
      rewrite (IHl s _ f ltac:(lia) Rl Pl1). cbn [value_of].
      destruct (value_of lm l s) as [[b|] s1| | |] eqn:E1; try (unfold with_value, bind; rewrite E1; reflexivity).
      destruct (after _ _ _ _ _ _ _ Pl1 E1) as (R1 & G1 & L1 & V1 & _).
      rewrite (b_ret _ _ _ _ _ E1). unfold with_value at 1. rewrite bind_assoc. rewrite (b_ret _ _ _ _ _ E1). cbv beta iota.
      pose proof (spine_size n l). replace (f - spine n l)%nat with (S (f - S (spine n l)))%nat by lia. cbn [level_loop].
      destruct To as (ca & Ha & Ho). destruct (near_at _ _ _ _ G1 Ha) as (c1 & Ha1 & Nr1).
      rewrite (b_ret _ _ _ _ _ (Hop s1 a c1 (proj1 R1) Ha1)). rewrite (near_op _ _ Nr1), Ho. destruct (Hlevel o El) as (o' & ->). rewrite Hinj.
      destruct (cur_pos_reads _ _ R1) as (p & Ep). rewrite (b_ret _ _ _ _ _ Ep), bind_assoc, (b_ret _ _ _ _ _ Ep).
      destruct (next_reads _ _ _ R1) as (s2 & N2 & R2 & G2 & _). rewrite (b_ret _ _ _ _ _ N2), bind_assoc, (b_ret _ _ _ _ _ N2).
      assert (G12 : goes false s s2) by (eapply goes_trans; [exact G1|apply goes_weak in G2; exact G2]).
      assert (NF2 : value_of lm r s2 <> NoFuel).
      { intro Q. apply NF. cbn [value_of]. unfold with_value. rewrite (b_ret _ _ _ _ _ E1), (b_ret _ _ _ _ _ Ep), (b_ret _ _ _ _ _ N2). unfold bind. now rewrite Q. }
      assert (Pr2 : poised (S n) f r s2 rest).
      { split; [auto|]. split; [lia|]. split; [eapply tokens_goes; [exact (proj1 G12)|auto]|]. split; [auto|]. split; [eapply vars_goes; eauto|].
        split; [eapply stops_goes; [exact (proj1 G12)|auto]|auto]. }
      pose proof (Hlower f r s2 rest ltac:(lia) Rr Pr2) as Er.
      unfold with_value. rewrite bind_assoc. unfold bind at 1. rewrite Er.
      destruct (value_of lm r s2) as [[b2|] s3| | |] eqn:E3; try (unfold bind; rewrite E3; reflexivity).
      rewrite (b_ret _ _ _ _ _ E3). rewrite Happly. unfold bind. destruct (apply o' p b b2 s3) as [[v|] s4| | |]; reflexivity.
    Qed.
    Lemma level_good : good n N (fun f => lev f).
    Proof.
      intros f t s rest Sz Rk Po. pose proof Po as (P & Sf & Tk & R & V & St & NF).
      assert (Po' : poised (S n) f t s rest).
      { split; [auto|]. split; [auto|]. split; [auto|]. split; [auto|]. split; [auto|]. split; [eapply stops_le; [|exact St]; lia|auto]. }
      rewrite (spine_run t s rest f Sz Rk Po'). destruct (value_of lm t s) as [[b|] s1| | |] eqn:E1; try (unfold bind; rewrite E1; reflexivity).
      rewrite (b_ret _ _ _ _ _ E1). destruct (after _ _ _ _ _ _ _ Po E1) as (R1 & G1 & L1 & V1 & St1).
      pose proof (spine_size n t). replace (f - spine n t)%nat with (S (f - S (spine n t)))%nat by lia. cbn [level_loop].
      destruct (stops_cur _ _ _ R1 St1) as (a & c & Ca & Ha & So & _). rewrite (b_ret _ _ _ _ _ (Hop s1 a c Ca Ha)).
      replace (proj (op_of c)) with (@None op); [reflexivity|]. destruct (op_of c) as [o|] eqn:Ho; [|auto]. symmetry. apply Hother.
      specialize (So o eq_refl). rewrite limit_small in So by lia. lia.
    Qed.
  End Lev.

  (** The functions of the parser. *)
  Definition post (f : nat) := post_ f (unary_ f fn (exprs lm fn f false) (exprs lm fn f true)) (exprs lm fn f true).
  Definition p7 (f : nat) := power_ lm (post f).
  Definition p6 (f : nat) := multiplicative_ f (p7 f).
  Definition p5 (f : nat) := additive_ f (p6 f).
  Definition p4 (f : nat) := relational_ f (p5 f).
  Definition p3 (f : nat) := equality_ f (p4 f).
  Definition p2 (f : nat) := logical_and_ f (p3 f).
  Definition p1 (f : nat) := logical_or_ f (p2 f).
  Definition p0 (f : nat) := conditional_ f (exprs lm fn f true) (p1 f).
  Lemma exprs_p0 f s : exprs lm fn (S f) true s = p0 f s. Proof. reflexivity. Qed.
  Lemma exprs_p7 f s : exprs lm fn (S f) false s = p7 f s. Proof. reflexivity. Qed.

  Lemma p6_good N : good 7 N p7 -> good 6 N p6.
  Proof.
    intro H. apply (level_good 6 N mulop p7 multiplicative_operator _ OMul as_mul); auto; try lia; try reflexivity.
    - intros. now apply (run_mul_operator s a).
    - intros []; cbn; try lia. eauto.
    - intros []; cbn; try lia; reflexivity.
  Qed.
  Lemma p5_good N : good 6 N p6 -> good 5 N p5.
  Proof.
    intro H. apply (level_good 5 N bool p6 additive_operator _ OAdd as_add); auto; try lia; try reflexivity.
    - intros. now apply (run_add_operator s a).
    - intros []; cbn; try lia. eauto.
    - intros []; cbn; try lia; reflexivity.
  Qed.
  Lemma p4_good N : good 5 N p5 -> good 4 N p4.
  Proof.
    intro H. apply (level_good 4 N relop p5 relational_operator _ ORel as_rel); auto; try lia; try reflexivity.
    - intros. now apply (run_rel_operator s a).
    - intros []; cbn; try lia. eauto.
    - intros []; cbn; try lia; reflexivity.
  Qed.
  Lemma p3_good N : good 4 N p4 -> good 3 N p3.
  Proof.
    intro H. apply (level_good 3 N eqop p4 equality_operator _ OEq as_eq); auto; try lia; try reflexivity.
    - intros. now apply (run_eq_operator s a).
    - intros []; cbn; try lia. eauto.
    - intros []; cbn; try lia; reflexivity.
  Qed.
  Lemma p2_good N : good 3 N p3 -> good 2 N p2.
  Proof.
    intro H. apply (level_good 2 N unit p3 and_operator _ (fun _ => OAnd) as_and); auto; try lia; try reflexivity.
    - intros. now apply (run_and_operator s a).
    - now intros [].
    - intros []; cbn; try lia. exists tt. reflexivity.
    - intros []; cbn; try lia; reflexivity.
  Qed.
  Lemma p1_good N : good 2 N p2 -> good 1 N p1.
  Proof.
    intro H. apply (level_good 1 N unit p2 or_operator _ (fun _ => OOr) as_or); auto; try lia; try reflexivity.
    - intros. now apply (run_or_operator s a).
    - now intros [].
    - intros []; cbn; try lia. exists tt. reflexivity.
    - intros []; cbn; try lia; reflexivity.
  Qed.

  Lemma poised_le n m f t s rest : (n <= m)%nat -> poised n f t s rest -> poised m f t s rest.
  Proof. intros Le (P & Sf & Tk & R & V & St & NF). do 5 (split; [auto|]). split; [eapply stops_le; eauto|auto]. Qed.

  (** power *)
  Lemma p7_good N : good 8 N post -> good 9 N post -> good 7 N p7.
  Proof.
    intros H8 H9 f t s rest Sz Rk Po. unfold p7, power_.
    assert (Over : (8 <= rank t)%nat -> power_ lm (post f) s = value_of lm t s).
    { intro R8. unfold power_. pose proof (H8 f t s rest Sz R8 (poised_le 7 8 _ _ _ _ ltac:(lia) Po)) as E.
      destruct (value_of lm t s) as [[b|] s1| | |] eqn:E1; try (unfold bind; rewrite E; reflexivity).
      rewrite (b_ret _ _ _ _ _ E). destruct (after _ _ _ _ _ _ _ Po E1) as (R1 & G1 & L1 & V1 & St1).
      destruct (stops_cur _ _ _ R1 St1) as (a & c & Ca & Ha & So & _). rewrite (b_ret _ _ _ _ _ (run_power_operator s1 a c Ca Ha)).
      replace (is_pow (op_of c)) with false; [reflexivity|]. destruct (op_of c) as [[]|] eqn:Ho; try reflexivity. specialize (So _ eq_refl). cbn in So. lia. }
    destruct (Nat.eq_dec (rank t) 7) as [R7|Ne]; [|apply Over; lia].
    destruct t as [| | | |o a l r|]; try discriminate. destruct o; try discriminate. cbn [tree_size proper tokens_of flatten] in *.
    destruct Po as ((Rl & Rr & Pl & Pr) & Sf & (To & Tl & Tr) & R & V & St & NF). cbn [tree_size flatten tokens_of] in *. rewrite <- app_assoc in R. cbn [app] in R.
    assert (Po1 : poised 9 f l s (a :: flatten r ++ rest)).
    { split; [auto|]. split; [lia|]. split; [auto|]. split; [auto|]. split; [auto|]. split; [eapply stops_op; [exact To|cbn; lia]|].
      intro Q. apply NF. cbn [value_of]. unfold with_value, bind. now rewrite Q. }
    pose proof (H9 f l s _ ltac:(lia) ltac:(lia) Po1) as El. cbn [value_of].
    destruct (value_of lm l s) as [[b|] s1| | |] eqn:E1; try (unfold with_value, bind; rewrite El, E1; reflexivity).
    unfold with_value. rewrite (b_ret _ _ _ _ _ El), (b_ret _ _ _ _ _ E1).
    destruct (after _ _ _ _ _ _ _ Po1 E1) as (R1 & G1 & L1 & V1 & _).
    destruct To as (ca & Ha & Ho). destruct (near_at _ _ _ _ G1 Ha) as (c1 & Ha1 & Nr1).
    rewrite (b_ret _ _ _ _ _ (run_power_operator s1 a c1 (proj1 R1) Ha1)). rewrite (near_op _ _ Nr1), Ho. cbn [is_pow].
    destruct (cur_pos_reads _ _ R1) as (p & Ep). rewrite (b_ret _ _ _ _ _ Ep).
    destruct (next_reads _ _ _ R1) as (s2 & N2 & R2 & G2 & _). rewrite !(b_ret _ _ _ _ _ N2).
    assert (G12 : goes false s s2) by (eapply goes_trans; [exact G1|apply goes_weak in G2; exact G2]).
    assert (NF2 : value_of lm r s2 <> NoFuel).
    { intro Q. apply NF. cbn [value_of]. unfold with_value. rewrite (b_ret _ _ _ _ _ E1), (b_ret _ _ _ _ _ Ep), (b_ret _ _ _ _ _ N2). unfold bind. now rewrite Q. }
    assert (Pr2 : poised 8 f r s2 rest).
    { split; [auto|]. split; [lia|]. split; [eapply tokens_goes; [exact (proj1 G12)|auto]|]. split; [auto|]. split; [eapply vars_goes; eauto|].
      split; [eapply stops_goes; [exact (proj1 G12)|eapply stops_le; [|exact St]; lia]|auto]. }
    unfold bind. rewrite (H8 f r s2 rest ltac:(lia) Rr Pr2). destruct (value_of lm r s2) as [[b2|] s3| | |]; reflexivity.
  Qed.

  (** conditional *)
  Lemma p0_good N : good 1 (S N) p1 -> good 0 N p0 -> good 0 (S N) p0.
  Proof.
    intros H1 H0 f t s rest Sz Rk Po. unfold p0, conditional_.
    assert (Q0 : forall f' v s', reads s' rest -> stops 0 (e_heap s') rest -> conditional_loop (S f') (exprs lm fn f true) v s' = Ret (Some v) s').
    { intros f' v s' R St. cbn [conditional_loop]. destruct (stops_cur _ _ _ R St) as (a & c & Ca & Ha & _ & _ & _ & Nc).
      rewrite (b_ret _ _ _ _ _ (run_cur_is s' a c Ca Ha CONDITIONAL)). rewrite (proj2 (ntype_eqb_neq _ _) (Nc eq_refl)). reflexivity. }
    assert (Sf : (1 <= f)%nat) by (destruct Po as (_ & Sf & _); pose proof (size_pos t); lia).
    destruct (Nat.eq_dec (rank t) 0) as [R0|Ne].
    2:{ pose proof (H1 f t s rest Sz ltac:(lia) (poised_le 0 1 _ _ _ _ ltac:(lia) Po)) as E.
        destruct (value_of lm t s) as [[b|] s1| | |] eqn:E1; try (unfold bind; rewrite E; reflexivity).
        rewrite (b_ret _ _ _ _ _ E). destruct (after _ _ _ _ _ _ _ Po E1) as (R1 & G1 & L1 & V1 & St1).
        destruct f as [|f]; [lia|]. apply Q0; auto. }
    destruct t as [| | | |o|q c x y z]; try discriminate; [destruct o; discriminate|].
    destruct Po as ((Rx & Px & Py & Pz) & Sf' & (Tq & Tc & Tx & Ty & Tz) & R & V & St & NF). cbn [tree_size flatten] in *. repeat (rewrite <- app_assoc in R; cbn [app] in R).
    destruct f as [|f]; [lia|]. pose proof (size_pos x). pose proof (size_pos y). pose proof (size_pos z).
    assert (NFx : value_of lm x s <> NoFuel) by (intro Q; apply NF; cbn [value_of]; unfold with_value, bind; now rewrite Q).
    assert (Pox : poised 1 (S f) x s (q :: flatten y ++ c :: flatten z ++ rest)).
    { split; [auto|]. split; [lia|]. split; [auto|]. split; [auto|]. split; [auto|]. split; [|auto].
      destruct Tq as (k & Hk & Tk). exists k. split; [auto|]. unfold stop_cell, op_of. rewrite Tk. split; [discriminate|]. split; [discriminate|]. split; discriminate. }
    pose proof (H1 (S f) x s _ ltac:(lia) Rx Pox) as Ex. cbn [value_of] in NF |- *. unfold with_value at 1. unfold with_value at 1 in NF.
    destruct (value_of lm x s) as [[b|] s1| | |] eqn:E1; try (unfold bind; rewrite Ex, E1; reflexivity).
    rewrite (b_ret _ _ _ _ _ E1) in NF. rewrite (b_ret _ _ _ _ _ Ex), (b_ret _ _ _ _ _ E1). destruct (after _ _ _ _ _ _ _ Pox E1) as (R1 & G1 & L1 & V1 & _).
    cbn [conditional_loop]. destruct Tq as (kq & Hq & Tyq). destruct (near_at _ _ _ _ G1 Hq) as (cq & Hq1 & Tq1 & _).
    rewrite (b_ret _ _ _ _ _ (run_cur_is s1 q cq (proj1 R1) Hq1 CONDITIONAL)). rewrite Tq1, Tyq. change (ntype_eqb CONDITIONAL CONDITIONAL) with true. cbn [negb].
    destruct (boolean b s1) as [bo s2| | |] eqn:Eb; try (unfold bind; rewrite Eb; reflexivity).
    destruct (fr_use false any _ _ _ _ _ (fr_boolean _ _ _ _) eq_refl Eb) as (Sm & _). rewrite (b_ret _ _ _ _ _ Eb) in NF. rewrite !(b_ret _ _ _ _ _ Eb).
    assert (R2 : reads s2 (q :: flatten y ++ c :: flatten z ++ rest)) by (eapply reads_same; eauto).
    destruct (next_reads _ _ _ R2) as (s3 & N3 & R3 & G3 & _). rewrite (b_ret _ _ _ _ _ N3) in NF. rewrite !(b_ret _ _ _ _ _ N3).
    assert (G13 : goes false s s3) by (eapply goes_trans; [exact G1|]; eapply goes_trans; [apply same_goes; exact Sm|apply goes_any; exact G3]).
    assert (V3 : vars_ok s3) by (eapply vars_goes; eauto).
    destruct f as [|f]; [lia|].
    assert (Poy : value_of lm y s3 <> NoFuel -> poised 0 f y s3 (c :: flatten z ++ rest)).
    { intro NFy. split; [auto|]. split; [lia|]. split; [eapply tokens_goes; [exact (proj1 G13)|auto]|]. split; [auto|]. split; [auto|]. split; [|auto].
      destruct Tc as (k & Hk & Tk). destruct (near_at _ _ _ _ G13 Hk) as (ck & Hk' & Tk' & _). exists ck. split; [auto|]. unfold stop_cell, op_of. rewrite Tk', Tk.
      split; [discriminate|]. split; [discriminate|]. split; [discriminate|]. intros _. discriminate. }
    assert (Ey : value_of lm y s3 <> NoFuel -> exprs lm fn (S (S f)) true s3 = value_of lm y s3).
    { intro NFy. rewrite exprs_p0. apply (H0 (S f) y s3 (c :: flatten z ++ rest) ltac:(lia) ltac:(lia)). destruct (Poy NFy) as (A & B & C). split; [auto|]. split; [lia|exact C]. }
    (* at the colon *)
    assert (Col : forall s4, goes false s3 s4 -> reads s4 (c :: flatten z ++ rest) -> exists s5, cur_is COLON s4 = Ret true s4 /\ next s4 = Ret tt s5 /\ reads s5 (flatten z ++ rest)
       /\ goes false s s5 /\ vars_ok s5 /\ (value_of lm z s5 <> NoFuel -> exprs lm fn (S (S f)) true s5 = value_of lm z s5
         /\ forall v s6, value_of lm z s5 = Ret (Some v) s6 -> reads s6 rest /\ goes false s s6 /\ stops 0 (e_heap s6) rest)).
    { intros s4 G34 R4. destruct (next_reads _ _ _ R4) as (s5 & N5 & R5 & G5 & _). exists s5.
      assert (G14 : goes false s s4) by (eapply goes_trans; eauto).
      split. { destruct Tc as (k & Hk & Tk). destruct (near_at _ _ _ _ G14 Hk) as (ck & Hk' & Tk' & _). rewrite (run_cur_is s4 c ck (proj1 R4) Hk' COLON), Tk', Tk. reflexivity. }
      assert (G15 : goes false s s5) by (eapply goes_trans; [exact G14|apply goes_any; exact G5]).
      split; [auto|]. split; [auto|]. split; [auto|]. assert (V5 : vars_ok s5) by (eapply vars_goes; eauto). split; [auto|]. intro NFz.
      assert (Poz : poised 0 (S f) z s5 rest).
      { split; [auto|]. split; [lia|]. split; [eapply tokens_goes; [exact (proj1 G15)|auto]|]. split; [auto|]. split; [auto|]. split; [|auto].
        eapply stops_goes; [exact (proj1 G15)|auto]. }
      split; [rewrite exprs_p0; apply (H0 (S f) z s5 rest ltac:(lia) ltac:(lia) Poz)|].
      intros v s6 Ev. destruct (after _ _ _ _ _ _ _ Poz Ev) as (R6 & G6 & _ & _ & St6). split; [auto|]. split; [eapply goes_trans; eauto|auto]. }
    rewrite bind_cond in NF. rewrite bind_cond. destruct bo.
    - (* true *)
      unfold with_value in NF |- *.
      assert (NFy : value_of lm y s3 <> NoFuel) by (intro Q; apply NF; unfold bind; now rewrite Q). specialize (Ey NFy).
      destruct (value_of lm y s3) as [[b4|] s4| | |] eqn:E4; try (unfold bind; rewrite Ey, E4; reflexivity).
      rewrite (b_ret _ _ _ _ _ E4) in NF. rewrite (b_ret _ _ _ _ _ E4), (b_ret _ _ _ _ _ Ey).
      destruct (after _ _ _ _ _ _ _ (Poy NFy) E4) as (R4 & G4 & L4 & V4 & _).
      destruct (Col s4 G4 R4) as (s5 & C5 & N5 & R5 & G5 & V5 & K5). rewrite (b_ret _ _ _ _ _ C5). cbn [negb].
      rewrite (b_ret _ _ _ _ _ N5) in NF. rewrite !(b_ret _ _ _ _ _ N5).
      destruct (value_of lm z s5) as [[b6|] s6| | |] eqn:E6.
      + destruct (K5 ltac:(discriminate)) as (Ez & K6). rewrite (b_ret (quiet _) _ _ tt (with_msgs s6 (e_msgs s5))) by (unfold quiet; rewrite Ez; reflexivity).
        rewrite (b_ret (skipped _) _ _ tt (with_msgs s6 (e_msgs s5))) by (unfold skipped; rewrite E6; reflexivity).
        destruct (K6 b6 s6 eq_refl) as (R6 & _ & St6). apply Q0; auto.
      + exfalso. apply NF. unfold bind, skipped. now rewrite E6.
      + destruct (K5 ltac:(discriminate)) as (Ez & K6). unfold bind, quiet, skipped. rewrite Ez, E6. reflexivity.
      + destruct (K5 ltac:(discriminate)) as (Ez & K6). unfold bind, quiet, skipped. rewrite Ez, E6. reflexivity.
      + exfalso. apply NF. unfold bind, skipped. now rewrite E6.
    - (* false *)
      rewrite bind_assoc.
      destruct (value_of lm y s3) as [[b4|] s4| | |] eqn:E4.
      + specialize (Ey ltac:(discriminate)). rewrite (b_ret (quiet _) _ _ tt (with_msgs s4 (e_msgs s3))) by (unfold quiet; rewrite Ey; reflexivity).
        rewrite (b_ret (skipped _) _ _ tt (with_msgs s4 (e_msgs s3))) by (unfold skipped; rewrite E4; reflexivity).
        rewrite (b_ret (skipped _) _ _ tt (with_msgs s4 (e_msgs s3))) in NF by (unfold skipped; rewrite E4; reflexivity). rewrite bind_ret.
        destruct (after _ _ _ _ _ _ _ (Poy ltac:(discriminate)) E4) as (R4 & G4 & L4 & V4 & _).
        destruct (Col (with_msgs s4 (e_msgs s3)) G4 R4) as (s5 & C5 & N5 & R5 & G5 & V5 & K5). rewrite (b_ret _ _ _ _ _ C5). cbn [negb].
        rewrite (b_ret _ _ _ _ _ N5) in NF. rewrite !(b_ret _ _ _ _ _ N5). destruct (K5 NF) as (Ez & K6).
        unfold bind. rewrite Ez. destruct (value_of lm z s5) as [[b6|] s6| | |] eqn:E6; try reflexivity.
        destruct (K6 b6 s6 eq_refl) as (R6 & _ & St6). apply Q0; auto.
      + exfalso. apply NF. unfold bind, skipped. now rewrite E4.
      + specialize (Ey ltac:(discriminate)). unfold bind, quiet, skipped. rewrite Ey, E4. reflexivity.
      + specialize (Ey ltac:(discriminate)). unfold bind, quiet, skipped. rewrite Ey, E4. reflexivity.
      + exfalso. apply NF. unfold bind, skipped. now rewrite E4.
  Qed.
End Parser.
