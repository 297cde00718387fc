(** * Properties of comparisons, matches and logical operators (C36, C37, C38) *)

From Coq Require Import String ZArith List Bool Lia Arith ZifyBool Floats.SpecFloat Reals.
From Verif Require Import Base NodeHeap Color FloatBits FloatFacts Expr ExprSpec ExprRun CmpSpec.
From Flocq Require Import Core BinarySingleNaN.
Import ListNotations.
Open Scope string_scope. Open Scope list_scope. Open Scope Z_scope.
Ltac Zify.zify_post_hook ::= idtac.

(** ** C36 Comparisons are coherent *)
Lemma answers_bind {A} (m : E bool) (f : bool -> E A) s b : answers m s b -> bind m f s = f b s.
Proof. unfold answers, bind. intros ->. reflexivity. Qed.
Lemma dictionary_lt x : forall y, str_lt x y = is_lt (dictionary x y).
Proof.
  induction x as [|a x IH]; intros [|b y]; cbn [str_lt dictionary]; try reflexivity. rewrite IH.
  destruct (Z.compare_spec a b) as [C|C|C]; [subst; replace (b <? b) with false by lia; rewrite Z.eqb_refl; reflexivity| |].
  - replace (a <? b) with true by lia. reflexivity.
  - replace (a <? b) with false by lia. replace (a =? b) with false by lia. reflexivity.
Qed.
Lemma dictionary_eq x : forall y, str_eqb x y = is_eq (dictionary x y).
Proof.
  assert (R : forall l, dictionary l l = Eq) by (induction l as [|a l IH]; cbn [dictionary]; [|rewrite Z.compare_refl]; auto).
  assert (N : forall x y, dictionary x y = Eq -> x = y).
  { clear x. induction x as [|a x IH]; intros [|b y]; cbn [dictionary]; try discriminate; auto.
    destruct (Z.compare_spec a b) as [C|C|C]; try discriminate. intro H. subst. f_equal. auto. }
  intro y. destruct (str_eqb x y) eqn:E.
  - apply str_eqb_spec in E. subst. now rewrite R.
  - destruct (dictionary x y) eqn:D; try reflexivity. apply N in D. subst. rewrite str_eqb_refl in E. discriminate.
Qed.
Lemma dictionary_opp x : forall y, dictionary y x = CompOpp (dictionary x y).
Proof.
  induction x as [|a x IH]; intros [|b y]; cbn [dictionary CompOpp]; auto.
  rewrite (Z.compare_antisym a b). destruct (Z.compare a b); cbn [CompOpp]; auto.
Qed.
Lemma sf_opp x y : SFcompare y x = option_map CompOpp (SFcompare x y).
Proof.
  destruct x as [[]|[]| |[] m e]; destruct y as [[]|[]| |[] m' e']; try reflexivity; cbn [SFcompare option_map CompOpp];
  rewrite (Z.compare_antisym e e'); destruct (Z.compare e e'); cbn [CompOpp]; try reflexivity;
  change (Pos.compare_cont Eq) with Pos.compare; rewrite (Pos.compare_antisym m m'); destruct (Pos.compare m m'); reflexivity.
Qed.
Lemma sf_lt x y r : SFcompare x y = Some r -> SFltb x y = is_lt r.
Proof. unfold SFltb. intros ->. destruct r; reflexivity. Qed.
Lemma sf_eq x y r : SFcompare x y = Some r -> SFeqb x y = is_eq r.
Proof. unfold SFeqb. intros ->. destruct r; reflexivity. Qed.

Lemma compares_run s a b ca cb r : node_at s a ca -> node_at s b cb -> compares ca cb r ->
  answers (is_comparable a b) s true /\ answers (is_equal a b) s (is_eq r) /\ answers (is_less_than a b) s (is_lt r).
Proof.
  intros Ha Hb C. destruct C as [x y u (Ta & Va & Ua) (Tb & Vb & Ub)|x y u r Na Nb Hne Hr|x y r (Ta & Va) (Tb & Vb) Hr|x y (Ta & Va) (Tb & Vb)|x y (Ta & Va) (Tb & Vb)].
  2: destruct Na as [ca x u (Ta & Va & Ua)|ca x u (Ta & Va & Ua)]; inversion Nb as [c' y' u' (Tb & Vb & Ub)|c' y' u' (Tb & Vb & Ub)]; subst;
     [exfalso; eapply Hne; reflexivity| | |]; cbn [as_double] in Hr.
  all: unfold answers, is_comparable, is_equal, is_less_than; steps; rewrite Ta, Tb; unfold comparable_types, equal_types, less_types; cbv iota; steps.
  - rewrite Ua, Ub, Va, Vb, str_eqb_refl. split; [reflexivity|]. split; unfold ret; f_equal; destruct (Z.compare_spec x y); cbn; lia.
  - rewrite Ub, str_eqb_refl, (sf_eq _ _ _ Hr), (sf_lt _ _ _ Hr). repeat split.
  - rewrite Ub, str_eqb_refl, (sf_eq _ _ _ Hr), (sf_lt _ _ _ Hr). repeat split.
  - rewrite Ub, str_eqb_refl, (sf_eq _ _ _ Hr), (sf_lt _ _ _ Hr). repeat split.
  - rewrite Va, Vb, (sf_eq _ _ _ Hr), (sf_lt _ _ _ Hr). repeat split.
  - rewrite Va, Vb, dictionary_eq, dictionary_lt. repeat split.
  - rewrite Va, Vb. destruct x, y; repeat split.
Qed.

(** The value of each operator, for two comparable values. *)
Theorem c36_relations : forall s a b ca cb r p o,
  node_at s a ca -> node_at s b cb -> compares ca cb r ->
  gives (apply_relation o p a b) s (fun c => bool_node c
    match o with
    | Less => is_lt r | Greater => is_gt r
    | LessEq => is_lt r || is_eq r | GreaterEq => is_gt r || is_eq r
    end).
Proof.
  intros s a b ca cb r p o Ha Hb C. destruct (compares_run s a b ca cb r Ha Hb C) as (K & Eq & L).
  eapply gives_fresh.
  - unfold apply_relation. rewrite (answers_bind _ _ _ _ K). cbv iota.
    assert (R : answers (relation o a b) s (match o with
      | Less => is_lt r | Greater => is_gt r | LessEq => is_lt r || is_eq r | GreaterEq => is_gt r || is_eq r end)).
    { unfold answers, relation. destruct o; [exact L| | |]; rewrite (answers_bind _ _ _ _ L).
      - destruct r; cbn [is_lt orb]; try exact Eq; reflexivity.
      - destruct r; cbn [is_lt is_gt]; try reflexivity; rewrite (answers_bind _ _ _ _ Eq); reflexivity.
      - destruct r; reflexivity. }
    rewrite (answers_bind _ _ _ _ R). steps. reflexivity.
  - split; reflexivity.
Qed.
Theorem c36_equality : forall s a b ca cb r p,
  node_at s a ca -> node_at s b cb -> compares ca cb r ->
  gives (apply_equality Equal p a b) s (fun c => bool_node c (is_eq r))
  /\ gives (apply_equality NotEqual p a b) s (fun c => bool_node c (negb (is_eq r))).
Proof.
  intros s a b ca cb r p Ha Hb C. destruct (compares_run s a b ca cb r Ha Hb C) as (K & Eq & L).
  split; eapply gives_fresh; try (unfold apply_equality; rewrite (answers_bind _ _ _ _ K); cbv iota;
    rewrite ?bind_assoc, (answers_bind _ _ _ _ Eq); steps; reflexivity); split; reflexivity.
Qed.
(** The order of two values is unique, and reversed when they are swapped. *)
Theorem c36_swap : forall c d r, compares c d r -> compares d c (CompOpp r).
Proof.
  intros c d r C. destruct C as [x y u Na Nb|x y u r Na Nb Hne Hr|x y r Na Nb Hr|x y Na Nb|x y Na Nb].
  - rewrite <- Z.compare_antisym. eapply cmp_int; eassumption.
  - eapply cmp_dec; [eassumption|eassumption| |]; [intros i j E1 E2; eapply Hne; eassumption|]. now rewrite sf_opp, Hr.
  - eapply cmp_percent; [eassumption|eassumption|]. now rewrite sf_opp, Hr.
  - rewrite <- dictionary_opp. now apply cmp_string.
  - replace (CompOpp (bool_compare x y)) with (bool_compare y x) by (destruct x, y; reflexivity). now apply cmp_bool.
Qed.
Theorem c36_unique : forall c d r r', compares c d r -> compares c d r' -> r = r'.
Proof.
  intros c d r r' C D. set (s := mkE [c; d] [] 0%nat 0 0 None [] false).
  destruct (compares_run s 0%nat 1%nat c d r eq_refl eq_refl C) as (_ & E1 & L1).
  destruct (compares_run s 0%nat 1%nat c d r' eq_refl eq_refl D) as (_ & E2 & L2).
  unfold answers in *. rewrite E1 in E2. rewrite L1 in L2. inversion E2 as [E3]. inversion L2 as [L3]. destruct r, r'; cbn in *; congruence.
Qed.
(** The comparison of doubles is that of the numbers they stand for. *)
Theorem c36_real_numbers : forall x y, f64_valid x -> f64_finite x -> f64_valid y -> f64_finite y ->
  exists r, SFcompare x y = Some r /\
  match r with Lt => (f64_R x < f64_R y)%R | Eq => f64_R x = f64_R y | Gt => (f64_R x > f64_R y)%R end.
Proof.
  intros x y Vx Fx Vy Fy.
  destruct (f64_lift x Vx) as (bx & <- & Rx & Hx). destruct (f64_lift y Vy) as (by_ & <- & Ry & Hy).
  pose proof (Bcompare_correct 53 1024 bx by_ (Hx Fx) (Hy Fy)) as C. unfold Bcompare in C. rewrite C.
  exists (Rcompare (B2R bx) (B2R by_)). split; [reflexivity|]. rewrite <- Rx, <- Ry.
  destruct (Rcompare_spec (B2R bx) (B2R by_)); auto.
Qed.

(** Values which are not numbers (0/0) break this: each of two values is greater
    than the other. *)
Theorem c36_nan_refuted : forall u p, let s := mkE [with_str (with_dec (plain DECIMAL_NUMBER) S754_nan) u; with_str (with_int (plain INTEGER) 1) u] [] 0%nat 0 0 None [] false in
  gives (apply_relation Greater p 0%nat 1%nat) s (fun c => bool_node c true)
  /\ gives (apply_relation Greater p 1%nat 0%nat) s (fun c => bool_node c true).
Proof.
  intros u p s. split; (eapply gives_fresh; [unfold apply_relation, is_comparable, bind, comparable_types; cbn; rewrite str_eqb_refl; cbn; reflexivity|split; reflexivity]).
Qed.
(** Different types or units: an error, whatever the operator. *)
Theorem c36_incomparable : forall s a b ca cb o p,
  node_at s a ca -> node_at s b cb ->
  (exists x y u w, number ca x u /\ number cb y w /\ u <> w) \/ (exists x u, number ca x u /\ c_type cb = STRING) ->
  exists s' m, apply_relation o p a b s = Ret (Some a) s' /\ e_msgs s' = e_msgs s ++ [m] /\ m_level m = LError.
Proof.
  intros s a b ca cb o p Ha Hb H.
  assert (K : exists m, is_comparable a b s = Ret false (with_msgs s (e_msgs s ++ [m])) /\ m_level m = LError).
  { destruct H as [(x & y & u & w & Na & Nb & Hne)|(x & u & Na & Tb)].
    - destruct Na as [ca x u (Ta & Va & Ua)|ca x u (Ta & Va & Ua)]; destruct Nb as [cb y w (Tb & Vb & Ub)|cb y w (Tb & Vb & Ub)]; subst;
      (eexists; split; [unfold is_comparable; steps; rewrite Ta, Tb; unfold comparable_types; cbv iota; steps;
        replace (str_eqb (c_str ca) (c_str cb)) with false by (symmetry; now apply str_eqb_neq); reflexivity|reflexivity]).
    - destruct Na as [ca x u (Ta & Va & Ua)|ca x u (Ta & Va & Ua)];
      (eexists; split; [unfold is_comparable; steps; rewrite Ta, Tb; unfold comparable_types; cbv iota; reflexivity|reflexivity]). }
  destruct K as (m & K & L). eexists _, m. split; [unfold apply_relation; rewrite (b_ret _ _ _ _ _ K); reflexivity|]. split; [reflexivity|exact L].
Qed.
Example c36_ex : compares (num 3 "px") (num 5 "px") Lt /\ compares (text "ab") (text "b") Lt
  /\ compares (num 1 "em") (dec (f64_of_Z 1) "em") Eq.
Proof.
  split; [apply (cmp_int _ _ 3 5 (zs "px")); repeat split|]. split; [apply (cmp_string _ _ (zs "ab") (zs "b")); repeat split|].
  apply (cmp_dec _ _ (inl 1) (inr (f64_of_Z 1)) (zs "em")); [apply number_int; repeat split|apply number_dec; repeat split|intros i j _ X; discriminate X|reflexivity].
Qed.

(** ** C37 Match operators *)
Lemma starts_spec s : forall l, starts_with s l = true <-> exists t, l = s ++ t.
Proof.
  induction s as [|x s IH]; intro l; cbn [starts_with app].
  - split; [intros _; exists l; reflexivity|reflexivity].
  - destruct l as [|y l]; [split; [discriminate|intros (t & H); discriminate]|]. rewrite andb_true_iff, IH. split.
    + intros (E & t & ->). exists t. f_equal. lia.
    + intros (t & H). inversion H; subst. split; [lia|eauto].
Qed.
Lemma found_spec s : forall l, found_in s l = true <-> exists t u, l = t ++ s ++ u.
Proof.
  induction l as [|y l IH]; cbn [found_in]; rewrite orb_true_iff, starts_spec.
  - split; [intros [(u & H)|H]; [exists [], u; exact H|discriminate]|]. intros (t & u & H). left.
    destruct t; [exists u; exact H|discriminate].
  - rewrite IH. split; [intros [(u & H)|(t & u & H)]; [exists [], u; exact H|exists (y :: t), u; cbn; now rewrite H]|].
    intros (t & u & H). destruct t as [|z t]; [left; exists u; exact H|]. inversion H; subst. right. eauto.
Qed.
Lemma tail_sep (sep : Z) l x y : l ++ [sep] = x ++ sep :: y -> exists post, l = x ++ post /\ (post = [] \/ exists a, post = sep :: a).
Proof.
  intro H. destruct y as [|z y] using rev_ind.
  - apply app_inj_tail in H. destruct H as (-> & _). exists []. rewrite app_nil_r. auto.
  - clear IHy. change (sep :: y ++ [z]) with ((sep :: y) ++ [z]) in H. rewrite app_assoc in H. apply app_inj_tail in H. destruct H as (-> & _).
    exists (sep :: y). eauto.
Qed.
Lemma delimited_spec sep s l : found_in (sep :: s ++ [sep]) (sep :: l ++ [sep]) = true <-> delimited sep s l.
Proof.
  rewrite found_spec. split.
  - intros (t & u & H). destruct t as [|z t].
    + cbn [app] in H. inversion H as [H1]. rewrite <- app_assoc in H1. cbn [app] in H1. destruct (tail_sep _ _ _ _ H1) as (post & -> & Hp).
      exists [], post. auto.
    + cbn [app] in H. inversion H as [[Hz H1]]. subst z.
      assert (H2 : l ++ [sep] = (t ++ sep :: s) ++ sep :: u) by (rewrite H1; repeat (rewrite <- app_assoc; cbn [app]); reflexivity). clear H1. rename H2 into H1.
      destruct (tail_sep _ _ _ _ H1) as (post & -> & Hp). exists (t ++ [sep]), post. split; [repeat (rewrite <- app_assoc; cbn [app]); reflexivity|]. eauto.
  - intros (before & after & -> & Hb & Ha).
    assert (A : exists u, after ++ [sep] = sep :: u) by (destruct Ha as [->|(a & ->)]; [exists []|exists (a ++ [sep])]; reflexivity).
    destruct A as (u & A).
    destruct Hb as [->|(b & ->)].
    + exists [], u. cbn [app]. repeat (rewrite <- app_assoc; cbn [app]). now rewrite A.
    + exists (sep :: b), u. cbn [app]. f_equal. repeat (rewrite <- app_assoc; cbn [app]). now rewrite A.
Qed.
Lemma prefix_spec s l : (if (length l <? length s)%nat then false else str_eqb s (firstn (length s) l)) = true <-> exists t, l = s ++ t.
Proof.
  destruct (Nat.ltb_spec (length l) (length s)) as [L|L].
  - split; [discriminate|]. intros (t & ->). rewrite app_length in L. lia.
  - rewrite str_eqb_spec. split.
    + intro H. exists (skipn (length s) l). rewrite H at 1. symmetry. apply firstn_skipn.
    + intros (t & ->). rewrite firstn_app, Nat.sub_diag, firstn_all. cbn. now rewrite app_nil_r.
Qed.
Lemma suffix_spec s l : ends_with s l = true <-> exists t, l = t ++ s.
Proof.
  unfold ends_with. destruct (Nat.ltb_spec (length l) (length s)) as [L|L].
  - split; [discriminate|]. intros (t & ->). rewrite app_length in L. lia.
  - rewrite str_eqb_spec. split.
    + intro H. exists (firstn (length l - length s) l). etransitivity; [symmetry; apply (firstn_skipn (length l - length s))|]. f_equal. now symmetry.
    + intros (t & ->). rewrite app_length. replace (length t + length s - length s)%nat with (length t) by lia.
      rewrite skipn_app, Nat.sub_diag, skipn_all. reflexivity.
Qed.
(** What each operator tests. *)
Definition matches (o : matchop) (s l : str) : Prop :=
  match o with
  | Prefix => exists t, l = s ++ t
  | Suffix => exists t, l = t ++ s
  | Substring => exists t u, l = t ++ s ++ u
  | Include => delimited 32 s l
  | Dash => delimited 45 s l
  end.
Theorem c37_match : forall st a b ca cb o p s l,
  node_at st a ca -> node_at st b cb -> string_node ca s -> string_node cb l ->
  exists r, gives (apply_equality (Match o) p a b) st (fun c => bool_node c r) /\ (r = true <-> matches o s l).
Proof.
  intros st a b ca cb o p s l Ha Hb (Ta & Va) (Tb & Vb). exists (match_text o s l). split.
  - destruct (compares_run st a b ca cb _ Ha Hb (cmp_string ca cb s l (conj Ta Va) (conj Tb Vb))) as (K & _ & _).
    apply gives_fresh with (c := with_bool (blank BOOLEAN p) (match_text o s l)); [|split; reflexivity].
    unfold apply_equality. rewrite (answers_bind _ _ _ _ K). cbv iota. unfold do_match. steps. rewrite Ta, Tb. cbv iota. steps.
    rewrite Va, Vb. reflexivity.
  - destruct o; cbn [match_text matches].
    + apply delimited_spec. + apply prefix_spec. + apply suffix_spec. + apply found_spec. + apply delimited_spec.
Qed.
(** For a text without separator, [delimited] means: one of the parts. *)
Theorem c37_parts : forall sep s l, ~ In sep s -> (delimited sep s l <-> In s (parts sep l)).
Proof.
  intros sep s l Hs. revert s Hs.
  assert (N : forall l, parts sep l <> []) by (intros [|c r]; cbn [parts]; [discriminate|]; destruct (c =? sep); [discriminate|]; destruct (parts sep r); discriminate).
  (* the first part *)
  assert (F : forall l s, ~ In sep s -> (hd [] (parts sep l) = s <-> exists after, l = s ++ after /\ (after = [] \/ exists a, after = sep :: a))).
  { clear l. induction l as [|c l IH]; intros s Hs; cbn [parts].
    - cbn [hd]. split; [intros <-; exists []; auto|]. intros (a & H & _). symmetry in H. apply app_eq_nil in H. now destruct H as (-> & _).
    - destruct (Z.eqb_spec c sep) as [->|C].
      + cbn [hd]. split; [intros <-; exists (sep :: l); eauto|]. intros (a & H & Ha). destruct s as [|x s]; [reflexivity|]. inversion H; subst. exfalso. apply Hs. now left.
      + specialize (IH (tl s)). destruct (parts sep l) as [|q ps] eqn:P; [now apply N in P|]. cbn [hd] in *.
        destruct s as [|x s].
        * split; [discriminate|]. intros (a & H & Ha). cbn [app] in H. subst a. destruct Ha as [Ha|(a & Ha)]; [discriminate|]. inversion Ha. congruence.
        * cbn [tl] in IH. destruct IH as (I1 & I2); [intro K; apply Hs; now right|]. split.
          -- intro H. inversion H; subst. destruct (I1 eq_refl) as (a & -> & Ha). exists a. auto.
          -- intros (a & H & Ha). inversion H; subst. f_equal. apply I2. eauto. }
  (* the other parts *)
  assert (T : forall l s, ~ In sep s -> (In s (tl (parts sep l)) <-> exists b a, l = b ++ sep :: s ++ a /\ (a = [] \/ exists a', a = sep :: a'))).
  { clear l. induction l as [|c l IH]; intros s Hs; cbn [parts].
    - cbn [tl In]. split; [intros []|]. intros (b & a & H & _). destruct b; discriminate.
    - destruct (Z.eqb_spec c sep) as [->|C].
      + cbn [tl]. specialize (IH s Hs). pose proof (F l s Hs) as Fl. destruct (parts sep l) as [|q ps] eqn:P; [now apply N in P|]. cbn [hd tl In] in *.
        rewrite Fl, IH. split.
        * intros [(a & -> & Ha)|(b & a & -> & Ha)]; [exists [], a; auto|exists (sep :: b), a; auto].
        * intros (b & a & H & Ha). destruct b as [|x b]; inversion H; subst; [left; eauto|right; eauto].
      + assert (Q : In s (tl (match parts sep l with [] => [[c]] | p :: q => (c :: p) :: q end)) <-> In s (tl (parts sep l))) by (destruct (parts sep l); reflexivity).
        etransitivity; [exact Q|]. etransitivity; [exact (IH s Hs)|]. split.
        * intros (b & a & -> & Ha). exists (c :: b), a. auto.
        * intros (b & a & H & Ha). destruct b as [|x b]; inversion H; subst; [congruence|eauto]. }
  intros s Hs. pose proof (F l s Hs) as Fl. pose proof (T l s Hs) as Tl. destruct (parts sep l) as [|q ps] eqn:P; [now apply N in P|]. cbn [hd tl In] in *.
  rewrite Fl, Tl. split.
  - intros (b & a & -> & Hb & Ha). destruct Hb as [->|(b' & ->)]; [left; exists a; split; [reflexivity|exact Ha]|right]. exists b', a. split; [|exact Ha]. rewrite <- app_assoc. reflexivity.
  - intros [(a & -> & Ha)|(b & a & -> & Ha)]; [exists [], a; auto|]. exists (b ++ [sep]), a. split; [rewrite <- app_assoc; reflexivity|]. eauto.
Qed.

Example c37_ex : matches Include (zs "blanc") (zs "bleu blanc rouge") /\ ~ matches Include (zs "lan") (zs "bleu blanc rouge")
  /\ matches Dash (zs "rouge") (zs "bleu-blanc-rouge") /\ parts 45 (zs "a--b") = [zs "a"; []; zs "b"].
Proof.
  cbn [matches]. split; [|split; [|split; [|reflexivity]]].
  - apply c37_parts; [cbn; lia|]. right. left. reflexivity.
  - rewrite c37_parts by (cbn; lia). intros [H|[H|[H|[]]]]; discriminate.
  - apply c37_parts; [cbn; lia|]. right. right. left. reflexivity.
Qed.

(** ** C38 Logical operators and truth values *)
Lemma truth_run s a c b : node_at s a c -> truth c b -> answers (boolean a) s b.
Proof.
  intros H T. unfold answers, boolean. steps. unfold to_boolean.
  destruct T as [c b (T & V)|c v u (T & V & U)|c g u (T & V & U)|c v u (T & V & U) N|c g (T & V)|c v (T & V) N|c v (T & V)|c T|c T|c T V|c T V|c r g bl al T V R1 R2 R3].
  - rewrite T. subst. reflexivity.
  - rewrite T. subst. reflexivity.
  - rewrite T, V. reflexivity.
  - rewrite T. rewrite bind_ret. rewrite V. destruct v; try reflexivity. exfalso. eapply N. reflexivity.
  - rewrite T, V. reflexivity.
  - rewrite T. rewrite bind_ret. rewrite V. destruct v; try reflexivity. exfalso. eapply N. reflexivity.
  - rewrite T, V. destruct v; reflexivity.
  - destruct T as [T|[T|T]]; rewrite T; reflexivity.
  - rewrite T. reflexivity.
  - rewrite T, V. reflexivity.
  - rewrite T. destruct V as [V|V]; rewrite V; reflexivity.
  - rewrite T, V. rewrite bind_ret. unfold ret. f_equal.
    replace ((((al * 256 + bl) * 256 + g) * 256 + r) mod 16777216) with ((bl * 256 + g) * 256 + r).
    + destruct (Z.eqb_spec r 0); destruct (Z.eqb_spec g 0); destruct (Z.eqb_spec bl 0); cbn [andb negb]; lia.
    + replace (((al * 256 + bl) * 256 + g) * 256 + r) with ((bl * 256 + g) * 256 + r + al * 16777216) by lia. rewrite Z.mod_add by lia. rewrite Z.mod_small; lia.
Qed.
Theorem c38_and_or : forall s a b ca cb x y p,
  node_at s a ca -> node_at s b cb -> truth ca x -> truth cb y ->
  gives (apply_logical andb tt p a b) s (fun c => bool_node c (x && y))
  /\ gives (apply_logical orb tt p a b) s (fun c => bool_node c (x || y)).
Proof.
  intros s a b ca cb x y p Ha Hb X Y. pose proof (truth_run s a ca x Ha X) as Rx. pose proof (truth_run s b cb y Hb Y) as Ry.
  split; eapply gives_fresh; try (unfold apply_logical; rewrite (answers_bind _ _ _ _ Rx), (answers_bind _ _ _ _ Ry); steps; reflexivity); split; reflexivity.
Qed.
(** A value has one truth value at most. *)
Theorem c38_unique : forall c x y, truth c x -> truth c y -> x = y.
Proof.
  intros c x y X Y. set (s := mkE [c] [] 0%nat 0 0 None [] false).
  pose proof (truth_run s 0%nat c x eq_refl X) as Rx. pose proof (truth_run s 0%nat c y eq_refl Y) as Ry. unfold answers in *. congruence.
Qed.
(** The other values are refused: an error, and the value is taken for false. *)
Definition has_truth (c : cell) : bool :=
  match c_type c with
  | BOOLEAN | INTEGER | DECIMAL_NUMBER | PERCENT | STRING | ARRAY | LIST | MAP | COLOR | NULL_TOKEN => true
  | IDENTIFIER => str_eqb (c_str c) (zs "true") || str_eqb (c_str c) (zs "false") || str_eqb (c_str c) (zs "null")
  | _ => false
  end.
Theorem c38_no_truth : forall s a c, node_at s a c -> has_truth c = false ->
  exists m, boolean a s = Ret false (with_msgs s (e_msgs s ++ [m])) /\ m_level m = LError.
Proof.
  intros s a c H N. eexists. split.
  - unfold boolean. steps. unfold to_boolean, has_truth in *. destruct (c_type c); try discriminate N; try reflexivity.
    apply orb_false_iff in N. destruct N as (N & N3). apply orb_false_iff in N. destruct N as (N1 & N2). rewrite N1, N2, N3. reflexivity.
  - reflexivity.
Qed.
Example c38_ex : truth (num 3 "px") true /\ truth (text "") false /\ truth (ident "null") false /\ truth (with_color (plain COLOR) (Color.set_color 0 0 1 255)) true
  /\ has_truth (plain URL) = false.
Proof.
  split; [apply (truth_int _ 3 (zs "px")); repeat split|]. split; [apply (truth_string _ []); repeat split|].
  split; [apply truth_word'; [reflexivity|right; reflexivity]|]. split; [|reflexivity].
  apply (truth_color _ 0 0 1 255); [reflexivity|vm_compute; reflexivity|lia|lia|lia].
Qed.
