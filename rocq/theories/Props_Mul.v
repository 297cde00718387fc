(** * Properties of multiplication, division and modulo (C32, C34, C40, C41) *)

From Coq Require Import String ZArith List Bool Lia Arith ZifyBool Floats.SpecFloat.
From Verif Require Import Base UnicodeRange NodeHeap Color FloatBits Dim DimSpec DimProofs Expr ExprSpec ExprRun.
Import ListNotations.
Open Scope string_scope. Open Scope list_scope. Open Scope Z_scope.
Ltac Zify.zify_post_hook ::= idtac.

(** ** C32 Dimension algebra *)
Definition fits64 (v : Z) : Prop := -9223372036854775808 <= v <= 9223372036854775807.
Lemma fits_ok v : fits64 v -> int64_ok v = true.
Proof. unfold fits64, int64_ok. lia. Qed.

(** A number with the value [v], whose unit is a reduced quotient in which each
    name has the exponent given by [f]. *)
Definition quantity (c : cell) (v : Z + f64) (f : str -> Z) : Prop :=
  exists t U D, number c v t /\ unit_text t U D /\ reduced U D /\ forall n, exponent n U D = f n.

Definition product_value (x y : Z + f64) : Z + f64 :=
  match x, y with inl i, inl j => inl (i * j) | _, _ => inr (f64_mul (as_double x) (as_double y)) end.
(** The integer division of C++: towards zero. *)
Definition quotient_value (x y : Z + f64) : Z + f64 :=
  match x, y with inl i, inl j => inl (Z.quot i j) | _, _ => inr (f64_div (as_double x) (as_double y)) end.
Definition value_fits (v : Z + f64) : Prop := match v with inl i => fits64 i | inr _ => True end.
Definition value_zero (v : Z + f64) : bool := match v with inl i => i =? 0 | inr d => is_zero d end.

Lemma numbers_mul s a b ca cb x y l r (o : mulop) : node_at s a ca -> node_at s b cb -> number ca x l -> number cb y r ->
  exists t v, multiply o a b s = mul_numbers o a b t v s /\ has_str (c_type ca) = true /\ has_str (c_type cb) = true
    /\ ntype_eqb (c_type ca) PERCENT = false /\ ntype_eqb (c_type cb) PERCENT = false /\ ntype_eqb t PERCENT = false /\ has_str t = true
    /\ c_str ca = l /\ c_str cb = r
    /\ match x, y with
       | inl i, inl j => t = INTEGER /\ v = inl (i, j)
       | _, _ => t = DECIMAL_NUMBER /\ v = inr (as_double x, as_double y)
       end.
Proof.
  intros Ha Hb Na Nb.
  destruct Na as [ca x u (Ta & Va & Ua)|ca x u (Ta & Va & Ua)]; destruct Nb as [cb y w (Tb & Vb & Ub)|cb y w (Tb & Vb & Ub)]; subst;
  (eexists _, _; split; [unfold multiply; steps; rewrite Ta, Tb; unfold mul_types; cbv iota; steps; reflexivity|]);
  rewrite Ta, Tb; repeat split.
Qed.

(** The product of two numbers: the exact product of two integers when it fits
    in 64 bits, the product of doubles otherwise, with the product of the units. *)
Theorem c32_product_partial : forall s a b ca cb x y l r u d u' d',
  node_at s a ca -> node_at s b cb -> number ca x l -> number cb y r ->
  unit_text l u d -> unit_text r u' d' -> value_fits (product_value x y) ->
  gives (multiply Mul a b) s (fun c => quantity c (product_value x y) (fun n => exponent n u d + exponent n u' d')).
Proof.
  intros s a b ca cb x y l r u d u' d' Ha Hb Na Nb L R F.
  destruct (numbers_mul s a b ca cb x y l r Mul Ha Hb Na Nb) as (t & v & K & Sa & Sb & Pa & Pb & Pt & St & El & Er & V).
  destruct (product_ok l r u d u' d' false L R) as (txt & U & D & P & T & Rd & X).
  assert (M : exists c, multiply Mul a b s = Ret (Some (new_addr s)) (fresh s c) /\ number c (product_value x y) txt).
  { rewrite K. unfold mul_numbers. rewrite andb_false_r. steps. rewrite Pa, Pb, Pt. steps. rewrite El, Er. cbn [is_mul negb]. rewrite P.
    cbn [report_dims]. steps. cbn [negb]. unfold product_value in *. destruct x as [i|x]; destruct y as [j|y]; destruct V as (-> & ->); cbv iota.
    - unfold int64. rewrite (fits_ok _ F). steps. eexists. split; [reflexivity|]. apply number_int. repeat split.
    - steps. eexists. split; [reflexivity|]. apply number_dec. repeat split.
    - steps. eexists. split; [reflexivity|]. apply number_dec. repeat split.
    - steps. eexists. split; [reflexivity|]. apply number_dec. repeat split. }
  destruct M as (c & M & N). eapply gives_fresh; [exact M|]. exists txt, U, D. auto.
Qed.

(** The quotient of two numbers, outside of a font shorthand. *)
Theorem c32_quotient_partial : forall s a b ca cb x y l r u d u' d',
  node_at s a ca -> node_at s b cb -> number ca x l -> number cb y r -> e_font s = false ->
  unit_text l u d -> unit_text r u' d' -> value_zero y = false -> value_zero (inr (as_double y)) = false -> value_fits (quotient_value x y) ->
  gives (multiply Div a b) s (fun c => quantity c (quotient_value x y) (fun n => exponent n u d - exponent n u' d')).
Proof.
  intros s a b ca cb x y l r u d u' d' Ha Hb Na Nb Fo L R Z1 Z2 F.
  destruct (numbers_mul s a b ca cb x y l r Div Ha Hb Na Nb) as (t & v & K & Sa & Sb & Pa & Pb & Pt & St & El & Er & V).
  destruct (product_ok l r u d u' d' true L R) as (txt & U & D & P & T & Rd & X).
  assert (M : exists c, multiply Div a b s = Ret (Some (new_addr s)) (fresh s c) /\ number c (quotient_value x y) txt).
  { rewrite K. unfold mul_numbers. rewrite Fo. cbn [andb]. steps. rewrite Pa, Pb, Pt. steps. rewrite El, Er. cbn [is_mul negb]. rewrite P.
    cbn [report_dims]. steps. cbn [negb]. unfold quotient_value in *. unfold value_zero in Z1, Z2.
    destruct x as [i|x]; destruct y as [j|y]; destruct V as (-> & ->); cbv iota.
    - rewrite Z1. unfold int64. rewrite (fits_ok _ F). steps. eexists. split; [reflexivity|]. apply number_int. repeat split.
    - cbn [as_double] in *. rewrite Z1. steps. eexists. split; [reflexivity|]. apply number_dec. repeat split.
    - cbn [as_double] in *. rewrite Z2. steps. eexists. split; [reflexivity|]. apply number_dec. repeat split.
    - cbn [as_double] in *. rewrite Z1. steps. eexists. split; [reflexivity|]. apply number_dec. repeat split. }
  destruct M as (c & M & N). eapply gives_fresh; [exact M|]. exists txt, U, D. split; [exact N|]. split; [exact T|]. split; [exact Rd|].
  intro n. rewrite X. lia.
Qed.
(** The text of a unit has one meaning, so the exponents above are determined. *)
Theorem c32_unambiguous : forall t u d u' d', unit_text t u d -> unit_text t u' d' -> u = u' /\ d = d'.
Proof.
  intros t u d u' d' H K. apply vectors_ok with (up := []) (down := []) in H. apply vectors_ok with (up := []) (down := []) in K.
  rewrite H in K. cbn [app] in K. inversion K. auto.
Qed.
(** The modulo keeps the unit, which must be the same on both sides. *)
Theorem c32_modulo : forall s a b ca cb i j l,
  node_at s a ca -> node_at s b cb -> int_node ca i l -> int_node cb j l -> j <> 0 -> fits64 (Z.quot i j) ->
  gives (multiply Mod a b) s (fun c => int_node c (Z.rem i j) l).
Proof.
  intros s a b ca cb i j l Ha Hb Na Nb Hj F.
  destruct (numbers_mul s a b ca cb (inl i) (inl j) l l Mod Ha Hb (number_int _ _ _ Na) (number_int _ _ _ Nb)) as (t & v & K & Sa & Sb & Pa & Pb & Pt & St & El & Er & -> & ->).
  eapply gives_fresh.
  - rewrite K. unfold mul_numbers. rewrite andb_false_r. steps. rewrite Pa, Pb, Pt. steps. rewrite El, Er, str_eqb_refl. steps. cbn [negb].
    cbv iota. replace (j =? 0) with false by lia. unfold int64. rewrite (fits_ok _ F). steps. reflexivity.
  - repeat split.
Qed.
Theorem c32_modulo_units : forall s a b ca cb x y l r,
  node_at s a ca -> node_at s b cb -> number ca x l -> number cb y r -> l <> r -> refuses (multiply Mod a b) s.
Proof.
  intros s a b ca cb x y l r Ha Hb Na Nb N.
  destruct (numbers_mul s a b ca cb x y l r Mod Ha Hb Na Nb) as (t & v & K & Sa & Sb & Pa & Pb & Pt & St & El & Er & _).
  eapply refuses_fresh. rewrite K. unfold mul_numbers. rewrite andb_false_r. steps. rewrite Pa, Pb, Pt. steps. rewrite El, Er.
  replace (str_eqb l r) with false by (symmetry; now apply str_eqb_neq). steps. reflexivity.
Qed.

(** ** C34 Division and modulo by zero are refused *)
(** The operation fails: at least one error, no value, no node changed. *)
Definition fails (m : E (option addr)) (s : est) : Prop :=
  exists s' l x, m s = Ret None s' /\ e_msgs s' = e_msgs s ++ l /\ In x l /\ m_level x = LError /\ keeps_nodes s s'.
Lemma refuses_fails m s : refuses m s -> fails m s.
Proof. intros (s' & x & H1 & H2 & H3 & H4). exists s', [x], x. repeat split; auto. now left. Qed.
(** The value zero, for the three types of numbers. *)
Inductive zero_node : cell -> Prop :=
| zero_int : forall c u, int_node c 0 u -> zero_node c
| zero_dec : forall c g u, dec_node c (S754_zero g) u -> zero_node c
| zero_percent : forall c g, percent_node c (S754_zero g) -> zero_node c.

Lemma report_dims_run p l : forall s, exists k, report_dims p l s = Ret tt (with_msgs s (e_msgs s ++ k)).
Proof.
  induction l as [|e l IH]; intro s.
  - exists []. rewrite app_nil_r. destruct s; reflexivity.
  - cbn [report_dims]. unfold bind, report. destruct (IH (with_msgs s (e_msgs s ++ [mkMsg LError p (dim_message e)]))) as (k & ->).
    exists ([mkMsg LError p (dim_message e)] ++ k). cbn [e_msgs with_msgs]. rewrite app_assoc. reflexivity.
Qed.
Lemma fresh_msgs s c m : with_msgs (fresh s c) m = fresh (with_msgs s m) c. Proof. reflexivity. Qed.
Lemma new_addr_msgs s m : new_addr (with_msgs s m) = new_addr s. Proof. reflexivity. Qed.
Lemma fails_fresh m s c p t k : m s = refuse p t (fresh (with_msgs s (e_msgs s ++ k)) c) -> fails m s.
Proof.
  intro H. eexists _, (k ++ [_]), _. rewrite H. split; [reflexivity|]. split; [cbn; rewrite <- app_assoc; reflexivity|].
  split; [apply in_or_app; right; now left|]. split; [reflexivity|]. intros a d K. apply (fresh_keeps s c a d K).
Qed.

(** A number or a percentage divided by zero. *)
Lemma by_zero s a b ca cb (o : mulop) t (v : Z * Z + f64 * f64) : node_at s a ca -> node_at s b cb -> o <> Mul -> e_font s = false ->
  (ntype_eqb (c_type ca) PERCENT = true \/ has_str (c_type ca) = true) -> (ntype_eqb (c_type cb) PERCENT = true \/ has_str (c_type cb) = true) ->
  (ntype_eqb t PERCENT = true \/ has_str t = true) ->
  match v with inl (_, j) => j = 0 | inr (_, y) => is_zero y = true end ->
  fails (mul_numbers o a b t v) s.
Proof.
  intros Ha Hb No Fo Sa Sb St Z.
  set (m := fun ok : bool => if negb ok then ret None else
    match v, o with
    | inl (a, b), Mul => i <- int64 (a * b) ;; lift (set_integer (new_addr s) i) ;;; ret (Some (new_addr s))
    | inl (a, b), Div =>
        if b =? 0 then refuse (c_pos ca) "division by zero."
        else i <- int64 (Z.quot a b) ;; lift (set_integer (new_addr s) i) ;;; ret (Some (new_addr s))
    | inl (a, b), Mod =>
        if b =? 0 then refuse (c_pos ca) "modulo by zero."
        else i <- int64 (Z.quot a b) ;; lift (set_integer (new_addr s) (Z.rem a b)) ;;; ret (Some (new_addr s))
    | inr (a, b), Mul => lift (set_decimal_number (new_addr s) (f64_mul a b)) ;;; ret (Some (new_addr s))
    | inr (a, b), Div =>
        if is_zero b then refuse (c_pos ca) "division by zero."
        else lift (set_decimal_number (new_addr s) (f64_div a b)) ;;; ret (Some (new_addr s))
    | inr (a, b), Mod =>
        if is_zero b then refuse (c_pos ca) "modulo by zero."
        else lift (set_decimal_number (new_addr s) (f64_fmod a b)) ;;; ret (Some (new_addr s))
    end).
  assert (M : forall st, exists q txt, m true st = refuse q txt st).
  { intro st. unfold m. cbn [negb]. destruct v as [(i & j)|(x & y)]; destruct o; try congruence.
    - rewrite Z. change (0 =? 0) with true. cbv iota. eauto.
    - rewrite Z. change (0 =? 0) with true. cbv iota. eauto.
    - rewrite Z. eauto.
    - rewrite Z. eauto. }
  assert (G : mul_numbers o a b t v s = bind (if ntype_eqb t PERCENT then ret true
           else
             l <- (if ntype_eqb (c_type ca) PERCENT then ret [] else string_of a) ;;
             r <- (if ntype_eqb (c_type cb) PERCENT then ret [] else string_of b) ;;
             match o with
             | Mod => if str_eqb l r then lift (set_string (new_addr s) l) ;;; ret true
                      else report (c_pos ca) "incompatible dimensions cannot be used with operator '%'." ;;; ret false
             | _ => let '(d, e) := dim_product l (negb (is_mul o)) r in
                    report_dims (c_pos ca) e ;;; lift (set_string (new_addr s) d) ;;; ret true
             end) m (fresh s (blank t (c_pos ca)))).
  { unfold mul_numbers. rewrite Fo. cbn [andb]. steps. reflexivity. }
  destruct (ntype_eqb t PERCENT) eqn:Pt.
  { destruct (M (fresh s (blank t (c_pos ca)))) as (q & txt & E). apply fails_fresh with (c := blank t (c_pos ca)) (p := q) (t := txt) (k := []).
    rewrite G, bind_ret, E. rewrite app_nil_r. reflexivity. }
  destruct St as [St|St]; [congruence|].
  assert (La : exists l, (if ntype_eqb (c_type ca) PERCENT then ret [] else string_of a) (fresh s (blank t (c_pos ca))) = Ret l (fresh s (blank t (c_pos ca)))).
  { destruct (ntype_eqb (c_type ca) PERCENT); [eexists; reflexivity|]. destruct Sa as [Sa|Sa]; [discriminate|].
    eexists. apply (run_string _ _ _ (fresh_keeps s _ a ca Ha) Sa). }
  assert (Lb : exists l, (if ntype_eqb (c_type cb) PERCENT then ret [] else string_of b) (fresh s (blank t (c_pos ca))) = Ret l (fresh s (blank t (c_pos ca)))).
  { destruct (ntype_eqb (c_type cb) PERCENT); [eexists; reflexivity|]. destruct Sb as [Sb|Sb]; [discriminate|].
    eexists. apply (run_string _ _ _ (fresh_keeps s _ b cb Hb) Sb). }
  destruct La as (l & La), Lb as (r & Lb).
  rewrite bind_assoc, (b_ret _ _ _ _ _ La), bind_assoc, (b_ret _ _ _ _ _ Lb) in G.
  destruct o; [congruence| |].
  - destruct (dim_product l (negb (is_mul Div)) r) as (d & e). rewrite bind_assoc in G.
    destruct (report_dims_run (c_pos ca) e (fresh s (blank t (c_pos ca)))) as (k & R). rewrite (b_ret _ _ _ _ _ R) in G.
    rewrite fresh_msgs in G. cbn [e_msgs fresh with_heap] in G.
    rewrite bind_assoc in G. rewrite <- (new_addr_msgs s (e_msgs s ++ k)) in G.
    rewrite (b_ret _ _ _ _ _ (fresh_set_string (with_msgs s (e_msgs s ++ k)) (blank t (c_pos ca)) d St)), bind_ret in G.
    match type of G with _ = _ ?st => destruct (M st) as (q & txt & E) end.
    eapply fails_fresh. rewrite G, E. reflexivity.
  - destruct (str_eqb l r).
    + rewrite bind_assoc, (b_ret _ _ _ _ _ (fresh_set_string s (blank t (c_pos ca)) l St)), bind_ret in G.
      match type of G with _ = _ ?st => destruct (M st) as (q & txt & E) end.
      apply fails_fresh with (c := with_str (blank t (c_pos ca)) l) (p := q) (t := txt) (k := []). rewrite G, E, app_nil_r. reflexivity.
    + apply refuses_fails. eapply refuses_fresh. rewrite G. steps. reflexivity.
Qed.

(** Whatever the left operand, but for a colour: an error, no value. In a font
    shorthand the slash is not a division. *)
Theorem c34_zero_partial : forall s a b ca cb o,
  node_at s a ca -> node_at s b cb -> current_ok s -> e_font s = false ->
  zero_node cb -> c_type ca <> COLOR -> o = Div \/ o = Mod ->
  fails (multiply o a b) s.
Proof.
  intros s a b ca cb o Ha Hb Hc Fo Z NC Ho.
  assert (No : o <> Mul) by (destruct Ho; congruence). assert (Mo : is_mul o = false) by (destruct Ho; subst; reflexivity).
  destruct (run_cur_pos s Hc) as (q & Hq).
  assert (K : (exists p t, multiply o a b s = refuse p t s) \/
    exists t v, multiply o a b s = mul_numbers o a b t v s /\
    (ntype_eqb (c_type ca) PERCENT = true \/ has_str (c_type ca) = true) /\ (ntype_eqb (c_type cb) PERCENT = true \/ has_str (c_type cb) = true) /\
    (ntype_eqb t PERCENT = true \/ has_str t = true) /\
    match v with inl (_, j) => j = 0 | inr (_, y) => is_zero y = true end).
  { destruct Z as [cb u (Tb & Vb & Ub)|cb g u (Tb & Vb & Ub)|cb g (Tb & Vb)]; unfold multiply; steps; rewrite Tb;
    destruct (c_type ca) eqn:Ta; try congruence; unfold mul_types; cbv iota; steps;
    try (left; rewrite (b_ret _ _ _ _ _ Hq); eexists _, _; reflexivity);
    try (left; unfold mul_string; steps; rewrite Mo; cbn [negb]; eexists _, _; reflexivity);
    right; eexists _, _; (split; [reflexivity|]); rewrite ?Vb; repeat split; auto. }
  destruct K as [(p & t & K)|(t & v & K & A & B & C & D)].
  - apply refuses_fails. eapply refuses_here. exact K.
  - destruct (by_zero s a b ca cb o t v Ha Hb No Fo A B C D) as (s' & l & x & E). exists s', l, x. rewrite K. exact E.
Qed.
