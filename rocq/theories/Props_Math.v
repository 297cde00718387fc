(** * C58: the functions on numbers, conditions and types *)

From Coq Require Import String ZArith List Bool Lia Arith ZifyBool Reals Lra Floats.SpecFloat.
From Verif Require Import Base UnicodeRange NodeHeap NodeProofs Color FloatBits Dim Expr ExprSpec ExprRun Hsl Functions FunctionSpec FunctionRun
  FloatFacts FloatMath Props_Functions.
Import ListNotations.
Open Scope string_scope. Open Scope list_scope. Open Scope Z_scope.
Ltac Zify.zify_post_hook ::= idtac.

(** The node [x] is modified in place. *)
Definition placed (s : est) (x : addr) (c : cell) : est := with_heap s (put (e_heap s) x c).
Lemma at_lt s x c : node_at s x c -> (x < length (e_heap s))%nat.
Proof. intro H. apply nth_error_Some. unfold node_at in H. congruence. Qed.
Lemma yields_placed env s func x c0 c (P : cell -> Prop) : node_at s x c0 ->
  (forall n, execute env n func s = Ret (Some x, n) (placed s x c)) -> P c -> yields env s func [x] P.
Proof.
  intros H X K n. exists x, (placed s x c), c. split; [apply X|]. unfold node_at, placed. cbn [e_heap with_heap e_msgs].
  split; [apply put_same; exact (at_lt _ _ _ H)|]. split; [exact K|]. split; [reflexivity|].
  intros a d N A. rewrite put_other by (intro; apply N; left; congruence). exact A.
Qed.
Lemma yields_same env s func x c (P : cell -> Prop) : node_at s x c ->
  (forall n, execute env n func s = Ret (Some x, n) s) -> P c -> yields env s func [] P.
Proof. intros H X K n. exists x, s, c. split; [apply X|]. auto. Qed.
Lemma yields_fresh env s func c (P : cell -> Prop) : (forall n, execute env n func s = Ret (Some (new_addr s), n) (fresh s c)) -> P c -> yields env s func [] P.
Proof.
  intros X K n. exists (new_addr s), (fresh s c), c. split; [apply X|]. split; [apply fresh_at|]. split; [exact K|]. split; [reflexivity|].
  intros a d _. apply fresh_keeps.
Qed.
Lemma yields_more env s func l l' P : yields env s func l P -> incl l l' -> yields env s func l' P.
Proof. intros Y I n. destruct (Y n) as (r & s' & c & A & B & C & D & F). exists r, s', c. do 4 (split; [assumption|]). intros a d N. apply F. auto. Qed.
Lemma exec_plain env n s func name args (f : fenv -> addr -> E (option addr)) e r s' : called s func name args ->
  find_entry table name = Some e -> t_run e = plain f -> t_min e <= Z.of_nat (length args) <= t_max e ->
  str_eqb name (zs "function_exists") = false -> f env func s = Ret r s' -> execute env n func s = Ret (r, n) s'.
Proof.
  intros C F T R X W. rewrite (run_execute env n s func name args e C F R X), T. unfold plain. rewrite (b_ret _ _ _ _ _ W). reflexivity.
Qed.
(** Find the function of a call. *)
Ltac enter C := let n := fresh in intro n; eapply exec_plain; [exact C|reflexivity|unfold simple; reflexivity|cbn [t_min t_max length]; lia|reflexivity|cbv beta].

Section Number.
  Variables (env : fenv) (s : est) (func x : addr) (c : cell).
  Hypothesis H : node_at s x c.

  Lemma get_int name v u : called s func name [[x]] -> int_node c v u -> get_number func 0 s = Ret (Some (x, f64_of_Z v)) s.
  Proof. intros C N. exact (pick_number s func name _ 0 x c (inl v) u C eq_refl H (number_int _ _ _ N)). Qed.
  Lemma get_dec name v u : called s func name [[x]] -> dec_node c v u -> get_number func 0 s = Ret (Some (x, v)) s.
  Proof. intros C N. exact (pick_number s func name _ 0 x c (inr v) u C eq_refl H (number_dec _ _ _ N)). Qed.
  Lemma get_value name v : called s func name [[x]] -> (exists u, number c v u) \/ (exists d, percent_node c d /\ v = inr d) ->
    get_number_or_percent func 0 s = Ret (Some (x, as_double v)) s.
  Proof.
    intros C N. unfold get_number_or_percent, number_value.
    erewrite b_ret; [|exact (run_get_typed s func name [[x]] C _ 0 x c eq_refl H)]. cbv beta.
    destruct N as [(u & N)|(d & (T & D) & ->)]; [destruct N as [c v u (T & I & U)|c v u (T & I & U)]|]; rewrite T.
    - change (ntype_eqb INTEGER INTEGER || ntype_eqb INTEGER DECIMAL_NUMBER || ntype_eqb INTEGER PERCENT) with true. cbv iota. step. step. rewrite T.
      change (ntype_eqb INTEGER INTEGER) with true. cbv iota. subst. steps. reflexivity.
    - change (ntype_eqb DECIMAL_NUMBER INTEGER || ntype_eqb DECIMAL_NUMBER DECIMAL_NUMBER || ntype_eqb DECIMAL_NUMBER PERCENT) with true. cbv iota. step. step. rewrite T.
      change (ntype_eqb DECIMAL_NUMBER INTEGER) with false. cbv iota. subst. steps. reflexivity.
    - change (ntype_eqb PERCENT INTEGER || ntype_eqb PERCENT DECIMAL_NUMBER || ntype_eqb PERCENT PERCENT) with true. cbv iota. step. step. rewrite T.
      change (ntype_eqb PERCENT INTEGER) with false. cbv iota. subst. steps. reflexivity.
  Qed.

  Lemma run_abs_int name v u : called s func name [[x]] -> int_node c v u ->
    fn_abs func s = (if int64_ok (Z.abs v) then Ret (Some x) (placed s x (with_int c (Z.abs v))) else Undef s).
  Proof.
    intros C N. unfold fn_abs. rewrite (b_ret _ _ _ _ _ (get_int name v u C N)). destruct N as (T & I & U). cbv beta iota. step. rewrite T.
    change (ntype_eqb INTEGER INTEGER) with true. cbv iota. step. step. rewrite I. unfold int64.
    destruct (int64_ok (Z.abs v)); [|reflexivity]. steps. rewrite (b_ret _ _ _ _ _ (run_set_integer s x c H (Z.abs v) ltac:(has))). reflexivity.
  Qed.
  Lemma run_abs_dec name v u : called s func name [[x]] -> dec_node c v u ->
    fn_abs func s = Ret (Some x) (placed s x (with_dec c (SFabs v))).
  Proof.
    intros C N. unfold fn_abs. rewrite (b_ret _ _ _ _ _ (get_dec name v u C N)). destruct N as (T & I & U). cbv beta iota. step. rewrite T.
    change (ntype_eqb DECIMAL_NUMBER INTEGER) with false. cbv iota. step. step. rewrite I.
    rewrite (b_ret _ _ _ _ _ (run_set_decimal s x c H (SFabs v) ltac:(has))). reflexivity.
  Qed.
  Lemma run_integral_int f t name v u : called s func name [[x]] -> int_node c v u -> fn_integral f t func s = Ret (Some x) s.
  Proof.
    intros C N. unfold fn_integral. rewrite (b_ret _ _ _ _ _ (get_int name v u C N)). destruct N as (T & I & U). cbv beta iota. step. rewrite T.
    change (ntype_eqb INTEGER DECIMAL_NUMBER) with false. cbv iota. steps. reflexivity.
  Qed.
  Lemma run_integral_dec f t name v u : called s func name [[x]] -> dec_node c v u ->
    fn_integral f t func s = Ret (Some x) (placed s x (with_dec c (f v))).
  Proof.
    intros C N. unfold fn_integral. rewrite (b_ret _ _ _ _ _ (get_dec name v u C N)). destruct N as (T & I & U). cbv beta iota. step. rewrite T.
    change (ntype_eqb DECIMAL_NUMBER DECIMAL_NUMBER) with true. cbv iota. step. step. rewrite I.
    rewrite (b_ret _ _ _ _ _ (run_set_decimal s x c H (f v) ltac:(has))). reflexivity.
  Qed.
End Number.

(** abs(): the absolute value with the same unit. *)
Theorem c58_abs_integer : forall env s func x c v u, called s func (zs "abs") [[x]] -> node_at s x c -> int_node c v u ->
  - 2 ^ 63 < v < 2 ^ 63 -> yields env s func [x] (fun r => int_node r (Z.abs v) u).
Proof.
  intros env s func x c v u C H N B. eapply yields_placed; [exact H| |].
  - enter C. rewrite (run_abs_int s func x c H _ v u C N).
    replace (int64_ok (Z.abs v)) with true by (unfold int64_ok; lia). reflexivity.
  - destruct N as (T & I & U). split; [exact T|]. split; [reflexivity|exact U].
Qed.
Theorem c58_abs_decimal : forall env s func x c v u, called s func (zs "abs") [[x]] -> node_at s x c -> dec_node c v u ->
  yields env s func [x] (fun r => exists w, dec_node r w u /\ f64_R w = Rabs (f64_R v) /\ (f64_finite v -> f64_finite w)).
Proof.
  intros env s func x c v u C H N. eapply yields_placed; [exact H| |].
  - enter C. exact (run_abs_dec s func x c H _ v u C N).
  - destruct N as (T & I & U). exists (SFabs v). split; [split; [exact T|split; [reflexivity|exact U]]|]. split; [apply f64_abs_spec|apply f64_abs_finite].
Qed.
(** ... except for the smallest integer, where the behaviour is undefined. *)
Theorem c58_abs_refuted : forall env n s func x c u, called s func (zs "abs") [[x]] -> node_at s x c -> int_node c (- 2 ^ 63) u ->
  execute env n func s = Undef s.
Proof.
  intros env n s func x c u C H N.
  erewrite run_execute; [|exact C|reflexivity|cbn [t_min t_max length]; lia|reflexivity]. cbn [t_run]. unfold simple, plain, bind.
  rewrite (run_abs_int s func x c H _ _ u C N). reflexivity.
Qed.

(** ceil(), floor(), round(): the integer above, below, or the nearest one (away
    from zero at the middle); the unit is kept. *)
Theorem c58_rounding_integer : forall env s func name x c v u, In name ["ceil"; "floor"; "round"] ->
  called s func (zs name) [[x]] -> node_at s x c -> int_node c v u -> yields env s func [] (fun r => int_node r v u).
Proof.
  intros env s func name x c v u I C H N.
  repeat (destruct I as [I|I]; [subst name; eapply yields_same; [exact H|enter C; exact (run_integral_int s func x c H _ _ _ v u C N)|exact N]|]).
  destruct I.
Qed.
Definition ceil_of (v w : R) : Prop := exists n : Z, w = IZR n /\ (IZR n - 1 < v <= IZR n)%R.
Definition floor_of (v w : R) : Prop := exists n : Z, w = IZR n /\ (IZR n <= v < IZR n + 1)%R.
Definition round_of (v w : R) : Prop := exists n : Z, w = IZR n /\
  ((0 <= v)%R -> (IZR n - / 2 <= v < IZR n + / 2)%R) /\ ((v < 0)%R -> (IZR n - / 2 < v <= IZR n + / 2)%R).
Theorem c58_rounding : forall env s func name meaning x c v u, In (name, meaning) [("ceil", ceil_of); ("floor", floor_of); ("round", round_of)] ->
  called s func (zs name) [[x]] -> node_at s x c -> dec_node c v u -> f64_valid v -> f64_finite v ->
  yields env s func [x] (fun r => exists w, dec_node r w u /\ f64_valid w /\ f64_finite w /\ meaning (f64_R v) (f64_R w)).
Proof.
  intros env s func name meaning x c v u I C H N V F.
  assert (X : forall w, dec_node (with_dec c w) w u) by (destruct N as (T & _ & U); intro w; split; [exact T|split; [reflexivity|exact U]]).
  destruct I as [I|[I|[I|[]]]]; injection I as <- <-; (eapply yields_placed; [exact H|enter C; exact (run_integral_dec s func x c H _ _ _ v u C N)|]).
  - destruct (ceil_spec v V F) as (A & B & D). exists (f64_ceil v). auto.
  - destruct (floor_spec v V F) as (A & B & D). exists (f64_floor v). auto.
  - destruct (round_spec v V F) as (A & B & D). exists (f64_round v). auto.
Qed.

(** sign(): -1, 0 or 1, of the kind and with the unit of the number. *)
Definition sign_of (v : R) (z : Z) : Prop := (v < 0)%R /\ z = -1 \/ v = 0%R /\ z = 0 \/ (0 < v)%R /\ z = 1.
Lemma zero_facts : f64_valid f_zero /\ f64_finite f_zero /\ f64_R f_zero = 0%R.
Proof. split; [reflexivity|]. split; [exact I|reflexivity]. Qed.
Lemma sign_value v : f64_valid v -> f64_finite v -> sign_of (f64_R v) (if SFltb v f_zero then -1 else if SFltb f_zero v then 1 else 0).
Proof.
  intros V F. destruct zero_facts as (V0 & F0 & R0). pose proof (f64_ltb_spec v f_zero V F V0 F0) as A. pose proof (f64_ltb_spec f_zero v V0 F0 V F) as B.
  rewrite R0 in A, B. destruct (SFltb v f_zero); [left; split; [apply A|]; reflexivity|]. destruct (SFltb f_zero v); [right; right; split; [apply B|]; reflexivity|].
  right; left. split; [|reflexivity]. destruct (Rtotal_order (f64_R v) 0) as [L|[L|L]]; [apply A in L; discriminate|exact L|apply B in L; discriminate].
Qed.
Lemma int_value v : int64_ok v = true -> f64_valid (f64_of_Z v) /\ f64_finite (f64_of_Z v) /\ ((IZR v < 0)%R -> (f64_R (f64_of_Z v) < 0)%R)
  /\ (IZR v = 0%R -> f64_R (f64_of_Z v) = 0%R) /\ ((0 < IZR v)%R -> (0 < f64_R (f64_of_Z v))%R).
Proof.
  intro B. assert (Bv : Z.abs v <= 2 ^ 63) by (unfold int64_ok in B; lia). destruct (f64_of_Z_spec v (rnd_bound v Bv)) as (V & F & E).
  split; [exact V|]. split; [exact F|]. rewrite E.
  assert (P1 : rnd (IZR 1) = IZR 1) by (apply rnd_Z; lia). assert (P2 : rnd (IZR (-1)) = IZR (-1)) by (apply rnd_Z; lia).
  assert (P0 : rnd (IZR 0) = IZR 0) by (apply rnd_Z; lia).
  split; [|split].
  - intro L. apply lt_IZR in L. assert (rnd (IZR v) <= rnd (IZR (-1)))%R by (apply rnd_le, IZR_le; lia). rewrite P2 in H. lra.
  - intro L. apply eq_IZR in L. rewrite L. exact P0.
  - intro L. apply lt_IZR in L. assert (rnd (IZR 1) <= rnd (IZR v))%R by (apply rnd_le, IZR_le; lia). rewrite P1 in H. lra.
Qed.
Theorem c58_sign_integer : forall env s func x c v u, called s func (zs "sign") [[x]] -> node_at s x c -> int_node c v u ->
  int64_ok v = true -> yields env s func [x] (fun r => int_node r (Z.sgn v) u).
Proof.
  intros env s func x c v u C H N B. eapply yields_placed; [exact H| |].
  - enter C. unfold fn_sign. rewrite (b_ret _ _ _ _ _ (get_value s func x c H _ (inl v) C (or_introl (ex_intro _ u (number_int _ _ _ N))))).
    destruct N as (T & I & U). step. rewrite T. change (ntype_eqb INTEGER INTEGER) with true. cbv iota zeta. cbn [as_double].
    rewrite (b_ret _ _ _ _ _ (run_set_integer s x c H _ ltac:(has))). reflexivity.
  - destruct N as (T & I & U). split; [exact T|]. split; [|exact U]. cbn [c_int with_int].
    destruct (int_value v B) as (V & F & L & Q & G). pose proof (sign_value _ V F) as S'.
    set (w := if SFltb (f64_of_Z v) f_zero then -1 else if SFltb f_zero (f64_of_Z v) then 1 else 0) in *.
    destruct (Z.lt_trichotomy v 0) as [X|[X|X]].
    + specialize (L (IZR_lt _ _ X)). destruct S' as [(A & ->)|[(A & ->)|(A & ->)]]; [rewrite Z.sgn_neg by lia; reflexivity|lra|lra].
    + specialize (Q (f_equal IZR X)). destruct S' as [(A & ->)|[(A & ->)|(A & ->)]]; [lra|rewrite X; reflexivity|lra].
    + specialize (G (IZR_lt _ _ X)). destruct S' as [(A & ->)|[(A & ->)|(A & ->)]]; [lra|lra|rewrite Z.sgn_pos by lia; reflexivity].
Qed.
Theorem c58_sign : forall env s func x c v u, called s func (zs "sign") [[x]] -> node_at s x c ->
  dec_node c v u \/ percent_node c v /\ c_str c = u -> f64_valid v -> f64_finite v ->
  yields env s func [x] (fun r => exists w z, c_type r = c_type c /\ c_dec r = w /\ c_str r = u /\ f64_R w = IZR z /\ sign_of (f64_R v) z).
Proof.
  intros env s func x c v u C H N V F.
  assert (G : (exists u, number c (inr v) u) \/ (exists d, percent_node c d /\ @inr Z f64 v = inr d)).
  { destruct N as [N|(N & U)]; [left; exists u; now apply number_dec|right; exists v; auto]. }
  assert (T : ntype_eqb (c_type c) INTEGER = false /\ has_dec (c_type c) = true /\ c_str c = u).
  { destruct N as [(T & D & U)|((T & D) & U)]; rewrite T; auto. }
  destruct T as (T & HD & U). eapply yields_placed; [exact H| |].
  - enter C. unfold fn_sign. rewrite (b_ret _ _ _ _ _ (get_value s func x c H _ (inr v) C G)).
    step. rewrite T. cbv iota zeta. cbn [as_double].
    rewrite (b_ret _ _ _ _ _ (run_set_decimal s x c H _ HD)). reflexivity.
  - eexists _, _. split; [reflexivity|]. split; [reflexivity|]. split; [exact U|]. split; [|apply sign_value; assumption].
    destruct (f64_of_Z_exact (if SFltb v f_zero then -1 else if SFltb f_zero v then 1 else 0)) as (_ & _ & E); [destruct (SFltb v f_zero), (SFltb f_zero v); lia|].
    exact E.
Qed.

(** min() and max(): one of the numbers, none is better; one error for each
    number whose unit is not the one of the first number. *)
Definition amount (s : est) (x : addr) (v : f64) (u : str) : Prop :=
  exists c, node_at s x c /\ ((exists k, number c k u /\ v = as_double k) \/ percent_node c v /\ u = zs "%").
Definition addr_of (t : addr * f64 * str) : addr := fst (fst t).
Definition unit_of (t : addr * f64 * str) : str := snd t.
Definition value_of (t : addr * f64 * str) : f64 := snd (fst t).
Definition odd_units (first : str) (l : list (addr * f64 * str)) : nat := length (filter (fun t => negb (str_eqb first (unit_of t))) l).

Section Extremes.
  Variables (name : string) (better : f64 -> f64 -> bool) (gt : R -> R -> Prop).
  Hypothesis gt_spec : forall x y, f64_valid x -> f64_finite x -> f64_valid y -> f64_finite y -> better x y = true <-> gt (f64_R x) (f64_R y).
  Hypothesis gt_total : forall a b, ~ gt a b -> b = a \/ gt b a.
  Hypothesis gt_trans : forall a b c, gt a b -> gt b c -> gt a c.
  Definition geq (a b : R) : Prop := a = b \/ gt a b.
  Lemma geq_trans a b c : geq a b -> geq b c -> geq a c.
  Proof. intros [<-|A] [<-|B]; [left; reflexivity|right; assumption|right; assumption|]. right. exact (gt_trans _ _ _ A B). Qed.

  Lemma amount_read (s : est) func nm args i x v u : called s func nm args -> nth_error args i = Some [x] -> amount s x v u ->
    get_number_or_percent func (Z.of_nat i) s = Ret (Some (x, v)) s /\
    exists c, node_at s x c /\ forall A (f : str -> E A), bind (t <- type_of x ;; (if ntype_eqb t PERCENT then ret (zs "%") else string_of x)) f s = f u s.
  Proof.
    intros C N (c & H & V0).
    assert (V : (exists z, int_node c z u /\ v = f64_of_Z z) \/ dec_node c v u \/ percent_node c v /\ u = zs "%").
    { destruct V0 as [(k & [d z w X|d z w X] & ->)|V0]; [left; exists z; auto|right; left; exact X|right; right; exact V0]. }
    clear V0. assert (T : c_type c = INTEGER \/ c_type c = DECIMAL_NUMBER \/ c_type c = PERCENT).
    { destruct V as [(z & (T & _) & _)|[(T & _)|((T & _) & _)]]; auto. }
    assert (O : ntype_eqb (c_type c) INTEGER || ntype_eqb (c_type c) DECIMAL_NUMBER || ntype_eqb (c_type c) PERCENT = true) by (destruct T as [T|[T|T]]; rewrite T; reflexivity).
    split.
    - unfold get_number_or_percent, number_value.
      erewrite b_ret; [|exact (run_get_typed s func nm args C _ i x c ltac:(unfold arg1; rewrite N; reflexivity) H)]. cbv beta. rewrite O. cbv beta iota.
      destruct V as [(z & (T' & I & U) & E)|[(T' & I & U)|((T' & D) & E)]]; step; step; rewrite T'.
      + change (ntype_eqb INTEGER INTEGER) with true. cbv iota. steps. subst. reflexivity.
      + change (ntype_eqb DECIMAL_NUMBER INTEGER) with false. cbv iota. steps. subst. reflexivity.
      + change (ntype_eqb PERCENT INTEGER) with false. cbv iota. steps. subst. reflexivity.
    - exists c. split; [exact H|]. intros A f.
      destruct V as [(z & (T' & I & U) & E)|[(T' & I & U)|((T' & D) & E)]]; step; step; rewrite T'.
      + change (ntype_eqb INTEGER PERCENT) with false. cbv iota. steps. subst. reflexivity.
      + change (ntype_eqb DECIMAL_NUMBER PERCENT) with false. cbv iota. steps. subst. reflexivity.
      + change (ntype_eqb PERCENT PERCENT) with true. cbv iota. steps. subst. reflexivity.
  Qed.

  Lemma extreme_rest (s0 : est) func nm : forall rest done best fuel m,
    called s0 func nm (map (fun t => [addr_of t]) (done ++ rest)) -> current_ok s0 -> done <> [] ->
    Forall (fun t => amount s0 (addr_of t) (value_of t) (unit_of t) /\ f64_valid (value_of t) /\ f64_finite (value_of t)) (done ++ rest) ->
    In best done -> (length rest < fuel)%nat -> forall first,
    exists r new, (In r rest \/ r = best) /\ geq (f64_R (value_of r)) (f64_R (value_of best)) /\
      (forall t, In t rest -> geq (f64_R (value_of r)) (f64_R (value_of t))) /\
      Forall (fun x => m_level x = LError) new /\ length new = odd_units first rest /\
      extreme_loop name better fuel func (Z.of_nat (length done)) (Some (addr_of best)) (value_of best) first (with_msgs s0 m)
        = Ret (Some (addr_of r)) (with_msgs s0 (m ++ new)).
  Proof.
    induction rest as [|t rest IH]; intros done best fuel m C K N F B L first; destruct fuel as [|fuel]; try (cbn in L; lia).
    - exists best, []. split; [auto|]. split; [left; reflexivity|]. split; [intros t []|]. split; [constructor|]. split; [reflexivity|].
      cbn [extreme_loop]. rewrite (b_ret _ _ _ _ _ (called_size (with_msgs s0 m) func nm _ C)).
      rewrite map_length, app_nil_r, Z.leb_refl, app_nil_r. reflexivity.
    - assert (Ft : amount s0 (addr_of t) (value_of t) (unit_of t) /\ f64_valid (value_of t) /\ f64_finite (value_of t)).
      { rewrite Forall_forall in F. apply F. apply in_or_app. right. left. reflexivity. }
      assert (Fb : f64_valid (value_of best) /\ f64_finite (value_of best)).
      { rewrite Forall_forall in F. apply (F best). apply in_or_app. left. exact B. }
      destruct Ft as (At & Vt & Et). destruct Fb as (Vb & Eb).
      assert (Nt : nth_error (map (fun t => [addr_of t]) (done ++ t :: rest)) (length done) = Some [addr_of t]).
      { rewrite nth_error_map, nth_error_app2 by lia. rewrite Nat.sub_diag. reflexivity. }
      cbn [extreme_loop]. rewrite (b_ret _ _ _ _ _ (called_size (with_msgs s0 m) func nm _ C)).
      rewrite map_length, app_length. cbn [length]. replace (Z.of_nat (length done + S (length rest)) <=? Z.of_nat (length done)) with false by lia.
      destruct (amount_read (with_msgs s0 m) func nm _ (length done) (addr_of t) (value_of t) (unit_of t) C Nt At) as (G & ct & Ht & U).
      rewrite (b_ret _ _ _ _ _ G). cbv beta iota.
      match goal with |- context [bind (type_of _) (fun t => bind (@?g t) ?f) ?st] => change (bind (type_of (addr_of t)) (fun t => bind (g t) f) st) with (bind (type_of (addr_of t)) (fun t => bind (g t) f) st); rewrite <- (bind_assoc (type_of (addr_of t)) g f st) end.
      rewrite U. cbv beta.
      assert (ND : (Z.of_nat (length done) =? 0) = false) by (destruct done; [congruence|cbn [length]; lia]). rewrite ND. cbn [orb]. cbv zeta.
      assert (C' : called s0 func nm (map (fun t => [addr_of t]) ((done ++ [t]) ++ rest))) by (rewrite <- app_assoc; exact C).
      assert (F' : Forall (fun t => amount s0 (addr_of t) (value_of t) (unit_of t) /\ f64_valid (value_of t) /\ f64_finite (value_of t)) ((done ++ [t]) ++ rest)) by (rewrite <- app_assoc; exact F).
      assert (N' : done ++ [t] <> []) by (destruct done; discriminate).
      assert (Ln : Z.of_nat (length done) + 1 = Z.of_nat (length (done ++ [t]))) by (rewrite app_length; cbn [length]; lia).
      (* the message *)
      assert (M : exists w, (if str_eqb first (unit_of t) then ret tt else p <- cur_pos ;; report p (name ++ "() expects all numbers to have the same dimension.")) (with_msgs s0 m)
                  = Ret tt (with_msgs s0 (m ++ w)) /\ Forall (fun x => m_level x = LError) w /\ length w = (if negb (str_eqb first (unit_of t)) then 1 else 0)%nat).
      { destruct (str_eqb first (unit_of t)) eqn:E; cbn [negb].
        - exists []. rewrite app_nil_r. split; [reflexivity|]. split; [constructor|reflexivity].
        - destruct (run_cur_pos (with_msgs s0 m) K) as (p & P). eexists. rewrite (b_ret _ _ _ _ _ P). split; [reflexivity|].
          split; [constructor; [reflexivity|constructor]|reflexivity]. }
      destruct M as (w & M & Lw & Cw). rewrite (b_ret _ _ _ _ _ M).
      assert (O : odd_units first (t :: rest) = (length w + odd_units first rest)%nat).
      { unfold odd_units. cbn [filter]. rewrite Cw. destruct (negb (str_eqb first (unit_of t))); reflexivity. }
      rewrite Ln. pose proof (gt_spec _ _ Vt Et Vb Eb) as GS.
      destruct (better (value_of t) (value_of best)) eqn:Eb'.
      + destruct (IH (done ++ [t]) t fuel (m ++ w) C' K N' F' ltac:(apply in_or_app; right; left; reflexivity) ltac:(cbn in L; lia) first)
          as (r & new & R1 & R2 & R3 & R4 & R5 & R6).
        exists r, (w ++ new). split; [destruct R1 as [R1|R1]; [left; right; exact R1|left; left; auto]|].
        split; [eapply geq_trans; [exact R2|right; apply GS; reflexivity]|].
        split; [intros x [<-|X]; [exact R2|exact (R3 x X)]|]. split; [apply Forall_app; auto|].
        split; [rewrite app_length, R5, O; reflexivity|]. rewrite R6, app_assoc. reflexivity.
      + destruct (IH (done ++ [t]) best fuel (m ++ w) C' K N' F' ltac:(apply in_or_app; left; exact B) ltac:(cbn in L; lia) first)
          as (r & new & R1 & R2 & R3 & R4 & R5 & R6).
        exists r, (w ++ new). split; [destruct R1 as [R1|R1]; [left; right; exact R1|right; exact R1]|].
        split; [exact R2|].
        split; [intros x [<-|X]; [eapply geq_trans; [exact R2|]|exact (R3 x X)]|].
        { destruct (gt_total (f64_R (value_of t)) (f64_R (value_of best))) as [E|E]; [intro X; apply GS in X; discriminate|left; exact E|right; exact E]. }
        split; [apply Forall_app; auto|].
        split; [rewrite app_length, R5, O; reflexivity|]. rewrite R6, app_assoc. reflexivity.
  Qed.

  Lemma extreme_all (s : est) func nm t l : called s func nm (map (fun t => [addr_of t]) (t :: l)) -> current_ok s ->
    Forall (fun t => amount s (addr_of t) (value_of t) (unit_of t) /\ f64_valid (value_of t) /\ f64_finite (value_of t)) (t :: l) ->
    exists r new, In r (t :: l) /\ (forall x, In x (t :: l) -> geq (f64_R (value_of r)) (f64_R (value_of x))) /\
      Forall (fun x => m_level x = LError) new /\ length new = odd_units (unit_of t) l /\
      extreme name better func s = Ret (Some (addr_of r)) (with_msgs s (e_msgs s ++ new)).
  Proof.
    intros C K F. unfold extreme. rewrite (b_ret _ _ _ _ _ (called_size s func nm _ C)). rewrite map_length, Nat2Z.id. cbn [extreme_loop].
    rewrite (b_ret _ _ _ _ _ (called_size s func nm _ C)). rewrite map_length. change (length (t :: l)) with (S (length l)).
    replace (Z.of_nat (S (length l)) <=? 0) with false by lia.
    inversion F as [|? ? Ft _]. subst. destruct Ft as (At & Vt & Et).
    destruct (amount_read s func nm _ 0 (addr_of t) (value_of t) (unit_of t) C eq_refl At) as (G & ct & Ht & U).
    change (Z.of_nat 0) with 0 in G. rewrite (b_ret _ _ _ _ _ G). cbv beta iota.
    match goal with |- context [bind (type_of _) (fun t => bind (@?g t) ?f) ?st] => rewrite <- (bind_assoc (type_of (addr_of t)) g f st) end.
    rewrite U. cbv beta. change (0 =? 0) with true. cbn [orb]. cbv iota zeta. rewrite bind_ret.
    assert (S0 : s = with_msgs s (e_msgs s)) by (destruct s; reflexivity).
    destruct (extreme_rest s func nm l [t] t (S (length l)) (e_msgs s) C K ltac:(discriminate) F ltac:(left; reflexivity) ltac:(lia) (unit_of t)) as (r & new & R1 & R2 & R3 & R4 & R5 & R6).
    exists r, new. split; [destruct R1 as [R1|R1]; [right; exact R1|left; auto]|]. split; [intros x [<-|X]; [exact R2|exact (R3 x X)]|].
    split; [exact R4|]. split; [exact R5|]. rewrite S0 at 1. exact R6.
  Qed.
End Extremes.

Theorem c58_extreme : forall env n s func name best first l, In (name, best) [("max", Rge); ("min", Rle)] ->
  called s func (zs name) (map (fun t => [addr_of t]) (first :: l)) -> current_ok s -> Z.of_nat (length l) < 2147483647 ->
  Forall (fun t => amount s (addr_of t) (value_of t) (unit_of t) /\ f64_valid (value_of t) /\ f64_finite (value_of t)) (first :: l) ->
  exists r new, In r (first :: l) /\ (forall t, In t (first :: l) -> best (f64_R (value_of r)) (f64_R (value_of t)))
    /\ execute env n func s = Ret (Some (addr_of r), n) (with_msgs s (e_msgs s ++ new))
    /\ Forall (fun x => m_level x = LError) new /\ length new = odd_units (unit_of first) l.
Proof.
  intros env n s func name best first l I C K L F.
  destruct I as [I|[I|[]]]; injection I as <- <-.
  - destruct (extreme_all "max" (fun r m => SFltb m r) Rgt) with (s := s) (func := func) (nm := zs "max") (t := first) (l := l) as (r & new & A & B & D & E & X); auto.
    { intros x y Vx Fx Vy Fy. rewrite (f64_ltb_spec y x Vy Fy Vx Fx). unfold Rgt. reflexivity. }
    { intros a b H. destruct (Rtotal_order a b) as [X|[X|X]]; [right; exact X|left; auto|contradiction]. }
    { intros a b c X Y. unfold Rgt in *. lra. }
    exists r, new. split; [exact A|]. split; [intros t T; destruct (B t T) as [Y|Y]; unfold Rgt, Rge in *; [right; exact Y|left; exact Y]|].
    split; [|auto]. eapply exec_plain; [exact C|reflexivity|unfold simple; reflexivity| |reflexivity|exact X].
    rewrite map_length. cbn [t_min t_max length]. lia.
  - destruct (extreme_all "min" (fun r m => SFltb r m) Rlt) with (s := s) (func := func) (nm := zs "min") (t := first) (l := l) as (r & new & A & B & D & E & X); auto.
    { intros x y Vx Fx Vy Fy. exact (f64_ltb_spec x y Vx Fx Vy Fy). }
    { intros a b H. destruct (Rtotal_order a b) as [X|[X|X]]; [contradiction|left; auto|right; exact X]. }
    { intros a b c X Y. lra. }
    exists r, new. split; [exact A|]. split; [intros t T; destruct (B t T) as [Y|Y]; unfold Rle; [right; exact Y|left; exact Y]|].
    split; [|auto]. eapply exec_plain; [exact C|reflexivity|unfold simple; reflexivity| |reflexivity|exact X].
    rewrite map_length. cbn [t_min t_max length]. lia.
Qed.

(** unit(): the unit as a string. *)
Theorem c58_unit : forall env s func x c u, called s func (zs "unit") [[x]] -> node_at s x c ->
  (exists v, number c v u) \/ (exists v, percent_node c v) /\ u = zs "%" -> yields env s func [] (fun r => string_node r u).
Proof.
  intros env s func x c u C H N.
  assert (A : exists v, amount s x v u).
  { destruct N as [(v & N)|((v & N) & E)]; [exists (as_double v)|exists v]; exists c; (split; [exact H|]); [left; exists v; auto|right; auto]. }
  destruct A as (v & A). destruct (amount_read s func _ _ 0 x v u C eq_refl A) as (G & d & Hd & U).
  destruct (called_pos _ _ _ _ C) as (p & P).
  eapply (yields_fresh _ _ _ (with_str (blank STRING p) u)); [|split; reflexivity].
  enter C. unfold fn_unit. change (Z.of_nat 0) with 0 in G. rewrite (b_ret _ _ _ _ _ G). cbv beta iota. rewrite (b_ret _ _ _ _ _ P).
  match goal with |- context [bind (type_of _) (fun t => bind (@?g t) ?f) ?st] => rewrite <- (bind_assoc (type_of x) g f st) end.
  rewrite U. apply run_new_string.
Qed.

(** type_of(): the name of the type. *)
Definition type_names : list (ntype * string) :=
  [ (INTEGER, "integer"); (DECIMAL_NUMBER, "number"); (PERCENT, "number"); (STRING, "string"); (IDENTIFIER, "identifier");
    (COLOR, "color"); (BOOLEAN, "bool"); (LIST, "list"); (ARRAY, "list"); (MAP, "map"); (UNICODE_RANGE, "unicode-range") ].
Theorem c58_type_of : forall env s func x c, called s func (zs "type_of") [[x]] -> node_at s x c ->
  yields env s func [] (fun r => exists name, string_node r (zs name) /\
    (In (c_type c, name) type_names \/ name = "undefined" /\ forall k, ~ In (c_type c, k) type_names)).
Proof.
  intros env s func x c C H. destruct (called_pos _ _ _ _ C) as (p & P).
  eapply (yields_fresh _ _ _ (with_str (blank STRING p) (zs (type_name (c_type c))))).
  - enter C. unfold fn_type_of. rewrite (b_ret _ _ _ _ _ (run_get_any _ _ _ _ C 0)). cbn [arg1 nth_error]. rewrite (b_ret _ _ _ _ _ P). step. apply run_new_string.
  - exists (type_name (c_type c)). split; [split; reflexivity|].
    destruct (c_type c); cbn; first [left; tauto|right; split; [reflexivity|intros k K; repeat (destruct K as [K|K]; [discriminate K|]); exact K]].
Qed.

(** not(): the opposite of a condition. *)
Theorem c58_not : forall env s func x b, called s func (zs "not") [[x]] -> answers (boolean x) s b ->
  yields env s func [] (fun r => bool_node r (negb b)).
Proof.
  intros env s func x b C B. destruct (called_pos _ _ _ _ C) as (p & P). destruct (called_child _ _ _ _ C 0 [x] eq_refl) as (a & d & R & Ha & Ta & La).
  eapply (yields_fresh _ _ _ (with_bool (blank BOOLEAN p) (negb b))); [|split; reflexivity].
  enter C. unfold fn_not. change (Z.of_nat 0) with 0 in R. rewrite (b_ret _ _ _ _ _ R). step. rewrite La. change (Z.of_nat (length [x]) =? 1) with true. cbn [negb].
  rewrite (b_ret _ _ _ _ _ (run_child s a d Ha 0 x ltac:(has) ltac:(rewrite La; cbn; lia) ltac:(rewrite La; reflexivity))).
  rewrite (b_ret _ _ _ _ _ B), (b_ret _ _ _ _ _ P). step. reflexivity.
Qed.

(** if(): the second parameter when the condition is true, otherwise the third
    one; several values become a list. *)
Theorem c58_if : forall env s func x yes no b, called s func (zs "if") [[x]; yes; no] -> answers (boolean x) s b ->
  let chosen := if b then yes else no in
  match chosen with
  | [y] => forall n, execute env n func s = Ret (Some y, n) s
  | _ => forall n, exists r s' c, execute env n func s = Ret (Some r, n) s' /\ node_at s' r c /\ c_type c = LIST /\ c_ch c = chosen
           /\ e_msgs s' = e_msgs s /\ (forall a d, node_at s a d -> c_type d <> ARG -> node_at s' a d)
  end.
Proof.
  intros env s func x yes no b C B. destruct (called_child _ _ _ _ C 0 [x] eq_refl) as (a & d & R & Ha & Ta & La).
  assert (Ch : exists y e, lift (get_child func (if b then 1 else 2)) s = Ret y s /\ node_at s y e /\ c_type e = ARG /\ c_ch e = (if b then yes else no)).
  { destruct b; [exact (called_child _ _ _ _ C 1 yes eq_refl)|exact (called_child _ _ _ _ C 2 no eq_refl)]. }
  destruct Ch as (y & e & Ry & Hy & Ty & Ly).
  assert (G : fn_if func s = (if Z.of_nat (length (if b then yes else no)) =? 1 then x0 <- lift (get_child y 0) ;; ret (Some x0)
      else p <- pos_of y ;; l <- alloc LIST p ;; lift (take_over_children_of l y) ;;; ret (Some l)) s).
  { unfold fn_if. change (Z.of_nat 0) with 0 in R. rewrite (b_ret _ _ _ _ _ R). step. rewrite La. change (Z.of_nat (length [x]) =? 1) with true. cbn [negb]. cbv iota.
    rewrite (b_ret _ _ _ _ _ (run_child s a d Ha 0 x ltac:(has) ltac:(rewrite La; cbn; lia) ltac:(rewrite La; reflexivity))).
    rewrite (b_ret _ _ _ _ _ B), (b_ret _ _ _ _ _ Ry). step. rewrite Ly. reflexivity. }
  assert (M : length (if b then yes else no) <> 1%nat -> forall n, exists r s' c, execute env n func s = Ret (Some r, n) s' /\ node_at s' r c /\ c_type c = LIST /\ c_ch c = (if b then yes else no)
           /\ e_msgs s' = e_msgs s /\ (forall a d, node_at s a d -> c_type d <> ARG -> node_at s' a d)).
  { intros N n. set (f := fresh s (blank LIST (c_pos e))).
    pose proof (fresh_keeps s (blank LIST (c_pos e)) y e Hy) as Hy'. pose proof (fresh_at s (blank LIST (c_pos e))) as Hl. fold f in Hy', Hl.
    assert (NE : y <> new_addr s) by (pose proof (at_lt _ _ _ Hy); unfold new_addr; lia).
    set (h1 := put (put (e_heap f) (new_addr s) (with_ch (blank LIST (c_pos e)) (if b then yes else no))) y (with_ch e [])).
    assert (T : lift (take_over_children_of (new_addr s) y) f = Ret tt (with_heap f h1)).
    { unfold lift, take_over_children_of, NodeHeap.bind, load, supports, store. unfold node_at in Hl, Hy'. rewrite Hl. cbn [c_type blank has_children NodeHeap.ret].
      unfold NodeHeap.ret. rewrite Hy', Ty. cbn [has_children]. 
      rewrite put_same by exact (at_lt _ _ _ Hl). rewrite put_other by congruence. rewrite Hy'. rewrite put_put. rewrite put_other by congruence. rewrite Hy'.
      unfold h1. rewrite Ly. reflexivity. }
    exists (new_addr s), (with_heap f h1), (with_ch (blank LIST (c_pos e)) (if b then yes else no)).
    split.
    - eapply exec_plain; [exact C|reflexivity|unfold simple; reflexivity|cbn [t_min t_max length]; lia|reflexivity|cbv beta].
      rewrite G. replace (Z.of_nat (length (if b then yes else no)) =? 1) with false by lia. step. step. fold f. rewrite (b_ret _ _ _ _ _ T). reflexivity.
    - split; [unfold node_at; cbn [e_heap with_heap]; unfold h1; rewrite put_other by congruence; apply put_same; exact (at_lt _ _ _ Hl)|].
      split; [reflexivity|]. split; [reflexivity|]. split; [reflexivity|].
      intros k g K Tg. unfold node_at. cbn [e_heap with_heap]. unfold h1.
      assert (y <> k) by (intros ->; unfold node_at in K, Hy; rewrite K in Hy; injection Hy as ->; contradiction).
      assert (new_addr s <> k) by (pose proof (at_lt _ _ _ K); unfold new_addr; lia).
      rewrite !put_other by assumption. exact (fresh_keeps s _ k g K). }
  cbv zeta. destruct (if b then yes else no) as [|z [|z' r]] eqn:Z'; [apply M; cbn; lia| |apply M; cbn; lia].
  intro n. eapply exec_plain; [exact C|reflexivity|unfold simple; reflexivity|cbn [t_min t_max length]; lia|reflexivity|cbv beta].
  rewrite G. cbn [length]. change (Z.of_nat 1 =? 1) with true. cbv iota.
  rewrite (b_ret _ _ _ _ _ (run_child s y e Hy 0 z ltac:(has) ltac:(rewrite Ly; cbn; lia) ltac:(rewrite Ly; reflexivity))). reflexivity.
Qed.

(** integer(): the integer part (towards zero), with the unit. *)
Definition truncated (v : R) (z : Z) : Prop := (Rabs (IZR z) <= Rabs v < Rabs (IZR z) + 1 /\ 0 <= IZR z * v)%R.
Lemma truncated_unique v z z' : truncated v z -> truncated v z' -> z = z'.
Proof.
  intros (A & B) (A' & B').
  assert (X : Z.abs z = Z.abs z').
  { rewrite <- !abs_IZR in *. assert (IZR (Z.abs z) < IZR (Z.abs z' + 1))%R by (rewrite plus_IZR; lra).
    assert (IZR (Z.abs z') < IZR (Z.abs z + 1))%R by (rewrite plus_IZR; lra). apply lt_IZR in H, H0. lia. }
  destruct (Z.eq_dec z z') as [E|E]; [exact E|]. assert (z' = - z) by lia. subst z'. assert (N : z <> 0) by lia.
  rewrite opp_IZR in B'. assert (Y : (IZR z * v = 0)%R) by nra. apply Rmult_integral in Y.
  assert (v = 0%R) by (destruct Y as [Y|Y]; [apply eq_IZR in Y; lia|exact Y]). subst v. rewrite Rabs_R0 in A.
  rewrite <- abs_IZR in A. destruct A as (A & _). apply le_IZR in A. lia.
Qed.
Theorem c58_integer : forall env s func x c v u z, called s func (zs "integer") [[x]] -> node_at s x c ->
  dec_node c v u -> f64_finite v -> truncated (f64_R v) z -> int64_ok z = true -> yields env s func [] (fun r => int_node r z u).
Proof.
  intros env s func x c v u z C H (T & D & U) F TR OK.
  destruct (sf_trunc_spec v F) as (z' & E & TR'). assert (z' = z) as -> by exact (truncated_unique _ _ _ TR' TR).
  eapply (yields_fresh _ _ _ (with_str (with_int (blank INTEGER (c_pos c)) z) u)); [|split; [reflexivity|split; reflexivity]].
  enter C. unfold fn_integer, convert. rewrite (b_ret _ _ _ _ _ (run_get_any _ _ _ _ C 0)). cbn [arg1 nth_error]. step. rewrite T.
  change (ntype_eqb DECIMAL_NUMBER INTEGER) with false. cbv iota. unfold integer_of_decimal, to_int64, int_of_f64, make_integer. rewrite D, E, OK. steps.
  rewrite U. reflexivity.
Qed.
Theorem c58_integer_same : forall env s func x c v u, called s func (zs "integer") [[x]] -> node_at s x c -> int_node c v u ->
  yields env s func [] (fun r => int_node r v u).
Proof.
  intros env s func x c v u C H N. eapply yields_same; [exact H| |exact N]. destruct N as (T & I & U).
  enter C. unfold fn_integer, convert. rewrite (b_ret _ _ _ _ _ (run_get_any _ _ _ _ C 0)). cbn [arg1 nth_error]. step. rewrite T. reflexivity.
Qed.
(** ... when it fits in 64 bits; otherwise the behaviour is undefined. *)
Theorem c58_integer_refuted : execute trivial_env 0 0%nat (call "integer" [dec (f64_of_Z (10 ^ 30)) "px"]) = Undef (call "integer" [dec (f64_of_Z (10 ^ 30)) "px"]).
Proof. vm_compute. reflexivity. Qed.

(** decimal_number(): the same value (the nearest double). *)
Theorem c58_decimal_number : forall env s func x c v u, called s func (zs "decimal_number") [[x]] -> node_at s x c -> int_node c v u ->
  int64_ok v = true -> yields env s func [] (fun r => exists w, dec_node r w u /\ f64_valid w /\ f64_finite w /\ f64_R w = rnd (IZR v)).
Proof.
  intros env s func x c v u C H (T & D & U) B. assert (Bv : Z.abs v <= 2 ^ 63) by (unfold int64_ok in B; lia).
  eapply (yields_fresh _ _ _ (with_str (with_dec (blank DECIMAL_NUMBER (c_pos c)) (f64_of_Z v)) u)).
  - enter C. unfold fn_decimal_number, convert. rewrite (b_ret _ _ _ _ _ (run_get_any _ _ _ _ C 0)). cbn [arg1 nth_error]. step. rewrite T.
    change (ntype_eqb INTEGER DECIMAL_NUMBER) with false. cbv iota. unfold decimal_of_integer, make_decimal. steps. rewrite U, D. reflexivity.
  - exists (f64_of_Z v). split; [split; [reflexivity|split; reflexivity]|]. exact (f64_of_Z_spec v (rnd_bound v Bv)).
Qed.

Example c58_ex :
  yields trivial_env (call "abs" [num (-3) "px"]) 0%nat [2%nat] (fun r => int_node r 3 (zs "px"))
  /\ answers (boolean 2%nat) (call "not" [num 5 ""]) true
  /\ truncated (f64_R (f64_div (f64_of_Z (-7)) (f64_of_Z 2))) (-3)
  /\ f64_valid (f64_div (f64_of_Z (-7)) (f64_of_Z 2))
  /\ match execute trivial_env 0 0%nat (call "max" [num 1 "px"; num 7 "px"; num 3 "em"]) with
     | Ret (r, n) s => r = Some 5%nat /\ length (e_msgs s) = 1%nat
     | _ => False
     end.
Proof.
  split; [|split; [|split; [|split]]].
  - assert (N : int_node (num (-3) "px") (-3) (zs "px")) by (split; [reflexivity|split; reflexivity]).
    assert (C : called (call "abs" [num (-3) "px"]) 0%nat (zs "abs") [[2%nat]]) by exact (call_called "abs" [num (-3) "px"]).
    assert (H : node_at (call "abs" [num (-3) "px"]) 2%nat (num (-3) "px")) by reflexivity.
    assert (B : - 2 ^ 63 < -3 < 2 ^ 63) by lia.
    exact (c58_abs_integer trivial_env _ _ _ _ _ _ C H N B).
  - vm_compute. reflexivity.
  - assert (E : f64_div (f64_of_Z (-7)) (f64_of_Z 2) = S754_finite true 7881299347898368 (-51)) by (vm_compute; reflexivity).
    rewrite E. cbn [f64_R]. assert (P : (powerRZ 2 (-51) = / 2251799813685248)%R) by (cbn [powerRZ]; f_equal; change 2251799813685248 with (2 ^ 51); rewrite pow2_bpow by lia; reflexivity).
    rewrite P. unfold truncated. rewrite !Rabs_left by lra. lra.
  - vm_compute. reflexivity.
  - vm_compute. split; reflexivity.
Qed.
