(** * C76: trigonometry, logarithms and random numbers *)

From Coq Require Import String ZArith List Bool Lia Arith ZifyBool Reals Lra Floats.SpecFloat.
From Flocq Require Import Core.
From Verif Require Import Base UnicodeRange NodeHeap NodeProofs Color FloatBits Dim Expr ExprSpec ExprRun Hsl Functions FunctionSpec FunctionRun
  FloatFacts FloatMath PiFacts Props_Functions Props_Math.
Import ListNotations.
Open Scope string_scope. Open Scope list_scope. Open Scope Z_scope.
Ltac Zify.zify_post_hook ::= idtac.

(** The double pi of the code and the number: PiFacts.v. *)
Lemma pi64_m_pi : f64_R m_pi = pi64.
Proof. unfold f64_R, m_pi, pi64. lra. Qed.
Lemma pi64_bounds : (3 < pi64 < 4)%R.
Proof.
  unfold pi64. assert (E : (powerRZ 2 (-51) * IZR (2 ^ 51) = 1)%R).
  { rewrite pow2_bpow by lia. rewrite <- powerRZ_add by lra. reflexivity. }
  assert (P : (0 < powerRZ 2 (-51))%R) by (apply powerRZ_lt; lra).
  change (2 ^ 51) with 2251799813685248 in E. split; nra.
Qed.

(** How many of a unit make half a turn: what is written without a unit is in degrees. *)
Definition half_turn : list (str * R) := [ (zs "deg", 180%R); ([], 180%R); (zs "grad", 200%R); (zs "turn", (/ 2)%R) ].
(** The angle in radians that the double [w] holds when the one of [x] is given
    in this unit: both operations are rounded to the nearest double. *)
Definition in_radians (x w : f64) (unit : str) : Prop :=
  (unit = zs "rad" /\ w = x) \/ exists h, In (unit, h) half_turn /\ f64_R w = rnd (rnd (f64_R x * pi64) / h).

Lemma rnd_pow e : -1000 <= e -> rnd (powerRZ 2 e) = powerRZ 2 e.
Proof. intro H. unfold rnd. apply round_generic; [apply _|]. rewrite <- bpow_powerRZ. apply generic_format_bpow. unfold FLT_exp. lia. Qed.
Lemma rnd_within r e : -1000 <= e -> (Rabs r <= powerRZ 2 e)%R -> (Rabs (rnd r) <= powerRZ 2 e)%R.
Proof.
  intros E H. apply Rabs_le. apply Rabs_le_inv in H. rewrite <- (rnd_pow e E). rewrite <- rnd_opp. split; apply rnd_le; lra.
Qed.
Lemma pow_step e : (powerRZ 2 e * 4 = powerRZ 2 (e + 2))%R.
Proof. rewrite powerRZ_add by lra. f_equal. change (powerRZ 2 2) with (2 * (2 * 1))%R. lra. Qed.
Lemma below_max e : e < 1024 -> (powerRZ 2 e < powerRZ 2 1024)%R.
Proof. intro H. rewrite <- !bpow_powerRZ. now apply bpow_lt. Qed.
Lemma angle_product x : f64_valid x -> f64_finite x -> (Rabs (f64_R x) <= powerRZ 2 1000)%R ->
  f64_valid (f64_mul x m_pi) /\ f64_finite (f64_mul x m_pi) /\ f64_R (f64_mul x m_pi) = rnd (f64_R x * pi64)
  /\ (Rabs (f64_R (f64_mul x m_pi)) <= powerRZ 2 1002)%R.
Proof.
  intros V F B. assert (L : (Rabs (rnd (f64_R x * pi64)) <= powerRZ 2 1002)%R).
  { apply rnd_within; [lia|]. rewrite Rabs_mult. pose proof pi64_bounds as P. rewrite (Rabs_pos_eq pi64) by lra.
    change 1002 with (1000 + 2). rewrite <- pow_step. apply Rmult_le_compat; try lra. apply Rabs_pos. }
  destruct (f64_mul_spec x m_pi V F) as (A & C & D); [reflexivity|exact I| |].
  - rewrite pi64_m_pi. eapply Rle_lt_trans; [exact L|]. now apply below_max.
  - rewrite pi64_m_pi in D. split; [exact A|]. split; [exact C|]. split; [exact D|]. now rewrite D.
Qed.
Lemma over x n : f64_valid x -> f64_finite x -> (Rabs (f64_R x) <= powerRZ 2 1002)%R -> 1 <= n <= 2 ^ 53 ->
  f64_R (f64_div x (f64_of_Z n)) = rnd (f64_R x / IZR n).
Proof.
  intros V F B N. destruct (f64_of_Z_exact n ltac:(lia)) as (Vn & Fn & Rn). assert (P : (1 <= IZR n)%R) by (apply IZR_le; lia).
  destruct (f64_div_spec x (f64_of_Z n) V F Vn) as (_ & _ & D); [rewrite Rn; lra| |now rewrite D, Rn].
  rewrite Rn. eapply Rle_lt_trans; [apply (rnd_within _ 1002)|now apply below_max]; [lia|].
  unfold Rdiv. rewrite Rabs_mult. rewrite (Rabs_pos_eq (/ IZR n)) by (left; apply Rinv_0_lt_compat; lra).
  rewrite <- (Rmult_1_r (powerRZ 2 1002)). apply Rmult_le_compat; try exact B; [apply Rabs_pos|left; apply Rinv_0_lt_compat; lra|].
  rewrite <- Rinv_1. apply Rinv_le_contravar; lra.
Qed.
Lemma twice x : f64_valid x -> f64_finite x -> (Rabs (f64_R x) <= powerRZ 2 1002)%R ->
  f64_R (f64_mul x f_two) = rnd (f64_R x / (/ 2)).
Proof.
  intros V F B. assert (E : f64_R f_two = 2%R) by (unfold f_two; destruct (f64_of_Z_exact 2 ltac:(lia)) as (_ & _ & R2); exact R2).
  destruct (f64_mul_spec x f_two V F) as (_ & _ & D); [reflexivity|exact I| |].
  - rewrite E. eapply Rle_lt_trans; [apply (rnd_within _ 1004)|now apply below_max]; [lia|]. rewrite Rabs_mult, (Rabs_pos_eq 2) by lra.
    change 1004 with (1002 + 2). rewrite <- pow_step. assert (0 < powerRZ 2 1002)%R by (apply powerRZ_lt; lra). pose proof (Rabs_pos (f64_R x)). nra.
  - rewrite D, E. f_equal. field.
Qed.
Lemma radians_run p x u s : f64_valid x -> f64_finite x -> (Rabs (f64_R x) <= powerRZ 2 1000)%R ->
  u = zs "rad" \/ In u (map fst half_turn) -> exists w, to_radians p x u s = Ret w s /\ in_radians x w u.
Proof.
  intros V F B U. destruct (angle_product x V F B) as (A & C & D & L). unfold to_radians, in_radians.
  destruct U as [->|U]; [exists x; split; [reflexivity|left; auto]|]. cbn [map fst half_turn] in U.
  destruct U as [<-|[<-|[<-|[<-|[]]]]]; (eexists; split; [reflexivity|right]).
  - exists 180%R. split; [left; reflexivity|]. rewrite (over _ 180 A C L) by lia. now rewrite D.
  - exists 180%R. split; [right; left; reflexivity|]. rewrite (over _ 180 A C L) by lia. now rewrite D.
  - exists 200%R. split; [right; right; left; reflexivity|]. rewrite (over _ 200 A C L) by lia. now rewrite D.
  - exists (/ 2)%R. split; [do 3 right; left; reflexivity|]. rewrite (twice _ A C L). now rewrite D.
Qed.

(** cos(), sin(), tan(): the function of the mathematical library of the angle
    in radians; the result has no unit. *)
Definition circular (env : fenv) : list (string * (f64 -> f64)) := [ ("cos", f_cos env); ("sin", f_sin env); ("tan", f_tan env) ].
Lemma number_cases c k u : number c k u -> (exists v, k = inl v /\ int_node c v u) \/ (exists v, k = inr v /\ dec_node c v u).
Proof. intros [c0 v u0 N|c0 v u0 N]; [left|right]; exists v; auto. Qed.
Theorem c76_trig : forall env name f s func x c k u, In (name, f) (circular env) ->
  called s func (zs name) [[x]] -> node_at s x c -> number c k u ->
  f64_valid (as_double k) -> f64_finite (as_double k) -> (Rabs (f64_R (as_double k)) <= powerRZ 2 1000)%R ->
  u = zs "rad" \/ In u (map fst half_turn) ->
  yields env s func [x] (fun r => exists w, dec_node r (f w) [] /\ in_radians (as_double k) w u).
Proof.
  intros env name f s func x c k u I C H N V F B U.
  destruct (called_pos _ _ _ _ C) as (p & P). destruct (radians_run p (as_double k) u s V F B U) as (w & W & A).
  assert (W' : forall q s', to_radians q (as_double k) u s' = Ret w s').
  { intros q s'. revert W. unfold to_radians. clear - U. cbn [map fst half_turn] in U. destruct U as [->|[<-|[<-|[<-|[<-|[]]]]]]; cbn; intro E; injection E as <-; reflexivity. }
  assert (G : get_number func 0 s = Ret (Some (x, as_double k)) s) by exact (pick_number s func _ _ 0 x c k u C eq_refl H N).
  destruct (number_cases c k u N) as [(v & K & T & D & S)|(v & K & T & D & S)].
  - assert (R : forall t, fn_trig f t func s = Ret (Some (new_addr s)) (fresh s (with_dec (blank DECIMAL_NUMBER (c_pos c)) (f w)))).
    { intro t. unfold fn_trig. rewrite (b_ret _ _ _ _ _ G). cbv beta iota. step. step. rewrite T, S. change (ntype_eqb INTEGER INTEGER) with true. cbv iota.
      step. step. step. destruct C as (cf & Hf & _). step. rewrite (b_ret _ _ _ _ _ (W' _ _)). steps. reflexivity. }
    apply (yields_more env s func [] [x]); [|intros a []].
    apply (yields_fresh env s func (with_dec (blank DECIMAL_NUMBER (c_pos c)) (f w))).
    + destruct I as [I|[I|[I|[]]]]; injection I as <- <-; enter C; apply R.
    + exists w. split; [split; [reflexivity|split; reflexivity]|exact A].
  - assert (R : forall t, fn_trig f t func s = Ret (Some x) (placed s x (with_dec (with_str c []) (f w)))).
    { intro t. unfold fn_trig. rewrite (b_ret _ _ _ _ _ G). cbv beta iota. step. step. rewrite T, S. change (ntype_eqb DECIMAL_NUMBER INTEGER) with false. cbv iota.
      rewrite bind_assoc. rewrite (b_ret _ _ _ _ _ (run_set_string s x c H [] ltac:(has))). step. fold (placed s x (with_str c [])).
      destruct C as (cf & Hf & Tf & _). assert (NE : func <> x) by (intros ->; unfold node_at in *; congruence).
      assert (Hf' : node_at (placed s x (with_str c [])) func cf) by (unfold node_at, placed; cbn [e_heap with_heap]; rewrite put_other by congruence; exact Hf).
      assert (Hx : node_at (placed s x (with_str c [])) x (with_str c [])) by (unfold node_at, placed; cbn [e_heap with_heap]; apply put_same; exact (at_lt _ _ _ H)).
      step. rewrite (b_ret _ _ _ _ _ (W' _ _)). rewrite (b_ret _ _ _ _ _ (run_set_decimal _ x _ Hx (f w) ltac:(cbn; now rewrite T))).
      unfold placed. cbn [e_heap with_heap]. rewrite put_put. reflexivity. }
    apply (yields_placed env s func x c (with_dec (with_str c []) (f w))); [exact H| |].
    + destruct I as [I|[I|[I|[]]]]; injection I as <- <-; enter C; apply R.
    + exists w. split; [split; [exact T|split; reflexivity]|exact A].
Qed.

Lemma radians_bad p x u s : u <> zs "rad" -> ~ In u (map fst half_turn) ->
  exists t, to_radians p x u s = Ret x (with_msgs s (e_msgs s ++ [mkMsg LError p t])).
Proof.
  intros R U. cbn [map fst half_turn In] in U. unfold to_radians.
  assert (X : forall v, u <> v -> str_eqb u v = false) by (intros v N; apply str_eqb_neq; exact N).
  rewrite (X (zs "rad") R), (X (zs "deg")), (X []), (X (zs "grad")), (X (zs "turn")) by (intros ->; apply U; tauto).
  eexists. reflexivity.
Qed.
(** Any other unit is an error; a number comes out all the same, that of the operand in radians. *)
Theorem c76_bad_unit : forall env name f s func x c k u, In (name, f) (circular env) ->
  called s func (zs name) [[x]] -> node_at s x c -> number c k u -> u <> zs "rad" -> ~ In u (map fst half_turn) ->
  forall n, exists r s' d m, execute env n func s = Ret (Some r, n) s' /\ e_msgs s' = e_msgs s ++ [m] /\ m_level m = LError
    /\ node_at s' r d /\ dec_node d (f (as_double k)) [].
Proof.
  intros env name f s func x c k u I C H N R U.
  destruct (called_pos _ _ _ _ C) as (p & P).
  assert (G : get_number func 0 s = Ret (Some (x, as_double k)) s) by exact (pick_number s func _ _ 0 x c k u C eq_refl H N).
  destruct (number_cases c k u N) as [(v & K & T & D & S)|(v & K & T & D & S)].
  - assert (X : forall t, exists m, m_level m = LError /\
      fn_trig f t func s = Ret (Some (new_addr s)) (fresh (with_msgs s (e_msgs s ++ [m])) (with_dec (blank DECIMAL_NUMBER (c_pos c)) (f (as_double k))))).
    { intro t. unfold fn_trig. rewrite (b_ret _ _ _ _ _ G). cbv beta iota. step. step. rewrite T, S. change (ntype_eqb INTEGER INTEGER) with true. cbv iota.
      step. step. step. destruct C as (cf & Hf & _). step.
      destruct (radians_bad (c_pos cf) (as_double k) u (fresh s (blank DECIMAL_NUMBER (c_pos c))) R U) as (tx & W).
      exists (mkMsg LError (c_pos cf) tx). split; [reflexivity|]. rewrite (b_ret _ _ _ _ _ W).
      change (with_msgs (fresh s (blank DECIMAL_NUMBER (c_pos c))) (e_msgs (fresh s (blank DECIMAL_NUMBER (c_pos c))) ++ [mkMsg LError (c_pos cf) tx]))
        with (fresh (with_msgs s (e_msgs s ++ [mkMsg LError (c_pos cf) tx])) (blank DECIMAL_NUMBER (c_pos c))).
      change (new_addr s) with (new_addr (with_msgs s (e_msgs s ++ [mkMsg LError (c_pos cf) tx]))). steps. reflexivity. }
    assert (Y : exists m, m_level m = LError /\ forall n, execute env n func s = Ret (Some (new_addr s), n) (fresh (with_msgs s (e_msgs s ++ [m])) (with_dec (blank DECIMAL_NUMBER (c_pos c)) (f (as_double k))))).
    { destruct I as [I|[I|[I|[]]]]; injection I as <- <-; match goal with |- context [execute env _ func s] => idtac end;
        [destruct (X "cos() expects an angle as parameter.") as (m & M & X')|destruct (X "sin() expects an angle as parameter.") as (m & M & X')|destruct (X "tan() expects an angle as parameter.") as (m & M & X')];
        exists m; (split; [exact M|]); enter C; exact X'. }
    destruct Y as (m & M & Y). intro n. do 4 eexists. split; [exact (Y n)|]. split; [reflexivity|]. split; [exact M|].
    split; [exact (fresh_at (with_msgs s _) _)|]. split; [reflexivity|split; reflexivity].
  - destruct C as (cf & Hf & Tf & C'). assert (NE : func <> x) by (intros ->; unfold node_at in *; congruence).
    assert (C : called s func (zs name) [[x]]) by (exists cf; auto).
    assert (Hf' : node_at (placed s x (with_str c [])) func cf) by (unfold node_at, placed; cbn [e_heap with_heap]; rewrite put_other by congruence; exact Hf).
    assert (X : forall t, exists m, m_level m = LError /\
      fn_trig f t func s = Ret (Some x) (placed (with_msgs s (e_msgs s ++ [m])) x (with_dec (with_str c []) (f (as_double k))))).
    { intro t. unfold fn_trig. rewrite (b_ret _ _ _ _ _ G). cbv beta iota. step. step. rewrite T, S. change (ntype_eqb DECIMAL_NUMBER INTEGER) with false. cbv iota.
      rewrite bind_assoc. rewrite (b_ret _ _ _ _ _ (run_set_string s x c H [] ltac:(has))). step. fold (placed s x (with_str c [])).
      step. destruct (radians_bad (c_pos cf) (as_double k) u (placed s x (with_str c [])) R U) as (tx & W).
      exists (mkMsg LError (c_pos cf) tx). split; [reflexivity|]. rewrite (b_ret _ _ _ _ _ W).
      assert (Hx : node_at (with_msgs (placed s x (with_str c [])) (e_msgs (placed s x (with_str c [])) ++ [mkMsg LError (c_pos cf) tx])) x (with_str c []))
        by (unfold node_at, placed; cbn [e_heap with_heap with_msgs]; apply put_same; exact (at_lt _ _ _ H)).
      rewrite (b_ret _ _ _ _ _ (run_set_decimal _ x _ Hx (f (as_double k)) ltac:(cbn; now rewrite T))).
      unfold placed. cbn [e_heap with_heap with_msgs]. rewrite put_put. reflexivity. }
    assert (Y : exists m, m_level m = LError /\ forall n, execute env n func s = Ret (Some x, n) (placed (with_msgs s (e_msgs s ++ [m])) x (with_dec (with_str c []) (f (as_double k))))).
    { destruct I as [I|[I|[I|[]]]]; injection I as <- <-;
        [destruct (X "cos() expects an angle as parameter.") as (m & M & X')|destruct (X "sin() expects an angle as parameter.") as (m & M & X')|destruct (X "tan() expects an angle as parameter.") as (m & M & X')];
        exists m; (split; [exact M|]); enter C; exact X'. }
    destruct Y as (m & M & Y). intro n. do 4 eexists. split; [exact (Y n)|]. split; [reflexivity|]. split; [exact M|].
    split; [unfold node_at, placed; cbn [e_heap with_heap with_msgs]; apply put_same; exact (at_lt _ _ _ H)|]. split; [exact T|split; reflexivity].
Qed.
(** For instance cos(2px), where cos is the identity. *)
Theorem c76_bad_unit_refuted : match execute trivial_env 0 0%nat (call "cos" [num 2 "px"]) with
  | Ret (Some r, _) t => (exists c, node_at t r c /\ dec_node c (f64_of_Z 2) []) /\ map m_level (e_msgs t) = [LError]
  | _ => False
  end.
Proof. vm_compute. split; [|reflexivity]. eexists. repeat split. Qed.

(** acos(), asin(), atan(): an angle in radians, whatever the unit was. *)
Definition inverse (env : fenv) : list (string * (f64 -> f64)) := [ ("acos", f_acos env); ("asin", f_asin env); ("atan", f_atan env) ].
Theorem c76_inverse : forall env name f s func x c k u, In (name, f) (inverse env) ->
  called s func (zs name) [[x]] -> node_at s x c -> number c k u ->
  yields env s func [x] (fun r => dec_node r (f (as_double k)) (zs "rad")).
Proof.
  intros env name f s func x c k u I C H N.
  assert (G : get_number func 0 s = Ret (Some (x, as_double k)) s) by exact (pick_number s func _ _ 0 x c k u C eq_refl H N).
  destruct (number_cases c k u N) as [(v & K & T & D & S)|(v & K & T & D & S)].
  - assert (R : forall t, fn_arc f t func s = Ret (Some (new_addr s)) (fresh s (with_str (with_dec (blank DECIMAL_NUMBER (c_pos c)) (f (as_double k))) (zs "rad")))).
    { intro t. unfold fn_arc, as_decimal. rewrite (b_ret _ _ _ _ _ G). cbv beta iota. step. step. rewrite T. change (ntype_eqb INTEGER INTEGER) with true. cbv iota.
      steps. reflexivity. }
    apply (yields_more env s func [] [x]); [|intros a []].
    apply (yields_fresh env s func (with_str (with_dec (blank DECIMAL_NUMBER (c_pos c)) (f (as_double k))) (zs "rad"))).
    + destruct I as [I|[I|[I|[]]]]; injection I as <- <-; enter C; apply R.
    + split; [reflexivity|split; reflexivity].
  - assert (R : forall t, fn_arc f t func s = Ret (Some x) (placed s x (with_str (with_dec c (f (as_double k))) (zs "rad")))).
    { intro t. unfold fn_arc, as_decimal. rewrite (b_ret _ _ _ _ _ G). cbv beta iota. step. step. rewrite T. change (ntype_eqb DECIMAL_NUMBER INTEGER) with false. cbv iota.
      step. rewrite (b_ret _ _ _ _ _ (run_set_decimal s x c H (f (as_double k)) ltac:(has))). fold (placed s x (with_dec c (f (as_double k)))).
      assert (Hx : node_at (placed s x (with_dec c (f (as_double k)))) x (with_dec c (f (as_double k)))) by (unfold node_at, placed; cbn [e_heap with_heap]; apply put_same; exact (at_lt _ _ _ H)).
      rewrite (b_ret _ _ _ _ _ (run_set_string _ x _ Hx (zs "rad") ltac:(cbn; now rewrite T))).
      unfold placed. cbn [e_heap with_heap]. rewrite put_put. reflexivity. }
    apply (yields_placed env s func x c (with_str (with_dec c (f (as_double k))) (zs "rad"))); [exact H| |].
    + destruct I as [I|[I|[I|[]]]]; injection I as <- <-; enter C; apply R.
    + split; [exact T|split; reflexivity].
Qed.

(** log(): of positive numbers without unit only. *)
Theorem c76_log : forall env s func x c k, called s func (zs "log") [[x]] -> node_at s x c -> number c k [] ->
  f64_valid (as_double k) -> f64_finite (as_double k) -> (0 < f64_R (as_double k))%R ->
  yields env s func [x] (fun r => dec_node r (f_log env (as_double k)) []).
Proof.
  intros env s func x c k C H N V F P.
  assert (G : get_number func 0 s = Ret (Some (x, as_double k)) s) by exact (pick_number s func _ _ 0 x c k [] C eq_refl H N).
  assert (L : SFleb (as_double k) f_zero = false).
  { destruct zero_facts as (V0 & F0 & R0). destruct (SFleb (as_double k) f_zero) eqn:E; [|reflexivity].
    apply (f64_leb_spec _ _ V F V0 F0) in E. lra. }
  destruct (number_cases c k [] N) as [(v & K & T & D & S)|(v & K & T & D & S)].
  - apply (yields_more env s func [] [x]); [|intros a []].
    apply (yields_fresh env s func (with_dec (blank DECIMAL_NUMBER (c_pos c)) (f_log env (as_double k)))).
    + enter C. unfold fn_log, as_decimal. rewrite (b_ret _ _ _ _ _ G). cbv beta iota. step. rewrite S, L. cbv iota. step. step. rewrite T.
      change (ntype_eqb INTEGER INTEGER) with true. cbv iota. steps. reflexivity.
    + split; [reflexivity|split; reflexivity].
  - apply (yields_placed env s func x c (with_dec c (f_log env (as_double k)))); [exact H| |].
    + enter C. unfold fn_log, as_decimal. rewrite (b_ret _ _ _ _ _ G). cbv beta iota. step. rewrite S, L. cbv iota. step. step. rewrite T.
      change (ntype_eqb DECIMAL_NUMBER INTEGER) with false. cbv iota. step.
      rewrite (b_ret _ _ _ _ _ (run_set_decimal s x c H (f_log env (as_double k)) ltac:(has))). reflexivity.
    + split; [exact T|split; [reflexivity|exact S]].
Qed.
Theorem c76_log_refused : forall env s func x c k u, called s func (zs "log") [[x]] -> current_ok s -> node_at s x c -> number c k u ->
  f64_valid (as_double k) -> f64_finite (as_double k) -> u <> [] \/ (f64_R (as_double k) <= 0)%R -> denied env s func.
Proof.
  intros env s func x c k u C K H N V F B.
  assert (G : get_number func 0 s = Ret (Some (x, as_double k)) s) by exact (pick_number s func _ _ 0 x c k u C eq_refl H N).
  assert (X : has_str (c_type c) = true /\ c_str c = u) by (destruct (number_cases c k u N) as [(v & _ & T & _ & S)|(v & _ & T & _ & S)]; rewrite T; auto).
  destruct X as (X & S). eapply denied_plain; [exact C|reflexivity|unfold simple; reflexivity|cbn [t_min t_max length]; lia|reflexivity|].
  unfold fn_log. eapply fails_bind; [exact G|]. cbv beta iota. eapply fails_bind; [exact (run_string s x c H X)|]. cbv beta. rewrite S.
  destruct u as [|a u]; [|apply fails_wrong; exact K].
  destruct B as [B|B]; [congruence|]. destruct zero_facts as (V0 & F0 & R0).
  rewrite (proj2 (f64_leb_spec _ _ V F V0 F0)) by lra. apply fails_wrong. exact K.
Qed.

(** random(): what rand() gave (at most RAND_MAX, 2147483647) over RAND_MAX + 1,
    exactly: at least 0 and less than 1. *)
Lemma random_value v : 0 <= v <= 2147483647 ->
  f64_R (f64_div (f64_of_Z v) (f64_add (f64_of_Z 2147483647) f_one)) = (IZR v / IZR (2 ^ 31))%R.
Proof.
  intro B. assert (E : f64_add (f64_of_Z 2147483647) f_one = f64_of_Z (2 ^ 31)) by (vm_compute; reflexivity). rewrite E.
  destruct (f64_of_Z_exact v ltac:(lia)) as (V & F & R). destruct (f64_of_Z_exact (2 ^ 31) ltac:(lia)) as (V' & F' & R').
  assert (X : rnd (IZR v / IZR (2 ^ 31)) = (IZR v / IZR (2 ^ 31))%R).
  { unfold rnd. apply round_generic; [apply _|]. apply generic_format_FLT. apply (FLT_spec _ _ _ _ (Float radix2 v (-31))); cbn [Defs.Fnum Defs.Fexp]; [|change (radix_val radix2 ^ 53) with (2 ^ 53); lia|lia].
    unfold F2R. cbn [Defs.Fnum Defs.Fexp]. unfold Rdiv. reflexivity. }
  assert (P : (0 < IZR (2 ^ 31))%R) by (apply IZR_lt; lia).
  destruct (f64_div_spec (f64_of_Z v) (f64_of_Z (2 ^ 31)) V F V') as (_ & _ & D); [rewrite R'; lra| |now rewrite D, R, R', X].
  rewrite R, R', X. eapply Rle_lt_trans with 1%R; [|apply (below_max 0); lia].
  rewrite Rabs_pos_eq. 2:{ apply Rmult_le_pos; [apply IZR_le; lia|]. left. now apply Rinv_0_lt_compat. }
  apply (Rmult_le_reg_r (IZR (2 ^ 31))); [exact P|]. unfold Rdiv. rewrite Rmult_assoc, Rinv_l, Rmult_1_r, Rmult_1_l by lra. apply IZR_le. lia.
Qed.
Theorem c76_random : forall env s func, called s func (zs "random") [] -> 0 <= f_rand env <= 2147483647 ->
  yields env s func [] (fun r => exists w, dec_node r w [] /\ f64_R w = (IZR (f_rand env) / IZR (2 ^ 31))%R /\ (0 <= f64_R w < 1)%R).
Proof.
  intros env s func C B. destruct (called_pos _ _ _ _ C) as (p & P).
  set (w := f64_div (f64_of_Z (f_rand env)) (f64_add (f64_of_Z 2147483647) f_one)).
  apply (yields_fresh env s func (with_dec (blank DECIMAL_NUMBER p) w)).
  - enter C. unfold fn_random. rewrite (b_ret _ _ _ _ _ P). fold w. unfold make_decimal. steps. reflexivity.
  - exists w. split; [split; [reflexivity|split; reflexivity]|]. assert (E : f64_R w = (IZR (f_rand env) / IZR (2 ^ 31))%R) by (apply random_value; exact B).
    split; [exact E|]. rewrite E. assert (Q : (0 < IZR (2 ^ 31))%R) by (apply IZR_lt; lia). split.
    + apply Rmult_le_pos; [apply IZR_le; lia|]. left. now apply Rinv_0_lt_compat.
    + apply (Rmult_lt_reg_r (IZR (2 ^ 31))); [exact Q|]. unfold Rdiv. rewrite Rmult_assoc, Rinv_l, Rmult_1_r, Rmult_1_l by lra. apply IZR_lt. lia.
Qed.

(** The pi these angles are computed with is the double nearest to pi: half a
    unit of its last place is 2^-52. *)
Theorem c76_pi : (Rabs (pi64 - PI) <= / IZR (2 ^ 52))%R.
Proof. exact pi_near. Qed.

(** 100grad: the hypotheses of c76_trig hold; the angle is half of M_PI. *)
Example c76_ex : called (call "sin" [num 100 "grad"]) 0%nat (zs "sin") [[2%nat]]
  /\ (exists c, node_at (call "sin" [num 100 "grad"]) 2%nat c /\ number c (inl 100) (zs "grad"))
  /\ f64_valid (f64_of_Z 100) /\ f64_finite (f64_of_Z 100) /\ (Rabs (f64_R (f64_of_Z 100)) <= powerRZ 2 1000)%R
  /\ In (zs "grad") (map fst half_turn)
  /\ (exists c, node_at (call "log" [num 100 ""]) 2%nat c /\ number c (inl 100) [])
  /\ called (call "log" [num 100 ""]) 0%nat (zs "log") [[2%nat]] /\ called (call "random" []) 0%nat (zs "random") []
  /\ called (call "acos" [num 100 "grad"]) 0%nat (zs "acos") [[2%nat]] /\ current_ok (call "log" [num 100 ""]).
Proof.
  destruct (f64_of_Z_exact 100 ltac:(lia)) as (V & F & R).
  split; [exact (call_called "sin" [num 100 "grad"])|]. split; [eexists; split; [vm_compute; reflexivity|constructor; repeat split]|].
  split; [exact V|]. split; [exact F|]. split.
  { rewrite R, Rabs_pos_eq by lra. apply Rle_trans with (powerRZ 2 7); [change (powerRZ 2 7) with (2 ^ 7)%R; rewrite pow_IZR; apply IZR_le; vm_compute; discriminate|]. rewrite <- !bpow_powerRZ. apply bpow_le. lia. }
  split; [cbn; tauto|]. split; [eexists; split; [vm_compute; reflexivity|constructor; repeat split]|].
  split; [exact (call_called "log" [num 100 ""])|]. split; [exact (call_called "random" [])|]. split; [exact (call_called "acos" [num 100 "grad"])|apply call_current].
Qed.

Print Assumptions c76_trig.
