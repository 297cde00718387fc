(** * C57: the calls of functions are checked *)

From Coq Require Import String ZArith List Bool Lia Arith ZifyBool Floats.SpecFloat.
From Verif Require Import Base UnicodeRange NodeHeap Color FloatBits Dim Expr ExprSpec ExprRun Hsl Functions FunctionSpec FunctionRun.
Import ListNotations.
Open Scope string_scope. Open Scope list_scope. Open Scope Z_scope.
Ltac Zify.zify_post_hook ::= idtac.

(** A call with too few or too many parameters is an error. *)
Theorem c57_arity : forall env s func name least greatest args, In (name, least, greatest) arities ->
  called s func (zs name) args -> current_ok s -> ~ (least <= length args <= greatest)%nat -> denied env s func.
Proof.
  intros env s func name least greatest args I C K R. unfold arities in I.
  repeat (destruct I as [I|I]; [injection I as <- <- <-; eapply execute_arity; [exact C|exact K|reflexivity|cbn [t_min t_max]; lia]|]).
  destruct I.
Qed.
Theorem c57_arity_min_max : forall env s func name, In name unbounded ->
  called s func (zs name) [] -> current_ok s -> denied env s func.
Proof.
  intros env s func name I C K.
  repeat (destruct I as [I|I]; [subst name; eapply execute_arity; [exact C|exact K|reflexivity|cbn [t_min t_max length]; lia]|]).
  destruct I.
Qed.

(** The other functions are those of the user. *)
Theorem c57_user : forall env n s func name args, called s func name args ->
  (forall known least greatest, In (known, least, greatest) arities -> name <> zs known) ->
  (forall known, In known unbounded -> name <> zs known) ->
  execute env n func s = bind (f_user env func) (fun r => ret (r, n)) s.
Proof.
  intros env n s func name args C A U. unfold execute. rewrite (b_ret _ _ _ _ _ (called_name s func name args C)).
  assert (F : forall l, (forall e, In e l -> name <> zs (t_name e)) -> find_entry l name = None).
  { induction l as [|e l IH]; intro H; [reflexivity|]. cbn [find_entry].
    destruct (str_eqb name (zs (t_name e))) eqn:E; [apply str_eqb_spec in E; exfalso; exact (H e (or_introl eq_refl) E)|].
    apply IH. intros d D. apply H. now right. }
  rewrite F; [reflexivity|]. intros e I.
  assert (X : forallb (fun e => existsb (fun '(k, _, _) => String.eqb k (t_name e)) arities
                                || existsb (fun k => String.eqb k (t_name e)) unbounded) table = true) by reflexivity.
  rewrite forallb_forall in X. specialize (X e I). apply orb_prop in X as [X|X]; apply existsb_exists in X.
  - destruct X as (((k & a) & b) & J & E). apply String.eqb_eq in E. subst k. exact (A _ _ _ J).
  - destruct X as (k & J & E). apply String.eqb_eq in E. subst k. exact (U _ J).
Qed.

Lemma misfit_not s arg args types n ok : nth_error args n = Some arg -> misfit s arg types -> (forall t, ok t = true -> In t types) ->
  not_of s args n ok.
Proof.
  intros N M H. unfold not_of, arg1. rewrite N. destruct M as [M|(x & c & -> & Hx & M)].
  - left. destruct arg as [|x [|y r]]; [reflexivity|exfalso; apply M; reflexivity|reflexivity].
  - right. exists x, c. split; [reflexivity|]. split; [exact Hx|]. destruct (ok (c_type c)) eqn:E; [|reflexivity]. exfalso. auto.
Qed.
Lemma fails_bind {A} (m : E A) (f : A -> E (option addr)) s x : m s = Ret x s -> fails (f x) s -> fails (bind m f) s.
Proof. intros H (p & t & W). exists p, t. rewrite (b_ret _ _ _ _ _ H). exact W. Qed.

Ltac types := let t := fresh in intros t; destruct t; cbn; intuition discriminate.
(** The first action reads an argument that does not fit. *)
Ltac unfit C M := eapply fails_bind; [eapply (typed_no _ _ _ _ _ 0%nat C); eapply misfit_not; [reflexivity|exact M|types]|].

Lemma fails_convert env s func name arg same a b c t1 t2 : called s func name [arg] -> current_ok s ->
  misfit s arg values -> In same values -> fails (convert env same a b c t1 t2 func) s.
Proof.
  intros C K M I. unfold convert. eapply fails_bind; [exact (run_get_any _ _ _ _ C 0)|].
  destruct M as [M|(x & d & -> & H & M)].
  - unfold arg1. cbn [nth_error]. destruct arg as [|x [|y r]]; [|exfalso; apply M; reflexivity|]; apply fails_wrong; exact K.
  - cbn [arg1 nth_error]. eapply fails_bind; [exact (run_read _ _ _ H)|].
    destruct (ntype_eqb (c_type d) same) eqn:E; [apply ntype_eqb_spec in E; exfalso; apply M; rewrite E; exact I|].
    destruct (c_type d) eqn:T; try (apply fails_wrong; exact K); exfalso; apply M; cbn; tauto.
Qed.
Lemma fails_text env s func name arg same t : called s func name [arg] -> current_ok s ->
  misfit s arg (COLOR :: values) -> In same values -> fails (fn_text env same t func) s.
Proof.
  intros C K M I. unfold fn_text. eapply fails_bind; [exact (run_get_any _ _ _ _ C 0)|].
  destruct M as [M|(x & d & -> & H & M)].
  - unfold arg1. cbn [nth_error]. destruct arg as [|x [|y r]]; [|exfalso; apply M; reflexivity|]; apply fails_wrong; exact K.
  - cbn [arg1 nth_error]. eapply fails_bind; [exact (run_read _ _ _ H)|].
    destruct (ntype_eqb (c_type d) same) eqn:E; [apply ntype_eqb_spec in E; exfalso; apply M; rewrite E; right; exact I|].
    destruct (c_type d) eqn:T; try (apply fails_wrong; exact K); exfalso; apply M; cbn; tauto.
Qed.
Lemma fails_exists env global kind t s func name arg : called s func name [arg] -> current_ok s ->
  misfit s arg [STRING; IDENTIFIER] -> fails (fn_exists env global kind t func) s.
Proof.
  intros C K M. unfold fn_exists, get_name. eapply fails_bind.
  - rewrite (b_ret _ _ _ _ _ (typed_no _ _ _ _ (fun t => ntype_eqb t IDENTIFIER || ntype_eqb t STRING) 0%nat C ltac:(eapply misfit_not; [reflexivity|exact M|types]))).
    reflexivity.
  - apply fails_wrong; exact K.
Qed.
Lemma fails_number s func name arg (f : option (addr * f64) -> E (option addr)) : called s func name [arg] ->
  misfit s arg numbers -> fails (f None) s -> fails (bind (get_number func 0) f) s.
Proof.
  intros C M F. eapply fails_bind; [|exact F]. unfold get_number.
  rewrite (b_ret _ _ _ _ _ (typed_no _ _ _ _ (fun t => ntype_eqb t INTEGER || ntype_eqb t DECIMAL_NUMBER) 0%nat C ltac:(eapply misfit_not; [reflexivity|exact M|types]))).
  reflexivity.
Qed.
Lemma fails_number_or_percent s func name arg (f : option (addr * f64) -> E (option addr)) : called s func name [arg] ->
  misfit s arg (PERCENT :: numbers) -> fails (f None) s -> fails (bind (get_number_or_percent func 0) f) s.
Proof.
  intros C M F. eapply fails_bind; [|exact F]. unfold get_number_or_percent.
  rewrite (b_ret _ _ _ _ _ (typed_no _ _ _ _ (fun t => ntype_eqb t INTEGER || ntype_eqb t DECIMAL_NUMBER || ntype_eqb t PERCENT) 0%nat C ltac:(eapply misfit_not; [reflexivity|exact M|types]))).
  reflexivity.
Qed.
Lemma fails_color s func name arg (f : option (addr * color) -> E (option addr)) : called s func name [arg] ->
  misfit s arg [COLOR] -> fails (f None) s -> fails (bind (get_color_arg func 0) f) s.
Proof.
  intros C M F. eapply fails_bind; [|exact F]. unfold get_color_arg.
  rewrite (b_ret _ _ _ _ _ (typed_no _ _ _ _ (fun t => ntype_eqb t COLOR) 0%nat C ltac:(eapply misfit_not; [reflexivity|exact M|types]))).
  reflexivity.
Qed.
Lemma fails_string s func name arg (f : option (addr * str) -> E (option addr)) : called s func name [arg] ->
  misfit s arg [STRING] -> fails (f None) s -> fails (bind (get_string_arg func 0) f) s.
Proof.
  intros C M F. eapply fails_bind; [|exact F]. unfold get_string_arg.
  rewrite (b_ret _ _ _ _ _ (typed_no _ _ _ _ (fun t => ntype_eqb t STRING) 0%nat C ltac:(eapply misfit_not; [reflexivity|exact M|types]))).
  reflexivity.
Qed.

Theorem c57_type : forall env s func name types arg, In (name, types) parameter ->
  called s func (zs name) [arg] -> current_ok s -> misfit s arg types -> denied env s func.
Proof.
  intros env s func name types arg I C K M.
  assert (X : name = "function_exists" \/ name <> "function_exists") by (destruct (string_dec name "function_exists"); auto).
  destruct X as [->|X].
  - assert (types = [STRING; IDENTIFIER]) as ->.
    { unfold parameter in I. repeat (destruct I as [I|I]; [first [discriminate I|injection I as <-; reflexivity]|]). destruct I. }
    intro n. unfold execute. rewrite (b_ret _ _ _ _ _ (called_name s func _ _ C)). 
    assert (G : get_name func 0 s = Ret None s).
    { unfold get_name.
      rewrite (b_ret _ _ _ _ _ (typed_no _ _ _ _ (fun t => ntype_eqb t IDENTIFIER || ntype_eqb t STRING) 0%nat C ltac:(eapply misfit_not; [reflexivity|exact M|types]))).
      reflexivity. }
    destruct (fails_exists env true function_kind "function_exists() expects a string or an identifier as parameter." s func _ arg C K M) as (p & t & W).
    match goal with |- context [find_entry table ?x] =>
      replace (find_entry table x) with (Some (mkEntry "function_exists" 1 1 (plain (fun env => fn_exists env true function_kind "function_exists() expects a string or an identifier as parameter.")))) by reflexivity end.
    cbv iota. rewrite (b_ret _ _ _ _ _ (called_size s func _ _ C)). cbn [length t_min t_max]. change ((1 <=? Z.of_nat 1) && (Z.of_nat 1 <=? 1)) with true. cbv iota.
    rewrite str_eqb_refl. rewrite bind_assoc, (b_ret _ _ _ _ _ G), bind_ret. cbv iota. cbn [t_run]. unfold plain.
    eexists _, _. split; [unfold bind; rewrite W; reflexivity|]. split; [reflexivity|]. split; [reflexivity|]. intros a c H. exact H.
  - unfold parameter in I.
    repeat (destruct I as [I|I];
      [injection I as <- <-;
       first [congruence|
         eapply denied_plain; [exact C|reflexivity|unfold simple; reflexivity|cbn [t_min t_max length]; lia|reflexivity|];
         first [eapply fails_number; [exact C|exact M|apply fails_wrong; exact K]
               |eapply fails_number_or_percent; [exact C|exact M|apply fails_wrong; exact K]
               |eapply fails_color; [exact C|exact M|apply fails_wrong; exact K]
               |eapply fails_string; [exact C|exact M|apply fails_wrong; exact K]
               |eapply fails_exists; [exact C|exact K|exact M]
               |eapply fails_convert; [exact C|exact K|exact M|cbn; tauto]
               |eapply fails_text; [exact C|exact K|exact M|cbn; tauto]]]|]).
    destruct I.
Qed.

(** The colour functions with several numbers. *)
Lemma pick_number s func name args n x c v u : called s func name args -> nth_error args n = Some [x] -> node_at s x c -> number c v u ->
  get_number func (Z.of_nat n) s = Ret (Some (x, as_double v)) s.
Proof.
  intros C N H V. unfold get_number, number_value.
  erewrite b_ret; [|eapply (run_get_typed s func name args C _ n x c); [unfold arg1; rewrite N; reflexivity|exact H]].
  assert (Y : forall t, t = INTEGER \/ t = DECIMAL_NUMBER -> ntype_eqb t INTEGER || ntype_eqb t DECIMAL_NUMBER = true) by (intros t [->| ->]; reflexivity).
  destruct V as [c v u (T & I & U)|c v u (T & I & U)]; rewrite Y by auto; cbv iota; step; step; rewrite T; cbn [ntype_eqb].
  - change (ntype_eqb INTEGER INTEGER) with true. cbv iota. subst. steps. reflexivity.
  - change (ntype_eqb DECIMAL_NUMBER INTEGER) with false. cbv iota. subst. steps. reflexivity.
Qed.
Lemma pick_no_number s func name args n arg : called s func name args -> nth_error args n = Some arg -> misfit s arg numbers ->
  get_number func (Z.of_nat n) s = Ret None s.
Proof.
  intros C N M. unfold get_number.
  rewrite (b_ret _ _ _ _ _ (typed_no _ _ _ _ (fun t => ntype_eqb t INTEGER || ntype_eqb t DECIMAL_NUMBER) n C ltac:(eapply misfit_not; [exact N|exact M|types]))).
  reflexivity.
Qed.
Lemma pick_absent s func name args n : called s func name args -> nth_error args n = None -> get_number func (Z.of_nat n) s = Ret None s.
Proof.
  intros C N. unfold get_number. rewrite (b_ret _ _ _ _ _ (run_get_typed_none s func name args C _ n ltac:(unfold arg1; rewrite N; reflexivity))). reflexivity.
Qed.
(** Reading a number never changes anything. *)
Lemma pick_any s func name args n : called s func name args ->
  exists o, get_number func (Z.of_nat n) s = Ret o s.
Proof.
  intros C. destruct (nth_error args n) as [arg|] eqn:N; [|exists None; exact (pick_absent s func name args n C N)].
  destruct arg as [|x [|y r]]; [exists None; eapply pick_no_number; eauto; left; cbn; lia| |exists None; eapply pick_no_number; eauto; left; cbn; lia].
  destruct (called_node s func name args C n [x] x N (or_introl eq_refl)) as (c & H).
  destruct (in_dec ntype_eq_dec (c_type c) numbers) as [I|I]; [|exists None; eapply pick_no_number; eauto; right; exists x, c; auto].
  destruct I as [I|[I|[]]]; symmetry in I.
  - exists (Some (x, as_double (inl (c_int c)))). eapply pick_number; eauto. apply number_int. split; [exact I|split; reflexivity].
  - exists (Some (x, as_double (inr (c_dec c)))). eapply pick_number; eauto. apply number_dec. split; [exact I|split; reflexivity].
Qed.

Lemma pick_color_no s func name args n arg : called s func name args -> nth_error args n = Some arg -> misfit s arg [COLOR] ->
  get_color_arg func (Z.of_nat n) s = Ret None s.
Proof.
  intros C N M. unfold get_color_arg.
  rewrite (b_ret _ _ _ _ _ (typed_no _ _ _ _ (fun t => ntype_eqb t COLOR) n C ltac:(eapply misfit_not; [exact N|exact M|types]))).
  reflexivity.
Qed.
(** Same as [pick_any] with the value [None] when the argument is not a number. *)
Lemma pick_cases s func name args n arg : called s func name args -> nth_error args n = Some arg ->
  exists o, get_number func (Z.of_nat n) s = Ret o s /\ (misfit s arg numbers -> o = None).
Proof.
  intros C N. destruct (pick_any s func name args n C) as (o & O). exists o. split; [exact O|]. intro M.
  rewrite (pick_no_number s func name args n arg C N M) in O. injection O as <-. reflexivity.
Qed.
Lemma pick_percent s func name args n arg : called s func name args -> nth_error args n = Some arg ->
  exists o, get_number_or_percent func (Z.of_nat n) s = Ret o s /\ (misfit s arg (PERCENT :: numbers) -> o = None).
Proof.
  intros C N.
  assert (D : misfit s arg (PERCENT :: numbers) -> get_number_or_percent func (Z.of_nat n) s = Ret None s).
  { intro M. unfold get_number_or_percent.
    rewrite (b_ret _ _ _ _ _ (typed_no _ _ _ _ (fun t => ntype_eqb t INTEGER || ntype_eqb t DECIMAL_NUMBER || ntype_eqb t PERCENT) n C ltac:(eapply misfit_not; [exact N|exact M|types]))).
    reflexivity. }
  assert (X : misfit s arg (PERCENT :: numbers) \/ exists x c, arg = [x] /\ node_at s x c /\ In (c_type c) (PERCENT :: numbers)).
  { destruct arg as [|x [|y r]]; [left; left; cbn; lia| |left; left; cbn; lia].
    destruct (called_node s func name args C n [x] x N (or_introl eq_refl)) as (c & H).
    destruct (in_dec ntype_eq_dec (c_type c) (PERCENT :: numbers)) as [I|I]; [right|left; right]; exists x, c; auto. }
  destruct X as [M|(x & c & -> & H & I)]; [exists None; auto|].
  assert (exists o, get_number_or_percent func (Z.of_nat n) s = Ret (Some o) s) as (o & O).
  { unfold get_number_or_percent, number_value.
    erewrite b_ret; [|eapply (run_get_typed s func name args C _ n x c); [unfold arg1; rewrite N; reflexivity|exact H]].
    destruct I as [I|[I|[I|[]]]]; symmetry in I; rewrite I; eexists.
    - change (ntype_eqb PERCENT INTEGER || ntype_eqb PERCENT DECIMAL_NUMBER || ntype_eqb PERCENT PERCENT) with true. cbv iota. step. step. rewrite I.
      change (ntype_eqb PERCENT INTEGER) with false. cbv iota. steps. reflexivity.
    - change (ntype_eqb INTEGER INTEGER || ntype_eqb INTEGER DECIMAL_NUMBER || ntype_eqb INTEGER PERCENT) with true. cbv iota. step. step. rewrite I.
      change (ntype_eqb INTEGER INTEGER) with true. cbv iota. steps. reflexivity.
    - change (ntype_eqb DECIMAL_NUMBER INTEGER || ntype_eqb DECIMAL_NUMBER DECIMAL_NUMBER || ntype_eqb DECIMAL_NUMBER PERCENT) with true. cbv iota. step. step. rewrite I.
      change (ntype_eqb DECIMAL_NUMBER INTEGER) with false. cbv iota. steps. reflexivity. }
  exists (Some o). split; [exact O|]. intro M. rewrite (D M) in O. discriminate O.
Qed.
Lemma misfit_color s arg : misfit s arg (COLOR :: numbers) -> misfit s arg [COLOR].
Proof. intros [M|(x & c & E & H & M)]; [left; exact M|right; exists x, c; cbn in *; tauto]. Qed.
Lemma misfit_numbers s arg : misfit s arg (COLOR :: numbers) -> misfit s arg numbers.
Proof. intros [M|(x & c & E & H & M)]; [left; exact M|right; exists x, c; cbn in *; tauto]. Qed.

(** rgb(), frgb(): the red must be a number (or a colour); when it is not a
    colour, the green and the blue must be numbers too. *)
Theorem c57_rgb : forall env s func name red green blue, In name ["rgb"; "frgb"] ->
  called s func (zs name) [red; green; blue] -> current_ok s ->
  misfit s red (COLOR :: numbers) \/ misfit s red [COLOR] /\ (misfit s green numbers \/ misfit s blue numbers) -> denied env s func.
Proof.
  intros env s func name red green blue I C K M.
  assert (F : forall scale t, fails (fn_rgb scale t func) s).
  { intros scale t. unfold fn_rgb. eapply fails_bind; [eapply (pick_color_no s func _ _ 0 red C eq_refl)|].
    { destruct M as [M|(M & _)]; [exact (misfit_color _ _ M)|exact M]. }
    destruct (pick_cases s func _ _ 0 red C eq_refl) as (r & R & Mr).
    destruct (pick_cases s func _ _ 1 green C eq_refl) as (g & G & Mg).
    destruct (pick_cases s func _ _ 2 blue C eq_refl) as (b & B & Mb).
    eapply fails_bind; [exact R|]. eapply fails_bind; [exact G|]. eapply fails_bind; [exact B|].
    assert (r = None \/ g = None \/ b = None) as X.
    { destruct M as [M|(_ & [M|M])]; [left; apply Mr; exact (misfit_numbers _ _ M)|right; left; auto|right; right; auto]. }
    destruct r as [(? & ?)|], g as [(? & ?)|], b as [(? & ?)|]; try (apply fails_wrong; exact K).
    exfalso. destruct X as [X|[X|X]]; discriminate X. }
  repeat (destruct I as [I|I]; [subst name; eapply denied_plain; [exact C|reflexivity|unfold simple; reflexivity|cbn [t_min t_max length]; lia|reflexivity|apply F]|]).
  destruct I.
Qed.
(** hsl(), hsla(): the angle and the alpha are numbers, the others may be percents. *)
Theorem c57_hsl : forall env s func args, 
  (called s func (zs "hsl") args /\ length args = 3%nat) \/ (called s func (zs "hsla") args /\ length args = 4%nat) ->
  current_ok s ->
  (exists arg, nth_error args 0 = Some arg /\ misfit s arg numbers)
  \/ (exists arg, nth_error args 1 = Some arg /\ misfit s arg (PERCENT :: numbers))
  \/ (exists arg, nth_error args 2 = Some arg /\ misfit s arg (PERCENT :: numbers))
  \/ (exists arg, nth_error args 3 = Some arg /\ misfit s arg numbers) -> denied env s func.
Proof.
  intros env s func args D K M.
  assert (F : forall name t, called s func name args -> (3 <= length args)%nat -> fails (fn_hsl (3 <? Z.of_nat (length args)) t func) s).
  { intros name t C L. unfold fn_hsl.
    destruct args as [|a0 [|a1 [|a2 rest]]]; cbn [length] in L; try lia.
    destruct (pick_cases s func _ _ 0 a0 C eq_refl) as (h & H0 & M0).
    destruct (pick_percent s func _ _ 1 a1 C eq_refl) as (sa & H1 & M1).
    destruct (pick_percent s func _ _ 2 a2 C eq_refl) as (l & H2 & M2).
    eapply fails_bind; [exact H0|]. eapply fails_bind; [exact H1|]. eapply fails_bind; [exact H2|].
    assert (exists al, (if 3 <? Z.of_nat (length (a0 :: a1 :: a2 :: rest)) then get_number func 3 else ret (Some (func, f_one))) s = Ret al s
       /\ ((exists arg, nth_error (a0 :: a1 :: a2 :: rest) 3 = Some arg /\ misfit s arg numbers) -> al = None)) as (al & H3 & M3).
    { destruct rest as [|a3 rest].
      - exists (Some (func, f_one)). split; [reflexivity|]. intros (arg & N & _). discriminate N.
      - destruct (pick_cases s func _ _ 3 a3 C eq_refl) as (al & H3 & M3). exists al.
        replace (3 <? Z.of_nat (length (a0 :: a1 :: a2 :: a3 :: rest))) with true by (cbn [length]; lia).
        split; [exact H3|]. intros (arg & N & X). injection N as <-. auto. }
    eapply fails_bind; [exact H3|].
    assert (h = None \/ sa = None \/ l = None \/ al = None) as X.
    { destruct M as [(x & N & M)|[(x & N & M)|[(x & N & M)|M]]]; [injection N as <-; auto..|auto]. }
    destruct h as [(? & ?)|], sa as [(? & ?)|], l as [(? & ?)|], al as [(? & ?)|]; try (apply fails_wrong; exact K).
    exfalso. destruct X as [X|[X|[X|X]]]; discriminate X. }
  destruct D as [(C & L)|(C & L)].
  - eapply denied_plain; [exact C|reflexivity|unfold simple; reflexivity|cbn [t_min t_max]; lia|reflexivity|].
    specialize (F _ "hsl() expects exactly three numbers: Hue (angle), Saturation (%), and Lightness (%)." C ltac:(lia)). rewrite L in F. exact F.
  - eapply denied_plain; [exact C|reflexivity|unfold simple; reflexivity|cbn [t_min t_max]; lia|reflexivity|].
    specialize (F _ "hsla() expects exactly four numbers: Hue (angle), Saturation (%), Lightness (%), and Alpha (0.0 to 1.0)." C ltac:(lia)). rewrite L in F. exact F.
Qed.

(** Concrete calls. *)
Lemma call_called name l : called (call name l) 0%nat (zs name) (places l).
Proof.
  eexists. split; [reflexivity|]. split; [reflexivity|]. split; [reflexivity|]. cbn [c_ch with_ch]. unfold places.
  assert (G : forall k i, (1 <= i)%nat -> (i + k = S (length l))%nat ->
    Forall2 (fun a x => (exists d, node_at (call name l) a d /\ c_type d = ARG /\ c_ch d = x)
                        /\ forall y, In y x -> exists e, node_at (call name l) y e) (seq i k) (map (fun i => [(i + length l)%nat]) (seq i k))).
  { induction k as [|k IH]; intros i I L; cbn [seq map]; constructor; [|apply IH; lia]. split.
    - exists (with_ch (ExprSpec.plain ARG) [(i + length l)%nat]). split; [|split; reflexivity]. unfold node_at, call. cbn [e_heap].
      destruct i as [|i]; [lia|]. cbn [nth_error]. rewrite nth_error_app1 by (rewrite map_length, seq_length; lia).
      rewrite nth_error_map, (nth_error_nth' _ 0%nat) by (rewrite seq_length; lia). rewrite seq_nth by lia. reflexivity.
    - intros y [<-|[]]. destruct (nth_error l (i - 1)) as [e|] eqn:E; [|apply nth_error_None in E; lia].
      exists e. unfold node_at, call. cbn [e_heap]. replace (i + length l)%nat with (S ((i - 1) + length l)) by lia. cbn [nth_error].
      rewrite nth_error_app2 by (rewrite map_length, seq_length; lia). rewrite map_length, seq_length.
      replace (i - 1 + length l - length l)%nat with (i - 1)%nat by lia. exact E. }
  apply (G (length l) 1%nat); lia.
Qed.
Lemma call_current name l : current_ok (call name l).
Proof. eexists 0%nat, _. split; reflexivity. Qed.

Example c57_ex :
  called (call "abs" [num 1 ""; num 2 ""]) 0%nat (zs "abs") (places [num 1 ""; num 2 ""])
  /\ denied trivial_env (call "abs" [num 1 ""; num 2 ""]) 0%nat
  /\ called (call "red" [text "x"]) 0%nat (zs "red") [[2%nat]] /\ misfit (call "red" [text "x"]) [2%nat] [COLOR]
  /\ denied trivial_env (call "red" [text "x"]) 0%nat
  /\ denied trivial_env (call "rgb" [num 1 ""; num 2 ""; text "x"]) 0%nat
  /\ denied trivial_env (call "hsl" [num 1 ""; text "y"; num 2 ""]) 0%nat.
Proof.
  assert (M : forall s x v types, node_at s x v -> ~ In (c_type v) types -> misfit s [x] types) by (intros s x v ty H N; right; exists x, v; auto).
  assert (R : misfit (call "red" [text "x"]) [2%nat] [COLOR]) by (eapply M; [reflexivity|cbn; intuition discriminate]).
  split; [apply call_called|]. split; [eapply (c57_arity _ _ _ "abs" 1 1); [cbn; tauto|apply call_called|apply call_current|cbn; lia]|].
  split; [exact (call_called "red" [text "x"])|]. split; [exact R|].
  split; [eapply c57_type; [|exact (call_called "red" [text "x"])|apply call_current|exact R]; cbn; tauto|].
  split.
  - eapply (c57_rgb _ _ _ "rgb" [4%nat] [5%nat] [6%nat]); [cbn; tauto|exact (call_called "rgb" [num 1 ""; num 2 ""; text "x"])|apply call_current|].
    right. split; [eapply M; [reflexivity|cbn; intuition discriminate]|]. right. eapply M; [reflexivity|cbn; intuition discriminate].
  - eapply (c57_hsl _ _ _ [[4%nat]; [5%nat]; [6%nat]]); [left; split; [exact (call_called "hsl" [num 1 ""; text "y"; num 2 ""])|reflexivity]|apply call_current|].
    right. left. exists [5%nat]. split; [reflexivity|]. eapply M; [reflexivity|cbn; intuition discriminate].
Qed.

(** Not every parameter is checked: rgb() accepts a colour followed by
    anything, and gives the colour. *)
Definition red_color : cell := with_color (ExprSpec.plain COLOR) (mkColor (f32_of_Z 1) (f32_of_Z 0) (f32_of_Z 0) (f32_of_Z 1)).
Theorem c57_rgb_refuted : let s := call "rgb" [red_color; text "x"; text "y"] in
  execute trivial_env 0 0%nat s = Ret (Some 4%nat, 0) s /\ node_at s 4%nat red_color /\ e_msgs s = [].
Proof. split; [vm_compute; reflexivity|split; reflexivity]. Qed.
