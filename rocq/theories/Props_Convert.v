(** * C60, C61: conversions between texts and numbers, and unique_id() *)

From Coq Require Import String ZArith List Bool Lia Arith ZifyBool Floats.SpecFloat.
From Verif Require Lexer LexSpec Props_Round.
From Verif Require Import Base Utf8Spec TextSpec UnicodeRange DecText NodeHeap NodeProofs Color FloatBits Dim Expr ExprSpec ExprRun Hsl Functions FunctionSpec FunctionRun
  Props_Functions Props_Math.
Import ListNotations.
Open Scope string_scope. Open Scope list_scope. Open Scope Z_scope.
Ltac Zify.zify_post_hook ::= idtac.

Definition text_node (t : ntype) (c : cell) (s : str) : Prop := c_type c = t /\ c_str c = s.

(** ** str_length(): the number of characters *)
Lemma length_utf8 c rest : scalar c -> c <> 0 -> utf8_length (utf8 c ++ rest) = 1 + utf8_length rest.
Proof.
  intros S N.
  assert (M : forall x, 0 <= x mod 64 < 64) by (intro; apply Z.mod_pos_bound; lia).
  assert (K : forall x, (128 + x mod 64 =? 0) = false /\ ((128 + x mod 64 <? 128) || (192 <=? 128 + x mod 64)) = false).
  { intro x. pose proof (M x). split; [lia|]. replace (128 + x mod 64 <? 128) with false by lia. replace (192 <=? 128 + x mod 64) with false by lia. reflexivity. }
  assert (D : scalar c -> 0 <= c < 1114112) by (unfold scalar; lia). specialize (D S).
  unfold utf8. destruct (c <? 128) eqn:E1; [|destruct (c <? 2048) eqn:E2; [|destruct (c <? 65536) eqn:E3]]; cbn [app utf8_length].
  - replace (c =? 0) with false by lia. rewrite E1. reflexivity.
  - assert (0 <= c / 64) by (apply Z.div_pos; lia).
    replace (192 + c / 64 =? 0) with false by lia. replace (192 <=? 192 + c / 64) with true by lia. rewrite orb_true_r.
    destruct (K c) as (-> & ->). lia.
  - assert (0 <= c / 4096) by (apply Z.div_pos; lia).
    replace (224 + c / 4096 =? 0) with false by lia. replace (192 <=? 224 + c / 4096) with true by lia. rewrite orb_true_r.
    destruct (K c) as (-> & ->). destruct (K (c / 64)) as (-> & ->). lia.
  - assert (0 <= c / 262144) by (apply Z.div_pos; lia).
    replace (240 + c / 262144 =? 0) with false by lia. replace (192 <=? 240 + c / 262144) with true by lia. rewrite orb_true_r.
    destruct (K c) as (-> & ->). destruct (K (c / 64)) as (-> & ->). destruct (K (c / 4096)) as (-> & ->). lia.
Qed.
Lemma length_utf8s l : Forall (fun c => scalar c /\ c <> 0) l -> utf8_length (utf8s l) = Z.of_nat (length l).
Proof.
  induction 1 as [|c l (A & B) F IH]; [reflexivity|]. cbn [utf8s flat_map]. fold (utf8s l). rewrite (length_utf8 c (utf8s l) A B), IH. cbn [length]. lia.
Qed.
Lemma run_get_string s func name x c : called s func name [[x]] -> node_at s x c -> c_type c = STRING -> get_string_arg func 0 s = Ret (Some (x, c_str c)) s.
Proof.
  intros C H T. unfold get_string_arg. rewrite (b_ret _ _ _ _ _ (run_get_typed s func _ _ C _ 0 x c eq_refl H)). rewrite T.
  change (ntype_eqb STRING STRING) with true. cbv iota. step. reflexivity.
Qed.
Theorem c60_str_length : forall env s func x c l, called s func (zs "str_length") [[x]] -> node_at s x c -> text_node STRING c (utf8s l) ->
  Forall (fun c => scalar c /\ c <> 0) l -> yields env s func [] (fun r => int_node r (Z.of_nat (length l)) []).
Proof.
  intros env s func x c l C H (T & U) F. destruct C as (cf & Hf & C'). assert (C : called s func (zs "str_length") [[x]]) by (exists cf; auto).
  eapply (yields_fresh _ _ _ (with_int (blank INTEGER (c_pos cf)) (Z.of_nat (length l)))); [|split; [reflexivity|split; reflexivity]].
  enter C. unfold fn_str_length. rewrite (b_ret _ _ _ _ _ (run_get_string s func _ x c C H T)). cbv iota beta.
  rewrite U, (length_utf8s l F). steps. reflexivity.
Qed.

(** ** integer() of a text: an optional sign, digits, an optional unit. *)
Lemma same_state s : with_msgs s (e_msgs s ++ []) = s.
Proof. destruct s. cbn. now rewrite app_nil_r. Qed.
Lemma run_first env s t p tok rest : LexSpec.reads_token (f_libm env) t p tok rest -> n_type tok <> WHITESPACE -> first_number env t p s = Ret tok s.
Proof.
  intros (l & E & L & _) N. unfold first_number. rewrite E. unfold is. rewrite (proj2 (ntype_eqb_neq _ _) N), L, same_state. reflexivity.
Qed.
Definition signs : list str := [[]; zs "+"; zs "-"].
Theorem c60_integer_text : forall env s func x c kind sign ds u, called s func (zs "integer") [[x]] -> node_at s x c ->
  In kind [STRING; IDENTIFIER; URL] -> text_node kind c (sign ++ ds ++ utf8s u) -> In sign signs -> ds <> [] -> Forall digit ds -> decimal ds < 2 ^ 63 -> unit_between u [] ->
  yields env s func [] (fun r => int_node r (if list_eq_dec Z.eq_dec sign (zs "-") then - decimal ds else decimal ds) (utf8s (map lower_char u))).
Proof.
  intros env s func x c kind sign ds u C H Ik (T & U) Is Nd Fd B Un.
  destruct (Props_Round.c08_integers (f_libm env) sign ds u [] (c_pos c)) as (tok & R & T1 & T2 & T3); auto; [|lia|].
  { cbn in Is. destruct Is as [<-|[<-|[<-|[]]]]; auto. }
  cbn [utf8s flat_map] in R. rewrite !app_nil_r in R.
  eapply (yields_fresh _ _ _ (mkCell (n_type tok) (n_pos tok) (n_bool tok) (n_int tok) (n_dec tok) (n_str tok) (n_low tok) [] [] [])).
  - enter C. unfold fn_integer, convert. rewrite (b_ret _ _ _ _ _ (run_get_any _ _ _ _ C 0)). cbn [arg1 nth_error]. step.
    assert (E : ntype_eqb (c_type c) INTEGER = false) by (rewrite T; cbn in Ik; destruct Ik as [<-|[<-|[<-|[]]]]; reflexivity). rewrite E.
    assert (G : (n <- first_number env (c_str c) (c_pos c) ;;
                 let d := mkCell (n_type n) (n_pos n) (n_bool n) (n_int n) (n_dec n) (n_str n) (n_low n) [] [] [] in
                 if is n INTEGER then r <- token_node n ;; ret (Some r)
                 else match n_type n with
                      | DECIMAL_NUMBER => integer_of_decimal (c_pos c) d
                      | PERCENT => integer_of_percent (c_pos c) d
                      | INTEGER => never (c_pos c) d
                      | _ => wrong "decimal_number() expects a string parameter to represent a valid integer, decimal number, or percent value."
                      end) s = Ret (Some (new_addr s)) (fresh s (mkCell (n_type tok) (n_pos tok) (n_bool tok) (n_int tok) (n_dec tok) (n_str tok) (n_low tok) [] [] []))).
    { rewrite (b_ret _ _ _ _ _ (run_first env s (c_str c) (c_pos c) tok [] ltac:(rewrite U; exact R) ltac:(rewrite T1; discriminate))).
      cbv zeta. unfold is. rewrite T1. change (ntype_eqb INTEGER INTEGER) with true. cbv iota. unfold token_node, bind, ret. rewrite T1. reflexivity. }
    rewrite T in *. cbn in Ik. destruct Ik as [<-|[<-|[<-|[]]]]; exact G.
  - split; [exact T1|]. split; [cbn [c_int]; exact T2|exact T3].
Qed.

(** ** string() and identifier() of an integer: the digits and the unit; the
    sign + when the number was written with a sign. *)
Definition integer_text (v : Z) (plus : bool) (u t : str) : Prop :=
  exists ds, t = (if v <? 0 then zs "-" else if plus then zs "+" else []) ++ ds ++ u /\ ds <> [] /\ Forall digit ds /\ decimal ds = Z.abs v
    /\ (v <> 0 -> first ds <> 48) /\ (v = 0 -> ds = zs "0").
Lemma int_text_is v : Z.abs v <= 2 ^ 63 -> exists ds, int_text v = (if v <? 0 then zs "-" else []) ++ ds /\ ds <> [] /\ Forall digit ds /\ decimal ds = Z.abs v
    /\ (v <> 0 -> first ds <> 48) /\ (v = 0 -> ds = zs "0").
Proof.
  intro B. exists (nat_text (Z.abs v)). destruct (nat_text_spec (Z.abs v)) as (A1 & A2 & A3 & A4 & A5).
  { split; [lia|]. apply Z.le_lt_trans with (2 ^ 63); [exact B|reflexivity]. }
  unfold int_text. split; [destruct (v <? 0) eqn:E; [replace (Z.abs v) with (- v) by lia|replace (Z.abs v) with v by lia]; reflexivity|].
  split; [exact A3|]. split; [exact A1|]. split; [exact A2|]. split; [intro; apply A4; lia|intros ->; apply A5; reflexivity].
Qed.
Theorem c60_text : forall env s func name kind x c v u, In (name, kind) [("string", STRING); ("identifier", IDENTIFIER)] ->
  called s func (zs name) [[x]] -> node_at s x c -> int_node c v u -> int64_ok v = true ->
  yields env s func [] (fun r => exists t, text_node kind r t /\ integer_text v (c_bool c) u t).
Proof.
  intros env s func name kind x c v u I C H (T & V & U) B.
  set (t := (if c_bool c && (0 <=? v) then zs "+" else []) ++ int_text v ++ u).
  assert (G : forall bad, fn_text env kind bad func s = Ret (Some (new_addr s)) (fresh s (with_str (blank kind (c_pos c)) t))).
  { intro bad. unfold fn_text. rewrite (b_ret _ _ _ _ _ (run_get_any _ _ _ _ C 0)). cbn [arg1 nth_error]. step. rewrite T.
    replace (ntype_eqb INTEGER kind) with false by (cbn in I; destruct I as [I|[I|[]]]; injection I as <- <-; reflexivity).
    unfold number_text. rewrite T, V, U. fold t. rewrite bind_ret. cbn in I; destruct I as [I|[I|[]]]; injection I as <- <-; steps; reflexivity. }
  eapply (yields_fresh _ _ _ (with_str (blank kind (c_pos c)) t)).
  - cbn in I. destruct I as [I|[I|[]]]; injection I as <- <-; enter C; apply G.
  - exists t. split; [split; reflexivity|]. destruct (int_text_is v) as (ds & E & D1 & D2 & D3 & D4 & D5); [unfold int64_ok in B; lia|].
    exists ds. split; [|auto]. unfold t. rewrite E. destruct (v <? 0) eqn:S; [replace (0 <=? v) with false by lia; rewrite andb_false_r|replace (0 <=? v) with true by lia; rewrite andb_true_r]; cbn [app]; rewrite <- ?app_assoc; [reflexivity|]; destruct (c_bool c); reflexivity.
Qed.
(** ... which integer() reads back, whatever the sign and the unit (written in
    small letters). *)
Theorem c60_back : forall env s func x c v u, called s func (zs "string") [[x]] -> node_at s x c -> int_node c v (utf8s u) -> - 2 ^ 63 < v < 2 ^ 63 ->
  unit_between u [] -> map lower_char u = u ->
  yields env s func [] (fun r => forall env' s' func' x', called s' func' (zs "integer") [[x']] -> node_at s' x' r ->
    yields env' s' func' [] (fun q => int_node q v (utf8s u))).
Proof.
  intros env s func x c v u C H N B Un Lo n.
  assert (OK : int64_ok v = true) by (unfold int64_ok; change (2 ^ 63) with 9223372036854775808 in *; lia).
  destruct (c60_text env s func "string" STRING x c v (utf8s u) ltac:(now left) C H N OK n) as (r & s1 & q & E1 & E2 & (t & Tt & ds & E & D1 & D2 & D3 & D4) & E3 & E4).
  exists r, s1, q. split; [exact E1|]. split; [exact E2|]. split; [|split; [exact E3|exact E4]].
  intros env' s' func' x' C' H' m.
  set (sg := if v <? 0 then zs "-" else if c_bool c then zs "+" else []) in *.
  assert (Is : In sg signs) by (unfold sg; destruct (v <? 0); [cbn; tauto|destruct (c_bool c); cbn; tauto]).
  rewrite E in Tt.
  pose proof (c60_integer_text env' s' func' x' q STRING sg ds u C' H' ltac:(now left) Tt Is D1 D2 ltac:(lia) Un) as Y.
  assert (W : (if list_eq_dec Z.eq_dec sg (zs "-") then - decimal ds else decimal ds) = v).
  { unfold sg. destruct (v <? 0) eqn:S.
    - match goal with |- context [if ?b then _ else _] => destruct b as [X|X] end; [lia|exfalso; apply X; reflexivity].
    - match goal with |- context [if ?b then _ else _] => destruct b as [X|X] end; [exfalso; destruct (c_bool c); discriminate X|lia]. }
  rewrite W, Lo in Y. exact (Y m).
Qed.
(** A decimal number written with a sign: the text of string() starts with the
    sign +, even when the number is negative. *)
Theorem c60_sign_refuted : forall env s func x c, called s func (zs "string") [[x]] -> node_at s x c -> c_type c = DECIMAL_NUMBER -> c_bool c = true -> c_int c = 0 ->
  yields env s func [] (fun r => text_node STRING r (zs "+" ++ f_show env (c_dec c) ++ c_str c)).
Proof.
  intros env s func x c C H T B I.
  eapply (yields_fresh _ _ _ (with_str (blank STRING (c_pos c)) (zs "+" ++ f_show env (c_dec c) ++ c_str c))); [|split; reflexivity].
  enter C. unfold fn_string, fn_text. rewrite (b_ret _ _ _ _ _ (run_get_any _ _ _ _ C 0)). cbn [arg1 nth_error]. step. rewrite T.
  change (ntype_eqb DECIMAL_NUMBER STRING) with false. cbv iota. unfold number_text. rewrite T, B, I. change (true && (0 <=? 0)) with true. cbv iota. steps. reflexivity.
Qed.
(** Such a node is what the lexer makes of -1.5: *)
Example c60_sign_ex : match Lexer.next_token (mkLibm (fun x _ => x)) (Lexer.new_lexer (zs "-1.5") (new_position 1 1)) with
  | Ret tok _ => n_type tok = DECIMAL_NUMBER /\ n_bool tok = true /\ n_int tok = 0 /\ SFltb (n_dec tok) (f64_of_Z 0) = true
  | _ => False
  end.
Proof. vm_compute. repeat split; reflexivity. Qed.

Definition text (t : ntype) (s : str) : cell := with_str (ExprSpec.plain t) s.
Example c60_ex :
  yields trivial_env (call "str_length" [text STRING (utf8s [233; 8364; 128512])]) 0%nat [] (fun r => int_node r 3 [])
  /\ yields trivial_env (call "integer" [text STRING (zs "-12PX")]) 0%nat [] (fun r => int_node r (-12) (zs "px"))
  /\ unit_between (zs "PX") [] /\ unit_between [] [].
Proof.
  assert (U : unit_between (zs "PX") [] /\ unit_between [] []).
  { unfold unit_between, ends_name, name_char, ascii_letter, digit. cbn. repeat split; repeat constructor; try lia; try discriminate;
      unfold writable, scalar, nonchar; change (80 mod 65536) with 80; change (88 mod 65536) with 88; lia. }
  split; [|split; [|exact U]].
  - assert (C : called (call "str_length" [text STRING (utf8s [233; 8364; 128512])]) 0%nat (zs "str_length") [[2%nat]]) by exact (call_called "str_length" [text STRING (utf8s [233; 8364; 128512])]).
    assert (H : node_at (call "str_length" [text STRING (utf8s [233; 8364; 128512])]) 2%nat (text STRING (utf8s [233; 8364; 128512]))) by reflexivity.
    assert (T : text_node STRING (text STRING (utf8s [233; 8364; 128512])) (utf8s [233; 8364; 128512])) by (split; reflexivity).
    assert (F : Forall (fun c => scalar c /\ c <> 0) [233; 8364; 128512]) by (repeat constructor; unfold scalar; lia).
    exact (c60_str_length trivial_env _ _ _ _ _ C H T F).
  - assert (C : called (call "integer" [text STRING (zs "-12PX")]) 0%nat (zs "integer") [[2%nat]]) by exact (call_called "integer" [text STRING (zs "-12PX")]).
    assert (H : node_at (call "integer" [text STRING (zs "-12PX")]) 2%nat (text STRING (zs "-12PX"))) by reflexivity.
    assert (T : text_node STRING (text STRING (zs "-12PX")) (zs "-" ++ zs "12" ++ utf8s (zs "PX"))) by (split; vm_compute; reflexivity).
    assert (I : In STRING [STRING; IDENTIFIER; URL]) by now left. assert (J : In (zs "-") signs) by (cbn; tauto).
    assert (D : Forall digit (zs "12")) by (unfold digit; cbn; repeat apply Forall_cons; try apply Forall_nil; lia).
    assert (B : decimal (zs "12") < 2 ^ 63) by (vm_compute; reflexivity).
    exact (c60_integer_text trivial_env _ _ _ _ STRING (zs "-") (zs "12") (zs "PX") C H I T J ltac:(discriminate) D B (proj1 U)).
Qed.

(** ** C61: unique_id() *)
Definition default_prefix : str := zs "_csspp_unique".
(** The prefix asked for: none, or the text of the parameter. *)
Inductive prefix (s : est) : list (list addr) -> str -> Prop :=
| prefix_none : prefix s [] default_prefix
| prefix_empty : forall x c, node_at s x c -> In (c_type c) [STRING; IDENTIFIER] -> c_str c = [] -> prefix s [[x]] default_prefix
| prefix_text : forall x c, node_at s x c -> In (c_type c) [STRING; IDENTIFIER] -> c_str c <> [] -> prefix s [[x]] (c_str c).

Lemma run_get_name s func name x c : called s func name [[x]] -> node_at s x c -> In (c_type c) [STRING; IDENTIFIER] -> get_name func 0 s = Ret (Some (x, c_str c)) s.
Proof.
  intros C H T. unfold get_name. rewrite (b_ret _ _ _ _ _ (run_get_typed s func _ _ C _ 0 x c eq_refl H)).
  replace (ntype_eqb (c_type c) IDENTIFIER || ntype_eqb (c_type c) STRING) with true by (cbn in T; destruct T as [<-|[<-|[]]]; reflexivity).
  cbv iota. assert (X : c_type c = STRING \/ c_type c = IDENTIFIER) by (cbn in T; destruct T as [T|[T|[]]]; auto).
  destruct X as [X|X]; step; reflexivity.
Qed.

(** The n-th call gives the prefix followed by the number n, without a
    superfluous zero. *)
Theorem c61_unique_id : forall env n s func args p, called s func (zs "unique_id") args -> prefix s args p -> 0 <= n < 2147483647 ->
  exists r s' c ds, execute env n func s = Ret (Some r, n + 1) s' /\ node_at s' r c /\ text_node IDENTIFIER c (p ++ ds)
    /\ Forall digit ds /\ decimal ds = n + 1 /\ first ds <> 48 /\ e_msgs s' = e_msgs s /\ keeps_nodes s s'.
Proof.
  intros env n s func args p C P B.
  destruct C as (cf & Hf & C'). assert (C : called s func (zs "unique_id") args) by (exists cf; auto).
  destruct (int_text_is (n + 1)) as (ds & E & D1 & D2 & D3 & D4 & _); [lia|]. replace (n + 1 <? 0) with false in E by lia. cbn [app] in E.
  exists (new_addr s), (fresh s (with_str (blank IDENTIFIER (c_pos cf)) (p ++ ds))), (with_str (blank IDENTIFIER (c_pos cf)) (p ++ ds)), ds.
  split; [|split; [apply fresh_at|]; split; [split; reflexivity|]; split; [exact D2|]; split; [lia|]; split; [apply D4; lia|]; split; [reflexivity|intros a d; apply fresh_keeps]].
  rewrite (run_execute env n s func (zs "unique_id") args (mkEntry "unique_id" 0 1 (fun _ => fn_unique_id)) C eq_refl); [|destruct P; cbn [t_min t_max length]; lia|reflexivity].
  cbn [t_run]. unfold fn_unique_id. rewrite (b_ret _ _ _ _ _ (called_size s func _ _ C)).
  transitivity ((q <- pos_of func ;; r <- alloc IDENTIFIER q ;; lift (set_string r (p ++ int_text (n + 1))) ;;; ret (Some r, n + 1)) s).
  { destruct P as [|x c H T Z|x c H T Z]; cbn [length].
    - change (Z.of_nat 0 =? 1) with false. cbv iota. rewrite bind_ret. cbv zeta. replace (2147483647 <=? n) with false by lia. reflexivity.
    - change (Z.of_nat 1 =? 1) with true. cbv iota. rewrite (b_ret _ _ _ _ _ (run_get_name s func _ x c C H T)). cbv beta iota. rewrite Z. cbv zeta. replace (2147483647 <=? n) with false by lia. reflexivity.
    - change (Z.of_nat 1 =? 1) with true. cbv iota. rewrite (b_ret _ _ _ _ _ (run_get_name s func _ x c C H T)). cbv beta iota zeta. replace (2147483647 <=? n) with false by lia. destruct (c_str c); [congruence|reflexivity]. }
  rewrite E. steps. reflexivity.
Qed.

(** The calls of a compilation, one after the other, on any states, from the
    counter [n] to the counter [m]; the texts given by unique_id() with the
    prefixes asked for. *)
Inductive calls (env : fenv) : Z -> list (str * str) -> Z -> Prop :=
| calls_none : forall n, calls env n [] n
| calls_other : forall n func s r n' s' l m, (forall c, node_at s func c -> c_str c <> zs "unique_id") -> execute env n func s = Ret (r, n') s' ->
    calls env n' l m -> calls env n l m
| calls_unique : forall n func s args p r n' s' c l m, called s func (zs "unique_id") args -> prefix s args p ->
    execute env n func s = Ret (Some r, n') s' -> node_at s' r c -> calls env n' l m -> calls env n ((p, c_str c) :: l) m.

Lemma bind_plain f env n func s r m s' : Functions.plain f env n func s = Ret (r, m) s' -> m = n.
Proof. unfold Functions.plain, bind, ret. destruct (f env func s); intro H; try discriminate H. injection H as <- <- <-. reflexivity. Qed.
Definition keeps_counter (e : entry) : Prop := forall env n func s r m s', t_run e env n func s = Ret (r, m) s' -> m = n.
Lemma table_plain : Forall (fun e => keeps_counter e \/ t_name e = "unique_id") table.
Proof.
  unfold table. repeat (constructor; [first [right; reflexivity|left; intros env n func s r m s'; cbn [t_run]; unfold simple; apply bind_plain]|]). constructor.
Qed.
Lemma find_in l name e : find_entry l name = Some e -> In e l /\ name = zs (t_name e).
Proof.
  induction l as [|a l IH]; cbn; [discriminate|]. destruct (str_eqb name (zs (t_name a))) eqn:E.
  - intro H. injection H as <-. split; [now left|]. now apply str_eqb_spec.
  - intro H. destruct (IH H). split; [now right|assumption].
Qed.
Lemma name_inv func s name s1 : string_of func s = Ret name s1 -> s1 = s /\ exists c, node_at s func c /\ c_str c = name.
Proof.
  unfold string_of, lift, get_string, NodeHeap.bind, load, node_at. destruct (nth_error (e_heap s) func) as [c|]; [|discriminate].
  unfold supports. destruct (has_str (c_type c)); cbn; [|discriminate]. intro H. injection H as <- <-. split; [now destruct s|]. exists c. auto.
Qed.
Lemma unique_inv n func s r m s' : fn_unique_id n func s = Ret (r, m) s' -> m = n \/ m = n + 1 /\ r <> None /\ n < 2147483647.
Proof.
  unfold fn_unique_id. unfold bind at 1. destruct (lift (size func) s) as [k s1| | |]; try discriminate.
  unfold bind at 1. destruct ((if k =? 1 then get_name func 0 else ret (Some (func, []))) s1) as [[[x id]|] s2| | |]; try discriminate.
  - cbv zeta. destruct (2147483647 <=? n) eqn:B; [discriminate|]. unfold bind at 1. destruct (pos_of func s2) as [q s3| | |]; try discriminate.
    unfold bind at 1. destruct (alloc IDENTIFIER q s3) as [q' s4| | |]; try discriminate.
    unfold bind. destruct (lift _ s4); try discriminate. intro H. injection H as <- <- <-. right. split; [reflexivity|]. split; [discriminate|lia].
  - unfold bind. destruct (wrong _ s2); try discriminate. intro H. injection H as <- <- <-. now left.
Qed.
(** No other function changes the counter. *)
Theorem c61_counter : forall env n func s r m s', execute env n func s = Ret (r, m) s' ->
  m = n \/ exists c, node_at s func c /\ c_str c = zs "unique_id" /\ m = n + 1 /\ r <> None /\ n < 2147483647.
Proof.
  intros env n func s r m s' H. unfold execute in H.
  unfold bind at 1 in H. destruct (string_of func s) as [name s1| | |] eqn:N; try discriminate H.
  destruct (name_inv _ _ _ _ N) as (-> & c & Hc & Ec).
  destruct (find_entry table name) as [e|] eqn:F.
  2: { left. unfold bind, ret in H. destruct (f_user env func s); try discriminate H. injection H as <- <- <-. reflexivity. }
  destruct (find_in _ _ _ F) as (Ie & Ne).
  unfold bind at 1 in H. destruct (lift (size func) s) as [k s1| | |] eqn:K; try discriminate H.
  destruct ((t_min e <=? k) && (k <=? t_max e)).
  2: { left. unfold bind in H. destruct (wrong _ s1); try discriminate H. injection H as <- <- <-. reflexivity. }
  unfold bind at 1 in H. match type of H with match ?x with _ => _ end = _ => destruct x as [[|] s2| | |] end; try discriminate H.
  - left. unfold bind at 1 in H. destruct (pos_of func s2) as [q s3| | |]; try discriminate H. unfold bind in H. destruct (new_boolean q true s3); try discriminate H.
    injection H as <- <- <-. reflexivity.
  - pose proof (proj1 (Forall_forall _ _) table_plain e Ie) as [P|P]; [left; exact (P _ _ _ _ _ _ _ H)|].
    assert (Q : forall l, find_entry l (zs "unique_id") = Some e -> In e l) by (intros l; apply find_in).
    rewrite Ne, P in F. change (find_entry table (zs "unique_id")) with (Some (mkEntry "unique_id" 0 1 (fun _ => fn_unique_id))) in F. injection F as <-.
    cbn [t_run] in H. destruct (unique_inv _ _ _ _ _ _ H) as [->|(-> & R & B)]; [now left|]. right. exists c. rewrite Ec, Ne. cbn [t_name]. auto.
Qed.

Lemma digits_inj a b p : p ++ a = p ++ b -> decimal a = decimal b.
Proof. intro H. apply app_inv_head in H. now rewrite H. Qed.
Lemma calls_from env n l m : calls env n l m -> 0 <= n -> Forall (fun e => exists ds, snd e = fst e ++ ds /\ n < decimal ds) l.
Proof.
  induction 1 as [n|n func s r n' s' l m U E C IH|n func s args p r n' s' c l m U P E H C IH]; intro B.
  - constructor.
  - destruct (c61_counter _ _ _ _ _ _ _ E) as [->|(c & A & X & _)]; [auto|]. exfalso. exact (U c A X).
  - assert (L : n < 2147483647).
    { destruct U as (cf & Hf & Tf & Nf & Ff). assert (U : called s func (zs "unique_id") args) by (exists cf; auto).
      destruct (Z_lt_ge_dec n 2147483647) as [L|L]; [exact L|]. exfalso.
      rewrite (run_execute env n s func (zs "unique_id") args (mkEntry "unique_id" 0 1 (fun _ => fn_unique_id)) U eq_refl) in E; [|destruct P; cbn [t_min t_max length]; lia|reflexivity].
      cbn [t_run] in E. unfold fn_unique_id in E. rewrite (b_ret _ _ _ _ _ (called_size s func _ _ U)) in E.
      destruct P as [|x d Hx T Z|x d Hx T Z]; cbn [length] in E.
      - change (Z.of_nat 0 =? 1) with false in E. cbv iota in E. rewrite bind_ret in E. cbv zeta in E. replace (2147483647 <=? n) with true in E by lia. discriminate E.
      - change (Z.of_nat 1 =? 1) with true in E. cbv iota in E. rewrite (b_ret _ _ _ _ _ (run_get_name s func _ x d U Hx T)) in E. cbv beta iota zeta in E. replace (2147483647 <=? n) with true in E by lia. discriminate E.
      - change (Z.of_nat 1 =? 1) with true in E. cbv iota in E. rewrite (b_ret _ _ _ _ _ (run_get_name s func _ x d U Hx T)) in E. cbv beta iota zeta in E. replace (2147483647 <=? n) with true in E by lia. discriminate E. }
    destruct (c61_unique_id env n s func args p U P ltac:(lia)) as (r0 & s0 & c0 & ds & E0 & H0 & (T0 & S0) & D1 & D2 & _).
    rewrite E in E0. injection E0 as <- -> <-. assert (c0 = c) as -> by (unfold node_at in *; congruence).
    constructor; [exists ds; cbn [fst snd]; split; [exact S0|lia]|].
    specialize (IH ltac:(lia)). revert IH. apply Forall_impl. intros e (d & A & X). exists d. split; [exact A|lia].
Qed.
Lemma calls_pairs env n l m : calls env n l m -> 0 <= n -> ForallOrdPairs (fun a b : str * str => fst a = fst b -> snd a <> snd b) l.
Proof.
  induction 1 as [n|n func s r n' s' l m U E C IH|n func s args p r n' s' c l m U P E H C IH]; intro B.
  - constructor.
  - destruct (c61_counter _ _ _ _ _ _ _ E) as [->|(c & A & X & _)]; [auto|]. exfalso. exact (U c A X).
  - pose proof (calls_from env n _ m (calls_unique env n func s args p r n' s' c l m U P E H C) B) as F.
    assert (L : n < 2147483647).
    { destruct (c61_counter _ _ _ _ _ _ _ E) as [->|(d & _ & _ & _ & _ & L)]; [|exact L].
      destruct (Z_lt_ge_dec n 2147483647) as [L|L]; [exact L|]. exfalso.
      pose proof (calls_from env n _ n (calls_unique env n func s args p r n s' c [] n U P E H (calls_none env n)) B) as G. inversion G as [|? ? (ds & A & X) _]; subst.
      assert (U' := U). rewrite (run_execute env n s func (zs "unique_id") args (mkEntry "unique_id" 0 1 (fun _ => fn_unique_id)) U' eq_refl) in E; [|destruct P; cbn [t_min t_max length]; lia|reflexivity].
      cbn [t_run] in E. unfold fn_unique_id in E. rewrite (b_ret _ _ _ _ _ (called_size s func _ _ U)) in E.
      unfold bind at 1 in E. destruct ((if Z.of_nat (length args) =? 1 then get_name func 0 else ret (Some (func, []))) s) as [[[y id]|] s2| | |]; try discriminate E.
      - cbv zeta in E. replace (2147483647 <=? n) with true in E by lia. discriminate E.
      - unfold bind in E. unfold wrong, bind, refuse in E. destruct (cur_pos s2); discriminate E. }
    destruct (c61_unique_id env n s func args p U P ltac:(lia)) as (r0 & s0 & c0 & ds & E0 & H0 & (T0 & S0) & D1 & D2 & _).
    rewrite E in E0. injection E0 as <- -> <-. assert (c0 = c) as -> by (unfold node_at in *; congruence).
    constructor; [|apply IH; lia]. pose proof (calls_from env _ _ _ C ltac:(lia)) as G. revert G. apply Forall_impl. intros (p' & t) (d & A & X). cbn [fst snd] in *.
    intros <- Q. rewrite S0, A in Q. apply digits_inj in Q. lia.
Qed.
Lemma pairs_nth {A} (R : A -> A -> Prop) l : (forall a b, R a b -> R b a) -> ForallOrdPairs R l -> forall i j a b, i <> j -> nth_error l i = Some a -> nth_error l j = Some b -> R a b.
Proof.
  intros Sy. induction 1 as [|x l F _ IH]; intros [|i] [|j] a b N Ea B; try discriminate; try congruence; cbn in *.
  - injection Ea as <-. rewrite Forall_forall in F. apply F. exact (nth_error_In _ _ B).
  - injection B as <-. rewrite Forall_forall in F. apply Sy, F. exact (nth_error_In _ _ Ea).
  - apply (IH i j); auto.
Qed.
(** Two calls with the same prefix never give the same identifier. *)
Theorem c61_distinct : forall env l m, calls env 0 l m ->
  forall i j p a b, i <> j -> nth_error l i = Some (p, a) -> nth_error l j = Some (p, b) -> a <> b.
Proof.
  intros env l m C i j p a b N A B. pose proof (calls_pairs env 0 l m C ltac:(lia)) as F.
  assert (Sy : forall a b : str * str, (fst a = fst b -> snd a <> snd b) -> fst b = fst a -> snd b <> snd a) by (intros x y K E Q; apply K; congruence).
  exact (pairs_nth _ l Sy F i j (p, a) (p, b) N A B eq_refl).
Qed.
(** With two prefixes, they may be the same: the second call, with the prefix
    x1, and the twelfth one, with the prefix x, both give x12. *)
Theorem c61_prefix_refuted : exists l m a, calls trivial_env 0 l m /\ nth_error l 1 = Some (zs "x1", a) /\ nth_error l 11 = Some (zs "x", a).
Proof.
  assert (K : forall n l m t, t <> [] -> 0 <= n < 100 -> calls trivial_env (n + 1) l m -> calls trivial_env n ((t, t ++ int_text (n + 1)) :: l) m).
  { intros n l m t T B C. set (s := mkE [with_ch (with_str (ExprSpec.plain FUNCTION) (zs "unique_id")) [1%nat]; with_ch (ExprSpec.plain ARG) [2%nat]; with_str (ExprSpec.plain IDENTIFIER) t] [] 0%nat 0 0 (Some 0%nat) [] false).
    assert (U : called s 0%nat (zs "unique_id") [[2%nat]]).
    { eexists. split; [reflexivity|]. split; [reflexivity|]. split; [reflexivity|]. constructor; [|constructor]. split; [eexists; split; [reflexivity|split; reflexivity]|].
      intros x [<-|[]]. eexists. reflexivity. }
    assert (P : prefix s [[2%nat]] t) by (change t with (c_str (with_str (ExprSpec.plain IDENTIFIER) t)); apply prefix_text; [reflexivity|right; now left|exact T]).
    assert (E : execute trivial_env n 0%nat s = Ret (Some 3%nat, n + 1) (with_heap s (e_heap s ++ [with_str (blank IDENTIFIER (c_pos (ExprSpec.plain FUNCTION))) (t ++ int_text (n + 1))]))).
    { rewrite (run_execute trivial_env n s 0%nat (zs "unique_id") [[2%nat]] (mkEntry "unique_id" 0 1 (fun _ => fn_unique_id)) U eq_refl); [|cbn [t_min t_max length]; lia|reflexivity].
      cbn [t_run]. unfold fn_unique_id. rewrite (b_ret _ _ _ _ _ (called_size s _ _ _ U)). cbn [length]. change (Z.of_nat 1 =? 1) with true. cbv iota.
      rewrite (b_ret _ _ _ _ _ (run_get_name s _ _ 2%nat (with_str (ExprSpec.plain IDENTIFIER) t) U eq_refl ltac:(right; now left))). cbv beta iota zeta.
      replace (2147483647 <=? n) with false by lia. destruct t as [|z t]; [congruence|]. reflexivity. }
    exact (calls_unique trivial_env n _ s _ t _ _ _ _ l m U P E eq_refl C). }
  set (x := zs "x"). set (x1 := zs "x1").
  eexists _, 12, (zs "x12"). split; [apply K with (t := x); [discriminate|lia|]; apply K with (t := x1); [discriminate|lia|];
    do 10 (apply K with (t := x); [discriminate|lia|]); apply calls_none|]. split; vm_compute; reflexivity.
Qed.
