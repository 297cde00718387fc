(** * Executing the functions of expressions symbolically *)

From Coq Require Import String ZArith List Bool Lia Arith ZifyBool Floats.SpecFloat.
From Verif Require Import Base UnicodeRange NodeHeap Color FloatBits Dim Expr ExprSpec ExprRun Hsl Functions FunctionSpec.
Import ListNotations.
Open Scope string_scope. Open Scope list_scope. Open Scope Z_scope.
Ltac Zify.zify_post_hook ::= idtac.

(** The only node of the argument [n]. *)
Definition arg1 (args : list (list addr)) (n : nat) : option addr :=
  match nth_error args n with Some [x] => Some x | _ => None end.

Lemma forall2_nth {A B} (P : A -> B -> Prop) l k n y : Forall2 P l k -> nth_error k n = Some y -> exists x, nth_error l n = Some x /\ P x y.
Proof.
  intro F. revert n. induction F as [|a b l k H F IH]; intros [|n] N; try discriminate N.
  - cbn in N. injection N as <-. exists a. split; [reflexivity|exact H].
  - cbn in N. exact (IH n N).
Qed.
Lemma forall2_len {A B} (P : A -> B -> Prop) l k : Forall2 P l k -> length l = length k.
Proof. induction 1; cbn; congruence. Qed.

Section Called.
  Variables (s : est) (func : addr) (name : str) (args : list (list addr)).
  Hypothesis C : called s func name args.

  Lemma called_size : lift (size func) s = Ret (Z.of_nat (length args)) s.
  Proof.
    destruct C as (c & H & T & N & F). rewrite (run_size s func c H ltac:(has)), (forall2_len _ _ _ F). reflexivity.
  Qed.
  Lemma called_name : string_of func s = Ret name s.
  Proof. destruct C as (c & H & T & N & F). rewrite (run_string s func c H ltac:(has)). now rewrite N. Qed.
  Lemma called_pos : exists p, pos_of func s = Ret p s.
  Proof. destruct C as (c & H & T & N & F). exists (c_pos c). exact (run_pos s func c H). Qed.
  Lemma called_child n l : nth_error args n = Some l -> exists a d, lift (get_child func (Z.of_nat n)) s = Ret a s
    /\ node_at s a d /\ c_type d = ARG /\ c_ch d = l.
  Proof.
    intro N. destruct C as (c & H & T & N' & F). destruct (forall2_nth _ _ _ _ _ F N) as (a & Na & (d & Hd & Td & Ld) & _).
    exists a, d. split; [|auto]. apply (run_child s func c H); [has| |rewrite Nat2Z.id; exact Na].
    assert (n < length (c_ch c))%nat by (apply nth_error_Some; congruence). lia.
  Qed.

  Lemma called_node n l x : nth_error args n = Some l -> In x l -> exists e, node_at s x e.
  Proof.
    intros N I. destruct C as (c & H & T & N' & F). destruct (forall2_nth _ _ _ _ _ F N) as (a & Na & _ & Hd). exact (Hd x I).
  Qed.

  Lemma run_get_any n : get_any func (Z.of_nat n) s = Ret (arg1 args n) s.
  Proof.
    unfold get_any, arg1. rewrite (b_ret _ _ _ _ _ called_size).
    destruct (nth_error args n) as [l|] eqn:N.
    - assert (LT : (n < length args)%nat) by (apply nth_error_Some; congruence).
      replace (Z.of_nat (length args) <=? Z.of_nat n) with false by lia.
      destruct (called_child n l N) as (a & d & R & H & T & L). rewrite (b_ret _ _ _ _ _ R).
      rewrite (b_ret _ _ _ _ _ (run_size s a d H ltac:(has))). rewrite L.
      destruct l as [|x [|y r]]; [reflexivity| |].
      + cbn [length]. change (Z.of_nat 1 =? 1) with true. cbv iota.
        rewrite (b_ret _ _ _ _ _ (run_child s a d H 0 x ltac:(has) ltac:(rewrite L; cbn [length]; lia) ltac:(rewrite L; reflexivity))). reflexivity.
      + replace (Z.of_nat (length (x :: y :: r)) =? 1) with false by (cbn [length]; lia). reflexivity.
    - apply nth_error_None in N. replace (Z.of_nat (length args) <=? Z.of_nat n) with true by lia. reflexivity.
  Qed.
  Lemma run_get_typed_none ok n : arg1 args n = None -> get_typed ok func (Z.of_nat n) s = Ret None s.
  Proof. intro A. unfold get_typed. rewrite (b_ret _ _ _ _ _ (run_get_any n)), A. reflexivity. Qed.
  Lemma run_get_typed ok n x c : arg1 args n = Some x -> node_at s x c ->
    get_typed ok func (Z.of_nat n) s = Ret (if ok (c_type c) then Some x else None) s.
  Proof.
    intros A H. unfold get_typed. rewrite (b_ret _ _ _ _ _ (run_get_any n)), A. rewrite (b_ret _ _ _ _ _ (run_type s x c H)).
    reflexivity.
  Qed.
End Called.

(** An argument of none of these types. *)
Definition not_of (s : est) (args : list (list addr)) (n : nat) (ok : ntype -> bool) : Prop :=
  arg1 args n = None \/ exists x c, arg1 args n = Some x /\ node_at s x c /\ ok (c_type c) = false.
Lemma typed_no s func name args ok n : called s func name args -> not_of s args n ok -> get_typed ok func (Z.of_nat n) s = Ret None s.
Proof.
  intros C [A|(x & c & A & H & E)]; [exact (run_get_typed_none s func name args C ok n A)|].
  rewrite (run_get_typed s func name args C ok n x c A H), E. reflexivity.
Qed.

Lemma run_wrong s t : current_ok s -> exists p, wrong t s = refuse p t s.
Proof. intro C. destruct (run_cur_pos s C) as (p & P). exists p. unfold wrong. now rewrite (b_ret _ _ _ _ _ P). Qed.

(** The dispatch. *)
Lemma run_execute env n s func name args e : called s func name args -> find_entry table name = Some e ->
  t_min e <= Z.of_nat (length args) <= t_max e -> str_eqb name (zs "function_exists") = false ->
  execute env n func s = t_run e env n func s.
Proof.
  intros C F R X. unfold execute. rewrite (b_ret _ _ _ _ _ (called_name s func name args C)), F.
  rewrite (b_ret _ _ _ _ _ (called_size s func name args C)).
  replace ((t_min e <=? Z.of_nat (length args)) && (Z.of_nat (length args) <=? t_max e)) with true by lia.
  rewrite X, bind_ret. reflexivity.
Qed.
Lemma execute_arity env s func name args e : called s func name args -> current_ok s -> find_entry table name = Some e ->
  ~ (t_min e <= Z.of_nat (length args) <= t_max e) -> denied env s func.
Proof.
  intros C K F R n. unfold execute. rewrite (b_ret _ _ _ _ _ (called_name s func name args C)), F.
  rewrite (b_ret _ _ _ _ _ (called_size s func name args C)).
  replace ((t_min e <=? Z.of_nat (length args)) && (Z.of_nat (length args) <=? t_max e)) with false by lia.
  match goal with |- context [wrong ?t] => destruct (run_wrong s t K) as (p & W) end.
  eexists _, _. split; [unfold bind; rewrite W; reflexivity|]. split; [reflexivity|]. split; [reflexivity|]. intros a c H. exact H.
Qed.

(** A refusal. *)
Definition fails (m : E (option addr)) (s : est) : Prop := exists p t, m s = refuse p t s.
Lemma fails_wrong s t : current_ok s -> fails (wrong t) s.
Proof. intro C. destruct (run_wrong s t C) as (p & W). exists p, t. exact W. Qed.
Lemma denied_plain env s func name args (f : fenv -> addr -> E (option addr)) e : called s func name args ->
  find_entry table name = Some e -> t_run e = plain f -> t_min e <= Z.of_nat (length args) <= t_max e ->
  str_eqb name (zs "function_exists") = false -> fails (f env func) s -> denied env s func.
Proof.
  intros C F T R X (p & t & W) n. rewrite (run_execute env n s func name args e C F R X), T. unfold plain.
  eexists _, _. split; [unfold bind; rewrite W; reflexivity|]. split; [reflexivity|]. split; [reflexivity|]. intros a c H. exact H.
Qed.
