(** * Executing the model of expressions symbolically *)

From Coq Require Import String ZArith List Bool Lia Arith ZifyBool Floats.SpecFloat.
From Verif Require Import Base UnicodeRange NodeHeap Color FloatBits Dim Expr ExprSpec.
Import ListNotations.
Open Scope string_scope. Open Scope list_scope. Open Scope Z_scope.
Ltac Zify.zify_post_hook ::= idtac.

Lemma with_heap_same s : with_heap s (e_heap s) = s. Proof. destruct s; reflexivity. Qed.
Lemma with_heap_twice s h k : with_heap (with_heap s h) k = with_heap s k. Proof. reflexivity. Qed.
Lemma b_ret {A B} (m : E A) (f : A -> E B) s x s' : m s = Ret x s' -> bind m f s = f x s'.
Proof. unfold bind. intros ->. reflexivity. Qed.
Lemma b_refuse {A} p t (f : option addr -> E A) s : bind (refuse p t) f s = f None (with_msgs s (e_msgs s ++ [mkMsg LError p t])).
Proof. reflexivity. Qed.

(** The state after the allocation of a node. *)
Definition fresh (s : est) (c : cell) : est := with_heap s (e_heap s ++ [c]).
Definition blank (t : ntype) (p : position) : cell := mkCell t p false 0 (S754_zero false) [] [] [] [] [].
Definition new_addr (s : est) : addr := length (e_heap s).

Section Run.
  Variables (s : est) (a : addr) (c : cell).
  Hypothesis H : node_at s a c.
  Lemma run_read : read a s = Ret c s.
  Proof. unfold read, lift, load. unfold node_at in H. rewrite H, with_heap_same. reflexivity. Qed.
  Lemma run_type : type_of a s = Ret (c_type c) s.
  Proof. unfold type_of. rewrite (b_ret _ _ _ _ _ run_read). reflexivity. Qed.
  Lemma run_pos : pos_of a s = Ret (c_pos c) s.
  Proof. unfold pos_of. rewrite (b_ret _ _ _ _ _ run_read). reflexivity. Qed.
  Ltac getter := unfold string_of, integer_of, decimal_of, color_of, lift, get_string, get_integer, get_decimal_number, get_color, get_boolean,
      set_string, set_integer, set_decimal_number, set_boolean, set_color, set_font_size, set_line_height, set_dim1, set_dim2, size,
      NodeHeap.bind, load, supports;
    unfold node_at in H; rewrite H; let E := fresh in intro E; rewrite E; cbn [NodeHeap.ret]; unfold NodeHeap.ret, store; rewrite ?with_heap_same; reflexivity.
  Lemma run_string : has_str (c_type c) = true -> string_of a s = Ret (c_str c) s. Proof. getter. Qed.
  Lemma run_integer : has_int (c_type c) = true -> integer_of a s = Ret (c_int c) s. Proof. getter. Qed.
  Lemma run_decimal : has_dec (c_type c) = true -> decimal_of a s = Ret (c_dec c) s. Proof. getter. Qed.
  Lemma run_color : has_color (c_type c) = true -> color_of a s = Ret (cell_color c) s. Proof. getter. Qed.
  Lemma run_boolean : has_bool (c_type c) = true -> lift (get_boolean a) s = Ret (c_bool c) s. Proof. getter. Qed.
  Lemma run_size : has_children (c_type c) = true -> lift (size a) s = Ret (Z.of_nat (length (c_ch c))) s. Proof. getter. Qed.
  Lemma run_set_string v : has_str (c_type c) = true -> lift (set_string a v) s = Ret tt (with_heap s (put (e_heap s) a (with_str c v))). Proof. getter. Qed.
  Lemma run_set_integer v : has_int (c_type c) = true -> lift (set_integer a v) s = Ret tt (with_heap s (put (e_heap s) a (with_int c v))). Proof. getter. Qed.
  Lemma run_set_decimal v : has_dec (c_type c) = true -> lift (set_decimal_number a v) s = Ret tt (with_heap s (put (e_heap s) a (with_dec c v))). Proof. getter. Qed.
  Lemma run_set_boolean v : has_bool (c_type c) = true -> lift (set_boolean a v) s = Ret tt (with_heap s (put (e_heap s) a (with_bool c v))). Proof. getter. Qed.
  Lemma run_set_color v : has_color (c_type c) = true -> lift (set_color a v) s = Ret tt (with_heap s (put (e_heap s) a (with_color c v))). Proof. getter. Qed.
  Lemma run_child i x : has_children (c_type c) = true -> 0 <= i < Z.of_nat (length (c_ch c)) -> nth_error (c_ch c) (Z.to_nat i) = Some x ->
    lift (get_child a i) s = Ret x s.
  Proof.
    intros E L N. unfold lift, get_child, NodeHeap.bind, load, supports. unfold node_at in H. rewrite H, E. unfold NodeHeap.ret.
    replace (Z.of_nat (length (c_ch c)) <=? i) with false by lia. rewrite N. rewrite with_heap_same. reflexivity.
  Qed.
End Run.

Lemma run_alloc s t p : alloc t p s = Ret (new_addr s) (fresh s (blank t p)).
Proof. reflexivity. Qed.
Lemma fresh_at s c : node_at (fresh s c) (new_addr s) c.
Proof. unfold node_at, fresh, new_addr. cbn [e_heap with_heap]. rewrite nth_error_app2 by lia. now rewrite Nat.sub_diag. Qed.
Lemma fresh_keeps s c : keeps_nodes s (fresh s c).
Proof.
  intros a d H. unfold node_at, fresh in *. cbn [e_heap with_heap]. rewrite nth_error_app1; [exact H|].
  apply nth_error_Some. congruence.
Qed.
Lemma put_last h c d : put (h ++ [c]) (length h) d = h ++ [d].
Proof. induction h; cbn; congruence. Qed.
Lemma fresh_put s c d : with_heap (fresh s c) (put (e_heap (fresh s c)) (new_addr s) d) = fresh s d.
Proof. unfold fresh, new_addr. cbn [e_heap with_heap]. rewrite put_last. reflexivity. Qed.
Lemma fresh_set_string s c v : has_str (c_type c) = true -> lift (set_string (new_addr s) v) (fresh s c) = Ret tt (fresh s (with_str c v)).
Proof. intro H. rewrite (run_set_string _ _ _ (fresh_at s c) v H), fresh_put. reflexivity. Qed.
Lemma fresh_set_integer s c v : has_int (c_type c) = true -> lift (set_integer (new_addr s) v) (fresh s c) = Ret tt (fresh s (with_int c v)).
Proof. intro H. rewrite (run_set_integer _ _ _ (fresh_at s c) v H), fresh_put. reflexivity. Qed.
Lemma fresh_set_decimal s c v : has_dec (c_type c) = true -> lift (set_decimal_number (new_addr s) v) (fresh s c) = Ret tt (fresh s (with_dec c v)).
Proof. intro H. rewrite (run_set_decimal _ _ _ (fresh_at s c) v H), fresh_put. reflexivity. Qed.
Lemma fresh_set_boolean s c v : has_bool (c_type c) = true -> lift (set_boolean (new_addr s) v) (fresh s c) = Ret tt (fresh s (with_bool c v)).
Proof. intro H. rewrite (run_set_boolean _ _ _ (fresh_at s c) v H), fresh_put. reflexivity. Qed.
Lemma fresh_set_color s c v : has_color (c_type c) = true -> lift (set_color (new_addr s) v) (fresh s c) = Ret tt (fresh s (with_color c v)).
Proof. intro H. rewrite (run_set_color _ _ _ (fresh_at s c) v H), fresh_put. reflexivity. Qed.
Lemma run_new_color s p k : new_color p k s = Ret (Some (new_addr s)) (fresh s (with_color (blank COLOR p) k)).
Proof. unfold new_color. rewrite (b_ret _ _ _ _ _ (run_alloc s COLOR p)), (b_ret _ _ _ _ _ (fresh_set_color s (blank COLOR p) k eq_refl)). reflexivity. Qed.
Lemma run_new_boolean s p b : new_boolean p b s = Ret (new_addr s) (fresh s (with_bool (blank BOOLEAN p) b)).
Proof. unfold new_boolean. rewrite (b_ret _ _ _ _ _ (run_alloc s BOOLEAN p)), (b_ret _ _ _ _ _ (fresh_set_boolean s (blank BOOLEAN p) b eq_refl)). reflexivity. Qed.
Lemma run_new_string s p v : new_string p v s = Ret (Some (new_addr s)) (fresh s (with_str (blank STRING p) v)).
Proof. unfold new_string. rewrite (b_ret _ _ _ _ _ (run_alloc s STRING p)), (b_ret _ _ _ _ _ (fresh_set_string s (blank STRING p) v eq_refl)). reflexivity. Qed.
Lemma run_cur_pos s : current_ok s -> exists p, cur_pos s = Ret p s.
Proof.
  intros (a & c & Hc & H). exists (c_pos c). unfold cur_pos. erewrite b_ret; [|unfold cur; rewrite Hc; reflexivity]. now apply run_pos.
Qed.

(** One step: the next elementary operation, on a node known by a hypothesis. *)
Ltac has := first [assumption|cbn; congruence|match goal with T : c_type ?c = _ |- has_str (c_type ?c) = true => rewrite T; reflexivity
  | T : c_type ?c = _ |- has_int (c_type ?c) = true => rewrite T; reflexivity
  | T : c_type ?c = _ |- has_dec (c_type ?c) = true => rewrite T; reflexivity
  | T : c_type ?c = _ |- has_color (c_type ?c) = true => rewrite T; reflexivity
  | T : c_type ?c = _ |- has_bool (c_type ?c) = true => rewrite T; reflexivity
  | T : c_type ?c = _ |- has_children (c_type ?c) = true => rewrite T; reflexivity end|reflexivity].
Lemma bind_assoc {A B C} (m : E A) (f : A -> E B) (g : B -> E C) s :
  bind (bind m f) g s = bind m (fun x => bind (f x) g) s.
Proof. unfold bind. destruct (m s); reflexivity. Qed.
Lemma bind_ret {A B} (x : A) (f : A -> E B) s : bind (ret x) f s = f x s. Proof. reflexivity. Qed.
Ltac step :=
  match goal with
  | |- context [bind (bind _ _) _ _] => rewrite bind_assoc
  | |- context [bind (ret _) _ _] => rewrite bind_ret
  | H : node_at ?s ?a ?c |- context [bind (type_of ?a) _ ?s] => rewrite (b_ret _ _ _ _ _ (run_type s a c H))
  | H : node_at ?s ?a ?c |- context [bind (pos_of ?a) _ ?s] => rewrite (b_ret _ _ _ _ _ (run_pos s a c H))
  | H : node_at ?s ?a ?c |- context [bind (read ?a) _ ?s] => rewrite (b_ret _ _ _ _ _ (run_read s a c H))
  | H : node_at ?s ?a ?c |- context [bind (string_of ?a) _ ?s] => rewrite (b_ret _ _ _ _ _ (run_string s a c H ltac:(has)))
  | H : node_at ?s ?a ?c |- context [bind (integer_of ?a) _ ?s] => rewrite (b_ret _ _ _ _ _ (run_integer s a c H ltac:(has)))
  | H : node_at ?s ?a ?c |- context [bind (decimal_of ?a) _ ?s] => rewrite (b_ret _ _ _ _ _ (run_decimal s a c H ltac:(has)))
  | H : node_at ?s ?a ?c |- context [bind (color_of ?a) _ ?s] => rewrite (b_ret _ _ _ _ _ (run_color s a c H ltac:(has)))
  | H : node_at ?s ?a ?c |- context [bind (lift (get_boolean ?a)) _ ?s] => rewrite (b_ret _ _ _ _ _ (run_boolean s a c H ltac:(has)))
  | H : node_at ?s ?a ?c |- context [bind (lift (size ?a)) _ ?s] => rewrite (b_ret _ _ _ _ _ (run_size s a c H ltac:(has)))
  | H : node_at ?s ?a ?c |- context [bind (type_of ?a) _ (fresh ?s ?d)] => rewrite (b_ret _ _ _ _ _ (run_type (fresh s d) a c (fresh_keeps s d a c H)))
  | H : node_at ?s ?a ?c |- context [bind (pos_of ?a) _ (fresh ?s ?d)] => rewrite (b_ret _ _ _ _ _ (run_pos (fresh s d) a c (fresh_keeps s d a c H)))
  | H : node_at ?s ?a ?c |- context [bind (string_of ?a) _ (fresh ?s ?d)] => rewrite (b_ret _ _ _ _ _ (run_string (fresh s d) a c (fresh_keeps s d a c H) ltac:(has)))
  | H : node_at ?s ?a ?c |- context [bind (integer_of ?a) _ (fresh ?s ?d)] => rewrite (b_ret _ _ _ _ _ (run_integer (fresh s d) a c (fresh_keeps s d a c H) ltac:(has)))
  | H : node_at ?s ?a ?c |- context [bind (decimal_of ?a) _ (fresh ?s ?d)] => rewrite (b_ret _ _ _ _ _ (run_decimal (fresh s d) a c (fresh_keeps s d a c H) ltac:(has)))
  | H : node_at ?s ?a ?c |- context [bind (color_of ?a) _ (fresh ?s ?d)] => rewrite (b_ret _ _ _ _ _ (run_color (fresh s d) a c (fresh_keeps s d a c H) ltac:(has)))
  | |- context [bind (alloc ?t ?p) _ ?s] => rewrite (b_ret _ _ _ _ _ (run_alloc s t p))
  | |- context [bind (lift (set_string (new_addr ?s) ?v)) _ (fresh ?s ?c)] => rewrite (b_ret _ _ _ _ _ (fresh_set_string s c v ltac:(has)))
  | |- context [bind (lift (set_integer (new_addr ?s) ?v)) _ (fresh ?s ?c)] => rewrite (b_ret _ _ _ _ _ (fresh_set_integer s c v ltac:(has)))
  | |- context [bind (lift (set_decimal_number (new_addr ?s) ?v)) _ (fresh ?s ?c)] => rewrite (b_ret _ _ _ _ _ (fresh_set_decimal s c v ltac:(has)))
  | |- context [bind (lift (set_boolean (new_addr ?s) ?v)) _ (fresh ?s ?c)] => rewrite (b_ret _ _ _ _ _ (fresh_set_boolean s c v ltac:(has)))
  | |- context [bind (new_boolean ?p ?b) _ ?s] => rewrite (b_ret _ _ _ _ _ (run_new_boolean s p b))
  end.
Ltac steps := repeat (progress (repeat step; cbv beta iota zeta)).

Lemma gives_fresh m s c (P : cell -> Prop) : m s = Ret (Some (new_addr s)) (fresh s c) -> P c -> gives m s P.
Proof. intros H K. exists (new_addr s), (fresh s c), c. repeat split; auto. apply fresh_at. apply fresh_keeps. Qed.
Lemma refuses_here m s p t : m s = refuse p t s -> refuses m s.
Proof. intro H. eexists _, _. rewrite H. split; [reflexivity|]. split; [reflexivity|]. split; [reflexivity|]. intros a c K. exact K. Qed.
Lemma refuses_fresh m s c p t : m s = refuse p t (fresh s c) -> refuses m s.
Proof.
  intro H. eexists _, _. rewrite H. split; [reflexivity|]. split; [reflexivity|]. split; [reflexivity|].
  intros a d K. apply (fresh_keeps s c a d K).
Qed.
