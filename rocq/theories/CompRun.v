(** * Executing the model of the compiler symbolically *)

From Coq Require Import String ZArith List Bool Lia Arith ZifyBool Floats.SpecFloat.
From Verif Require Import Base NodeHeap NodeProofs Compiler.
Import ListNotations.
Open Scope string_scope. Open Scope list_scope. Open Scope Z_scope.
Ltac Zify.zify_post_hook ::= idtac.

Lemma b_ret {A B} (m : C A) (f : A -> C B) s x s' : m s = Ret x s' -> bind m f s = f x s'.
Proof. unfold bind. intros ->. reflexivity. Qed.
Lemma b_throw {A B} (m : C A) (f : A -> C B) s x s' : m s = Throw x s' -> bind m f s = Throw x s'.
Proof. unfold bind. intros ->. reflexivity. Qed.
Lemma bind_assoc {A B D} (m : C A) (f : A -> C B) (g : B -> C D) s :
  bind (bind m f) g s = bind m (fun x => bind (f x) g) s.
Proof. unfold bind. destruct (m s); reflexivity. Qed.
Lemma bind_ret {A B} (x : A) (f : A -> C B) s : bind (ret x) f s = f x s. Proof. reflexivity. Qed.

Definition blank (t : ntype) (p : position) : cell := mkCell t p false 0 (S754_zero false) [] [] [] [] [].

Section Run.
  Variables (h : heap) (m : list msg) (ps : list str) (a : addr) (c : cell).
  Hypothesis H : nth_error h a = Some c.
  Notation st := (mkK h m ps).
  Lemma run_load : lift (load a) st = Ret c st.
  Proof. unfold lift, load. cbn [k_heap]. rewrite H. reflexivity. Qed.
  Lemma run_type : type_of a st = Ret (c_type c) st.
  Proof. unfold type_of. rewrite (b_ret _ _ _ _ _ run_load). reflexivity. Qed.
  Lemma run_pos : pos_of a st = Ret (c_pos c) st.
  Proof. unfold pos_of. rewrite (b_ret _ _ _ _ _ run_load). reflexivity. Qed.
  Lemma run_is t : is_a a t st = Ret (ntype_eqb (c_type c) t) st.
  Proof. unfold is_a. rewrite (b_ret _ _ _ _ _ run_type). reflexivity. Qed.
  Ltac getter := unfold lift, get_string, get_integer, get_decimal_number, get_boolean, get_variable, set_variable, child_empty,
      set_string, set_integer, set_decimal_number, set_boolean, size, NodeHeap.bind, load, supports; cbn [k_heap];
    rewrite H; try (let E := fresh in intro E; rewrite E); cbn [NodeHeap.ret]; unfold NodeHeap.ret, store; reflexivity.
  Lemma run_string : has_str (c_type c) = true -> lift (get_string a) st = Ret (c_str c) st. Proof. getter. Qed.
  Lemma run_integer : has_int (c_type c) = true -> lift (get_integer a) st = Ret (c_int c) st. Proof. getter. Qed.
  Lemma run_boolean : has_bool (c_type c) = true -> lift (get_boolean a) st = Ret (c_bool c) st. Proof. getter. Qed.
  Lemma run_size : has_children (c_type c) = true -> lift (size a) st = Ret (Z.of_nat (length (c_ch c))) st. Proof. getter. Qed.
  Lemma run_empty : has_children (c_type c) = true -> lift (child_empty a) st = Ret (match c_ch c with [] => true | _ => false end) st. Proof. getter. Qed.
  Lemma run_get_variable k : lift (get_variable a k) st = Ret (map_get (c_vars c) k) st. Proof. getter. Qed.
  Lemma run_set_variable k v : lift (set_variable a k v) st = Ret tt (mkK (put h a (with_vars c (map_set (c_vars c) k v))) m ps). Proof. getter. Qed.
  Lemma run_set_string v : has_str (c_type c) = true -> lift (set_string a v) st = Ret tt (mkK (put h a (with_str c v)) m ps). Proof. getter. Qed.
  Lemma run_set_integer v : has_int (c_type c) = true -> lift (set_integer a v) st = Ret tt (mkK (put h a (with_int c v)) m ps). Proof. getter. Qed.
  Lemma run_set_boolean v : has_bool (c_type c) = true -> lift (set_boolean a v) st = Ret tt (mkK (put h a (with_bool c v)) m ps). Proof. getter. Qed.
  Lemma run_child i x : has_children (c_type c) = true -> nth_error (c_ch c) (Z.to_nat i) = Some x -> 0 <= i ->
    lift (get_child a i) st = Ret x st.
  Proof.
    intros E N P. pose proof (nth_lt _ _ _ N). unfold lift, get_child, NodeHeap.bind, load, supports. cbn [k_heap]. rewrite H, E. unfold NodeHeap.ret.
    replace (Z.of_nat (length (c_ch c)) <=? i) with false by lia. rewrite N. reflexivity.
  Qed.
  Lemma run_child0 x l : has_children (c_type c) = true -> c_ch c = x :: l -> lift (get_child a 0) st = Ret x st.
  Proof. intros E N. apply run_child; auto; [|lia]. rewrite N. reflexivity. Qed.
  Lemma run_child1 x y l : has_children (c_type c) = true -> c_ch c = x :: y :: l -> lift (get_child a 1) st = Ret y st.
  Proof. intros E N. apply run_child; auto; [|lia]. rewrite N. reflexivity. Qed.
  Lemma run_remove_at i : has_children (c_type c) = true -> 0 <= i < Z.of_nat (length (c_ch c)) ->
    lift (remove_child_at a i) st = Ret tt (mkK (put h a (with_ch c (list_erase (Z.to_nat i) (c_ch c)))) m ps).
  Proof.
    intros E L. unfold lift, remove_child_at, NodeHeap.bind, load, supports. cbn [k_heap]. rewrite H, E. unfold NodeHeap.ret.
    replace (Z.of_nat (length (c_ch c)) <=? i) with false by lia. reflexivity.
  Qed.
  Lemma run_remove0 x l : has_children (c_type c) = true -> c_ch c = x :: l ->
    lift (remove_child_at a 0) st = Ret tt (mkK (put h a (with_ch c l)) m ps).
  Proof. intros E L. rewrite run_remove_at; rewrite ?L; cbn [length]; auto; lia. Qed.
  Lemma run_remove x i : has_children (c_type c) = true -> find_child x (c_ch c) = Some i ->
    lift (remove_child a x) st = Ret tt (mkK (put h a (with_ch c (list_erase i (c_ch c)))) m ps).
  Proof. intros E F. unfold lift, remove_child, NodeHeap.bind, load, supports. cbn [k_heap]. rewrite H, E. unfold NodeHeap.ret. rewrite F. reflexivity. Qed.
  (** A node that is neither EOF nor white space. *)
  Lemma run_add x k : has_children (c_type c) = true -> nth_error h x = Some k -> c_type k <> EOF_TOKEN -> c_type k <> WHITESPACE ->
    lift (add_child a x) st = Ret tt (mkK (put h a (with_ch c (c_ch c ++ [x]))) m ps).
  Proof.
    intros E K N1 N2. unfold lift, add_child, NodeHeap.bind, load, supports. cbn [k_heap]. rewrite H, E. unfold NodeHeap.ret. rewrite K.
    replace (ntype_eqb (c_type k) EOF_TOKEN) with false by (destruct (c_type k); try reflexivity; congruence).
    replace (ntype_eqb (c_type k) WHITESPACE) with false by (destruct (c_type k); try reflexivity; congruence). reflexivity.
  Qed.
  Lemma run_insert i x k : has_children (c_type c) = true -> nth_error h x = Some k -> c_type k <> EOF_TOKEN -> c_type k <> WHITESPACE ->
    0 <= i <= Z.of_nat (length (c_ch c)) ->
    lift (insert_child a i x) st = Ret tt (mkK (put h a (with_ch c (list_insert (Z.to_nat i) x (c_ch c)))) m ps).
  Proof.
    intros E K N1 N2 L. destruct (Z.eq_dec i (Z.of_nat (length (c_ch c)))) as [Q|Q].
    - pose proof (run_add x k E K N1 N2) as R. unfold lift in *. unfold insert_child. unfold NodeHeap.bind at 1, load at 1. cbn [k_heap] in *. rewrite H.
      subst i. rewrite Z.eqb_refl, R. unfold list_insert. rewrite Nat2Z.id, firstn_all, skipn_all. reflexivity.
    - unfold lift, insert_child, NodeHeap.bind, load, supports. cbn [k_heap]. rewrite H, E. unfold NodeHeap.ret.
      replace (i =? _) with false by lia. replace (_ <=? i) with false by lia. rewrite K.
      replace (ntype_eqb (c_type k) EOF_TOKEN) with false by (destruct (c_type k); try reflexivity; congruence). reflexivity.
  Qed.
  Lemma run_take n k : has_children (c_type c) = true -> nth_error h n = Some k -> has_children (c_type k) = true -> a <> n ->
    lift (take_over_children_of a n) st = Ret tt (mkK (put (put h a (with_ch c (c_ch k))) n (with_ch k [])) m ps).
  Proof.
    intros E K F D. pose proof (nth_lt _ _ _ H). unfold lift, take_over_children_of, NodeHeap.bind, load, supports, store. cbn [k_heap].
    rewrite H, E. unfold NodeHeap.ret. rewrite K, F. rewrite put_same by auto. rewrite put_other by auto. rewrite K.
    rewrite put_other by auto. rewrite put_other by auto. rewrite K. rewrite put_put. reflexivity.
  Qed.
End Run.
Lemma run_new h m ps t p : lift (new_node t p) (mkK h m ps) = Ret (length h) (mkK (h ++ [blank t p]) m ps).
Proof. reflexivity. Qed.
Lemma run_say h m ps l p t : say l p t (mkK h m ps) = Ret tt (mkK h (m ++ [mkMsg l p t]) ps).
Proof. reflexivity. Qed.
Lemma run_child_is h m ps a c i x k t : nth_error h a = Some c -> has_children (c_type c) = true -> nth_error (c_ch c) (Z.to_nat i) = Some x -> 0 <= i ->
  nth_error h x = Some k -> child_is a i t (mkK h m ps) = Ret (ntype_eqb (c_type k) t) (mkK h m ps).
Proof. intros H E N P K. unfold child_is. rewrite (b_ret _ _ _ _ _ (run_child h m ps a c H i x E N P)). now apply run_is. Qed.

(** Look up a node in an updated heap. *)
Ltac lens := rewrite ?put_length, ?app_length in *; cbn [length] in *; lia.
Ltac look_ :=
  lazymatch goal with
  | |- nth_error (put ?h ?a ?c) ?a = _ => rewrite put_same; [reflexivity|lens]
  | |- nth_error (put ?h ?a ?c) ?b = _ => rewrite put_other; [look_|try congruence; lens]
  | |- nth_error (?h ++ [?c]) (length ?h) = _ => apply nth_mid
  | |- nth_error (?h ++ _) ?b = _ => rewrite nth_error_app1; [look_|lens]
  | |- _ => eassumption
  end.
Ltac has := first [reflexivity|assumption|congruence|match goal with T : c_type ?c = _ |- context [c_type ?c] => rewrite T; reflexivity end].
Ltac op := first
  [ eapply run_load; look_ | eapply run_type; look_ | eapply run_pos; look_ | eapply run_is; look_
  | eapply run_string; [look_|has] | eapply run_integer; [look_|has] | eapply run_boolean; [look_|has]
  | eapply run_size; [look_|has] | eapply run_empty; [look_|has]
  | eapply run_get_variable; look_ | eapply run_set_variable; look_
  | eapply run_set_string; [look_|has] | eapply run_set_integer; [look_|has] | eapply run_set_boolean; [look_|has]
  | apply run_new | apply run_say ].
Ltac step :=
  match goal with
  | |- context [bind (bind _ _) _ _] => rewrite bind_assoc
  | |- context [bind (ret _) _ _] => rewrite bind_ret
  | |- context [bind ?m ?f (mkK ?h ?ms ?ps)] => erewrite (b_ret m f (mkK h ms ps)) by op
  end.
(** Compare two known types. *)
Ltac tyeq := repeat match goal with
  | |- context [ntype_eqb ?a ?b] => is_constructor a; is_constructor b;
      let r := eval vm_compute in (ntype_eqb a b) in change (ntype_eqb a b) with r
  end; cbv iota.
Ltac steps := repeat (progress (repeat step; cbv beta iota zeta)).
