(** * Vocabulary for the properties of expressions *)

From Coq Require Import String ZArith List Bool Floats.SpecFloat.
From Verif Require Import Base NodeHeap Expr.
Import ListNotations.
Open Scope string_scope. Open Scope list_scope. Open Scope Z_scope.

(** In the state [s] the pointer [a] designates a node with the fields [c]. *)
Definition node_at (s : est) (a : addr) (c : cell) : Prop := nth_error (e_heap s) a = Some c.
(** The nodes of [s] are all unchanged in [s']. *)
Definition keeps_nodes (s s' : est) : Prop := forall a c, node_at s a c -> node_at s' a c.

(** The operation [m] gives a node that satisfies [P], says nothing and changes
    no existing node. *)
Definition gives (m : E (option addr)) (s : est) (P : cell -> Prop) : Prop :=
  exists r s' c, m s = Ret (Some r) s' /\ node_at s' r c /\ P c /\ keeps_nodes s s' /\ e_msgs s' = e_msgs s.
(** The operation [m] reports one error, gives no value and changes no
    existing node. *)
Definition refuses (m : E (option addr)) (s : est) : Prop :=
  exists s' x, m s = Ret None s' /\ e_msgs s' = e_msgs s ++ [x] /\ m_level x = LError /\ keeps_nodes s s'.
(** The test [m] answers [b], says nothing and changes nothing. *)
Definition answers (m : E bool) (s : est) (b : bool) : Prop := m s = Ret b s.

(** Kinds of nodes. *)
Definition int_node (c : cell) (v : Z) (unit : str) : Prop := c_type c = INTEGER /\ c_int c = v /\ c_str c = unit.
Definition dec_node (c : cell) (v : f64) (unit : str) : Prop := c_type c = DECIMAL_NUMBER /\ c_dec c = v /\ c_str c = unit.
Definition percent_node (c : cell) (v : f64) : Prop := c_type c = PERCENT /\ c_dec c = v.
Definition string_node (c : cell) (v : str) : Prop := c_type c = STRING /\ c_str c = v.
Definition bool_node (c : cell) (v : bool) : Prop := c_type c = BOOLEAN /\ c_bool c = v.

(** A number: its value, whether it is an integer, and its unit. *)
Inductive number : cell -> Z + f64 -> str -> Prop :=
| number_int : forall c v u, int_node c v u -> number c (inl v) u
| number_dec : forall c v u, dec_node c v u -> number c (inr v) u.
(** The value as a double (int64_t to double conversion for an integer). *)
Definition as_double (v : Z + f64) : f64 := match v with inl i => f64_of_Z i | inr d => d end.

(** [f_current] is a valid pointer (it is used for the position of errors). *)
Definition current_ok (s : est) : Prop := exists a c, e_cur s = Some a /\ node_at s a c.

(** A node LIST (address 0) whose children are the given nodes: what the parser
    gives to an expression. *)
Definition tokens (l : list cell) : heap :=
  mkCell LIST (new_position 1 1) false 0 (S754_zero false) [] [] (seq 1 (length l)) [] [] :: l.
Definition plain (t : ntype) : cell := mkCell t (new_position 1 1) false 0 (S754_zero false) [] [] [] [] [].
Definition num (v : Z) (unit : string) : cell := with_str (with_int (plain INTEGER) v) (zs unit).
Definition dec (v : f64) (unit : string) : cell := with_str (with_dec (plain DECIMAL_NUMBER) v) (zs unit).
Definition ident (s : string) : cell := with_str (plain IDENTIFIER) (zs s).
Definition text (s : string) : cell := with_str (plain STRING) (zs s).
(** No function is called. *)
Definition no_functions : functions := fun _ _ _ => NoFuel.
(** Evaluate these tokens. *)
Definition evaluate (lm : libm) (l : list cell) : outcome est (option addr) := compile_node lm no_functions 50 0%nat (tokens l).
