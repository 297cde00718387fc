(** * Vocabulary for the properties of the functions of expressions *)

From Coq Require Import String ZArith List Bool Floats.SpecFloat.
From Verif Require Import Base NodeHeap Expr ExprSpec Functions.
Import ListNotations.
Open Scope string_scope. Open Scope list_scope. Open Scope Z_scope.

(** [func] designates the call of [name] with the arguments [args], each one
    being the list of its nodes. *)
Definition called (s : est) (func : addr) (name : str) (args : list (list addr)) : Prop :=
  exists c, node_at s func c /\ c_type c = FUNCTION /\ c_str c = name /\
    Forall2 (fun a l => (exists d, node_at s a d /\ c_type d = ARG /\ c_ch d = l)
                        /\ forall x, In x l -> exists e, node_at s x e) (c_ch c) args.

(** The call gives a node that satisfies [P] and says nothing; only the nodes
    [changed] may be modified, and the counter of unique_id() stays the same. *)
Definition yields (env : fenv) (s : est) (func : addr) (changed : list addr) (P : cell -> Prop) : Prop :=
  forall n, exists r s' c, execute env n func s = Ret (Some r, n) s' /\ node_at s' r c /\ P c /\ e_msgs s' = e_msgs s
    /\ (forall a d, ~ In a changed -> node_at s a d -> node_at s' a d).
(** The call reports one error, gives no value and changes no node. *)
Definition denied (env : fenv) (s : est) (func : addr) : Prop :=
  forall n, exists s' x, execute env n func s = Ret (None, n) s' /\ e_msgs s' = e_msgs s ++ [x] /\ m_level x = LError
    /\ keeps_nodes s s'.

(** The functions, with the least and the greatest number of parameters. *)
Definition arities : list (string * nat * nat) :=
  [ ("abs", 1, 1); ("acos", 1, 1); ("alpha", 1, 1); ("asin", 1, 1); ("atan", 1, 1); ("blue", 1, 1); ("ceil", 1, 1);
    ("cos", 1, 1); ("decimal_number", 1, 1); ("floor", 1, 1); ("frgb", 1, 3); ("frgba", 2, 4); ("function_exists", 1, 1);
    ("global_variable_exists", 1, 1); ("green", 1, 1); ("hsl", 3, 3); ("hsla", 4, 4); ("hue", 1, 1); ("identifier", 1, 1);
    ("if", 3, 3); ("integer", 1, 1); ("inspect", 1, 1); ("lightness", 1, 1); ("log", 1, 1); ("not", 1, 1);
    ("percentage", 1, 1); ("random", 0, 0); ("red", 1, 1); ("rgb", 1, 3); ("rgba", 2, 4); ("round", 1, 1);
    ("saturation", 1, 1); ("sign", 1, 1); ("sin", 1, 1); ("sqrt", 1, 1); ("string", 1, 1); ("str_length", 1, 1);
    ("tan", 1, 1); ("type_of", 1, 1); ("unique_id", 0, 1); ("unit", 1, 1); ("variable_exists", 1, 1) ]%nat.
(** min() and max() have no greatest number of parameters (2147483647). *)
Definition unbounded : list string := ["max"; "min"].

(** What the only parameter of a function may be. *)
Definition numbers : list ntype := [INTEGER; DECIMAL_NUMBER].
Definition values : list ntype := [INTEGER; DECIMAL_NUMBER; PERCENT; STRING; IDENTIFIER; URL].
Definition parameter : list (string * list ntype) :=
  [ ("abs", numbers); ("acos", numbers); ("asin", numbers); ("atan", numbers); ("ceil", numbers); ("cos", numbers);
    ("floor", numbers); ("log", numbers); ("round", numbers); ("sin", numbers); ("sqrt", numbers); ("tan", numbers);
    ("sign", PERCENT :: numbers); ("unit", PERCENT :: numbers);
    ("alpha", [COLOR]); ("red", [COLOR]); ("green", [COLOR]); ("blue", [COLOR]);
    ("hue", [COLOR]); ("saturation", [COLOR]); ("lightness", [COLOR]);
    ("str_length", [STRING]);
    ("function_exists", [STRING; IDENTIFIER]); ("global_variable_exists", [STRING; IDENTIFIER]); ("variable_exists", [STRING; IDENTIFIER]);
    ("decimal_number", values); ("integer", values); ("percentage", values);
    ("identifier", COLOR :: values); ("string", COLOR :: values) ].

(** A parameter of none of these kinds, or which is not one value. *)
Definition misfit (s : est) (arg : list addr) (types : list ntype) : Prop :=
  length arg <> 1%nat \/ exists x c, arg = [x] /\ node_at s x c /\ ~ In (c_type c) types.

(** The call of [name] with the values [l] (for examples): the node FUNCTION is
    at address 0, then the nodes ARG, then the values. *)
Definition call (name : string) (l : list cell) : est :=
  let n := length l in
  mkE (with_ch (with_str (ExprSpec.plain FUNCTION) (zs name)) (seq 1 n)
       :: map (fun i => with_ch (ExprSpec.plain ARG) [(i + n)%nat]) (seq 1 n) ++ l)
      [] 0%nat 0 0 (Some 0%nat) [] false.
(** The addresses of the values. *)
Definition places (l : list cell) : list (list addr) := map (fun i => [(i + length l)%nat]) (seq 1 (length l)).
Definition trivial_env : fenv :=
  mkFE (mkLibm (fun x _ => x)) (fun x => x) (fun x => x) (fun x => x) (fun x => x) (fun x => x) (fun x => x) (fun x => x) 0 3
    (fun _ => []) (fun _ _ => []) (fun _ _ => ret None) (fun _ => ret None).
