(** * What comparing, matching and testing values means

    Written without reference to the code. *)

From Coq Require Import String ZArith List Bool Floats.SpecFloat Reals.
From Verif Require Import Base NodeHeap Color FloatBits Expr ExprSpec.
Import ListNotations.
Open Scope string_scope. Open Scope list_scope. Open Scope Z_scope.

(** Dictionary order, byte by byte. *)
Fixpoint dictionary (x y : str) : comparison :=
  match x, y with
  | [], [] => Eq
  | [], _ => Lt
  | _, [] => Gt
  | a :: x', b :: y' => match Z.compare a b with Eq => dictionary x' y' | r => r end
  end.
Definition bool_compare (x y : bool) : comparison :=
  match x, y with false, true => Lt | true, false => Gt | _, _ => Eq end.

(** [compares c d r]: the values of the nodes are comparable and are in the
    order r. SFcompare is the comparison of IEEE numbers; it gives nothing when
    one is not a number. *)
Inductive compares (c d : cell) : comparison -> Prop :=
| cmp_int : forall x y u, int_node c x u -> int_node d y u -> compares c d (Z.compare x y)
| cmp_dec : forall x y u r, number c x u -> number d y u -> (forall i j, x = inl i -> y = inl j -> False) ->
    SFcompare (as_double x) (as_double y) = Some r -> compares c d r
| cmp_percent : forall x y r, percent_node c x -> percent_node d y -> SFcompare x y = Some r -> compares c d r
| cmp_string : forall x y, string_node c x -> string_node d y -> compares c d (dictionary x y)
| cmp_bool : forall x y, bool_node c x -> bool_node d y -> compares c d (bool_compare x y).

(** What the operators say of an order. *)
Definition is_lt (r : comparison) : bool := match r with Lt => true | _ => false end.
Definition is_eq (r : comparison) : bool := match r with Eq => true | _ => false end.
Definition is_gt (r : comparison) : bool := match r with Gt => true | _ => false end.

(** [delimited sep s l]: s is in l between two separators, the ends of l being
    taken for separators. *)
Definition delimited (sep : Z) (s l : str) : Prop :=
  exists before after, l = before ++ s ++ after
    /\ (before = [] \/ exists b, before = b ++ [sep]) /\ (after = [] \/ exists a, after = sep :: a).
(** The parts of a text between separators. *)
Fixpoint parts (sep : Z) (l : str) : list str :=
  match l with
  | [] => [[]]
  | c :: r => if c =? sep then [] :: parts sep r
              else match parts sep r with p :: q => (c :: p) :: q | [] => [[c]] end
  end.

(** The truth value of the values that have one. *)
Inductive truth : cell -> bool -> Prop :=
| truth_bool : forall c b, bool_node c b -> truth c b
| truth_int : forall c v u, int_node c v u -> truth c (negb (v =? 0))
| truth_dec : forall c g u, dec_node c (S754_zero g) u -> truth c false
| truth_dec' : forall c v u, dec_node c v u -> (forall g, v <> S754_zero g) -> truth c true
| truth_percent : forall c g, percent_node c (S754_zero g) -> truth c false
| truth_percent' : forall c v, percent_node c v -> (forall g, v <> S754_zero g) -> truth c true
| truth_string : forall c v, string_node c v -> truth c (negb (str_eqb v []))
| truth_list : forall c, c_type c = ARRAY \/ c_type c = LIST \/ c_type c = MAP -> truth c (match c_ch c with [] => false | _ => true end)
| truth_null : forall c, c_type c = NULL_TOKEN -> truth c false
| truth_word : forall c, c_type c = IDENTIFIER -> c_str c = zs "true" -> truth c true
| truth_word' : forall c, c_type c = IDENTIFIER -> c_str c = zs "false" \/ c_str c = zs "null" -> truth c false
| truth_color : forall c red green blue alpha, c_type c = COLOR ->
    Color.get_color (cell_color c) = Some (((alpha * 256 + blue) * 256 + green) * 256 + red) ->
    0 <= red < 256 -> 0 <= green < 256 -> 0 <= blue < 256 -> truth c (negb ((red =? 0) && (green =? 0) && (blue =? 0))).
