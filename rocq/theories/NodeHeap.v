(** * Nodes as shared, mutable objects (csspp/node.h, csspp/node.cpp)

    Nodes are held through [std::shared_ptr]: several parents, variables or
    local pointers may designate the same node. Here a heap is the list of all
    the nodes allocated so far and a pointer is an index in that list. Nodes
    are never freed in the model (the destructor has no observable effect) and
    the null pointer is not modelled. *)

From Coq Require Import String ZArith List Bool.
From Coq Require Import Floats.SpecFloat.
From Verif Require Import Base.
Import ListNotations.
Open Scope string_scope. Open Scope list_scope. Open Scope Z_scope.

Definition addr := nat.

(** The fields of class node (node.h:207-217). [f_variables] is a [std::map]
    from names to pointers, [f_flags] one from names to [true]; both are
    association lists without repeated names, in order of first insertion (the
    alphabetical order of a [std::map] is not modelled). *)
Record cell := mkCell
  { c_type : ntype; c_pos : position; c_bool : bool; c_int : Z; c_dec : f64;
    c_str : str; c_low : str; c_ch : list addr;
    c_vars : list (str * addr); c_flags : list str }.

Definition heap := list cell.

Definition with_bool (c : cell) b := mkCell (c_type c) (c_pos c) b (c_int c) (c_dec c) (c_str c) (c_low c) (c_ch c) (c_vars c) (c_flags c).
Definition with_int (c : cell) i := mkCell (c_type c) (c_pos c) (c_bool c) i (c_dec c) (c_str c) (c_low c) (c_ch c) (c_vars c) (c_flags c).
Definition with_dec (c : cell) d := mkCell (c_type c) (c_pos c) (c_bool c) (c_int c) d (c_str c) (c_low c) (c_ch c) (c_vars c) (c_flags c).
Definition with_str (c : cell) s := mkCell (c_type c) (c_pos c) (c_bool c) (c_int c) (c_dec c) s (c_low c) (c_ch c) (c_vars c) (c_flags c).
Definition with_low (c : cell) s := mkCell (c_type c) (c_pos c) (c_bool c) (c_int c) (c_dec c) (c_str c) s (c_ch c) (c_vars c) (c_flags c).
Definition with_ch (c : cell) l := mkCell (c_type c) (c_pos c) (c_bool c) (c_int c) (c_dec c) (c_str c) (c_low c) l (c_vars c) (c_flags c).
Definition with_vars (c : cell) v := mkCell (c_type c) (c_pos c) (c_bool c) (c_int c) (c_dec c) (c_str c) (c_low c) (c_ch c) v (c_flags c).
Definition with_flags (c : cell) f := mkCell (c_type c) (c_pos c) (c_bool c) (c_int c) (c_dec c) (c_str c) (c_low c) (c_ch c) (c_vars c) f.

(** Replace the node at an address. *)
Fixpoint put (h : heap) (a : addr) (c : cell) : heap :=
  match h, a with
  | [], _ => []
  | _ :: r, O => c :: r
  | x :: r, S a' => x :: put r a' c
  end.

(** A computation on the heap. *)
Definition act (A : Type) := heap -> outcome heap A.
Definition ret {A} (x : A) : act A := fun h => Ret x h.
Definition throw {A} (e : exn) : act A := fun h => Throw e h.
Definition bind {A B} (m : act A) (f : A -> act B) : act B :=
  fun h => match m h with
           | Ret a h' => f a h' | Throw e h' => Throw e h'
           | Undef h' => Undef h' | NoFuel => NoFuel
           end.
Notation "x <- m ;; k" := (bind m (fun x => k)) (at level 70, m at next level, right associativity).
Notation "m ;;; k" := (bind m (fun _ => k)) (at level 70, right associativity).

(** Dereference a pointer; a dangling pointer is undefined behaviour. *)
Definition load (a : addr) : act cell :=
  fun h => match nth_error h a with Some c => Ret c h | None => Undef h end.
Definition store (a : addr) (c : cell) : act unit := fun h => Ret tt (put h a c).

(** type_supports_integer ... type_supports_children (node.cpp:71-222). *)
Definition has_int (t : ntype) : bool :=
  match t with AN_PLUS_B | ARG | AT_KEYWORD | COMMENT | INTEGER | UNICODE_RANGE => true | _ => false end.
Definition has_bool (t : ntype) : bool :=
  match t with BOOLEAN | DECIMAL_NUMBER | INTEGER | OPEN_CURLYBRACKET | PERCENT => true | _ => false end.
Definition has_dec (t : ntype) : bool :=
  match t with DECIMAL_NUMBER | PERCENT | FRAME => true | _ => false end.
Definition has_str (t : ntype) : bool :=
  match t with
  | AT_KEYWORD | COMMENT | DECIMAL_NUMBER | DECLARATION | EXCLAMATION | FUNCTION | HASH | IDENTIFIER
  | INTEGER | PLACEHOLDER | STRING | URL | VARIABLE | VARIABLE_FUNCTION => true
  | _ => false
  end.
Definition has_metrics (t : ntype) : bool := match t with FONT_METRICS => true | _ => false end.
Definition has_children (t : ntype) : bool :=
  match t with
  | ARG | ARRAY | AT_KEYWORD | COMPONENT_VALUE | DECLARATION | FUNCTION | LIST | MAP
  | OPEN_CURLYBRACKET | OPEN_PARENTHESIS | OPEN_SQUAREBRACKET | VARIABLE_FUNCTION | FRAME => true
  | _ => false
  end.
Definition supports (b : bool) : act unit := if b then ret tt else throw XNodeType.

(** node::node (node.cpp:227-243), without the allocation limit. *)
Definition new_node (t : ntype) (p : position) : act addr :=
  fun h => Ret (length h) (h ++ [mkCell t p false 0 (S754_zero false) [] [] [] [] []]).

(** Setters and getters (node.cpp:342-414). *)
Definition get_string (a : addr) : act str :=
  c <- load a ;; supports (has_str (c_type c)) ;;; ret (c_str c).
Definition set_string (a : addr) (s : str) : act unit :=
  c <- load a ;; supports (has_str (c_type c)) ;;; store a (with_str c s).
Definition get_lowercase_string (a : addr) : act str :=
  c <- load a ;; supports (has_str (c_type c)) ;;; ret (c_low c).
Definition set_lowercase_string (a : addr) (s : str) : act unit :=
  c <- load a ;; supports (has_str (c_type c)) ;;; store a (with_low c s).
Definition get_integer (a : addr) : act Z :=
  c <- load a ;; supports (has_int (c_type c)) ;;; ret (c_int c).
Definition set_integer (a : addr) (i : Z) : act unit :=
  c <- load a ;; supports (has_int (c_type c)) ;;; store a (with_int c i).
Definition get_boolean (a : addr) : act bool :=
  c <- load a ;; supports (has_bool (c_type c)) ;;; ret (c_bool c).
Definition set_boolean (a : addr) (b : bool) : act unit :=
  c <- load a ;; supports (has_bool (c_type c)) ;;; store a (with_bool c b).
Definition get_decimal_number (a : addr) : act f64 :=
  c <- load a ;; supports (has_dec (c_type c)) ;;; ret (c_dec c).
Definition set_decimal_number (a : addr) (d : f64) : act unit :=
  c <- load a ;; supports (has_dec (c_type c)) ;;; store a (with_dec c d).
(** node::get_font_size, set_font_size (node.cpp:444-456); the line height
    (node.cpp:458-473), a bit pattern, is in FloatBits.v. *)
Definition get_font_size (a : addr) : act f64 :=
  c <- load a ;; supports (has_metrics (c_type c)) ;;; ret (c_dec c).
Definition set_font_size (a : addr) (d : f64) : act unit :=
  c <- load a ;; supports (has_metrics (c_type c)) ;;; store a (with_dec c d).

(** [f_string.find('/')] followed by [substr(0, pos)] and [substr(pos)]: the
    text before the first slash, and what starts at the slash ([None]: npos). *)
Fixpoint cut_slash (s : str) : str * option str :=
  match s with
  | [] => ([], None)
  | c :: r => if c =? 47 then ([], Some s)
              else let '(a, b) := cut_slash r in (c :: a, b)
  end.

(** node::get_dim1 ... set_dim2 (node.cpp:475-555), on [f_string]. *)
Definition dim1_of (s : str) : str :=
  match cut_slash s with (_, None) => s | (a, Some _) => a end.
Definition dim2_of (s : str) : str :=
  match cut_slash s with (_, None) => [] | (_, Some b) => tl b end.
Definition dim1_set (s d : str) : str :=
  match s with
  | [] => d
  | _ => match cut_slash s with (_, None) => d | (_, Some b) => d ++ b end
  end.
Definition dim2_set (s d : str) : str :=
  match d with
  | [] => match cut_slash s with (_, None) => s | (a, Some _) => a end
  | _ => match s with
         | [] => 47 :: d
         | _ => match cut_slash s with
                | (_, None) => s ++ 47 :: d
                | (a, Some b) => (a ++ firstn 1 b) ++ d
                end
         end
  end.
Definition get_dim1 (a : addr) : act str :=
  c <- load a ;; supports (has_metrics (c_type c)) ;;; ret (dim1_of (c_str c)).
Definition set_dim1 (a : addr) (d : str) : act unit :=
  c <- load a ;; supports (has_metrics (c_type c)) ;;; store a (with_str c (dim1_set (c_str c) d)).
Definition get_dim2 (a : addr) : act str :=
  c <- load a ;; supports (has_metrics (c_type c)) ;;; ret (dim2_of (c_str c)).
Definition set_dim2 (a : addr) (d : str) : act unit :=
  c <- load a ;; supports (has_metrics (c_type c)) ;;; store a (with_str c (dim2_set (c_str c) d)).

(** node::empty, clear, size (node.cpp:557-577). *)
Definition child_empty (a : addr) : act bool :=
  c <- load a ;; supports (has_children (c_type c)) ;;;
  ret (match c_ch c with [] => true | _ => false end).
Definition clear_children (a : addr) : act unit :=
  c <- load a ;; supports (has_children (c_type c)) ;;; store a (with_ch c []).
Definition size (a : addr) : act Z :=
  c <- load a ;; supports (has_children (c_type c)) ;;; ret (Z.of_nat (length (c_ch c))).

(** [std::find] on the children: the index of the first occurrence. *)
Fixpoint find_child (x : addr) (l : list addr) : option nat :=
  match l with
  | [] => None
  | y :: r => if Nat.eqb x y then Some O
              else match find_child x r with Some i => Some (S i) | None => None end
  end.
(** node::child_position (node.cpp:579-591); npos is 2^64-1. *)
Definition npos : Z := 18446744073709551615.
Definition child_position (a x : addr) : act Z :=
  c <- load a ;; supports (has_children (c_type c)) ;;;
  ret (match find_child x (c_ch c) with Some i => Z.of_nat i | None => npos end).

(** node::add_child (node.cpp:593-610). *)
Definition add_child (a x : addr) : act unit :=
  c <- load a ;; supports (has_children (c_type c)) ;;;
  k <- load x ;;
  if ntype_eqb (c_type k) EOF_TOKEN then ret tt
  else if ntype_eqb (c_type k) WHITESPACE then
    match rev (c_ch c) with
    | [] => store a (with_ch c (c_ch c ++ [x]))
    | b :: _ => kb <- load b ;;
                if ntype_eqb (c_type kb) WHITESPACE then ret tt
                else store a (with_ch c (c_ch c ++ [x]))
    end
  else store a (with_ch c (c_ch c ++ [x])).

(** [f_children.insert(begin + i, x)] and [f_children.erase(begin + i)]. *)
Definition list_insert {A} (i : nat) (x : A) (l : list A) : list A := firstn i l ++ x :: skipn i l.
Definition list_erase {A} (i : nat) (l : list A) : list A := firstn i l ++ skipn (S i) l.

(** node::insert_child (node.cpp:612-633). [idx] is a [size_t]. *)
Definition insert_child (a : addr) (idx : Z) (x : addr) : act unit :=
  c <- load a ;;
  if idx =? Z.of_nat (length (c_ch c)) then add_child a x
  else supports (has_children (c_type c)) ;;;
       if Z.of_nat (length (c_ch c)) <=? idx then throw XChildRange
       else k <- load x ;;
            if ntype_eqb (c_type k) EOF_TOKEN then ret tt
            else store a (with_ch c (list_insert (Z.to_nat idx) x (c_ch c))).

(** node::remove_child(pointer_t) (node.cpp:635-646). *)
Definition remove_child (a x : addr) : act unit :=
  c <- load a ;; supports (has_children (c_type c)) ;;;
  match find_child x (c_ch c) with
  | None => throw XNotAChild
  | Some i => store a (with_ch c (list_erase i (c_ch c)))
  end.
(** node::remove_child(size_t) (node.cpp:648-658). *)
Definition remove_child_at (a : addr) (idx : Z) : act unit :=
  c <- load a ;; supports (has_children (c_type c)) ;;;
  if Z.of_nat (length (c_ch c)) <=? idx then throw XChildRange
  else store a (with_ch c (list_erase (Z.to_nat idx) (c_ch c))).
(** node::get_child, get_last_child (node.cpp:660-676); [size() - 1] wraps. *)
Definition get_child (a : addr) (idx : Z) : act addr :=
  c <- load a ;; supports (has_children (c_type c)) ;;;
  if Z.of_nat (length (c_ch c)) <=? idx then throw XChildRange
  else match nth_error (c_ch c) (Z.to_nat idx) with Some x => ret x | None => fun h => Undef h end.
Definition get_last_child (a : addr) : act addr :=
  c <- load a ;; get_child a (u64 (Z.of_nat (length (c_ch c)) - 1)).

(** node::take_over_children_of (node.cpp:678-688): clear, then swap. *)
Definition take_over_children_of (a n : addr) : act unit :=
  c <- load a ;; supports (has_children (c_type c)) ;;;
  k <- load n ;; supports (has_children (c_type k)) ;;;
  store a (with_ch c []) ;;;
  c1 <- load a ;; k1 <- load n ;;
  store a (with_ch c1 (c_ch k1)) ;;;
  k2 <- load n ;; store n (with_ch k2 (c_ch c1)).

(** node::replace_child (node.cpp:690-705): insert then erase the next one. *)
Definition replace_child (a o n : addr) : act unit :=
  c <- load a ;;
  match find_child o (c_ch c) with
  | None => throw XNotAChild
  | Some i => store a (with_ch c (list_erase (S i) (list_insert i n (c_ch c))))
  end.

(** [map\[name\] = v] and [map.find(name)]. *)
Fixpoint map_set {A} (m : list (str * A)) (k : str) (v : A) : list (str * A) :=
  match m with
  | [] => [(k, v)]
  | (k', v') :: r => if str_eqb k k' then (k', v) :: r else (k', v') :: map_set r k v
  end.
Fixpoint map_get {A} (m : list (str * A)) (k : str) : option A :=
  match m with
  | [] => None
  | (k', v) :: r => if str_eqb k k' then Some v else map_get r k
  end.

(** node::clear_variables, set_variable, get_variable (node.cpp:707-736). *)
Definition clear_variables (a : addr) : act unit := c <- load a ;; store a (with_vars c []).
Definition set_variable (a : addr) (k : str) (v : addr) : act unit :=
  c <- load a ;; store a (with_vars c (map_set (c_vars c) k v)).
Definition get_variable (a : addr) (k : str) : act (option addr) :=
  c <- load a ;; ret (map_get (c_vars c) k).

(** node::clear_flags, set_flag, get_flag (node.cpp:738-763). *)
Definition flag_mem (k : str) (l : list str) : bool := existsb (str_eqb k) l.
Definition clear_flags (a : addr) : act unit := c <- load a ;; store a (with_flags c []).
Definition set_flag (a : addr) (k : str) (v : bool) : act unit :=
  c <- load a ;;
  store a (with_flags c (if v then (if flag_mem k (c_flags c) then c_flags c else c_flags c ++ [k])
                         else filter (fun x => negb (str_eqb k x)) (c_flags c))).
Definition get_flag (a : addr) (k : str) : act bool :=
  c <- load a ;; ret (flag_mem k (c_flags c)).

(** The two loops of clone (node.cpp:264-267) and copy_variable
    (node.cpp:717-726), over a given way to clone. The vector, or map, read by
    the loop is the one of the source, taken when the loop starts. *)
Fixpoint clone_children (cl : addr -> act addr) (r : addr) (l : list addr) : act unit :=
  match l with
  | [] => ret tt
  | x :: l' => y <- cl x ;;
               c <- load r ;; store r (with_ch c (c_ch c ++ [y])) ;;;
               clone_children cl r l'
  end.
Fixpoint clone_vars (cl : addr -> act addr) (r : addr) (l : list (str * addr)) : act unit :=
  match l with
  | [] => ret tt
  | (k, x) :: l' => y <- cl x ;; set_variable r k y ;;; clone_vars cl r l'
  end.

(** node::clone (node.cpp:250-272); [fuel] bounds the depth. *)
Fixpoint clone (fuel : nat) (a : addr) : act addr :=
  match fuel with
  | O => fun _ => NoFuel
  | S f =>
      c <- load a ;;
      r <- new_node (c_type c) (c_pos c) ;;
      n <- load r ;;
      store r (with_flags (with_str (with_dec (with_int (with_bool n (c_bool c)) (c_int c)) (c_dec c)) (c_str c)) (c_flags c)) ;;;
      clone_children (clone f) r (c_ch c) ;;;
      clone_vars (clone f) r (c_vars c) ;;;
      ret r
  end.
(** node::copy_variable with a non null source (node.cpp:717-726). *)
Definition copy_variable (fuel : nat) (a source : addr) : act unit :=
  c <- load source ;; clone_vars (clone fuel) a (c_vars c).
