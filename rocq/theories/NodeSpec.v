(** * Specification for nodes: what is seen from a pointer, and programs that edit nodes *)

From Coq Require Import ZArith List Bool.
From Coq Require Import Floats.SpecFloat.
From Verif Require Import Base NodeHeap.
Import ListNotations.
Open Scope Z_scope.

(** Everything that can be observed by following pointers from a node: its
    fields, its children, the values of its variables and its flags. The lower
    case copy of the string is left out: nothing in the library reads it. *)
Inductive seen : Type :=
  Seen (t : ntype) (p : position) (b : bool) (i : Z) (d : f64) (s : str)
       (children : list seen) (variables : list (str * seen)) (flags : list str).

Fixpoint all_some {A} (l : list (option A)) : option (list A) :=
  match l with
  | [] => Some []
  | None :: _ => None
  | Some x :: r => match all_some r with Some r' => Some (x :: r') | None => None end
  end.

(** What is seen from [a] down to depth [n]; [None] when something is deeper
    (or a pointer is dangling). *)
Fixpoint look (n : nat) (h : heap) (a : addr) : option seen :=
  match n with
  | O => None
  | S m =>
      match nth_error h a with
      | None => None
      | Some c =>
          match all_some (map (look m h) (c_ch c)), all_some (map (fun kv => look m h (snd kv)) (c_vars c)) with
          | Some ch, Some vs =>
              Some (Seen (c_type c) (c_pos c) (c_bool c) (c_int c) (c_dec c) (c_str c)
                         ch (combine (map fst (c_vars c)) vs) (c_flags c))
          | _, _ => None
          end
      end
  end.

(** [a] is the root of the finite structure [t]. *)
Definition shows (h : heap) (a : addr) (t : seen) : Prop := exists n, look n h a = Some t.

(** Edits of nodes; the first pointer is the node edited (two of them for
    taking over children). *)
Inductive edit :=
  | ESetString (a : addr) (s : str)
  | ESetLowercase (a : addr) (s : str)
  | ESetInteger (a : addr) (i : Z)
  | ESetBoolean (a : addr) (b : bool)
  | ESetDecimal (a : addr) (d : f64)
  | ESetFontSize (a : addr) (d : f64)
  | ESetDim1 (a : addr) (s : str)
  | ESetDim2 (a : addr) (s : str)
  | EClear (a : addr)
  | EAddChild (a x : addr)
  | EInsertChild (a : addr) (i : Z) (x : addr)
  | ERemoveChild (a x : addr)
  | ERemoveChildAt (a : addr) (i : Z)
  | ETakeOver (a n : addr)
  | EReplace (a o n : addr)
  | EClearVariables (a : addr)
  | ESetVariable (a : addr) (k : str) (v : addr)
  | ECopyVariable (fuel : nat) (a source : addr)
  | EClearFlags (a : addr)
  | ESetFlag (a : addr) (k : str) (v : bool)
  | ENew (t : ntype) (p : position)
  | EClone (fuel : nat) (a : addr).

(** The nodes that an edit may change (a new node and a clone change none). *)
Definition edited (e : edit) : list addr :=
  match e with
  | ESetString a _ | ESetLowercase a _ | ESetInteger a _ | ESetBoolean a _ | ESetDecimal a _
  | ESetFontSize a _ | ESetDim1 a _ | ESetDim2 a _ | EClear a | EAddChild a _
  | EInsertChild a _ _ | ERemoveChild a _ | ERemoveChildAt a _ | EReplace a _ _
  | EClearVariables a | ESetVariable a _ _ | ECopyVariable _ a _ | EClearFlags a
  | ESetFlag a _ _ => [a]
  | ETakeOver a n => [a; n]
  | ENew _ _ | EClone _ _ => []
  end.

Definition heap_of {A} (h0 : heap) (o : outcome heap A) : heap :=
  match o with Ret _ h => h | Throw _ h => h | Undef h => h | NoFuel => h0 end.

(** Run an edit, whether it succeeds or throws. *)
Definition run_edit (h : heap) (e : edit) : heap :=
  match e with
  | ESetString a s => heap_of h (set_string a s h)
  | ESetLowercase a s => heap_of h (set_lowercase_string a s h)
  | ESetInteger a i => heap_of h (set_integer a i h)
  | ESetBoolean a b => heap_of h (set_boolean a b h)
  | ESetDecimal a d => heap_of h (set_decimal_number a d h)
  | ESetFontSize a d => heap_of h (set_font_size a d h)
  | ESetDim1 a s => heap_of h (set_dim1 a s h)
  | ESetDim2 a s => heap_of h (set_dim2 a s h)
  | EClear a => heap_of h (clear_children a h)
  | EAddChild a x => heap_of h (add_child a x h)
  | EInsertChild a i x => heap_of h (insert_child a i x h)
  | ERemoveChild a x => heap_of h (remove_child a x h)
  | ERemoveChildAt a i => heap_of h (remove_child_at a i h)
  | ETakeOver a n => heap_of h (take_over_children_of a n h)
  | EReplace a o n => heap_of h (replace_child a o n h)
  | EClearVariables a => heap_of h (clear_variables a h)
  | ESetVariable a k v => heap_of h (set_variable a k v h)
  | ECopyVariable f a s => heap_of h (copy_variable f a s h)
  | EClearFlags a => heap_of h (clear_flags a h)
  | ESetFlag a k v => heap_of h (set_flag a k v h)
  | ENew t p => heap_of h (new_node t p h)
  | EClone f a => heap_of h (clone f a h)
  end.
Definition run_edits (h : heap) (l : list edit) : heap := fold_left run_edit l h.

(** The child list with every EOF removed and each run of white space reduced
    to its first item. [ws]: the previous item kept was white space. *)
Fixpoint squeeze (ty : addr -> option ntype) (ws : bool) (l : list addr) : list addr :=
  match l with
  | [] => []
  | x :: r =>
      match ty x with
      | Some EOF_TOKEN => squeeze ty ws r
      | Some WHITESPACE => if ws then squeeze ty true r else x :: squeeze ty true r
      | _ => x :: squeeze ty false r
      end
  end.
Definition type_at (h : heap) (a : addr) : option ntype := option_map c_type (nth_error h a).
Definition children_at (h : heap) (a : addr) : option (list addr) := option_map c_ch (nth_error h a).

(** Append children one after the other. *)
Fixpoint add_all (a : addr) (l : list addr) : act unit :=
  match l with
  | [] => ret tt
  | x :: r => add_child a x ;;; add_all a r
  end.
