(** * Variables in comments: what is meant (C45) *)

From Coq Require Import String ZArith List Bool Floats.SpecFloat.
From Verif Require Import Base NodeHeap Compiler.
Import ListNotations.
Open Scope string_scope. Open Scope list_scope. Open Scope Z_scope.

(** A reference is written [\{$name\}] or [#\{$name\}]; what follows a parenthesis in
    the name does not count. *)
Definition written (hash : bool) (f : str) : str := (if hash then zs "#" else []) ++ zs "{$" ++ f ++ zs "}".
Fixpoint name_of (f : str) : str := match f with [] => [] | c :: r => if c =? 40 then [] else c :: name_of r end.
(** The text starts with a reference to a variable which has a value. *)
Definition reference (v : str -> option str) (s : str) : Prop :=
  exists hash f t r, s = written hash f ++ r /\ ~ In 125 f /\ v (name_of f) = Some t.

(** [expands v before s after]: the text [s], where [before] is what was written so
    far, becomes [after]: each reference is replaced with the value of
    the variable, the rest is copied.  A reference without a '#' must not follow
    the character '#'. *)
Inductive expands (v : str -> option str) : str -> str -> str -> Prop :=
  | exp_end out : expands v out [] []
  | exp_ref out hash f t r o : ~ In 125 f -> v (name_of f) = Some t -> (hash = false -> last out 0 <> 35) ->
      expands v (out ++ t) r o -> expands v out (written hash f ++ r) (t ++ o)
  | exp_char out c r o : ~ reference v (c :: r) -> expands v (out ++ [c]) r o -> expands v out (c :: r) (c :: o).

(** The texts of the variables that can be seen from [x]: a variable which is not set, or
    is a function, has none. *)
Definition texts (w : world) (x : ctx) (h : heap) (v : str -> option str) : Prop :=
  forall name m ps,
    match v name with
    | Some t => exists a c var val k, state_get_variable x name (mkK h m ps) = Ret (Some a) (mkK h m ps)
        /\ nth_error h a = Some c /\ c_type c = LIST /\ c_ch c = [var; val]
        /\ nth_error h var = Some k /\ c_type k <> FUNCTION /\ c_type k <> VARIABLE_FUNCTION
        /\ w_text w h val = t
    | None => state_get_variable x name (mkK h m ps) = Ret None (mkK h m ps)
        \/ exists a c var val k, state_get_variable x name (mkK h m ps) = Ret (Some a) (mkK h m ps)
        /\ nth_error h a = Some c /\ c_type c = LIST /\ c_ch c = [var; val]
        /\ nth_error h var = Some k /\ (c_type k = FUNCTION \/ c_type k = VARIABLE_FUNCTION)
    end.
