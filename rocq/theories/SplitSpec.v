(** * Values between separators *)

From Coq Require Import String ZArith List Bool Floats.SpecFloat.
From Verif Require Import Base NodeHeap Compiler.
Import ListNotations.
Open Scope string_scope. Open Scope list_scope. Open Scope Z_scope.

Definition spaces (h : heap) (l : list addr) : Prop := forall w, In w l -> exists c, nth_error h w = Some c /\ c_type c = WHITESPACE.
(** No two spaces in a row. *)
Fixpoint apart (h : heap) (l : list addr) : Prop :=
  match l with
  | x :: (y :: _) as r => ~ (spaces h [x] /\ spaces h [y]) /\ apart h r
  | _ => True
  end.
(** A group of values: nodes which are no separator nor a block, without a
    space at both ends. *)
Definition group_ok (h : heap) (sep : ntype) (l : list addr) : Prop :=
  l <> [] /\ apart h l /\ (forall x, hd_error l = Some x -> ~ spaces h [x]) /\ (forall x, hd_error (rev l) = Some x -> ~ spaces h [x])
  /\ forall x, In x l -> exists c, nth_error h x = Some c /\ c_type c <> sep /\ c_type c <> OPEN_CURLYBRACKET /\ c_type c <> EOF_TOKEN.
(** Groups with a separator between them, spaces allowed around it. *)
Inductive grouped (h : heap) (sep : ntype) : list addr -> list (list addr) -> Prop :=
  | grouped_last lead g : spaces h lead -> group_ok h sep g -> grouped h sep (lead ++ g) [g]
  | grouped_more lead g trail x c l gs : spaces h lead -> group_ok h sep g ->
      (trail = [] \/ exists w, trail = [w] /\ spaces h [w] /\ ~ In w g) ->
      nth_error h x = Some c -> c_type c = sep -> grouped h sep l gs ->
      grouped h sep (lead ++ g ++ trail ++ x :: l) (g :: gs).
(** The node of an argument. *)
Definition argument (p : position) (sep : ntype) (l : list addr) : cell :=
  mkCell ARG p false (separator_code sep) (S754_zero false) [] [] l [] [].
(** The nodes after: the arguments are new nodes, the children of [n]; one more
    node holds the old list. *)
Definition split_heap (h : heap) (n : addr) (c : cell) (sep : ntype) (gs : list (list addr)) : heap :=
  put h n (with_ch c (seq (S (length h)) (length gs)))
  ++ mkCell LIST (c_pos c) false 0 (S754_zero false) [] [] (c_ch c) [] [] :: map (argument (c_pos c) sep) gs.
