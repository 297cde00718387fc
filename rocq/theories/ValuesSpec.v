(** * Declarations: the name, the values and the flags *)

From Coq Require Import String ZArith List Bool Floats.SpecFloat.
From Verif Require Import Base NodeHeap FloatBits PrecSpec ListSpec SplitSpec.
From Verif Require Import Compile.
Import ListNotations.
Open Scope string_scope. Open Scope list_scope. Open Scope Z_scope.

(** The values between two separators: expressions one after the other, then
    possibly a flag such as "!important". *)
Record item := mkItem { i_values : list entry; i_flag : list addr }.
Definition items_ok (h : heap) (font : bool) (gs : list (list addr)) (its : list item) : Prop :=
  Forall2 (fun g it => g = row (i_values it) ++ i_flag it /\ list_ok h font (i_values it) (i_flag it)) gs its.
Definition maybe_space (h : heap) (l : list addr) : Prop := l = [] \/ exists w, l = [w] /\ is_space_node h w.
(** The nodes of "name: values": [sep] separates the values. *)
Definition declares (h : heap) (c : cell) (name : str) (font : bool) (sep : ntype) (its : list item) : Prop :=
  exists id cid s1 colon cc s2 vs gs, c_ch c = id :: s1 ++ colon :: s2 ++ vs
  /\ nth_error h id = Some cid /\ c_type cid = IDENTIFIER /\ c_str cid = name
  /\ nth_error h colon = Some cc /\ c_type cc = COLON
  /\ maybe_space h s1 /\ maybe_space h s2 /\ no_leading_space h vs
  /\ apart h vs /\ grouped h sep vs gs /\ items_ok h font gs its
  /\ (forall x, In x vs -> exists k, nth_error h x = Some k /\ c_type k <> LIST /\ c_type k <> COMPONENT_VALUE /\ c_type k <> ARG
        /\ c_type k <> OPEN_CURLYBRACKET /\ c_type k <> EOF_TOKEN).
(** The flags of all the items. *)
Definition all_flags (h : heap) (its : list item) (k : cell) : cell := fold_left (fun k it => flagged h (i_flag it) k) its k.
(** The nodes after: [d] declares [name] with the values of [its], each in its
    own argument. *)
Definition declared (h h' : heap) (p : position) (name : str) (sep : ntype) (its : list item) (d : addr) : Prop :=
  exists args, nth_error h' d = Some (all_flags h its (mkCell DECLARATION p false 0 (S754_zero false) name [] args [] []))
  /\ Forall2 (fun a it => exists rs, nth_error h' a = Some (argument p sep (results (i_values it) rs))
       /\ Forall2 (fun e r => exists v, nth_error h' r = Some v /\ stands_for h (e_tree e) r v) (i_values it) rs) args its.
Definition replaced (o n : addr) (l l' : list addr) : Prop := exists a b, l = a ++ o :: b /\ ~ In o a /\ l' = a ++ n :: b.
(** A node that holds declarations. *)
Definition container (t : ntype) : bool :=
  match t with LIST | OPEN_CURLYBRACKET | FRAME | DECLARATION => true | _ => false end.
(** A bound for the recursion of the model: the number of items, of values and
    the size of the expressions. *)
Definition enough (fuel : nat) (its : list item) : Prop :=
  (length its + 4 < fuel)%nat
  /\ Forall (fun it => (length (i_values it) + 4 < fuel)%nat /\ Forall (fun e => (tree_size (e_tree e) + 4 < fuel)%nat) (i_values it)) its.

(** One declaration of a list: its name and its values; the world tells which
    fields have slashes between their values and which ones have fonts. *)
Record field := mkField { f_name : str; f_items : list item }.
Definition separator (k : rules) (name : str) : ntype := if r_slash k name then DIVIDE else COMMA.
Definition field_ok (k : rules) (fuel : nat) (h : heap) (n : addr) (f : field) : Prop :=
  exists c, nth_error h n = Some c /\ c_type c = COMPONENT_VALUE
    /\ declares h c (f_name f) (r_metrics k (f_name f)) (separator k (f_name f)) (f_items f)
    /\ f_name f <> zs "filter" /\ f_name f <> zs "-filter" /\ Z.of_nat (length (c_ch c)) < 18446744073709551616 /\ enough fuel (f_items f).
(** Its node after. *)
Definition field_done (k : rules) (h h' : heap) (n : addr) (f : field) (d : addr) : Prop :=
  exists c, nth_error h n = Some c /\ declared h h' (c_pos c) (f_name f) (separator k (f_name f)) (f_items f) d.
