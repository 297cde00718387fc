(** * @keyframes: the frames of an animation *)

From Coq Require Import String ZArith List Bool Floats.SpecFloat.
From Verif Require Import Base NodeHeap ListSpec SplitSpec.
From Verif Require Import Compile ValuesSpec.
Import ListNotations.
Open Scope string_scope. Open Scope list_scope. Open Scope Z_scope.

(** When a frame happens: [v] goes from 0 to 1. *)
Inductive moment : cell -> f64 -> Prop :=
| moment_from c : c_type c = IDENTIFIER -> c_str c = zs "from" -> moment c (S754_zero false)
| moment_to c : c_type c = IDENTIFIER -> c_str c = zs "to" -> moment c (f64_of_Z 1)
| moment_percent c : c_type c = PERCENT -> SFleb (f64_of_Z 0) (c_dec c) = true -> SFleb (c_dec c) (f64_of_Z 1) = true -> moment c (c_dec c).
(** A frame: its moment, its position in the source, and its declarations
    ([fr_nodes] their nodes, [fr_list] the list they are in, if there is one). *)
Record frame := mkFrame { fr_when : f64; fr_pos : position; fr_list : list addr; fr_nodes : list addr; fr_fields : list field }.
(** The nodes of a frame: [moment \{ declarations \}]. *)
Definition frame_ok (k : rules) (fuel : nat) (h : heap) (cv : addr) (f : frame) : Prop :=
  exists c a ca b cb i ci, nth_error h cv = Some c /\ c_type c = COMPONENT_VALUE /\ c_ch c = [a; b]
    /\ nth_error h a = Some ca /\ moment ca (fr_when f) /\ c_pos ca = fr_pos f
    /\ nth_error h b = Some cb /\ c_type cb = OPEN_CURLYBRACKET /\ c_ch cb = [i] /\ nth_error h i = Some ci
    /\ (   (c_type ci = LIST /\ fr_list f = [i] /\ c_ch ci = fr_nodes f)
        \/ (c_type ci = COMPONENT_VALUE /\ fr_list f = [] /\ fr_nodes f = [i]))
    /\ Forall2 (field_ok k fuel h) (fr_nodes f) (fr_fields f) /\ (2 * length (fr_nodes f) < fuel)%nat.
(** The node of a frame after: nothing but the moment and the declarations. *)
Definition frame_done (k : rules) (h h' : heap) (f : frame) (d : addr) : Prop :=
  exists ds, nth_error h' d = Some (mkCell FRAME (fr_pos f) false 0 (fr_when f) [] [] ds [] [])
    /\ Forall2 (fun nf e => field_done k h h' (fst nf) (snd nf) e) (combine (fr_nodes f) (fr_fields f)) ds.
(** The nodes of the frames that are emptied. *)
Definition frame_nodes (f : frame) : list addr := fr_list f ++ fr_nodes f.
Definition frames_name (s : str) : Prop := s = zs "keyframes" \/ s = zs "-o-keyframes" \/ s = zs "-webkit-keyframes".

(** What is not a frame. *)
Inductive bad_frame (h : heap) (cv : addr) : Prop :=
| bad_node c : nth_error h cv = Some c -> c_type c <> COMPONENT_VALUE -> bad_frame h cv
| bad_size c : nth_error h cv = Some c -> c_type c = COMPONENT_VALUE -> length (c_ch c) <> 2%nat -> bad_frame h cv
| bad_block c a b cb : nth_error h cv = Some c -> c_type c = COMPONENT_VALUE -> c_ch c = [a; b] -> nth_error h b = Some cb -> c_type cb <> OPEN_CURLYBRACKET -> bad_frame h cv
| bad_content c a b cb : nth_error h cv = Some c -> c_type c = COMPONENT_VALUE -> c_ch c = [a; b] -> nth_error h b = Some cb -> c_type cb = OPEN_CURLYBRACKET -> length (c_ch cb) <> 1%nat -> bad_frame h cv
| bad_item c a b cb i ci : nth_error h cv = Some c -> c_type c = COMPONENT_VALUE -> c_ch c = [a; b] -> nth_error h b = Some cb -> c_type cb = OPEN_CURLYBRACKET -> c_ch cb = [i] ->
    nth_error h i = Some ci -> c_type ci <> LIST -> c_type ci <> COMPONENT_VALUE -> bad_frame h cv
| bad_moment c a ca b cb i ci : nth_error h cv = Some c -> c_type c = COMPONENT_VALUE -> c_ch c = [a; b] -> nth_error h b = Some cb -> c_type cb = OPEN_CURLYBRACKET -> c_ch cb = [i] ->
    nth_error h i = Some ci -> c_type ci = LIST \/ c_type ci = COMPONENT_VALUE -> nth_error h a = Some ca ->
    (   (c_type ca = IDENTIFIER /\ c_str ca <> zs "from" /\ c_str ca <> zs "to")
     \/ (c_type ca = PERCENT /\ (SFltb (c_dec ca) (f64_of_Z 0) = true \/ SFltb (f64_of_Z 1) (c_dec ca) = true))
     \/ (c_type ca <> IDENTIFIER /\ c_type ca <> PERCENT)) -> bad_frame h cv.
