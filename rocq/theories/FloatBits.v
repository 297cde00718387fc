(** * The 64 bits of a double, and the fields of a node which reuse them
    (csspp/node.cpp:403-473)

    node.cpp copies a double in an int64_t through a union (line height) and
    two floats in an int64_t or a double (colours). *)

From Coq Require Import ZArith List Bool Lia Floats.SpecFloat.
From Verif Require Import Base NodeHeap Color.
Import ListNotations.
Open Scope Z_scope.

(** The bits of a double; NaN is the default quiet one. *)
Definition f64_bits (x : f64) : Z :=
  let sign (s : bool) := if s then 9223372036854775808 else 0 in
  match x with
  | S754_zero s => sign s
  | S754_infinity s => sign s + 9218868437227405312
  | S754_nan => 9221120237041090560
  | S754_finite s m e =>
      sign s + (if Z.pos m <? 4503599627370496 then Z.pos m else (e + 1075) * 4503599627370496 + (Z.pos m - 4503599627370496))
  end.
Definition bits_f64 (v : Z) : f64 :=
  let s := 9223372036854775808 <=? v in
  let x := v / 4503599627370496 mod 2048 in
  let f := v mod 4503599627370496 in
  if x =? 2047 then (if f =? 0 then S754_infinity s else S754_nan)
  else if x =? 0 then (match f with Z.pos m => S754_finite s m (-1074) | _ => S754_zero s end)
  else match f + 4503599627370496 with Z.pos m => S754_finite s m (x - 1075) | _ => S754_zero s end.

(** type_supports_color (node.cpp:163-178). *)
Definition has_color (t : ntype) : bool := match t with COLOR => true | _ => false end.

(** node::get_color, set_color (node.cpp:403-442). *)
Definition cell_color (c : cell) : color := load_color (c_int c, f64_bits (c_dec c)).
Definition with_color (c : cell) (k : color) : cell :=
  let st := store_color k in with_dec (with_int c (fst st)) (bits_f64 (snd st)).
Definition get_color (a : addr) : act color :=
  c <- load a ;; supports (has_color (c_type c)) ;;; ret (cell_color c).
Definition set_color (a : addr) (k : color) : act unit :=
  c <- load a ;; supports (has_color (c_type c)) ;;; store a (with_color c k).

(** node::get_line_height, set_line_height (node.cpp:458-473). *)
Definition get_line_height (a : addr) : act f64 :=
  c <- load a ;; supports (has_metrics (c_type c)) ;;; ret (bits_f64 (u64 (c_int c))).
Definition set_line_height (a : addr) (d : f64) : act unit :=
  c <- load a ;; supports (has_metrics (c_type c)) ;;; store a (with_int c (wrap64 (f64_bits d))).
