(** * Hue, saturation and lightness (csspp/color.cpp:354-465) *)

From Coq Require Import ZArith List Bool Floats.SpecFloat.
From Verif Require Import Base Color Expr.
Import ListNotations.
Open Scope Z_scope.

(** M_PI. *)
Definition m_pi : f64 := S754_finite false 7074237752028440 (-51).
Definition f_one : f64 := f64_of_Z 1.
Definition f_two : f64 := f64_of_Z 2.
Definition f_zero : f64 := f64_of_Z 0.
Definition two_pi : f64 := f64_mul m_pi f_two.
(** 1.0 - fabs(2.0 * lightness - 1.0). *)
Definition tent (lightness : f32) : f64 :=
  f64_sub f_one (SFabs (f64_sub (f64_mul f_two (f64_of_f32 lightness)) f_one)).

(** color::set_hsl (color.cpp:354-412). *)
Definition set_hsl (hue saturation lightness alpha : f32) : color :=
  let chroma := f64_mul (tent lightness) (f64_of_f32 saturation) in
  let h1 := f64_div (f64_mul (f64_of_Z 6) (f64_fmod (f64_of_f32 hue) two_pi)) two_pi in
  let x := f64_mul chroma (f64_sub f_one (SFabs (f64_sub (f64_fmod h1 f_two) f_one))) in
  let z := f_zero in
  let between i := SFleb (f64_of_Z i) h1 && SFltb h1 (f64_of_Z (i + 1)) in
  let '(r, g, b) :=
    if between 0 then (chroma, x, z)
    else if between 1 then (x, chroma, z)
    else if between 2 then (z, chroma, x)
    else if between 3 then (z, x, chroma)
    else if between 4 then (x, z, chroma)
    else if between 5 then (chroma, z, x)
    else (z, z, z) in
  let half := f64_div f_one f_two in
  let m := f64_sub (f64_of_f32 lightness) (f64_mul half chroma) in
  mkColor (f32_of_f64 (f64_add r m)) (f32_of_f64 (f64_add g m)) (f32_of_f64 (f64_add b m)) alpha.

(** std::max and std::min. *)
Definition f32_max (a b : f32) : f32 := if SFltb a b then b else a.
Definition f32_min (a b : f32) : f32 := if SFltb b a then b else a.
(** color::get_hsl (color.cpp:414-465): hue, saturation, lightness. *)
Definition get_hsl (k : color) : f32 * f32 * f32 :=
  let red := c_red k in let green := c_green k in let blue := c_blue k in
  let maximum := f64_of_f32 (f32_max red (f32_max green blue)) in
  let minimum := f64_of_f32 (f32_min red (f32_min green blue)) in
  let chroma := f64_sub maximum minimum in
  let hue :=
    if SFeqb chroma f_zero then f32_of_Z 0
    else if SFeqb maximum (f64_of_f32 red) then
      f32_of_f64 (f64_div (f64_of_f32 (f32_sub green blue)) chroma)
    else if SFeqb maximum (f64_of_f32 green) then
      f32_of_f64 (f64_add (f64_div (f64_of_f32 (f32_sub blue red)) chroma) f_two)
    else f32_of_f64 (f64_add (f64_div (f64_of_f32 (f32_sub red green)) chroma) (f64_of_Z 4)) in
  let hue := if SFltb hue (f32_of_Z 0) then f32_of_f64 (f64_add (f64_of_f32 hue) (f64_of_Z 6)) else hue in
  let hue := f32_of_f64 (f64_mul (f64_mul (f64_div (f64_fmod (f64_of_f32 hue) (f64_of_Z 6)) (f64_of_Z 6)) m_pi) f_two) in
  let lightness := f32_of_f64 (f64_div (f64_add minimum maximum) f_two) in
  let saturation :=
    if SFeqb lightness (f32_of_Z 0) || SFeqb lightness (f32_of_Z 1) then f32_of_Z 0
    else f32_of_f64 (f64_div chroma (f64_sub f_one (SFabs (f64_sub (f64_mul (f64_of_f32 lightness) f_two) f_one)))) in
  (hue, saturation, lightness).
