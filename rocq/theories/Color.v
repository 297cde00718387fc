(** * Colours (csspp/color.cpp, and the colour storage of csspp/node.cpp) *)

From Coq Require Import String ZArith List Bool Floats.SpecFloat.
From Verif Require Import Base DecText DecFmt Lexer.
Import ListNotations.
Open Scope string_scope. Open Scope list_scope. Open Scope Z_scope.

(** [float] arithmetic: IEEE binary32, round to nearest even. *)
Definition f32 := spec_float.
Definition f32_of_Z (z : Z) : f32 := binary_normalize 24 128 z 0 false.
Definition f32_add := SFadd 24 128.
Definition f32_mul := SFmul 24 128.
Definition f32_div := SFdiv 24 128.
Definition f32_half : f32 := f32_div (f32_of_Z 1) (f32_of_Z 2).

(** Conversions between [float] and [double]. *)
Definition f64_of_f32 (x : f32) : f64 :=
  match x with S754_finite s m e => binary_normalize 53 1024 (if s then Z.neg m else Z.pos m) e s | _ => x end.
Definition f32_of_f64 (x : f64) : f32 :=
  match x with S754_finite s m e => binary_normalize 24 128 (if s then Z.neg m else Z.pos m) e s | _ => x end.

(** Conversion of a floating point number to an integer: towards zero; [None]
    for what is not a number. *)
Definition sf_trunc (x : spec_float) : option Z :=
  match x with
  | S754_zero _ => Some 0
  | S754_finite s m e =>
      let v := if 0 <=? e then Z.pos m * 2 ^ e else Z.pos m / 2 ^ (- e) in
      Some (if s then - v else v)
  | _ => None
  end.

(** color_component_to_byte (color.cpp:210-225). [None] is the undefined
    behaviour of converting a number that does not fit in uint8_t. *)
Definition to_byte (c : f32) : option Z :=
  if SFleb (f32_of_Z 1) c then Some 255
  else if SFleb c (f32_of_Z 0) then Some 0
  else match sf_trunc (f32_add (f32_mul c (f32_of_Z 255)) f32_half) with
       | Some v => if (0 <=? v) && (v <=? 255) then Some v else None
       | None => None
       end.

(** The four components (color.h:76-79). *)
Record color := mkColor { c_red : f32; c_green : f32; c_blue : f32; c_alpha : f32 }.

(** color::set_color with int, unsigned int or byte components
    (color.cpp:236-258). *)
Definition component (v : Z) : f32 := f32_div (f32_of_Z v) (f32_of_Z 255).
Definition set_color (r g b a : Z) : color := mkColor (component r) (component g) (component b) (component a).
(** color::set_color(uint32_t) (color.cpp:228-234). *)
Definition set_rgba (v : Z) : color := set_color (v mod 256) (v / 256 mod 256) (v / 65536 mod 256) (v / 16777216 mod 256).

(** The table of names (color.cpp:56-206). *)
Definition color_table : list ((Z * Z * Z * Z) * string) :=
  [
((240, 248, 255, 255), "aliceblue");
   ((250, 235, 215, 255), "antiquewhite");
   ((0, 255, 255, 255), "aqua");
   ((127, 255, 212, 255), "aquamarine");
   ((240, 255, 255, 255), "azure");
   ((245, 245, 220, 255), "beige");
   ((255, 228, 196, 255), "bisque");
   ((0, 0, 0, 255), "black");
   ((255, 235, 205, 255), "blanchedalmond");
   ((0, 0, 255, 255), "blue");
   ((138, 43, 226, 255), "blueviolet");
   ((165, 42, 42, 255), "brown");
   ((222, 184, 135, 255), "burlywood");
   ((95, 158, 160, 255), "cadetblue");
   ((127, 255, 0, 255), "chartreuse");
   ((210, 105, 30, 255), "chocolate");
   ((255, 127, 80, 255), "coral");
   ((100, 149, 237, 255), "cornflowerblue");
   ((255, 248, 220, 255), "cornsilk");
   ((220, 20, 60, 255), "crimson");
   ((0, 255, 255, 255), "cyan");
   ((0, 0, 139, 255), "darkblue");
   ((0, 139, 139, 255), "darkcyan");
   ((184, 134, 11, 255), "darkgoldenrod");
   ((169, 169, 169, 255), "darkgray");
   ((0, 100, 0, 255), "darkgreen");
   ((169, 169, 169, 255), "darkgrey");
   ((189, 183, 107, 255), "darkkhaki");
   ((139, 0, 139, 255), "darkmagenta");
   ((85, 107, 47, 255), "darkolivegreen");
   ((255, 140, 0, 255), "darkorange");
   ((153, 50, 204, 255), "darkorchid");
   ((139, 0, 0, 255), "darkred");
   ((233, 150, 122, 255), "darksalmon");
   ((143, 188, 143, 255), "darkseagreen");
   ((72, 61, 139, 255), "darkslateblue");
   ((47, 79, 79, 255), "darkslategray");
   ((47, 79, 79, 255), "darkslategrey");
   ((0, 206, 209, 255), "darkturquoise");
   ((148, 0, 211, 255), "darkviolet");
   ((255, 20, 147, 255), "deeppink");
   ((0, 191, 255, 255), "deepskyblue");
   ((105, 105, 105, 255), "dimgray");
   ((105, 105, 105, 255), "dimgrey");
   ((30, 144, 255, 255), "dodgerblue");
   ((178, 34, 34, 255), "firebrick");
   ((255, 250, 240, 255), "floralwhite");
   ((34, 139, 34, 255), "forestgreen");
   ((255, 0, 255, 255), "fuchsia");
   ((220, 220, 220, 255), "gainsboro");
   ((248, 248, 255, 255), "ghostwhite");
   ((255, 215, 0, 255), "gold");
   ((218, 165, 32, 255), "goldenrod");
   ((128, 128, 128, 255), "gray");
   ((0, 128, 0, 255), "green");
   ((173, 255, 47, 255), "greenyellow");
   ((128, 128, 128, 255), "grey");
   ((240, 255, 240, 255), "honeydew");
   ((255, 105, 180, 255), "hotpink");
   ((205, 92, 92, 255), "indianred");
   ((75, 0, 130, 255), "indigo");
   ((255, 255, 240, 255), "ivory");
   ((240, 230, 140, 255), "khaki");
   ((230, 230, 250, 255), "lavender");
   ((255, 240, 245, 255), "lavenderblush");
   ((124, 252, 0, 255), "lawngreen");
   ((255, 250, 205, 255), "lemonchiffon");
   ((173, 216, 230, 255), "lightblue");
   ((240, 128, 128, 255), "lightcoral");
   ((224, 255, 255, 255), "lightcyan");
   ((250, 250, 210, 255), "lightgoldenrodyellow");
   ((211, 211, 211, 255), "lightgray");
   ((144, 238, 144, 255), "lightgreen");
   ((211, 211, 211, 255), "lightgrey");
   ((255, 182, 193, 255), "lightpink");
   ((255, 160, 122, 255), "lightsalmon");
   ((32, 178, 170, 255), "lightseagreen");
   ((135, 206, 250, 255), "lightskyblue");
   ((119, 136, 153, 255), "lightslategray");
   ((119, 136, 153, 255), "lightslategrey");
   ((176, 196, 222, 255), "lightsteelblue");
   ((255, 255, 224, 255), "lightyellow");
   ((0, 255, 0, 255), "lime");
   ((50, 205, 50, 255), "limegreen");
   ((250, 240, 230, 255), "linen");
   ((255, 0, 255, 255), "magenta");
   ((128, 0, 0, 255), "maroon");
   ((102, 205, 170, 255), "mediumaquamarine");
   ((0, 0, 205, 255), "mediumblue");
   ((186, 85, 211, 255), "mediumorchid");
   ((147, 112, 219, 255), "mediumpurple");
   ((60, 179, 113, 255), "mediumseagreen");
   ((123, 104, 238, 255), "mediumslateblue");
   ((0, 250, 154, 255), "mediumspringgreen");
   ((72, 209, 204, 255), "mediumturquoise");
   ((199, 21, 133, 255), "mediumvioletred");
   ((25, 25, 112, 255), "midnightblue");
   ((245, 255, 250, 255), "mintcream");
   ((255, 228, 225, 255), "mistyrose");
   ((255, 228, 181, 255), "moccasin");
   ((255, 222, 173, 255), "navajowhite");
   ((0, 0, 128, 255), "navy");
   ((253, 245, 230, 255), "oldlace");
   ((128, 128, 0, 255), "olive");
   ((107, 142, 35, 255), "olivedrab");
   ((255, 165, 0, 255), "orange");
   ((255, 69, 0, 255), "orangered");
   ((218, 112, 214, 255), "orchid");
   ((238, 232, 170, 255), "palegoldenrod");
   ((152, 251, 152, 255), "palegreen");
   ((175, 238, 238, 255), "paleturquoise");
   ((219, 112, 147, 255), "palevioletred");
   ((255, 239, 213, 255), "papayawhip");
   ((255, 218, 185, 255), "peachpuff");
   ((205, 133, 63, 255), "peru");
   ((255, 192, 203, 255), "pink");
   ((221, 160, 221, 255), "plum");
   ((176, 224, 230, 255), "powderblue");
   ((128, 0, 128, 255), "purple");
   ((255, 0, 0, 255), "red");
   ((188, 143, 143, 255), "rosybrown");
   ((65, 105, 225, 255), "royalblue");
   ((139, 69, 19, 255), "saddlebrown");
   ((250, 128, 114, 255), "salmon");
   ((244, 164, 96, 255), "sandybrown");
   ((46, 139, 87, 255), "seagreen");
   ((255, 245, 238, 255), "seashell");
   ((160, 82, 45, 255), "sienna");
   ((192, 192, 192, 255), "silver");
   ((135, 206, 235, 255), "skyblue");
   ((106, 90, 205, 255), "slateblue");
   ((112, 128, 144, 255), "slategray");
   ((112, 128, 144, 255), "slategrey");
   ((255, 250, 250, 255), "snow");
   ((0, 255, 127, 255), "springgreen");
   ((70, 130, 180, 255), "steelblue");
   ((210, 180, 140, 255), "tan");
   ((0, 128, 128, 255), "teal");
   ((216, 191, 216, 255), "thistle");
   ((255, 99, 71, 255), "tomato");
   ((0, 0, 0, 0), "transparent");
   ((64, 224, 208, 255), "turquoise");
   ((238, 130, 238, 255), "violet");
   ((245, 222, 179, 255), "wheat");
   ((255, 255, 255, 255), "white");
   ((245, 245, 245, 255), "whitesmoke");
   ((255, 255, 0, 255), "yellow");
   ((154, 205, 50, 255), "yellowgreen")
  ].
Definition color_names : list ((Z * Z * Z * Z) * str) := map (fun x => (fst x, zs (snd x))) color_table.

(** operator < of std::string (unsigned bytes). *)
Fixpoint str_lt (a b : str) : bool :=
  match a, b with
  | _, [] => false
  | [], _ :: _ => true
  | x :: a', y :: b' => (x <? y) || ((x =? y) && str_lt a' b')
  end.

(** The binary search (color.cpp:280-312); [fuel] bounds the iterations. *)
Fixpoint search (fuel : nat) (name : str) (i j : nat) : option (Z * Z * Z * Z) :=
  match fuel with
  | O => None
  | S f =>
      if (i <? j)%nat then
        let p := ((j - i) / 2 + i)%nat in
        let '(v, n) := nth p color_names ((0, 0, 0, 0), []) in
        if str_eqb n name then Some v
        else if str_lt n name then search f name (p + 1) j
        else search f name i p
      else None
  end.
Definition find_name (name : str) : option (Z * Z * Z * Z) :=
  search (S (length color_names)) name 0 (length color_names).

(** lexer::hex_to_dec on a digit (lexer.cpp:745-762). *)
Definition hex_value (c : Z) : Z :=
  if is_digit c then c - 48 else if (65 <=? c) && (c <=? 70) then c - 65 + 10 else c - 97 + 10.

(** color::set_color(name, name_only) (color.cpp:276-352). *)
Definition set_named (name : str) (name_only : bool) : option color :=
  match find_name name with
  | Some (r, g, b, a) => Some (set_color r g b a)
  | None =>
      if name_only then None
      else match name with
           | [a; b; c] =>
               if is_hex a && is_hex b && is_hex c
               then Some (set_color (hex_value a * 17) (hex_value b * 17) (hex_value c * 17) 255)
               else None
           | [a; b; c; d; e; f] =>
               if is_hex a && is_hex b && is_hex c && is_hex d && is_hex e && is_hex f
               then Some (set_color (hex_value a * 16 + hex_value b) (hex_value c * 16 + hex_value d) (hex_value e * 16 + hex_value f) 255)
               else None
           | _ => None
           end
  end.

(** color::get_color (color.cpp:467-475): the four bytes, or [None]: undefined. *)
Definition get_bytes (c : color) : option (Z * Z * Z * Z) :=
  match to_byte (c_red c), to_byte (c_green c), to_byte (c_blue c), to_byte (c_alpha c) with
  | Some r, Some g, Some b, Some a => Some (r, g, b, a)
  | _, _, _, _ => None
  end.
Definition get_color (c : color) : option Z :=
  match get_bytes c with
  | Some (r, g, b, a) => Some (r + 256 * g + 65536 * b + 16777216 * a)
  | None => None
  end.

(** color::is_solid, is_transparent (color.cpp:485-493). *)
Definition is_solid (c : color) : bool := SFleb (f32_of_Z 1) (c_alpha c).
Definition is_transparent (c : color) : bool := SFleb (c_alpha c) (f32_of_Z 0).

(** A hexadecimal digit as printed with std::hex. *)
Definition hex_char (v : Z) : Z := if v <? 10 then 48 + v else 97 + v - 10.
Definition hex2 (v : Z) : str := [hex_char (v / 16); hex_char (v mod 16)].

(** color::to_string (color.cpp:495-586). The switch on the 32 bit value is a
    test on the three bytes since alpha is 255 there. [None]: undefined. *)
Definition short_names : list ((Z * Z * Z) * string) :=
  [ ((192, 192, 192), "silver"); ((128, 128, 128), "gray"); ((128, 0, 0), "maroon"); ((255, 0, 0), "red");
    ((128, 0, 128), "purple"); ((0, 128, 0), "green"); ((0, 255, 0), "lime"); ((128, 128, 0), "olive");
    ((0, 0, 128), "navy"); ((0, 0, 255), "blue"); ((0, 128, 128), "teal"); ((0, 255, 255), "aqua") ].
Fixpoint short_name (l : list ((Z * Z * Z) * string)) (r g b : Z) : option string :=
  match l with
  | [] => None
  | ((r0, g0, b0), n) :: t => if (r =? r0) && (g =? g0) && (b =? b0) then Some n else short_name t r g b
  end.
Definition solid_text (r g b : Z) : str :=
  match short_name short_names r g b with
  | Some n => zs n
  | None =>
      if (r / 16 =? r mod 16) && (g / 16 =? g mod 16) && (b / 16 =? b mod 16)
      then 35 :: [hex_char (r mod 16); hex_char (g mod 16); hex_char (b mod 16)]
      else 35 :: hex2 r ++ hex2 g ++ hex2 b
  end.
Definition to_string (lm : libm) (c : color) : option str :=
  match get_bytes c with
  | None => None
  | Some (r, g, b, a) =>
      Some (if a =? 255 then solid_text r g b
            else if a =? 0 then zs "transparent"
            else zs "rgba(" ++ nat_text r ++ zs "," ++ nat_text g ++ zs "," ++ nat_text b ++ zs ","
                 ++ decimal_number_to_string lm 2 (f64_of_f32 (c_alpha c)) true ++ zs ")")
  end.

(** The colour that a token stands for in an expression
    (expr_unary.cpp:243-302): a hash, or an identifier other than null, true
    and false. *)
Definition token_color (n : node) : option color :=
  match n_type n with
  | HASH => set_named (n_str n) false
  | IDENTIFIER =>
      if str_eqb (n_str n) (zs "null") || str_eqb (n_str n) (zs "true") || str_eqb (n_str n) (zs "false") then None
      else set_named (n_str n) true
  | _ => None
  end.

(** ** Storage of a colour in a node (node.cpp:403-442)

    The union of the code reuses [f_integer] for two floats and
    [f_decimal_number] for two others: the first float is in the low 32 bits.
    Here the two fields are 64 bit patterns and a float is a 32 bit pattern. *)
Definition pack2 (a b : Z) : Z := a + 4294967296 * b.
Definition low32 (v : Z) : Z := v mod 4294967296.
Definition high32 (v : Z) : Z := v / 4294967296 mod 4294967296.
(** The bits of a float; NaN is the default quiet one. *)
Definition f32_bits (x : f32) : Z :=
  let sign (s : bool) := if s then 2147483648 else 0 in
  match x with
  | S754_zero s => sign s
  | S754_infinity s => sign s + 2139095040
  | S754_nan => 2143289344
  | S754_finite s m e =>
      sign s + (if Z.pos m <? 8388608 then Z.pos m else (e + 150) * 8388608 + (Z.pos m - 8388608))
  end.
Definition bits_f32 (v : Z) : f32 :=
  let s := 2147483648 <=? v in
  let x := v / 8388608 mod 256 in
  let f := v mod 8388608 in
  if x =? 255 then (if f =? 0 then S754_infinity s else S754_nan)
  else if x =? 0 then (match f with Z.pos m => S754_finite s m (-149) | _ => S754_zero s end)
  else match f + 8388608 with Z.pos m => S754_finite s m (x - 150) | _ => S754_zero s end.
(** node::set_color and node::get_color: the pair of [f_integer] (as int64_t)
    and the bits of [f_decimal_number]. *)
Definition store_color (c : color) : Z * Z :=
  (wrap64 (pack2 (f32_bits (c_red c)) (f32_bits (c_green c))), pack2 (f32_bits (c_blue c)) (f32_bits (c_alpha c))).
Definition load_color (st : Z * Z) : color :=
  let i := u64 (fst st) in let d := snd st in
  mkColor (bits_f32 (low32 i)) (bits_f32 (high32 i)) (bits_f32 (low32 d)) (bits_f32 (high32 d)).
