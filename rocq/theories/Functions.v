(** * The functions of expressions (csspp/internal_functions.cpp)

    A function receives the FUNCTION node once its arguments were split (one
    node ARG per argument) and evaluated.

    Not modelled: the text of the message sent when the number of parameters is
    wrong (its numbers are left out). *)

From Coq Require Import String ZArith List Bool Floats.SpecFloat.
From Verif Require Lexer.
From Verif Require Import Base UnicodeRange NodeHeap DecText DecFmt Color FloatBits Dim Expr Hsl.
Import ListNotations.
Open Scope string_scope. Open Scope list_scope. Open Scope Z_scope.

(** What comes from outside: libm; the text of a double sent to a
    std::stringstream; node::to_string of an ARG; rand(); the variable handler
    (expression.h: get_variable, execute_user_function). Nothing is assumed
    about them. *)
Record fenv := mkFE
  { f_libm : libm;
    f_acos : f64 -> f64; f_asin : f64 -> f64; f_atan : f64 -> f64;
    f_cos : f64 -> f64; f_sin : f64 -> f64; f_tan : f64 -> f64; f_log : f64 -> f64;
    f_rand : Z;
    f_precision : Z;
    f_show : f64 -> str;
    f_inspect : addr -> heap -> str;
    f_variable : str -> bool -> E (option addr);
    f_user : addr -> E (option addr) }.

(** ** Access to the arguments (internal_functions.cpp:89-237) *)

(** internal_function__get_any. *)
Definition get_any (func : addr) (n : Z) : E (option addr) :=
  k <- lift (size func) ;;
  if k <=? n then ret None
  else
    a <- lift (get_child func n) ;; m <- lift (size a) ;;
    if m =? 1 then c <- lift (get_child a 0) ;; ret (Some c) else ret None.
(** The argument when it has one of the types. *)
Definition get_typed (ok : ntype -> bool) (func : addr) (n : Z) : E (option addr) :=
  o <- get_any func n ;;
  match o with
  | None => ret None
  | Some a => t <- type_of a ;; ret (if ok t then Some a else None)
  end.
(** internal_function__get_color. *)
Definition get_color_arg (func : addr) (n : Z) : E (option (addr * color)) :=
  o <- get_typed (fun t => ntype_eqb t COLOR) func n ;;
  match o with None => ret None | Some a => k <- color_of a ;; ret (Some (a, k)) end.
(** The value of a number as a double. *)
Definition number_value (a : addr) : E f64 :=
  t <- type_of a ;;
  if ntype_eqb t INTEGER then i <- integer_of a ;; ret (f64_of_Z i) else decimal_of a.
(** internal_function__get_number. *)
Definition get_number (func : addr) (n : Z) : E (option (addr * f64)) :=
  o <- get_typed (fun t => ntype_eqb t INTEGER || ntype_eqb t DECIMAL_NUMBER) func n ;;
  match o with None => ret None | Some a => v <- number_value a ;; ret (Some (a, v)) end.
(** internal_function__get_number_or_percent. *)
Definition get_number_or_percent (func : addr) (n : Z) : E (option (addr * f64)) :=
  o <- get_typed (fun t => ntype_eqb t INTEGER || ntype_eqb t DECIMAL_NUMBER || ntype_eqb t PERCENT) func n ;;
  match o with None => ret None | Some a => v <- number_value a ;; ret (Some (a, v)) end.
(** internal_function__get_string. *)
Definition get_string_arg (func : addr) (n : Z) : E (option (addr * str)) :=
  o <- get_typed (fun t => ntype_eqb t STRING) func n ;;
  match o with None => ret None | Some a => v <- string_of a ;; ret (Some (a, v)) end.
(** internal_function__get_string_or_identifier. *)
Definition get_name (func : addr) (n : Z) : E (option (addr * str)) :=
  o <- get_typed (fun t => ntype_eqb t IDENTIFIER || ntype_eqb t STRING) func n ;;
  match o with None => ret None | Some a => v <- string_of a ;; ret (Some (a, v)) end.

(** An error at the current token; no result. *)
Definition wrong (text : string) : E (option addr) := p <- cur_pos ;; refuse p text.
(** New nodes. *)
Definition make_integer (p : position) (v : Z) (unit : str) : E (option addr) :=
  r <- alloc INTEGER p ;; lift (set_integer r v) ;;; lift (set_string r unit) ;;; ret (Some r).
Definition make_decimal (t : ntype) (p : position) (v : f64) : E addr :=
  r <- alloc t p ;; lift (set_decimal_number r v) ;;; ret r.
(** A number which holds a double: itself, or a new node for an integer. *)
Definition as_decimal (a : addr) : E addr :=
  t <- type_of a ;; if ntype_eqb t INTEGER then p <- pos_of a ;; alloc DECIMAL_NUMBER p else ret a.

(** ** Numbers *)

(** ceil, floor and round of libm, which are exact: [up] tells whether the
    magnitude of what is not an integer goes up. *)
Definition to_integral (up : bool -> Z -> Z -> bool) (x : f64) : f64 :=
  match x with
  | S754_finite s m e =>
      if 0 <=? e then x
      else
        let q := Z.pos m / 2 ^ (- e) in
        let r := Z.pos m mod 2 ^ (- e) in
        let v := if negb (r =? 0) && up s r (2 ^ (- e)) then q + 1 else q in
        if v =? 0 then S754_zero s else f64_of_Z (if s then - v else v)
  | _ => x
  end.
Definition f64_ceil := to_integral (fun s _ _ => negb s).
Definition f64_floor := to_integral (fun s _ _ => s).
Definition f64_round := to_integral (fun _ r one => one <=? 2 * r).

(** internal_function__abs (:239-262); labs() of the smallest integer is undefined. *)
Definition fn_abs (func : addr) : E (option addr) :=
  o <- get_number func 0 ;;
  match o with
  | None => wrong "abs() expects a number as parameter."
  | Some (a, _) =>
      t <- type_of a ;;
      (if ntype_eqb t INTEGER then i <- integer_of a ;; v <- int64 (Z.abs i) ;; lift (set_integer a v)
       else d <- decimal_of a ;; lift (set_decimal_number a (SFabs d))) ;;;
      ret (Some a)
  end.
(** internal_function__acos, asin, atan (:264-286, 312-358). *)
Definition fn_arc (f : f64 -> f64) (message : string) (func : addr) : E (option addr) :=
  o <- get_number func 0 ;;
  match o with
  | None => wrong message
  | Some (a, n) =>
      r <- as_decimal a ;; lift (set_decimal_number r (f n)) ;;; lift (set_string r (zs "rad")) ;;; ret (Some r)
  end.
(** internal_function__ceil, floor, round (:384-403, 516-535, 1400-1419). *)
Definition fn_integral (f : f64 -> f64) (message : string) (func : addr) : E (option addr) :=
  o <- get_number func 0 ;;
  match o with
  | None => wrong message
  | Some (a, _) =>
      t <- type_of a ;;
      (if ntype_eqb t DECIMAL_NUMBER then d <- decimal_of a ;; lift (set_decimal_number a (f d)) else ret tt) ;;;
      ret (Some a)
  end.
(** dimension_to_radians (:46-77). *)
Definition to_radians (p : position) (n : f64) (unit : str) : E f64 :=
  if str_eqb unit (zs "rad") then ret n
  else if str_eqb unit (zs "deg") || str_eqb unit [] then ret (f64_div (f64_mul n m_pi) (f64_of_Z 180))
  else if str_eqb unit (zs "grad") then ret (f64_div (f64_mul n m_pi) (f64_of_Z 200))
  else if str_eqb unit (zs "turn") then ret (f64_mul (f64_mul n m_pi) f_two)
  else report p "trigonometry functions expect an angle (deg, grad, rad, turn) as a parameter." ;;; ret n.
(** internal_function__cos, sin, tan (:405-432, 1470-1497, 1679-1706). *)
Definition fn_trig (f : f64 -> f64) (message : string) (func : addr) : E (option addr) :=
  o <- get_number func 0 ;;
  match o with
  | None => wrong message
  | Some (a, n) =>
      unit <- string_of a ;; t <- type_of a ;;
      r <- (if ntype_eqb t INTEGER then p <- pos_of a ;; alloc DECIMAL_NUMBER p
            else lift (set_string a []) ;;; ret a) ;;
      p <- pos_of func ;; v <- to_radians p n unit ;;
      lift (set_decimal_number r (f v)) ;;; ret (Some r)
  end.
(** internal_function__log (:1010-1046). *)
Definition fn_log (env : fenv) (func : addr) : E (option addr) :=
  o <- get_number func 0 ;;
  match o with
  | None => wrong "log() expects a number as parameter."
  | Some (a, n) =>
      unit <- string_of a ;;
      match unit with
      | _ :: _ => wrong "log() expects a unit less number as parameter."
      | [] =>
          if SFleb n f_zero then wrong "log() expects a positive number as parameter."
          else r <- as_decimal a ;; lift (set_decimal_number r (f_log env n)) ;;; ret (Some r)
      end
  end.
(** internal_function__sign (:1445-1468). *)
Definition fn_sign (func : addr) : E (option addr) :=
  o <- get_number_or_percent func 0 ;;
  match o with
  | None => wrong "sign() expects a number as parameter."
  | Some (a, n) =>
      let v := if SFltb n f_zero then -1 else if SFltb f_zero n then 1 else 0 in
      t <- type_of a ;;
      (if ntype_eqb t INTEGER then lift (set_integer a v) else lift (set_decimal_number a (f64_of_Z v))) ;;;
      ret (Some a)
  end.
(** The two loops of internal_function__sqrt (:1524-1569): from the last entry;
    each one must be there twice. *)
Fixpoint halve (fuel : nat) (l : list str) : option (list str) :=
  match fuel with
  | O => Some []
  | S f =>
      match rev l with
      | [] => Some []
      | x :: _ =>
          match remove_first x (removelast l) with
          | None => None
          | Some l' => match halve f l' with Some h => Some (x :: h) | None => None end
          end
      end
  end.
Definition half_dimension (up down : list str) : str :=
  if Nat.even (length up) && Nat.even (length down) then
    match halve (length up) up with
    | None => []
    | Some u => match halve (length down) down with None => [] | Some d => rebuild u d end
    end
  else [].
(** internal_function__sqrt (:1499-1605). *)
Definition fn_sqrt (func : addr) : E (option addr) :=
  o <- get_number func 0 ;;
  match o with
  | None => wrong "sqrt() expects a number as parameter."
  | Some (a, n) =>
      if SFltb n f_zero then wrong "sqrt() expects zero or a positive number."
      else
        unit <- string_of a ;;
        u <- (match unit with
              | [] => ret (Some [])
              | _ =>
                  p <- pos_of a ;;
                  let '(up, down, e) := dim_vectors unit [] [] in
                  report_dims p (match e with Some x => [x] | None => [] end) ;;;
                  ret (match half_dimension up down with [] => None | d => Some d end)
              end) ;;
        match u with
        | None => wrong "sqrt() expects dimensions to be squarely defined (i.e. 'px * px')."
        | Some d =>
            r <- as_decimal a ;; lift (set_decimal_number r (SFsqrt 53 1024 n)) ;;; lift (set_string r d) ;;; ret (Some r)
        end
  end.
(** internal_function__max, min (:1048-1170). [better r m]: [r] replaces [m]. *)
Section Extreme.
  Variable name : string.
  Variable better : f64 -> f64 -> bool.
  Fixpoint extreme_loop (fuel : nat) (func : addr) (idx : Z) (best : option addr) (value : f64) (unit : str) : E (option addr) :=
    match fuel with
    | O => fun _ => NoFuel
    | S f =>
        k <- lift (size func) ;;
        if k <=? idx then ret best
        else
          o <- get_number_or_percent func idx ;;
          match o with
          | None =>
              p <- cur_pos ;; report p (name ++ "() expects any number of numbers.") ;;;
              extreme_loop f func (idx + 1) best value unit
          | Some (a, n) =>
              t <- type_of a ;;
              u <- (if ntype_eqb t PERCENT then ret (zs "%") else string_of a) ;;
              (if (idx =? 0) || str_eqb unit u then ret tt
               else p <- cur_pos ;; report p (name ++ "() expects all numbers to have the same dimension.")) ;;;
              let unit := if idx =? 0 then u else unit in
              if (idx =? 0) || better n value then extreme_loop f func (idx + 1) (Some a) n unit
              else extreme_loop f func (idx + 1) best value unit
          end
    end.
  Definition extreme (func : addr) : E (option addr) :=
    k <- lift (size func) ;; extreme_loop (S (Z.to_nat k)) func 0 None f_zero [].
End Extreme.
Definition fn_max := extreme "max" (fun r m => SFltb m r).
Definition fn_min := extreme "min" (fun r m => SFltb r m).
(** internal_function__random (:1389-1398). *)
Definition fn_random (env : fenv) (func : addr) : E (option addr) :=
  p <- pos_of func ;;
  r <- make_decimal DECIMAL_NUMBER p (f64_div (f64_of_Z (f_rand env)) (f64_add (f64_of_Z 2147483647) f_one)) ;;
  ret (Some r).
(** internal_function__unit (:1805-1829). *)
Definition fn_unit (func : addr) : E (option addr) :=
  o <- get_number_or_percent func 0 ;;
  match o with
  | None => wrong "unit() expects a number as parameter."
  | Some (a, _) =>
      p <- pos_of func ;; t <- type_of a ;;
      u <- (if ntype_eqb t PERCENT then ret (zs "%") else string_of a) ;;
      new_string p u
  end.

(** ** Conversions *)

(** The first token of the text, or the second one after a white space; the
    messages of the lexer go to the same place. *)
Definition first_number (env : fenv) (text : str) (p : position) : E node := fun s =>
  let back {A} (x : A) (l : Lexer.lexst) := Ret x (with_msgs s (e_msgs s ++ rev (Lexer.l_log l))) in
  match Lexer.next_token (f_libm env) (Lexer.new_lexer text p) with
  | Ret n l =>
      if is n WHITESPACE then
        match Lexer.next_token (f_libm env) l with
        | Ret m l' => back m l'
        | Throw e l' => Throw e (with_msgs s (e_msgs s ++ rev (Lexer.l_log l')))
        | Undef l' => Undef (with_msgs s (e_msgs s ++ rev (Lexer.l_log l')))
        | NoFuel => NoFuel
        end
      else back n l
  | Throw e l => Throw e (with_msgs s (e_msgs s ++ rev (Lexer.l_log l)))
  | Undef l => Undef (with_msgs s (e_msgs s ++ rev (Lexer.l_log l)))
  | NoFuel => NoFuel
  end.
(** The node of a token (which has no children). *)
Definition token_node (n : node) : E addr := fun s =>
  Ret (length (e_heap s))
    (with_heap s (e_heap s ++ [mkCell (n_type n) (n_pos n) (n_bool n) (n_int n) (n_dec n) (n_str n) (n_low n) [] [] []])).

(** internal_function__decimal_number, integer, percentage (:434-514, 904-984,
    1192-1270): convert the double or the integer and its unit to a new node.
    [same]: the type which is returned as is. *)
Section Convert.
  Variable env : fenv.
  Variable same : ntype.
  Variables of_integer of_decimal of_percent : position -> cell -> E (option addr).
  Variables bad_string bad_value : string.
  Definition convert (func : addr) : E (option addr) :=
    o <- get_any func 0 ;;
    match o with
    | None => wrong bad_value
    | Some a =>
        c <- read a ;;
        if ntype_eqb (c_type c) same then ret (Some a)
        else match c_type c with
             | DECIMAL_NUMBER => of_decimal (c_pos c) c
             | PERCENT => of_percent (c_pos c) c
             | INTEGER => of_integer (c_pos c) c
             | IDENTIFIER | STRING | URL =>
                 n <- first_number env (c_str c) (c_pos c) ;;
                 let d := mkCell (n_type n) (n_pos n) (n_bool n) (n_int n) (n_dec n) (n_str n) (n_low n) [] [] [] in
                 if is n same then r <- token_node n ;; ret (Some r)
                 else match n_type n with
                      | DECIMAL_NUMBER => of_decimal (c_pos c) d
                      | PERCENT => of_percent (c_pos c) d
                      | INTEGER => of_integer (c_pos c) d
                      | _ => wrong bad_string
                      end
             | _ => wrong bad_value
             end
    end.
End Convert.
Definition never (p : position) (c : cell) : E (option addr) := ret None.
Definition decimal_of_integer (p : position) (c : cell) : E (option addr) :=
  r <- make_decimal DECIMAL_NUMBER p (f64_of_Z (c_int c)) ;; lift (set_string r (c_str c)) ;;; ret (Some r).
Definition decimal_of_percent (p : position) (c : cell) : E (option addr) :=
  r <- make_decimal DECIMAL_NUMBER p (c_dec c) ;; ret (Some r).
Definition fn_decimal_number (env : fenv) : addr -> E (option addr) :=
  convert env DECIMAL_NUMBER decimal_of_integer never decimal_of_percent
    "decimal_number() expects a string parameter to represent a valid integer, decimal number, or percent value."
    "decimal_number() expects one value as parameter.".
Definition integer_of_decimal (p : position) (c : cell) : E (option addr) :=
  v <- to_int64 (c_dec c) ;; make_integer p v (c_str c).
Definition integer_of_percent (p : position) (c : cell) : E (option addr) :=
  v <- to_int64 (c_dec c) ;; make_integer p v [].
Definition fn_integer (env : fenv) : addr -> E (option addr) :=
  convert env INTEGER never integer_of_decimal integer_of_percent
    "decimal_number() expects a string parameter to represent a valid integer, decimal number, or percent value."
    "integer() expects one value as parameter.".
Definition percent_of_integer (p : position) (c : cell) : E (option addr) :=
  r <- make_decimal PERCENT p (f64_of_Z (c_int c)) ;; ret (Some r).
Definition percent_of_decimal (p : position) (c : cell) : E (option addr) :=
  r <- make_decimal PERCENT p (c_dec c) ;; ret (Some r).
Definition fn_percentage (env : fenv) : addr -> E (option addr) :=
  convert env PERCENT percent_of_integer percent_of_decimal never
    "percentage() expects a string parameter to represent a valid integer, decimal number, or percent value."
    "percentage() expects one value as parameter.".

(** node::to_string of numbers and colours (node.cpp:795-800, 846-849, 925-928,
    989-991): the sign is written when the flag of the node is set and
    [f_integer] is not negative, whatever the type is. *)
Definition number_text (env : fenv) (c : cell) : E str :=
  let plus := if c_bool c && (0 <=? c_int c) then zs "+" else [] in
  match c_type c with
  | INTEGER => ret (plus ++ int_text (c_int c) ++ c_str c)
  | DECIMAL_NUMBER => ret (plus ++ f_show env (c_dec c) ++ c_str c)
  | PERCENT => ret (plus ++ decimal_number_to_string (f_libm env) (f_precision env) (f64_mul (c_dec c) (f64_of_Z 100)) false ++ zs "%")
  | COLOR => match Color.to_string (f_libm env) (cell_color c) with Some t => ret t | None => undef end
  | _ => ret []
  end.
(** internal_function__identifier, string (:815-856, 1607-1648). *)
Definition fn_text (env : fenv) (same : ntype) (bad_value : string) (func : addr) : E (option addr) :=
  o <- get_any func 0 ;;
  match o with
  | None => wrong bad_value
  | Some a =>
      c <- read a ;;
      if ntype_eqb (c_type c) same then ret (Some a)
      else match c_type c with
           | COLOR | DECIMAL_NUMBER | INTEGER | PERCENT =>
               t <- number_text env c ;; r <- alloc same (c_pos c) ;; lift (set_string r t) ;;; ret (Some r)
           | IDENTIFIER | STRING | URL => r <- alloc same (c_pos c) ;; lift (set_string r (c_str c)) ;;; ret (Some r)
           | _ => wrong bad_value
           end
  end.
Definition fn_identifier (env : fenv) := fn_text env IDENTIFIER "identifier() expects one value as parameter.".
Definition fn_string (env : fenv) := fn_text env STRING "string() expects one value as parameter.".
(** internal_function__inspect (:891-902). *)
Definition fn_inspect (env : fenv) (func : addr) : E (option addr) :=
  a <- lift (get_child func 0) ;; p <- pos_of a ;;
  t <- (fun s => Ret (f_inspect env a (e_heap s)) s) ;; new_string p t.
(** internal_function__str_length (:1650-1677): the bytes that are not the
    continuation of a character, up to a NUL. *)
Fixpoint utf8_length (s : str) : Z :=
  match s with
  | [] => 0
  | b :: r => if b =? 0 then 0 else (if (b <? 128) || (192 <=? b) then 1 else 0) + utf8_length r
  end.
Definition fn_str_length (func : addr) : E (option addr) :=
  o <- get_string_arg func 0 ;;
  match o with
  | None => wrong "str_length() expects one string as parameter."
  | Some (_, s) => p <- pos_of func ;; r <- alloc INTEGER p ;; lift (set_integer r (utf8_length s)) ;;; ret (Some r)
  end.
(** internal_function__type_of (:1742-1803). *)
Definition type_name (t : ntype) : string :=
  match t with
  | ARRAY | LIST => "list"
  | BOOLEAN => "bool"
  | COLOR => "color"
  | DECIMAL_NUMBER | PERCENT => "number"
  | IDENTIFIER => "identifier"
  | INTEGER => "integer"
  | MAP => "map"
  | STRING => "string"
  | UNICODE_RANGE => "unicode-range"
  | _ => "undefined"
  end.
Definition fn_type_of (func : addr) : E (option addr) :=
  o <- get_any func 0 ;;
  match o with
  | None => wrong "type_of() expects one value as a parameter."
  | Some a => p <- pos_of func ;; t <- type_of a ;; new_string p (zs (type_name t))
  end.

(** ** Colours *)

(** internal_function__red, green, blue (:360-382, 665-687, 1272-1294). *)
Definition fn_component (f : color -> f32) (message : string) (func : addr) : E (option addr) :=
  o <- get_color_arg func 0 ;;
  match o with
  | None => wrong message
  | Some (_, k) =>
      p <- pos_of func ;; r <- alloc INTEGER p ;;
      v <- to_int64 (f64_add (f64_mul (f64_of_f32 (f k)) (f64_of_Z 255)) (f64_div f_one f_two)) ;;
      lift (set_integer r v) ;;; ret (Some r)
  end.
(** internal_function__alpha (:288-310). *)
Definition fn_alpha (func : addr) : E (option addr) :=
  o <- get_color_arg func 0 ;;
  match o with
  | None => wrong "alpha() expects a color as parameter."
  | Some (_, k) => p <- pos_of func ;; r <- make_decimal DECIMAL_NUMBER p (f64_of_f32 (c_alpha k)) ;; ret (Some r)
  end.
(** internal_function__hue (:790-813). *)
Definition fn_hue (func : addr) : E (option addr) :=
  o <- get_color_arg func 0 ;;
  match o with
  | None => wrong "hue() expects a color as parameter."
  | Some (_, k) =>
      p <- pos_of func ;;
      r <- make_decimal DECIMAL_NUMBER p (f64_div (f64_mul (f64_of_f32 (fst (fst (get_hsl k)))) (f64_of_Z 180)) m_pi) ;;
      lift (set_string r (zs "deg")) ;;; ret (Some r)
  end.
(** internal_function__saturation, lightness (:986-1008, 1421-1443). *)
Definition fn_percent (f : color -> f32) (message : string) (func : addr) : E (option addr) :=
  o <- get_color_arg func 0 ;;
  match o with
  | None => wrong message
  | Some (_, k) => p <- pos_of func ;; r <- make_decimal PERCENT p (f64_of_f32 (f k)) ;; ret (Some r)
  end.
(** internal_function__rgb, frgb (:537-580, 1296-1339). *)
Definition byte_scale (x : f64) : f64 := f64_div x (f64_of_Z 255).
Definition fn_rgb (scale : f64 -> f64) (message : string) (func : addr) : E (option addr) :=
  o <- get_color_arg func 0 ;;
  match o with
  | Some (a, k) => lift (set_color a (mkColor (c_red k) (c_green k) (c_blue k) (f32_of_Z 1))) ;;; ret (Some a)
  | None =>
      r <- get_number func 0 ;; g <- get_number func 1 ;; b <- get_number func 2 ;;
      match r, g, b with
      | Some (_, r), Some (_, g), Some (_, b) =>
          p <- pos_of func ;;
          new_color p (mkColor (f32_of_f64 (scale r)) (f32_of_f64 (scale g)) (f32_of_f64 (scale b)) (f32_of_Z 1))
      | _, _, _ => wrong message
      end
  end.
(** internal_function__rgba, frgba (:582-628, 1341-1387). *)
Definition fn_rgba (scale : f64 -> f64) (message : string) (func : addr) : E (option addr) :=
  o <- get_color_arg func 0 ;; w <- get_number func 1 ;;
  match o, w with
  | Some (a, k), Some (_, al) =>
      lift (set_color a (mkColor (c_red k) (c_green k) (c_blue k) (f32_of_f64 al))) ;;; ret (Some a)
  | _, _ =>
      r <- get_number func 0 ;; g <- get_number func 1 ;; b <- get_number func 2 ;; al <- get_number func 3 ;;
      match r, g, b, al with
      | Some (_, r), Some (_, g), Some (_, b), Some (_, al) =>
          p <- pos_of func ;;
          new_color p (mkColor (f32_of_f64 (scale r)) (f32_of_f64 (scale g)) (f32_of_f64 (scale b)) (f32_of_f64 al))
      | _, _, _, _ => wrong message
      end
  end.
(** internal_function__hsl, hsla (:724-788). *)
Definition fn_hsl (alpha : bool) (message : string) (func : addr) : E (option addr) :=
  h <- get_number func 0 ;; s <- get_number_or_percent func 1 ;; l <- get_number_or_percent func 2 ;;
  al <- (if alpha then get_number func 3 else ret (Some (func, f_one))) ;;
  match h, s, l, al with
  | Some (a, h), Some (_, s), Some (_, l), Some (_, al) =>
      p <- pos_of func ;; unit <- string_of a ;;
      h <- to_radians p h unit ;;
      new_color p (set_hsl (f32_of_f64 h) (f32_of_f64 s) (f32_of_f64 l) (f32_of_f64 al))
  | _, _, _, _ => wrong message
  end.

(** ** Booleans *)

(** internal_function__if (:858-889). *)
Definition fn_if (func : addr) : E (option addr) :=
  a <- lift (get_child func 0) ;; n <- lift (size a) ;;
  if negb (n =? 1) then wrong "if() expects a boolean as its first argument."
  else
    c <- lift (get_child a 0) ;; b <- boolean c ;;
    r <- lift (get_child func (if b : bool then 1 else 2)) ;; k <- lift (size r) ;;
    if k =? 1 then x <- lift (get_child r 0) ;; ret (Some x)
    else p <- pos_of r ;; l <- alloc LIST p ;; lift (take_over_children_of l r) ;;; ret (Some l).
(** internal_function__not (:1172-1190). *)
Definition fn_not (func : addr) : E (option addr) :=
  a <- lift (get_child func 0) ;; n <- lift (size a) ;;
  if negb (n =? 1) then wrong "not() expects a boolean as its first argument."
  else
    c <- lift (get_child a 0) ;; b <- boolean c ;;
    p <- pos_of func ;; r <- new_boolean p (negb b) ;; ret (Some r).
(** internal_function__function_exists, global_variable_exists,
    variable_exists (:630-663, 689-722, 1831-1864): a variable is a LIST whose
    first node is its name. *)
Definition fn_exists (env : fenv) (global : bool) (kind : ntype -> bool) (message : string) (func : addr) : E (option addr) :=
  o <- get_name func 0 ;;
  match o with
  | Some (_, (_ :: _) as name) =>
      p <- pos_of func ;; r <- alloc BOOLEAN p ;;
      v <- f_variable env name global ;;
      (match v with
       | None => ret tt
       | Some v =>
           t <- type_of v ;;
           if ntype_eqb t LIST then
             n <- lift (size v) ;;
             if n =? 0 then ret tt
             else x <- lift (get_child v 0) ;; u <- type_of x ;; if kind u then lift (set_boolean r true) else ret tt
           else ret tt
       end) ;;;
      ret (Some r)
  | _ => wrong message
  end.
Definition variable_kind (t : ntype) : bool := ntype_eqb t VARIABLE || ntype_eqb t IDENTIFIER.
Definition function_kind (t : ntype) : bool := ntype_eqb t VARIABLE_FUNCTION || ntype_eqb t FUNCTION.

(** ** Identifiers

    internal_function__unique_id (:1708-1740). The counter is a global [int]. *)
Definition fn_unique_id (counter : Z) (func : addr) : E (option addr * Z) :=
  k <- lift (size func) ;;
  o <- (if k =? 1 then get_name func 0 else ret (Some (func, []))) ;;
  match o with
  | None => r <- wrong "unique_id() expects a string or an identifier as its optional parameter." ;; ret (r, counter)
  | Some (_, id) =>
      let id := match id with [] => zs "_csspp_unique" | _ => id end in
      if 2147483647 <=? counter then undef
      else
        p <- pos_of func ;; r <- alloc IDENTIFIER p ;;
        lift (set_string r (id ++ int_text (counter + 1))) ;;; ret (Some r, counter + 1)
  end.

(** ** excecute_function (:1866-2222)

    The table: the name, the least and the greatest number of parameters. *)
Record entry := mkEntry { t_name : string; t_min : Z; t_max : Z; t_run : fenv -> Z -> addr -> E (option addr * Z) }.
(** A function which leaves the counter alone. *)
Definition plain (f : fenv -> addr -> E (option addr)) (env : fenv) (counter : Z) (func : addr) : E (option addr * Z) :=
  r <- f env func ;; ret (r, counter).
Definition simple (f : addr -> E (option addr)) := plain (fun _ => f).
Definition table : list entry :=
  [ mkEntry "abs" 1 1 (simple fn_abs);
    mkEntry "acos" 1 1 (plain (fun env => fn_arc (f_acos env) "acos() expects a number as parameter."));
    mkEntry "alpha" 1 1 (simple fn_alpha);
    mkEntry "asin" 1 1 (plain (fun env => fn_arc (f_asin env) "asin() expects a number as parameter."));
    mkEntry "atan" 1 1 (plain (fun env => fn_arc (f_atan env) "atan() expects a number as parameter."));
    mkEntry "blue" 1 1 (simple (fn_component c_blue "blue() expects a color as parameter."));
    mkEntry "ceil" 1 1 (simple (fn_integral f64_ceil "ceil() expects a number as parameter."));
    mkEntry "cos" 1 1 (plain (fun env => fn_trig (f_cos env) "cos() expects an angle as parameter."));
    mkEntry "decimal_number" 1 1 (plain fn_decimal_number);
    mkEntry "floor" 1 1 (simple (fn_integral f64_floor "floor() expects a number as parameter."));
    mkEntry "frgb" 1 3 (simple (fn_rgb (fun x => x) "frgb() expects exactly one color parameter or three numbers (Red, Green, Blue)."));
    mkEntry "frgba" 2 4 (simple (fn_rgba (fun x => x) "frgba() expects exactly one color parameter followed by one number (Color, Alpha), or four numbers (Red, Green, Blue, Alpha)."));
    mkEntry "function_exists" 1 1 (plain (fun env => fn_exists env true function_kind "function_exists() expects a string or an identifier as parameter."));
    mkEntry "global_variable_exists" 1 1 (plain (fun env => fn_exists env true variable_kind "global_variable_exists() expects a string or an identifier as parameter."));
    mkEntry "green" 1 1 (simple (fn_component c_green "green() expects a color as parameter."));
    mkEntry "hsl" 3 3 (simple (fn_hsl false "hsl() expects exactly three numbers: Hue (angle), Saturation (%), and Lightness (%)."));
    mkEntry "hsla" 4 4 (simple (fn_hsl true "hsla() expects exactly four numbers: Hue (angle), Saturation (%), Lightness (%), and Alpha (0.0 to 1.0)."));
    mkEntry "hue" 1 1 (simple fn_hue);
    mkEntry "identifier" 1 1 (plain fn_identifier);
    mkEntry "if" 3 3 (simple fn_if);
    mkEntry "integer" 1 1 (plain fn_integer);
    mkEntry "inspect" 1 1 (plain fn_inspect);
    mkEntry "lightness" 1 1 (simple (fn_percent (fun k => snd (get_hsl k)) "lightness() expects a color as parameter."));
    mkEntry "log" 1 1 (plain fn_log);
    mkEntry "max" 1 2147483647 (simple fn_max);
    mkEntry "min" 1 2147483647 (simple fn_min);
    mkEntry "not" 1 1 (simple fn_not);
    mkEntry "percentage" 1 1 (plain fn_percentage);
    mkEntry "random" 0 0 (plain fn_random);
    mkEntry "red" 1 1 (simple (fn_component c_red "red() expects a color as parameter."));
    mkEntry "rgb" 1 3 (simple (fn_rgb byte_scale "rgb() expects exactly one color parameter (Color) or three numbers (Red, Green, Blue)."));
    mkEntry "rgba" 2 4 (simple (fn_rgba byte_scale "rgba() expects exactly one color parameter followed by alpha (Color, Alpha) or four numbers (Red, Green, Blue, Alpha)."));
    mkEntry "round" 1 1 (simple (fn_integral f64_round "round() expects a number as parameter."));
    mkEntry "saturation" 1 1 (simple (fn_percent (fun k => snd (fst (get_hsl k))) "saturation() expects a color as parameter."));
    mkEntry "sign" 1 1 (simple fn_sign);
    mkEntry "sin" 1 1 (plain (fun env => fn_trig (f_sin env) "sin() expects an angle as parameter."));
    mkEntry "sqrt" 1 1 (simple fn_sqrt);
    mkEntry "string" 1 1 (plain fn_string);
    mkEntry "str_length" 1 1 (simple fn_str_length);
    mkEntry "tan" 1 1 (plain (fun env => fn_trig (f_tan env) "tan() expects an angle as parameter."));
    mkEntry "type_of" 1 1 (simple fn_type_of);
    mkEntry "unique_id" 0 1 (fun _ => fn_unique_id);
    mkEntry "unit" 1 1 (simple fn_unit);
    mkEntry "variable_exists" 1 1 (plain (fun env => fn_exists env false variable_kind "variable_exists() expects a string or an identifier as parameter.")) ].
Fixpoint find_entry (l : list entry) (name : str) : option entry :=
  match l with [] => None | e :: r => if str_eqb name (zs (t_name e)) then Some e else find_entry r name end.

Definition execute (env : fenv) (counter : Z) (func : addr) : E (option addr * Z) :=
  name <- string_of func ;;
  match find_entry table name with
  | None => r <- f_user env func ;; ret (r, counter)
  | Some e =>
      k <- lift (size func) ;;
      if (t_min e <=? k) && (k <=? t_max e) then
        internal <- (if str_eqb name (zs "function_exists") then
                       o <- get_name func 0 ;;
                       ret (match o with
                            | Some (_, (_ :: _) as n) => match find_entry table n with Some _ => true | None => false end
                            | _ => false
                            end)
                     else ret false) ;;
        if internal : bool then p <- pos_of func ;; r <- new_boolean p true ;; ret (Some r, counter)
        else t_run e env counter func
      else
        r <- wrong (t_name e ++ (if t_min e =? t_max e then "() expects exactly that many parameters." else "() expects between that many parameters.")) ;;
        ret (r, counter)
  end.
