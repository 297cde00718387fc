(** * Expressions (csspp/expression.cpp, csspp/expr_*.cpp)

    An [expression] object reads the children of a node one by one, applies
    operators and replaces the children with the result. Nodes live in the heap
    of NodeHeap.v: results may share nodes with the source and with variables.

    Not modelled: the evaluation of functions. What a FUNCTION node evaluates
    to (parser::argify, compile_args, excecute_function) is given by an
    arbitrary function of the heap and of the messages. *)

From Coq Require Import String ZArith List Bool Floats.SpecFloat.
From Verif Require Import Base UnicodeRange NodeHeap Color FloatBits Dim.
Import ListNotations.
Open Scope string_scope. Open Scope list_scope. Open Scope Z_scope.

(** The nodes, the messages, and the fields of class expression
    (expression.h:135-145). *)
Record est := mkE
  { e_heap : heap; e_msgs : list msg;
    e_node : addr; e_pos : Z; e_start : Z; e_cur : option addr;
    e_vars : list (str * option addr); e_font : bool }.
Definition with_heap (s : est) h := mkE h (e_msgs s) (e_node s) (e_pos s) (e_start s) (e_cur s) (e_vars s) (e_font s).
Definition with_msgs (s : est) m := mkE (e_heap s) m (e_node s) (e_pos s) (e_start s) (e_cur s) (e_vars s) (e_font s).
Definition with_pos (s : est) p := mkE (e_heap s) (e_msgs s) (e_node s) p (e_start s) (e_cur s) (e_vars s) (e_font s).
Definition with_start (s : est) p := mkE (e_heap s) (e_msgs s) (e_node s) (e_pos s) p (e_cur s) (e_vars s) (e_font s).
Definition with_cur (s : est) c := mkE (e_heap s) (e_msgs s) (e_node s) (e_pos s) (e_start s) c (e_vars s) (e_font s).
Definition with_evars (s : est) v := mkE (e_heap s) (e_msgs s) (e_node s) (e_pos s) (e_start s) (e_cur s) v (e_font s).

Definition E (A : Type) := est -> outcome est A.
Definition ret {A} (x : A) : E A := fun s => Ret x s.
Definition throw {A} (e : exn) : E A := fun s => Throw e s.
Definition undef {A} : E A := fun s => Undef s.
Definition bind {A B} (m : E A) (f : A -> E B) : E B :=
  fun s => match m s with
           | Ret a s' => f a s' | Throw e s' => Throw e s'
           | Undef s' => Undef s' | NoFuel => NoFuel
           end.
Notation "x <- m ;; k" := (bind m (fun x => k)) (at level 70, m at next level, right associativity).
Notation "m ;;; k" := (bind m (fun _ => k)) (at level 70, right associativity).
(** A computation on the heap. *)
Definition lift {A} (m : act A) : E A :=
  fun s => match m (e_heap s) with
           | Ret a h => Ret a (with_heap s h) | Throw e h => Throw e (with_heap s h)
           | Undef h => Undef (with_heap s h) | NoFuel => NoFuel
           end.
(** [error::instance() << pos << text << ERROR_ERROR]. *)
Definition report (p : position) (text : string) : E unit :=
  fun s => Ret tt (with_msgs s (e_msgs s ++ [mkMsg LError p text])).
(** The same followed by [return node::pointer_t()]. *)
Definition refuse (p : position) (text : string) : E (option addr) := report p text ;;; ret None.

Definition read (a : addr) : E cell := lift (load a).
Definition type_of (a : addr) : E ntype := c <- read a ;; ret (c_type c).
Definition pos_of (a : addr) : E position := c <- read a ;; ret (c_pos c).
Definition string_of (a : addr) : E str := lift (get_string a).
Definition integer_of (a : addr) : E Z := lift (get_integer a).
Definition decimal_of (a : addr) : E f64 := lift (get_decimal_number a).
Definition color_of (a : addr) : E color := lift (get_color a).
(** [f_current]. *)
Definition cur : E addr := fun s => match e_cur s with Some a => Ret a s | None => Undef s end.
Definition cur_type : E ntype := a <- cur ;; type_of a.
Definition cur_pos : E position := a <- cur ;; pos_of a.
Definition cur_is (t : ntype) : E bool := k <- cur_type ;; ret (ntype_eqb k t).
(** [f_current->is(IDENTIFIER) && f_current->get_string() == name]. *)
Definition cur_is_word (name : string) : E bool :=
  a <- cur ;; k <- type_of a ;;
  if ntype_eqb k IDENTIFIER then s <- string_of a ;; ret (str_eqb s (zs name)) else ret false.

(** [new node(t, p)], then fill it. *)
Definition alloc (t : ntype) (p : position) : E addr := lift (new_node t p).
Definition new_color (p : position) (k : color) : E (option addr) :=
  r <- alloc COLOR p ;; lift (set_color r k) ;;; ret (Some r).
Definition new_boolean (p : position) (b : bool) : E addr :=
  r <- alloc BOOLEAN p ;; lift (set_boolean r b) ;;; ret r.
Definition new_string (p : position) (v : str) : E (option addr) :=
  r <- alloc STRING p ;; lift (set_string r v) ;;; ret (Some r).

(** Conversion of a double to int64_t: undefined when it does not fit. *)
Definition int_of_f64 (x : f64) : option Z :=
  match sf_trunc x with
  | Some v => if int64_ok v then Some v else None
  | None => None
  end.
Definition int64 (v : Z) : E Z := if int64_ok v then ret v else undef.
Definition to_int64 (x : f64) : E Z := match int_of_f64 x with Some v => ret v | None => undef end.

(** fmod of libm, which is exact. *)
Definition f64_fmod (x y : f64) : f64 :=
  match x, y with
  | S754_nan, _ | _, S754_nan => S754_nan
  | S754_infinity _, _ | _, S754_zero _ => S754_nan
  | S754_zero _, _ | _, S754_infinity _ => x
  | S754_finite s m e, S754_finite _ m' e' =>
      let k := Z.min e e' in
      let r := (Z.pos m * 2 ^ (e - k)) mod (Z.pos m' * 2 ^ (e' - k)) in
      if r =? 0 then S754_zero s else binary_normalize 53 1024 (if s then - r else r) k s
  end.
Definition is_zero (x : spec_float) : bool := match x with S754_zero _ => true | _ => false end.

(** Apply a function to the four components of one or of two colours. *)
Definition map_color (f : f32 -> f32) (k : color) : color :=
  mkColor (f (c_red k)) (f (c_green k)) (f (c_blue k)) (f (c_alpha k)).
Definition map2_color (f : f32 -> f32 -> f32) (k l : color) : color :=
  mkColor (f (c_red k) (c_red l)) (f (c_green k) (c_green l)) (f (c_blue k) (c_blue l)) (f (c_alpha k) (c_alpha l)).
(** [x op= d] where x is a float and d a double. *)
Definition narrow (op : f64 -> f64 -> f64) (x : f32) (d : f64) : f32 := f32_of_f64 (op (f64_of_f32 x) d).
Definition f32_sub := SFsub 24 128.
(** fmod of two floats. *)
Definition f32_fmod (x y : f32) : f32 := f32_of_f64 (f64_fmod (f64_of_f32 x) (f64_of_f32 y)).

(** ** add (expr_additive.cpp:70-291) *)
Definition add_colors (lhs rhs : addr) (subtract swapped : bool) : E (option addr) :=
  rt <- type_of rhs ;;
  unit <- string_of rhs ;;
  p <- pos_of rhs ;;
  match unit with
  | [] =>
      offset <- (if ntype_eqb rt INTEGER then i <- integer_of rhs ;; ret (f64_of_Z i) else decimal_of rhs) ;;
      k <- color_of lhs ;;
      q <- pos_of lhs ;;
      new_color q (map_color (fun x =>
        if subtract then
          if swapped then f32_of_f64 (f64_sub offset (f64_of_f32 x)) else narrow f64_sub x offset
        else narrow f64_add x offset) k)
  | _ => refuse p "color offsets (numbers added with + or - operators) must be unit less values"
  end.

Definition add_numbers (lhs rhs : addr) (t : ntype) (check : bool) (value : E (Z + f64)) : E (option addr) :=
  p <- pos_of lhs ;;
  same <- (if check then l <- string_of lhs ;; r <- string_of rhs ;; ret (str_eqb l r) else ret true) ;;
  if negb same then refuse p "incompatible dimensions"
  else
    result <- alloc t p ;;
    (if ntype_eqb t PERCENT then ret tt else d <- string_of lhs ;; lift (set_string result d)) ;;;
    v <- value ;;
    (match v with inl i => lift (set_integer result i) | inr d => lift (set_decimal_number result d) end) ;;;
    ret (Some result).

Definition add_types (lhs rhs : addr) (subtract : bool) (p : position) (lt rt : ntype) : E (option addr) :=
  let op_f x y : E (Z + f64) := ret (inr (if subtract then f64_sub x y else f64_add x y)) in
  match lt, rt with
  | STRING, STRING =>
      if subtract then refuse p "incompatible types"
      else a <- string_of lhs ;; b <- string_of rhs ;; new_string p (a ++ b)
  | INTEGER, INTEGER =>
      a <- integer_of lhs ;; b <- integer_of rhs ;;
      add_numbers lhs rhs INTEGER true (v <- int64 (if subtract then a - b else a + b) ;; ret (inl v))
  | DECIMAL_NUMBER, DECIMAL_NUMBER =>
      a <- decimal_of lhs ;; b <- decimal_of rhs ;; add_numbers lhs rhs DECIMAL_NUMBER true (op_f a b)
  | DECIMAL_NUMBER, INTEGER =>
      a <- decimal_of lhs ;; b <- integer_of rhs ;; add_numbers lhs rhs DECIMAL_NUMBER true (op_f a (f64_of_Z b))
  | INTEGER, DECIMAL_NUMBER =>
      a <- integer_of lhs ;; b <- decimal_of rhs ;; add_numbers lhs rhs DECIMAL_NUMBER true (op_f (f64_of_Z a) b)
  | PERCENT, PERCENT =>
      a <- decimal_of lhs ;; b <- decimal_of rhs ;; add_numbers lhs rhs PERCENT false (op_f a b)
  | INTEGER, COLOR | DECIMAL_NUMBER, COLOR => add_colors rhs lhs subtract true
  | COLOR, INTEGER | COLOR, DECIMAL_NUMBER => add_colors lhs rhs subtract false
  | COLOR, COLOR =>
      k <- color_of lhs ;; l <- color_of rhs ;;
      new_color p (map2_color (if subtract then f32_sub else f32_add) k l)
  | _, _ => refuse p "incompatible types"
  end.

Definition add (lhs rhs : addr) (subtract : bool) : E (option addr) :=
  lt <- type_of lhs ;; rt <- type_of rhs ;; p <- pos_of lhs ;; add_types lhs rhs subtract p lt rt.

(** ** multiply (expr_multiplicative.cpp:293-778) *)
Inductive mulop := Mul | Div | Mod.
Definition is_mul (o : mulop) : bool := match o with Mul => true | _ => false end.

(** Repeat a string. *)
Definition repeat_str (n : Z) (s : str) : str := concat (repeat s (Z.to_nat n)).

(** The color_multiplicative label (expr_multiplicative.cpp:449-507). *)
Definition mul_color (o : mulop) (lhs rhs : addr) (bf : f64) : E (option addr) :=
  rt <- type_of rhs ;;
  unitless <- (if ntype_eqb rt PERCENT then ret true else d <- string_of rhs ;; ret (str_eqb d [])) ;;
  if unitless then
    k <- color_of lhs ;; p <- pos_of lhs ;;
    new_color p (map_color (fun x => match o with
                                     | Mul => narrow f64_mul x bf
                                     | Div => narrow f64_div x bf
                                     | Mod => narrow f64_fmod x bf
                                     end) k)
  else p <- cur_pos ;; refuse p "color factors must be unit less values".

Definition dim_message (e : dim_error) : string :=
  match e with
  | DimMissing => "number dimension is missing a dimension name."
  | DimSecondSlash => "a valid dimension can have any number of '*' operators and a single '/' operator, here we found a second '/'."
  | DimSeparator => "multiple dimensions can only be separated by '*' or '/'"
  end.
Fixpoint report_dims (p : position) (l : list dim_error) : E unit :=
  match l with [] => ret tt | e :: r => report p (dim_message e) ;;; report_dims p r end.

(** The font metrics case (expr_multiplicative.cpp:590-625). *)
Definition font_metrics (lhs rhs : addr) (af bf : f64) : E (option addr) :=
  p <- pos_of lhs ;; lt <- type_of lhs ;; rt <- type_of rhs ;;
  r <- alloc FONT_METRICS p ;;
  lift (set_font_size r af) ;;; lift (set_line_height r bf) ;;;
  d1 <- (if ntype_eqb lt PERCENT then ret (zs "%") else string_of lhs) ;;
  lift (set_dim1 r d1) ;;;
  d2 <- (if ntype_eqb rt PERCENT then ret (zs "%") else string_of rhs) ;;
  lift (set_dim2 r d2) ;;; ret (Some r).

(** The end of multiply, from the font metrics on
    (expr_multiplicative.cpp:590-778). [v]: two integers or two decimals. *)
Definition mul_numbers (o : mulop) (lhs rhs : addr) (t : ntype) (v : Z * Z + f64 * f64) : E (option addr) :=
  fun s =>
  if e_font s && match o with Div => true | _ => false end then
    (match v with
     | inl (a, b) => font_metrics lhs rhs (f64_of_Z a) (f64_of_Z b)
     | inr (a, b) => font_metrics lhs rhs a b
     end) s
  else
   (p <- pos_of lhs ;;
    lt <- type_of lhs ;; rt <- type_of rhs ;;
    result <- alloc t p ;;
    ok <- (if ntype_eqb t PERCENT then ret true
           else
             l <- (if ntype_eqb lt PERCENT then ret [] else string_of lhs) ;;
             r <- (if ntype_eqb rt PERCENT then ret [] else string_of rhs) ;;
             match o with
             | Mod => if str_eqb l r then lift (set_string result l) ;;; ret true
                      else report p "incompatible dimensions cannot be used with operator '%'." ;;; ret false
             | _ => let '(d, e) := dim_product l (negb (is_mul o)) r in
                    report_dims p e ;;; lift (set_string result d) ;;; ret true
             end) ;;
    if negb ok then ret None
    else
    match v, o with
    | inl (a, b), Mul => i <- int64 (a * b) ;; lift (set_integer result i) ;;; ret (Some result)
    | inl (a, b), Div =>
        if b =? 0 then refuse p "division by zero."
        else i <- int64 (Z.quot a b) ;; lift (set_integer result i) ;;; ret (Some result)
    | inl (a, b), Mod =>
        if b =? 0 then refuse p "modulo by zero."
        else i <- int64 (Z.quot a b) ;; lift (set_integer result (Z.rem a b)) ;;; ret (Some result)
    | inr (a, b), Mul => lift (set_decimal_number result (f64_mul a b)) ;;; ret (Some result)
    | inr (a, b), Div =>
        if is_zero b then refuse p "division by zero."
        else lift (set_decimal_number result (f64_div a b)) ;;; ret (Some result)
    | inr (a, b), Mod =>
        if is_zero b then refuse p "modulo by zero."
        else lift (set_decimal_number result (f64_fmod a b)) ;;; ret (Some result)
    end) s.

Definition mul_string (o : mulop) (lhs rhs : addr) : E (option addr) :=
  p <- pos_of lhs ;;
  if negb (is_mul o) then refuse p "incompatible types for operator '/' or '%'."
  else
    n <- integer_of rhs ;;
    if n <? 0 then refuse p "string * integer requires that the integer not be negative"
    else s <- string_of lhs ;; lift (set_string lhs (repeat_str n s)) ;;; ret (Some lhs).

Definition range_only : string :=
  "unicode_range * unicode_range is the only multiplicative operator accepted with unicode ranges, '/' and '%' are not allowed.".
Definition mul_ranges (lhs rhs : addr) : E (option addr) :=
  p <- pos_of lhs ;;
  a <- integer_of lhs ;; b <- integer_of rhs ;;
  match ur_of_value (u64 a), ur_of_value (u64 b) with
  | Some x, Some y =>
      let start := u64 (Z.max (ur_start x) (ur_start y)) in
      let stop := u64 (Z.min (ur_end x) (ur_end y)) in
      if start <=? stop then
        r <- alloc UNICODE_RANGE p ;;
        match ur_make (to_i32 start) (to_i32 stop) with
        | Some v => lift (set_integer r (wrap64 v)) ;;; ret (Some r)
        | None => throw XOverflow
        end
      else r <- alloc NULL_TOKEN p ;; ret (Some r)
  | _, _ => throw XOverflow
  end.

Definition mul_two_colors (o : mulop) (lhs rhs : addr) : E (option addr) :=
  k <- color_of lhs ;; l <- color_of rhs ;; p <- pos_of lhs ;;
  let zero := is_zero (c_red l) || is_zero (c_green l) || is_zero (c_blue l) || is_zero (c_alpha l) in
  match o with
  | Mul => new_color p (map2_color f32_mul k l)
  | Div => if zero then q <- cur_pos ;; refuse q "color division does not accept any color component set to zero."
           else new_color p (map2_color f32_div k l)
  | Mod => if zero then q <- cur_pos ;; refuse q "color modulo does not accept any color component set to zero."
           else new_color p (map2_color f32_fmod k l)
  end.

Definition mul_types (o : mulop) (lhs rhs : addr) (lt rt : ntype) : E (option addr) :=
  match lt, rt with
  | INTEGER, STRING => mul_string o rhs lhs
  | STRING, INTEGER => mul_string o lhs rhs
  | INTEGER, INTEGER => a <- integer_of lhs ;; b <- integer_of rhs ;; mul_numbers o lhs rhs INTEGER (inl (a, b))
  | INTEGER, DECIMAL_NUMBER | INTEGER, PERCENT =>
      a <- integer_of lhs ;; b <- decimal_of rhs ;; mul_numbers o lhs rhs DECIMAL_NUMBER (inr (f64_of_Z a, b))
  | DECIMAL_NUMBER, INTEGER | PERCENT, INTEGER =>
      a <- decimal_of lhs ;; b <- integer_of rhs ;; mul_numbers o lhs rhs DECIMAL_NUMBER (inr (a, f64_of_Z b))
  | DECIMAL_NUMBER, PERCENT | PERCENT, DECIMAL_NUMBER | DECIMAL_NUMBER, DECIMAL_NUMBER =>
      a <- decimal_of lhs ;; b <- decimal_of rhs ;; mul_numbers o lhs rhs DECIMAL_NUMBER (inr (a, b))
  | PERCENT, PERCENT =>
      a <- decimal_of lhs ;; b <- decimal_of rhs ;; mul_numbers o lhs rhs PERCENT (inr (a, b))
  | NULL_TOKEN, NULL_TOKEN | NULL_TOKEN, UNICODE_RANGE =>
      if is_mul o then ret (Some lhs) else p <- cur_pos ;; refuse p range_only
  | UNICODE_RANGE, NULL_TOKEN =>
      if is_mul o then ret (Some rhs) else p <- cur_pos ;; refuse p range_only
  | UNICODE_RANGE, UNICODE_RANGE =>
      if is_mul o then mul_ranges lhs rhs else p <- cur_pos ;; refuse p range_only
  | INTEGER, COLOR =>
      if is_mul o then a <- integer_of lhs ;; mul_color o rhs lhs (f64_of_Z a)
      else p <- cur_pos ;; refuse p "'number / color' and 'number % color' are not available."
  | COLOR, INTEGER => b <- integer_of rhs ;; mul_color o lhs rhs (f64_of_Z b)
  | DECIMAL_NUMBER, COLOR | PERCENT, COLOR =>
      if is_mul o then a <- decimal_of lhs ;; mul_color o rhs lhs a
      else p <- cur_pos ;; refuse p "'number / color' and 'number % color' are not available."
  | COLOR, DECIMAL_NUMBER | COLOR, PERCENT => b <- decimal_of rhs ;; mul_color o lhs rhs b
  | COLOR, COLOR => mul_two_colors o lhs rhs
  | _, _ => p <- cur_pos ;; refuse p "incompatible types for operator '*', '/', or '%'."
  end.

Definition multiply (o : mulop) (lhs rhs : addr) : E (option addr) :=
  lt <- type_of lhs ;; rt <- type_of rhs ;; mul_types o lhs rhs lt rt.

(** ** apply_power (expr_power.cpp:38-178) *)
Definition power_value (lm : libm) (lhs rhs : addr) (lt rt : ntype) : E (option (addr * bool)) :=
  p <- pos_of lhs ;;
  match lt, rt with
  | INTEGER, INTEGER =>
      r <- alloc INTEGER p ;; a <- integer_of lhs ;; b <- integer_of rhs ;;
      v <- to_int64 (lm_pow lm (f64_of_Z a) (f64_of_Z b)) ;; lift (set_integer r v) ;;; ret (Some (r, true))
  | INTEGER, DECIMAL_NUMBER =>
      r <- alloc DECIMAL_NUMBER p ;; a <- integer_of lhs ;; b <- decimal_of rhs ;;
      lift (set_decimal_number r (lm_pow lm (f64_of_Z a) b)) ;;; ret (Some (r, true))
  | DECIMAL_NUMBER, INTEGER =>
      r <- alloc DECIMAL_NUMBER p ;; a <- decimal_of lhs ;; b <- integer_of rhs ;;
      lift (set_decimal_number r (lm_pow lm a (f64_of_Z b))) ;;; ret (Some (r, true))
  | DECIMAL_NUMBER, DECIMAL_NUMBER =>
      r <- alloc DECIMAL_NUMBER p ;; a <- decimal_of lhs ;; b <- decimal_of rhs ;;
      lift (set_decimal_number r (lm_pow lm a b)) ;;; ret (Some (r, true))
  | PERCENT, INTEGER =>
      r <- alloc PERCENT p ;; a <- decimal_of lhs ;; b <- integer_of rhs ;;
      lift (set_decimal_number r (lm_pow lm a (f64_of_Z b))) ;;; ret (Some (r, false))
  | PERCENT, DECIMAL_NUMBER =>
      r <- alloc PERCENT p ;; a <- decimal_of lhs ;; b <- decimal_of rhs ;;
      lift (set_decimal_number r (lm_pow lm a b)) ;;; ret (Some (r, false))
  | _, _ => q <- cur_pos ;; report q "incompatible types for operator '**'." ;;; ret None
  end.
(** [modf(p, &integral)]: whether the fractional part is null. *)
Definition has_fraction (x : f64) : bool :=
  match x with
  | S754_nan => true
  | S754_finite _ m e => if 0 <=? e then false else negb (Z.pos m mod 2 ^ (- e) =? 0)
  | _ => false
  end.
Fixpoint times {A} (n : nat) (l : list A) : list A := match n with O => [] | S k => l ++ times k l end.

Definition apply_power (lm : libm) (lhs rhs : addr) : E (option addr) :=
  lt <- type_of lhs ;; rt <- type_of rhs ;;
  bad <- (if ntype_eqb rt INTEGER || ntype_eqb rt DECIMAL_NUMBER then d <- string_of rhs ;; ret (negb (str_eqb d [])) else ret false) ;;
  if bad then q <- cur_pos ;; refuse q "the number representing the power cannot be a dimension; it has to be unitless."
  else
  r <- power_value lm lhs rhs lt rt ;;
  match r with
  | None => ret None
  | Some (result, false) => ret (Some result)
  | Some (result, true) =>
      d <- string_of lhs ;;
      match d with
      | [] => ret (Some result)
      | _ =>
          p <- pos_of lhs ;;
          x <- (if ntype_eqb rt INTEGER then i <- integer_of rhs ;; ret (Some i)
                else f <- decimal_of rhs ;;
                     if has_fraction f then ret None
                     else i <- to_int64 f ;; ret (Some i)) ;;
          match x with
          | None => q <- cur_pos ;; refuse q "a number with a dimension only supports integers as their power (i.e. 3px ** 2 is fine, 3px ** 2.1 is not supported)."
          | Some n =>
              if n =? 0 then q <- cur_pos ;; refuse q "a number with a dimension power zero cannot be calculated (i.e. 3px ** 0 = 1 what?)."
              else if n =? -9223372036854775808 then undef
              else if 100 <? Z.abs n then q <- cur_pos ;; refuse q "a number with a dimension power 101 or more would generate a very large string so we refuse it at this time. You may use unitless numbers instead."
              else
                let '(up, down, e) :=
                  if 0 <=? n then dim_vectors d [] []
                  else let '(u, w, e) := dim_vectors d [] [] in (w, u, e) in
                report_dims p (match e with Some x => [x] | None => [] end) ;;;
                lift (set_string result (rebuild (times (Z.to_nat (Z.abs n)) up) (times (Z.to_nat (Z.abs n)) down))) ;;;
                ret (Some result)
          end
      end
  end.

(** ** Comparisons (expr_equality.cpp:125-221, expr_relational.cpp:39-84) *)
Definition comparable_types (lhs rhs : addr) (p : position) (lt rt : ntype) : E bool :=
  let no := report p "incompatible types or dimensions for operator '=', '!=', '<', '<=', '>', '>=', '~=', '^=', '$=', '*=', or '|='." ;;; ret false in
  match lt, rt with
  | BOOLEAN, BOOLEAN | COLOR, COLOR | PERCENT, PERCENT | STRING, STRING => ret true
  | DECIMAL_NUMBER, DECIMAL_NUMBER | DECIMAL_NUMBER, INTEGER | INTEGER, DECIMAL_NUMBER | INTEGER, INTEGER =>
      a <- string_of lhs ;; b <- string_of rhs ;; if str_eqb a b then ret true else no
  | _, _ => no
  end.
Definition is_comparable (lhs rhs : addr) : E bool :=
  lt <- type_of lhs ;; rt <- type_of rhs ;; p <- pos_of lhs ;; comparable_types lhs rhs p lt rt.
Definition equal_types (lhs rhs : addr) (lt rt : ntype) : E bool :=
  match lt, rt with
  | BOOLEAN, BOOLEAN => a <- lift (get_boolean lhs) ;; b <- lift (get_boolean rhs) ;; ret (Bool.eqb a b)
  | INTEGER, INTEGER => a <- integer_of lhs ;; b <- integer_of rhs ;; ret (a =? b)
  | INTEGER, DECIMAL_NUMBER => a <- integer_of lhs ;; b <- decimal_of rhs ;; ret (SFeqb (f64_of_Z a) b)
  | DECIMAL_NUMBER, INTEGER => a <- decimal_of lhs ;; b <- integer_of rhs ;; ret (SFeqb a (f64_of_Z b))
  | DECIMAL_NUMBER, DECIMAL_NUMBER | PERCENT, PERCENT => a <- decimal_of lhs ;; b <- decimal_of rhs ;; ret (SFeqb a b)
  | STRING, STRING => a <- string_of lhs ;; b <- string_of rhs ;; ret (str_eqb a b)
  | COLOR, COLOR =>
      k <- color_of lhs ;; l <- color_of rhs ;;
      match Color.get_color k, Color.get_color l with
      | Some x, Some y => ret (x =? y)
      | _, _ => undef
      end
  | _, _ => throw XLogic
  end.
Definition is_equal (lhs rhs : addr) : E bool :=
  lt <- type_of lhs ;; rt <- type_of rhs ;; equal_types lhs rhs lt rt.
Definition less_types (lhs rhs : addr) (p : position) (lt rt : ntype) : E bool :=
  match lt, rt with
  | BOOLEAN, BOOLEAN => a <- lift (get_boolean lhs) ;; b <- lift (get_boolean rhs) ;; ret (negb a && b)
  | INTEGER, INTEGER => a <- integer_of lhs ;; b <- integer_of rhs ;; ret (a <? b)
  | INTEGER, DECIMAL_NUMBER => a <- integer_of lhs ;; b <- decimal_of rhs ;; ret (SFltb (f64_of_Z a) b)
  | DECIMAL_NUMBER, INTEGER => a <- decimal_of lhs ;; b <- integer_of rhs ;; ret (SFltb a (f64_of_Z b))
  | DECIMAL_NUMBER, DECIMAL_NUMBER | PERCENT, PERCENT => a <- decimal_of lhs ;; b <- decimal_of rhs ;; ret (SFltb a b)
  | STRING, STRING => a <- string_of lhs ;; b <- string_of rhs ;; ret (str_lt a b)
  | _, _ => report p "incompatible types for operator '<', '<=', '>', or '>='." ;;; ret false
  end.

Definition is_less_than (lhs rhs : addr) : E bool :=
  lt <- type_of lhs ;; rt <- type_of rhs ;; p <- pos_of lhs ;; less_types lhs rhs p lt rt.

(** match (expr_equality.cpp:42-101). *)
Inductive matchop := Include | Prefix | Suffix | Substring | Dash.
Fixpoint starts_with (s l : str) : bool :=
  match s, l with
  | [], _ => true
  | _, [] => false
  | x :: s', y :: l' => (x =? y) && starts_with s' l'
  end.
(** [l.find(s) != npos]. *)
Fixpoint found_in (s l : str) : bool :=
  starts_with s l || match l with [] => false | _ :: l' => found_in s l' end.
(** [l.substr(l.length() - s.length())]. *)
Definition ends_with (s l : str) : bool :=
  if (length l <? length s)%nat then false else str_eqb s (skipn (length l - length s) l).
Definition match_text (o : matchop) (s l : str) : bool :=
  match o with
  | Include => found_in (32 :: s ++ [32]) (32 :: l ++ [32])
  | Prefix => if (length l <? length s)%nat then false else str_eqb s (firstn (length s) l)
  | Suffix => ends_with s l
  | Substring => found_in s l
  | Dash => found_in (45 :: s ++ [45]) (45 :: l ++ [45])
  end.
Definition do_match (o : matchop) (lhs rhs : addr) : E bool :=
  lt <- type_of lhs ;; rt <- type_of rhs ;; p <- pos_of lhs ;;
  match lt, rt with
  | STRING, STRING => s <- string_of lhs ;; l <- string_of rhs ;; ret (match_text o s l)
  | _, _ =>
      report p "incompatible types for operator '~=', '^=', '$=', '*=', '|='." ;;;
      s <- string_of lhs ;; l <- string_of rhs ;; ret (str_eqb s l)
  end.

(** node::to_boolean (node.cpp:282-335); [None]: BOOLEAN_INVALID. *)
Definition to_boolean (c : cell) : E (option bool) :=
  match c_type c with
  | BOOLEAN => ret (Some (c_bool c))
  | IDENTIFIER =>
      ret (if str_eqb (c_str c) (zs "true") then Some true
           else if str_eqb (c_str c) (zs "false") || str_eqb (c_str c) (zs "null") then Some false
           else None)
  | INTEGER => ret (Some (negb (c_int c =? 0)))
  | DECIMAL_NUMBER | PERCENT => ret (Some (negb (is_zero (c_dec c))))
  | STRING => ret (Some (match c_str c with [] => false | _ => true end))
  | ARRAY | LIST | MAP => ret (Some (match c_ch c with [] => false | _ => true end))
  | COLOR =>
      match Color.get_color (cell_color c) with
      | Some v => ret (Some (negb (v mod 16777216 =? 0)))
      | None => undef
      end
  | NULL_TOKEN => ret (Some false)
  | _ => ret None
  end.
(** expression::boolean (expr_logical_and.cpp:54-64). *)
Definition boolean (a : addr) : E bool :=
  c <- read a ;;
  b <- to_boolean c ;;
  match b with
  | Some v => ret v
  | None => report (c_pos c) "a boolean expression was expected." ;;; ret false
  end.

(** ** The token stream (expression.cpp:77-158) *)
Definition node_size : E Z := fun s => lift (size (e_node s)) s.
Definition child (i : Z) : E addr := fun s => lift (get_child (e_node s) i) s.
Definition set_pos (p : Z) : E unit := fun s => Ret tt (with_pos s p).
Definition get_pos : E Z := fun s => Ret (e_pos s) s.
Definition set_cur (a : addr) : E unit := fun s => Ret tt (with_cur s (Some a)).
(** expression::end_of_nodes. *)
Definition end_of_nodes : E bool := p <- get_pos ;; n <- node_size ;; ret (n <=? p).
(** expression::mark_start. *)
Definition mark_start : E unit := fun s => Ret tt (with_start s (e_pos s)).
(** The loop of next() (expression.cpp:151-155). *)
Fixpoint skip_ws (fuel : nat) : E unit :=
  match fuel with
  | O => fun _ => NoFuel
  | S f =>
      p <- get_pos ;; n <- node_size ;;
      if p <? n then
        c <- child p ;; t <- type_of c ;;
        if ntype_eqb t WHITESPACE then set_pos (p + 1) ;;; skip_ws f else ret tt
      else ret tt
  end.
(** expression::next (expression.cpp:138-158). *)
Definition next : E unit :=
  p <- get_pos ;; n <- node_size ;;
  if n <=? p then
    already <- (fun s => match e_cur s with
                         | None => Ret false s
                         | Some a => (t <- type_of a ;; ret (ntype_eqb t EOF_TOKEN)) s
                         end) ;;
    if already then ret tt
    else
      q <- (fun s => pos_of (e_node s) s) ;;
      a <- alloc EOF_TOKEN q ;; set_cur a
  else
    c <- child p ;; set_cur c ;;; set_pos (p + 1) ;;;
    skip_ws (S (Z.to_nat n)).

(** expression::replace_with_result (expression.cpp:88-136). *)
Fixpoint back_to_current (fuel : nat) : E unit :=
  match fuel with
  | O => ret tt
  | S f =>
      p <- get_pos ;;
      if 0 <? p then
        set_pos (p - 1) ;;; c <- child (p - 1) ;; a <- cur ;;
        if Nat.eqb c a then ret tt else back_to_current f
      else ret tt
  end.
Fixpoint remove_back (fuel : nat) (start : Z) : E unit :=
  match fuel with
  | O => ret tt
  | S f =>
      p <- get_pos ;;
      if start <? p then
        set_pos (p - 1) ;;; (fun s => lift (remove_child_at (e_node s) (p - 1)) s) ;;; remove_back f start
      else ret tt
  end.
Definition replace_with_result (r : option addr) : E (option addr) :=
  (match r with
   | None => ret tt
   | Some v =>
       t <- cur_type ;; p <- get_pos ;;
       (if negb (ntype_eqb t EOF_TOKEN) && (0 <? p) then
          back_to_current (Z.to_nat p) ;;;
          q <- get_pos ;;
          if 0 <? q then
            c <- child (q - 1) ;; k <- type_of c ;;
            if ntype_eqb k WHITESPACE then set_pos (q - 1) else ret tt
          else ret tt
        else ret tt) ;;;
       (fun s => remove_back (Z.to_nat (e_pos s)) (e_start s) s) ;;;
       q <- get_pos ;;
       (fun s => lift (insert_child (e_node s) q v) s) ;;;
       set_pos (q + 1)
   end) ;;;
  mark_start ;;; ret r.

(** [expression e(n); ...]: run with a new object, then come back. *)
Definition in_new (n : addr) (font : bool) {A} (m : E A) : E A :=
  fun s =>
    let back (s' : est) := mkE (e_heap s') (e_msgs s') (e_node s) (e_pos s) (e_start s) (e_cur s) (e_vars s) (e_font s) in
    match m (mkE (e_heap s) (e_msgs s) n 0 (-1) None [] font) with
    | Ret a s' => Ret a (back s') | Throw e s' => Throw e (back s')
    | Undef s' => Undef (back s') | NoFuel => NoFuel
    end.

(** ** The grammar *)

(** A level of binary operators: additive, multiplicative, ...
    [operator]: is the current token such an operator? *)
Section Level.
  Variable op : Type.
  Variable lower : E (option addr).
  Variable operator : E (option op).
  Variable apply : op -> position -> addr -> addr -> E (option addr).
  Fixpoint level_loop (fuel : nat) (result : addr) : E (option addr) :=
    match fuel with
    | O => fun _ => NoFuel
    | S f =>
        o <- operator ;;
        match o with
        | None => ret (Some result)
        | Some o =>
            p <- cur_pos ;;
            next ;;;
            rhs <- lower ;;
            match rhs with
            | None => ret None
            | Some r =>
                v <- apply o p result r ;;
                match v with
                | None => ret None
                | Some v => level_loop f v
                end
            end
        end
    end.
  Definition level (fuel : nat) : E (option addr) :=
    result <- lower ;;
    match result with
    | None => ret None
    | Some r => level_loop fuel r
    end.
End Level.

(** expression::power (expr_power.cpp:180-205). *)
Definition power_operator : E bool :=
  w <- cur_is_word "pow" ;; if w then ret true else cur_is POWER.
Definition power_ (lm : libm) (post : E (option addr)) : E (option addr) :=
  result <- post ;;
  match result with
  | None => ret None
  | Some l =>
      o <- power_operator ;;
      if o then
        next ;;; rhs <- post ;;
        match rhs with None => ret None | Some r => apply_power lm l r end
      else ret (Some l)
  end.

(** multiplicative_operator (expr_multiplicative.cpp:51-79). *)
Definition multiplicative_operator : E (option mulop) :=
  a <- cur ;; t <- type_of a ;;
  match t with
  | IDENTIFIER =>
      s <- string_of a ;;
      ret (if str_eqb s (zs "mul") then Some Mul else if str_eqb s (zs "div") then Some Div
           else if str_eqb s (zs "mod") then Some Mod else None)
  | MULTIPLY => ret (Some Mul)
  | DIVIDE => ret (Some Div)
  | MODULO => ret (Some Mod)
  | _ => ret None
  end.
Definition multiplicative_ (f : nat) (power : E (option addr)) : E (option addr) :=
  level mulop power multiplicative_operator (fun o _ l r => multiply o l r) f.

(** additive_operator (expr_additive.cpp:55-68), additive (expr_additive.cpp:295-331);
    [true] is the subtraction. *)
Definition additive_operator : E (option bool) :=
  t <- cur_type ;; ret (match t with ADD => Some false | SUBTRACT => Some true | _ => None end).
Definition additive_ (f : nat) (mul : E (option addr)) : E (option addr) :=
  level bool mul additive_operator (fun o _ l r => add l r o) f.

(** relational (expr_relational.cpp:86-168). *)
Inductive relop := Less | LessEq | Greater | GreaterEq.
Definition relational_operator : E (option relop) :=
  t <- cur_type ;;
  ret (match t with LESS_THAN => Some Less | LESS_EQUAL => Some LessEq | GREATER_THAN => Some Greater
                  | GREATER_EQUAL => Some GreaterEq | _ => None end).
Definition relation (o : relop) (l r : addr) : E bool :=
  match o with
  | Less => is_less_than l r
  | LessEq => b <- is_less_than l r ;; if b then ret true else is_equal l r
  | Greater => b <- is_less_than l r ;; if b then ret false else e <- is_equal l r ;; ret (negb e)
  | GreaterEq => b <- is_less_than l r ;; ret (negb b)
  end.
Definition apply_relation (o : relop) (p : position) (l r : addr) : E (option addr) :=
  c <- is_comparable l r ;;
  if c then b <- relation o l r ;; v <- new_boolean p b ;; ret (Some v) else ret (Some l).
Definition relational_ (f : nat) (additive : E (option addr)) : E (option addr) :=
  level relop additive relational_operator apply_relation f.

(** equality (expr_equality.cpp:103-123, 223-285). *)
Inductive eqop := Equal | NotEqual | Match (o : matchop).
Definition equality_operator : E (option eqop) :=
  a <- cur ;; t <- type_of a ;;
  match t with
  | EQUAL => ret (Some Equal)
  | NOT_EQUAL => ret (Some NotEqual)
  | INCLUDE_MATCH => ret (Some (Match Include))
  | PREFIX_MATCH => ret (Some (Match Prefix))
  | SUFFIX_MATCH => ret (Some (Match Suffix))
  | SUBSTRING_MATCH => ret (Some (Match Substring))
  | DASH_MATCH => ret (Some (Match Dash))
  | IDENTIFIER => s <- string_of a ;; ret (if str_eqb s (zs "not-equal") then Some NotEqual else None)
  | _ => ret None
  end.
Definition apply_equality (o : eqop) (p : position) (l r : addr) : E (option addr) :=
  c <- is_comparable l r ;;
  if c then
    b <- (match o with
          | Equal => is_equal l r
          | NotEqual => e <- is_equal l r ;; ret (negb e)
          | Match m => do_match m l r
          end) ;;
    v <- new_boolean p b ;; ret (Some v)
  else ret (Some l).
Definition equality_ (f : nat) (relational : E (option addr)) : E (option addr) :=
  level eqop relational equality_operator apply_equality f.

(** logical_and (expr_logical_and.cpp:66-100), logical_or
    (expr_logical_or.cpp:38-72). *)
Definition and_operator : E (option unit) :=
  w <- cur_is_word "and" ;; k <- cur_is AND ;; ret (if w || k then Some tt else None).
Definition or_operator : E (option unit) :=
  w <- cur_is_word "or" ;; k <- cur_is COLUMN ;; ret (if w || k then Some tt else None).
Definition apply_logical (f : bool -> bool -> bool) (o : unit) (p : position) (l r : addr) : E (option addr) :=
  a <- boolean l ;; b <- boolean r ;; v <- new_boolean p (f a b) ;; ret (Some v).
Definition logical_and_ (f : nat) (equality : E (option addr)) : E (option addr) :=
  level unit equality and_operator (apply_logical andb) f.
Definition logical_or_ (f : nat) (logical_and : E (option addr)) : E (option addr) :=
  level unit logical_and or_operator (apply_logical orb) f.

(** Run and forget the messages (safe_error_t and safe_error_stream_t). *)
Definition quiet {A} (m : E A) : E unit :=
  fun s => match m s with
           | Ret _ s' => Ret tt (with_msgs s' (e_msgs s)) | Throw e s' => Throw e (with_msgs s' (e_msgs s))
           | Undef s' => Undef (with_msgs s' (e_msgs s)) | NoFuel => NoFuel
           end.
(** conditional (expr_conditional.cpp:38-107). *)
Fixpoint conditional_loop (fuel : nat) (self : E (option addr)) (result : addr) : E (option addr) :=
  match fuel with
  | O => fun _ => NoFuel
  | S f =>
      q <- cur_is CONDITIONAL ;;
      if negb q then ret (Some result)
      else
        r <- boolean result ;;
        next ;;;
        first <- (if r then self else quiet self ;;; ret None) ;;
        match r, first with
        | true, None => ret None
        | _, _ =>
            c <- cur_is COLON ;;
            if negb c then p <- cur_pos ;; refuse p "a mandatory ':' was expected after a '?' first expression."
            else
              next ;;;
              if r then
                quiet self ;;;
                match first with Some v => conditional_loop f self v | None => ret None end
              else
                second <- self ;;
                match second with Some v => conditional_loop f self v | None => ret None end
        end
  end.
Definition conditional_ (f : nat) (self logical_or : E (option addr)) : E (option addr) :=
  result <- logical_or ;;
  match result with
  | None => ret None
  | Some r => conditional_loop f self r
  end.

(** assignment (expr_list.cpp:141-168). *)
Definition set_var (name : str) (v : option addr) : E unit := fun s => Ret tt (with_evars s (map_set (e_vars s) name v)).
Definition assignment_ (conditional : E (option addr)) : E (option addr) :=
  result <- conditional ;;
  match result with
  | None => ret None
  | Some r =>
      t <- type_of r ;;
      if ntype_eqb t IDENTIFIER then
        a <- cur_is ASSIGNMENT ;;
        if a then
          next ;;;
          v <- conditional ;;
          name <- string_of r ;;
          set_var name v ;;; ret v
        else ret (Some r)
      else ret (Some r)
  end.

(** is_label, expression_list (expr_list.cpp:39-139). *)
Definition is_label : E bool :=
  i <- cur_is IDENTIFIER ;;
  if negb i then ret false
  else
    p <- get_pos ;; n <- node_size ;;
    if n <=? p then ret false
    else c <- child p ;; t <- type_of c ;; ret (ntype_eqb t COLON).
Fixpoint map_loop (fuel : nat) (assignment : E (option addr)) (m : addr) : E unit :=
  match fuel with
  | O => fun _ => NoFuel
  | S f =>
      l <- is_label ;;
      if negb l then ret tt
      else
        name <- cur ;;
        next ;;; next ;;;
        comma <- cur_is COMMA ;;
        re <- (if comma then next ;;; ret (None, false)
               else
                 eof <- cur_is EOF_TOKEN ;;
                 if eof then ret (None, false)
                 else
                   v <- assignment ;;
                   c <- cur_is COMMA ;;
                   if c then next ;;; ret (v, false) else ret (v, true)) ;;
        let '(v, found_end) := re in
        v <- (match v with
              | Some x => ret x
              | None => p <- cur_pos ;; alloc NULL_TOKEN p
              end) ;;
        lift (add_child m name) ;;; lift (add_child m v) ;;;
        if found_end then ret tt else map_loop f assignment m
  end.
Fixpoint array_loop (fuel : nat) (assignment : E (option addr)) (arr : addr) : E unit :=
  match fuel with
  | O => fun _ => NoFuel
  | S f =>
      c <- cur_is COMMA ;;
      if negb c then ret tt
      else
        next ;;;
        v <- assignment ;;
        match v with
        | None => ret tt
        | Some x => lift (add_child arr x) ;;; array_loop f assignment arr
        end
  end.
Definition expression_list_ (f : nat) (conditional : E (option addr)) : E (option addr) :=
  let assignment := assignment_ conditional in
  l <- is_label ;;
  if l then
    p <- cur_pos ;; m <- alloc MAP p ;; map_loop f assignment m ;;; ret (Some m)
  else
    v <- assignment ;;
    match v with
    | None => ret None
    | Some x =>
        c <- cur_is COMMA ;;
        if c then
          p <- cur_pos ;; arr <- alloc ARRAY p ;; lift (add_child arr x) ;;;
          array_loop f assignment arr ;;; ret (Some arr)
        else ret (Some x)
    end.

(** post (expr_list.cpp:170-373). *)
Fixpoint field_loop (fuel : nat) (m : addr) (name : str) (j n : Z) : E (option addr) :=
  match fuel with
  | O => fun _ => NoFuel
  | S f =>
      if j <? n then
        k <- lift (get_child m j) ;; t <- type_of k ;;
        if negb (ntype_eqb t IDENTIFIER) then throw XLogic
        else
          s <- string_of k ;;
          if str_eqb s name then v <- lift (get_child m (j + 1)) ;; ret (Some v)
          else field_loop f m name (j + 2) n
      else ret None
  end.
Definition field (m index : addr) : E (option addr) :=
  t <- type_of m ;;
  if ntype_eqb t MAP then
    name <- string_of index ;; n <- lift (size m) ;;
    if n mod 2 =? 1 then throw XLogic
    else
      v <- field_loop (S (Z.to_nat n)) m name 0 n ;;
      match v with
      | Some x => ret (Some x)
      | None => p <- cur_pos ;; refuse p "'map[name]' is not set."
      end
  else p <- cur_pos ;; refuse p "unsupported left handside type for the '<map>.<identifier>' operation.".
(** [array\[i\]] and [map\[i\]] with an integer (expr_list.cpp:201-266). *)
Definition index_integer (result i : addr) : E (option addr) :=
  t <- type_of result ;;
  let out := p <- cur_pos ;; refuse p "index is out of range." in
  if ntype_eqb t ARRAY || ntype_eqb t LIST then
    idx <- integer_of i ;; n <- lift (size result) ;;
    let k := if idx <? 0 then wrap64 (u64 (n + idx)) else idx - 1 in
    if n <=? u64 k then out else v <- lift (get_child result (u64 k)) ;; ret (Some v)
  else if ntype_eqb t MAP then
    idx <- integer_of i ;; n <- lift (size result) ;;
    let k := if idx <? 0 then wrap64 (u64 (n / 2 + idx)) else idx - 1 in
    k <- int64 (k * 2) ;;
    k <- int64 (k + 1) ;;
    if n <=? u64 k then out else v <- lift (get_child result (u64 k)) ;; ret (Some v)
  else p <- cur_pos ;; refuse p "unsupported type for the 'array[<index>]' operation.".
Fixpoint post_loop (fuel : nat) (conditional : E (option addr)) (result : addr) : E (option addr) :=
  match fuel with
  | O => fun _ => NoFuel
  | S f =>
      b <- cur_is OPEN_SQUAREBRACKET ;;
      if b then
        a <- cur ;;
        i <- in_new a false (next ;;; expression_list_ f conditional) ;;
        match i with
        | None => ret None
        | Some i =>
            next ;;;
            t <- type_of i ;;
            v <- (if ntype_eqb t INTEGER then index_integer result i
                  else if ntype_eqb t STRING || ntype_eqb t IDENTIFIER then field result i
                  else p <- cur_pos ;; refuse p "an integer, an identifier, or a string was expected as the index (defined in '[ ... ]').") ;;
            match v with None => ret None | Some r => post_loop f conditional r end
        end
      else
        d <- cur_is PERIOD ;;
        if d then
          next ;;;
          k <- cur_is IDENTIFIER ;;
          if negb k then p <- cur_pos ;; refuse p "only an identifier is expected after a '.'."
          else
            index <- cur ;; next ;;;
            v <- field result index ;;
            match v with None => ret None | Some r => post_loop f conditional r end
        else ret (Some result)
  end.
Definition post_ (f : nat) (unary conditional : E (option addr)) : E (option addr) :=
  result <- unary ;;
  match result with
  | None => ret None
  | Some r => post_loop f conditional r
  end.

(** Functions: an arbitrary effect on the nodes and the messages. They run on
    the expression object of the call: the first parameter is its current token
    ([f_current]), which gives the position of what they report. *)
Definition functions := option addr -> addr -> heap * list msg -> outcome (heap * list msg) (option addr).
Definition call (fn : functions) (a : addr) : E (option addr) :=
  fun s =>
    let back (g : heap * list msg) := with_msgs (with_heap s (fst g)) (snd g) in
    match fn (e_cur s) a (e_heap s, e_msgs s) with
    | Ret r g => Ret r (back g) | Throw e g => Throw e (back g)
    | Undef g => Undef (back g) | NoFuel => NoFuel
    end.

(** [-x] on int64_t. *)
Definition negate (a : addr) : E (option addr) :=
  t <- type_of a ;;
  match t with
  | INTEGER => i <- integer_of a ;; v <- int64 (- i) ;; lift (set_integer a v) ;;; ret (Some a)
  | DECIMAL_NUMBER | PERCENT => d <- decimal_of a ;; lift (set_decimal_number a (SFopp d)) ;;; ret (Some a)
  | _ => p <- cur_pos ;; refuse p "unsupported type for operator '-'."
  end.
(** What an identifier stands for (expr_unary.cpp:270-312). *)
Definition word (a : addr) : E (option addr) :=
  s <- string_of a ;; p <- pos_of a ;;
  if str_eqb s (zs "null") then r <- alloc NULL_TOKEN p ;; ret (Some r)
  else if str_eqb s (zs "true") then r <- new_boolean p true ;; ret (Some r)
  else if str_eqb s (zs "false") then r <- alloc BOOLEAN p ;; ret (Some r)
  else match set_named s true with
       | Some k => new_color p k
       | None => fun st => match map_get (e_vars st) s with
                           | Some v => Ret v st
                           | None => Ret (Some a) st
                           end
       end.
(** unary (expr_unary.cpp:108-325). *)
Definition unary_ (f : nat) (fn : functions) (power conditional : E (option addr)) : E (option addr) :=
  a <- cur ;; t <- type_of a ;;
  match t with
  | ARRAY | BOOLEAN | COLOR | DECIMAL_NUMBER | EXCLAMATION | INTEGER | MAP | NULL_TOKEN | PERCENT | STRING
  | UNICODE_RANGE | URL => next ;;; ret (Some a)
  | FUNCTION => next ;;; call fn a
  | OPEN_PARENTHESIS =>
      (* the sub-expression reads its first token, then the main one moves on *)
      next ;;; in_new a false (next ;;; expression_list_ f conditional)
  | ADD => next ;;; power
  | SUBTRACT =>
      next ;;; r <- power ;;
      match r with None => ret None | Some v => negate v end
  | HASH =>
      s <- string_of a ;; p <- pos_of a ;;
      match set_named s false with
      | None => report p "the color is not valid." ;;; next ;;; ret None
      | Some k => r <- new_color p k ;; next ;;; ret r
      end
  | IDENTIFIER => next ;;; word a
  | _ => p <- cur_pos ;; refuse p "unsupported type as a unary expression token."
  end.

(** The recursive descent: [true] is conditional(), [false] is power(). *)
Fixpoint exprs (lm : libm) (fn : functions) (fuel : nat) (k : bool) : E (option addr) :=
  match fuel with
  | O => fun _ => NoFuel
  | S f => fun s =>
      let self := exprs lm fn f true in
      let power := power_ lm (post_ f (unary_ f fn (exprs lm fn f false) self) self) in
      (if k then
        conditional_ f self (logical_or_ f (logical_and_ f (equality_ f (relational_ f (additive_ f (multiplicative_ f power))))))
      else power) s
  end.
Definition conditional (lm : libm) (fn : functions) (fuel : nat) : E (option addr) := exprs lm fn fuel true.

(** expression::compile (expression.cpp:70-75). *)
Definition compile (lm : libm) (fn : functions) (fuel : nat) : E (option addr) :=
  mark_start ;;; next ;;; r <- conditional lm fn fuel ;; replace_with_result r.
(** [expression e(n); e.compile()]. *)
Definition compile_node (lm : libm) (fn : functions) (fuel : nat) (n : addr) (h : heap) : outcome est (option addr) :=
  compile lm fn fuel (mkE h [] n 0 (-1) None [] false).
