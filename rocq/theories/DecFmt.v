(** * Printing decimal numbers (csspp/csspp.cpp:62-154, csspp/csspp.h.in:93-120) *)

From Coq Require Import String ZArith List Bool Floats.SpecFloat.
From Verif Require Import Base DecText.
Import ListNotations.
Open Scope string_scope. Open Scope list_scope. Open Scope Z_scope.

(** ** The precision

    [g_precision] (csspp.cpp:62), set_precision (csspp.cpp:76-84): [None] is
    the overflow exception. *)
Definition precision_start : Z := 3.
Definition set_precision (p : Z) : option Z := if (p <? 0) || (10 <? p) then None else Some p.

(** Programs that change the precision: calls, scopes with a guard with or
    without a new precision (csspp.h.in:93-120), exceptions. An exception of
    [set_precision] goes up like any other one; a guard whose constructor
    throws is not destroyed. *)
Inductive pprog :=
| QDone
| QSet (p : Z) (rest : pprog)
| QGuard (body rest : pprog)
| QGuardSet (p : Z) (body rest : pprog)
| QThrow.

(** The destructor of the guard; it catches the exception. *)
Definition restore_precision (old cur : Z) : Z := match set_precision old with Some p => p | None => cur end.

Fixpoint pprog_run (g : Z) (q : pprog) : Z * bool :=
  match q with
  | QDone => (g, false)
  | QThrow => (g, true)
  | QSet p r => match set_precision p with Some g' => pprog_run g' r | None => (g, true) end
  | QGuard b r =>
      let '(g1, thrown) := pprog_run g b in
      let g2 := restore_precision g g1 in
      if thrown then (g2, true) else pprog_run g2 r
  | QGuardSet p b r =>
      match set_precision p with
      | None => (g, true)
      | Some g' =>
          let '(g1, thrown) := pprog_run g' b in
          let g2 := restore_precision g g1 in
          if thrown then (g2, true) else pprog_run g2 r
      end
  end.

(** ** operator << (double) with std::setprecision(1077)

    The format is %.1077g: the exact decimal expansion, without superfluous
    zeroes, in scientific notation when the exponent is under -4. A double has
    at most 767 significant digits and an exponent of at most 308, so nothing
    is ever rounded and the other bound (1077) is never reached. *)

(** All the digits of a natural number. *)
Definition all_digits (v : Z) : str := dec_digits 1200 v [].

(** [v] on exactly [k] digits. *)
Fixpoint pad (k : nat) (v : Z) (acc : str) : str :=
  match k with
  | O => acc
  | S k => pad k (v / 10) ((48 + v mod 10) :: acc)
  end.

(** Removing the zeroes at the end. *)
Fixpoint strip (l : str) : str :=
  match l with
  | [] => []
  | c :: r => match strip r with
              | [] => if c =? 48 then [] else [c]
              | r' => c :: r'
              end
  end.

Definition with_point (ip fp : str) : str := match fp with [] => ip | _ => ip ++ 46 :: fp end.

(** The two digits at least of an exponent. *)
Definition exponent_text (x : Z) : str := if x <? 10 then 48 :: nat_text x else nat_text x.

(** The text of n / 10^k. *)
Definition decimal_text (n : Z) (k : nat) : str :=
  let ds := all_digits n in
  let x := Z.of_nat (length ds) - 1 - Z.of_nat k in
  if x <? -4 then
    match ds with
    | d :: r => with_point [d] (strip r) ++ zs "e-" ++ exponent_text (- x)
    | [] => []
    end
  else with_point (all_digits (n / 10 ^ Z.of_nat k)) (strip (pad k (n mod 10 ^ Z.of_nat k) [])).

Definition double_text (x : f64) : str :=
  match x with
  | S754_zero s => (if s then zs "-" else []) ++ zs "0"
  | S754_infinity s => (if s then zs "-" else []) ++ zs "inf"
  | S754_nan => zs "nan"
  | S754_finite s m e =>
      (if s then zs "-" else []) ++
      (if 0 <=? e then decimal_text (Z.pos m * 2 ^ e) 0
       else decimal_text (Z.pos m * 5 ^ (- e)) (Z.to_nat (- e)))
  end.

(** ** decimal_number_to_string (csspp.cpp:86-154) *)
Definition f_half : f64 := f64_div (f64_of_Z 1) (f64_of_Z 2).

(** std::string::find. *)
Fixpoint find_char (c : Z) (l : str) : option nat :=
  match l with
  | [] => None
  | x :: r => if x =? c then Some O else option_map S (find_char c r)
  end.

Fixpoint drop_last_if (c : Z) (l : str) : str :=
  match l with
  | [] => []
  | [x] => if x =? c then [] else [x]
  | x :: r => x :: drop_last_if c r
  end.

Definition rounded (lm : libm) (p : Z) (d : f64) : f64 :=
  let h := f64_div f_half (lm_pow lm (f64_of_Z 10) (f64_of_Z p)) in
  if SFleb (S754_zero false) d then f64_add d h else f64_sub d h.

Definition remove_zero (out : str) : str :=
  match out with
  | a :: b :: c :: r =>
      if (a =? 48) && (b =? 46) then b :: c :: r
      else match r with
           | d :: _ => if (a =? 45) && (b =? 48) && (c =? 46) then a :: c :: r else out
           | [] => out
           end
  | _ => out
  end.

Definition no_minus_zero (out : str) : str :=
  match out with
  | [a; b] => if (a =? 45) && (b =? 48) then zs "0" else out
  | _ => out
  end.

Definition trim_text (p : Z) (remove_leading_zero : bool) (out : str) : str :=
  let out :=
    match find_char 46 out with
    | None => out
    | Some e =>
        let n := (e + Z.to_nat p + 1)%nat in
        let out := if (n <? length out)%nat then firstn n out else out in
        drop_last_if 46 (strip out)
    end in
  let out := if remove_leading_zero then remove_zero out else out in
  no_minus_zero out.

Definition decimal_number_to_string (lm : libm) (p : Z) (d : f64) (remove_leading_zero : bool) : str :=
  trim_text p remove_leading_zero (double_text (rounded lm p d)).
