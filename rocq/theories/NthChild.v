(** * An+B expressions (csspp/nth_child.h, csspp/nth_child.cpp) *)

From Coq Require Import String ZArith List Bool.
From Verif Require Import Base UnicodeRange DecText.
Import ListNotations.
Open Scope string_scope. Open Scope list_scope. Open Scope Z_scope.

(** An nth_child object is its two int32_t coefficients and its error. *)
Record nth := mkNth { nth_a : Z; nth_b : Z; nth_error : string }.

(** nth_child(integer_t) (nth_child.cpp:63-67): truncations to int32_t of
    arithmetic shifts. *)
Definition nth_of_value (v : Z) : nth :=
  mkNth (to_i32 (Z.shiftr v 0)) (to_i32 (Z.shiftr v 32)) "".
(** nth_child(a, b) and the setters (nth_child.cpp:69-89). *)
Definition nth_make (a b : Z) : nth := mkNth a b "".
Definition nth_set_a (n : nth) (a : Z) : nth := mkNth a (nth_b n) (nth_error n).
Definition nth_set_b (n : nth) (b : Z) : nth := mkNth (nth_a n) b (nth_error n).
(** get_nth (nth_child.cpp:101-104). The shifted value is converted to int64_t
    modulo 2^64 (C++20, and what every compiler does before that). *)
Definition nth_value (n : nth) : Z :=
  Z.lor (wrap64 (Z.shiftl (Z.land (nth_a n) 4294967295) 0))
        (wrap64 (Z.shiftl (Z.land (nth_b n) 4294967295) 32)).

(** ** The tokenizer of parse (nth_child.cpp:113-245) *)
Inductive ntok := NEof | NOdd | NEven | NInteger | NPlus | NMinus | NN | NUnknown.

(** A byte of the std::string converted to wide_char_t ([char] is signed). *)
Definition nchar (b : Z) : Z := if 128 <=? b then b - 256 else b.

(** [f_unget] and what follows [f_pos]. *)
Record nin := mkNin { ni_unget : Z; ni_rest : list Z }.

(** getc (nth_child.cpp:133-152); EOF is -1. *)
Definition ni_getc (i : nin) : Z * nin :=
  if negb (ni_unget i =? 0) then (ni_unget i, mkNin 0 (ni_rest i))
  else match ni_rest i with
       | b :: r => (nchar b, mkNin 0 r)
       | [] => (-1, i)
       end.
(** ungetc (nth_child.cpp:154-157). *)
Definition ni_ungetc (c : Z) (i : nin) : nin := mkNin c (ni_rest i).

Definition eq_nocase (c up : Z) : bool := (c =? up) || (c =? up + 32).

(** The loop of the digits (nth_child.cpp:185-194). [None] is a signed
    overflow. *)
Fixpoint ni_digits (fuel : nat) (value c : Z) (i : nin) : option (Z * nin) :=
  match fuel with
  | O => None
  | S f =>
      if negb (int64_ok (value * 10) && int64_ok (value * 10 + c)) then None
      else
        let value := value * 10 + c - 48 in
        let '(c, i) := ni_getc i in
        if (c <? 48) || (57 <? c) then Some (value, ni_ungetc c i)
        else ni_digits f value c i
  end.

(** The loop of the spaces (nth_child.cpp:163-169). *)
Fixpoint ni_skip (fuel : nat) (i : nin) : Z * nin :=
  match fuel with
  | O => (-1, i)
  | S f => let '(c, i) := ni_getc i in if c =? 32 then ni_skip f i else (c, i)
  end.

(** token (nth_child.cpp:159-239). *)
Definition ni_token (i : nin) : option (ntok * Z * nin) :=
  let fuel := (length (ni_rest i) + 2)%nat in
  let '(c, i) := ni_skip fuel i in
  if c =? -1 then Some (NEof, 0, i)
  else if (48 <=? c) && (c <=? 57) then
    match ni_digits fuel 0 c i with
    | Some (v, i) => Some (NInteger, v, i)
    | None => None
    end
  else if eq_nocase c 78 then Some (NN, 0, i)
  else if eq_nocase c 69 then
    let '(c, i) := ni_getc i in
    if eq_nocase c 86 then
      let '(c, i) := ni_getc i in
      if eq_nocase c 69 then
        let '(c, i) := ni_getc i in
        if eq_nocase c 78 then Some (NEven, 0, i) else Some (NUnknown, 0, i)
      else Some (NUnknown, 0, i)
    else Some (NUnknown, 0, i)
  else if eq_nocase c 79 then
    let '(c, i) := ni_getc i in
    if eq_nocase c 68 then
      let '(c, i) := ni_getc i in
      if eq_nocase c 68 then Some (NOdd, 0, i) else Some (NUnknown, 0, i)
    else Some (NUnknown, 0, i)
  else if c =? 43 then Some (NPlus, 0, i)
  else if c =? 45 then Some (NMinus, 0, i)
  else Some (NUnknown, 0, i).

(** parse (nth_child.cpp:111-353): [None] is undefined behaviour, otherwise
    the returned boolean and the new object. The products of an int64_t that
    is not negative by 1 or -1 do not overflow; the results are truncated to
    int32_t. *)
Definition nth_parse (n : nth) (text : list Z) : option (bool * nth) :=
  let fail n msg := Some (false, mkNth (nth_a n) (nth_b n) msg) in
  let ok a b := Some (true, mkNth (to_i32 a) (to_i32 b) "") in
  let i := mkNin 0 text in
  match ni_token i with
  | None => None
  | Some (NEven, _, i) =>
      match ni_token i with
      | Some (NEof, _, _) => ok 2 0
      | Some _ => fail (nth_make 2 0) "'even' cannot be followed by anything else in an An+B expression."
      | None => None
      end
  | Some (NOdd, _, i) =>
      match ni_token i with
      | Some (NEof, _, _) => ok 2 1
      | Some _ => fail (nth_make 2 1) "'odd' cannot be followed by anything else in an An+B expression."
      | None => None
      end
  | Some (tok, v, i) =>
      let signed :=
        match tok with
        | NPlus => match ni_token i with Some (t, v, i) => Some (t, v, i, 1) | None => None end
        | NMinus => match ni_token i with Some (t, v, i) => Some (t, v, i, -1) | None => None end
        | _ => Some (tok, v, i, 1)
        end in
      match signed with
      | None => None
      | Some (NInteger, first_int, i, first_sign) =>
          match ni_token i with
          | None => None
          | Some (NEof, _, _) => ok 0 (first_int * first_sign)
          | Some (NN, _, i) =>
              match ni_token i with
              | None => None
              | Some (t, _, i) =>
                  let second :=
                    match t with NPlus => Some 1 | NMinus => Some (-1) | _ => None end in
                  match second with
                  | None => fail n "A sign (+ or -) is expected between the 'An' and the 'B' parts in 'An+B'."
                  | Some second_sign =>
                      match ni_token i with
                      | None => None
                      | Some (NInteger, second_int, i) =>
                          match ni_token i with
                          | None => None
                          | Some (NEof, _, _) => ok (first_int * first_sign) (second_int * second_sign)
                          | Some _ =>
                              fail (nth_make (to_i32 (first_int * first_sign)) (to_i32 (second_int * second_sign)))
                                "An 'An+B' expression cannot be followed by anything else."
                          end
                      | Some _ => fail n "The value B must be a valid integer in 'An+B'."
                      end
                  end
              end
          | Some _ => fail n "The first number has to be followed by the 'n' character."
          end
      | Some _ => fail n "In an An+B expression, we expect an optional signed followed by a number or 'even' or 'odd'."
      end
  end.

(** to_string (nth_child.cpp:355-383). *)
Definition nth_to_string (n : nth) : str :=
  let a := nth_a n in
  let b := nth_b n in
  if (a =? 2) && (b =? 0) then zs "2n"
  else if (a =? 2) && (b =? 1) then zs "odd"
  else if a =? 0 then int_text b
  else if b =? 0 then int_text a ++ zs "n"
  else int_text a ++ zs "n" ++ (if 0 <=? b then zs "+" else []) ++ int_text b.
