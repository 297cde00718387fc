(** * Unicode ranges (csspp/unicode_range.h, csspp/unicode_range.cpp) *)

From Coq Require Import ZArith List Bool.
From Verif Require Import Base.
Import ListNotations.
Open Scope Z_scope.

(** Conversion of a 64 bit value to [wide_char_t] (int32_t). *)
Definition to_i32 (z : Z) : Z :=
  (z + 2147483648) mod 4294967296 - 2147483648.

(** range_to_start (unicode_range.cpp:31-34). *)
Definition range_to_start (r : Z) : Z := to_i32 (Z.land r 4294967295).
(** range_to_end (unicode_range.cpp:36-39). *)
Definition range_to_end (r : Z) : Z := to_i32 (Z.land (Z.shiftr r 32) 4294967295).
(** start_end_to_range (unicode_range.cpp:41-44): both bounds are converted to
    uint64_t (sign extended) first. *)
Definition start_end_to_range (s e : Z) : Z :=
  Z.lor (u64 (Z.shiftl (u64 e) 32)) (u64 s).

(** verify_range (unicode_range.cpp:46-75): [true] when it returns normally,
    [false] when it throws csspp_exception_overflow. *)
Definition verify_range (r : Z) : bool :=
  let s := range_to_start r in
  let e := range_to_end r in
  (s <? 1114112) && (e <? 2097152) && (s <=? e).

(** unicode_range_t::unicode_range_t(range) and set_range(range)
    (unicode_range.cpp:79-83, 91-95); [None] is the exception. *)
Definition ur_of_value (r : Z) : option Z := if verify_range r then Some r else None.
(** unicode_range_t::unicode_range_t(start, end) and set_range(start, end)
    (unicode_range.cpp:85-89, 97-102). *)
Definition ur_make (s e : Z) : option Z := ur_of_value (start_end_to_range s e).
(** get_start, get_end (unicode_range.cpp:109-117). *)
Definition ur_start (r : Z) : Z := range_to_start r.
Definition ur_end (r : Z) : Z := range_to_end r.

(** Lower case hexadecimal digit, as printed by std::hex. *)
Definition hex_digit (d : Z) : Z := if d <? 10 then 48 + d else 87 + d.

(** [std::hex << v] for a 32 bit value: at most eight digits, no leading
    zero. *)
Fixpoint hex_print_aux (k : nat) (v : Z) (acc : str) : str :=
  match k with
  | O => acc
  | S k' =>
      let acc' := hex_digit (v mod 16) :: acc in
      if v / 16 =? 0 then acc' else hex_print_aux k' (v / 16) acc'
  end.
Definition hex_print (v : Z) : str := hex_print_aux 8 (v mod 4294967296) [].

(** [std::hex << std::setw(6) << std::setfill('0') << v]. *)
Definition hex_fill6 (v : Z) : str :=
  let h := hex_print v in repeat 48 (6 - length h) ++ h.

(** The loop that finds the question marks (unicode_range.cpp:152-159): the
    number of final positions which are ('0', 'f'), on reversed strings. *)
Fixpoint mask_len (s e : str) : nat :=
  match s, e with
  | a :: s', b :: e' => if (a =? 48) && (b =? 102) then S (mask_len s' e') else O
  | _, _ => O
  end.

(** Removal of the leading zeroes (unicode_range.cpp:165-169). *)
Fixpoint strip_zeroes (s : str) : str :=
  match s with
  | c :: r => if c =? 48 then strip_zeroes r else s
  | [] => []
  end.

(** unicode_range_t::to_string (unicode_range.cpp:119-178); [None] is the
    exception of line 149. *)
Definition ur_to_string (r : Z) : option str :=
  let s := range_to_start r in
  let e := range_to_end r in
  if (s =? 0) && (1114111 <=? e) then Some [63; 63; 63; 63; 63; 63]
  else if s =? e then Some (hex_print s)
  else
    let ss := hex_fill6 s in
    let es := hex_fill6 e in
    if negb ((length ss =? 6)%nat && (length es =? 6)%nat) then None
    else
      let q := mask_len (rev ss) (rev es) in
      let p := (6 - q)%nat in
      if str_eqb (firstn p ss) (firstn p es) then
        Some (strip_zeroes (firstn p ss ++ repeat 63 q))
      else Some (hex_print s ++ [45] ++ hex_print e).
