(** * The lexer (csspp/lexer.h, csspp/lexer.cpp)

    A complete model of [lexer::next_token] and of every function it calls,
    over a byte stream. Loops take fuel; [LexerTotal.v] proves that the fuel
    given here is never exhausted. *)

From Coq Require Import String ZArith List Bool.
From Coq Require Import Floats.SpecFloat.
From Verif Require Import Base Utf8 UnicodeRange.
Import ListNotations.
Open Scope string_scope.
Open Scope list_scope.
Open Scope Z_scope.

(** ** State (csspp/lexer.h:124-129)

    [l_in] is what remains of [f_in]; [l_unget] is [f_ungetc] with the top of
    the stack first; [l_log] is the list of messages emitted, last first. *)
Record lexst := mkLex {
  l_in : list Z;
  l_unget : list Z;
  l_pos : position;
  l_start : position;
  l_log : list msg
}.

(** lexer::lexer (lexer.cpp:52-57). *)
Definition new_lexer (input : list Z) (p : position) : lexst := mkLex input [] p p [].

Definition M (A : Type) := lexst -> outcome lexst A.
Definition ret {A} (a : A) : M A := fun s => Ret a s.
Definition bind {A B} (m : M A) (f : A -> M B) : M B :=
  fun s => match m s with
           | Ret a s' => f a s'
           | Throw e s' => Throw e s'
           | Undef s' => Undef s'
           | NoFuel => NoFuel
           end.
Notation "x <- m ;; f" := (bind m (fun x => f)) (at level 61, m at next level, right associativity).
Notation "m ;;; f" := (bind m (fun _ => f)) (at level 61, right associativity).

Definition throw {A} (e : exn) : M A := fun s => Throw e s.
Definition undef {A} : M A := fun s => Undef s.
Definition nofuel {A} : M A := fun _ => NoFuel.

(** [error::instance() << position << text << mode]. *)
Definition emit (l : level) (p : lexst -> position) (t : string) : M unit :=
  fun s => Ret tt (mkLex (l_in s) (l_unget s) (l_pos s) (l_start s)
                         (mkMsg l (p s) t :: l_log s)).
(** An error at the start of the current token, by far the most common case. *)
Definition err (t : string) : M unit := emit LError l_start t.

(** [new node(type, f_start_position)]. *)
Definition new_node (t : ntype) : M node := fun s => Ret (mk t (l_start s)) s.

(** Fuel for the loops: one more than the number of characters that can still
    be read. *)
Definition fuel_of (s : lexst) : nat := S (S (length (l_in s) + length (l_unget s))).
Definition with_fuel {A} (f : nat -> M A) : M A := fun s => f (fuel_of s) s.

(** ** Character classes (csspp/lexer.h:36-107) *)
Definition is_space (c : Z) : bool := (c =? 32) || (c =? 9) || (c =? 10).
Definition is_digit (c : Z) : bool := (48 <=? c) && (c <=? 57).
Definition is_upper (c : Z) : bool := (65 <=? c) && (c <=? 90).
Definition is_lower (c : Z) : bool := (97 <=? c) && (c <=? 122).
Definition is_non_printable (c : Z) : bool :=
  (c =? 0) || (c =? 8) || (c =? 11) || ((14 <=? c) && (c <=? 31)) || (c =? 127)
  || (c =? 65533).
Definition is_variable (c : Z) : bool :=
  is_digit c || is_upper c || is_lower c || (c =? 45) || (c =? 95).
Definition is_identifier (c : Z) : bool :=
  is_digit c || is_upper c || is_lower c || (c =? 45) || (c =? 95) || (128 <=? c).
Definition is_start_identifier (c : Z) : bool :=
  is_upper c || is_lower c || ((128 <=? c) && negb (c =? 65533)) || (c =? 95).
Definition is_hex (c : Z) : bool :=
  is_digit c || ((65 <=? c) && (c <=? 70)) || ((97 <=? c) && (c <=? 102)).
Definition is_hash_character (c : Z) : bool :=
  is_digit c || is_upper c || is_lower c || (c =? 45) || (c =? 95)
  || ((128 <=? c) && negb (c =? 65533)).

(** std::tolower in the "C" locale, as implemented by glibc: characters outside
    of A-Z are returned unchanged (the standard leaves values above 255
    undefined; that is not modelled). *)
Definition tolower (c : Z) : Z := if is_upper c then c + 32 else c.

(** ** Characters in and out *)

(** Follow bytes 0x80..0xBF. *)
Definition is_follow (c : Z) : bool := (128 <=? c) && (c <=? 191).
(** The loops which skip follow bytes (lexer.cpp:649, 682). *)
Fixpoint skip_follow (l : list Z) : list Z :=
  match l with
  | c :: r => if is_follow c then skip_follow r else l
  | [] => []
  end.
(** The loop which reads up to [k] follow bytes (lexer.cpp:643-672). *)
Fixpoint take_follow (k : nat) (l : list Z) : list Z * list Z :=
  match k, l with
  | S k', c :: r =>
      if is_follow c then let '(a, b) := take_follow k' r in (c :: a, b) else ([], l)
  | _, _ => ([], l)
  end.

(** The [std::string wctomb] with its messages (lexer.cpp:612-617). *)
Definition wctomb_m (c : Z) : M str :=
  match wctomb c with
  | inr b => ret b
  | inl t => err t ;;; ret []
  end.

Definition set_in (l : list Z) : M unit :=
  fun s => Ret tt (mkLex l (l_unget s) (l_pos s) (l_start s) (l_log s)).
Definition set_unget (l : list Z) : M unit :=
  fun s => Ret tt (mkLex (l_in s) l (l_pos s) (l_start s) (l_log s)).
Definition set_pos (f : position -> position) : M unit :=
  fun s => Ret tt (mkLex (l_in s) (l_unget s) (f (l_pos s)) (l_start s) (l_log s)).

(** End of getc (lexer.cpp:687-714): line terminators and NUL. *)
Definition getc_tail (c : Z) (rest : list Z) : M Z :=
  if c =? 13 then
    set_pos next_line ;;;
    match rest with
    | n :: r => set_in (if n =? 10 then r else rest) ;;; ret 10
    | [] => set_in [] ;;; ret 10
    end
  else if c =? 10 then set_in rest ;;; set_pos next_line ;;; ret 10
  else if c =? 12 then set_in rest ;;; set_pos next_page ;;; ret 10
  else set_in rest ;;; if c =? 0 then ret 65533 else ret c.

(** lexer::getc (lexer.cpp:619-715). [f_in.get()] at the end of the stream
    returns EOF, again and again. *)
Definition getc : M Z := fun s =>
  match l_unget s with
  | c :: u => (set_unget u ;;; if c =? 0 then ret 65533 else ret c) s
  | [] =>
      match l_in s with
      | [] => Ret (-1) s
      | b :: rest =>
          if b <? 128 then getc_tail b rest s
          else if (192 <=? b) && (b <? 255) then
            let '(mb, rest') := take_follow 7 rest in
            if (length mb =? 7)%nat then
              (set_in (skip_follow rest') ;;;
               err "too many follow bytes, it cannot represent a valid UTF-8 character." ;;;
               ret 65533) s
            else
              match mbtowc (b :: mb) with
              | inr c => getc_tail c rest' s
              | inl t => (err t ;;; getc_tail 65533 rest') s
              end
          else
            (err "unexpected byte in input buffer." ;;;
             set_in (skip_follow rest) ;;; ret 65533) s
      end
  end.

(** lexer::ungetc (lexer.cpp:717-743), UNGETSIZ is 16 (lexer.h:112). *)
Definition ungetc (c : Z) : M unit := fun s =>
  if (c =? -1) || (c =? 65533) then Ret tt s
  else if (c <? 0) || (1114111 <? c) then Throw XUngetRange s
  else if (16 <=? length (l_unget s))%nat then Throw XUngetSpace s
  else set_unget (c :: l_unget s) s.

(** lexer::hex_to_dec (lexer.cpp:745-762). *)
Definition hex_to_dec (c : Z) : M Z :=
  if is_digit c then ret (c - 48)
  else if (65 <=? c) && (c <=? 70) then ret (c - 65 + 10)
  else if (97 <=? c) && (c <=? 102) then ret (c - 97 + 10)
  else throw XHexDigit.

(** The hexadecimal loop of escape (lexer.cpp:789-815), [k] more digits. *)
Fixpoint escape_hex (k : nat) (wc : Z) : M Z :=
  let finish :=
    if wc =? 0 then
      err "escape character '\\0' is not acceptable in CSS." ;;; ret 65533
    else ret wc in
  match k with
  | O => finish
  | S k' =>
      c <- getc ;;
      if negb (is_hex c) then
        (if is_space c then ret tt else ungetc c) ;;; finish
      else
        d <- hex_to_dec c ;;
        let wc' := wc * 16 + d in
        if 1114112 <=? wc' then
          err "escape character too large for Unicode." ;;; ret 65533
        else escape_hex k' wc'
  end.

(** lexer::escape (lexer.cpp:764-822). *)
Definition escape : M Z :=
  c <- getc ;;
  if c =? 10 then
    err "spurious newline character after a \\ character outside of a string." ;;; ret 65533
  else if c =? 65533 then
    err "invalid character after a \\ character." ;;; ret 65533
  else if c =? -1 then
    err "found EOF right after \\." ;;; ret 65533
  else if is_hex c then
    d <- hex_to_dec c ;; escape_hex 5 d
  else ret c.

(** lexer::string (lexer.cpp:1246-1303). *)
Fixpoint string_loop (fuel : nat) (quote : Z) (acc : str) : M str :=
  match fuel with
  | O => nofuel
  | S f =>
      c <- getc ;;
      if c =? -1 then err "found an unterminated string." ;;; ret acc
      else if c =? 10 then
        ungetc c ;;;
        err "found an unterminated string with an unescaped newline." ;;; ret acc
      else if c =? quote then ret acc
      else
        c <- (if c =? 92 then
                n <- getc ;;
                if n =? 10 then ret 10
                else if n =? -1 then ret (-1)
                else if n =? 65533 then
                  err "invalid character after a \\ character." ;;; ret (-1)
                else ungetc n ;;; escape
              else ret c) ;;
        if negb (c =? -1) && negb (c =? 65533) then
          b <- wctomb_m c ;; string_loop f quote (acc ++ b)
        else string_loop f quote acc
  end.
Definition lex_string (quote : Z) : M str := with_fuel (fun f => string_loop f quote []).

(** Main loop of identifier (lexer.cpp:876-896); returns the identifier, its
    lower case version and the character which ended it. *)
Fixpoint ident_loop (fuel : nat) (id low : str) : M (str * str * Z) :=
  match fuel with
  | O => nofuel
  | S f =>
      c <- getc ;;
      if c =? 92 then
        c <- escape ;;
        if c =? 65533 then ret (id, low, c)
        else
          b <- wctomb_m c ;;
          l <- wctomb_m (tolower c) ;;
          ident_loop f (id ++ b) (low ++ l)
      else if negb (is_identifier c) then ret (id, low, c)
      else
        b <- wctomb_m c ;;
        l <- wctomb_m (tolower c) ;;
        ident_loop f (id ++ b) (low ++ l)
  end.

(** Skip white space, return the first other character (lexer.cpp:919-924). *)
Fixpoint skip_spaces (fuel : nat) : M Z :=
  match fuel with
  | O => nofuel
  | S f => c <- getc ;; if is_space c then skip_spaces f else ret c
  end.

(** Unquoted URL (lexer.cpp:937-957); returns the URL and the last
    character. *)
Fixpoint url_loop (fuel : nat) (url : str) : M (str * Z) :=
  match fuel with
  | O => nofuel
  | S f =>
      c <- getc ;;
      if (c =? 41) || is_space c then ret (url, c)
      else if (c =? -1) || (c =? 34) || (c =? 39) || (c =? 40) || is_non_printable c then
        err "found an invalid URL, one with forbidden characters." ;;; ret (url, 41)
      else b <- wctomb_m c ;; url_loop f (url ++ b)
  end.

(** Search for the closing parenthesis of a URL (lexer.cpp:961-981). *)
Fixpoint url_close (fuel : nat) : M unit :=
  match fuel with
  | O => nofuel
  | S f =>
      c <- getc ;;
      if c =? 41 then ret tt
      else if negb (is_space c) then
        err "found an invalid URL, one which includes spaces or has a missing ')'."
      else url_close f
  end.

(** lexer::identifier (lexer.cpp:824-1001), split at the start of the loop. *)
Definition ident_finish (ty : ntype) (id low : str) (c : Z) : M node :=
  match id with
  | [] =>
      ungetc c ;;; err "found an empty identifier." ;;; new_node EOF_TOKEN
  | _ =>
      if (c =? 40) && negb (ntype_eqb ty AT_KEYWORD) then
        if str_eqb low (zs "url") then
          c <- with_fuel skip_spaces ;;
          r <- (if (c =? 34) || (c =? 39) then
                  u <- lex_string c ;; ret (u, c)
                else
                  b <- wctomb_m c ;; with_fuel (fun f => url_loop f b)) ;;
          let '(url, c) := r in
          (if c =? 41 then ret tt else with_fuel url_close) ;;;
          n <- new_node URL ;; ret (set_str n url)
        else
          n <- new_node FUNCTION ;; ret (set_str n low)
      else
        ungetc c ;;;
        n <- new_node ty ;; ret (set_low (set_str n id) low)
  end.

Definition identifier (c0 : Z) : M node :=
  let ty := if c0 =? 37 then PLACEHOLDER else if c0 =? 64 then AT_KEYWORD else IDENTIFIER in
  c <- (if (c0 =? 37) || (c0 =? 64) then getc else ret c0) ;;
  r <- (if c =? 45 then c' <- getc ;; ret ([45], c') else ret ([], c)) ;;
  let '(id, c) := r in
  if c =? 92 then
    c <- escape ;;
    if c =? 65533 then
      r <- with_fuel (fun f => ident_loop f id id) ;;
      let '(id, low, c) := r in ident_finish ty id low c
    else
      b <- wctomb_m c ;;
      l <- wctomb_m (tolower c) ;;
      r <- with_fuel (fun f => ident_loop f (id ++ b) (id ++ l)) ;;
      let '(id, low, c) := r in ident_finish ty id low c
  else if is_start_identifier c then
    b <- wctomb_m c ;;
    l <- wctomb_m (tolower c) ;;
    r <- with_fuel (fun f => ident_loop f (id ++ b) (id ++ l)) ;;
    let '(id, low, c) := r in ident_finish ty id low c
  else if ntype_eqb ty AT_KEYWORD then
    ungetc c ;;; err "found an empty identifier." ;;; new_node EOF_TOKEN
  else throw XIdentStart.

(** Digits before the period (lexer.cpp:1021-1035). The new value is computed
    in uint64_t. *)
Fixpoint int_loop (fuel : nat) (i : Z) : M (Z * Z) :=
  match fuel with
  | O => nofuel
  | S f =>
      c <- getc ;;
      if negb (is_digit c) then ret (c, i)
      else
        let ni := u64 (u64 i * 10 + c - 48) in
        (if 9223372036854775808 <=? ni then err "integral part too large for a number."
         else ret tt) ;;;
        int_loop f (wrap64 ni)
  end.

(** Constants of number(); 1e21 and 1e22 are exact doubles. *)
Definition f_1 : f64 := f64_of_Z 1.
Definition f_10 : f64 := f64_of_Z 10.
Definition f_100 : f64 := f64_of_Z 100.
Definition f_1e21 : f64 := f64_of_Z 1000000000000000000000.
Definition f_1e22 : f64 := f64_of_Z 10000000000000000000000.

(** Digits after the period (lexer.cpp:1043-1056). *)
Fixpoint frac_loop (fuel : nat) (part frac : f64) : M (Z * f64 * f64) :=
  match fuel with
  | O => nofuel
  | S f =>
      c <- getc ;;
      if negb (is_digit c) then ret (c, part, frac)
      else
        let frac := f64_mul frac f_10 in
        let part := f64_add part (f64_div (f64_of_Z (c - 48)) frac) in
        (if SFleb f_1e21 frac && SFltb frac f_1e22 then
           err "fraction too large for a decimal number."
         else ret tt) ;;;
        frac_loop f part frac
  end.

(** Digits of the exponent (lexer.cpp:1109-1116), signed 64 bit arithmetic;
    [c] is the first digit. *)
Fixpoint exp_loop (fuel : nat) (c e : Z) : M (Z * Z) :=
  match fuel with
  | O => nofuel
  | S f =>
      if negb (is_digit c) then ret (c, e)
      else if negb (int64_ok (e * 10) && int64_ok (e * 10 + c)) then undef
      else
        let e := e * 10 + c - 48 in
        (if 1024 <=? e then err "exponent too large for a decimal number." else ret tt) ;;;
        c <- getc ;;
        exp_loop f c e
  end.

(** Dimension (lexer.cpp:1129-1152); returns the dimension and the last
    character. *)
Fixpoint dim_loop (fuel : nat) (c : Z) (dim : str) : M (str * Z) :=
  match fuel with
  | O => nofuel
  | S f =>
      if c =? 92 then
        c <- escape ;;
        if c =? 65533 then ret (dim, c)
        else
          b <- wctomb_m (tolower c) ;;
          c <- getc ;;
          dim_loop f c (dim ++ b)
      else if negb (is_identifier c) then
        ungetc c ;;; ret (dim, 0)
      else
        b <- wctomb_m (tolower c) ;;
        c <- getc ;;
        dim_loop f c (dim ++ b)
  end.

(** Exponent (lexer.cpp:1072-1120): the current character and the value. *)
Definition lex_exponent (c : Z) : M (Z * Z) :=
  if (c =? 101) || (c =? 69) then
    s <- getc ;;
    is_exp <- (if (s =? 45) || (s =? 43) then
                 d <- getc ;; ungetc d ;;; ret (is_digit d)
               else ret (is_digit s)) ;;
    ungetc s ;;;
    if is_exp : bool then
      c <- getc ;;
      r <- (if c =? 45 then c' <- getc ;; ret (-1, c')
            else if c =? 43 then c' <- getc ;; ret (1, c')
            else ret (1, c)) ;;
      let '(sg, c) := r in
      if negb (is_digit c) then throw XExponent
      else
        r <- with_fuel (fun f => exp_loop f c 0) ;;
        let '(c, e) := r in ret (c, e * sg)
    else ret (c, 0)
  else ret (c, 0).

(** lexer::number (lexer.cpp:1003-1211). *)
Definition number (lm : libm) (c0 : Z) : M node :=
  let has_sign := (c0 =? 45) || (c0 =? 43) in
  let sign := if c0 =? 45 then -1 else 1 in
  c <- (if has_sign then getc else ret c0) ;;
  r <- (if is_digit c then with_fuel (fun f => int_loop f (c - 48)) else ret (c, 0)) ;;
  let '(c, integer) := r in
  r <- (if c =? 46 then
          r <- with_fuel (fun f => frac_loop f (S754_zero false) f_1) ;;
          let '(c, part, frac) := r in
          if SFeqb frac f_1 then
            err "decimal number must have at least one digit after the decimal point." ;;;
            ret (c, part, f_10)
          else ret (c, part, frac)
        else ret (c, S754_zero false, f_1)) ;;
  let '(c, part, frac) := r in
  r <- lex_exponent c ;;
  let '(c, exponent) := r in
  r <- (if is_identifier c || (c =? 92) then
          r <- with_fuel (fun f => dim_loop f c []) ;;
          let '(dim, c) := r in
          if str_eqb dim [45] then ungetc 45 ;;; ret ([], c, frac) else ret (dim, c, frac)
        else if c =? 37 then
          ret ([], c, if SFeqb frac f_1 then f_10 else frac)
        else ungetc c ;;; ret ([], c, frac)) ;;
  let '(dim, c, frac) := r in
  if negb (exponent =? 0) || negb (SFeqb frac f_1) then
    let v := f64_mul (f64_mul (f64_of_Z sign) (f64_add (f64_of_Z integer) part))
                     (lm_pow lm f_10 (f64_of_Z exponent)) in
    if c =? 37 then
      n <- new_node PERCENT ;;
      ret (set_bool (set_dec n (f64_div v f_100)) has_sign)
    else
      n <- new_node DECIMAL_NUMBER ;;
      ret (set_bool (set_str (set_dec n v) dim) has_sign)
  else if negb (int64_ok (integer * sign)) then undef
  else
    n <- new_node INTEGER ;;
    ret (set_bool (set_str (set_int n (integer * sign)) dim) has_sign).

(** lexer::hash (lexer.cpp:1213-1244); [None] is the null pointer. *)
Fixpoint hash_loop (fuel : nat) (acc : str) : M str :=
  match fuel with
  | O => nofuel
  | S f =>
      c <- getc ;;
      if c =? 92 then
        c <- escape ;;
        if c =? 65533 then ret acc
        else b <- wctomb_m c ;; hash_loop f (acc ++ b)
      else if negb (is_hash_character c) then ungetc c ;;; ret acc
      else b <- wctomb_m c ;; hash_loop f (acc ++ b)
  end.
Definition hash : M (option node) :=
  s <- with_fuel (fun f => hash_loop f []) ;;
  match s with
  | [] => err "'#' by itself is not valid." ;;; ret None
  | _ => n <- new_node HASH ;; ret (Some (set_str n s))
  end.

(** Body of a C comment (lexer.cpp:1321-1343). *)
Fixpoint c_comment_loop (fuel : nat) (acc : str) : M str :=
  match fuel with
  | O => nofuel
  | S f =>
      c <- getc ;;
      if c =? -1 then
        err "unclosed C-like comment at the end of your document." ;;; ret acc
      else if c =? 42 then
        c <- getc ;;
        if c =? 47 then ret acc
        else
          ungetc c ;;;
          b <- wctomb_m 42 ;; c_comment_loop f (acc ++ b)
      else b <- wctomb_m c ;; c_comment_loop f (acc ++ b)
  end.

(** Blanks at the start of a C++ comment (lexer.cpp:1348-1357). *)
Fixpoint skip_blanks (fuel : nat) : M Z :=
  match fuel with
  | O => nofuel
  | S f => c <- getc ;; if (c =? 32) || (c =? 9) then skip_blanks f else ret c
  end.

(** Body of a C++ comment (lexer.cpp:1362-1401). *)
Fixpoint cpp_comment_loop (fuel : nat) (acc : str) : M str :=
  match fuel with
  | O => nofuel
  | S f =>
      c <- getc ;;
      if c =? -1 then ret acc
      else if c =? 10 then
        c <- getc ;;
        if c =? 47 then
          c <- getc ;;
          if c =? 47 then
            c <- getc ;;
            (if (c =? 32) || (c =? 9) then ret tt else ungetc c) ;;;
            cpp_comment_loop f (acc ++ [10])
          else ungetc c ;;; ungetc 47 ;;; ungetc 10 ;;; ret acc
        else ungetc c ;;; ungetc 10 ;;; ret acc
      else b <- wctomb_m c ;; cpp_comment_loop f (acc ++ b)
  end.

(** [s.find(t) != npos]. *)
Fixpoint starts_with (t s : str) : bool :=
  match t, s with
  | [], _ => true
  | x :: t', y :: s' => (x =? y) && starts_with t' s'
  | _, [] => false
  end.
Fixpoint contains (t s : str) : bool :=
  starts_with t s || match s with [] => false | _ :: r => contains t r end.

(** Removal of the final spaces (lexer.cpp:1411-1414). *)
Fixpoint strip_leading (s : str) : str :=
  match s with
  | c :: r => if is_space c then strip_leading r else s
  | [] => []
  end.
Definition rtrim (s : str) : str := rev (strip_leading (rev s)).

(** lexer::comment (lexer.cpp:1305-1422); [None] is the null pointer. *)
Definition comment (c_style : bool) : M (option node) :=
  str <- (if c_style then
            c <- with_fuel skip_spaces ;; ungetc c ;;;
            with_fuel (fun f => c_comment_loop f [])
          else
            c <- with_fuel skip_blanks ;; ungetc c ;;;
            with_fuel (fun f => cpp_comment_loop f [])) ;;
  if contains (zs "@preserve") str then
    n <- new_node COMMENT ;;
    ret (Some (set_int (set_str n (rtrim str)) (if c_style then 1 else 0)))
  else ret None.

(** First loop of unicode_range (lexer.cpp:1431-1448); [k] digits left;
    returns start, end, has_mask and the current character. *)
Fixpoint ur_loop (k : nat) (d start end_ : Z) (mask : bool) : M (Z * Z * bool * Z) :=
  match k with
  | O => ret (start, end_, mask, d)
  | S k' =>
      if (is_hex d && negb mask) || (d =? 63) then
        if d =? 63 then
          let e := if mask then end_ else start in
          d' <- getc ;; ur_loop k' d' (start * 16) (e * 16 + 15) true
        else
          h <- hex_to_dec d ;;
          d' <- getc ;; ur_loop k' d' (start * 16 + h) end_ mask
      else ret (start, end_, mask, d)
  end.

(** Second loop (lexer.cpp:1475-1478). *)
Fixpoint ur_end_loop (k : nat) (d end_ : Z) : M (Z * Z) :=
  match k with
  | O => ret (end_, d)
  | S k' =>
      if is_hex d then
        h <- hex_to_dec d ;; d' <- getc ;; ur_end_loop k' d' (end_ * 16 + h)
      else ret (end_, d)
  end.

(** lexer::unicode_range (lexer.cpp:1424-1510). The packed value is uint64_t,
    stored in the int64_t integer of the node. *)
Definition unicode_range (d : Z) : M node :=
  r <- ur_loop 6 d 0 0 false ;;
  let '(start, end_, mask, d) := r in
  r <- (if mask : bool then
          st <- (if 1114112 <=? start then
                   err "unicode character too large, range is U+000000 to U+10FFFF." ;;; ret 0
                 else ret start) ;;
          ret (Some (st, (if 2097151 <? end_ then 2097151 else end_), d))
        else
          r <- (if d =? 45 then
                  d' <- getc ;; ur_end_loop 6 d' 0
                else ret (start, d)) ;;
          let '(e, d) := r in
          if (1114112 <=? start) || (1114112 <=? e) then
            err "unicode character too large, range is U+000000 to U+10FFFF." ;;; ret None
          else ret (Some (start, e, d))) ;;
  match r with
  | None => new_node UNICODE_RANGE
  | Some (start, e, d) =>
      if e <? start then
        err "unicode range cannot have a start character larger than the end character." ;;;
        new_node UNICODE_RANGE
      else
        ungetc d ;;;
        n <- new_node UNICODE_RANGE ;;
        match ur_make start e with
        | Some v => ret (set_int n (wrap64 v))
        | None => throw XOverflow
        end
  end.

(** lexer::variable (lexer.cpp:1512-1553). *)
Fixpoint var_loop (fuel : nat) (c : Z) (acc : str) : M (str * Z) :=
  match fuel with
  | O => nofuel
  | S f =>
      let c := if c =? 45 then 95 else c in
      b <- wctomb_m (tolower c) ;;
      c' <- getc ;;
      if is_variable c' then var_loop f c' (acc ++ b) else ret (acc ++ b, c')
  end.
Definition variable (c : Z) : M node :=
  r <- with_fuel (fun f => var_loop f c []) ;;
  let '(v, c) := r in
  if c =? 40 then n <- new_node VARIABLE_FUNCTION ;; ret (set_str n v)
  else ungetc c ;;; n <- new_node VARIABLE ;; ret (set_str n v).

(** White space token (lexer.cpp:387-407). *)
Definition whitespace : M node :=
  c <- with_fuel skip_spaces ;; ungetc c ;;; new_node WHITESPACE.

(** [n] followed by '=' gives [a], otherwise push back and [b]. *)
Definition eq_or (a b : ntype) : M node :=
  n <- getc ;; if n =? 61 then new_node a else ungetc n ;;; new_node b.

(** One turn of the loop of next_token (lexer.cpp:61-483) after the first
    character was read; [None] stands for [continue] (or for falling to the end
    of the loop). *)
Definition invalid_char : M (option node) :=
  err "invalid input character: U+" ;;; ret None.

Definition some {A} (m : M A) : M (option A) := a <- m ;; ret (Some a).

Definition dispatch (lm : libm) (c : Z) : M (option node) :=
  if c =? -1 then some (new_node EOF_TOKEN)
  else if c =? 61 (* = *) then
    n <- getc ;;
    (if negb (n =? 61) then ungetc n
     else emit LWarning l_pos "we accepted '==' instead of '=' in an expression, you probably want to change the operator to just '=', though.") ;;;
    some (new_node EQUAL)
  else if c =? 44 (* , *) then some (new_node COMMA)
  else if c =? 58 (* : *) then some (eq_or ASSIGNMENT COLON)
  else if c =? 59 (* ; *) then some (new_node SEMICOLON)
  else if c =? 33 (* ! *) then some (eq_or NOT_EQUAL EXCLAMATION)
  else if c =? 63 (* ? *) then some (new_node CONDITIONAL)
  else if c =? 62 (* > *) then some (eq_or GREATER_EQUAL GREATER_THAN)
  else if c =? 40 (* ( *) then some (new_node OPEN_PARENTHESIS)
  else if c =? 41 (* ) *) then some (new_node CLOSE_PARENTHESIS)
  else if c =? 91 (* [ *) then some (new_node OPEN_SQUAREBRACKET)
  else if c =? 93 (* ] *) then some (new_node CLOSE_SQUAREBRACKET)
  else if c =? 123 (* { *) then some (new_node OPEN_CURLYBRACKET)
  else if c =? 125 (* } *) then some (new_node CLOSE_CURLYBRACKET)
  else if c =? 46 (* . *) then
    n <- getc ;; ungetc n ;;;
    if is_digit n then some (number lm c) else some (new_node PERIOD)
  else if c =? 38 (* & *) then
    n <- getc ;;
    if n =? 38 then some (new_node AND) else ungetc n ;;; some (new_node REFERENCE)
  else if c =? 60 (* < *) then
    n <- getc ;;
    if n =? 33 then
      p <- getc ;;
      if p =? 45 then
        l <- getc ;;
        if l =? 45 then some (new_node CDO)
        else ungetc l ;;; ungetc p ;;; ungetc n ;;; some (new_node LESS_THAN)
      else ungetc p ;;; ungetc n ;;; some (new_node LESS_THAN)
    else if n =? 61 then some (new_node LESS_EQUAL)
    else ungetc n ;;; some (new_node LESS_THAN)
  else if c =? 43 (* + *) then
    n <- getc ;;
    if is_digit n then ungetc n ;;; some (number lm c)
    else if n =? 46 then
      p <- getc ;;
      if is_digit p then ungetc p ;;; ungetc n ;;; some (number lm c)
      else ungetc p ;;; ungetc n ;;; some (new_node ADD)
    else ungetc n ;;; some (new_node ADD)
  else if c =? 45 (* - *) then
    n <- getc ;;
    if is_digit n then ungetc n ;;; some (number lm c)
    else if n =? 46 then
      p <- getc ;;
      if is_digit p then ungetc p ;;; ungetc n ;;; some (number lm c)
      else ungetc p ;;; ungetc n ;;; some (new_node SUBTRACT)
    else if n =? 45 then
      p <- getc ;;
      if p =? 62 then some (new_node CDC)
      else ungetc p ;;; ungetc n ;;; some (new_node SUBTRACT)
    else
      ungetc n ;;;
      if (is_identifier n || (n =? 92)) && negb (is_digit n) then some (identifier c)
      else some (new_node SUBTRACT)
  else if c =? 94 (* ^ *) then
    n <- getc ;;
    if n =? 61 then some (new_node PREFIX_MATCH) else ungetc n ;;; invalid_char
  else if c =? 36 (* $ *) then
    n <- getc ;;
    if n =? 61 then some (new_node SUFFIX_MATCH)
    else if is_variable n then some (variable n)
    else ungetc n ;;; some (new_node DOLLAR)
  else if c =? 126 (* ~ *) then some (eq_or INCLUDE_MATCH PRECEDED)
  else if c =? 42 (* * *) then
    n <- getc ;;
    if n =? 61 then some (new_node SUBSTRING_MATCH)
    else if n =? 42 then some (new_node POWER)
    else ungetc n ;;; some (new_node MULTIPLY)
  else if c =? 124 (* | *) then
    n <- getc ;;
    if n =? 124 then some (new_node COLUMN)
    else if n =? 61 then some (new_node DASH_MATCH)
    else ungetc n ;;; some (new_node SCOPE)
  else if (c =? 34) || (c =? 39) (* quotes *) then
    s <- lex_string c ;; n <- new_node STRING ;; ret (Some (set_str n s))
  else if c =? 47 (* / *) then
    n <- getc ;;
    if n =? 42 then comment true
    else if n =? 47 then
      r <- comment false ;;
      match r with
      | Some cn =>
          emit LWarning l_start "C++ comments should not be preserved as they are not supported by most CSS parsers." ;;;
          ret (Some cn)
      | None => ret None
      end
    else ungetc n ;;; some (new_node DIVIDE)
  else if is_space c || (c =? 12) then some whitespace
  else if is_digit c then some (number lm c)
  else if c =? 35 (* # *) then hash
  else if (c =? 37) || (c =? 92) || (c =? 64) (* % \ @ *) then
    let ident :=
      n <- identifier c ;;
      if is n EOF_TOKEN then ret None else ret (Some n) in
    if c =? 37 then
      n <- getc ;;
      if negb (is_start_identifier n) then some (new_node MODULO)
      else ungetc n ;;; ident
    else ident
  else if (c =? 117) || (c =? 85) (* u U *) then
    n <- getc ;;
    if n =? 43 then
      d <- getc ;;
      if is_hex d || (d =? 63) then some (unicode_range d)
      else ungetc d ;;; ungetc n ;;; some (identifier c)
    else ungetc n ;;; some (identifier c)
  else if is_start_identifier c then some (identifier c)
  else invalid_char.

Definition mark_start : M unit :=
  fun s => Ret tt (mkLex (l_in s) (l_unget s) (l_pos s) (l_pos s) (l_log s)).

(** lexer::next_token (lexer.cpp:59-486). *)
Fixpoint token_loop (lm : libm) (fuel : nat) : M node :=
  match fuel with
  | O => nofuel
  | S f =>
      mark_start ;;;
      c <- getc ;;
      r <- dispatch lm c ;;
      match r with
      | Some n => ret n
      | None => token_loop lm f
      end
  end.
Definition next_token (lm : libm) : M node := with_fuel (fun f => token_loop lm f).

(** A client that reads tokens until EOF: the way the parser uses the lexer
    (parser.cpp: next_token() until EOF_TOKEN). *)
Fixpoint lex_all_loop (lm : libm) (fuel : nat) : M (list node) :=
  match fuel with
  | O => nofuel
  | S f =>
      n <- next_token lm ;;
      if is n EOF_TOKEN then ret []
      else r <- lex_all_loop lm f ;; ret (n :: r)
  end.
Definition lex_all (lm : libm) : M (list node) := with_fuel (fun f => lex_all_loop lm f).
