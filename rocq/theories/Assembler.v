(** * The assembler (csspp/assembler.cpp)

    The tree is only read, so the nodes [h] are a parameter. The state is what was
    sent to the output stream, [f_started] and the messages. *)

From Coq Require Import String ZArith List Bool Floats.SpecFloat.
From Verif Require Import Base UnicodeRange OutText NthChild DecText DecFmt Color NodeHeap FloatBits.
Import ListNotations.
Open Scope string_scope. Open Scope list_scope. Open Scope Z_scope.

Record ost := mkO { o_text : str; o_started : bool; o_msgs : list msg }.
Definition O (A : Type) := ost -> outcome ost A.
Definition oret {A} (x : A) : O A := fun s => Ret x s.
Definition othrow {A} (e : exn) : O A := fun s => Throw e s.
Definition oundef {A} : O A := fun s => Undef s.
Definition obind {A B} (m : O A) (f : A -> O B) : O B :=
  fun s => match m s with
           | Ret a s' => f a s' | Throw e s' => Throw e s'
           | Undef s' => Undef s' | NoFuel => NoFuel
           end.
Notation "x <- m ;; k" := (obind m (fun x => k)) (at level 70, m at next level, right associativity).
Notation "m ;;; k" := (obind m (fun _ => k)) (at level 70, right associativity).

(** [f_out << s]. *)
Definition out (t : str) : O unit := fun s => Ret tt (mkO (o_text s ++ t) (o_started s) (o_msgs s)).
Definition started (b : bool) : O unit := fun s => Ret tt (mkO (o_text s) b (o_msgs s)).
Definition is_started : O bool := fun s => Ret (o_started s) s.
Definition say (p : position) (t : string) : O unit := fun s => Ret tt (mkO (o_text s) (o_started s) (o_msgs s ++ [mkMsg LError p t])).

(** output_mode_t (assembler.h:31-37). *)
Inductive mode := COMPACT | COMPRESSED | EXPANDED | TIDY.

(** The flags (assembler.cpp:56-62); each call gives one of them, or none. *)
Inductive flag := NoFlag | OptOperator | OptSpaces | OptBefore | OptAfter | OptSpacesNl | OptBeforeNl | OptAfterNl.

Definition nl : str := [10].

(** ** The four classes (assembler.cpp:81-253) *)
(** assembler_impl::output_string (93-100). *)
Definition impl_string (t : str) : O unit :=
  match rev t with
  | [] => out t
  | c :: _ => started (negb (c =? 10)) ;;; out t
  end.
(** assembler_impl::output_operator (102-111). *)
Definition base_operator (t : str) (f : flag) : O unit :=
  match f with OptOperator => oret tt | _ => impl_string t end.
(** assembler_compact::output_operator (191-211). *)
Definition compact_operator (t : str) (f : flag) : O unit :=
  started true ;;;
  match f with
  | OptSpaces | OptSpacesNl => out ([32] ++ t ++ [32])
  | OptBefore | OptBeforeNl => out ([32] ++ t)
  | OptAfter | OptAfterNl => out (t ++ [32])
  | _ => base_operator t f
  end.
(** assembler_expanded::output_operator (226-252). *)
Definition expanded_operator (t : str) (f : flag) : O unit :=
  match f with
  | OptSpacesNl => started false ;;; out (nl ++ t ++ nl)
  | OptBeforeNl => started false ;;; out (nl ++ t)
  | OptAfterNl => started false ;;; out (t ++ nl)
  | OptOperator => started true ;;; out t
  | _ => compact_operator t f
  end.
Definition operator (m : mode) (t : str) (f : flag) : O unit :=
  match m with
  | COMPRESSED | TIDY => base_operator t f
  | COMPACT => compact_operator t f
  | EXPANDED => expanded_operator t f
  end.
(** newline (122-125, 172-176). *)
Definition newline (m : mode) : O unit :=
  match m with COMPRESSED => oret tt | _ => started false ;;; out nl end.
(** newline_if_not_empty (127-134). *)
Definition newline_if_not_empty : O unit :=
  b <- is_started ;; if b : bool then started false ;;; out nl else oret tt.
(** output_identation (136-139, 254-257). *)
Definition indentation (m : mode) : O unit := match m with EXPANDED => out [32; 32] | _ => oret tt end.

Section Output.
Variables (h : heap) (lm : libm) (prec : Z) (m : mode).

Definition read (a : addr) : O cell := match List.nth_error h a with Some c => oret c | None => oundef end.
Definition is_a (a : addr) (t : ntype) : O bool := c <- read a ;; oret (ntype_eqb (c_type c) t).

(** verify_dimension (assembler.cpp:64-76): one of the characters space, star and slash. *)
Definition verify_dimension (c : cell) : O unit :=
  if existsb (fun b => (b =? 32) || (b =? 42) || (b =? 47)) (c_str c) then say (c_pos c) "is not a valid CSS dimension." else oret tt.

(** output_url (assembler.cpp:1006-1045). *)
Definition url (t : str) : O unit :=
  out (zs "url") ;;; operator m (zs "(") OptAfter ;;;
  out (if url_direct (OutText.c_str t) then t else output_string t) ;;;
  operator m (zs ")") OptBefore.

(** The lines of a text: what comes before each end of line, and what is after
    the last one. *)
Fixpoint lines (t : str) : list str * str :=
  match t with
  | [] => ([], [])
  | c :: r =>
      let '(l, e) := lines r in
      if c =? 10 then ([] :: l, e)
      else match l with
           | [] => ([], c :: e)
           | x :: l' => ((c :: x) :: l', e)
           end
  end.
(** The text of output_comment (assembler.cpp:894-950). *)
Fixpoint star_lines (l : list str) : str :=
  match l with [] => [] | x :: r => zs " * " ++ x ++ nl ++ star_lines r end.
Definition comment_text (cpp : bool) (t : str) : str :=
  if cpp then
    match lines t with
    | ([], []) => []
    | ([], e) => zs "/* " ++ e ++ zs " */" ++ nl
    | (x :: l, e) =>
        zs "/* " ++ x ++ nl ++ star_lines l ++
        match e with [] => [] | _ => zs " * " ++ e ++ nl ++ zs " */" ++ nl end
    end
  else zs "/* " ++ t ++ zs " */" ++ nl.
Definition comment (c : cell) : O unit :=
  newline_if_not_empty ;;; out (comment_text (c_int c =? 0) (c_str c)).

Definition is_keyframes (s : str) : bool :=
  str_eqb s (zs "-o-keyframes") || str_eqb s (zs "-webkit-keyframes") || str_eqb s (zs "keyframes").

(** The loops of [output]; [o] outputs one node. *)
Section Loops.
Variable o : addr -> O unit.
Fixpoint each (l : list addr) : O unit :=
  match l with [] => oret tt | x :: r => o x ;;; each r end.
(** Children with the separator [sep] after those of type [t], but for the last
    one (442-452, 542-553, 563-573, 680-690). *)
Fixpoint separated (t : ntype) (sep : O unit) (l : list addr) : O unit :=
  match l with
  | [] => oret tt
  | [x] => o x ;;; is_a x t ;;; oret tt
  | x :: r => o x ;;; b <- is_a x t ;; (if b : bool then sep else oret tt) ;;; separated t sep r
  end.
(** The arguments of a function (484-500). *)
Fixpoint arguments (first : bool) (l : list addr) : O unit :=
  match l with
  | [] => oret tt
  | x :: r => (if first then oret tt else operator m (zs ",") OptAfter) ;;; o x ;;; arguments false r
  end.
(** output_component_value (assembler.cpp:722-775). *)
Fixpoint component_value (first has_arg : bool) (l : list addr) : O unit :=
  match l with
  | [] => oret tt
  | x :: r =>
      c <- read x ;;
      match c_type c with
      | OPEN_CURLYBRACKET => (if has_arg then o x else oret tt) ;;; component_value first has_arg r
      | ARG =>
          b <- (match rev (c_ch c) with [] => oret false | z :: _ => is_a z PLACEHOLDER end) ;;
          if b : bool then component_value first has_arg r
          else
            (if first then oret tt else operator m (zs ",") OptAfter) ;;;
            o x ;;; component_value false true r
      | _ => othrow XLogic
      end
  end.
(** The loop of output_at_keyword without keyframes (842-884); returns
    [no_block]. *)
Fixpoint at_children (no_block : bool) (l : list addr) : O bool :=
  match l with
  | [] => oret no_block
  | x :: r =>
      c <- read x ;;
      match c_type c with
      | OPEN_CURLYBRACKET =>
          (match r with [] => newline m | _ => oret tt end) ;;;
          operator m (zs "{") NoFlag ;;; newline m ;;;
          each (c_ch c) ;;;
          operator m (zs "}") NoFlag ;;; newline m ;;;
          at_children (match r with [] => false | _ => no_block end) r
      | ARG =>
          o x ;;;
          (match r with
           | [] => oret tt
           | y :: _ => b <- is_a y ARG ;; if b : bool then operator m (zs ",") OptAfter else oret tt
           end) ;;;
          at_children no_block r
      | _ => o x ;;; at_children no_block r
      end
  end.
(** output_at_keyword (assembler.cpp:810-892). *)
Definition at_keyword (c : cell) : O unit :=
  out (zs "@" ++ c_str c ++ zs " ") ;;;
  b <- (match c_ch c with
        | [] => oret true
        | x :: r =>
            if is_keyframes (c_str c) then
              o x ;;; operator m (zs "{") OptBefore ;;; newline m ;;; each r ;;; operator m (zs "}") NoFlag ;;; oret false
            else at_children true (c_ch c)
        end) ;;
  (if b : bool then out (zs ";") else oret tt) ;;;
  newline m.
(** A block (555-576, 671-693). *)
Definition block (l : list addr) : O unit :=
  operator m (zs "{") OptSpacesNl ;;;
  separated DECLARATION (operator m (zs ";") OptAfterNl) l ;;;
  operator m (zs ";") OptOperator ;;; operator m (zs "}") OptBeforeNl ;;; newline m.
End Loops.

(** output_parenthesis (assembler.cpp:777-808); [first]: this child is at
    index 0. *)
Fixpoint paren_children (o p : addr -> O unit) (first : bool) (l : list addr) : O unit :=
  match l with
  | [] => oret tt
  | x :: r =>
      b <- is_a x OPEN_PARENTHESIS ;;
      (if b : bool then (if first then oret tt else out (zs " ")) ;;; p x else o x) ;;;
      paren_children o p false r
  end.

(** assembler::output (assembler.cpp:370-720) and output_parenthesis. *)
Fixpoint output (fuel : nat) (a : addr) : O unit :=
  match fuel with
  | 0%nat => fun _ => NoFuel
  | S f =>
      c <- read a ;;
      match c_type c with
      | ADD => operator m (zs "+") OptSpaces
      | ARG => each (output f) (c_ch c)
      | AT_KEYWORD => at_keyword (output f) c
      | COLON => operator m (zs ":") NoFlag
      | COLOR => match to_string lm (cell_color c) with Some t => impl_string t | None => oundef end
      | COMMENT => comment c
      | DASH_MATCH => operator m (zs "|=") OptSpaces
      | DECIMAL_NUMBER => verify_dimension c ;;; out (decimal_number_to_string lm prec (c_dec c) true ++ c_str c)
      | DECLARATION =>
          indentation m ;;; out (c_str c) ;;; operator m (zs ":") OptAfter ;;;
          separated (output f) ARG (operator m (zs ",") OptAfter) (c_ch c) ;;;
          if flag_mem (zs "important") (c_flags c) then operator m (zs "!") OptBefore ;;; out (zs "important") else oret tt
      | DIVIDE => operator m (zs "/") NoFlag
      | EQUAL => operator m (zs "=") OptSpaces
      | FONT_METRICS =>
          out (decimal_number_to_string lm prec (f64_mul (c_dec c) (if str_eqb (dim1_of (c_str c)) (zs "%") then f64_of_Z 100 else f64_of_Z 1)) true ++ dim1_of (c_str c)
               ++ zs "/" ++ decimal_number_to_string lm prec (f64_mul (bits_f64 (u64 (c_int c))) (if str_eqb (dim2_of (c_str c)) (zs "%") then f64_of_Z 100 else f64_of_Z 1)) true ++ dim2_of (c_str c))
      | FUNCTION =>
          out (c_str c) ;;; operator m (zs "(") NoFlag ;;;
          (match c_ch c with
           | [] => oret tt
           | x :: _ => b <- is_a x ARG ;; if b : bool then arguments (output f) true (c_ch c) else each (output f) (c_ch c)
           end) ;;;
          operator m (zs ")") NoFlag
      | GREATER_THAN => operator m (zs ">") OptSpaces
      | HASH => out (zs "#" ++ c_str c)
      | IDENTIFIER => match escape_id (c_str c) with Some t => out t | None => othrow XLogic end
      | INCLUDE_MATCH => operator m (zs "~=") OptSpaces
      | INTEGER => verify_dimension c ;;; out (int_text (c_int c) ++ c_str c)
      | LIST => separated (output f) DECLARATION (operator m (zs ";") OptAfterNl) (c_ch c)
      | MULTIPLY => operator m (zs "*") NoFlag
      | OPEN_CURLYBRACKET => block (output f) (c_ch c)
      | OPEN_PARENTHESIS =>
          out (zs " ") ;;; operator m (zs "(") NoFlag ;;;
          paren_children (output f) (parenthesis f) true (c_ch c) ;;;
          operator m (zs ")") OptAfter
      | OPEN_SQUAREBRACKET => operator m (zs "[") NoFlag ;;; each (output f) (c_ch c) ;;; operator m (zs "]") NoFlag
      | PERCENT => out (decimal_number_to_string lm prec (f64_mul (c_dec c) (f64_of_Z 100)) true ++ zs "%")
      | PERIOD => operator m (zs ".") NoFlag
      | PRECEDED => operator m (zs "~") OptSpaces
      | PREFIX_MATCH => operator m (zs "^=") OptSpaces
      | SCOPE => operator m (zs "|") NoFlag
      | STRING => out (output_string (c_str c))
      | SUBSTRING_MATCH => operator m (zs "*=") OptSpaces
      | SUBTRACT => operator m (zs "-") NoFlag
      | SUFFIX_MATCH => operator m (zs "$=") OptSpaces
      | UNICODE_RANGE => match ur_to_string (u64 (c_int c)) with Some t => out (zs "U+" ++ t) | None => othrow XLogic end
      | URL => url (c_str c)
      | WHITESPACE => out (zs " ")
      | COMPONENT_VALUE => component_value (output f) true false (c_ch c)
      | AN_PLUS_B => out (nth_to_string (nth_of_value (c_int c)))
      | FRAME =>
          let p := c_dec c in
          (if SFleb (f64_of_Z 1) p then out (zs "to")
           else out (decimal_number_to_string lm prec (f64_mul (if SFltb p (f64_of_Z 0) then f64_of_Z 0 else p) (f64_of_Z 100)) true ++ zs "%")) ;;;
          block (output f) (c_ch c)
      | _ => othrow XLogic
      end
  end
with parenthesis (fuel : nat) (a : addr) : O unit :=
  match fuel with
  | 0%nat => fun _ => NoFuel
  | S f =>
      c <- read a ;;
      operator m (zs "(") NoFlag ;;;
      paren_children (output f) (parenthesis f) true (c_ch c) ;;;
      operator m (zs ")") NoFlag
  end.
End Output.
