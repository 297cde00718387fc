(** * The error log (csspp/error.h, csspp/error.cpp)

    The single [error] object, the messages sent to it, its options and the
    RAII guards. The insertion of floating point values in a message is not
    modelled (the text is given instead). *)

From Coq Require Import String ZArith List Bool.
From Verif Require Import Base DecText.
Import ListNotations.
Open Scope string_scope. Open Scope list_scope. Open Scope Z_scope.

(** error_mode_t (error.h:31-40). *)
Inductive emode := EDebug | EDec | EError | EFatal | EHex | EInfo | EWarning.

(** operator << (ostream, error_mode_t) (error.cpp:290-329). *)
Definition mode_text (m : emode) : str :=
  match m with
  | EDebug => zs "debug" | EDec => zs "dec" | EError => zs "error" | EFatal => zs "fatal"
  | EInfo => zs "info" | EHex => zs "hex" | EWarning => zs "warning"
  end.

(** A line written to a stream; stream 0 is std::cerr. *)
Record eline := mkLine { ln_stream : nat; ln_mode : emode; ln_text : str }.

(** The members of [error] (error.h:74-83) and what was written so far. *)
Record elog := mkElog {
  el_file : str; el_line : Z;              (* f_position *)
  el_message : str; el_hex : bool;         (* f_message *)
  el_stream : option nat;                  (* f_error *)
  el_errors : Z; el_warnings : Z;          (* the counters, uint32_t *)
  el_as_errors : bool; el_hide : bool; el_debug : bool; el_verbose : bool;
  el_out : list eline                      (* oldest first *)
}.

(** A new object (error.cpp:72-75, error.h:74-83). *)
Definition elog_new : elog :=
  mkElog (zs "error.css") 1 [] false None 0 0 false false false false [].

Definition set_counts (s : elog) (e w : Z) : elog :=
  mkElog (el_file s) (el_line s) (el_message s) (el_hex s) (el_stream s) e w
    (el_as_errors s) (el_hide s) (el_debug s) (el_verbose s) (el_out s).
Definition set_message (s : elog) (m : str) (hex : bool) : elog :=
  mkElog (el_file s) (el_line s) m hex (el_stream s) (el_errors s) (el_warnings s)
    (el_as_errors s) (el_hide s) (el_debug s) (el_verbose s) (el_out s).
Definition set_position (s : elog) (f : str) (l : Z) : elog :=
  mkElog f l (el_message s) (el_hex s) (el_stream s) (el_errors s) (el_warnings s)
    (el_as_errors s) (el_hide s) (el_debug s) (el_verbose s) (el_out s).
Definition set_stream (s : elog) (o : option nat) : elog :=
  mkElog (el_file s) (el_line s) (el_message s) (el_hex s) o (el_errors s) (el_warnings s)
    (el_as_errors s) (el_hide s) (el_debug s) (el_verbose s) (el_out s).
Definition set_options (s : elog) (as_errors hide debug verbose : bool) : elog :=
  mkElog (el_file s) (el_line s) (el_message s) (el_hex s) (el_stream s) (el_errors s) (el_warnings s)
    as_errors hide debug verbose (el_out s).
Definition add_lines (s : elog) (l : list eline) : elog :=
  mkElog (el_file s) (el_line s) (el_message s) (el_hex s) (el_stream s) (el_errors s) (el_warnings s)
    (el_as_errors s) (el_hide s) (el_debug s) (el_verbose s) (el_out s ++ l).

(** ++ on a uint32_t. *)
Definition count_up (z : Z) : Z := (z + 1) mod 4294967296.

(** The text of a line (error.cpp:203-206). The line number is a positive
    32 bit integer. *)
Definition line_text (s : elog) (m : emode) : str :=
  el_file s ++ zs "(" ++ int_text (el_line s) ++ zs "): " ++ mode_text m ++ zs ": " ++ el_message s.

(** print_error (error.cpp:198-217). *)
Definition print_line (s : elog) (m : emode) : elog :=
  let dest := match el_stream s with Some n => n | None => O end in
  let s := add_lines s [mkLine dest m (line_text s m)] in
  if el_verbose s then add_lines s [mkLine O m (zs "ERROR CONSOLE OUTPUT -- " ++ line_text s m)] else s.

(** operator << (error_mode_t) (error.cpp:151-226). *)
Definition send_mode (s : elog) (m : emode) : elog :=
  match m with
  | EDec => set_message s (el_message s) false
  | EHex => set_message s (el_message s) true
  | EFatal | EError => print_line (set_counts s (count_up (el_errors s)) (el_warnings s)) m
  | EWarning =>
      if el_as_errors s then print_line (set_counts s (count_up (el_errors s)) (el_warnings s)) m
      else if el_hide s then s
      else print_line (set_counts s (el_errors s) (count_up (el_warnings s))) m
  | EDebug => if negb (el_debug s) then s else if el_hide s then s else print_line s m
  | EInfo => if el_hide s then s else print_line s m
  end.

(** The calls on the object: instance() (error.cpp:77-88, 263-268), the
    setters and the insertions (error.cpp:95-149, 228-256). Integers are in
    the current base; [EInt] is given the decimal text and the hexadecimal
    one. *)
Inductive ecall :=
| CInstance
| CPosition (file : str) (line : Z)
| CText (t : str)
| CInt (dec hex : str)
| CMode (m : emode)
| CAsErrors (b : bool) | CHide (b : bool) | CShowDebug (b : bool) | CVerbose (b : bool)
| CStream (n : nat).

Definition ecall_run (s : elog) (c : ecall) : elog :=
  match c with
  | CInstance => set_message s [] false
  | CPosition f l => set_position s f l
  | CText t => set_message s (el_message s ++ t) (el_hex s)
  | CInt d h => set_message s (el_message s ++ (if el_hex s then h else d)) (el_hex s)
  | CMode m => send_mode s m
  | CAsErrors b => set_options s b (el_hide s) (el_debug s) (el_verbose s)
  | CHide b => set_options s (el_as_errors s) b (el_debug s) (el_verbose s)
  | CShowDebug b => set_options s (el_as_errors s) (el_hide s) b (el_verbose s)
  | CVerbose b => set_options s (el_as_errors s) (el_hide s) (el_debug s) b
  | CStream n => set_stream s (Some n)
  end.

Definition ecalls_run (s : elog) (l : list ecall) : elog := fold_left ecall_run l s.

(** ** Guards

    A program is a sequence of calls, of scopes that hold a guard and of
    exceptions. *)
Inductive eprog :=
| PDone
| PCall (c : ecall) (rest : eprog)
| PSafe (body rest : eprog)               (* { safe_error_t safe; body } rest *)
| PStream (n : nat) (body rest : eprog)   (* { safe_error_stream_t safe(n); body } rest *)
| PThrow.

(** The state at the end, and whether an exception was raised. A guard is
    destroyed in both cases (error.cpp:270-298). instance() also resets the
    message. safe_error_stream_t's constructor dereferences the stream that
    was set before: a null pointer when there was none, which is kept as is
    (strictly speaking this is undefined behaviour). *)
Fixpoint eprog_run (s : elog) (p : eprog) : elog * bool :=
  match p with
  | PDone => (s, false)
  | PThrow => (s, true)
  | PCall c r => eprog_run (ecall_run s c) r
  | PSafe b r =>
      let s0 := set_message s [] false in
      let '(s1, thrown) := eprog_run s0 b in
      let s2 := set_counts (set_message s1 [] false) (el_errors s0) (el_warnings s0) in
      if thrown then (s2, true) else eprog_run s2 r
  | PStream n b r =>
      let old := el_stream s in
      let '(s1, thrown) := eprog_run (set_stream (set_message s [] false) (Some n)) b in
      let s2 := set_stream (set_message s1 [] false) old in
      if thrown then (s2, true) else eprog_run s2 r
  end.

(** error_happened_t (error.cpp:300-315): created in state [s0], asked in
    state [s1]. *)
Definition error_happened (s0 s1 : elog) : bool := negb (el_errors s0 =? el_errors s1).
Definition warning_happened (s0 s1 : elog) : bool := negb (el_warnings s0 =? el_warnings s1).
