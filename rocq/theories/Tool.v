(** * The command line tool (tools/csspp.cpp)

    What pp::pp, pp::compile and main do with the options, the files and the
    standard input, and compile(false) with its header and footer
    (compiler.cpp:434-531, 544-547, 580-616).

    Simplified: the options are given already parsed (advgetopt is outside of
    the model); the file names of messages and the variable parts of their texts
    are left out (Compiler.say), so the reporter of ErrorLog.v is given texts
    without them; --Werror has no effect on compiler.cpp:1755-1761 (an imported
    file read with warnings is then inserted, where the program leaves it out:
    the command ends with 1 in both cases). *)

From Coq Require Import String ZArith List Bool Floats.SpecFloat.
From Verif Require Import Base NodeHeap.
From Verif Require Functions Assembler ErrorLog.
From Verif Require Import Compiler Compile Pipeline.
Import ListNotations.
Open Scope string_scope. Open Scope list_scope. Open Scope Z_scope.

(** ** compile(false)

    add_header_and_footer (compiler.cpp:580-616). *)
Definition import_node (file : str) : C addr :=
  let p := new_position 1 1 in
  a <- lift (new_node AT_KEYWORD p) ;;
  lift (set_string a (zs "import")) ;;;
  s <- lift (new_node STRING p) ;;
  lift (set_string s file) ;;;
  lift (add_child a s) ;;;
  ret a.
Definition global_variable (x : ctx) (p : position) (name : str) (value : addr) : C unit :=
  v <- lift (new_node VARIABLE p) ;;
  lift (set_string v name) ;;;
  state_set_variable x v value true.
Definition add_header_and_footer (x : ctx) (no_logo : bool) : C unit :=
  h <- import_node (zs "system/init.scss") ;;
  lift (insert_child (x_root x) 0 h) ;;;
  f <- import_node (zs "system/close.scss") ;;
  lift (add_child (x_root x) f) ;;;
  let p := new_position 1 1 in
  b <- lift (new_node BOOLEAN p) ;;
  lift (set_boolean b no_logo) ;;;
  global_variable x p (zs "_csspp_no_logo") b.
(** compiler::compile(false) (compiler.cpp:534-578). *)
Definition full_passes (k : rules) (fuel : nat) (x : ctx) (no_logo : bool) : C (option addr) :=
  add_header_and_footer x no_logo ;;; passes k fuel x.

(** set_date_time_variables (compiler.cpp:434-506); [now] is what strftime gives
    for "%m/%d/%Y%T". *)
Definition date_variables (x : ctx) (now : str) : C unit :=
  p <- pos_of (x_root x) ;;
  let text (name : string) (from len : nat) : C unit :=
    a <- lift (new_node STRING p) ;;
    lift (set_string a (sub now from len)) ;;;
    global_variable x p (zs name) a in
  text "_csspp_usdate" 0%nat 10%nat ;;;
  text "_csspp_month" 0%nat 2%nat ;;;
  text "_csspp_day" 3%nat 2%nat ;;;
  text "_csspp_year" 6%nat 4%nat ;;;
  text "_csspp_time" 10%nat 8%nat ;;;
  text "_csspp_hour" 10%nat 2%nat ;;;
  text "_csspp_minute" 13%nat 2%nat ;;;
  text "_csspp_second" 16%nat 2%nat.

(** The variable with the --args (csspp.cpp:491-508). *)
Fixpoint arg_texts (p : position) (array : addr) (l : list str) : C unit :=
  match l with
  | [] => ret tt
  | t :: r => a <- lift (new_node STRING p) ;; lift (set_string a t) ;;; lift (add_child array a) ;;; arg_texts p array r
  end.
Definition args_variable (root : addr) (args : list str) : C unit :=
  p <- pos_of root ;;
  l <- lift (new_node LIST p) ;;
  v <- lift (new_node VARIABLE p) ;;
  lift (set_string v (zs "_csspp_args")) ;;;
  w <- lift (new_node LIST p) ;;
  a <- lift (new_node ARRAY p) ;;
  lift (add_child w a) ;;;
  lift (add_child l v) ;;;
  lift (add_child l w) ;;;
  arg_texts p a args ;;;
  lift (set_variable root (zs "_csspp_args") l).

(** ** The options (csspp.cpp:277-353) and the machine *)
Record options := mkOpt
  { t_files : list str;              (* the arguments; none: not given *)
    t_args : list str; t_include : list str;
    t_debug : bool; t_quiet : bool; t_werror : bool;
    t_no_logo : bool; t_empty : bool;
    t_output : option str; t_precision : option Z; t_style : option str }.
Record machine := mkM
  { m_outside : outside;             (* files, mathematics, selector scripts *)
    m_stdin : list Z; m_cwd : str; m_now : str;
    m_opens : str -> bool;           (* the file can be created *)
    m_flushed : nat }.               (* the bytes of an open file that are on
                                        disk when the process stops *)
(** Where the output goes. *)
Inductive dest := Screen | File (name : str).
(** How it ends: the exit code, what was opened for the output with what is in
    it, and the messages. *)
Inductive ended :=
| Ended (code : Z) (out : option (dest * str)) (log : list msg)
| Crashed (log : list msg)
| Endless.

(** The reporter with the options of pp::pp (csspp.cpp:396-411), given these
    messages. *)
Definition mode_of (l : level) : ErrorLog.emode :=
  match l with
  | LDebug => ErrorLog.EDebug | LInfo => ErrorLog.EInfo | LWarning => ErrorLog.EWarning
  | LError => ErrorLog.EError | LFatal => ErrorLog.EFatal
  end.
Definition setup (t : options) : list ErrorLog.ecall :=
  (if t_quiet t then [ErrorLog.CInstance; ErrorLog.CHide true] else [])
  ++ (if t_debug t then [ErrorLog.CInstance; ErrorLog.CShowDebug true] else [])
  ++ (if t_werror t then [ErrorLog.CInstance; ErrorLog.CAsErrors true] else []).
Definition calls (w : msg) : list ErrorLog.ecall :=
  [ErrorLog.CInstance; ErrorLog.CPosition [] (p_line (m_pos w)); ErrorLog.CText (zs (m_text w)); ErrorLog.CMode (mode_of (m_level w))].
Definition reporter (t : options) (ms : list msg) : ErrorLog.elog :=
  ErrorLog.ecalls_run (ErrorLog.ecalls_run ErrorLog.elog_new (setup t)) (flat_map calls ms).
(** error_tracker.error_happened(). *)
Definition errors_so_far (t : options) (before now : list msg) : bool :=
  ErrorLog.error_happened (reporter t before) (reporter t now).

(** The text of the imports (csspp.cpp:436-476); [inr]: a message and exit 1. *)
Definition warn (text : string) : msg := mkMsg LWarning (new_position 1 1) text.
Fixpoint import_text (cwd : str) (names : list str) : list Z + list msg :=
  match names with
  | [] => inl []
  | n :: r =>
      match n with
      | [] => inr [warn "You cannot include a file with an empty name."]
      | c :: _ =>
          if str_eqb n (zs "-") then inr [warn "You cannot currently mix files and stdin. You may use @import ""filename""; in your stdin data though."]
          else
            match import_text cwd r with
            | inr w => inr w
            | inl t => inl (zs "@import """ ++ (if c =? 47 then n else cwd ++ zs "/" ++ n) ++ zs """;" ++ [10] ++ t)
            end
      end
  end.
Definition source (e : machine) (t : options) : list Z + list msg :=
  match t_files t with
  | [] => inl (m_stdin e)
  | [n] => if str_eqb n (zs "-") then inl (m_stdin e) else import_text (m_cwd e) [n]
  | l => import_text (m_cwd e) l
  end.
(** The paths (compiler.cpp:113-121, 413-417, csspp.cpp:515-530). *)
Definition search_paths (include : list str) : list str :=
  fold_left (fun l p => if str_eqb p (zs "-") then [] else l ++ [p]) include default_paths.
(** The style (csspp.cpp:552-581). *)
Definition style_of (t : options) : option Assembler.mode :=
  match t_style t with
  | None => Some Assembler.COMPRESSED
  | Some s =>
      if str_eqb s (zs "compressed") then Some Assembler.COMPRESSED
      else if str_eqb s (zs "tidy") then Some Assembler.TIDY
      else if str_eqb s (zs "compact") then Some Assembler.COMPACT
      else if str_eqb s (zs "expanded") then Some Assembler.EXPANDED
      else None
  end.
Definition with_precision (o : outside) (p : Z) : outside :=
  let e := o_env o in
  mkOut (Functions.mkFE (Functions.f_libm e) (Functions.f_acos e) (Functions.f_asin e) (Functions.f_atan e)
           (Functions.f_cos e) (Functions.f_sin e) (Functions.f_tan e) (Functions.f_log e) (Functions.f_rand e)
           p (Functions.f_show e) (Functions.f_inspect e) (Functions.f_variable e) (Functions.f_user e))
    (o_read o) (o_checks o) (o_metrics o) (o_slash o).

(** The compilation of the root (csspp.cpp:490-546). *)
Definition prepare_and_compile (o : outside) (fuel : nat) (e : machine) (t : options) (root : addr) : C (option addr) :=
  let x := mkX root [] (t_empty t) in
  args_variable root (t_args t) ;;;
  date_variables x (m_now e) ;;;
  full_passes (rules_of o (functions_of o (search_paths (t_include t)) fuel)) fuel x (t_no_logo t).

(** The end (csspp.cpp:552-611): an exception leaves an open file behind with
    what was flushed; the standard output is flushed by exit(). *)
Definition destination (e : machine) (t : options) : option dest :=
  match t_output t with
  | None => Some Screen
  | Some n => if str_eqb n (zs "-") then Some Screen else if m_opens e n then Some (File n) else None
  end.
Definition to (d : option dest) (text : str) : option (dest * str) := option_map (fun d => (d, text)) d.
Definition left_over (e : machine) (d : option dest) (text : str) : option (dest * str) :=
  match d with Some (File n) => Some (File n, firstn (m_flushed e) text) | _ => to d text end.
Definition write_out (o : outside) (fuel : nat) (e : machine) (t : options) (root : addr) (h : heap) (ms : list msg) : ended :=
  match style_of t with
  | None => Ended 1 None (ms ++ [warn "The output mode is not supported. Try one of: compressed, tidy, compact, expanded instead."])
  | Some m =>
      let d := destination e t in
      match Assembler.output h (o_libm o) (Functions.f_precision (o_env o)) m fuel root (Assembler.mkO [] false ms) with
      | Throw _ s => Ended 1 (left_over e d (Assembler.o_text s)) (Assembler.o_msgs s)
      | Undef s => Crashed (Assembler.o_msgs s)
      | NoFuel => Endless
      | Ret _ s => Ended (if errors_so_far t [] (Assembler.o_msgs s) then 1 else 0) (to d (Assembler.o_text s)) (Assembler.o_msgs s)
      end
  end.

(** pp::compile and main (csspp.cpp:421-611, 615-664). *)
Definition command (fuel : nat) (e : machine) (t : options) : ended :=
  let p := match t_precision t with Some p => p | None => 3 end in
  if (p <? 0) || (10 <? p) then Ended 1 None []
  else
    let o := with_precision (m_outside e) p in
    match source e t with
    | inr w => Ended 1 None w
    | inl text =>
        match read_sheet o text ([], []) with
        | Throw _ g => Ended 1 None (snd g)
        | Undef g => Crashed (snd g)
        | NoFuel => Endless
        | Ret root (h, ms) =>
            if errors_so_far t [] ms then Ended 1 None ms
            else
              match prepare_and_compile o fuel e t root (mkK h ms (search_paths (t_include t))) with
              | Throw _ s => Ended 1 None (k_msgs s)
              | Undef s => Crashed (k_msgs s)
              | NoFuel => Endless
              | Ret _ s =>
                  if errors_so_far t [] (k_msgs s) then Ended 1 None (k_msgs s)
                  else write_out o fuel e t root (k_heap s) (k_msgs s)
              end
        end
    end.
