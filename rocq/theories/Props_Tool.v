(** * C75: the command line tool tells how it went, and writes a result only
    when nothing went wrong *)

From Coq Require Import String ZArith List Bool Lia Floats.SpecFloat.
From Verif Require Import Base NodeHeap.
From Verif Require Lexer Parser Functions Selector Assembler ErrorLog MessagesAssembler.
From Verif Require Import MessagesParser MessagesCompiler MessagesCompile MessagesPipeline.
From Verif Require Import Compiler Compile Pipeline Tool ToolRun.
Import ListNotations.
Open Scope string_scope. Open Scope list_scope. Open Scope Z_scope.
Ltac Zify.zify_post_hook ::= idtac.

(** What counts as an error: errors, and warnings with --Werror. *)
Definition bad (t : options) (w : msg) : bool :=
  match m_level w with
  | LError | LFatal => true
  | LWarning => t_werror t
  | LInfo | LDebug => false
  end.
(** What is shown: --quiet hides all but the errors, debug messages are only
    shown with --debug. *)
Definition shown (t : options) (w : msg) : bool :=
  bad t w || (negb (t_quiet t) && match m_level w with LDebug => t_debug t | _ => true end).
(** The counter of errors is a 32 bit integer. *)
Definition fewer_than_2_32 (ms : list msg) : Prop := Z.of_nat (length ms) < 4294967296.

(** ** The reporter *)
Lemma reporter_options t ms : let s := reporter t ms in
  ErrorLog.el_as_errors s = t_werror t /\ ErrorLog.el_hide s = t_quiet t /\ ErrorLog.el_debug s = t_debug t
  /\ ErrorLog.el_verbose s = false /\ ErrorLog.el_stream s = None
  /\ ErrorLog.el_errors s = Z.of_nat (length (filter (bad t) ms)) mod 4294967296
  /\ map ErrorLog.ln_mode (ErrorLog.el_out s) = map (fun w => mode_of (m_level w)) (filter (shown t) ms).
Proof.
  induction ms as [|w ms IH] using rev_ind.
  - unfold reporter, setup. destruct (t_quiet t), (t_debug t), (t_werror t); now repeat split.
  - cbv zeta in *. unfold reporter in *. rewrite flat_map_app. unfold ErrorLog.ecalls_run in *. rewrite fold_left_app.
    set (s := fold_left _ (flat_map calls ms) _) in *. destruct IH as (A & B & D & V & T & N & L).
    cbn [flat_map app]. rewrite app_nil_r. unfold calls. cbn [fold_left ErrorLog.ecall_run].
    rewrite !filter_app, !map_app, app_length, Nat2Z.inj_add. cbn [filter]. unfold bad at 2, shown at 2. unfold bad at 2.
    assert (U : ErrorLog.count_up (ErrorLog.el_errors s) = (Z.of_nat (length (filter (bad t) ms)) + 1) mod 4294967296).
    { unfold ErrorLog.count_up. rewrite N. now rewrite Z.add_mod_idemp_l by discriminate. }
    destruct (m_level w) eqn:F; unfold mode_of; cbn [ErrorLog.send_mode]; cbn [ErrorLog.el_as_errors ErrorLog.el_hide ErrorLog.el_debug ErrorLog.set_message ErrorLog.set_position]; rewrite ?A, ?B, ?D;
    destruct (t_werror t), (t_quiet t), (t_debug t); cbn [negb andb orb length]; change (Z.of_nat 1) with 1; change (Z.of_nat 0) with 0; rewrite ?Z.add_0_r;
    unfold ErrorLog.print_line; cbn [ErrorLog.el_verbose ErrorLog.add_lines ErrorLog.set_counts ErrorLog.set_message ErrorLog.set_position]; rewrite ?V;
    cbn [ErrorLog.el_as_errors ErrorLog.el_hide ErrorLog.el_debug ErrorLog.el_verbose ErrorLog.el_stream ErrorLog.el_errors ErrorLog.el_out ErrorLog.el_warnings ErrorLog.add_lines ErrorLog.set_counts ErrorLog.set_message ErrorLog.set_position];
    rewrite ?map_app, ?L; cbn [map]; rewrite ?app_nil_r, ?F; repeat split; assumption || reflexivity || idtac.
Qed.
Lemma happened t ms : errors_so_far t [] ms = negb (Z.of_nat (length (filter (bad t) ms)) mod 4294967296 =? 0).
Proof.
  unfold errors_so_far, ErrorLog.error_happened. pose proof (reporter_options t ms) as (_ & _ & _ & _ & _ & -> & _).
  pose proof (reporter_options t []) as (_ & _ & _ & _ & _ & -> & _). cbn [filter length]. change (Z.of_nat 0 mod 4294967296) with 0. now rewrite Z.eqb_sym.
Qed.
Lemma filter_length {A} (f : A -> bool) l : (length (filter f l) <= length l)%nat.
Proof. induction l as [|x l IH]; [cbn; lia|]. cbn [filter length]. destruct (f x); cbn [length]; lia. Qed.
Lemma filter_none {A} (f : A -> bool) l : Forall (fun x => f x = false) l -> filter f l = [].
Proof. induction 1 as [|x l H F IH]; [reflexivity|]. cbn [filter]. now rewrite H. Qed.
Lemma happened_small t ms : fewer_than_2_32 ms -> (errors_so_far t [] ms = false <-> Forall (fun w => bad t w = false) ms).
Proof.
  intro L. rewrite happened. unfold fewer_than_2_32 in L. pose proof (filter_length (bad t) ms) as G.
  rewrite Z.mod_small by lia. rewrite negb_false_iff, Z.eqb_eq. split.
  - intro E. apply Forall_forall. intros w I. destruct (bad t w) eqn:B; [|reflexivity]. exfalso.
    assert (J : In w (filter (bad t) ms)) by (apply filter_In; now split). destruct (filter (bad t) ms); [destruct J|cbn in E; lia].
  - intro F. now rewrite (filter_none (bad t) ms F).
Qed.
Lemma bad_stops t w ms : fewer_than_2_32 ms -> In w ms -> bad t w = true -> errors_so_far t [] ms = true.
Proof.
  intros L I B. destruct (errors_so_far t [] ms) eqn:E; [reflexivity|]. apply (happened_small t ms L) in E. rewrite Forall_forall in E. specialize (E w I). congruence.
Qed.

(** What is printed, and where: each message on one line of std::cerr. *)
Theorem c75_printed : forall t ms,
  let s := reporter t ms in
  map ErrorLog.ln_mode (ErrorLog.el_out s) = map (fun w => mode_of (m_level w)) (filter (shown t) ms).
Proof. intros t ms. exact (proj2 (proj2 (proj2 (proj2 (proj2 (proj2 (reporter_options t ms))))))). Qed.

(** ** The exit code *)
Theorem c75_code : forall fuel e t code out log, command fuel e t = Ended code out log -> code = 0 \/ code = 1.
Proof.
  intros fuel e t code out log. unfold command, write_out.
  repeat match goal with
  | |- context [match ?x with _ => _ end] => destruct x
  | |- context [if ?x then _ else _] => destruct x
  end; intro E; try discriminate; injection E as <- _ _; auto.
Qed.
(** The precision in force. *)
Definition precision_of (t : options) : Z := match t_precision t with Some p => p | None => 3 end.
Definition settings (e : machine) (t : options) : outside := with_precision (m_outside e) (precision_of t).
(** The steps: the text is read, the root compiled, the output written. *)
Definition reads (e : machine) (t : options) (root : addr) (h : heap) (ms : list msg) : Prop :=
  0 <= precision_of t <= 10 /\ exists text, source e t = inl text /\ read_sheet (settings e t) text ([], []) = Ret root (h, ms).
Definition compiles (fuel : nat) (e : machine) (t : options) (root : addr) (h : heap) (ms : list msg) : Prop :=
  exists h0 ms0 r paths, reads e t root h0 ms0 /\ errors_so_far t [] ms0 = false
  /\ prepare_and_compile (settings e t) fuel e t root (mkK h0 ms0 (search_paths (t_include t))) = Ret r (mkK h ms paths).
Definition writes (fuel : nat) (e : machine) (t : options) (root : addr) (h : heap) (ms : list msg) (m : Assembler.mode) (text : str) (log : list msg) : Prop :=
  exists b, Assembler.output h (o_libm (settings e t)) (precision_of t) m fuel root (Assembler.mkO [] false ms) = Ret tt (Assembler.mkO text b log).

Lemma command_reads fuel e t root h ms : reads e t root h ms ->
  command fuel e t =
    if errors_so_far t [] ms then Ended 1 None ms
    else match prepare_and_compile (settings e t) fuel e t root (mkK h ms (search_paths (t_include t))) with
         | Throw _ s => Ended 1 None (k_msgs s)
         | Undef s => Crashed (k_msgs s)
         | NoFuel => Endless
         | Ret _ s => if errors_so_far t [] (k_msgs s) then Ended 1 None (k_msgs s)
                      else write_out (settings e t) fuel e t root (k_heap s) (k_msgs s)
         end.
Proof.
  intros (P & text & S & R). unfold command. fold (precision_of t). fold (settings e t).
  destruct (Z.ltb_spec (precision_of t) 0); [lia|]. destruct (Z.ltb_spec 10 (precision_of t)); [lia|]. cbn [orb]. now rewrite S, R.
Qed.

(** The code 0: everything was read, compiled and written without an error
    (without a warning, with --Werror), the output is the whole text in the style
    asked for, and it is where it was asked for if that file could be created. *)
Theorem c75_zero : forall fuel e t out log, command fuel e t = Ended 0 out log -> fewer_than_2_32 log ->
  exists root h ms m text,
    compiles fuel e t root h ms /\ style_of t = Some m /\ writes fuel e t root h ms m text log
    /\ out = to (destination e t) text /\ Forall (fun w => bad t w = false) log.
Proof.
  intros fuel e t out log E L. unfold command in E. fold (precision_of t) in E. fold (settings e t) in E.
  destruct (Z.ltb_spec (precision_of t) 0) as [|P0]; [discriminate|]. destruct (Z.ltb_spec 10 (precision_of t)) as [|P1]; [discriminate|]. cbn [orb] in E.
  destruct (source e t) as [text|w] eqn:So; [|discriminate].
  destruct (read_sheet _ _ _) as [root (h0, ms0)|x g|g|] eqn:R; try discriminate.
  destruct (errors_so_far t [] ms0) eqn:E0; [discriminate|].
  destruct (prepare_and_compile _ _ _ _ _ _) as [r s|x s|s|] eqn:C; try discriminate.
  destruct (errors_so_far t [] (k_msgs s)) eqn:E1; [discriminate|]. unfold write_out in E.
  destruct (style_of t) as [m|] eqn:St; [|discriminate].
  destruct (Assembler.output _ _ _ _ _ _ _) as [u o|x o|o|] eqn:W; try discriminate.
  destruct (errors_so_far t [] (Assembler.o_msgs o)) eqn:E2; injection E as E3 E4; [discriminate|]. subst out log.
  destruct s as [h ms paths]. exists root, h, ms, m, (Assembler.o_text o). cbn [k_heap k_msgs] in *.
  split. { exists h0, ms0, r, paths. split; [|split; assumption]. split; [lia|]. now exists text. }
  split; [reflexivity|]. split. { destruct u, o as [u b l]. now exists b. }
  split; [reflexivity|]. now apply (happened_small t _ L).
Qed.
(** And the other way around. *)
Theorem c75_zero_when : forall fuel e t root h ms m text log,
  compiles fuel e t root h ms -> style_of t = Some m -> writes fuel e t root h ms m text log ->
  Forall (fun w => bad t w = false) log -> fewer_than_2_32 log ->
  command fuel e t = Ended 0 (to (destination e t) text) log.
Proof.
  intros fuel e t root h ms m text log (h0 & ms0 & r & paths & R & E0 & C) St (b & W) F L.
  rewrite (command_reads fuel e t root h0 ms0 R), E0, C. cbn [k_msgs k_heap].
  assert (A : exists more, log = ms ++ more).
  { pose proof (proj1 (MessagesAssembler.grows_output h (o_libm (settings e t)) (precision_of t) m fuel) root (Assembler.mkO [] false ms)) as H. rewrite W in H. exact (proj2 H). }
  destruct A as (more & ->). apply Forall_app in F. destruct F as (F1 & F2).
  assert (L1 : fewer_than_2_32 ms). { unfold fewer_than_2_32 in *. rewrite app_length in L. lia. }
  rewrite (proj2 (happened_small t ms L1) F1). unfold write_out. rewrite St.
  change (Functions.f_precision (o_env (settings e t))) with (precision_of t). rewrite W. cbn [Assembler.o_msgs Assembler.o_text].
  rewrite (proj2 (happened_small t _ L)); [reflexivity|]. apply Forall_app. now split.
Qed.

(** ** After an error nothing is opened: an earlier output stays as it was *)
Theorem c75_stop_read : forall fuel e t root h ms w,
  reads e t root h ms -> In w ms -> bad t w = true -> fewer_than_2_32 ms ->
  command fuel e t = Ended 1 None ms.
Proof. intros fuel e t root h ms w R I B L. rewrite (command_reads fuel e t root h ms R). now rewrite (bad_stops t w ms L I B). Qed.
Theorem c75_stop_compile : forall fuel e t root h ms w,
  compiles fuel e t root h ms -> In w ms -> bad t w = true -> fewer_than_2_32 ms ->
  command fuel e t = Ended 1 None ms.
Proof.
  intros fuel e t root h ms w (h0 & ms0 & r & paths & R & E0 & C) I B L. rewrite (command_reads fuel e t root h0 ms0 R), E0, C. cbn [k_msgs].
  now rewrite (bad_stops t w ms L I B).
Qed.
(** When the output was opened, the text was read and compiled without errors. *)
Theorem c75_opened : forall fuel e t code d text log, command fuel e t = Ended code (Some (d, text)) log ->
  exists root h ms more, compiles fuel e t root h ms /\ log = ms ++ more
    /\ (fewer_than_2_32 ms -> Forall (fun w => bad t w = false) ms) /\ destination e t = Some d
    /\ (code = 1 -> errors_so_far t [] log = true \/ exists m x s, style_of t = Some m
         /\ Assembler.output h (o_libm (settings e t)) (precision_of t) m fuel root (Assembler.mkO [] false ms) = Throw x s).
Proof.
  intros fuel e t code d text log E. unfold command in E. fold (precision_of t) in E. fold (settings e t) in E.
  destruct (Z.ltb_spec (precision_of t) 0) as [|P0]; [discriminate|]. destruct (Z.ltb_spec 10 (precision_of t)) as [|P1]; [discriminate|]. cbn [orb] in E.
  destruct (source e t) as [src|w] eqn:So; [|discriminate].
  destruct (read_sheet _ _ _) as [root (h0, ms0)|x g|g|] eqn:R; try discriminate.
  destruct (errors_so_far t [] ms0) eqn:E0; [discriminate|].
  destruct (prepare_and_compile _ _ _ _ _ _) as [r s|x s|s|] eqn:C; try discriminate.
  destruct (errors_so_far t [] (k_msgs s)) eqn:E1; [discriminate|]. unfold write_out in E.
  destruct (style_of t) as [m|] eqn:St; [|discriminate]. destruct s as [h ms paths]. cbn [k_heap k_msgs] in *.
  pose proof (proj1 (MessagesAssembler.grows_output h (o_libm (settings e t)) (precision_of t) m fuel) root (Assembler.mkO [] false ms)) as H.
  change (Functions.f_precision (o_env (settings e t))) with (precision_of t) in E.
  assert (K : compiles fuel e t root h ms). { exists h0, ms0, r, paths. split; [|split; assumption]. split; [lia|]. now exists src. }
  assert (Dd : forall u v, to (destination e t) u = Some v -> destination e t = Some (fst v)) by (intros u v; unfold to; destruct (destination e t); [|discriminate]; intro G; now injection G as <-).
  destruct (Assembler.output _ _ _ _ _ _ _) as [u o|x o|o|] eqn:W; try discriminate; injection E as Ec Eo El; destruct H as (_ & more & H); cbn [Assembler.o_msgs] in H.
  - exists root, h, ms, more. split; [exact K|]. split; [congruence|]. split; [intro L; now apply (happened_small t ms L)|]. split; [exact (Dd _ _ Eo)|].
    intros ->. left. subst log. destruct (errors_so_far t [] (Assembler.o_msgs o)); [reflexivity|discriminate].
  - exists root, h, ms, more. split; [exact K|]. split; [congruence|]. split; [intro L; now apply (happened_small t ms L)|]. split.
    + unfold left_over in Eo. destruct (destination e t) as [[|n]|]; [| |discriminate]; cbn in Eo; injection Eo as <- _; reflexivity.
    + intros _. right. now exists m, x, o.
Qed.
(** ** Options *)
(** --quiet and --debug decide what is printed and nothing else. *)
Definition with_shown (t : options) (quiet debug : bool) : options :=
  mkOpt (t_files t) (t_args t) (t_include t) debug quiet (t_werror t) (t_no_logo t) (t_empty t) (t_output t) (t_precision t) (t_style t).
Theorem c75_quiet : forall fuel e t quiet debug, command fuel e (with_shown t quiet debug) = command fuel e t.
Proof.
  intros fuel e t quiet debug.
  assert (H : forall ms, errors_so_far (with_shown t quiet debug) [] ms = errors_so_far t [] ms) by (intro ms; rewrite !happened; reflexivity).
  unfold command, prepare_and_compile, write_out, source, destination, style_of. cbn [with_shown t_files t_args t_include t_werror t_no_logo t_empty t_output t_precision t_style].
  destruct (_ || _); [reflexivity|].
  match goal with |- match ?qq with _ => _ end = _ => destruct qq as [text|w]; [|reflexivity] end.
  destruct (read_sheet _ _ _) as [root (h, ms)|x g|g|]; try reflexivity. rewrite H. destruct (errors_so_far t [] ms); [reflexivity|].
  match goal with |- match ?qq with _ => _ end = _ => destruct qq as [r s|x s|s|]; try reflexivity end. rewrite H. destruct (errors_so_far t [] (k_msgs s)); [reflexivity|].
  match goal with |- match ?qq with _ => _ end = _ => destruct qq as [m|]; [|reflexivity] end.
  destruct (Assembler.output _ _ _ _ _ _ _) as [u o|x o|o|]; try reflexivity. now rewrite H.
Qed.
(** A style that does not exist: nothing is written. *)
Theorem c75_style : forall s,
  style_of (mkOpt [] [] [] false false false false false None None (Some s)) <> None
  <-> In s [zs "compressed"; zs "tidy"; zs "compact"; zs "expanded"].
Proof.
  intro s. unfold style_of. cbn [t_style In].
  destruct (str_eqb s (zs "compressed")) eqn:E_compressed; [apply str_eqb_spec in E_compressed; split; [auto|discriminate]|apply str_eqb_neq in E_compressed].
  destruct (str_eqb s (zs "tidy")) eqn:E_tidy; [apply str_eqb_spec in E_tidy; split; [auto|discriminate]|apply str_eqb_neq in E_tidy].
  destruct (str_eqb s (zs "compact")) eqn:E_compact; [apply str_eqb_spec in E_compact; split; [auto|discriminate]|apply str_eqb_neq in E_compact].
  destruct (str_eqb s (zs "expanded")) eqn:E_expanded; [apply str_eqb_spec in E_expanded; split; [auto|discriminate]|apply str_eqb_neq in E_expanded].
  split; [congruence|]. intros [H|[H|[H|[H|[]]]]]; symmetry in H; contradiction.
Qed.
Theorem c75_style_unknown : forall fuel e t, style_of t = None ->
  match command fuel e t with Ended code out _ => code = 1 /\ out = None | _ => True end.
Proof.
  intros fuel e t S. unfold command, write_out. rewrite S.
  destruct (_ || _); [auto|]. destruct (source e t); [|auto]. destruct (read_sheet _ _ _) as [root (h, ms)|x g|g|]; auto.
  destruct (errors_so_far t [] ms); [auto|]. destruct (prepare_and_compile _ _ _ _ _ _) as [r s|x s|s|]; auto.
  destruct (errors_so_far t [] (k_msgs s)); auto.
Qed.
(** A precision which is refused, before anything is read. *)
Theorem c75_precision : forall fuel e t, ~ 0 <= precision_of t <= 10 -> command fuel e t = Ended 1 None [].
Proof.
  intros fuel e t P. unfold command. fold (precision_of t).
  destruct (Z.ltb_spec (precision_of t) 0); [reflexivity|]. destruct (Z.ltb_spec 10 (precision_of t)); [reflexivity|lia].
Qed.
(** "-I -" forgets the directories before it, that of the distribution too. *)
Lemma paths_from l : forall acc, ~ In (zs "-") l -> fold_left (fun l p => if str_eqb p (zs "-") then [] else l ++ [p]) l acc = acc ++ l.
Proof.
  induction l as [|p l IH]; intros acc N; [now rewrite app_nil_r|]. cbn [fold_left].
  destruct (str_eqb p (zs "-")) eqn:E; [apply str_eqb_spec in E; subst p; exfalso; apply N; now left|]. rewrite IH by (intro I; apply N; now right). now rewrite <- app_assoc.
Qed.
Theorem c75_paths : forall l1 l2, ~ In (zs "-") l2 ->
  search_paths l2 = zs "/usr/lib/csspp/scripts" :: l2 /\ search_paths (l1 ++ [zs "-"] ++ l2) = l2.
Proof.
  intros l1 l2 N. unfold search_paths. split; [exact (paths_from l2 default_paths N)|].
  rewrite fold_left_app. cbn [app fold_left]. rewrite str_eqb_refl. exact (paths_from l2 [] N).
Qed.
(** The files: each one is imported, in order, under its absolute name. *)
Definition absolute (cwd n : str) : str := match n with 47 :: _ => n | _ => cwd ++ zs "/" ++ n end.
Definition unnamed (n : str) : bool := match n with [] => true | _ => str_eqb n (zs "-") end.
Theorem c75_files : forall cwd names,
  import_text cwd names =
    match find unnamed names with
    | Some [] => inr [warn "You cannot include a file with an empty name."]
    | Some _ => inr [warn "You cannot currently mix files and stdin. You may use @import ""filename""; in your stdin data though."]
    | None => inl (flat_map (fun n => zs "@import """ ++ absolute cwd n ++ zs """;" ++ [10]) names)
    end.
Proof.
  intros cwd names. induction names as [|n names IH]; [reflexivity|]. cbn [import_text find flat_map].
  destruct n as [|c n]; [reflexivity|]. unfold unnamed at 1. destruct (str_eqb (c :: n) (zs "-")); [reflexivity|]. rewrite IH.
  destruct (find unnamed names) as [[|x w]|]; [reflexivity|reflexivity|].
  assert (A : (if c =? 47 then c :: n else cwd ++ zs "/" ++ c :: n) = absolute cwd (c :: n)).
  { destruct (Z.eqb_spec c 47) as [->|N]; [reflexivity|]. unfold absolute. destruct c as [|q|q]; try reflexivity.
    do 6 (destruct q as [q|q|]; try reflexivity). now elim N. }
  rewrite A. now rewrite <- ?app_assoc.
Qed.
(** One "-" alone, and no file at all, are the standard input. *)
Theorem c75_stdin : forall e t, t_files t = [] \/ t_files t = [zs "-"] -> source e t = inl (m_stdin e).
Proof. intros e t [F|F]; unfold source; rewrite F; reflexivity. Qed.

(** ** What does not hold

    A disk with system scripts like those of the distribution and two files;
    for any mathematics and any selector scripts. *)
Definition disk (f : str) : option (list Z) :=
  if str_eqb f (zs "/usr/lib/csspp/scripts/system/init.scss") then Some (zs "$v: 1;")
  else if str_eqb f (zs "/usr/lib/csspp/scripts/system/close.scss") then Some (zs "@if not($_csspp_no_logo) { /* @preserve {$_csspp_usdate} */ }")
  else if str_eqb f (zs "/home/u/a.css") then Some (zs "a{b:c}")
  else if str_eqb f (zs "/home/u/ab.css") then Some (zs "d{e:f}")
  else None.
(** Files can be created or not; none of the text is on disk before the end. *)
Definition computer env checks (stdin : string) (opens : bool) : machine :=
  mkM (mkOut env disk checks scripts_metrics scripts_slash) (zs stdin) (zs "/home/u") (zs "11/18/202620:15:07") (fun _ => opens) 0.
Definition no_options : options := mkOpt [] [] [] false false false false false None None None.
Definition on_files (l : list string) : options := mkOpt (map zs l) [] [] false false false true false None None None.
Definition to_file (quiet : bool) (n : string) : options := mkOpt [] [] [] false quiet false true false (Some (zs n)) None None.
Definition printed (t : options) (r : ended) : list ErrorLog.emode :=
  match r with Ended _ _ log => map ErrorLog.ln_mode (ErrorLog.el_out (reporter t log)) | _ => [] end.

(** "The code 0 means that the files were read": a file that does not exist is
    taken for an @import to leave as it is; --quiet hides the only message. *)
Theorem c75_missing_file_refuted : forall env checks,
  exists log, command 60 (computer env checks "" true) (on_files ["none.css"]) = Ended 0 (Some (Screen, zs "@import ""/home/u/none.css"";")) log
  /\ Forall (fun w => m_level w = LInfo) log.
Proof. intros. eexists. split; [vm_compute; reflexivity|]. repeat constructor. Qed.
(** "The files named are those that are read": the name is read as CSS, with its
    escape sequences. *)
Theorem c75_other_file_refuted : forall env checks,
  command 60 (computer env checks "" true) (on_files ["a\62.css"]) = Ended 0 (Some (Screen, zs "d{e:f}")) [].
Proof. intros. vm_compute. reflexivity. Qed.
(** "The code 0 means that the output is written": not when the file cannot be
    created, and nothing is said about it. *)
Theorem c75_unwritable_refuted : forall env checks,
  command 60 (computer env checks "a{b:c}" false) (to_file false "out.css") = Ended 0 None [].
Proof. intros. vm_compute. reflexivity. Qed.
(** "A run that fails leaves the output as it was": an exception of the assembler
    comes after the file was emptied. *)
Theorem c75_truncated_refuted : forall env checks,
  command 60 (computer env checks "a{b:c;d:$_csspp_no_logo}" true) (to_file false "out.css") = Ended 1 (Some (File (zs "out.css"), [])) [].
Proof. intros. vm_compute. reflexivity. Qed.
(** "A run that fails says why": the refusal of a file name, of the mix of files
    and of the standard input, and of a style are only warnings, hidden by --quiet. *)
Theorem c75_silent_refuted : forall env checks,
  let quietly l style := mkOpt (map zs l) [] [] false true false true false None None style in
  map (fun t => let r := command 60 (computer env checks "a{b:c}" true) t in (match r with Ended c o _ => Some (c, o) | _ => None end, printed t r))
    [quietly [""] None; quietly ["a.css"; "-"] None; quietly [] (Some (zs "nice"))]
  = [(Some (1, None), []); (Some (1, None), []); (Some (1, None), [])].
Proof. intros. vm_compute. reflexivity. Qed.

(** Cases: the logo, files, styles, an error, a warning with and without --Werror. *)
Theorem c75_ex : forall env checks,
  let c stdin t := match command 60 (computer env checks stdin true) t with Ended c o _ => Some (c, option_map snd o) | _ => None end in
  c "a{b:c}" no_options = Some (0, Some (zs "a{b:c}" ++ [10] ++ zs "/* @preserve 11/18/2026 */" ++ [10]))
  /\ c "" (on_files ["a.css"; "/home/u/ab.css"]) = Some (0, Some (zs "a{b:c}d{e:f}"))
  /\ c "a{b:$_csspp_year $v}" (to_file false "o") = Some (0, Some (zs "a{b:""2026"" 1}"))
  /\ c "a{b:$x}" (to_file false "o") = Some (1, None)
  /\ c "@warning ""w"";a{b:c}" (to_file true "o") = Some (0, Some (zs "a{b:c}"))
  /\ c "@warning ""w"";a{b:c}" (mkOpt [] [] [] false true true true false None None None) = Some (1, None)
  /\ c "a{b:c}" (mkOpt [] [] [] false false false true false None None (Some (zs "expanded"))) = Some (0, Some (zs "a" ++ [10] ++ zs "{" ++ [10] ++ zs "  b: c;" ++ [10] ++ zs "}" ++ [10])).
Proof. intros. vm_compute. repeat split; reflexivity. Qed.

(** ** What a script is given

    [text_variable] and [array_variable] say that a variable of a node is a text,
    an array of texts; [is_import] that a node is an @import of a file. *)
(** The date and the time, on whatever was read. *)
Theorem c75_dates : forall root parents q h m ps c mm dd yyyy hh mi ss,
  nth_error h root = Some c -> length mm = 2%nat -> length dd = 2%nat -> length yyyy = 4%nat -> length hh = 2%nat -> length mi = 2%nat -> length ss = 2%nat ->
  let now := mm ++ zs "/" ++ dd ++ zs "/" ++ yyyy ++ hh ++ zs ":" ++ mi ++ zs ":" ++ ss in
  exists h' c', date_variables (mkX root parents q) now (mkK h m ps) = Ret tt (mkK h' m ps)
    /\ nth_error h' root = Some c' /\ c_ch c' = c_ch c
    /\ text_variable h' root "_csspp_usdate" (mm ++ zs "/" ++ dd ++ zs "/" ++ yyyy)
    /\ text_variable h' root "_csspp_month" mm /\ text_variable h' root "_csspp_day" dd /\ text_variable h' root "_csspp_year" yyyy
    /\ text_variable h' root "_csspp_time" (hh ++ zs ":" ++ mi ++ zs ":" ++ ss)
    /\ text_variable h' root "_csspp_hour" hh /\ text_variable h' root "_csspp_minute" mi /\ text_variable h' root "_csspp_second" ss.
Proof.
  intros root parents q h m ps c mm dd yyyy hh mi ss H L1 L2 L3 L4 L5 L6 now.
  destruct (run_dates root parents q h m ps c now H) as (h' & c' & R & H' & Ch & _ & _ & T1 & T2 & T3 & T4 & T5 & T6 & T7 & T8 & _).
  exists h', c'. split; [exact R|]. split; [exact H'|]. split; [exact Ch|].
  destruct mm as [|m1 [|m2 [|]]]; try discriminate. destruct dd as [|d1 [|d2 [|]]]; try discriminate.
  destruct yyyy as [|y1 [|y2 [|y3 [|y4 [|]]]]]; try discriminate. destruct hh as [|h1 [|h2 [|]]]; try discriminate.
  destruct mi as [|i1 [|i2 [|]]]; try discriminate. destruct ss as [|s1 [|s2 [|]]]; try discriminate.
  repeat split; assumption.
Qed.
(** The --args, in their order. *)
Theorem c75_args : forall root h m ps c args, nth_error h root = Some c ->
  exists h' c', args_variable root args (mkK h m ps) = Ret tt (mkK h' m ps)
    /\ nth_error h' root = Some c' /\ c_ch c' = c_ch c /\ array_variable h' root "_csspp_args" args.
Proof.
  intros root h m ps c args H. destruct (run_args root h m ps c args H) as (h' & c' & R & H' & Ch & _ & _ & A & _). now exists h', c'.
Qed.
(** What was read is put between an @import of the header and one of the footer. *)
Theorem c75_header : forall root parents q h m ps c no_logo, nth_error h root = Some c -> c_type c = LIST ->
  exists h' c' first last, add_header_and_footer (mkX root parents q) no_logo (mkK h m ps) = Ret tt (mkK h' m ps)
    /\ nth_error h' root = Some c' /\ c_type c' = LIST /\ c_ch c' = first :: c_ch c ++ [last]
    /\ is_import h' first "system/init.scss" /\ is_import h' last "system/close.scss"
    /\ exists l k n b cb, map_get (c_vars c') (zs "_csspp_no_logo") = Some l /\ nth_error h' l = Some k /\ c_type k = LIST /\ c_ch k = [n; b]
       /\ nth_error h' b = Some cb /\ c_type cb = BOOLEAN /\ c_bool cb = no_logo.
Proof.
  intros root parents q h m ps c no_logo H T. destruct (run_header root parents q h m ps c no_logo H ltac:(now rewrite T)) as (h' & c' & f & l & R & H' & Ty & Ch & I1 & I2 & _ & l0 & k & n & b & cb & E1 & _ & E2).
  exists h', c', f, l. split; [exact R|]. split; [exact H'|]. split; [congruence|]. split; [exact Ch|]. split; [exact I1|]. split; [exact I2|]. now exists l0, k, n, b, cb.
Qed.
(** What is there when the passes of the compiler start: the script as it was
    read, between the header and the footer, with these variables. *)
Lemma text_kept h h' root c names n v : nth_error h root = Some c -> c_type c = LIST -> kept h h' root names -> ~ In (zs n) (map zs names) ->
  text_variable h root n v -> text_variable h' root n v.
Proof.
  intros H T (A & B) N (c0 & l & k & m & s & cs & H0 & V & L & K & TK & CK & S & TS & ST). rewrite H in H0. injection H0 as <-.
  destruct (B c H) as (c' & H' & T' & V'). exists c', l, k, m, s, cs. rewrite V' by exact N. repeat split; try assumption; apply A; try assumption.
  intros ->. rewrite H in S. injection S as ->. congruence.
Qed.
Lemma array_kept h h' root c names n v : nth_error h root = Some c -> c_type c = LIST -> kept h h' root names -> ~ In (zs n) (map zs names) ->
  array_variable h root n v -> array_variable h' root n v.
Proof.
  intros H T (A & B) N (c0 & l & k & m & w & kw & a & ka & H0 & V & L & K & TK & CK & W & SW & TW & CW & SA & TA & F). rewrite H in H0. injection H0 as <-.
  destruct (B c H) as (c' & H' & T' & V'). exists c', l, k, m, w, kw, a, ka. rewrite V' by exact N. repeat split; try assumption; try (apply A; try assumption).
  - intros ->. rewrite H in SA. injection SA as ->. congruence.
  - clear - F A H T. induction F as [|x t xs ts (cx & X & TX & SX) F IH]; constructor; [|exact IH]. exists cx. split; [|now split]. apply A; [|exact X].
    intros ->. rewrite H in X. injection X as ->. congruence.
Qed.
Definition tool_names : list string := ["_csspp_args"; "_csspp_no_logo"; "_csspp_usdate"; "_csspp_month"; "_csspp_day"; "_csspp_year"; "_csspp_time"; "_csspp_hour"; "_csspp_minute"; "_csspp_second"].
Theorem c75_passes_start : forall o fuel e t root h m ps c mm dd yyyy hh mi ss,
  nth_error h root = Some c -> c_type c = LIST ->
  length mm = 2%nat -> length dd = 2%nat -> length yyyy = 4%nat -> length hh = 2%nat -> length mi = 2%nat -> length ss = 2%nat ->
  m_now e = mm ++ zs "/" ++ dd ++ zs "/" ++ yyyy ++ hh ++ zs ":" ++ mi ++ zs ":" ++ ss ->
  exists h' c' first last,
    prepare_and_compile o fuel e t root (mkK h m ps)
      = passes (rules_of o (functions_of o (search_paths (t_include t)) fuel)) fuel (mkX root [] (t_empty t)) (mkK h' m ps)
    /\ (forall a d, a <> root -> nth_error h a = Some d -> nth_error h' a = Some d)
    /\ nth_error h' root = Some c' /\ c_type c' = LIST /\ c_ch c' = first :: c_ch c ++ [last]
    /\ is_import h' first "system/init.scss" /\ is_import h' last "system/close.scss"
    /\ array_variable h' root "_csspp_args" (t_args t)
    /\ text_variable h' root "_csspp_usdate" (mm ++ zs "/" ++ dd ++ zs "/" ++ yyyy)
    /\ text_variable h' root "_csspp_month" mm /\ text_variable h' root "_csspp_day" dd /\ text_variable h' root "_csspp_year" yyyy
    /\ text_variable h' root "_csspp_time" (hh ++ zs ":" ++ mi ++ zs ":" ++ ss)
    /\ text_variable h' root "_csspp_hour" hh /\ text_variable h' root "_csspp_minute" mi /\ text_variable h' root "_csspp_second" ss
    /\ (exists l k n b cb, map_get (c_vars c') (zs "_csspp_no_logo") = Some l /\ nth_error h' l = Some k /\ c_type k = LIST /\ c_ch k = [n; b]
         /\ nth_error h' b = Some cb /\ c_type cb = BOOLEAN /\ c_bool cb = t_no_logo t)
    /\ forall n, ~ In n (map zs tool_names) -> map_get (c_vars c') n = map_get (c_vars c) n.
Proof.
  intros o fuel e t root h m ps c mm dd yyyy hh mi ss H T L1 L2 L3 L4 L5 L6 Now. unfold prepare_and_compile, full_passes. rewrite Now.
  destruct (run_args root h m ps c (t_args t) H) as (h1 & c1 & R1 & H1 & Ch1 & Ty1 & _ & A1 & K1). rewrite (CompRun.b_ret _ _ _ _ _ R1).
  destruct (run_dates root [] (t_empty t) h1 m ps c1 (mm ++ zs "/" ++ dd ++ zs "/" ++ yyyy ++ hh ++ zs ":" ++ mi ++ zs ":" ++ ss) H1) as (h2 & c2 & R2 & H2 & Ch2 & Ty2 & _ & D1 & D2 & D3 & D4 & D5 & D6 & D7 & D8 & K2). rewrite (CompRun.b_ret _ _ _ _ _ R2).
  assert (T1 : c_type c1 = LIST) by congruence. assert (T2 : c_type c2 = LIST) by congruence.
  destruct (run_header root [] (t_empty t) h2 m ps c2 (t_no_logo t) H2 ltac:(now rewrite T2)) as (h3 & c3 & f & l & R3 & H3 & Ty3 & Ch3 & I1 & I2 & K3 & l0 & k & n & b & cb & E1 & _ & E2). rewrite (CompRun.b_ret _ _ _ _ _ R3).
  exists h3, c3, f, l. split; [reflexivity|]. pose proof (kept_trans _ _ _ _ _ _ K1 (kept_trans _ _ _ _ _ _ K2 K3)) as K.
  split; [intros; now apply (proj1 K)|]. split; [exact H3|]. split; [congruence|]. split; [now rewrite Ch3, Ch2, Ch1|]. split; [exact I1|]. split; [exact I2|].
  split. { apply (array_kept h1 h3 root c1 _ _ _ H1 T1 (kept_trans _ _ _ _ _ _ K2 K3)); [|exact A1]. vm_compute. intuition discriminate. }
  destruct mm as [|m1 [|m2 [|]]]; try discriminate. destruct dd as [|d1 [|d2 [|]]]; try discriminate.
  destruct yyyy as [|y1 [|y2 [|y3 [|y4 [|]]]]]; try discriminate. destruct hh as [|h01 [|h02 [|]]]; try discriminate.
  destruct mi as [|i1 [|i2 [|]]]; try discriminate. destruct ss as [|s1 [|s2 [|]]]; try discriminate.
  do 8 (split; [apply (text_kept h2 h3 root c2 _ _ _ H2 T2 K3); [vm_compute; intuition discriminate|assumption]|]).
  split; [now exists l0, k, n, b, cb|].
  intros x N. destruct (proj2 K c H) as (c3' & H3' & _ & V). rewrite H3 in H3'. injection H3' as <-. apply V. intro I. apply N. revert I. vm_compute. tauto.
Qed.
(** The hypotheses of the theorems are met. *)
Example c75_ex_steps : forall env checks,
  (exists root h ms m text log, let t := no_options in let e := computer env checks "a{b:c}" true in
     compiles 60 e t root h ms /\ style_of t = Some m /\ writes 60 e t root h ms m text log /\ Forall (fun w => bad t w = false) log /\ fewer_than_2_32 log)
  /\ (exists root h ms w, let t := to_file false "o" in reads (computer env checks "a{b:""c}" true) t root h ms /\ In w ms /\ bad t w = true /\ fewer_than_2_32 ms)
  /\ (exists root h ms w, let t := to_file false "o" in compiles 60 (computer env checks "a{b:$x}" true) t root h ms /\ In w ms /\ bad t w = true /\ fewer_than_2_32 ms).
Proof.
  intros env checks. split; [|split].
  - assert (R : exists out, command 60 (computer env checks "a{b:c}" true) no_options = Ended 0 out []) by (eexists; vm_compute; reflexivity).
    destruct R as (out & R). destruct (c75_zero 60 _ _ out [] R) as (root & h & ms & m & text & A & B & D & _ & F); [reflexivity|].
    exists root, h, ms, m, text, []. cbv zeta. now repeat split.
  - eexists _, _, _, _. cbv zeta. split. { split; [now vm_compute|]. eexists. split; [reflexivity|]. vm_compute. reflexivity. }
    split; [left; reflexivity|]. split; reflexivity.
  - eexists _, _, _, _. cbv zeta. split. { eexists _, _, _, _. split. { split; [now vm_compute|]. eexists. split; [reflexivity|]. vm_compute. reflexivity. } split; [reflexivity|]. vm_compute. reflexivity. }
    split; [left; reflexivity|]. split; reflexivity.
Qed.

(** ** What the options mean *)
Definition with_style (s : option string) : options := mkOpt [] [] [] false false false false false None None (option_map zs s).
Theorem c75_styles :
  map (fun s => style_of (with_style s)) [None; Some "compressed"; Some "tidy"; Some "compact"; Some "expanded"; Some "nice"; Some ""]
  = [Some Assembler.COMPRESSED; Some Assembler.COMPRESSED; Some Assembler.TIDY; Some Assembler.COMPACT; Some Assembler.EXPANDED; None; None].
Proof. reflexivity. Qed.
Theorem c75_destination : forall e t,
  (t_output t = None -> destination e t = Some Screen)
  /\ (t_output t = Some (zs "-") -> destination e t = Some Screen)
  /\ forall n, t_output t = Some n -> n <> zs "-" ->
       (m_opens e n = true -> destination e t = Some (File n)) /\ (m_opens e n = false -> destination e t = None).
Proof.
  intros e t. unfold destination. split; [now intros ->|]. split; [now intros ->|]. intros n -> N.
  destruct (str_eqb n (zs "-")) eqn:E; [apply str_eqb_spec in E; contradiction|]. split; now intros ->.
Qed.
(** --precision sets the precision and nothing else of what is around. *)
Theorem c75_settings : forall e t, let o := settings e t in
  Functions.f_precision (o_env o) = (match t_precision t with Some p => p | None => 3 end)
  /\ o_read o = o_read (m_outside e) /\ o_checks o = o_checks (m_outside e) /\ o_libm o = o_libm (m_outside e)
  /\ o_metrics o = o_metrics (m_outside e) /\ o_slash o = o_slash (m_outside e)
  /\ Functions.f_rand (o_env o) = Functions.f_rand (o_env (m_outside e)) /\ Functions.f_show (o_env o) = Functions.f_show (o_env (m_outside e)).
Proof. intros e t. repeat split. Qed.
(** The other options, on runs: --args, --empty-on-undefined-variable, -I, -o -. *)
Theorem c75_ex_options : forall env checks,
  let c stdin t := match command 60 (computer env checks stdin true) t with Ended c o _ => Some (c, o) | _ => None end in
  c "@include f;a{b:$x}" (mkOpt [] [] [] false false false true false None None None) = Some (1, None)
  /\ c "a{b:c $x}" (mkOpt [] [] [] false false false true true None None None) = Some (0, Some (Screen, zs "a{b:c}"))
  /\ c "@import ""a.css"";" (mkOpt [] [] [zs "/home/u"] false false false true false (Some (zs "-")) None None) = Some (0, Some (Screen, zs "a{b:c}"))
  /\ c "@import ""a.css"";" (mkOpt [] [] [zs "/home/u"; zs "-"] false false false true false (Some (zs "-")) None None) = Some (0, Some (Screen, zs "@import ""a.css"";"))
  /\ c "a{b:$_csspp_args[1]}d{e:$_csspp_args[2]}" (mkOpt [] [zs "q"; zs "r"] [] false false false true false None None None) = Some (0, Some (Screen, zs "a{b:""q""}d{e:""r""}")).
Proof. intros. vm_compute. repeat split; reflexivity. Qed.
(** The hypotheses of c75_passes_start are met: what is read from the input. *)
Example c75_ex_start : forall env checks, let e := computer env checks "a{b:c}" true in
  m_now e = zs "11" ++ zs "/" ++ zs "18" ++ zs "/" ++ zs "2026" ++ zs "20" ++ zs ":" ++ zs "15" ++ zs ":" ++ zs "07"
  /\ exists root h ms c, reads e no_options root h ms /\ nth_error h root = Some c /\ c_type c = LIST /\ c_ch c <> [].
Proof.
  intros env checks e. split; [reflexivity|]. eexists _, _, _, _. split. { split; [now vm_compute|]. eexists. split; [reflexivity|]. vm_compute. reflexivity. }
  split; [reflexivity|]. split; [reflexivity|discriminate].
Qed.
