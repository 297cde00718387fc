(** * Properties C18 and C19: the error log *)

From Coq Require Import String ZArith List Bool Lia ZifyBool.
From Verif Require Import Base DecText ErrorLog ErrorSpec.
Import ListNotations.
Open Scope string_scope. Open Scope list_scope. Open Scope Z_scope.
Ltac Zify.zify_post_hook ::= idtac.

Definition opts_of (s : elog) : opts := mkOpts (el_as_errors s) (el_hide s) (el_debug s) (el_verbose s).

Definition bump (k z : Z) : Z := (z + k) mod 4294967296.
Definition copies (x : opts * emode) : list emode :=
  if is_shown x then if o_verbose (fst x) then [snd x; snd x] else [snd x] else [].

Lemma send_mode_spec s m : 0 <= el_errors s < 4294967296 -> 0 <= el_warnings s < 4294967296 ->
  let x := (opts_of s, m) in let s' := send_mode s m in
  opts_of s' = opts_of s
  /\ el_errors s' = bump (if is_error x then 1 else 0) (el_errors s)
  /\ el_warnings s' = bump (if is_warning x then 1 else 0) (el_warnings s)
  /\ map ln_mode (el_out s') = map ln_mode (el_out s) ++ copies x
  /\ el_stream s' = el_stream s.
Proof.
  intros He Hw. cbn zeta. unfold send_mode, bump, count_up, copies, is_error, is_warning, is_shown, print_line, opts_of.
  destruct m; cbn [fst snd o_as_errors o_hide o_debug o_verbose];
    destruct (el_as_errors s) eqn:Ea, (el_hide s) eqn:Eh, (el_debug s) eqn:Ed, (el_verbose s) eqn:Ev;
    cbn; rewrite ?Ea, ?Eh, ?Ed, ?Ev; cbn; rewrite ?map_app, ?app_nil_r, ?Z.add_0_r, ?(Z.mod_small (el_errors s)), ?(Z.mod_small (el_warnings s)) by lia;
    rewrite ?Ea, ?Eh, ?Ed, ?Ev, <- ?app_assoc; auto.
Qed.

Lemma call_spec s c : 0 <= el_errors s < 4294967296 -> 0 <= el_warnings s < 4294967296 ->
  let l := match c with CMode m => [(opts_of s, m)] | _ => [] end in let s' := ecall_run s c in
  opts_of s' = opts_after (opts_of s) c
  /\ el_errors s' = bump (how_many is_error l) (el_errors s)
  /\ el_warnings s' = bump (how_many is_warning l) (el_warnings s)
  /\ map ln_mode (el_out s') = map ln_mode (el_out s) ++ flat_map copies l.
Proof.
  intros He Hw. cbn zeta.
  assert (Z0 : forall z, 0 <= z < 4294967296 -> z = bump 0 z)
    by (intros z Hz; unfold bump; rewrite Z.add_0_r, Z.mod_small; lia).
  destruct c; cbn -[bump]; rewrite ?app_nil_r; auto.
  destruct (send_mode_spec s m He Hw) as (A & B & C & D & _). unfold how_many. cbn [filter]. cbn [flat_map]. rewrite ?app_nil_r.
  rewrite A, B, C, D. destruct (is_error _), (is_warning _); auto.
Qed.

Lemma bump_range k z : 0 <= bump k z < 4294967296.
Proof. apply Z.mod_pos_bound. lia. Qed.
Lemma bump_bump a b z : bump a (bump b z) = bump (b + a) z.
Proof. unfold bump. rewrite Zplus_mod_idemp_l. f_equal. lia. Qed.
Lemma how_many_app f a b : how_many f (a ++ b) = how_many f a + how_many f b.
Proof. unfold how_many. rewrite filter_app, app_length. lia. Qed.

Lemma messages_cons o c l :
  messages o (c :: l) = (match c with CMode m => [(o, m)] | _ => [] end) ++ messages (opts_after o c) l.
Proof. destruct c; reflexivity. Qed.

Lemma calls_spec l : forall s, 0 <= el_errors s < 4294967296 -> 0 <= el_warnings s < 4294967296 ->
  let ms := messages (opts_of s) l in let s' := ecalls_run s l in
  el_errors s' = bump (how_many is_error ms) (el_errors s)
  /\ el_warnings s' = bump (how_many is_warning ms) (el_warnings s)
  /\ map ln_mode (el_out s') = map ln_mode (el_out s) ++ flat_map copies ms.
Proof.
  induction l as [|c l IH]; intros s He Hw; cbn zeta.
  - cbn -[bump]. unfold bump. rewrite !Z.add_0_r, !Z.mod_small, app_nil_r by lia. auto.
  - destruct (call_spec s c He Hw) as (A & B & C & D).
    destruct (IH (ecall_run s c)) as (E & F & G);
      [rewrite B; apply bump_range|rewrite C; apply bump_range|].
    rewrite messages_cons, !how_many_app, flat_map_app. unfold ecalls_run in *. cbn [fold_left].
    rewrite A in *. rewrite E, F, G, B, C, D, !bump_bump, <- app_assoc. auto.
Qed.

(** ** C18 *)

(** After any sequence of calls, the counters are the number of errors and of
    warnings of the sequence (32 bit counters). *)
Theorem c18_counts : forall s l, 0 <= el_errors s < 4294967296 -> 0 <= el_warnings s < 4294967296 ->
  let ms := messages (mkOpts (el_as_errors s) (el_hide s) (el_debug s) (el_verbose s)) l in
  let s' := ecalls_run s l in
  el_errors s' = (el_errors s + how_many is_error ms) mod 4294967296
  /\ el_warnings s' = (el_warnings s + how_many is_warning ms) mod 4294967296.
Proof. intros s l He Hw. destruct (calls_spec l s He Hw) as (A & B & _). auto. Qed.
Print Assumptions c18_counts.

(** Exactly the messages that must be shown are written, in order (twice in
    verbose mode). *)
Theorem c18_shown : forall s l, 0 <= el_errors s < 4294967296 -> 0 <= el_warnings s < 4294967296 ->
  let ms := messages (mkOpts (el_as_errors s) (el_hide s) (el_debug s) (el_verbose s)) l in
  map ln_mode (el_out (ecalls_run s l)) = map ln_mode (el_out s) ++
    flat_map (fun x : opts * emode => if o_verbose (fst x) then [snd x; snd x] else [snd x]) (filter is_shown ms).
Proof.
  intros s l He Hw. destruct (calls_spec l s He Hw) as (_ & _ & ->). cbn zeta. f_equal.
  fold (opts_of s). induction (messages (opts_of s) l) as [|x ms IH]; [reflexivity|].
  cbn [flat_map filter]. unfold copies at 1. destruct (is_shown x); cbn [flat_map]; rewrite IH; reflexivity.
Qed.
Print Assumptions c18_shown.

(** In particular an error is shown whatever the options. *)
Theorem c18_error_always_shown : forall s m, m = EError \/ m = EFatal ->
  exists line, el_out (ecall_run s (CMode m)) = el_out s ++ [line]
    \/ exists line', el_out (ecall_run s (CMode m)) = el_out s ++ [line; line'].
Proof.
  intros s m [-> | ->]; cbn; unfold print_line; cbn; destruct (el_verbose s) eqn:E; cbn; rewrite ?E; cbn;
    rewrite <- ?app_assoc; cbn; eauto.
Qed.
Print Assumptions c18_error_always_shown.

(** The line of a message says where it happened, its kind and its text, and
    it is written to the stream set last (std::cerr, number 0, if none was set);
    in verbose mode it is written to std::cerr too, after a prefix. This is for
    the kinds of messages the options do not hide. *)
Definition kind_word (m : emode) : string :=
  match m with EDebug => "debug" | EError => "error" | EFatal => "fatal" | EInfo => "info" | _ => "warning" end.
Theorem c18_line : forall s file line texts m,
  is_shown (mkOpts (el_as_errors s) (el_hide s) (el_debug s) (el_verbose s), m) = true ->
  let text := file ++ zs "(" ++ int_text line ++ zs "): " ++ zs (kind_word m) ++ zs ": " ++ concat texts in
  el_out (ecalls_run s ([CInstance; CPosition file line] ++ map CText texts ++ [CMode m])) =
  el_out s ++ [mkLine (match el_stream s with Some n => n | None => 0%nat end) m text]
    ++ (if el_verbose s then [mkLine 0%nat m (zs "ERROR CONSOLE OUTPUT -- " ++ text)] else []).
Proof.
  intros s file line texts m Hm text. unfold ecalls_run. rewrite !fold_left_app. cbn [fold_left ecall_run].
  assert (G : forall ts u, let v := fold_left ecall_run (map CText ts) u in
    el_message v = el_message u ++ concat ts /\ el_file v = el_file u /\ el_line v = el_line u
    /\ el_stream v = el_stream u /\ opts_of v = opts_of u /\ el_out v = el_out u).
  { induction ts as [|t ts IH]; intro u; cbn zeta.
    - cbn. rewrite app_nil_r. auto 10.
    - cbn [map fold_left concat]. destruct (IH (ecall_run u (CText t))) as (A & B & C & D & E & F).
      rewrite A, B, C, D, E, F. cbn. rewrite app_assoc. auto 10. }
  match goal with |- context [fold_left ecall_run (map CText texts) ?u] =>
    destruct (G texts u) as (A & B & C & D & E & F); set (v := fold_left ecall_run (map CText texts) u) in * end.
  clearbody v. cbn in A, B, C, D, F. unfold opts_of in E. cbn in E. injection E as E1 E2 E3 E4.
  assert (Q : forall e w, el_out (print_line (set_counts v e w) m) = el_out s ++ [mkLine (match el_stream s with Some n => n | None => 0%nat end) m text]
    ++ (if el_verbose s then [mkLine 0%nat m (zs "ERROR CONSOLE OUTPUT -- " ++ text)] else [])).
  { intros e w. assert (T : line_text (set_counts v e w) m = text).
    { unfold line_text, text. cbn [set_counts el_file el_line el_message]. rewrite A, B, C.
      destruct m; reflexivity || discriminate Hm. }
    unfold print_line. rewrite T. cbn [set_counts el_stream el_verbose add_lines]. rewrite D, E4.
    destruct (el_verbose s); cbn [el_out add_lines set_counts]; rewrite F; [|reflexivity].
    assert (T2 : line_text (add_lines (set_counts v e w) [mkLine (match el_stream s with Some n => n | None => 0%nat end) m text]) m = text) by exact T.
    rewrite T2, <- app_assoc. reflexivity. }
  assert (Q0 : forall u, u = v -> el_out (print_line u m) = el_out s ++ [mkLine (match el_stream s with Some n => n | None => 0%nat end) m text]
    ++ (if el_verbose s then [mkLine 0%nat m (zs "ERROR CONSOLE OUTPUT -- " ++ text)] else [])).
  { intros u ->. rewrite <- (Q (el_errors v) (el_warnings v)). now destruct v. }
  destruct m; try discriminate Hm; cbn [is_shown fst snd o_as_errors o_hide o_debug] in Hm; unfold send_mode; rewrite ?E1, ?E2, ?E3; try apply Q.
  - apply andb_true_iff in Hm. destruct Hm as [H1 H2]. apply negb_true_iff in H2. rewrite H1, H2. now apply Q0.
  - apply negb_true_iff in Hm. rewrite Hm. now apply Q0.
  - destruct (el_as_errors s); [apply Q|]. apply negb_true_iff in Hm. rewrite Hm. apply Q.
Qed.
Print Assumptions c18_line.

Example c18_nontrivial :
  let s := ecalls_run elog_new [CMode EWarning; CHide true; CMode EWarning; CMode EInfo; CMode EError; CAsErrors true; CMode EWarning] in
  el_errors s = 2 /\ el_warnings s = 1 /\ map ln_mode (el_out s) = [EWarning; EError; EWarning].
Proof. repeat split. Qed.

(** ** C19 *)
Lemma prog_spec p : forall s, 0 <= el_errors s < 4294967296 -> 0 <= el_warnings s < 4294967296 ->
  let '(ms, o, t) := outside (opts_of s) p in let '(s', t') := eprog_run s p in
  t' = t /\ opts_of s' = o
  /\ el_errors s' = bump (how_many is_error ms) (el_errors s)
  /\ el_warnings s' = bump (how_many is_warning ms) (el_warnings s).
Proof.
  assert (Z0 : forall z, 0 <= z < 4294967296 -> z = bump 0 z)
    by (intros z Hz; unfold bump; rewrite Z.add_0_r, Z.mod_small; lia).
  induction p as [|c r IH|b IHb r IHr|n b IHb r IHr|]; intros s He Hw; cbn [outside eprog_run].
  - cbn -[bump]. auto.
  - destruct (call_spec s c He Hw) as (A & B & C & _).
    specialize (IH (ecall_run s c)). rewrite A, B, C in IH. specialize (IH (bump_range _ _) (bump_range _ _)).
    destruct (outside (opts_after (opts_of s) c) r) as [[ms o] t]. destruct (eprog_run (ecall_run s c) r) as [s' t'].
    destruct IH as (I1 & I2 & I3 & I4). rewrite !how_many_app, I3, I4, !bump_bump. auto.
  - specialize (IHb (set_message s [] false) He Hw). change (opts_of (set_message s [] false)) with (opts_of s) in IHb.
    destruct (outside (opts_of s) b) as [[ms o] t]. destruct (eprog_run (set_message s [] false) b) as [s1 t1].
    destruct IHb as (-> & Ho & _ & _). cbn [set_message el_errors el_warnings].
    destruct t.
    + split; [reflexivity|]. split; [rewrite <- Ho; reflexivity|]. cbn -[bump]. auto.
    + specialize (IHr (set_counts (set_message s1 [] false) (el_errors s) (el_warnings s)) He Hw).
      change (opts_of (set_counts (set_message s1 [] false) (el_errors s) (el_warnings s))) with (opts_of s1) in IHr.
      rewrite Ho in IHr. exact IHr.
  - specialize (IHb (set_stream (set_message s [] false) (Some n)) He Hw).
    change (opts_of (set_stream (set_message s [] false) (Some n))) with (opts_of s) in IHb.
    destruct (outside (opts_of s) b) as [[ms o] t]. destruct (eprog_run (set_stream (set_message s [] false) (Some n)) b) as [s1 t1].
    destruct IHb as (-> & Ho & E1 & W1). cbn [set_stream set_message el_errors el_warnings] in E1, W1.
    destruct t.
    + split; [reflexivity|]. split; [rewrite <- Ho; reflexivity|]. cbn [set_stream set_message el_errors el_warnings]. auto.
    + assert (R1 : 0 <= el_errors s1 < 4294967296) by (rewrite E1; apply bump_range).
      assert (R2 : 0 <= el_warnings s1 < 4294967296) by (rewrite W1; apply bump_range).
      specialize (IHr (set_stream (set_message s1 [] false) (el_stream s)) R1 R2).
      change (opts_of (set_stream (set_message s1 [] false) (el_stream s))) with (opts_of s1) in IHr.
      rewrite Ho in IHr. cbn [set_stream set_message el_errors el_warnings] in IHr.
      destruct (outside o r) as [[ms2 o2] t2]. destruct (eprog_run _ r) as [s2 t2'].
      destruct IHr as (I1 & I2 & I3 & I4). rewrite !how_many_app, I3, I4, E1, W1, !bump_bump. auto.
  - cbn -[bump]. auto.
Qed.

(** Whatever runs under a counter guard (messages, other guards, exceptions),
    the counters are those of before. *)
Theorem c19_guard : forall s body, let '(s', _) := eprog_run s (PSafe body PDone) in
  el_errors s' = el_errors s /\ el_warnings s' = el_warnings s.
Proof. intros s body. cbn. destruct (eprog_run _ body) as [s1 []]; cbn; auto. Qed.
Print Assumptions c19_guard.

(** The stream guard restores the stream. *)
Theorem c19_stream_guard : forall s n body, let '(s', _) := eprog_run s (PStream n body PDone) in
  el_stream s' = el_stream s.
Proof. intros s n body. cbn. destruct (eprog_run _ body) as [s1 []]; cbn; auto. Qed.
Print Assumptions c19_stream_guard.

(** A program changes the counters by the messages that it sends outside its
    guards... *)
Theorem c19_counts : forall s p, 0 <= el_errors s < 4294967296 -> 0 <= el_warnings s < 4294967296 ->
  let '(ms, _, t) := outside (mkOpts (el_as_errors s) (el_hide s) (el_debug s) (el_verbose s)) p in
  let '(s', t') := eprog_run s p in
  t' = t
  /\ el_errors s' = (el_errors s + how_many is_error ms) mod 4294967296
  /\ el_warnings s' = (el_warnings s + how_many is_warning ms) mod 4294967296.
Proof.
  intros s p He Hw. pose proof (prog_spec p s He Hw) as H. unfold opts_of in H at 1.
  destruct (outside _ p) as [[ms o] t]. destruct (eprog_run s p) as [s' t'].
  destruct H as (A & _ & B & C). auto.
Qed.
Print Assumptions c19_counts.

(** ... and the detector reports exactly that, as long as the counters did not
    make a full turn. *)
Theorem c19_detector : forall s p, 0 <= el_errors s < 4294967296 -> 0 <= el_warnings s < 4294967296 ->
  let '(ms, _, _) := outside (mkOpts (el_as_errors s) (el_hide s) (el_debug s) (el_verbose s)) p in
  let '(s', _) := eprog_run s p in
  (how_many is_error ms < 4294967296 -> (error_happened s s' = true <-> exists x, In x ms /\ is_error x = true))
  /\ (how_many is_warning ms < 4294967296 -> (warning_happened s s' = true <-> exists x, In x ms /\ is_warning x = true)).
Proof.
  intros s p He Hw. pose proof (prog_spec p s He Hw) as H. unfold opts_of in H at 1.
  destruct (outside _ p) as [[ms o] t]. destruct (eprog_run s p) as [s' t'].
  destruct H as (_ & _ & B & C). unfold error_happened, warning_happened.
  assert (G : forall f, 0 < how_many f ms <-> exists x, In x ms /\ f x = true).
  { intro f. unfold how_many. split.
    - intro P. destruct (filter f ms) as [|x l] eqn:E; [cbn in P; lia|]. exists x. apply filter_In. rewrite E. now left.
    - intros (x & Hx). apply filter_In in Hx. destruct (filter f ms); [contradiction|]. cbn. lia. }
  assert (K : forall z z' n, 0 <= z < 4294967296 -> z' = bump n z -> 0 <= n < 4294967296 -> (negb (z =? z') = true <-> 0 < n)).
  { intros z z' n Hz -> Hn. unfold bump. destruct (Z.ltb_spec (z + n) 4294967296).
    - rewrite Z.mod_small by lia. lia.
    - replace ((z + n) mod 4294967296) with (z + n - 4294967296); [lia|].
      symmetry. rewrite <- (Z.mod_add _ (-1)) by lia. rewrite Z.mod_small; lia. }
  split; intro L; rewrite <- G; apply K; auto; split; auto; unfold how_many; lia.
Qed.
Print Assumptions c19_detector.

Example c19_nontrivial :
  let p := PCall (CMode EError) (PSafe (PCall (CMode EError) (PSafe (PCall (CMode EWarning) PDone) PDone)) (PCall (CMode EInfo) PDone)) in
  let '(s, t) := eprog_run elog_new p in
  el_errors s = 1 /\ el_warnings s = 0 /\ t = false /\ map ln_mode (el_out s) = [EError; EError; EWarning; EInfo]
  /\ error_happened elog_new s = true.
Proof. repeat split. Qed.
