(** * C75: the tool reads the files it was given

    The names are put in a text of @imports (csspp.cpp:436-476). A name without
    quote, backslash or line terminator, in such a directory, is what the lexer
    reads back; a quote ends the name. *)

From Coq Require Import String ZArith List Bool Lia.
From Verif Require Import Base Utf8Spec TextSpec LexSpec OutText RoundString Props_Round Tool.
Import ListNotations.
Open Scope string_scope. Open Scope list_scope. Open Scope Z_scope.
Ltac Zify.zify_post_hook ::= idtac.
(** UTF-8 without quote (34), backslash (92) and line terminators (and NUL, U+FFFD, non-characters). *)
Definition plain_path (n : str) : Prop := exists l, Forall inline l /\ ~ In 34 l /\ ~ In 92 l /\ n = utf8s l.
(** From the current directory, unless absolute (47 is the slash). *)
Definition full_path (cwd n : str) : str := if nth 0 n 0 =? 47 then n else cwd ++ zs "/" ++ n.
(** The line imports this file: behind the at-keyword the lexer reads the string
    with this very name, then what follows the string. *)
Definition imports (lm : libm) (file line : str) : Prop :=
  exists u, line = zs "@import " ++ u /\ forall rest p, Forall clean_char rest ->
    exists tok, reads_token lm (u ++ utf8s rest) p tok (zs ";" ++ [10] ++ rest) /\ n_type tok = STRING /\ n_str tok = file.

Lemma no_quote l : Forall inline l -> ~ In 34 l -> Forall (fun b => b <> 34) (utf8s l).
Proof.
  induction l as [|c l IH]; intros F N; [constructor|]. inversion F as [|? ? Hc Hl]; subst. cbn [utf8s flat_map].
  apply Forall_app. split; [|apply IH; [assumption|cbn in N; tauto]].
  apply Forall_forall. intros b Hb E. rewrite E in Hb. destruct Hc as ((S & Z0 & _) & _). unfold scalar in S.
  destruct (Z.lt_ge_cases c 128).
  - rewrite Utf8Proofs.utf8_ascii in Hb by lia. destruct Hb as [Hb|[]]. apply N. now left.
  - apply utf8_bytes_high in Hb; lia.
Qed.
Lemma no_count l : Forall (fun b => b <> 34) l -> count 34 l = 0%nat /\ quote_with 34 l = l.
Proof.
  induction 1 as [|b l Hb _ (I & J)]; [now split|]. cbn [count quote_with].
  destruct (b =? 34) eqn:E; [lia|]. now rewrite J.
Qed.
Lemma written l : Forall inline l -> ~ In 34 l -> output_string (utf8s l) = [34] ++ utf8s l ++ [34].
Proof.
  intros F N. destruct (no_count _ (no_quote l F N)) as (A & B). unfold output_string.
  rewrite c_str_plain. 2:{ apply utf8s_nonzero. eapply Forall_impl; [|exact F]. intros c ((S & Z0 & _) & _). unfold scalar in S. lia. }
  rewrite A. cbn [Nat.leb]. now rewrite B.
Qed.
Lemma plain_full cwd n : plain_path cwd -> plain_path n -> plain_path (full_path cwd n).
Proof.
  intros (a & A1 & A2 & A3 & ->) (b & B1 & B2 & B3 & ->). unfold full_path. destruct (nth 0 (utf8s b) 0 =? 47); [now exists b|].
  exists (a ++ 47 :: b). split.
  { apply Forall_app. split; [assumption|]. constructor; [|assumption]. repeat split; unfold scalar, nonchar; try lia. intros [?|?]; discriminate. }
  split; [rewrite in_app_iff; cbn; intros [?|[?|?]]; tauto || discriminate|].
  split; [rewrite in_app_iff; cbn; intros [?|[?|?]]; tauto || discriminate|].
  unfold utf8s. now rewrite flat_map_app.
Qed.
Lemma line_imports lm file : plain_path file -> imports lm file (zs "@import """ ++ file ++ zs """;" ++ [10]).
Proof.
  intros (l & F & N & B & ->). exists ([34] ++ utf8s l ++ [34] ++ [59; 10]). split; [reflexivity|]. intros rest p C.
  destruct (c10_strings_partial lm l ([59; 10] ++ rest) p F B) as (tok & R & T & S).
  { apply Forall_app. split; [|assumption]. repeat constructor; unfold scalar; lia. }
  exists tok. split; [|now split]. rewrite (written l F N) in R.
  replace (([34] ++ utf8s l ++ [34] ++ [59; 10]) ++ utf8s rest) with (([34] ++ utf8s l ++ [34]) ++ utf8s ([59; 10] ++ rest)); [exact R|].
  unfold utf8s at 2. rewrite flat_map_app. change (flat_map utf8 [59; 10]) with [59; 10]. now rewrite <- !app_assoc.
Qed.
(** One line for each file, in their order. *)
Theorem c75_names : forall lm cwd names, plain_path cwd -> Forall plain_path names -> ~ In [] names -> ~ In (zs "-") names ->
  exists lines, import_text cwd names = inl (concat lines)
    /\ Forall2 (fun n line => imports lm (full_path cwd n) line) names lines.
Proof.
  intros lm cwd names C. induction names as [|n names IH]; intros F E D; [now exists []|].
  inversion F as [|? ? Fn Fl]; subst. destruct IH as (lines & T & L); [assumption|cbn in E; tauto|cbn in D; tauto|].
  exists ((zs "@import """ ++ full_path cwd n ++ zs """;" ++ [10]) :: lines). split.
  - cbn [import_text]. destruct n as [|c n]; [exfalso; apply E; now left|].
    destruct (str_eqb (c :: n) (zs "-")) eqn:Q; [apply str_eqb_spec in Q; exfalso; apply D; now left|].
    rewrite T. cbn [concat]. unfold full_path. cbn [nth]. now rewrite <- !app_assoc.
  - constructor; [|assumption]. apply line_imports. now apply plain_full.
Qed.
(** One file with a quote in its name: two imports of two other files. *)
Theorem c75_quoted_name_refuted : forall lm, exists tok,
  import_text (zs "/") [zs "/a"";@import ""b"] = inl (zs "@import ""/a"";@import ""b"";" ++ [10])
  /\ reads_token lm (zs """/a"";@import ""b"";" ++ [10]) (new_position 1 1) tok (zs ";@import ""b"";" ++ [10]) /\ n_type tok = STRING /\ n_str tok = zs "/a".
Proof.
  intro lm. destruct (c10_strings_partial lm (zs "/a") (zs ";@import ""b"";" ++ [10]) (new_position 1 1)) as (tok & R & T & S).
  - vm_compute zs. repeat (apply Forall_cons; [repeat split; unfold scalar, nonchar; try lia; intros [?|?]; discriminate|]). apply Forall_nil.
  - cbn. intros [?|[?|?]]; [discriminate|discriminate|assumption].
  - vm_compute app. repeat (apply Forall_cons; [repeat split; unfold scalar; try lia|]). apply Forall_nil.
  - exists tok. split; [reflexivity|]. split; [exact R|]. now split.
Qed.
Example c75_ex_names : plain_path (zs "/home/u") /\ Forall plain_path [zs "a.scss"; zs "/b"; [195; 169]] /\ full_path (zs "/home/u") [195; 169] = zs "/home/u/" ++ [195; 169]
  /\ import_text (zs "/home/u") [zs "a.scss"; zs "/b"] = inl (concat [zs "@import ""/home/u/a.scss"";" ++ [10]; zs "@import ""/b"";" ++ [10]]).
Proof.
  assert (P : forall l, Forall (fun c => 34 < c < 92 \/ 92 < c < 300) l -> plain_path (utf8s l)).
  { intros l F. exists l. split; [|split; [|split; [|reflexivity]]].
    - eapply Forall_impl; [|exact F]. intros c [H|H]; repeat split; unfold scalar, nonchar; try lia; rewrite Z.mod_small by lia; lia.
    - intro I. rewrite Forall_forall in F. specialize (F _ I). lia.
    - intro I. rewrite Forall_forall in F. specialize (F _ I). lia. }
  split; [|split; [|split; reflexivity]].
  - apply (P (zs "/home/u")). vm_compute zs. repeat (apply Forall_cons; [lia|]). apply Forall_nil.
  - apply Forall_cons; [|apply Forall_cons; [|apply Forall_cons; [|apply Forall_nil]]].
    + apply (P (zs "a.scss")). vm_compute zs. repeat (apply Forall_cons; [lia|]). apply Forall_nil.
    + apply (P (zs "/b")). vm_compute zs. repeat (apply Forall_cons; [lia|]). apply Forall_nil.
    + apply (P [233]). repeat (apply Forall_cons; [lia|]). apply Forall_nil.
Qed.
Print Assumptions c75_names.
