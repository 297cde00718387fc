(** * The search of files (C44) *)

From Coq Require Import String ZArith List Bool Lia Arith ZifyBool Floats.SpecFloat.
From Verif Require Import Base NodeHeap NodeProofs Compiler CompRun Props_If.
Import ListNotations.
Open Scope string_scope. Open Scope list_scope. Open Scope Z_scope.
Ltac Zify.zify_post_hook ::= idtac.

(** The file [name] in the directory [dir]; the empty directory is the current one. *)
Definition in_directory (dir name : str) : str := if str_eqb dir [] then name else dir ++ [47] ++ name.
(** The directories that are searched. *)
Definition directories (s : kst) : list str := if match k_paths s with [] => true | _ => false end then [zs "/usr/lib/csspp/scripts"] else k_paths s.
Definition absolute (name : str) : Prop := exists r, name = 47 :: r.

Lemma in_directory_eq p name : match p with [] => name | _ => p ++ zs "/" ++ name end = in_directory p name.
Proof. destruct p; reflexivity. Qed.
Lemma first_spec w name : forall l,
  (exists pre p post, l = pre ++ p :: post /\ (forall q, In q pre -> w_access w (in_directory q name) = false)
     /\ w_access w (in_directory p name) = true /\ first_file w l name = in_directory p name)
  \/ ((forall q, In q l -> w_access w (in_directory q name) = false) /\ first_file w l name = []).
Proof.
  induction l as [|p l IH]; cbn [first_file]; [right; split; [intros q []|reflexivity]|]. rewrite in_directory_eq.
  destruct (w_access w (in_directory p name)) eqn:A.
  - left. exists [], p, l. split; [reflexivity|]. split; [intros q []|]. auto.
  - destruct IH as [(pre & q & post & -> & N & Q & F)|(N & F)].
    + left. exists (p :: pre), q, post. split; [reflexivity|]. split; [intros r [<-|I]; auto|]. auto.
    + right. split; [intros r [<-|I]; auto|auto].
Qed.
Lemma find_relative w name s : name <> [] -> ~ absolute name ->
  find_file w name s = Ret (first_file w (directories s) name) (mkK (k_heap s) (k_msgs s) (directories s)).
Proof.
  intros N A. destruct name as [|c r]; [congruence|]. unfold find_file. destruct (Z.eqb_spec c 47) as [->|]; [exfalso; apply A; now exists r|].
  unfold directories. destruct s as [h m [|p ps]]; reflexivity.
Qed.

(** A relative name: the file of the first directory that has one. *)
Theorem c44_first_directory : forall w name s pre dir post, name <> [] -> ~ absolute name ->
  directories s = pre ++ dir :: post ->
  (forall d, In d pre -> w_access w (in_directory d name) = false) -> w_access w (in_directory dir name) = true ->
  exists s', find_file w name s = Ret (in_directory dir name) s'
    /\ k_heap s' = k_heap s /\ k_msgs s' = k_msgs s /\ directories s' = directories s.
Proof.
  intros w name s pre dir post N A D Pre Dir. rewrite find_relative by auto. eexists. split.
  - f_equal. destruct (first_spec w name (directories s)) as [(pre' & p & post' & E & N' & P & F)|(N' & F)].
    + rewrite F. rewrite D in E. clear - E Pre Dir N' P. revert pre' E N'. induction pre as [|a pre IH]; intros [|b pre'] E N'; cbn in E.
      * congruence.
      * injection E as -> ->. rewrite (N' b) in Dir by now left. discriminate.
      * injection E as -> _. rewrite (Pre p) in P by now left. discriminate.
      * injection E as -> E. apply (IH (fun d I => Pre d (or_intror I)) pre' E (fun d I => N' d (or_intror I))).
    + rewrite N' in Dir; [discriminate|]. rewrite D. apply in_or_app. right. now left.
  - cbn. split; [reflexivity|]. split; [reflexivity|]. unfold directories. destruct (k_paths s); reflexivity.
Qed.
(** No such directory: nothing. *)
Theorem c44_not_found : forall w name s, name <> [] -> ~ absolute name ->
  (forall d, In d (directories s) -> w_access w (in_directory d name) = false) ->
  exists s', find_file w name s = Ret [] s' /\ k_heap s' = k_heap s /\ k_msgs s' = k_msgs s /\ directories s' = directories s.
Proof.
  intros w name s N A D. rewrite find_relative by auto. eexists. split.
  - f_equal. destruct (first_spec w name (directories s)) as [(pre & p & post & E & N' & P & F)|(N' & F)]; [|exact F].
    rewrite D in P; [discriminate|]. rewrite E. apply in_or_app. right. now left.
  - cbn. split; [reflexivity|]. split; [reflexivity|]. unfold directories. destruct (k_paths s); reflexivity.
Qed.
(** An absolute name: itself or nothing, whatever the directories are. *)
Theorem c44_absolute : forall w name s, absolute name ->
  find_file w name s = Ret (if w_access w name then name else []) s.
Proof. intros w name s (r & ->). reflexivity. Qed.
Theorem c44_empty : forall w s, find_file w [] s = Ret [] s.
Proof. reflexivity. Qed.
(** So a file which is found can be read. *)
Theorem c44_readable : forall w name s f s', find_file w name s = Ret f s' -> f <> [] -> w_access w f = true.
Proof.
  intros w name s f s' F N. destruct name as [|c r]; [injection F as <- _; congruence|]. destruct (Z.eq_dec c 47) as [->|A].
  - rewrite c44_absolute in F by now exists r. injection F as <- _. destruct (w_access w (47 :: r)) eqn:E; [auto|congruence].
  - rewrite find_relative in F; [|discriminate|intros (q & [= E _]); auto]. injection F as <- _.
    destruct (first_spec w (c :: r) (directories s)) as [(pre & p & post & E & N' & P & Fi)|(N' & Fi)]; rewrite Fi in *; [auto|congruence].
Qed.

(** The directories over time: compiler::clear_paths, compiler::add_path
    (compiler.cpp:113-121, 518-526); the constructor (compiler.cpp:413-417). *)
Inductive path_event := Clear | Add (dir : str) | Find (name : str).
Definition clear_paths : C unit := fun s => Ret tt (mkK (k_heap s) (k_msgs s) []).
Definition add_path (p : str) : C unit := fun s => Ret tt (mkK (k_heap s) (k_msgs s) (k_paths s ++ [p])).
Fixpoint path_history (w : world) (l : list path_event) : C (list str) :=
  match l with
  | [] => ret []
  | Clear :: r => clear_paths ;;; path_history w r
  | Add p :: r => add_path p ;;; path_history w r
  | Find n :: r => f <- find_file w n ;; fs <- path_history w r ;; ret (f :: fs)
  end.
Definition new_compiler : kst := mkK [] [] [zs "/usr/lib/csspp/scripts"].
(** What is expected: the directories added since the last [Clear], preceded by
    the default one if there was no [Clear]. *)
Fixpoint wanted (w : world) (dirs : list str) (l : list path_event) : list str :=
  match l with
  | [] => []
  | Clear :: r => wanted w [] r
  | Add p :: r => wanted w (dirs ++ [p]) r
  | Find n :: r =>
      (match n with
       | [] => []
       | c :: _ => if c =? 47 then (if w_access w n then n else [])
                   else match filter (fun d => w_access w (in_directory d n)) dirs with d :: _ => in_directory d n | [] => [] end
       end) :: wanted w dirs r
  end.
(** At least one directory is added between a [Clear] and a search. *)
Fixpoint never_empty (e : bool) (l : list path_event) : Prop :=
  match l with
  | [] => True
  | Clear :: r => never_empty true r
  | Add _ :: r => never_empty false r
  | Find _ :: r => e = false /\ never_empty e r
  end.
Lemma first_filter w n : forall l, first_file w l n = match filter (fun d => w_access w (in_directory d n)) l with d :: _ => in_directory d n | [] => [] end.
Proof.
  induction l as [|p l IH]; cbn [first_file filter]; [reflexivity|]. rewrite in_directory_eq. destruct (w_access w (in_directory p n)); [reflexivity|exact IH].
Qed.
Theorem c44_history_partial : forall w l, never_empty false l ->
  exists s, path_history w l new_compiler = Ret (wanted w [zs "/usr/lib/csspp/scripts"] l) s.
Proof.
  intros w l NE.
  enough (G : forall l e s, never_empty e l -> (e = false -> k_paths s <> []) -> exists s', path_history w l s = Ret (wanted w (k_paths s) l) s')
    by (apply (G l false new_compiler NE); discriminate).
  clear l NE. induction l as [|[|p|n] l IH]; intros e s NE P; cbn [path_history wanted never_empty] in *; [eexists; reflexivity| | |].
  - unfold bind at 1, clear_paths. destruct (IH true (mkK (k_heap s) (k_msgs s) []) NE) as (s' & E); [discriminate|]. exists s'. exact E.
  - unfold bind at 1, add_path. destruct (IH false (mkK (k_heap s) (k_msgs s) (k_paths s ++ [p])) NE) as (s' & E); [intros _; cbn; destruct (k_paths s); discriminate|]. exists s'. exact E.
  - destruct NE as [-> NE]. specialize (P eq_refl).
    assert (F : find_file w n s = Ret (match n with
       | [] => []
       | c :: _ => if c =? 47 then (if w_access w n then n else [])
                   else match filter (fun d => w_access w (in_directory d n)) (k_paths s) with d :: _ => in_directory d n | [] => [] end
       end) s).
    { destruct n as [|c r]; [reflexivity|]. unfold find_file. destruct (Z.eqb_spec c 47); [reflexivity|]. destruct s as [h m [|q ps]]; [cbn in P; congruence|]. cbn [k_paths k_heap k_msgs]. now rewrite <- first_filter. }
    rewrite (b_ret _ _ _ _ _ F). destruct (IH false s NE (fun _ => P)) as (s' & E). rewrite (b_ret _ _ _ _ _ E). exists s'. reflexivity.
Qed.
(** Otherwise the default directory comes in and stays: after clear_paths(), a
    search and add_path("b"), the file f of the default directory hides b/f. *)
Definition two_files : world :=
  mkW (w_libm nowhere) (w_functions nowhere) (fun f => str_eqb f (zs "b/f") || str_eqb f (zs "/usr/lib/csspp/scripts/f")) (w_load nowhere) (w_text nowhere).
Theorem c44_default_stays_refuted : exists s,
  path_history two_files [Clear; Find (zs "g"); Add (zs "b"); Find (zs "f")] new_compiler = Ret [[]; zs "/usr/lib/csspp/scripts/f"] s
  /\ wanted two_files [zs "/usr/lib/csspp/scripts"] [Clear; Find (zs "g"); Add (zs "b"); Find (zs "f")] = [[]; zs "b/f"].
Proof. eexists. split; [vm_compute; reflexivity|vm_compute; reflexivity]. Qed.
Example c44_ex : exists s', find_file two_files (zs "f") (mkK [] [] [zs "a"; zs "b"; zs "/usr/lib/csspp/scripts"]) = Ret (zs "b/f") s'.
Proof. eexists. vm_compute. reflexivity. Qed.
Example c44_history_ex : never_empty false [Find (zs "g"); Clear; Add (zs "b"); Find (zs "f")]. Proof. cbn. auto. Qed.

(** @import and the validation scripts also try the name with ".scss", but not
    always: @import "abc" does not find abc.scss, because only the names of
    more than five bytes are tried; *)
Definition has_scss (name : str) : Prop := exists r, name = r ++ zs ".scss".
Lemma last5_scss name : (5 <= length name)%nat -> str_eqb (last5 name) dot_scss = true <-> has_scss name.
Proof.
  intro L. rewrite str_eqb_spec. unfold last5, has_scss. split.
  - intro E. exists (firstn (length name - 5) name). change (zs ".scss") with dot_scss. rewrite <- E. symmetry. apply firstn_skipn.
  - intros (r & ->). change (zs ".scss") with dot_scss. rewrite app_length. change (length dot_scss) with 5%nat. rewrite Nat.add_sub. rewrite skipn_app, skipn_all, Nat.sub_diag. reflexivity.
Qed.
Theorem c44_import_extension : forall w name s s1, (5 < length name)%nat -> ~ has_scss name ->
  find_file w name s = Ret [] s1 -> find_import w name s = find_file w (name ++ zs ".scss") s1.
Proof.
  intros w name s s1 L N F. unfold find_import. rewrite (b_ret _ _ _ _ _ F).
  replace (str_eqb (last5 name) dot_scss) with false by (symmetry; apply not_true_is_false; rewrite last5_scss; [auto|lia]).
  replace (5 <? Z.of_nat (length name)) with true by lia. reflexivity.
Qed.
Theorem c44_import_exact : forall w name s f s1, find_file w name s = Ret f s1 -> f <> [] -> find_import w name s = Ret f s1.
Proof. intros w name s f s1 F N. unfold find_import. rewrite (b_ret _ _ _ _ _ F). destruct f; [congruence|reflexivity]. Qed.
Definition one_file (f : str) : world :=
  mkW (w_libm nowhere) (w_functions nowhere) (fun g => str_eqb g f) (w_load nowhere) (w_text nowhere).
Theorem c44_short_import_refuted : forall dir, exists s',
  find_import (one_file (in_directory dir (zs "abcde.scss"))) (zs "abcde") (mkK [] [] [dir]) = Ret [] s'.
Proof.
  intro dir. exists (mkK [] [] [dir]). unfold find_import. erewrite b_ret with (x := @nil Z); [reflexivity|].
  rewrite find_relative; [|discriminate|intros (r & [=])]. cbn [k_heap k_msgs directories k_paths]. unfold directories. cbn [k_paths]. f_equal. rewrite first_filter. cbn [filter one_file w_access].
  destruct (str_eqb (in_directory dir (zs "abcde")) _) eqn:E; [|reflexivity].
  apply str_eqb_spec in E. apply (f_equal (@length Z)) in E. unfold in_directory in E. destruct (str_eqb dir []); [discriminate|]. rewrite !app_length in E. cbn in E. lia.
Qed.
(** and a validation script whose name has less than five bytes and does not exist throws. *)
Theorem c44_short_validation_refuted : forall w name s s1, (length name < 5)%nat ->
  find_file w name s = Ret [] s1 -> find_validation w name s = Throw XChildRange s1.
Proof. intros w name s s1 L F. unfold find_validation. rewrite (b_ret _ _ _ _ _ F). replace (Z.of_nat (length name) <? 5) with true by lia. reflexivity. Qed.
(** The other validation scripts: the name itself, or else the name with
    ".scss" unless it already has this extension. *)
Theorem c44_validation_exact : forall w name s f s1, find_file w name s = Ret f s1 -> f <> [] -> find_validation w name s = Ret f s1.
Proof. intros w name s f s1 F N. unfold find_validation. rewrite (b_ret _ _ _ _ _ F). destruct f; [congruence|reflexivity]. Qed.
Theorem c44_validation_extension : forall w name s s1, (5 <= length name)%nat -> ~ has_scss name ->
  find_file w name s = Ret [] s1 -> find_validation w name s = find_file w (name ++ zs ".scss") s1.
Proof.
  intros w name s s1 L N F. unfold find_validation. rewrite (b_ret _ _ _ _ _ F).
  replace (str_eqb (last5 name) dot_scss) with false by (symmetry; apply not_true_is_false; rewrite last5_scss; [auto|lia]).
  replace (Z.of_nat (length name) <? 5) with false by lia. reflexivity.
Qed.
Theorem c44_one_extension : forall w name s s1, has_scss name -> find_file w name s = Ret [] s1 ->
  find_validation w name s = Ret [] s1 /\ find_import w name s = Ret [] s1.
Proof.
  intros w name s s1 H F.
  assert (L : (5 <= length name)%nat) by (destruct H as (r & ->); rewrite app_length; cbn; lia).
  apply (last5_scss name L) in H. unfold find_validation, find_import. rewrite !(b_ret _ _ _ _ _ F), H.
  replace (Z.of_nat (length name) <? 5) with false by lia. rewrite andb_false_r. split; reflexivity.
Qed.
Example c44_validation_ex : exists s', ~ has_scss (zs "validation/url") /\
  find_file (one_file (zs "a/validation/url.scss")) (zs "validation/url") (mkK [] [] [zs "a"]) = Ret [] s'
  /\ find_validation (one_file (zs "a/validation/url.scss")) (zs "validation/url") (mkK [] [] [zs "a"]) = Ret (zs "a/validation/url.scss") s'.
Proof.
  eexists. split; [|split; [vm_compute; reflexivity|vm_compute; reflexivity]].
  intro H. apply (last5_scss (zs "validation/url")) in H; [discriminate|cbn; lia].
Qed.
