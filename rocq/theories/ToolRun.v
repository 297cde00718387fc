(** * What the command puts in the variables of the root *)

From Coq Require Import String ZArith List Bool Lia Arith ZifyBool Floats.SpecFloat.
From Verif Require Import Base NodeHeap NodeProofs.
From Verif Require ScopeProofs.
From Verif Require Import Compiler CompRun Tool.
Import ListNotations.
Open Scope string_scope. Open Scope list_scope. Open Scope Z_scope.
Ltac Zify.zify_post_hook ::= idtac.

Lemma at_ext (h l : heap) k : nth_error (h ++ l) (length h + k)%nat = nth_error l k.
Proof. rewrite nth_error_app2 by lia. f_equal. lia. Qed.
Lemma put_ext (h l : heap) k c : put (h ++ l) (length h + k)%nat c = h ++ put l k c.
Proof. induction h as [|x h IH]; [reflexivity|]. cbn. now rewrite IH. Qed.
Lemma put_old (h l : heap) k c : (k < length h)%nat -> put (h ++ l) k c = put h k c ++ l.
Proof. revert k. induction h as [|x h IH]; intros k L; [cbn in L; lia|]. destruct k; [reflexivity|]. cbn in *. now rewrite IH by lia. Qed.
Lemma old_ext (h l : heap) a c : nth_error h a = Some c -> nth_error (h ++ l) a = Some c.
Proof. intro H. rewrite nth_error_app1; [exact H|]. now apply nth_lt in H. Qed.
Lemma run_new_ext h l m ps t p : lift (new_node t p) (mkK (h ++ l) m ps) = Ret (length h + length l)%nat (mkK (h ++ (l ++ [blank t p])) m ps).
Proof. rewrite run_new, app_length, <- app_assoc. reflexivity. Qed.
Lemma run_set_string_ext h l m ps k c v : nth_error l k = Some c -> has_str (c_type c) = true ->
  lift (set_string (length h + k)%nat v) (mkK (h ++ l) m ps) = Ret tt (mkK (h ++ put l k (with_str c v)) m ps).
Proof. intros E T. rewrite (run_set_string _ _ _ _ c); [now rewrite put_ext| |exact T]. now rewrite at_ext. Qed.
Lemma run_add_ext h l m ps k c x cx : nth_error l k = Some c -> has_children (c_type c) = true ->
  nth_error l x = Some cx -> c_type cx <> EOF_TOKEN -> c_type cx <> WHITESPACE ->
  lift (add_child (length h + k)%nat (length h + x)%nat) (mkK (h ++ l) m ps) = Ret tt (mkK (h ++ put l k (with_ch c (c_ch c ++ [(length h + x)%nat]))) m ps).
Proof. intros E T X N1 N2. rewrite (run_add _ _ _ _ c) with (k := cx); [now rewrite put_ext| | | | |]; try assumption; now rewrite at_ext. Qed.

(** A text in a variable of the root: a list of the variable and of the string. *)
Definition str_cell (t : ntype) (p : position) (v : str) : cell := with_str (blank t p) v.
Definition one_text (root : addr) (p : position) (name : string) (v : str) (x : ctx) : C unit :=
  a <- lift (new_node STRING p) ;; lift (set_string a v) ;;; global_variable x p (zs name) a.
Lemma run_one_text root parents q h m ps c p name v : nth_error h root = Some c ->
  one_text root p name v (mkX root parents q) (mkK h m ps) =
  Ret tt (mkK (put h root (with_vars c (map_set (c_vars c) (zs name) (length h + 2)%nat))
                 ++ [str_cell STRING p v; str_cell VARIABLE p (zs name); with_ch (blank LIST p) [(length h + 1)%nat; (length h + 0)%nat]]) m ps).
Proof.
  intro H. unfold one_text, global_variable, state_set_variable. rewrite <- (app_nil_r h) at 1.
  rewrite (b_ret _ _ _ _ _ (run_new_ext h [] m ps STRING p)). cbn [app length].
  rewrite (b_ret _ _ _ _ _ (run_set_string_ext h [blank STRING p] m ps 0 (blank STRING p) v eq_refl eq_refl)). cbn [put]. fold (str_cell STRING p v).
  rewrite (b_ret _ _ _ _ _ (run_new_ext h [str_cell STRING p v] m ps VARIABLE p)). cbn [app length].
  rewrite (b_ret _ _ _ _ _ (run_set_string_ext h [str_cell STRING p v; blank VARIABLE p] m ps 1 (blank VARIABLE p) (zs name) eq_refl eq_refl)). cbn [put]. fold (str_cell VARIABLE p (zs name)).
  rewrite (b_ret _ _ _ (zs name) (mkK (h ++ [str_cell STRING p v; str_cell VARIABLE p (zs name)]) m ps)); [|rewrite (run_string _ _ _ _ (str_cell VARIABLE p (zs name))); [reflexivity|now rewrite at_ext|reflexivity]].
  rewrite (b_ret _ _ _ p (mkK (h ++ [str_cell STRING p v; str_cell VARIABLE p (zs name)]) m ps)); [|rewrite (run_pos _ _ _ _ (str_cell STRING p v)); [reflexivity|now rewrite at_ext]].
  rewrite (b_ret _ _ _ _ _ (run_new_ext h [str_cell STRING p v; str_cell VARIABLE p (zs name)] m ps LIST p)). cbn [app length].
  erewrite b_ret; [|apply (run_add_ext h [str_cell STRING p v; str_cell VARIABLE p (zs name); blank LIST p] m ps 2 (blank LIST p) 1 (str_cell VARIABLE p (zs name))); reflexivity || discriminate].
  cbn [put app c_ch blank with_ch].
  erewrite b_ret; [|eapply (run_add_ext h _ m ps 2 _ 0 (str_cell STRING p v)); reflexivity || discriminate].
  cbn [put app c_ch blank with_ch]. rewrite bind_ret. cbn [x_root]. rewrite (run_set_variable _ _ _ root c); [|now apply old_ext].
  rewrite put_old by (now apply nth_lt in H). reflexivity.
Qed.

(** What is kept when variables of these names are set in the root: all other
    nodes, all other variables of the root. *)
Definition kept (h h' : heap) (root : addr) (names : list string) : Prop :=
  (forall a d, a <> root -> nth_error h a = Some d -> nth_error h' a = Some d)
  /\ forall c, nth_error h root = Some c -> exists c', nth_error h' root = Some c' /\ c_type c' = c_type c
     /\ forall n, ~ In n (map zs names) -> map_get (c_vars c') n = map_get (c_vars c) n.
Lemma kept_trans h1 h2 h3 root a b : kept h1 h2 root a -> kept h2 h3 root b -> kept h1 h3 root (a ++ b).
Proof.
  intros (A & B) (C & D). split; [intros; apply C; [assumption|]; now apply A|]. intros c H. destruct (B c H) as (c2 & H2 & T2 & V2). destruct (D c2 H2) as (c3 & H3 & T3 & V3).
  exists c3. split; [exact H3|]. split; [congruence|]. intros n N. rewrite map_app, in_app_iff in N. rewrite V3, V2 by tauto. reflexivity.
Qed.
Lemma kept_set h root c l v n tail (L : nth_error h root = Some c) : kept h (put h root (with_vars (with_ch c l) (map_set (c_vars c) (zs n) v)) ++ tail) root [n].
Proof.
  split; [intros a d N H; apply old_ext; rewrite put_other; [exact H|congruence]|]. intros c0 H. rewrite L in H. injection H as <-.
  eexists. split; [apply old_ext; apply put_same; now apply nth_lt in L|]. split; [reflexivity|]. intros m M. cbn [c_vars with_vars]. rewrite ScopeProofs.map_set_get.
  destruct (str_eqb m (zs n)) eqn:E; [|reflexivity]. apply str_eqb_spec in E. subst m. exfalso. apply M. now left.
Qed.

(** The variable [name] of a node is the text [v]. *)
Definition text_variable (h : heap) (root : addr) (name : string) (v : str) : Prop :=
  exists c l k n s cs, nth_error h root = Some c /\ map_get (c_vars c) (zs name) = Some l /\ l <> root
    /\ nth_error h l = Some k /\ c_type k = LIST /\ c_ch k = [n; s] /\ nth_error h s = Some cs /\ c_type cs = STRING /\ c_str cs = v.
(** One more variable: the others stay. *)
Lemma one_more root parents q h m ps c p name v : nth_error h root = Some c ->
  exists h' c', one_text root p name v (mkX root parents q) (mkK h m ps) = Ret tt (mkK h' m ps)
    /\ nth_error h' root = Some c' /\ c_ch c' = c_ch c /\ c_type c' = c_type c /\ c_pos c' = c_pos c
    /\ text_variable h' root name v
    /\ (forall other w, str_eqb (zs other) (zs name) = false -> text_variable h root other w -> text_variable h' root other w)
    /\ kept h h' root [name].
Proof.
  intro H. rewrite (run_one_text root parents q h m ps c p name v H). pose proof (nth_lt _ _ _ H) as L.
  set (c' := with_vars c (map_set (c_vars c) (zs name) (length h + 2)%nat)). exists (put h root c' ++ [str_cell STRING p v; str_cell VARIABLE p (zs name); with_ch (blank LIST p) [(length h + 1)%nat; (length h + 0)%nat]]), c'.
  set (l := [_; _; _]). split; [reflexivity|].
  assert (R : nth_error (put h root c' ++ l) root = Some c') by (apply old_ext; now apply put_same).
  split; [exact R|]. split; [reflexivity|]. split; [reflexivity|]. split; [reflexivity|]. split; [|split].
  - exists c', (length h + 2)%nat, (with_ch (blank LIST p) [(length h + 1)%nat; (length h + 0)%nat]), (length h + 1)%nat, (length h + 0)%nat, (str_cell STRING p v).
    split; [exact R|]. split; [unfold c'; cbn [c_vars with_vars]; rewrite ScopeProofs.map_set_get; now rewrite str_eqb_refl|]. split; [lia|].
    rewrite <- (put_length h root c'). rewrite !at_ext. unfold l. rewrite put_length. repeat split.
  - intros other w N (c0 & lv & k & n & s & cs & A & B & NR & D & T & F & G & U & V). rewrite H in A. injection A as <-.
    assert (K : forall a d, nth_error h a = Some d -> exists d', nth_error (put h root c' ++ l) a = Some d' /\ c_type d' = c_type d /\ c_ch d' = c_ch d /\ c_str d' = c_str d).
    { intros a d Z. destruct (Nat.eq_dec root a) as [<-|Q]; [exists c'; split; [exact R|]; rewrite H in Z; injection Z as <-; now repeat split|].
      exists d. split; [apply old_ext; now rewrite put_other|]. now repeat split. }
    destruct (K lv k D) as (k' & D' & T' & F' & _). destruct (K s cs G) as (cs' & G' & U' & _ & V').
    exists c', lv, k', n, s, cs'. split; [exact R|]. split; [unfold c'; cbn [c_vars with_vars]; rewrite ScopeProofs.map_set_get, N; exact B|]. split; [exact NR|].
    split; [exact D'|]. split; [congruence|]. split; [congruence|]. split; [exact G'|]. split; congruence.
  - subst c'. destruct c. exact (kept_set h root _ _ _ name l H).
Qed.
Lemma date_steps x now : date_variables x now =
  (p <- pos_of (x_root x) ;;
   one_text (x_root x) p "_csspp_usdate" (sub now 0 10) x ;;; one_text (x_root x) p "_csspp_month" (sub now 0 2) x ;;;
   one_text (x_root x) p "_csspp_day" (sub now 3 2) x ;;; one_text (x_root x) p "_csspp_year" (sub now 6 4) x ;;;
   one_text (x_root x) p "_csspp_time" (sub now 10 8) x ;;; one_text (x_root x) p "_csspp_hour" (sub now 10 2) x ;;;
   one_text (x_root x) p "_csspp_minute" (sub now 13 2) x ;;; one_text (x_root x) p "_csspp_second" (sub now 16 2) x).
Proof. reflexivity. Qed.
Definition date_names : list string :=
  ["_csspp_usdate"; "_csspp_month"; "_csspp_day"; "_csspp_year"; "_csspp_time"; "_csspp_hour"; "_csspp_minute"; "_csspp_second"].
Lemma run_dates root parents q h m ps c now : nth_error h root = Some c ->
  exists h' c', date_variables (mkX root parents q) now (mkK h m ps) = Ret tt (mkK h' m ps)
    /\ nth_error h' root = Some c' /\ c_ch c' = c_ch c /\ c_type c' = c_type c /\ c_pos c' = c_pos c
    /\ text_variable h' root "_csspp_usdate" (sub now 0 10) /\ text_variable h' root "_csspp_month" (sub now 0 2)
    /\ text_variable h' root "_csspp_day" (sub now 3 2) /\ text_variable h' root "_csspp_year" (sub now 6 4)
    /\ text_variable h' root "_csspp_time" (sub now 10 8) /\ text_variable h' root "_csspp_hour" (sub now 10 2)
    /\ text_variable h' root "_csspp_minute" (sub now 13 2) /\ text_variable h' root "_csspp_second" (sub now 16 2)
    /\ kept h h' root date_names.
Proof.
  intro H. rewrite date_steps. cbn [x_root]. rewrite (b_ret _ _ _ _ _ (run_pos h m ps root c H)).
  destruct (one_more root parents q h m ps c (c_pos c) "_csspp_usdate" (sub now 0 10) H) as (h1 & c1 & R1 & H1 & Ch1 & Ty1 & Po1 & T1 & _ & M1). rewrite (b_ret _ _ _ _ _ R1).
  destruct (one_more root parents q h1 m ps c1 (c_pos c) "_csspp_month" (sub now 0 2) H1) as (h2 & c2 & R2 & H2 & Ch2 & Ty2 & Po2 & T2 & K2 & M2). rewrite (b_ret _ _ _ _ _ R2).
  destruct (one_more root parents q h2 m ps c2 (c_pos c) "_csspp_day" (sub now 3 2) H2) as (h3 & c3 & R3 & H3 & Ch3 & Ty3 & Po3 & T3 & K3 & M3). rewrite (b_ret _ _ _ _ _ R3).
  destruct (one_more root parents q h3 m ps c3 (c_pos c) "_csspp_year" (sub now 6 4) H3) as (h4 & c4 & R4 & H4 & Ch4 & Ty4 & Po4 & T4 & K4 & M4). rewrite (b_ret _ _ _ _ _ R4).
  destruct (one_more root parents q h4 m ps c4 (c_pos c) "_csspp_time" (sub now 10 8) H4) as (h5 & c5 & R5 & H5 & Ch5 & Ty5 & Po5 & T5 & K5 & M5). rewrite (b_ret _ _ _ _ _ R5).
  destruct (one_more root parents q h5 m ps c5 (c_pos c) "_csspp_hour" (sub now 10 2) H5) as (h6 & c6 & R6 & H6 & Ch6 & Ty6 & Po6 & T6 & K6 & M6). rewrite (b_ret _ _ _ _ _ R6).
  destruct (one_more root parents q h6 m ps c6 (c_pos c) "_csspp_minute" (sub now 13 2) H6) as (h7 & c7 & R7 & H7 & Ch7 & Ty7 & Po7 & T7 & K7 & M7). rewrite (b_ret _ _ _ _ _ R7).
  destruct (one_more root parents q h7 m ps c7 (c_pos c) "_csspp_second" (sub now 16 2) H7) as (h8 & c8 & R8 & H8 & Ch8 & Ty8 & Po8 & T8 & K8 & M8). rewrite R8.
  exists h8, c8. split; [reflexivity|]. split; [exact H8|]. split; [congruence|]. split; [congruence|]. split; [congruence|].
  repeat split.
  - now apply K8, K7, K6, K5, K4, K3, K2.
  - now apply K8, K7, K6, K5, K4, K3.
  - now apply K8, K7, K6, K5, K4.
  - now apply K8, K7, K6, K5.
  - now apply K8, K7, K6.
  - now apply K8, K7.
  - now apply K8.
  - exact T8.
  - exact (proj1 (kept_trans _ _ _ _ _ _ M1 (kept_trans _ _ _ _ _ _ M2 (kept_trans _ _ _ _ _ _ M3 (kept_trans _ _ _ _ _ _ M4 (kept_trans _ _ _ _ _ _ M5 (kept_trans _ _ _ _ _ _ M6 (kept_trans _ _ _ _ _ _ M7 M8)))))))).
  - exact (proj2 (kept_trans _ _ _ _ _ _ M1 (kept_trans _ _ _ _ _ _ M2 (kept_trans _ _ _ _ _ _ M3 (kept_trans _ _ _ _ _ _ M4 (kept_trans _ _ _ _ _ _ M5 (kept_trans _ _ _ _ _ _ M6 (kept_trans _ _ _ _ _ _ M7 M8)))))))).
Qed.
(** The texts of a date. *)
Lemma sub_app (a b c : str) : sub (a ++ b ++ c) (length a) (length b) = b.
Proof. unfold sub. rewrite skipn_app, skipn_all, Nat.sub_diag. cbn [app skipn]. rewrite firstn_app, firstn_all, Nat.sub_diag. cbn [firstn]. apply app_nil_r. Qed.

(** The arguments of the command. *)
Lemma run_arg_texts p h m ps k args : forall l c, nth_error l k = Some c -> c_type c = ARRAY ->
  arg_texts p (length h + k)%nat args (mkK (h ++ l) m ps) =
  Ret tt (mkK (h ++ put l k (with_ch c (c_ch c ++ map (fun i => (length h + length l + i)%nat) (seq 0 (length args)))) ++ map (str_cell STRING p) args) m ps).
Proof.
  induction args as [|t args IH]; intros l c E T.
  - cbn [arg_texts length seq map]. rewrite !app_nil_r. destruct c; cbn in *. rewrite put_id by exact E. reflexivity.
  - cbn [arg_texts]. rewrite (b_ret _ _ _ _ _ (run_new_ext h l m ps STRING p)).
    assert (L : nth_error (l ++ [blank STRING p]) (length l) = Some (blank STRING p)) by apply nth_mid.
    rewrite (b_ret _ _ _ _ _ (run_set_string_ext h (l ++ [blank STRING p]) m ps (length l) _ t L eq_refl)). rewrite put_mid.
    fold (str_cell STRING p t).
    assert (L2 : nth_error (l ++ [str_cell STRING p t]) (length l) = Some (str_cell STRING p t)) by apply nth_mid.
    assert (E2 : nth_error (l ++ [str_cell STRING p t]) k = Some c) by (rewrite nth_error_app1; [exact E|now apply nth_lt in E]).
    rewrite (b_ret _ _ _ _ _ (run_add_ext h (l ++ [str_cell STRING p t]) m ps k c (length l) _ E2 ltac:(now rewrite T) L2 ltac:(discriminate) ltac:(discriminate))).
    rewrite put_old by (now apply nth_lt in E).
    set (c2 := with_ch c (c_ch c ++ [(length h + length l)%nat])).
    rewrite (IH (put l k c2 ++ [str_cell STRING p t]) c2); [| |exact T].
    + f_equal. f_equal. rewrite put_old by (rewrite put_length; now apply nth_lt in E). rewrite put_put, <- app_assoc. cbn [app map length seq].
      rewrite app_length, put_length. cbn [length]. unfold c2. cbn [with_ch c_ch]. rewrite <- app_assoc. cbn [app]. rewrite Nat.add_0_r.
      assert (Q : map (fun i => (length h + (length l + 1) + i)%nat) (seq 0 (length args)) = map (fun i => (length h + length l + i)%nat) (seq 1 (length args))).
      { rewrite <- seq_shift, map_map. apply map_ext. intro i. lia. }
      rewrite Q. reflexivity.
    + rewrite nth_error_app1 by (rewrite put_length; now apply nth_lt in E). apply put_same. now apply nth_lt in E.
Qed.
(** The variable [name] of a node is a list of one array with these texts. *)
Definition array_variable (h : heap) (root : addr) (name : string) (texts : list str) : Prop :=
  exists c l k n w kw a ka, nth_error h root = Some c /\ map_get (c_vars c) (zs name) = Some l /\ l <> root
    /\ nth_error h l = Some k /\ c_type k = LIST /\ c_ch k = [n; w] /\ w <> root
    /\ nth_error h w = Some kw /\ c_type kw = LIST /\ c_ch kw = [a]
    /\ nth_error h a = Some ka /\ c_type ka = ARRAY
    /\ Forall2 (fun x t => exists cx, nth_error h x = Some cx /\ c_type cx = STRING /\ c_str cx = t) (c_ch ka) texts.
Lemma run_args root h m ps c args : nth_error h root = Some c ->
  exists h' c', args_variable root args (mkK h m ps) = Ret tt (mkK h' m ps)
    /\ nth_error h' root = Some c' /\ c_ch c' = c_ch c /\ c_type c' = c_type c /\ c_pos c' = c_pos c
    /\ array_variable h' root "_csspp_args" args /\ kept h h' root ["_csspp_args"].
Proof.
  intro H. pose proof (nth_lt _ _ _ H) as L. unfold args_variable. rewrite (b_ret _ _ _ _ _ (run_pos h m ps root c H)). set (p := c_pos c).
  replace (mkK h m ps) with (mkK (h ++ []) m ps) by (now rewrite app_nil_r). rewrite (b_ret _ _ _ _ _ (run_new_ext h [] m ps LIST p)). cbn [app length].
  rewrite (b_ret _ _ _ _ _ (run_new_ext h [blank LIST p] m ps VARIABLE p)). cbn [app length].
  rewrite (b_ret _ _ _ _ _ (run_set_string_ext h [blank LIST p; blank VARIABLE p] m ps 1 (blank VARIABLE p) (zs "_csspp_args") eq_refl eq_refl)). cbn [put].
  rewrite (b_ret _ _ _ _ _ (run_new_ext h _ m ps LIST p)). cbn [app length].
  rewrite (b_ret _ _ _ _ _ (run_new_ext h _ m ps ARRAY p)). cbn [app length].
  erewrite b_ret; [|eapply (run_add_ext h _ m ps 2 _ 3); reflexivity || discriminate]. cbn [put app c_ch blank with_ch].
  erewrite b_ret; [|eapply (run_add_ext h _ m ps 0 _ 1); reflexivity || discriminate]. cbn [put app c_ch blank with_ch].
  erewrite b_ret; [|eapply (run_add_ext h _ m ps 0 _ 2); reflexivity || discriminate]. cbn [put app c_ch blank with_ch].
  erewrite b_ret; [|eapply (run_arg_texts p h m ps 3); reflexivity]. cbn [put app c_ch blank with_ch length].
  set (strings := map (str_cell STRING p) args). set (ids := map _ (seq 0 (length args))).
  erewrite run_set_variable; [|apply old_ext; exact H]. rewrite put_old by exact L. cbn [Nat.add].
  match goal with |- context [put h root ?d ++ ?t] => set (c' := d); set (tail := t) end.
  exists (put h root c' ++ tail), c'. split; [reflexivity|].
  assert (R : nth_error (put h root c' ++ tail) root = Some c') by (apply old_ext; now apply put_same).
  split; [exact R|]. split; [reflexivity|]. split; [reflexivity|]. split; [reflexivity|]. split; [|subst c'; destruct c; exact (kept_set h root _ _ _ _ tail H)].
  assert (At : forall i, nth_error (put h root c' ++ tail) (length h + i)%nat = nth_error tail i) by (intro i; rewrite <- (put_length h root c'); apply at_ext).
  do 8 eexists. split; [exact R|]. split; [unfold c'; cbn [c_vars with_vars]; rewrite ScopeProofs.map_set_get, str_eqb_refl; reflexivity|]. split; [lia|].
  rewrite At. split; [reflexivity|]. split; [reflexivity|]. split; [reflexivity|]. split; [lia|].
  rewrite At. split; [reflexivity|]. split; [reflexivity|]. split; [reflexivity|]. rewrite At. split; [reflexivity|]. split; [reflexivity|].
  cbn [c_ch]. unfold ids.
  assert (G : forall pre l, (forall i, nth_error (put h root c' ++ tail) (length h + 4 + length pre + i)%nat = nth_error (map (str_cell STRING p) l) i) ->
    Forall2 (fun x t => exists cx, nth_error (put h root c' ++ tail) x = Some cx /\ c_type cx = STRING /\ c_str cx = t)
      (map (fun i => (length h + 4 + i)%nat) (seq (@length str pre) (length l))) l).
  { intros pre l. revert pre. induction l as [|t l IH]; intros pre I; [constructor|]. cbn [length seq map]. constructor.
    - specialize (I 0%nat). rewrite Nat.add_0_r in I. rewrite I. cbn. now eexists.
    - specialize (IH (pre ++ [t])). rewrite app_length in IH. cbn [length] in IH. rewrite Nat.add_1_r in IH. apply IH. intro i. rewrite <- (I (S i)) at 1. rewrite I. rewrite <- I. f_equal. lia. }
  apply (G [] args). intro i. cbn [length]. rewrite Nat.add_0_r, <- Nat.add_assoc, At. reflexivity.
Qed.

(** The header and the footer. *)
Definition is_import (h : heap) (a : addr) (file : string) : Prop :=
  exists c s cs, nth_error h a = Some c /\ c_type c = AT_KEYWORD /\ c_str c = zs "import" /\ c_ch c = [s]
    /\ nth_error h s = Some cs /\ c_type cs = STRING /\ c_str cs = zs file.
Definition import_cell (a : addr) : cell := with_ch (str_cell AT_KEYWORD (new_position 1 1) (zs "import")) [a].
Lemma run_import_node h m ps file :
  import_node file (mkK h m ps) = Ret (length h + 0)%nat (mkK (h ++ [import_cell (length h + 1)%nat; str_cell STRING (new_position 1 1) file]) m ps).
Proof.
  unfold import_node. replace (mkK h m ps) with (mkK (h ++ []) m ps) by (now rewrite app_nil_r). set (p := new_position 1 1).
  rewrite (b_ret _ _ _ _ _ (run_new_ext h [] m ps AT_KEYWORD p)). cbn [app length].
  rewrite (b_ret _ _ _ _ _ (run_set_string_ext h [blank AT_KEYWORD p] m ps 0 (blank AT_KEYWORD p) (zs "import") eq_refl eq_refl)). cbn [put].
  rewrite (b_ret _ _ _ _ _ (run_new_ext h _ m ps STRING p)). cbn [app length].
  erewrite b_ret; [|eapply (run_set_string_ext h _ m ps 1 (blank STRING p)); reflexivity]. cbn [put].
  erewrite b_ret; [|eapply (run_add_ext h _ m ps 0 _ 1); reflexivity || discriminate]. cbn [put app c_ch blank with_ch with_str]. reflexivity.
Qed.
Lemma run_header root parents q h m ps c no_logo : nth_error h root = Some c -> has_children (c_type c) = true ->
  exists h' c' first last, add_header_and_footer (mkX root parents q) no_logo (mkK h m ps) = Ret tt (mkK h' m ps)
    /\ nth_error h' root = Some c' /\ c_type c' = c_type c /\ c_ch c' = first :: c_ch c ++ [last]
    /\ is_import h' first "system/init.scss" /\ is_import h' last "system/close.scss"
    /\ kept h h' root ["_csspp_no_logo"]
    /\ exists l k n b cb, map_get (c_vars c') (zs "_csspp_no_logo") = Some l /\ l <> root /\ nth_error h' l = Some k /\ c_type k = LIST /\ c_ch k = [n; b]
       /\ nth_error h' b = Some cb /\ c_type cb = BOOLEAN /\ c_bool cb = no_logo.
Proof.
  intros H T. pose proof (nth_lt _ _ _ H) as L. unfold add_header_and_footer. cbn [x_root].
  rewrite (b_ret _ _ _ _ _ (run_import_node h m ps (zs "system/init.scss"))).
  set (l1 := [import_cell (length h + 1)%nat; str_cell STRING (new_position 1 1) (zs "system/init.scss")]).
  assert (F1 : nth_error (h ++ l1) (length h + 0)%nat = Some (import_cell (length h + 1)%nat)) by (rewrite at_ext; reflexivity).
  rewrite (b_ret _ _ _ _ _ (run_insert (h ++ l1) m ps root c (old_ext h l1 root c H) 0 _ _ T F1 ltac:(discriminate) ltac:(discriminate) ltac:(lia))).
  rewrite put_old by exact L. change (list_insert (Z.to_nat 0) (length h + 0)%nat (c_ch c)) with ((length h + 0)%nat :: c_ch c).
  set (c1 := with_ch c ((length h + 0)%nat :: c_ch c)). set (h1 := put h root c1 ++ l1).
  assert (H1 : nth_error h1 root = Some c1) by (apply old_ext; now apply put_same).
  rewrite (b_ret _ _ _ _ _ (run_import_node h1 m ps (zs "system/close.scss"))).
  set (l2 := [import_cell (length h1 + 1)%nat; str_cell STRING (new_position 1 1) (zs "system/close.scss")]).
  assert (F2 : nth_error (h1 ++ l2) (length h1 + 0)%nat = Some (import_cell (length h1 + 1)%nat)) by (rewrite at_ext; reflexivity).
  rewrite (b_ret _ _ _ _ _ (run_add (h1 ++ l2) m ps root c1 (old_ext h1 l2 root c1 H1) _ _ T F2 ltac:(discriminate) ltac:(discriminate))).
  pose proof (nth_lt _ _ _ H1) as L1. rewrite put_old by exact L1. set (c2 := with_ch c1 (c_ch c1 ++ [(length h1 + 0)%nat])). set (h2 := put h1 root c2 ++ l2).
  assert (H2 : nth_error h2 root = Some c2) by (apply old_ext; now apply put_same).
  set (p := new_position 1 1). unfold global_variable, state_set_variable. cbn [x_root].
  replace (mkK h2 m ps) with (mkK (h2 ++ []) m ps) by (now rewrite app_nil_r).
  rewrite (b_ret _ _ _ _ _ (run_new_ext h2 [] m ps BOOLEAN p)). cbn [app length].
  erewrite b_ret; [|erewrite run_set_boolean; [reflexivity|rewrite at_ext; reflexivity|reflexivity]]. rewrite put_ext. cbn [put].
  rewrite (b_ret _ _ _ _ _ (run_new_ext h2 _ m ps VARIABLE p)). cbn [app length].
  erewrite b_ret; [|eapply (run_set_string_ext h2 _ m ps 1 (blank VARIABLE p)); reflexivity]. cbn [put].
  erewrite b_ret; [|erewrite run_string; [reflexivity|rewrite at_ext; reflexivity|reflexivity]].
  erewrite b_ret; [|erewrite run_pos; [reflexivity|rewrite at_ext; reflexivity]].
  rewrite (b_ret _ _ _ _ _ (run_new_ext h2 _ m ps LIST _)). cbn [app length].
  erewrite b_ret; [|eapply (run_add_ext h2 _ m ps 2 _ 1); reflexivity || discriminate]. cbn [put app c_ch blank with_ch with_str].
  erewrite b_ret; [|eapply (run_add_ext h2 _ m ps 2 _ 0); reflexivity || discriminate]. cbn [put app c_ch blank with_ch with_str].
  rewrite bind_ret. pose proof (nth_lt _ _ _ H2) as L2. erewrite run_set_variable; [|apply old_ext; exact H2]. rewrite put_old by exact L2.
  match goal with |- context [put h2 root ?d ++ ?t] => set (c3 := d); set (tail := t) end.
  exists (put h2 root c3 ++ tail), c3, (length h + 0)%nat, (length h1 + 0)%nat. split; [reflexivity|].
  assert (R : nth_error (put h2 root c3 ++ tail) root = Some c3) by (apply old_ext; now apply put_same).
  split; [exact R|]. split; [reflexivity|]. split; [reflexivity|].
  assert (K1 : forall i d, nth_error l1 i = Some d -> nth_error (put h2 root c3 ++ tail) (length h + i)%nat = Some d).
  { intros i d N. apply old_ext. rewrite put_other by lia. unfold h2. apply old_ext. rewrite put_other by lia. unfold h1.
    rewrite <- (put_length h root c1). now rewrite at_ext. }
  assert (K2 : forall i d, nth_error l2 i = Some d -> nth_error (put h2 root c3 ++ tail) (length h1 + i)%nat = Some d).
  { intros i d N. apply old_ext. rewrite put_other by lia. unfold h2. rewrite <- (put_length h1 root c2). now rewrite at_ext. }
  split. { eexists _, _, _. split; [apply (K1 0%nat); reflexivity|]. split; [reflexivity|]. split; [reflexivity|]. split; [reflexivity|]. split; [apply (K1 1%nat); reflexivity|]. split; reflexivity. }
  split. { eexists _, _, _. split; [apply (K2 0%nat); reflexivity|]. split; [reflexivity|]. split; [reflexivity|]. split; [reflexivity|]. split; [apply (K2 1%nat); reflexivity|]. split; reflexivity. }
  split. { split.
    - intros a d N Z. apply old_ext. rewrite put_other by congruence. unfold h2. apply old_ext. rewrite put_other by congruence. unfold h1. apply old_ext. rewrite put_other by congruence. exact Z.
    - intros c0 Z. rewrite H in Z. injection Z as <-. exists c3. split; [exact R|]. split; [reflexivity|]. intros v V. unfold c3. cbn [c_vars with_vars c_str with_str]. rewrite ScopeProofs.map_set_get.
      destruct (str_eqb v (zs "_csspp_no_logo")) eqn:E; [|reflexivity]. apply str_eqb_spec in E. subst v. exfalso. apply V. now left. }
  assert (At : forall i, nth_error (put h2 root c3 ++ tail) (length h2 + i)%nat = nth_error tail i) by (intro i; rewrite <- (put_length h2 root c3); apply at_ext).
  do 5 eexists. split; [unfold c3; cbn [c_vars with_vars]; rewrite ScopeProofs.map_set_get; cbn [c_str with_str]; rewrite str_eqb_refl; reflexivity|]. split; [lia|].
  rewrite At. split; [reflexivity|]. split; [reflexivity|]. split; [reflexivity|]. rewrite At. split; [reflexivity|]. split; reflexivity.
Qed.
