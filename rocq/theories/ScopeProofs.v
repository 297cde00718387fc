(** * Scoping of variables *)

From Coq Require Import String ZArith List Bool Lia Arith ZifyBool Floats.SpecFloat.
From Verif Require Import Base NodeHeap NodeProofs Compiler CompRun ScopeSpec.
Import ListNotations.
Open Scope string_scope. Open Scope list_scope. Open Scope Z_scope.
Ltac Zify.zify_post_hook ::= idtac.

Lemma erase_mid {A} (l : list A) x r : list_erase (length l) (l ++ x :: r) = l ++ r.
Proof.
  unfold list_erase. rewrite firstn_app, Nat.sub_diag, firstn_all, firstn_O, app_nil_r.
  f_equal. rewrite skipn_app. rewrite skipn_all2 by lia. cbn [app]. replace (S (length l) - length l)%nat with 1%nat by lia. reflexivity.
Qed.
Lemma insert_mid {A} (l r : list A) x : list_insert (length l) x (l ++ r) = l ++ x :: r.
Proof.
  unfold list_insert. rewrite firstn_app, Nat.sub_diag, firstn_all, firstn_O, app_nil_r.
  f_equal. rewrite skipn_app, Nat.sub_diag. rewrite skipn_all2 by lia. reflexivity.
Qed.
Lemma with_ch_twice c l r : with_ch (with_ch c l) r = with_ch c r. Proof. reflexivity. Qed.
Lemma map_set_get {A} (m : list (str * A)) k v k' : map_get (map_set m k v) k' = if str_eqb k' k then Some v else map_get m k'.
Proof.
  induction m as [|[q w] m IH]; cbn [map_set map_get]; [reflexivity|].
  destruct (str_eqb k q) eqn:E; cbn [map_get].
  - apply str_eqb_spec in E. subst q. destruct (str_eqb k' k); reflexivity.
  - rewrite IH. destruct (str_eqb k' q) eqn:E1; [|reflexivity]. apply str_eqb_spec in E1. subst q.
    destruct (str_eqb k' k) eqn:E2; [|reflexivity]. apply str_eqb_spec in E2. subst. rewrite str_eqb_refl in E. discriminate.
Qed.

Lemma Forall2_impl {A B} (P Q : A -> B -> Prop) l r : (forall a b, P a b -> Q a b) -> Forall2 P l r -> Forall2 Q l r.
Proof. induction 2; constructor; auto. Qed.

Lemma Forall2_length {A B} (P : A -> B -> Prop) l r : Forall2 P l r -> length l = length r.
Proof. induction 1; cbn; auto. Qed.

(** ** The flags *)
Definition flag_of (h : heap) (s : str) (a : addr) : bool :=
  match nth_error h a with Some c => ntype_eqb (c_type c) EXCLAMATION && str_eqb (c_str c) s | None => false end.
Definition is_flag (h : heap) (a : addr) : bool := flag_of h (zs "global") a || flag_of h (zs "default") a.

Lemma flags_run m ps h n c : has_children (c_type c) = true ->
  forall pre post g u la h0, nth_error h0 n = Some (with_ch c (pre ++ post)) ->
  (forall a, a <> n -> nth_error h0 a = nth_error h a) ->
  (forall a, In a pre -> a <> n /\ exists k, nth_error h a = Some k) ->
  exists la', flags_loop n (length pre) g u la (mkK h0 m ps)
    = Ret (g || existsb (flag_of h (zs "global")) pre, u || existsb (flag_of h (zs "default")) pre, la')
        (mkK (put h0 n (with_ch c (filter (fun a => negb (is_flag h a)) pre ++ post))) m ps).
Proof.
  intros Hc. induction pre as [|a pre IH] using rev_ind; intros post g u la h0 Hn Ho Hp.
  - exists la. cbn. rewrite !orb_false_r. cbn in Hn. rewrite put_id by exact Hn. reflexivity.
  - rewrite app_length. cbn [length]. replace (length pre + 1)%nat with (S (length pre)) by lia.
    destruct (Hp a) as (Na & k & Hk); [apply in_or_app; cbn; auto|].
    assert (Hp' : forall b, In b pre -> b <> n /\ exists k, nth_error h b = Some k) by (intros b Hb; apply Hp, in_or_app; auto).
    assert (Hk0 : nth_error h0 a = Some k) by (rewrite Ho; auto).
    cbn [flags_loop].
    rewrite <- app_assoc in Hn. cbn [app] in Hn.
    erewrite b_ret; [|eapply run_child; [exact Hn|exact Hc| |lia]; rewrite Nat2Z.id; apply nth_mid].
    erewrite b_ret; [|eapply run_is; exact Hk0].
    rewrite filter_app, !existsb_app. cbn [filter existsb].
    assert (Fg : forall w, flag_of h w a = ntype_eqb (c_type k) EXCLAMATION && str_eqb (c_str k) w) by (intro w; unfold flag_of; now rewrite Hk).
    assert (Ff : is_flag h a = flag_of h (zs "global") a || flag_of h (zs "default") a) by reflexivity.
    rewrite Ff, !Fg. clear Ff Fg.
    destruct (ntype_eqb (c_type k) EXCLAMATION) eqn:T; cbn [negb andb].
    + assert (T' : c_type k = EXCLAMATION) by (destruct (c_type k); try discriminate; reflexivity).
      erewrite b_ret; [|eapply run_string; [exact Hk0|rewrite T'; reflexivity]].
      destruct (str_eqb (c_str k) (zs "global")) eqn:Eg; destruct (str_eqb (c_str k) (zs "default")) eqn:Ed; cbn [orb negb andb].
      1:(exfalso; apply str_eqb_spec in Eg, Ed; rewrite Ed in Eg; discriminate).
      1,2:(erewrite b_ret; [|eapply run_remove_at; [exact Hn|exact Hc|cbn [c_ch with_ch]; rewrite app_length; cbn [length]; lia]];
        erewrite b_ret; [|eapply run_size; [apply put_same; now apply nth_lt in Hn|exact Hc]];
        rewrite with_ch_twice; cbn [c_ch with_ch]; rewrite Nat2Z.id, erase_mid;
        edestruct (IH post) with (h0 := put h0 n (with_ch c (pre ++ post))) as [la' R]; [apply put_same; now apply nth_lt in Hn
          |intros b Hb; rewrite put_other by auto; now apply Ho|exact Hp'|];
        exists la'; etransitivity; [apply R|]; rewrite put_put, ?orb_false_r, ?orb_true_r, ?app_nil_r; try reflexivity).
      edestruct (IH (a :: post) g u la h0) as [la' R]; [exact Hn|exact Ho|exact Hp'|].
      exists la'. etransitivity; [apply R|]. rewrite !orb_false_r, <- app_assoc. reflexivity.
    + edestruct (IH (a :: post) g u la h0) as [la' R]; [exact Hn|exact Ho|exact Hp'|].
      exists la'. etransitivity; [apply R|]. rewrite !orb_false_r, <- app_assoc. reflexivity.
Qed.

(** ** The invariant *)
Definition tokens_at (h : heap) (F : list addr) (b : addr) (val : value) : Prop :=
  exists c, nth_error h b = Some c /\
    if ntype_eqb (c_type c) LIST
    then Forall2 (fun a t => ~ In a F /\ exists k, nth_error h a = Some k /\ (c_type k, c_str k) = t) (c_ch c) val
    else val = [(c_type c, c_str c)].
Definition value_at (h : heap) (F : list addr) (v : addr) (val : value) : Prop :=
  exists cv var b, nth_error h v = Some cv /\ c_type cv = LIST /\ c_ch cv = [var; b] /\ ~ In v F /\ ~ In b F /\ tokens_at h F b val.
Definition vars_ok (h : heap) (F : list addr) (vars : list (str * addr)) (e : env) : Prop :=
  forall k, match map_get vars k with Some v => exists val, e k = Some val /\ value_at h F v val | None => e k = None end.
Definition frame_ok (h : heap) (F : list addr) (a : addr) (o : option env) : Prop :=
  exists c, nth_error h a = Some c /\ c_type c = OPEN_CURLYBRACKET /\
    match o with Some e => c_bool c = true /\ vars_ok h F (c_vars c) e | None => c_bool c = false end.
Definition inv (h : heap) (x : ctx) (s : scopes) : Prop :=
  exists ps cr, x_parents x = ps ++ [x_root x] /\ NoDup (ps ++ [x_root x])
    /\ Forall2 (frame_ok h (ps ++ [x_root x])) ps (blocks s)
    /\ nth_error h (x_root x) = Some cr /\ c_type cr = LIST /\ vars_ok h (ps ++ [x_root x]) (c_vars cr) (sheet s).

Lemma keeps_at F h h' a c : keeps F h h' -> ~ In a F -> nth_error h a = Some c -> nth_error h' a = Some c.
Proof. intros [_ K] N H. rewrite K; auto. now apply nth_lt in H. Qed.
Lemma tokens_keep h h' F G b val : keeps F h h' -> (forall a, In a G -> In a F \/ (length h <= a)%nat) -> ~ In b F ->
  tokens_at h F b val -> tokens_at h' G b val.
Proof.
  intros K I Nb (c & H & T). exists c. split; [eapply keeps_at; eauto|].
  destruct (ntype_eqb (c_type c) LIST); [|exact T]. eapply Forall2_impl; [|exact T].
  intros a t (Na & k & Hk & E). split; [|exists k; split; [eapply keeps_at; eauto|exact E]].
  intro J. destruct (I a J) as [J'|J']; [auto|]. apply nth_lt in Hk. lia.
Qed.
Lemma value_keep h h' F G v val : keeps F h h' -> (forall a, In a G -> In a F \/ (length h <= a)%nat) ->
  value_at h F v val -> value_at h' G v val.
Proof.
  intros K I (cv & var & b & H & T & Ch & N1 & N2 & Tk). exists cv, var, b.
  split; [eapply keeps_at; eauto|]. split; [exact T|]. split; [exact Ch|].
  split. { intro J. destruct (I _ J); [auto|]. apply nth_lt in H. lia. }
  split. { intro J. destruct (I _ J); [auto|]. destruct Tk as (k & Hk & _). apply nth_lt in Hk. lia. }
  eapply tokens_keep; eauto.
Qed.
Lemma vars_keep h h' F G vs e : keeps F h h' -> (forall a, In a G -> In a F \/ (length h <= a)%nat) -> vars_ok h F vs e -> vars_ok h' G vs e.
Proof.
  intros K I V k. specialize (V k). destruct (map_get vs k); [|exact V].
  destruct V as (val & E & H). exists val. split; [exact E|]. eapply value_keep; eauto.
Qed.
(** Same kind of node with the same variables. *)
Definition similar (h h' : heap) (a : addr) : Prop :=
  forall c, nth_error h a = Some c -> exists c', nth_error h' a = Some c' /\ c_type c' = c_type c /\ c_bool c' = c_bool c /\ c_vars c' = c_vars c.
Lemma frame_keep h h' F G a o : keeps F h h' -> (forall b, In b G -> In b F \/ (length h <= b)%nat) -> similar h h' a ->
  frame_ok h F a o -> frame_ok h' G a o.
Proof.
  intros K I S (c & H & T & V). destruct (S c H) as (c' & H' & T' & B' & V'). exists c'. split; [exact H'|]. split; [congruence|].
  destruct o as [e|]; [|congruence]. destruct V as [B V]. split; [congruence|]. rewrite V'. eapply vars_keep; eauto.
Qed.
Lemma inv_keep h h' x s : keeps (x_parents x) h h' -> (forall a, In a (x_parents x) -> similar h h' a) -> inv h x s -> inv h' x s.
Proof.
  intros K S (ps & cr & E & N & Fr & R & T & V). rewrite E in K.
  destruct (S (x_root x)) with (c := cr) as (cr' & R' & T' & _ & V'); [rewrite E; apply in_or_app; cbn; auto|exact R|].
  exists ps, cr'. split; [exact E|]. split; [exact N|]. split; [|split; [exact R'|split; [congruence|rewrite V'; eapply vars_keep; eauto]]].
  assert (Sub : forall a, In a ps -> similar h h' a) by (intros a Ha; apply S; rewrite E; apply in_or_app; auto).
  clear - Fr K Sub. remember (ps ++ [x_root x]) as F. clear HeqF. induction Fr; constructor.
  - eapply frame_keep; eauto. apply Sub. cbn; auto.
  - apply IHFr. intros a Ha. apply Sub. cbn; auto.
Qed.

(** ** Reading *)
Lemma lookup_run h m ps F k : forall l bl, Forall2 (frame_ok h F) l bl -> forall root cr, nth_error h root = Some cr -> c_type cr = LIST ->
  exists o, lookup_parents (l ++ [root]) k (mkK h m ps) = Ret o (mkK h m ps)
    /\ match o with Some v => exists val, find_in bl k = Some val /\ value_at h F v val | None => find_in bl k = None end.
Proof.
  induction 1 as [|a o l bl Ha Fr IH]; intros root cr Hr Tr; cbn [app lookup_parents].
  - exists None. erewrite b_ret; [|eapply run_is; exact Hr]. rewrite Tr. cbn. auto.
  - destruct (IH root cr Hr Tr) as (r & R & V).
    destruct Ha as (c & Hc & T & B). erewrite b_ret; [|eapply run_is; exact Hc]. rewrite T. rewrite ntype_eqb_refl.
    erewrite b_ret; [|eapply run_boolean; [exact Hc|rewrite T; reflexivity]].
    destruct o as [e|].
    + destruct B as [B W]. rewrite B. erewrite b_ret; [|eapply run_get_variable; exact Hc].
      specialize (W k). destruct (map_get (c_vars c) k) as [v|].
      * destruct W as (val & E & W). exists (Some v). split; [reflexivity|]. exists val. cbn [find_in]. rewrite E. auto.
      * exists r. split; [exact R|]. cbn [find_in]. rewrite W. exact V.
    + rewrite B. exists r. split; [exact R|]. exact V.
Qed.
(** Nodes which are not blocks do not matter in the stack. *)
Lemma lookup_skip h m ps n c l k : nth_error h n = Some c -> c_type c <> OPEN_CURLYBRACKET ->
  lookup_parents (n :: l) k (mkK h m ps) = lookup_parents l k (mkK h m ps).
Proof.
  intros H T. cbn [lookup_parents]. erewrite b_ret; [|eapply run_is; exact H]. destruct (c_type c); try reflexivity. congruence.
Qed.
Lemma find_scope_skip h m ps n c l : nth_error h n = Some c -> c_type c <> OPEN_CURLYBRACKET ->
  find_scope (n :: l) (mkK h m ps) = find_scope l (mkK h m ps).
Proof.
  intros H T. cbn [find_scope]. erewrite b_ret; [|eapply run_is; exact H]. destruct (c_type c); try reflexivity. congruence.
Qed.
Lemma get_run h m ps x s k : inv h x s ->
  exists o, state_get_variable x k (mkK h m ps) = Ret o (mkK h m ps)
    /\ match o with Some v => exists val, find_value s k = Some val /\ value_at h (x_parents x) v val | None => find_value s k = None end.
Proof.
  intros (l & cr & E & N & Fr & R & T & V). destruct (lookup_run h m ps _ k _ _ Fr _ _ R T) as (o & O & W).
  unfold state_get_variable. rewrite E. erewrite b_ret; [|exact O]. unfold find_value. destruct o as [v|].
  - destruct W as (val & W & W'). exists (Some v). split; [reflexivity|]. exists val. rewrite W. auto.
  - specialize (V k). exists (map_get (c_vars cr) k). split; [eapply run_get_variable; exact R|]. rewrite W.
    destruct (map_get (c_vars cr) k); auto.
Qed.
Lemma get_run_push h m ps x s k n c : inv h x s -> nth_error h n = Some c -> c_type c <> OPEN_CURLYBRACKET ->
  state_get_variable (push x n) k (mkK h m ps) = state_get_variable x k (mkK h m ps).
Proof.
  intros I H T. unfold state_get_variable, push. cbn [x_parents x_root]. unfold bind. rewrite (lookup_skip _ _ _ _ _ _ _ H T). reflexivity.
Qed.

(** ** Setting *)
Lemma find_scope_run h m ps F : forall l bl, Forall2 (frame_ok h F) l bl -> forall root cr, nth_error h root = Some cr -> c_type cr = LIST ->
  (exists a e l1 l2 b1 b2, find_scope (l ++ [root]) (mkK h m ps) = Ret (Some a) (mkK h m ps)
     /\ l = l1 ++ a :: l2 /\ bl = b1 ++ Some e :: b2 /\ Forall2 (frame_ok h F) l1 b1 /\ Forall2 (frame_ok h F) l2 b2 /\ frame_ok h F a (Some e)
     /\ (forall k v, set_in bl k v = Some (b1 ++ Some (update e k v) :: b2)))
  \/ (find_scope (l ++ [root]) (mkK h m ps) = Ret None (mkK h m ps) /\ forall k v, set_in bl k v = None).
Proof.
  induction 1 as [|a o l bl Ha Fr IH]; intros root cr Hr Tr; cbn [app find_scope].
  - right. erewrite b_ret; [|eapply run_is; exact Hr]. rewrite Tr. cbn. auto.
  - specialize (IH root cr Hr Tr). pose proof Ha as Ha'. destruct Ha as (c & Hc & T & B).
    erewrite b_ret; [|eapply run_is; exact Hc]. rewrite T. rewrite ntype_eqb_refl.
    erewrite b_ret; [|eapply run_boolean; [exact Hc|rewrite T; reflexivity]].
    destruct o as [e|].
    + destruct B as [B W]. rewrite B. left. exists a, e, [], l, [], bl. repeat split; auto.
    + rewrite B. destruct IH as [(a' & e & l1 & l2 & b1 & b2 & R & -> & -> & F1 & F2 & F3 & Q)|[R Q]].
      * left. exists a', e, (a :: l1), l2, (None :: b1), b2. repeat split; auto. intros k v. cbn [set_in]. rewrite Q. reflexivity.
      * right. split; [exact R|]. intros k v. cbn [set_in]. rewrite Q. reflexivity.
Qed.
Lemma vars_set h F vs e k v val : vars_ok h F vs e -> value_at h F v val -> vars_ok h F (map_set vs k v) (update e k val).
Proof.
  intros V W k'. rewrite map_set_get. unfold update. destruct (str_eqb k' k); [|apply V]. exists val. auto.
Qed.
Lemma similar_put h a c b : a <> b -> similar h (put h a c) b.
Proof. intros N d H. exists d. rewrite put_other by auto. auto. Qed.
Lemma keeps_frames F h a c : In a F -> keeps F h (put h a c). Proof. apply keeps_put. Qed.

Lemma set_in_inv h x s k v val global m ps : inv h x s -> value_at h (x_parents x) v val ->
  exists a c, (if (global : bool) then ret None else find_scope (x_parents x)) (mkK h m ps) = Ret (if Nat.eqb a (x_root x) then None else Some a) (mkK h m ps)
    /\ nth_error h a = Some c
    /\ inv (put h a (with_vars c (map_set (c_vars c) k v))) x
         (if global then mkScopes (blocks s) (update (sheet s) k val) else set_local s k val).
Proof.
  intros (l & cr & E & N & Fr & R & T & V) W. rewrite E in W.
  set (F := l ++ [x_root x]) in *.
  assert (InR : In (x_root x) F) by (apply in_or_app; cbn; auto).
  assert (Glob : inv (put h (x_root x) (with_vars cr (map_set (c_vars cr) k v))) x (mkScopes (blocks s) (update (sheet s) k val))).
  { exists l, (with_vars cr (map_set (c_vars cr) k v)). fold F. split; [exact E|]. split; [exact N|].
    assert (K : keeps F h (put h (x_root x) (with_vars cr (map_set (c_vars cr) k v)))) by now apply keeps_put.
    split; [|split; [apply put_same; now apply nth_lt in R|split; [exact T|]]].
    - cbn [blocks]. assert (Nr : ~ In (x_root x) l).
      { unfold F in N. rewrite <- (app_nil_r (l ++ _)), <- app_assoc in N. apply NoDup_remove_2 in N. now rewrite app_nil_r in N. }
      clearbody F; clear - Fr K Nr. induction Fr; constructor.
      + eapply frame_keep; eauto. apply similar_put. intro Q. apply Nr. cbn. auto.
      + apply IHFr. intro Q. apply Nr. cbn. auto.
    - cbn [c_vars with_vars sheet]. eapply vars_keep; [exact K|auto|]. now apply vars_set. }
  destruct global.
  - exists (x_root x), cr. rewrite Nat.eqb_refl. split; [reflexivity|]. split; [exact R|]. exact Glob.
  - rewrite E. destruct (find_scope_run h m ps F _ _ Fr _ _ R T) as [(a & e & l1 & l2 & b1 & b2 & S & -> & Eb & F1 & F2 & F3 & Q)|[S Q]].
    + destruct F3 as (c & Hc & Tc & B & Va). exists a, c.
      assert (Na : ~ In a (l1 ++ l2) /\ a <> x_root x).
      { unfold F in N. rewrite <- app_assoc in N. cbn [app] in N. apply NoDup_remove_2 in N.
        split; intro J; apply N; [apply in_app_or in J; destruct J; apply in_or_app; [auto|right; apply in_or_app; auto]|].
        subst a. apply in_or_app. right. apply in_or_app. cbn. auto. }
      destruct Na as [Na Nr].
      replace (Nat.eqb a (x_root x)) with false by (symmetry; now apply Nat.eqb_neq).
      split; [exact S|]. split; [exact Hc|].
      assert (Ia : In a F) by (unfold F; apply in_or_app; left; apply in_or_app; cbn; auto).
      assert (K : keeps F h (put h a (with_vars c (map_set (c_vars c) k v)))) by now apply keeps_put.
      exists (l1 ++ a :: l2), cr. fold F. split; [exact E|]. split; [exact N|].
      unfold set_local. rewrite Q. cbn [blocks sheet].
      split; [|split; [rewrite put_other by auto; exact R|split; [exact T|eapply vars_keep; eauto]]].
      apply Forall2_app; [|constructor].
      * assert (N1 : ~ In a l1) by (intro J; apply Na, in_or_app; auto). clearbody F; clear - F1 K N1. induction F1; constructor.
        -- eapply frame_keep; eauto. apply similar_put. intro. subst. apply N1. cbn; auto.
        -- apply IHF1. intro J. apply N1. cbn; auto.
      * exists (with_vars c (map_set (c_vars c) k v)). split; [apply put_same; now apply nth_lt in Hc|]. split; [exact Tc|].
        split; [exact B|]. cbn [c_vars with_vars]. eapply vars_keep; [exact K|auto|]. now apply vars_set.
      * assert (N1 : ~ In a l2) by (intro J; apply Na, in_or_app; auto). clearbody F; clear - F2 K N1. induction F2; constructor.
        -- eapply frame_keep; eauto. apply similar_put. intro. subst. apply N1. cbn; auto.
        -- apply IHF2. intro J. apply N1. cbn; auto.
    + exists (x_root x), cr. rewrite Nat.eqb_refl. split; [exact S|]. split; [exact R|].
      unfold set_local. rewrite Q. exact Glob.
Qed.

(** ** An assignment *)
Definition finish (x : ctx) (n : addr) (np : position) (global unset : bool) (var : addr) : C unit :=
    k <- lift (get_string var) ;;
    known <- (if unset : bool then state_get_variable x k else ret None) ;;
    match known with
    | Some _ => ret tt
    | None =>
        z <- lift (size n) ;;
        list <- (if z =? 1 then lift (get_child n 0)
                 else l <- lift (new_node LIST np) ;; lift (take_over_children_of l n) ;;; ret l) ;;
        lt <- type_of list ;;
        null <- (if ntype_eqb lt IDENTIFIER then s <- lift (get_string list) ;; ret (str_eqb s (zs "null")) else ret false) ;;
        list <- (if null : bool then lp <- pos_of list ;; lift (new_node NULL_TOKEN lp) else ret list) ;;
        f <- is_a var VARIABLE_FUNCTION ;;
        (if f : bool then prepare_function_arguments var else ret tt) ;;;
        state_set_variable x var list global
    end.
Definition kept (h : heap) (l : list addr) := filter (fun a => negb (is_flag h a)) l.
Definition ws_at (h : heap) (ws : list addr) : Prop :=
  ws = [] \/ exists w k, ws = [w] /\ nth_error h w = Some k /\ c_type k = WHITESPACE.

Lemma prelude x0 P rest h m ps n cp i cn var ws1 colon ws2 l cvar cc :
  x_parents x0 = P :: rest ->
  nth_error h P = Some cp -> has_children (c_type cp) = true -> find_child n (c_ch cp) = Some i ->
  nth_error h n = Some cn -> has_children (c_type cn) = true -> c_ch cn = var :: ws1 ++ colon :: ws2 ++ l -> n <> P ->
  (forall a, In a (c_ch cn) -> a <> n /\ a <> P /\ exists k, nth_error h a = Some k) ->
  ws_at h ws1 -> ws_at h ws2 -> nth_error h var = Some cvar ->
  nth_error h colon = Some cc -> c_type cc = COLON ->
  match l with a :: _ => forall k, nth_error h a = Some k -> c_type k <> WHITESPACE | [] => True end ->
  exists m', compiler_set_variable (push x0 n) n (mkK h m ps)
    = finish (push x0 n) n (c_pos cn) (existsb (flag_of h (zs "global")) l) (existsb (flag_of h (zs "default")) l) var
        (mkK (put (put h P (with_ch cp (list_erase i (c_ch cp)))) n (with_ch cn (kept h l))) m' ps).
Proof.
  intros Ex HP CP Fi Hn Cn Ch NP Kids W1 W2 Hv Hc Tc Hl.
  pose proof (nth_lt _ _ _ HP) as LP. pose proof (nth_lt _ _ _ Hn) as Ln.
  unfold compiler_set_variable. unfold previous_parent, push. cbn [x_parents]. rewrite Ex. cbn [x_parents x_root x_quiet].
  rewrite bind_ret. erewrite b_ret; [|eapply run_remove; [exact HP|exact CP|exact Fi]].
  set (h1 := put h P _).
  assert (Ho : forall a, a <> P -> nth_error h1 a = nth_error h a) by (intros a Ha; apply put_other; auto).
  assert (Kid : forall a, In a (c_ch cn) -> a <> n /\ exists k, nth_error h a = Some k /\ nth_error h1 a = Some k).
  { intros a Ha. destruct (Kids a Ha) as (A & B & k & Hk). split; [exact A|]. exists k. rewrite Ho by auto. auto. }
  assert (Hn1 : nth_error h1 n = Some cn) by (rewrite Ho by auto; exact Hn).
  assert (Ln1 : (n < length h1)%nat) by (unfold h1; rewrite put_length; exact Ln).
  assert (Get : forall l' a k, nth_error h a = Some k -> In a (c_ch cn) -> nth_error (put h1 n (with_ch cn l')) a = Some k).
  { intros l' a k Hk Ia. destruct (Kids a Ia) as (A & B & _). rewrite put_other by auto. rewrite Ho by auto. exact Hk. }
  assert (Now : forall l', nth_error (put h1 n (with_ch cn l')) n = Some (with_ch cn l')) by (intro; now apply put_same).
  erewrite b_ret; [|eapply run_child0; [exact Hn1|exact Cn|exact Ch]].
  erewrite b_ret; [|eapply run_remove0; [exact Hn1|exact Cn|exact Ch]].
  (* after the name *)
  assert (A1 : exists s1, s1 = mkK (put h1 n (with_ch cn (colon :: ws2 ++ l))) m ps /\
     forall (K : C unit), (w <- child_is n 0 WHITESPACE ;; (if w : bool then lift (remove_child_at n 0) else ret tt) ;;; K)
       (mkK (put h1 n (with_ch cn (ws1 ++ colon :: ws2 ++ l))) m ps) = K s1).
  { eexists. split; [reflexivity|]. intro K. destruct W1 as [->|(w & kw & -> & Hw & Tw)].
    - cbn [app]. erewrite b_ret; [|eapply run_child_is; [apply Now|exact Cn|reflexivity|lia|apply Get; [exact Hc|rewrite Ch; cbn; auto]]].
      rewrite Tc. tyeq. rewrite bind_ret. reflexivity.
    - cbn [app]. erewrite b_ret; [|eapply run_child_is; [apply Now|exact Cn|reflexivity|lia|apply Get; [exact Hw|rewrite Ch; cbn; auto]]].
      rewrite Tw. tyeq. erewrite b_ret; [|eapply run_remove0; [apply Now|exact Cn|reflexivity]].
      rewrite put_put, with_ch_twice. reflexivity. }
  destruct A1 as (s1 & -> & A1). cbn [app] in A1.
  rewrite A1. clear A1.
  assert (Ic : In colon (c_ch cn)) by (rewrite Ch; cbn; right; apply in_or_app; cbn; auto).
  erewrite b_ret; [|eapply run_child_is; [apply Now|exact Cn|reflexivity|lia|apply Get; [exact Hc|exact Ic]]].
  rewrite Tc. tyeq. cbn [negb].
  erewrite b_ret; [|eapply run_remove0; [apply Now|exact Cn|reflexivity]]. rewrite put_put, with_ch_twice.
  erewrite b_ret; [|eapply run_empty; [apply Now|exact Cn]]. cbn [c_ch with_ch].
  assert (Il : forall a, In a l -> In a (c_ch cn)).
  { intros a Ha. rewrite Ch. cbn. right. apply in_or_app. right. cbn. right. apply in_or_app. auto. }
  assert (A2 : forall (K : C unit), (w2 <- (if (match ws2 ++ l with [] => true | _ => false end) then ret false else child_is n 0 WHITESPACE) ;;
       (if w2 : bool then lift (remove_child_at n 0) else ret tt) ;;; K)
       (mkK (put h1 n (with_ch cn (ws2 ++ l))) m ps) = K (mkK (put h1 n (with_ch cn l)) m ps)).
  { intro K. destruct W2 as [->|(w & kw & -> & Hw & Tw)]; cbn [app].
    - destruct l as [|a l']; [reflexivity|]. destruct (Kids a) as (A & B & k & Hk); [apply Il; cbn; auto|].
      erewrite b_ret; [|eapply run_child_is; [apply Now|exact Cn|reflexivity|lia|apply Get; [exact Hk|apply Il; cbn; auto]]].
      replace (ntype_eqb (c_type k) WHITESPACE) with false by (symmetry; apply ntype_eqb_neq, Hl, Hk). rewrite bind_ret. reflexivity.
    - erewrite b_ret; [|eapply run_child_is; [apply Now|exact Cn|reflexivity|lia|apply Get; [exact Hw|rewrite Ch; cbn; right; apply in_or_app; cbn; auto]]].
      rewrite Tw. tyeq. erewrite b_ret; [|eapply run_remove0; [apply Now|exact Cn|reflexivity]].
      rewrite put_put, with_ch_twice. reflexivity. }
  rewrite A2. clear A2.
  erewrite b_ret; [|eapply run_size; [apply Now|exact Cn]]. cbn [c_ch with_ch]. rewrite Nat2Z.id.
  destruct (flags_run m ps (put h1 n (with_ch cn l)) n cn Cn l [] false false false (put h1 n (with_ch cn l))) as [la R].
  { rewrite app_nil_r. apply Now. } { auto. }
  { intros a Ha. destruct (Kids a (Il a Ha)) as (A & B & k & Hk). split; [exact A|]. exists k. apply Get; auto. }
  assert (FE : forall w a, In a l -> flag_of (put h1 n (with_ch cn l)) w a = flag_of h w a).
  { intros w a Ha. destruct (Kids a (Il a Ha)) as (A & B & k & Hk). unfold flag_of. rewrite Hk, (Get l a k Hk (Il a Ha)). reflexivity. }
  assert (EX : forall w, existsb (flag_of (put h1 n (with_ch cn l)) w) l = existsb (flag_of h w) l).
  { intro w. specialize (FE w). clear - FE. revert FE. generalize (flag_of (put h1 n (with_ch cn l)) w). intros g FE.
    induction l as [|a r IH]; cbn; [reflexivity|]. rewrite FE by (cbn; auto). rewrite IH; auto. intros b Hb. apply FE. cbn; auto. }
  assert (FI : filter (fun a => negb (is_flag (put h1 n (with_ch cn l)) a)) l = kept h l).
  { unfold kept. apply filter_ext_in. intros a Ha. unfold is_flag. rewrite !FE by auto. reflexivity. }
  rewrite !EX, FI, app_nil_r, put_put in R. cbn [orb] in R.
  erewrite b_ret; [|exact R]. cbv beta iota.
  erewrite b_ret; [|eapply run_pos; apply Now]. cbn [c_pos with_ch].
  exists (if la then m ++ [mkMsg LWarning (c_pos cn) "A special flag must only appear at the end of a declaration."] else m).
  destruct la; [erewrite b_ret; [|apply run_say]|rewrite bind_ret]; reflexivity.
Qed.

Lemma similar_keeps A h h' a : keeps A h h' -> ~ In a A -> similar h h' a.
Proof. intros [_ K] N c H. exists c. rewrite K; auto. now apply nth_lt in H. Qed.
Lemma inv_lt h x s a : inv h x s -> In a (x_parents x) -> (a < length h)%nat.
Proof.
  intros (l & cr & E & N & Fr & R & T & V) Ia. rewrite E in Ia. apply in_app_or in Ia. destruct Ia as [Ia|[<-|[]]]; [|now apply nth_lt in R].
  remember (l ++ [x_root x]) as F. clear -Fr Ia. induction Fr as [|y o l bl H Fr IH]; [destruct Ia|]. destruct Ia as [<-|Ia]; auto.
  destruct H as (c & H & _). now apply nth_lt in H.
Qed.
(** The children of the open blocks are the same. *)
Definition kids_keep (x : ctx) (h h' : heap) : Prop :=
  forall a c, In a (x_parents x) -> nth_error h a = Some c -> exists c', nth_error h' a = Some c' /\ c_ch c' = c_ch c.
Lemma kids_trans x h1 h2 h3 : kids_keep x h1 h2 -> kids_keep x h2 h3 -> kids_keep x h1 h3.
Proof. intros A B a c I H. destruct (A a c I H) as (c1 & H1 & E1). destruct (B a c1 I H1) as (c2 & H2 & E2). exists c2. split; congruence. Qed.
Lemma kids_keeps x A h h' : keeps A h h' -> (forall a, In a A -> ~ In a (x_parents x)) -> kids_keep x h h'.
Proof. intros K D a c I H. exists c. split; [|reflexivity]. eapply keeps_at; eauto. intro J. exact (D a J I). Qed.
Lemma kids_put x h a c c' : nth_error h a = Some c -> c_ch c' = c_ch c -> kids_keep x h (put h a c').
Proof.
  intros H E b d I Hb. destruct (Nat.eq_dec a b) as [<-|D].
  - exists c'. rewrite put_same by (now apply nth_lt in H). split; congruence.
  - exists d. rewrite put_other by auto. auto.
Qed.

Lemma state_set_run h m ps x s n cn var cvar b cb val (global : bool) :
  inv h x s -> nth_error h n = Some cn -> c_type cn = COMPONENT_VALUE ->
  nth_error h var = Some cvar -> c_type cvar = VARIABLE -> nth_error h b = Some cb -> c_type cb <> EOF_TOKEN -> c_type cb <> WHITESPACE ->
  ~ In b (x_parents x) -> tokens_at h (x_parents x) b val ->
  exists h', state_set_variable (push x n) var b global (mkK h m ps) = Ret tt (mkK h' m ps)
    /\ keeps (x_parents x) h h' /\ kids_keep x h h'
    /\ inv h' x (if global then mkScopes (blocks s) (update (sheet s) (c_str cvar) val) else set_local s (c_str cvar) val).
Proof.
  intros I Hn Tn Hv Tv Hb E1 E2 Nb Tk. unfold state_set_variable.
  pose proof (nth_lt _ _ _ Hv) as Lv. pose proof (nth_lt _ _ _ Hb) as Lb. pose proof (nth_lt _ _ _ Hn) as Ln.
  erewrite b_ret; [|eapply run_string; [exact Hv|rewrite Tv; reflexivity]].
  erewrite b_ret; [|eapply run_pos; exact Hb].
  erewrite b_ret; [|apply run_new].
  erewrite b_ret; [|eapply (run_add _ _ _ (length h) (blank LIST (c_pos cb))) with (k := cvar); [apply nth_mid|reflexivity| |rewrite Tv; discriminate|rewrite Tv; discriminate]].
  2:{ rewrite nth_error_app1 by lia. exact Hv. }
  rewrite put_mid. set (c1 := with_ch _ _).
  erewrite b_ret; [|eapply (run_add _ _ _ (length h) c1) with (k := cb); [apply nth_mid|reflexivity| |exact E1|exact E2]].
  2:{ rewrite nth_error_app1 by lia. exact Hb. }
  rewrite put_mid. cbn [c_ch c1 with_ch blank app]. unfold c1. rewrite with_ch_twice. set (c2 := with_ch _ _).
  set (h2 := h ++ [c2]).
  assert (K2 : keeps [] h h2) by apply keeps_app.
  assert (K2' : keeps (x_parents x) h h2) by apply keeps_app.
  assert (I2 : inv h2 x s).
  { apply (inv_keep h); auto. intros a Ha. apply (similar_keeps []); auto. }
  assert (Hn2 : nth_error h2 n = Some cn) by (unfold h2; rewrite nth_error_app1 by lia; exact Hn).
  destruct (set_in_inv h2 x s (c_str cvar) (length h) val global m ps I2) as (a & c & Sc & Ha & J).
  { exists c2, var, b. split; [apply nth_mid|]. split; [reflexivity|]. split; [reflexivity|].
    split. { intro Q. apply (inv_lt _ _ _ _ I) in Q. lia. } split; [exact Nb|]. eapply tokens_keep; [exact K2'| |exact Nb|exact Tk]. auto. }
  assert (Sc' : (if global then ret None else find_scope (x_parents (push x n))) (mkK h2 m ps) = Ret (if Nat.eqb a (x_root x) then None else Some a) (mkK h2 m ps)).
  { destruct global; [exact Sc|]. cbn [push x_parents]. rewrite (find_scope_skip _ _ _ _ _ _ Hn2) by (rewrite Tn; discriminate). exact Sc. }
  erewrite b_ret; [|exact Sc'].
  assert (T : (match (if Nat.eqb a (x_root x) then None else Some a : option addr) return addr with Some y => y | None => x_root (push x n) end) = a).
  { destruct (Nat.eqb_spec a (x_root x)); cbn [push x_root]; congruence. }
  match goal with |- context [set_variable ?z _ _] => replace z with a by (symmetry; exact T) end.
  exists (put h2 a (with_vars c (map_set (c_vars c) (c_str cvar) (length h)))).
  split; [eapply run_set_variable; exact Ha|]. split; [|split; [|exact J]].
  2:{ eapply kids_trans; [apply (kids_keeps x []); [exact K2|auto]|]. now apply (kids_put x h2 a c). }
  eapply keeps_trans; [exact K2'|]. apply keeps_put. 
  destruct I2 as (l & cr & E & N & Fr & R & T' & V). rewrite E in *.
  destruct global; [injection Sc as Q; destruct (Nat.eqb_spec a (x_root x)); [subst; apply in_or_app; cbn; auto|discriminate]|].
  destruct (find_scope_run h2 m ps _ _ _ Fr _ _ R T') as [(a' & e & l1 & l2 & b1 & b2 & S & -> & _)|[S _]];
    pose proof (eq_trans (eq_sym Sc) S) as Q0; injection Q0 as Q.
  - destruct (Nat.eqb_spec a (x_root x)); [discriminate|]. injection Q as ->. apply in_or_app. left. apply in_or_app. cbn; auto.
  - destruct (Nat.eqb_spec a (x_root x)); [|discriminate]. subst a. apply in_or_app. cbn; auto.
Qed.

Definition token_at (h : heap) (a : addr) (t : token) : Prop := exists k, nth_error h a = Some k /\ (c_type k, c_str k) = t.
Lemma finish_run h m ps x s n cn kp toks var cvar (g u : bool) np :
  inv h x s -> ~ In n (x_parents x) -> nth_error h n = Some cn -> c_type cn = COMPONENT_VALUE -> c_ch cn = kp ->
  (forall c', inv (put h n c') x s) ->
  nth_error h var = Some cvar -> c_type cvar = VARIABLE -> var <> n ->
  Forall2 (fun a t => ~ In a (x_parents x) /\ a <> n /\ token_at h a t) kp toks -> Forall token_ok toks ->
  match toks with (t, _) :: _ => t <> WHITESPACE | [] => True end ->
  exists h', finish (push x n) n np g u var (mkK h m ps) = Ret tt (mkK h' m ps)
    /\ keeps (n :: x_parents x) h h' /\ kids_keep x h h'
    /\ inv h' x (if u && match find_value s (c_str cvar) with Some _ => true | None => false end then s
                 else if g then mkScopes (blocks s) (update (sheet s) (c_str cvar) (value_of toks)) else set_local s (c_str cvar) (value_of toks)).
Proof.
  intros I Nn Hn Tn Ch NV Hv Tv Dv FA TO Hd. unfold finish.
  pose proof (nth_lt _ _ _ Hv) as Lv. pose proof (nth_lt _ _ _ Hn) as Ln.
  erewrite b_ret; [|eapply run_string; [exact Hv|rewrite Tv; reflexivity]].
  destruct (get_run h m ps x s (c_str cvar) I) as (o & O & W).
  assert (KN : exists o', (if u then state_get_variable (push x n) (c_str cvar) else ret None) (mkK h m ps) = Ret o' (mkK h m ps)
             /\ u && match find_value s (c_str cvar) with Some _ => true | None => false end = match o' with Some _ => true | None => false end).
  { destruct u; [|exists None; auto]. exists o. rewrite (get_run_push _ _ _ _ _ _ _ _ I Hn) by (rewrite Tn; discriminate).
    split; [exact O|]. destruct o; [destruct W as (val & -> & _)|rewrite W]; reflexivity. }
  destruct KN as (o' & O' & U). rewrite U. erewrite b_ret; [|exact O']. clear O O' W U o. destruct o'.
  { exists h. split; [reflexivity|]. split; [apply keeps_refl|]. split; [intros y d _ Hy; eauto|exact I]. }
  erewrite b_ret; [|eapply run_size; [exact Hn|rewrite Tn; reflexivity]].
  assert (Go : forall h2 b cb val, keeps [n] h h2 -> inv h2 x s -> nth_error h2 b = Some cb -> c_type cb <> EOF_TOKEN -> c_type cb <> WHITESPACE ->
      ~ In b (x_parents x) -> tokens_at h2 (x_parents x) b val -> (exists cn', nth_error h2 n = Some cn' /\ c_type cn' = COMPONENT_VALUE) ->
      val = value_of toks ->
      exists h', (f <- is_a var VARIABLE_FUNCTION ;; (if f : bool then prepare_function_arguments var else ret tt) ;;; state_set_variable (push x n) var b g) (mkK h2 m ps) = Ret tt (mkK h' m ps)
       /\ keeps (n :: x_parents x) h h' /\ kids_keep x h h'
       /\ inv h' x (if g then mkScopes (blocks s) (update (sheet s) (c_str cvar) (value_of toks)) else set_local s (c_str cvar) (value_of toks))).
  { intros h2 b cb val K2 I2 Hb B1 B2 B3 B4 (cn' & Hn' & Tn') ->.
    assert (Hv2 : nth_error h2 var = Some cvar) by (destruct K2 as [_ K2]; rewrite K2; auto; cbn; intuition congruence).
    erewrite b_ret; [|eapply run_is; exact Hv2]. rewrite Tv. tyeq. rewrite bind_ret.
    destruct (state_set_run h2 m ps x s n cn' var cvar b cb _ g I2 Hn' Tn' Hv2 Tv Hb B1 B2 B3 B4) as (h' & R & K & KK & J).
    exists h'. split; [exact R|]. split; [|split; [|exact J]].
    2:{ eapply kids_trans; [|exact KK]. apply (kids_keeps x [n]); [exact K2|]. intros a [<-|[]]. exact Nn. }
    destruct K2 as [L2 K2], K as [L K]. split; [lia|]. intros a La Na. cbn in Na. rewrite K; [|lia|tauto]. apply K2; [exact La|]. cbn. tauto. }
  destruct (Z.eqb_spec (Z.of_nat (length (c_ch cn))) 1) as [Q|Q].
  - (* one token *)
    rewrite Ch in Q. destruct kp as [|b [|b' kp]]; cbn [length] in Q; [lia| |lia].
    inversion FA as [|? [ty tx] ? ? (Nb & Db & kb & Hb & Eb) FA']; subst. inversion FA'; subst. injection Eb as <- <-.
    inversion TO as [|? ? (O1 & O2 & O3) _]; subst. cbn [fst] in *.
    erewrite b_ret; [|eapply run_child0; [exact Hn|rewrite Tn; reflexivity|eassumption]].
    erewrite b_ret; [|eapply run_type; exact Hb].
    destruct (ntype_eqb (c_type kb) IDENTIFIER) eqn:TI.
    + apply ntype_eqb_spec in TI. rewrite bind_assoc. erewrite b_ret; [|eapply run_string; [exact Hb|rewrite TI; reflexivity]].
      rewrite bind_ret. destruct (str_eqb (c_str kb) (zs "null")) eqn:EN.
      * rewrite bind_assoc. erewrite b_ret; [|eapply run_pos; exact Hb]. erewrite b_ret; [|apply run_new].
        assert (K2 : keeps (x_parents x) h (h ++ [blank NULL_TOKEN (c_pos kb)])) by apply keeps_app.
        eapply Go with (cb := blank NULL_TOKEN (c_pos kb)) (val := [(NULL_TOKEN, [])]).
        -- apply keeps_app.
        -- apply (inv_keep h); auto. intros a Ha. apply (similar_keeps []); [apply keeps_app|auto].
        -- apply nth_mid.
        -- discriminate.
        -- discriminate.
        -- intro J. apply (inv_lt _ _ _ _ I) in J. lia.
        -- eexists. split; [apply nth_mid|]. reflexivity.
        -- exists cn. split; [rewrite nth_error_app1 by lia; exact Hn|exact Tn].
        -- cbn [value_of]. rewrite TI, EN. reflexivity.
      * rewrite bind_ret. eapply Go with (val := [(c_type kb, c_str kb)]); [apply keeps_refl|exact I|exact Hb|exact O3| |exact Nb| |eauto|].
        -- rewrite TI. discriminate.
        -- exists kb. split; [exact Hb|]. rewrite TI. reflexivity.
        -- cbn [value_of]. rewrite TI, EN. reflexivity.
    + rewrite bind_ret. rewrite bind_ret. eapply Go with (val := [(c_type kb, c_str kb)]); [apply keeps_refl|exact I|exact Hb|exact O3|exact Hd|exact Nb| |eauto|].
      * exists kb. split; [exact Hb|]. destruct (ntype_eqb (c_type kb) LIST) eqn:TL; [|reflexivity].
        apply ntype_eqb_spec in TL. rewrite TL in O1. discriminate.
      * cbn [value_of]. apply ntype_eqb_neq in TI. destruct (c_type kb); try reflexivity. congruence.
  - (* several, or none *)
    rewrite bind_assoc. erewrite b_ret; [|apply run_new]. rewrite bind_assoc.
    erewrite b_ret; [|eapply (run_take _ _ _ (length h) (blank LIST np)) with (k := cn); [apply nth_mid|reflexivity| |rewrite Tn; reflexivity|lia]].
    2:{ rewrite nth_error_app1 by lia. exact Hn. }
    rewrite bind_ret. rewrite put_mid. set (cl := with_ch (blank LIST np) (c_ch cn)).
    assert (EH : put (h ++ [cl]) n (with_ch cn []) = put h n (with_ch cn []) ++ [cl]).
    { clear -Ln. revert n Ln. induction h as [|y h' IH]; intros [|n] Ln; cbn in *; try lia; [reflexivity|]. rewrite IH by lia. reflexivity. }
    rewrite EH. set (h1 := put h n (with_ch cn [])). set (h2 := h1 ++ [cl]).
    assert (L1 : length h1 = length h) by (unfold h1; apply put_length).
    assert (Hl : nth_error h2 (length h) = Some cl) by (unfold h2; rewrite <- L1; apply nth_mid).
    erewrite b_ret; [|eapply run_type; exact Hl]. change (c_type cl) with LIST. tyeq. rewrite bind_ret. rewrite bind_ret.
    assert (K1 : keeps [n] h h1) by (apply keeps_put; cbn; auto).
    assert (K2 : keeps [n] h h2) by (eapply keeps_trans; [exact K1|apply keeps_app]).
    assert (I1 : inv h1 x s) by apply NV.
    assert (I2 : inv h2 x s).
    { apply (inv_keep h1); auto; [apply keeps_app|]. intros a Ha. apply (similar_keeps []); [apply keeps_app|auto]. }
    assert (TKA : tokens_at h2 (x_parents x) (length h) toks).
    { exists cl. split; [exact Hl|]. change (c_type cl) with LIST. rewrite ntype_eqb_refl. cbn [c_ch cl with_ch]. rewrite Ch.
      eapply Forall2_impl; [|exact FA]. intros a t (A1 & A2 & k & A3 & A4). split; [exact A1|]. exists k. split; [|exact A4].
      destruct K2 as [_ K2]. rewrite K2; auto; [now apply nth_lt in A3|]. cbn. intuition. }
    eapply Go with (cb := cl) (val := toks); [exact K2|exact I2|exact Hl|discriminate|discriminate| |exact TKA| |].
    + intro J. apply (inv_lt _ _ _ _ I) in J. lia.
    + exists (with_ch cn []). split; [unfold h2; rewrite nth_error_app1 by lia; unfold h1; apply put_same; exact Ln|exact Tn].
    + rewrite Ch in Q. rewrite (Forall2_length _ _ _ FA) in Q. destruct toks as [|[ty tx] [|t2 r]]; [reflexivity|cbn in Q; lia|]. cbn [value_of]. destruct ty; reflexivity.
Qed.

Lemma find_last n l : ~ In n l -> find_child n (l ++ [n]) = Some (length l).
Proof.
  induction l as [|a l IH]; cbn; intro H; [now rewrite Nat.eqb_refl|].
  replace (Nat.eqb n a) with false by (symmetry; apply Nat.eqb_neq; intuition). rewrite IH by intuition. reflexivity.
Qed.
Lemma erase_last n (l : list addr) : list_erase (length l) (l ++ [n]) = l.
Proof. rewrite erase_mid. apply app_nil_r. Qed.
Lemma Forall2_seq {A} (P : nat -> A -> Prop) : forall (r : list A) i, (forall j t, nth_error r j = Some t -> P (i + j)%nat t) -> Forall2 P (seq i (length r)) r.
Proof.
  induction r as [|t r IH]; intros i H; cbn; constructor.
  - specialize (H 0%nat t eq_refl). now rewrite Nat.add_0_r in H.
  - apply IH. intros j u E. specialize (H (S j) u E). now rewrite Nat.add_succ_r in H.
Qed.

(** Children of the open blocks are nodes of the heap. *)
Definition closed (h : heap) (x : ctx) : Prop :=
  forall a c b, In a (x_parents x) -> nth_error h a = Some c -> In b (c_ch c) -> (b < length h)%nat.

Section Items.
  Variables (h : heap) (nodes0 tail : list cell) (l : list item).
  Let base := (length h + length nodes0)%nat.
  Let h1 := h ++ (nodes0 ++ map item_node l) ++ tail.
  Hypothesis OK : Forall token_ok (tokens_of l).
  Lemma item_at j t : nth_error l j = Some t -> nth_error h1 (base + j) = Some (item_node t).
  Proof.
    intro E. unfold h1, base. rewrite nth_error_app2 by lia. pose proof (nth_lt _ _ _ E).
    rewrite nth_error_app1 by (rewrite app_length, map_length; lia).
    rewrite nth_error_app2 by lia. replace (length h + length nodes0 + j - length h - length nodes0)%nat with j by lia.
    now apply map_nth_error.
  Qed.
End Items.
Lemma items_flags h1 : forall l base, Forall token_ok (tokens_of l) ->
  (forall j t, nth_error l j = Some t -> nth_error h1 (base + j) = Some (item_node t)) ->
  existsb (flag_of h1 (zs "global")) (seq base (length l)) = existsb is_global l
  /\ existsb (flag_of h1 (zs "default")) (seq base (length l)) = existsb is_default l
  /\ Forall2 (fun a t => In a (seq base (length l)) /\ token_at h1 a t) (kept h1 (seq base (length l))) (tokens_of l).
Proof.
  induction l as [|i l IH]; intros base OK At; [repeat split; constructor|].
  assert (OK' : Forall token_ok (tokens_of l)) by (destruct i; cbn in OK; [now inversion OK|exact OK|exact OK]).
  destruct (IH (S base) OK') as (A & B & K).
  { intros j t E. rewrite Nat.add_succ_l, <- Nat.add_succ_r. apply At. exact E. }
  pose proof (At 0%nat i eq_refl) as H0. rewrite Nat.add_0_r in H0.
  cbn [length seq existsb]. unfold kept. cbn [filter].
  assert (FG : flag_of h1 (zs "global") base = is_global i /\ flag_of h1 (zs "default") base = is_default i).
  { unfold flag_of. rewrite H0. destruct i as [[ty tx]| |]; cbn [item_node leaf c_type c_str fst snd is_global is_default].
    - cbn in OK. inversion OK as [|? ? (O1 & O2 & O3) _]; subst. cbn [fst] in O2. apply ntype_eqb_neq in O2. rewrite O2. auto.
    - split; vm_compute; reflexivity.
    - split; vm_compute; reflexivity. }
  destruct FG as [F1 F2]. unfold is_flag at 1. rewrite F1, F2, A, B. split; [reflexivity|]. split; [reflexivity|].
  assert (K' : Forall2 (fun a t => In a (base :: seq (S base) (length l)) /\ token_at h1 a t) (kept h1 (seq (S base) (length l))) (tokens_of l)).
  { eapply Forall2_impl; [|exact K]. intros a t (I & T). split; [cbn [In]; auto|exact T]. }
  unfold kept in K'. destruct i as [[ty tx]| |]; cbn [is_global is_default orb negb].
  - unfold tokens_of in *. cbn [flat_map app]. constructor; [|exact K']. split; [cbn; auto|].
    exists (item_node (Tok (ty, tx))). split; [exact H0|reflexivity].
  - exact K'.
  - exact K'.
Qed.

Lemma assign_run h m ps x s k before after l : inv h x s -> closed h x -> event_ok (Assign k before after l) ->
  exists h' m', do_assign x k before after l (mkK h m ps) = Ret tt (mkK h' m' ps) /\ inv h' x (assign s k l) /\ closed h' x.
Proof.
  intros I Cl [TO Hd]. unfold do_assign. cbn [k_heap k_msgs k_paths].
  set (nodes := statement_nodes k before after l). set (n := (length h + length nodes)%nat).
  set (cn := node_with COMPONENT_VALUE (seq (length h) (length nodes))).
  set (h1 := h ++ nodes ++ [cn]).
  pose proof I as (lp & cr & E & N & Fr & R & T & V).
  destruct (x_parents x) as [|P rest] eqn:EP; [destruct lp; discriminate|].
  assert (L1 : length h1 = S n) by (unfold h1, n; rewrite !app_length; cbn [length]; lia).
  assert (K01 : forall A, keeps A h h1) by (intro; apply keeps_app).
  assert (I1 : inv h1 x s).
  { apply (inv_keep h); auto. intros a Ha. apply (similar_keeps []); auto. }
  assert (InP : In P (x_parents x)) by (rewrite EP; cbn; auto).
  assert (LP : (P < length h)%nat) by (eapply inv_lt; [exact I|exact InP]).
  assert (HP : exists cp, nth_error h P = Some cp /\ has_children (c_type cp) = true).
  { destruct lp as [|a lp]; cbn [app] in E.
    - injection E as -> _. exists cr. split; [exact R|]. rewrite T. reflexivity.
    - injection E as -> _. inversion Fr as [|? ? ? ? (c & Hc & Tc & _) _]; subst. exists c. split; [exact Hc|]. rewrite Tc. reflexivity. }
  destruct HP as (cp & HP & CP).
  assert (Hn1 : nth_error h1 n = Some cn) by (unfold h1, n; rewrite app_assoc, <- app_length; apply nth_mid).
  assert (HP1 : nth_error h1 P = Some cp) by (unfold h1; rewrite nth_error_app1 by lia; exact HP).
  assert (Nn : ~ In n (c_ch cp)) by (intro J; specialize (Cl P cp n InP HP J); unfold n in Cl; lia).
  assert (NnP : n <> P) by (unfold n; lia).
  erewrite b_ret; [|eapply run_add with (k := cn); [exact HP1|exact CP|exact Hn1|discriminate|discriminate]].
  set (h2 := put h1 P (with_ch cp (c_ch cp ++ [n]))).
  assert (Ho : forall a, a <> P -> nth_error h2 a = nth_error h1 a) by (intros a Ha; apply put_other; auto).
  assert (Nd : forall j c, nth_error nodes j = Some c -> nth_error h2 (length h + j) = Some c).
  { intros j c Ec. rewrite Ho by lia. unfold h1. rewrite nth_error_app2 by lia. replace (length h + j - length h)%nat with j by lia.
    rewrite nth_error_app1; [exact Ec|]. now apply nth_lt in Ec. }
  set (nw := length (space before)). set (na := length (space after)).
  assert (Sh : seq (length h) (length nodes) = length h :: seq (S (length h)) nw ++ (S (length h) + nw)%nat :: seq (S (S (length h) + nw)) na ++ seq (S (S (length h) + nw) + na)%nat (length l)).
  { assert (Ln : length nodes = (1 + (nw + (1 + (na + length l))))%nat).
    { unfold nodes, statement_nodes. cbn [length]. rewrite app_length. cbn [length]. rewrite app_length, map_length. fold nw na. lia. }
    rewrite Ln. rewrite seq_app. cbn [seq app]. f_equal. rewrite seq_app.
    replace (length h + 1)%nat with (S (length h)) by lia. f_equal. rewrite seq_app. cbn [seq app].
    f_equal. replace (S (length h) + nw + 1)%nat with (S (S (length h) + nw)) by lia. rewrite seq_app. reflexivity. }
  assert (At : forall j t, nth_error l j = Some t -> nth_error h2 (S (S (length h) + nw) + na + j) = Some (item_node t)).
  { intros j t Et. replace (S (S (length h) + nw) + na + j)%nat with (length h + (1 + (nw + (1 + (na + j)))))%nat by lia.
    apply Nd. unfold nodes, statement_nodes. cbn [nth_error Nat.add]. rewrite nth_error_app2 by (fold nw; lia).
    fold nw. replace (nw + S (na + j) - nw)%nat with (S (na + j)) by lia. cbn [nth_error].
    rewrite nth_error_app2 by (fold na; lia). fold na. replace (na + j - na)%nat with j by lia. now apply map_nth_error. }
  destruct (items_flags h2 l (S (S (length h) + nw) + na)%nat TO At) as (Fg & Fd & Kp).
  assert (WS : forall (b : bool) i, (forall c, nth_error (space b) 0 = Some c -> nth_error h2 i = Some c) -> ws_at h2 (seq i (length (space b)))).
  { intros b i Hi. destruct b; cbn [space length seq]; [|left; reflexivity]. right. eexists i, _. split; [reflexivity|].
    split; [apply Hi; reflexivity|]. reflexivity. }
  edestruct (prelude x P rest h2 m ps n (with_ch cp (c_ch cp ++ [n])) (length (c_ch cp)) cn (length h) (seq (S (length h)) nw) (S (length h) + nw)%nat
               (seq (S (S (length h) + nw)) na) (seq (S (S (length h) + nw) + na)%nat (length l)) (leaf (VARIABLE, k)) (leaf (COLON, []))) as [m' PR].
  - exact EP.
  - unfold h2. apply put_same. lia.
  - exact CP.
  - cbn [c_ch with_ch]. now apply find_last.
  - rewrite Ho by auto. exact Hn1.
  - reflexivity.
  - exact Sh.
  - exact NnP.
  - intros a Ia. cbn [cn node_with c_ch] in Ia. apply in_seq in Ia. split; [unfold n; lia|]. split; [lia|].
    destruct (nth_error nodes (a - length h)) as [c|] eqn:Ec; [|apply nth_error_None in Ec; lia].
    exists c. replace a with (length h + (a - length h))%nat by lia. now apply Nd.
  - apply WS. intros c Ec. replace (S (length h)) with (length h + 1)%nat by lia. apply Nd. unfold nodes, statement_nodes.
    destruct before; cbn in Ec |- *; [exact Ec|discriminate].
  - apply WS. intros c Ec. replace (S (S (length h) + nw)) with (length h + (1 + (nw + (1 + 0))))%nat by lia. apply Nd. unfold nodes, statement_nodes. cbn [nth_error Nat.add].
    rewrite nth_error_app2 by (fold nw; lia). fold nw. replace (nw + 1 - nw)%nat with 1%nat by lia.
    destruct after; cbn in Ec |- *; [exact Ec|discriminate].
  - replace (length h) with (length h + 0)%nat at 1 by lia. apply Nd. reflexivity.
  - replace (S (length h) + nw)%nat with (length h + (1 + (nw + 0)))%nat by lia. apply Nd. unfold nodes, statement_nodes. cbn [nth_error Nat.add].
    rewrite nth_error_app2 by (fold nw; lia). fold nw. replace (nw + 0 - nw)%nat with 0%nat by lia. reflexivity.
  - reflexivity.
  - destruct l as [|i l']; [exact Logic.I|]. cbn [length seq]. intros c Ec. pose proof (At 0%nat i eq_refl) as Q. rewrite Nat.add_0_r in Q.
    rewrite Q in Ec. injection Ec as <-. destruct i as [[ty tx]| |]; cbn; [|discriminate|discriminate]. exact Hd.
  - cbn [c_ch with_ch c_pos cn node_with] in PR. rewrite erase_last, with_ch_twice in PR. rewrite Fg, Fd in PR.
    assert (E2 : put h2 P (with_ch cp (c_ch cp)) = h1).
    { unfold h2. rewrite put_put. replace (with_ch cp (c_ch cp)) with cp by (destruct cp; reflexivity). apply put_id. exact HP1. }
    rewrite E2 in PR. set (kp := kept h2 _) in *. set (cn3 := with_ch _ kp) in PR. set (h3 := put h1 n cn3) in PR.
    assert (K13 : keeps [n] h1 h3) by (apply keeps_put; cbn; auto).
    assert (K03 : forall A, keeps A h h3).
    { intro A. destruct (K01 A) as [La Ka], K13 as [Lb Kb]. split; [lia|]. intros b Hb Nb. rewrite Kb; [apply Ka; auto|lia|]. cbn. unfold n. lia. }
    assert (I3 : inv h3 x s).
    { apply (inv_keep h); auto. intros a Ha. apply (similar_keeps []); auto. }
    assert (Fresh : forall a, (length h <= a)%nat -> ~ In a (x_parents x)) by (intros a La J; apply (inv_lt _ _ _ _ I) in J; lia).
    assert (Hv3 : nth_error h3 (length h) = Some (leaf (VARIABLE, k))).
    { unfold h3. rewrite put_other by (unfold n, nodes, statement_nodes; cbn [length]; lia).
      rewrite <- (Ho (length h)) by lia. replace (length h) with (length h + 0)%nat at 1 by lia. apply Nd. reflexivity. }
    edestruct (finish_run h3 m' ps x s n cn3 kp (tokens_of l) (length h) (leaf (VARIABLE, k)) (existsb is_global l) (existsb is_default l) p0) as (h' & FR & K' & KK & I').
    + exact I3.
    + apply Fresh. unfold n. lia.
    + unfold h3. apply put_same. lia.
    + reflexivity.
    + reflexivity.
    + intro c'. apply (inv_keep h); auto.
      * destruct (K03 (x_parents x)) as [La Ka]. split; [now rewrite put_length|]. intros b Lb Nb. rewrite put_other by (unfold n; lia). now apply Ka.
      * intros a Ha c Hc. exists c. rewrite put_other by (unfold n; apply nth_lt in Hc; lia). rewrite (proj2 (K03 [])); auto. now apply nth_lt in Hc.
    + exact Hv3.
    + reflexivity.
    + unfold n, nodes, statement_nodes. cbn [length]. lia.
    + eapply Forall2_impl; [|exact Kp]. intros a t (Ia & c & Hc & Et). apply in_seq in Ia.
      assert (La : (length h <= a)%nat) by lia.
      assert (Da : a <> n) by (intros ->; rewrite Ho, Hn1 in Hc by auto; injection Hc as <-; unfold n in Ia; revert Ia; unfold nodes, statement_nodes; cbn [length]; rewrite app_length; cbn [length]; rewrite app_length, map_length; fold nw na; lia).
      split; [now apply Fresh|]. split; [exact Da|].
      exists c. split; [|exact Et]. unfold h3. rewrite put_other by auto. rewrite <- Ho by lia. exact Hc.
    + exact TO.
    + exact Hd.
    + exists h', m'. split; [etransitivity; [exact PR|exact FR]|]. split; [exact I'|].
      intros a c b Ia Ha Ib. destruct (nth_error h3 a) as [c3|] eqn:H3; [|apply nth_error_None in H3; apply (inv_lt _ _ _ _ I3) in Ia; lia].
      destruct (KK a c3 Ia H3) as (c4 & H4 & E4). rewrite Ha in H4. injection H4 as <-. rewrite E4 in Ib.
      assert (H0 : nth_error h a = Some c3) by (rewrite <- (proj2 (K03 [])); auto; now apply (inv_lt _ _ _ _ I)).
      specialize (Cl a c3 b Ia H0 Ib). destruct (K03 []) as [A0 _], K' as [A1 _]. lia.
Qed.

(** ** Histories *)
Lemma frames_keep h h' F G l bl : keeps F h h' -> (forall b, In b G -> In b F \/ (length h <= b)%nat) -> (forall a, In a l -> similar h h' a) ->
  Forall2 (frame_ok h F) l bl -> Forall2 (frame_ok h' G) l bl.
Proof.
  intros K I S Fr. induction Fr; constructor.
  - eapply frame_keep; eauto. apply S. cbn; auto.
  - apply IHFr. intros a Ha. apply S. cbn; auto.
Qed.
Lemma value_read_run h m ps F v val : value_at h F v val -> value_read v (mkK h m ps) = Ret val (mkK h m ps).
Proof.
  intros (cv & a & b & Hv & Tv & Ch & _ & _ & ct & Hb & K). unfold value_read.
  erewrite b_ret; [|eapply run_child1; [exact Hv|rewrite Tv; reflexivity|exact Ch]].
  erewrite b_ret; [|eapply run_load; exact Hb]. destruct (ntype_eqb (c_type ct) LIST); [|rewrite K; reflexivity].
  cbn [k_heap]. f_equal. revert K. generalize (c_ch ct). intro l.
  induction 1 as [|y t l r (_ & k & Hk & E) K IH]; [reflexivity|]. cbn [map]. rewrite Hk, E, IH. reflexivity.
Qed.

Lemma history_run : forall l h m ps x s, inv h x s -> closed h x -> Forall event_ok l ->
  exists st, history x l (mkK h m ps) = Ret (reads s l) st.
Proof.
  induction l as [|e l IH]; intros h m ps x s I Cl OK; [eexists; reflexivity|].
  inversion OK as [|? ? Oe OK']; subst. destruct e as [b| |k before after i|k]; cbn [history reads].
  - (* Enter *)
    erewrite b_ret; [|apply run_new].
    erewrite b_ret; [|eapply run_set_boolean; [apply nth_mid|reflexivity]]. rewrite put_mid.
    set (cb := with_bool _ b). apply IH; [| |exact OK'].
    + destruct I as (lp & cr & E & N & Fr & R & T & V). exists (length h :: lp), cr. cbn [push x_parents x_root app]. rewrite E.
      assert (Lt : forall a, In a (lp ++ [x_root x]) -> (a < length h)%nat).
      { intros a Ha. eapply (inv_lt h x s); [|rewrite E; exact Ha]. exists lp, cr. auto 7. }
      split; [reflexivity|]. split; [constructor; [intro J; apply Lt in J; lia|exact N]|].
      assert (Sub : forall a, In a (length h :: lp ++ [x_root x]) -> In a (lp ++ [x_root x]) \/ (length h <= a)%nat) by (intros a [<-|Ha]; auto).
      assert (K : keeps (lp ++ [x_root x]) h (h ++ [cb])) by apply keeps_app.
      split; [|split; [rewrite nth_error_app1 by (now apply nth_lt in R); exact R|split; [exact T|eapply vars_keep; [exact K|exact Sub|exact V]]]].
      cbn [blocks]. constructor.
      * exists cb. split; [apply nth_mid|]. split; [reflexivity|]. destruct b; [|reflexivity]. split; [reflexivity|]. intro k. reflexivity.
      * change (length h :: lp ++ [x_root x]) with ((length h :: lp) ++ [x_root x]) in Sub.
        apply (frames_keep h _ (lp ++ [x_root x])); auto. intros a Ha. apply (similar_keeps []); [apply keeps_app|auto].
    + intros a c y Ia Ha Iy. cbn [push x_parents] in Ia. rewrite app_length. cbn [length]. destruct Ia as [<-|Ia].
      * rewrite nth_mid in Ha. injection Ha as <-. destruct Iy.
      * rewrite nth_error_app1 in Ha by (now apply (inv_lt _ _ _ _ I)). specialize (Cl a c y Ia Ha Iy). lia.
  - (* Exit *)
    assert (P : pop x = x \/ exists a rest, x_parents x = a :: rest /\ x_parents (pop x) = rest /\ x_root (pop x) = x_root x /\ rest <> []).
    { unfold pop. destruct (x_parents x) as [|a [|b r]] eqn:E; auto. right. exists a, (b :: r). repeat split; auto. discriminate. }
    destruct P as [P|(a & rest & P1 & P2 & P3 & P4)].
    + (* the sheet alone *)
      assert (B : blocks s = []).
      { destruct I as (lp & cr & E & N & Fr & _). unfold pop in P. destruct lp as [|a lp]; [inversion Fr; reflexivity|].
        exfalso. cbn [app] in E. destruct (lp ++ [x_root x]) as [|b r] eqn:Q; [destruct lp; discriminate|]. rewrite E in P.
        assert (Z : x_parents x = b :: r) by (rewrite <- P; reflexivity). rewrite E in Z. injection Z as Z1 Z2.
        apply (f_equal (@length addr)) in Z2. cbn in Z2. lia. }
      rewrite P, B. cbn [tl]. replace (mkScopes [] (sheet s)) with s by (rewrite <- B; destruct s; reflexivity). now apply IH.
    + apply IH; [| |exact OK'].
      * destruct I as (lp & cr & E & N & Fr & R & T & V). rewrite E in P1. destruct lp as [|a' lp]; cbn [app] in P1; injection P1 as <- P1.
        { subst rest. congruence. }
        exists lp, cr. rewrite P2, P3. split; [congruence|]. split; [now inversion N|].
        assert (Sub : forall y, In y (lp ++ [x_root x]) -> In y ((a' :: lp) ++ [x_root x]) \/ (length h <= y)%nat) by (intros y Hy; left; cbn; auto).
        assert (K : keeps ((a' :: lp) ++ [x_root x]) h h) by apply keeps_refl.
        inversion Fr; subst. cbn [tl].
        split; [|split; [exact R|split; [exact T|eapply vars_keep; [exact K|exact Sub|exact V]]]].
        eapply frames_keep; [exact K|exact Sub| |eassumption]. intros z Hz c Hc. eauto.
      * intros y c z Iy. apply Cl. rewrite P1. rewrite P2 in Iy. cbn; auto.
  - (* Assign *)
    destruct (assign_run h m ps x s k before after i I Cl Oe) as (h' & m' & R & I' & Cl').
    erewrite b_ret; [|exact R]. now apply IH.
  - (* Read *)
    destruct (get_run h m ps x s k I) as (o & O & W). erewrite b_ret; [|exact O].
    destruct (IH h m ps x s I Cl OK') as (st & R). exists st.
    destruct o as [v|].
    + destruct W as (val & E & W). rewrite bind_assoc. erewrite b_ret; [|eapply value_read_run; exact W]. rewrite bind_ret.
      erewrite b_ret; [|exact R]. rewrite E. reflexivity.
    + rewrite bind_ret. erewrite b_ret; [|exact R]. rewrite W. reflexivity.
Qed.
