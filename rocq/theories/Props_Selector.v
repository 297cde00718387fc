(** * C55: the selectors of a rule

    A selector is accepted exactly when the grammar of SelectorSpec.v has it,
    and it is rewritten the way the grammar says; a refusal is always reported;
    no exception is thrown on the trees the parser builds. *)

From Coq Require Import String ZArith List Bool Lia.
From Verif Require Import Base NthChild ArgSpec Parser ArgProofs Props_Parse Selector SelectorSpec SelectorProofs.
Import ListNotations.
Open Scope string_scope. Open Scope list_scope. Open Scope Z_scope.

(** The grammar for given validation scripts: a name is valid when the script
    reports no error; the arguments of an nth function are read by the An+B
    parser (C16) from their text. *)
Definition selects (k : checks) : list node -> list node -> Prop :=
  let ok sc name := existsb is_error (k_run k sc name) = false in
  selector (ok PseudoClasses) (ok PseudoNthFunctions) (ok PseudoFunctions) (ok PseudoElements) (ok Languages) (ok Countries)
    (fun l v => exists n, nth_parse (nth_make 0 0) (concat (map (k_text k) l)) = Some (true, n) /\ v = nth_value n).

(** What holds of the scripts of csspp: "not" is not the name of an nth function. *)
Definition sensible (k : checks) : Prop := existsb is_error (k_run k PseudoNthFunctions (zs "not")) = true.

(** Accepted exactly when it is in the grammar, with the output of the grammar. *)
Theorem c55_grammar : forall k n n' s, sensible k ->
  (exists s', selector_list k n s = Ret (Some n') s') <-> (exists l, selects k (n_ch n) l /\ n' = set_ch n l).
Proof.
  intros k n n' s Hk. apply list_iff. unfold valid. unfold sensible in Hk. congruence.
Qed.

(** The grammar is not ambiguous. *)
Theorem c55_one_output : forall k l a b, sensible k -> selects k l a -> selects k l b -> a = b.
Proof.
  intros k l a b Hk A B. set (n := set_ch (mk ARG (mkPos 1 1 1)) l). set (s := mkPS [] (mkPos 1 1 1) []).
  destruct (proj2 (c55_grammar k n (set_ch n a) s Hk)) as (s1 & R1); [now exists a|].
  destruct (proj2 (c55_grammar k n (set_ch n b) s Hk)) as (s2 & R2); [now exists b|].
  rewrite R1 in R2. injection R2 as R2 _. exact R2.
Qed.

(** A refusal always reports an error, an acceptance never does (for one
    selector; repeated identifiers are looked for after that, see below). *)
Theorem c55_reported : forall k n s r s', selector_list k n s = Ret r s' ->
  exists l, s' = mkPS (ps_toks s) (ps_eof s) (ps_msgs s ++ l)
    /\ (r = None <-> exists m, In m l /\ is_error m = true).
Proof.
  intros k n s r s' H. pose proof (says_list k n s) as S0. rewrite H in S0. destruct S0 as (l & -> & Hl). exists l. split; [reflexivity|].
  rewrite <- existsb_exists. unfold clean, dirty in Hl. destruct r; cbn in Hl; rewrite Hl; split; congruence.
Qed.

(** ** A whole rule: the selectors between the commas *)
Definition between_commas (body : list node) : list (list node) :=
  map trim (removelast (segments COMMA body)) ++ [trim_left (last (segments COMMA body) [])].

Lemma hashes_ret p : forall l seen err s, exists x s', hashes p l seen err s = Ret x s'.
Proof.
  induction l as [|x r IH]; intros seen err s; cbn [hashes]; [now eexists; eexists|].
  destruct (is x HASH); [|apply IH]. destruct (known seen (n_str x)); [|apply IH]. unfold bind at 1. cbn. apply IH.
Qed.
Lemma check_hashes_ret arg s : exists s', check_hashes arg s = Ret tt s'.
Proof.
  unfold check_hashes, bind. destruct (hashes_ret (n_pos arg) (n_ch arg) [] false s) as (x & s' & ->).
  destruct (negb (snd x) && Nat.ltb 1 (length (fst x))); now eexists.
Qed.
Lemma n_ch_set n l : n_ch (set_ch n l) = l.
Proof. destruct n. reflexivity. Qed.
Lemma set_ch_arg code sep p a b : set_ch (new_arg code sep p a) b = new_arg code sep p b.
Proof. reflexivity. Qed.

Section Rule.
  Variables (code : ntype -> Z) (k : checks) (p : position).
  Hypothesis Hk : sensible k.
  Notation arg := (new_arg code COMMA p).

  Lemma selectors_run : forall l outs, Forall2 (selects k) l outs -> forall blk acc s,
    (blk = [] \/ exists b, blk = [b] /\ n_type b = OPEN_CURLYBRACKET) ->
    exists s', selectors k (map arg l ++ blk) acc s = Ret (Some (acc ++ map arg outs ++ blk)) s'.
  Proof.
    induction 1 as [|x y l outs H F IH]; intros blk acc s B; cbn [map app].
    - destruct B as [->|(b & -> & B)]; cbn [selectors].
      + exists s. now rewrite app_nil_r.
      + apply is_spec in B. rewrite B. now exists s.
    - cbn [selectors]. change (is (arg x) OPEN_CURLYBRACKET) with false. change (is (arg x) ARG) with true. cbn [negb].
      destruct (proj2 (c55_grammar k (arg x) (arg y) s Hk)) as (s1 & R).
      { exists y. split; [exact H|now rewrite set_ch_arg]. }
      unfold bind at 1. rewrite R. destruct (check_hashes_ret (arg y) s1) as (s2 & R2). unfold bind. rewrite R2.
      destruct (IH blk (acc ++ [arg y]) s2 B) as (s3 & R3). exists s3. rewrite R3. rewrite <- app_assoc. reflexivity.
  Qed.
  Lemma selectors_only : forall l blk acc s res s', (blk = [] \/ exists b, blk = [b] /\ n_type b = OPEN_CURLYBRACKET) ->
    selectors k (map arg l ++ blk) acc s = Ret (Some res) s' -> exists outs, Forall2 (selects k) l outs /\ res = acc ++ map arg outs ++ blk.
  Proof.
    induction l as [|x l IH]; intros blk acc s res s' B H; cbn [map app] in H.
    - exists []. split; [constructor|]. destruct B as [->|(b & -> & B)]; cbn [selectors] in H.
      + injection H as <- <-. cbn. now rewrite app_nil_r.
      + apply is_spec in B. rewrite B in H. injection H as <- <-. reflexivity.
    - cbn [selectors] in H. change (is (arg x) OPEN_CURLYBRACKET) with false in H. change (is (arg x) ARG) with true in H. cbn [negb] in H.
      unfold bind at 1 in H. destruct (selector_list k (arg x) s) as [[y|] s1|e s1|s1|] eqn:R; try discriminate.
      destruct (proj1 (c55_grammar k (arg x) y s Hk)) as (o & O & ->); [now exists s1|]. rewrite set_ch_arg in H.
      destruct (check_hashes_ret (arg o) s1) as (s2 & R2). unfold bind in H. rewrite R2 in H.
      destruct (IH _ _ _ _ _ B H) as (outs & F & ->). exists (o :: outs). split; [now constructor|]. rewrite <- app_assoc. reflexivity.
  Qed.
End Rule.

Theorem c55_rule : forall code k n n' body blk s, sensible k -> splittable n body blk ->
  (exists s', parse_selector code k n s = Ret (Some n') s')
  <-> (accepted (segments COMMA body) /\ exists outs, Forall2 (selects k) (between_commas body) outs
        /\ n' = set_ch n (map (new_arg code COMMA (n_pos n)) outs ++ blk)).
Proof.
  intros code k n n' body blk s Hk Sp. unfold parse_selector, bind.
  assert (Bk : blk = [] \/ exists b, blk = [b] /\ n_type b = OPEN_CURLYBRACKET) by now destruct Sp as (_ & _ & _ & ? & _).
  split.
  - intros (s' & H). assert (Ac : accepted (segments COMMA body)).
    { destruct (accept (segments COMMA body)) eqn:A.
      - apply accept_spec in A; [assumption|apply segments_ne].
      - exfalso. destruct (c28_refused code n COMMA body blk s (or_introl eq_refl) Sp) as (n1 & m & R & _).
        + intros Q. apply accept_spec in Q; [congruence|apply segments_ne].
        + rewrite R in H. discriminate. }
    split; [assumption|]. rewrite (c28_accepted code n COMMA body blk s (or_introl eq_refl) Sp Ac) in H. cbn [fst snd negb] in H.
    rewrite n_ch_set in H.
    replace (map (fun l => new_arg code COMMA (n_pos n) (trim l)) (removelast (segments COMMA body)) ++
      [new_arg code COMMA (n_pos n) (trim_left (last (segments COMMA body) []))] ++ blk)
      with (map (new_arg code COMMA (n_pos n)) (between_commas body) ++ blk) in H
      by (unfold between_commas; rewrite map_app, map_map, <- app_assoc; reflexivity).
    destruct (selectors k _ [] s) as [[l|] s1|e s1|s1|] eqn:R; try discriminate. injection H as <- <-.
    destruct (selectors_only code k (n_pos n) Hk _ _ _ _ _ _ Bk R) as (outs & F & ->). exists outs. split; [assumption|].
    now destruct n.
  - intros (Ac & outs & F & ->). rewrite (c28_accepted code n COMMA body blk s (or_introl eq_refl) Sp Ac). cbn [fst snd negb].
    rewrite n_ch_set.
    replace (map (fun l => new_arg code COMMA (n_pos n) (trim l)) (removelast (segments COMMA body)) ++
      [new_arg code COMMA (n_pos n) (trim_left (last (segments COMMA body) []))] ++ blk)
      with (map (new_arg code COMMA (n_pos n)) (between_commas body) ++ blk)
      by (unfold between_commas; rewrite map_app, map_map, <- app_assoc; reflexivity).
    destruct (selectors_run code k (n_pos n) Hk _ _ F blk [] s Bk) as (s1 & R). rewrite R. exists s1. now destruct n.
Qed.

(** ** Repeated identifiers *)
Definition ids (l : list node) : list str := map n_str (filter (fun x => ntype_eqb (n_type x) HASH) l).

Lemma known_In seen s : known seen s = true <-> In s seen.
Proof.
  unfold known. rewrite existsb_exists. split; [intros (x & X & E)|intros X; exists s; split; [exact X|apply str_eqb_refl]].
  apply str_eqb_spec in E. now subst.
Qed.
Lemma hashes_spec p : forall l seen err s, NoDup seen -> exists seen' m,
  hashes p l seen err s = Ret (seen', err || existsb is_error m) (more s m)
  /\ (existsb is_error m = false <-> NoDup (ids l ++ seen))
  /\ (existsb is_error m = false -> m = [] /\ length seen' = length (ids l ++ seen)).
Proof.
  induction l as [|x r IH]; intros seen err s ND; cbn [hashes].
  - exists seen, []. cbn. rewrite orb_false_r, more_nil. split; [reflexivity|]. split; [now split|now split].
  - unfold ids. cbn [filter]. unfold is. destruct (ntype_eqb (n_type x) HASH) eqn:E; cbn [map app]; fold (ids r); [|apply IH; assumption].
    destruct (known seen (n_str x)) eqn:K.
    + apply known_In in K. unfold bind at 1. cbn [report]. unfold report.
      destruct (IH seen true (more s [mkMsg LError p "found # twice in selector"]) ND) as (seen' & m & R & I1 & I2).
      exists seen', (mkMsg LError p "found # twice in selector" :: m). unfold more in R at 1. rewrite R. cbn. rewrite orb_true_r, more_more.
      split; [reflexivity|]. split; [|discriminate]. split; [discriminate|]. intros N. inversion N as [|? ? N1 N2]; subst. exfalso. apply N1.
      apply in_app_iff. now right.
    + assert (K' : ~ In (n_str x) seen) by (rewrite <- known_In; congruence).
      destruct (IH (n_str x :: seen) err s) as (seen' & m & R & I1 & I2); [now constructor|].
      exists seen', m. split; [exact R|]. split.
      * rewrite I1. split; intros N.
        -- apply NoDup_remove in N. constructor; tauto.
        -- inversion N as [|? ? N1 N2]; subst. now apply NoDup_Add with (a := n_str x) (l := ids r ++ seen); [apply Add_app|split].
      * intros Z. destruct (I2 Z) as [-> ->]. split; [reflexivity|]. cbn [length]. rewrite !app_length. cbn [length]. apply Nat.add_succ_r.
Qed.

(** Once a selector is accepted an error is reported exactly when one of its
    identifiers is there twice, and a remark when it has several. *)
Theorem c55_identifiers : forall arg s, exists l,
  check_hashes arg s = Ret tt (mkPS (ps_toks s) (ps_eof s) (ps_msgs s ++ l))
  /\ ((exists m, In m l /\ is_error m = true) <-> ~ NoDup (ids (n_ch arg)))
  /\ (NoDup (ids (n_ch arg)) -> (l = [] <-> (length (ids (n_ch arg)) <= 1)%nat))
  /\ (forall m, In m l -> m_pos m = n_pos arg \/ is_error m = false).
Proof.
  intros arg s. destruct (hashes_spec (n_pos arg) (n_ch arg) [] false s (NoDup_nil _)) as (seen & m & R & I1 & I2).
  rewrite app_nil_r in I1, I2. unfold check_hashes, bind. rewrite R. cbn [fst snd orb].
  assert (PP : forall x, In x m -> m_pos x = n_pos arg).
  { assert (G : forall l seen err s x s', hashes (n_pos arg) l seen err s = Ret x s' -> exists m, s' = more s m /\ forall z, In z m -> m_pos z = n_pos arg).
    { clear. induction l as [|y r IH]; intros seen err s x s' H; cbn [hashes] in H.
      - injection H as <- <-. exists []. rewrite more_nil. now split; [|intros ? []].
      - destruct (is y HASH); [|eapply IH; exact H]. destruct (known seen (n_str y)); [|eapply IH; exact H].
        unfold bind at 1, report at 1 in H. destruct (IH _ _ _ _ _ H) as (m & -> & M). 
        exists (mkMsg LError (n_pos arg) "found # twice in selector" :: m). split.
        + change (mkPS (ps_toks s) (ps_eof s) (ps_msgs s ++ [mkMsg LError (n_pos arg) "found # twice in selector"])) with (more s [mkMsg LError (n_pos arg) "found # twice in selector"]).
          now rewrite more_more.
        + intros z [<-|Z]; [reflexivity|now apply M]. }
    destruct (G _ _ _ _ _ _ R) as (m' & E & M). assert (m' = m); [|now subst].
    unfold more in E. injection E as E. now apply app_inv_head in E. }
  destruct (existsb is_error m) eqn:E.
  - exists m. split; [reflexivity|]. split.
    { split; [intros _ N; apply I1 in N; discriminate|intros _]. apply existsb_exists in E. destruct E as (x & X & Y). now exists x. }
    split; [intros N; apply I1 in N; discriminate|]. intros x X. left. now apply PP.
  - destruct (I2 eq_refl) as [-> L]. rewrite more_nil. cbn [negb andb]. rewrite L.
    pose proof (proj1 I1 eq_refl) as ND.
    destruct (Nat.ltb_spec 1 (length (ids (n_ch arg)))) as [H|H].
    + eexists. split; [unfold emit; reflexivity|]. split.
      { split; [intros (x & [<-|[]] & X); discriminate|contradiction]. }
      split; [intros _; split; [discriminate|lia]|]. intros x [<-|[]]. now right.
    + exists []. rewrite app_nil_r. destruct s. split; [reflexivity|]. split; [|split; [intros _; split; [lia|reflexivity]|intros x []]].
      split; [intros (x & [] & _)|contradiction].
Qed.

(** ** No exception *)
(** What the parser guarantees of one child: square brackets are not empty; and
    the numbers of the arguments of a function are not huge (C16). *)
Definition fine (k : checks) (x : node) : Prop :=
  (n_type x = OPEN_SQUAREBRACKET -> n_ch x <> [])
  /\ (n_type x = FUNCTION -> nth_parse (nth_make 0 0) (concat (map (k_text k) (n_ch x))) <> None).
(** A selector: not empty, no white space at the end, and no empty :not(). *)
Definition ready (k : checks) (l : list node) : Prop :=
  l <> [] /\ (forall a w, l = a ++ [w] -> n_type w <> WHITESPACE) /\ Forall (fine k) l
  /\ (forall x, In x l -> n_type x = FUNCTION -> n_str x = zs "not" -> n_ch x <> [] /\ Forall (fine k) (n_ch x)).

Lemma attribute_total done b rest s : n_ch b <> [] -> exists r s', attribute_check done b rest s = Ret r s'.
Proof.
  intros N. unfold attribute_check. destruct (n_ch b) as [|x0 r0] eqn:E; [contradiction|]. rewrite <- E.
  repeat match goal with |- exists r s', (match ?x with _ => _ end) _ = _ => destruct x end; now eexists; eexists.
Qed.
Lemma lang_total k f s : exists r s', lang_check k f s = Ret r s'.
Proof.
  unfold lang_check. destruct (n_ch f) as [|x [|? ?]]; try (now eexists; eexists). destruct (is x IDENTIFIER); [|now eexists; eexists].
  unfold bind. rewrite run_validation_run. destruct (passes _); [|now eexists; eexists].
  destruct (before_dash _); [now eexists; eexists|]. rewrite run_validation_run. now eexists; eexists.
Qed.
Lemma pseudo_total k p f s : nth_parse (nth_make 0 0) (concat (map (k_text k) (n_ch f))) <> None ->
  exists r s', pseudo_function k p f s = Ret r s'.
Proof.
  intros N. unfold pseudo_function. unfold bind at 1. rewrite run_validation_run. destruct (passes _).
  - destruct (nth_parse _ _) as [[[] n]|]; [now eexists; eexists|now eexists; eexists|contradiction].
  - unfold bind at 1. rewrite run_validation_run. destruct (negb _); [now eexists; eexists|].
    destruct (str_eqb _ _); [now eexists; eexists|]. destruct (str_eqb _ _); [|now eexists; eexists].
    unfold bind. destruct (lang_total k f (more s (k_run k PseudoFunctions (n_str f)))) as (r & s' & ->). now eexists; eexists.
Qed.
Lemma simple_total k p done todo s : todo <> [] -> Forall (fine k) todo -> exists r s', simple_term k p (done, todo) s = Ret r s'.
Proof.
  intros N F. unfold simple_term. destruct todo as [|t r]; [contradiction|].
  inversion F as [|? ? Ft Fr]; subst.
  destruct (n_type t) eqn:T;
    repeat match goal with |- exists r s', (match ?x with _ => _ end) _ = _ => destruct x eqn:? end; try (now eexists; eexists).
  - inversion Fr as [|? ? Fu _]; subst. unfold bind. destruct (pseudo_total k p n s) as (x & s' & ->); [now apply Fu|]. now eexists; eexists.
  - apply attribute_total. now apply Ft.
Qed.

(** What remains of a list. *)
Lemma ready_suffix k a b : ready k (a ++ b) -> b <> [] -> ready k b.
Proof.
  intros (N & L & F & X) Nb. split; [assumption|]. split.
  - intros c w ->. apply (L (a ++ c) w). apply app_assoc.
  - apply Forall_app in F. split; [tauto|]. intros x I. apply X. apply in_app_iff. now right.
Qed.
Lemma term_total k p done todo s : ready k todo -> exists r s', selector_term k p (done, todo) s = Ret r s'.
Proof.
  intros (N & L & F & X). assert (G : exists r s', simple_term k p (done, todo) s = Ret r s') by now apply simple_total.
  unfold selector_term. destruct todo as [|t r]; [contradiction|].
  destruct (n_type t) eqn:T;
    repeat match goal with |- exists r s', (match ?x with _ => _ end) _ = _ => destruct x eqn:? end; try assumption; try (now eexists; eexists).
  - unfold bind. rewrite run_validation_run. destruct (negb _); [now eexists; eexists|]. destruct l0; now eexists; eexists.
  - destruct (X n) as [X1 X2]; [right; now left|assumption|now apply str_eqb_spec|].
    unfold bind. destruct (simple_total k (n_pos n) [] (n_ch n) s X1 X2) as (x & s' & ->).
    destruct x as [[i [|? ?]]|]; now eexists; eexists.
Qed.
Lemma ready_end k w : ready k [w] -> n_type w <> WHITESPACE.
Proof. intros (_ & L & _). now apply (L []). Qed.
Lemma separator_total k p done todo s : ready k todo ->
  exists r s', skip_separator p (done, todo) s = Ret r s' /\ (forall c, r = Some c -> ready k (snd c) /\ (length (snd c) <= length todo)%nat).
Proof.
  intros R. unfold skip_separator. destruct todo as [|t r]; [destruct R; contradiction|].
  assert (G : forall a o q, t :: r = a ++ o :: q -> exists rr s', (match q with [] => refuse p "found token, which is expected to be followed by another selector term."
          | u :: r' => if is_ws u then match r' with [] => fail XLogic | _ => ret (Some (done ++ [o], r')) end else ret (Some (done ++ [o], q)) end) s = Ret rr s'
          /\ (forall c, rr = Some c -> ready k (snd c) /\ (length (snd c) <= length (t :: r))%nat)).
  { intros a o q E. rewrite E in R |- *. destruct q as [|u r']; [eexists; eexists; split; [reflexivity|intros; discriminate]|].
    change (a ++ o :: u :: r') with (a ++ [o; u] ++ r') in R |- *. 
    destruct (is_ws u) eqn:U.
    - destruct r' as [|v r'].
      + exfalso. apply is_spec in U. rewrite app_nil_r in R. change [o; u] with ([o] ++ [u]) in R. rewrite app_assoc in R. apply ready_suffix in R; [|discriminate].
        now apply ready_end in R.
      + eexists; eexists; split; [reflexivity|]. intros c C. injection C as <-. cbn [snd]. split; [|rewrite !app_length; cbn; lia].
        rewrite app_assoc in R. apply ready_suffix in R; [exact R|discriminate].
    - eexists; eexists; split; [reflexivity|]. intros c C. injection C as <-. cbn [snd]. split; [|rewrite !app_length; cbn; lia].
      change ([o; u] ++ r') with ([o] ++ u :: r') in R. rewrite app_assoc in R. apply ready_suffix in R; [exact R|discriminate]. }
  destruct (is_ws t) eqn:T.
  - destruct r as [|u r']; [exfalso; apply is_spec in T; now apply ready_end in R|].
    destruct (is_combinator u).
    + apply (G [t] u r' eq_refl).
    + eexists; eexists; split; [reflexivity|]. intros c C. injection C as <-. cbn [snd]. split; [|cbn; lia].
      apply (ready_suffix k [t]) in R; [exact R|discriminate].
  - destruct (is_combinator t).
    + apply (G [] t r eq_refl).
    + eexists; eexists; split; [reflexivity|]. intros c C. injection C as <-. cbn [snd]. now split.
Qed.

Lemma loop_total k p : sensible k -> forall fuel done l s, ready k l -> (length l < fuel)%nat -> exists r s', selector_loop fuel k p (done, l) s = Ret r s'.
Proof.
  intros Hk. induction fuel as [|fuel IH]; intros done l s R F; [lia|]. cbn [selector_loop]. unfold bind at 1.
  destruct (term_total k p done l s R) as (x & s1 & E). rewrite E. destruct x as [[d rest]|]; [|now eexists; eexists].
  destruct (term_only k p done l s _ s1 E) as (x & rest' & y & -> & Ht & Q). injection Q as -> <-.
  destruct rest as [|z r]; [now eexists; eexists|].
  apply ready_suffix in R; [|discriminate]. unfold bind.
  destruct (separator_total k p (done ++ y) (z :: r) s1 R) as (c & s2 & E2 & C). rewrite E2.
  destruct c as [[d2 r2]|]; [|now eexists; eexists]. destruct (C _ eq_refl) as [C1 C2]. apply IH; [exact C1|].
  cbn [snd] in C2. destruct (term_head _ _ _ _ _ Ht) as (t & q & -> & _). rewrite app_length in F. cbn in F, C2 |- *. lia.
Qed.

(** A selector is accepted or refused: no exception, no endless loop. *)
Theorem c55_total : forall k n s, sensible k -> ready k (n_ch n) -> exists r s', selector_list k n s = Ret r s'.
Proof.
  intros k n s Hk R. unfold selector_list, bind.
  destruct (loop_total k (n_pos n) Hk (S (length (n_ch n))) [] (n_ch n) s R) as (r & s' & ->); [lia|]. now eexists; eexists.
Qed.

(** ** A concrete case *)
(** Some of the names of the scripts. *)
Definition names (sc : script) : list string :=
  match sc with
  | PseudoClasses => ["active"; "hover"; "first-child"]
  | PseudoNthFunctions => ["nth-child"; "nth-last-child"; "nth-of-type"; "nth-last-of-type"]
  | PseudoFunctions => ["lang"; "not"]
  | PseudoElements => ["before"; "after"]
  | Languages => ["en"; "fr"]
  | Countries => ["us"; "ca"]
  end.
Definition some_checks : checks :=
  mkChecks (fun sc s => if existsb (fun x => str_eqb (zs x) s) (names sc) then [] else [mkMsg LError p1 "not a valid name"])
           (fun n => n_str n).
Definition some_state : pstate := mkPS [] p1 [].
Definition id_ (s : string) : node := tk IDENTIFIER (zs s).
Definition ws : node := tk WHITESPACE [].
Definition fun_ (s : string) (l : list node) : node := set_ch (tk FUNCTION (zs s)) l.
Definition sq (l : list node) : node := set_ch (tk OPEN_SQUAREBRACKET []) l.
Definition arg_ (l : list node) : node := set_ch (mk ARG p1) l.

(** [a.b > *[c != d]:nth-child(2n+1) ::before] *)
Definition example : list node :=
  [id_ "a"; tk PERIOD []; id_ "b"; ws; tk GREATER_THAN []; ws; tk MULTIPLY []; sq [id_ "c"; ws; tk NOT_EQUAL []; ws; id_ "d"];
   tk COLON []; fun_ "nth-child" [id_ "2n+1"]; tk COLON []; tk COLON []; id_ "before"].
Definition example_out : list node :=
  [id_ "a"; tk PERIOD []; id_ "b"; tk GREATER_THAN []; mk COLON p1; set_ch (set_str (mk FUNCTION p1) (zs "not")) [sq [id_ "c"; mk EQUAL p1; id_ "d"]];
   tk COLON []; fun_ "nth-child" [set_int (mk AN_PLUS_B p1) 4294967298]; tk COLON []; tk COLON []; id_ "before"].
Example c55_example : sensible some_checks /\ ready some_checks example
  /\ selector_list some_checks (arg_ example) some_state = Ret (Some (arg_ example_out)) some_state
  /\ selects some_checks example example_out.
Proof.
  assert (S0 : sensible some_checks) by reflexivity.
  assert (R : selector_list some_checks (arg_ example) some_state = Ret (Some (arg_ example_out)) some_state) by (vm_compute; reflexivity).
  split; [exact S0|]. split; [|split; [exact R|]].
  - split; [discriminate|]. split.
    { intros a w E. assert (W : last example w = w) by (rewrite E; apply last_last). vm_compute in W. rewrite <- W. discriminate. }
    split.
    + repeat (apply Forall_cons; [split; intros X; first [discriminate X|vm_compute; discriminate]|]); constructor.
    + intros x X T E. exfalso. repeat (destruct X as [<-|X]; [first [discriminate T|discriminate E]|]). destruct X.
  - destruct (proj1 (c55_grammar some_checks (arg_ example) (arg_ example_out) some_state S0)) as (l & L & E); [now exists some_state|].
    change (n_ch (arg_ example)) with example in L. assert (l = example_out); [|now subst]. unfold arg_ in E. injection E as E. now symmetry.
Qed.

(** ** What the grammar lets through although CSS does not *)
(** A name after something else: [[a]b], written out as it is. *)
Theorem c55_name_anywhere_refuted : selector_list some_checks (arg_ [sq [id_ "a"]; id_ "b"]) some_state
  = Ret (Some (arg_ [sq [id_ "a"]; id_ "b"])) some_state.
Proof. vm_compute. reflexivity. Qed.
(** Two names with nothing in between (as in [a/**/b]): they become one word in
    the output. *)
Theorem c55_two_names_refuted : selector_list some_checks (arg_ [id_ "a"; id_ "b"]) some_state
  = Ret (Some (arg_ [id_ "a"; id_ "b"])) some_state.
Proof. vm_compute. reflexivity. Qed.
(** A :not() inside a :not() is refused when the user writes it, but [a:not([b!=c])]
    becomes just that, without a message. *)
Theorem c55_not_in_not_refuted :
  selector_list some_checks (arg_ [id_ "a"; tk COLON []; fun_ "not" [tk COLON []; fun_ "not" [sq [id_ "b"; tk EQUAL []; id_ "c"]]]]) some_state
    = Ret None (more some_state [mkMsg LError p1 "the :not() selector does not accept an inner :not()."])
  /\ selector_list some_checks (arg_ [id_ "a"; tk COLON []; fun_ "not" [sq [id_ "b"; tk NOT_EQUAL []; id_ "c"]]]) some_state
    = Ret (Some (arg_ [id_ "a"; tk COLON []; fun_ "not" [mk COLON p1; set_ch (set_str (mk FUNCTION p1) (zs "not")) [sq [id_ "b"; mk EQUAL p1; id_ "c"]]]])) some_state.
Proof. split; [vm_compute; reflexivity|vm_compute; reflexivity]. Qed.
(** The star of [*:not(...)] is kept but the one of [a *.b] is dropped: fine; the
    star is dropped after something else too: [a*.b] becomes [a.b]. *)
Theorem c55_star_dropped_refuted : selector_list some_checks (arg_ [id_ "a"; tk MULTIPLY []; tk PERIOD []; id_ "b"]) some_state
  = Ret (Some (arg_ [id_ "a"; tk PERIOD []; id_ "b"])) some_state.
Proof. vm_compute. reflexivity. Qed.
(** Exceptions: an empty pair of square brackets and an empty :not() end the
    compilation with an exception instead of a message. *)
Theorem c55_exceptions_refuted :
  selector_list some_checks (arg_ [id_ "a"; sq []]) some_state = Throw XChildRange some_state
  /\ selector_list some_checks (arg_ [id_ "a"; tk COLON []; fun_ "not" []]) some_state = Throw XLogic some_state.
Proof. split; [vm_compute; reflexivity|vm_compute; reflexivity]. Qed.
Print Assumptions c55_rule.
Print Assumptions c55_total.
