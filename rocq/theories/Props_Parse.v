(** * Properties of the parser (C25 to C28) *)

From Coq Require Import String ZArith List Bool Lia Arith.
From Coq Require Import Floats.SpecFloat.
From Verif Require Import Base Parser ParseSpec ParserProofs ParserTop ParserFuel ArgSpec ArgProofs.
Import ListNotations.
Open Scope string_scope. Open Scope list_scope. Open Scope nat_scope.

(** The entry points which read a whole document. *)
Definition whole (e : entry) : Prop := e = EStylesheet \/ e = ERuleList \/ e = EDeclarationList.

Lemma parse_run e f s : 4 * toks s + 8 <= f -> good_toks s ->
  runs (parse e f) s (fun r d w s' => (e <> EValue -> built r d w)
    /\ (whole e -> w = [] -> n_type (head s') = EOF_TOKEN /\ n_type r = LIST)).
Proof.
  intros F G. assert (NW : forall e', e = e' -> ~ (e' = EStylesheet \/ e' = ERuleList \/ e' = EDeclarationList) -> ~ whole e) by (intros e' -> H; exact H).
  destruct e; cbn [parse].
  - unfold stylesheet. apply runs_bind, runs_last. apply runs_bind. eapply runs_weaken; [apply stylesheet_run; auto; cbn in *; lia|].
    intros l e w s' _ (A & B). apply runs_ret. cbn [app]. rewrite !app_nil_r. split; [|auto].
    intros _ W _. destruct (A W) as [A1 A2]. split; [exact A1|]. cbn. now rewrite A2.
  - unfold rule_list. apply runs_bind, runs_last. apply runs_bind. eapply runs_weaken; [apply rule_list_run; auto; cbn in *; lia|].
    intros l e w s' _ (A & B). apply runs_ret. cbn [app]. rewrite !app_nil_r. split; [|auto].
    intros _ W _. destruct (A W) as [A1 A2]. split; [exact A1|]. cbn. now rewrite A2.
  - destruct (ntype_eq_dec (n_type (head s)) EOF_TOKEN) as [E|E].
    + unfold rule. apply runs_bind, runs_last. unfold is_ws, is. rewrite E. cbn [ntype_eqb ntype_eq_dec].
      change (ntype_eqb EOF_TOKEN CDO) with false. change (ntype_eqb EOF_TOKEN CDC) with false.
      change (ntype_eqb EOF_TOKEN WHITESPACE) with false. cbn [orb closer]. apply runs_bind, runs_ret.
      rewrite E. change (ntype_eqb EOF_TOKEN AT_KEYWORD) with false. unfold qualified_rule. apply runs_bind, runs_last.
      unfold is. rewrite E. change (ntype_eqb EOF_TOKEN EOF_TOKEN) with true. apply runs_ret.
      split; [intros _ _ X; contradiction|]. intros [X|[X|X]]; discriminate.
    + eapply runs_weaken; [apply rule_run; auto; cbn in *; lia|]. intros r d w s' _ (_ & A & _).
      split; auto. intros [X|[X|X]]; discriminate.
  - unfold declaration_list. apply runs_bind, runs_last. apply runs_bind. eapply runs_weaken; [apply decl_list_run; auto; cbn in *; lia|].
    intros l e w s' _ A. apply runs_bind, runs_last. destruct (is (head s') EOF_TOKEN) eqn:E.
    + apply is_true in E. apply runs_bind, runs_ret, runs_ret. cbn [app]. rewrite !app_nil_r. split; [|auto].
      intros _ W _. destruct (A W) as [A1 A2]. split; [exact A1|]. cbn. now rewrite A2.
    + apply runs_bind, runs_report, runs_ret. cbn [app]. rewrite !app_nil_r. split.
      * intros _ W. now apply app_eq_nil in W.
      * intros _ W. now apply app_eq_nil in W.
  - eapply runs_weaken; [apply cvl_run; auto; cbn in *; lia|]. intros r d w s' _ (_ & _ & A).
    split; auto. intros [X|[X|X]]; discriminate.
  - apply runs_bind, runs_last.
    assert (K : forall r d w s', (EValue <> EValue -> built r d w) /\ (whole EValue -> w = [] -> n_type (head s') = EOF_TOKEN /\ n_type r = LIST)).
    { intros. split; [congruence|]. intros [X|[X|X]]; discriminate. }
    destruct (parser_specs f) as (_ & _ & IV & _).
    assert (Plain : forall t, n_type (head s) = t -> closes t = None -> runs (component_value f (head s)) s (fun _ _ _ _ => True)).
    { intros t T C. destruct f; [lia|]. cbn [component_value]. rewrite T.
      destruct t; try discriminate C; apply runs_bind, runs_next_any; intros; apply runs_ret; exact I. }
    eapply runs_weaken; [|intros; apply K].
    destruct (closes (n_type (head s))) as [c|] eqn:C; [|now apply (Plain _ eq_refl)].
    assert (N : n_type (head s) <> EOF_TOKEN) by (intro X; rewrite X in C; discriminate).
    eapply runs_weaken; [apply IV; auto; try (intro X; rewrite X in C; discriminate)|].
    + cbn in *. lia.
    + destruct (n_type (head s)); try discriminate C; reflexivity.
    + now apply head_eof.
    + intros; exact I.
Qed.

(** ** C25 Parsing always terminates

    From any list of tokens, every entry point returns a tree: the parser needs
    no more than a number of nested calls and iterations which is linear in the
    number of tokens, throws no exception, and does not depend on that bound. *)
Theorem c25_terminates : forall e toks eof, Forall token toks ->
  exists r s', forall fuel, enough toks <= fuel -> parse e fuel (start toks eof) = Ret r s'.
Proof.
  intros e toks eof T. destruct (parse_run e (enough toks) (start toks eof)) as (r & d & w & s' & R & _); [unfold enough; cbn; lia|exact T|].
  exists r, s'. intros fuel L.
  assert (B : below (parse e (enough toks)) (parse e fuel)).
  { destruct e; cbn [parse]; [now apply fuel_stylesheet|now apply fuel_rule_list|now apply fuel_rule|now apply fuel_declaration_list|now apply fuel_cvl|].
    apply below_bind; [apply below_refl|]. intro n. apply (fuel_step (enough toks) fuel L). }
  destruct (B (start toks eof)) as [X|X]; [rewrite R in X; discriminate|]. rewrite X. exact R.
Qed.

(** It eats the tokens from left to right, and it only sends errors. *)
Theorem c25_consumes : forall e toks eof fuel r s', Forall token toks -> enough toks <= fuel ->
  parse e fuel (start toks eof) = Ret r s' ->
  (exists eaten, toks = eaten ++ ps_toks s') /\ Forall (fun m => m_level m = LError) (ps_msgs s').
Proof.
  intros e toks eof fuel r s' T L R.
  destruct (parse_run e fuel (start toks eof)) as (r1 & d & w & s1 & R1 & T1 & M1 & _ & F1 & _); [unfold enough in L; cbn; lia|exact T|].
  rewrite R in R1. inversion R1; subst r1 s1. cbn in T1, M1. rewrite M1. split; [now exists d|exact F1].
Qed.

(** ** C26 Parsing loses no token

    When no error is reported the tree stands for exactly the significant
    tokens that were eaten, in the order of the input. *)
Theorem c26_no_token_lost : forall e toks eof fuel r s', e <> EValue -> Forall token toks -> enough toks <= fuel ->
  parse e fuel (start toks eof) = Ret r s' -> ps_msgs s' = [] -> n_type r <> EOF_TOKEN ->
  exists eaten, toks = eaten ++ ps_toks s' /\ tokens_of r = significant_tokens eaten.
Proof.
  intros e toks eof fuel r s' NE T L R M NR.
  destruct (parse_run e fuel (start toks eof)) as (r1 & d & w & s1 & R1 & T1 & M1 & _ & _ & B & _); [unfold enough in L; cbn; lia|exact T|].
  rewrite R in R1. inversion R1; subst r1 s1. cbn in T1, M1. rewrite M in M1. exists d. split; [exact T1|].
  now apply (B NE (eq_sym M1) NR).
Qed.

(** A whole document is read up to its end: the tree stands for all the
    significant tokens of the document. *)
Theorem c26_whole_document : forall e toks eof fuel r s', whole e -> Forall token toks ->
  Forall (fun t => n_type t <> EOF_TOKEN) toks -> enough toks <= fuel ->
  parse e fuel (start toks eof) = Ret r s' -> ps_msgs s' = [] ->
  ps_toks s' = [] /\ tokens_of r = significant_tokens toks.
Proof.
  intros e toks eof fuel r s' We T NEOF L R M.
  destruct (parse_run e fuel (start toks eof)) as (r1 & d & w & s1 & R1 & T1 & M1 & _ & _ & B & W); [unfold enough in L; cbn; lia|exact T|].
  rewrite R in R1. inversion R1; subst r1 s1. cbn in T1, M1. rewrite M in M1. symmetry in M1. subst w.
  destruct (W We eq_refl) as [H1 H2].
  assert (E : ps_toks s' = []).
  { unfold head in H1. destruct (ps_toks s') as [|t l] eqn:E; auto. exfalso. rewrite T1, Forall_app in NEOF.
    destruct NEOF as [_ K]. inversion K; subst. contradiction. }
  split; [exact E|]. rewrite E, app_nil_r in T1. subst d.
  apply B; [destruct We as [-> |[-> | ->]]; discriminate|reflexivity|rewrite H2; discriminate].
Qed.

(** ** C27 Unbalanced brackets are always reported *)
Lemma balanced_view st l : balanced_from st (map n_type l) = balanced_from st (map v_type (sig l)).
Proof.
  revert st. induction l as [|x l IH]; intro st; cbn; auto. destruct (insignificant (n_type x)) eqn:I.
  - cbn [app]. rewrite <- IH. destruct (n_type x); try discriminate I; reflexivity.
  - cbn [app map balanced_from view v_type]. destruct (closes (n_type x)); auto. destruct (closing (n_type x)); auto.
    destruct st as [|c st]; auto. now rewrite IH.
Qed.
Lemma balanced_tree n : tree_ok n = true -> forall st rest,
  balanced_from st (map v_type (tokens_of n) ++ rest) = balanced_from st rest.
Proof.
  induction n as [t p b i d s l c IH] using node_ind'. intro H. cbn [tree_ok n_type n_ch] in H.
  apply andb_true_iff in H. destruct H as [Ht Hc].
  assert (Kids : forall st rest, balanced_from st (map v_type (flats c) ++ rest) = balanced_from st rest).
  { clear Ht. induction c as [|x c IHc]; intros st rest; [reflexivity|]. inversion IH; subst.
    cbn [forallb] in Hc. apply andb_true_iff in Hc. destruct Hc as [Hx Hc]. cbn [flat_map].
    rewrite map_app, <- app_assoc, (H1 Hx). now apply IHc. }
  intros st rest.
  assert (Close : forall k, closes t = Some k -> closes k = None -> closing k = true ->
     balanced_from st (map v_type (view (Node t p b i d s l c) :: flats c ++ [bare k]) ++ rest) = balanced_from st rest).
  { intros k C C1 C2. cbn [map view v_type n_type app balanced_from]. rewrite C, map_app, <- app_assoc, Kids. cbn.
    rewrite C1, C2, ntype_eqb_refl. reflexivity. }
  destruct t; cbn [tokens_of n_type n_ch n_str closes]; try discriminate Ht; try reflexivity; try (apply Kids); try (apply Close; reflexivity).
Qed.

(** No error: the brackets of the tokens eaten are balanced. *)
Theorem c27_eaten_balanced : forall e toks eof fuel r s', e <> EValue -> Forall token toks -> enough toks <= fuel ->
  parse e fuel (start toks eof) = Ret r s' -> ps_msgs s' = [] -> n_type r <> EOF_TOKEN ->
  exists eaten, toks = eaten ++ ps_toks s' /\ balanced eaten = true.
Proof.
  intros e toks eof fuel r s' NE T L R M NR.
  destruct (parse_run e fuel (start toks eof)) as (r1 & d & w & s1 & R1 & T1 & M1 & _ & _ & B & _); [unfold enough in L; cbn; lia|exact T|].
  rewrite R in R1. inversion R1; subst r1 s1. cbn in T1, M1. rewrite M in M1. exists d. split; [exact T1|].
  destruct (B NE (eq_sym M1) NR) as [B1 B2]. unfold balanced. rewrite balanced_view, <- B1.
  rewrite <- (app_nil_r (map v_type (tokens_of r))). now apply (balanced_tree r B2 [] []).
Qed.

(** A document with unbalanced brackets always gets an error. *)
Theorem c27_unbalanced_reported : forall e toks eof fuel, whole e -> Forall token toks ->
  Forall (fun t => n_type t <> EOF_TOKEN) toks -> enough toks <= fuel -> balanced toks = false ->
  exists r s' m, parse e fuel (start toks eof) = Ret r s' /\ In m (ps_msgs s') /\ m_level m = LError.
Proof.
  intros e toks eof fuel We T NEOF L NB.
  destruct (c25_terminates e toks eof T) as (r & s' & R). specialize (R fuel L).
  destruct (c25_consumes e toks eof fuel r s' T L R) as [_ Er].
  destruct (ps_msgs s') as [|m w] eqn:M.
  - exfalso. destruct (c26_whole_document e toks eof fuel r s' We T NEOF L R M) as [E _].
    destruct (parse_run e fuel (start toks eof)) as (r1 & d & w & s1 & R1 & T1 & M1 & _ & _ & B & W); [unfold enough in L; cbn; lia|exact T|].
    rewrite R in R1. inversion R1; subst r1 s1. cbn in M1. rewrite M in M1. destruct (W We (eq_sym M1)) as [_ NR].
    destruct (c27_eaten_balanced e toks eof fuel r s') as (eaten & T2 & B2); auto.
    + destruct We as [-> |[-> | ->]]; discriminate.
    + rewrite NR. discriminate.
    + rewrite E, app_nil_r in T2. subst eaten. congruence.
  - exists r, s', m. split; [exact R|]. split; [now rewrite M; left|]. now inversion Er.
Qed.

(** ** C28 Argument splitting *)
Section C28.
Variable code : ntype -> Z.
Definition accepted (segs : list (list node)) : Prop :=
  (forall s, In s (removelast segs) -> blank s = false) /\ (length segs = 1 \/ last segs [] <> []).

Lemma accept_spec segs : segs <> [] -> accept segs = true <-> accepted segs.
Proof.
  intro N. unfold accepted. induction segs as [|s t IH]; [contradiction|]. destruct t as [|l r].
  - cbn. split; auto. intros _. split; [intros x []|auto].
  - change (accept (s :: l :: r)) with (negb (blank s) && negb (match l, r with [], [] => true | _, _ => false end) && accept (l :: r)).
    change (removelast (s :: l :: r)) with (s :: removelast (l :: r)). change (last (s :: l :: r) []) with (last (l :: r) []).
    rewrite !andb_true_iff, !negb_true_iff, (IH ltac:(discriminate)).
    split.
    + intros [[A B] [C D]]. split; [intros x [<-|X]; auto|]. right. destruct r as [|r0 r]; [|destruct D as [D|D]; [discriminate D|exact D]].
      cbn. destruct l; [discriminate|discriminate].
    + intros [A B]. destruct B as [B|B]; [discriminate B|]. split; [split|split].
      * apply A. now left.
      * destruct l; auto. destruct r; auto. cbn in B. contradiction.
      * intros x X. apply A. now right.
      * now right.
Qed.
Lemma args_spec sep p segs : segs <> [] ->
  args_of code sep p segs = map (fun s => new_arg code sep p (trim s)) (removelast segs) ++ [new_arg code sep p (trim_left (last segs []))].
Proof.
  intro N. induction segs as [|s t IH]; [contradiction|]. destruct t as [|l r]; [reflexivity|].
  change (removelast (s :: l :: r)) with (s :: removelast (l :: r)). change (last (s :: l :: r) []) with (last (l :: r) []).
  rewrite args_cons by discriminate. rewrite IH by discriminate. reflexivity.
Qed.

(** A list: at least one node, not split yet, possibly ending with a block. *)
Definition splittable (n : node) (body blk : list node) : Prop :=
  n_ch n = body ++ blk /\ n_ch n <> [] /\ (forall x r, n_ch n = x :: r -> n_type x <> ARG)
  /\ (blk = [] \/ exists b, blk = [b] /\ n_type b = OPEN_CURLYBRACKET)
  /\ Forall (fun x => n_type x <> OPEN_CURLYBRACKET) body /\ child_list body = true.

Lemma argify_eq n sep body blk s : splittable n body blk -> sep = COMMA \/ sep = DIVIDE ->
  argify code n sep s = bind (argify_loop code sep (n_pos n) (body ++ blk) [] []) (fun r => ret (fst r, set_ch n (snd r))) s.
Proof.
  intros (E & NE & NA & _) K. unfold argify. destruct (n_ch n) as [|x r] eqn:C; [contradiction|]. specialize (NA x r eq_refl).
  assert (X : is x ARG = false) by now apply ntype_eqb_neq. rewrite X, E. destruct K as [-> | ->]; reflexivity.
Qed.

(** A list whose segments are accepted becomes the list of its segments: each
    is trimmed, except that the last one keeps the white space at its end. *)
Theorem c28_accepted : forall n sep body blk s, sep = COMMA \/ sep = DIVIDE -> splittable n body blk ->
  accepted (segments sep body) ->
  argify code n sep s = Ret (true, set_ch n (map (fun l => new_arg code sep (n_pos n) (trim l)) (removelast (segments sep body))
      ++ [new_arg code sep (n_pos n) (trim_left (last (segments sep body) []))] ++ blk)) s.
Proof.
  intros n sep body blk s K Sp Ac. rewrite (argify_eq n sep body blk s Sp K). destruct Sp as (E & NE & NA & B & NB & CL).
  assert (SW : sep <> WHITESPACE /\ sep <> OPEN_CURLYBRACKET) by (destruct K as [-> | ->]; split; discriminate).
  pose proof (argify_loop_run code sep (n_pos n) blk (proj1 SW) (proj2 SW) B body [] [] s NB CL) as H. cbn zeta in H.
  pose proof (segments_ne sep body) as SN.
  assert (W : with_pre [] (segments sep body) = segments sep body) by (destruct (segments sep body); [contradiction|reflexivity]).
  rewrite W in H. apply (accept_spec _ SN) in Ac. rewrite Ac in H. change (drop_front []) with (@nil node) in H.
  unfold bind. rewrite H. cbn [app]. unfold ret. cbn [fst snd]. rewrite (args_spec _ _ _ SN), <- app_assoc. reflexivity.
Qed.

(** Any other list is refused with one error, at the position of the list. *)
Theorem c28_refused : forall n sep body blk s, sep = COMMA \/ sep = DIVIDE -> splittable n body blk ->
  ~ accepted (segments sep body) ->
  exists n' m, argify code n sep s = Ret (false, n') (mkPS (ps_toks s) (ps_eof s) (ps_msgs s ++ [m]))
    /\ m_level m = LError /\ m_pos m = n_pos n.
Proof.
  intros n sep body blk s K Sp Ac. rewrite (argify_eq n sep body blk s Sp K). destruct Sp as (E & NE & NA & B & NB & CL).
  assert (SW : sep <> WHITESPACE /\ sep <> OPEN_CURLYBRACKET) by (destruct K as [-> | ->]; split; discriminate).
  pose proof (argify_loop_run code sep (n_pos n) blk (proj1 SW) (proj2 SW) B body [] [] s NB CL) as H. cbn zeta in H.
  pose proof (segments_ne sep body) as SN.
  assert (W : with_pre [] (segments sep body) = segments sep body) by (destruct (segments sep body); [contradiction|reflexivity]).
  rewrite W in H. destruct (accept (segments sep body)) eqn:A; [apply (accept_spec _ SN) in A; contradiction|].
  destruct H as (l & m & H & H1 & H2). change (drop_front []) with (@nil node) in H. unfold bind. rewrite H.
  exists (set_ch n l), m. auto.
Qed.

(** Splitting a list which was split already changes nothing. *)
Theorem c28_idempotent : forall n sep body blk s n' s', sep = COMMA \/ sep = DIVIDE -> splittable n body blk ->
  argify code n sep s = Ret (true, n') s' -> argify code n' sep s' = Ret (true, n') s'.
Proof.
  intros n sep body blk s n' s' K Sp R. pose proof (segments_ne sep body) as SN.
  destruct (accept (segments sep body)) eqn:A.
  - apply (accept_spec _ SN) in A. rewrite (c28_accepted n sep body blk s K Sp A) in R. inversion R. subst.
    unfold argify. rewrite n_ch_set.
    assert (X : exists l t, map (fun l => new_arg code sep (n_pos n) (trim l)) (removelast (segments sep body)) ++
        [new_arg code sep (n_pos n) (trim_left (last (segments sep body) []))] ++ blk = new_arg code sep (n_pos n) l :: t).
    { destruct (removelast (segments sep body)); cbn; eauto. }
    destruct X as (l & t & X). cbn [app] in X. rewrite X. destruct K as [-> | ->]; reflexivity.
  - assert (NA : ~ accepted (segments sep body)) by (intro Q; apply (accept_spec _ SN) in Q; congruence).
    destruct (c28_refused n sep body blk s K Sp NA) as (n2 & m & R2 & _). rewrite R2 in R. inversion R.
Qed.
End C28.

(** ** Concrete cases *)
Definition p1 : position := new_position 1 1.
Definition tk (t : ntype) (s : str) : node := set_str (mk t p1) s.
(** [a { b: f(c) !important; } @x [d];] *)
Definition sample : list node :=
  [tk IDENTIFIER [97%Z]; tk WHITESPACE []; tk OPEN_CURLYBRACKET []; tk WHITESPACE []; tk IDENTIFIER [98%Z]; tk COLON []; tk WHITESPACE [];
   tk FUNCTION [102%Z]; tk IDENTIFIER [99%Z]; tk CLOSE_PARENTHESIS []; tk WHITESPACE []; tk EXCLAMATION []; tk IDENTIFIER [105%Z]; tk SEMICOLON [];
   tk WHITESPACE []; tk CLOSE_CURLYBRACKET []; tk AT_KEYWORD [120%Z]; tk WHITESPACE []; tk OPEN_SQUAREBRACKET []; tk IDENTIFIER [100%Z];
   tk CLOSE_SQUAREBRACKET []; tk SEMICOLON []].
Ltac toks := unfold token; repeat (apply Forall_cons; [cbn; repeat split; discriminate|]); apply Forall_nil.
Example sample_tokens : Forall token sample /\ Forall (fun t => n_type t <> EOF_TOKEN) sample /\ balanced sample = true.
Proof. split; [toks|split; [|reflexivity]]. repeat (apply Forall_cons; [cbn; discriminate|]); apply Forall_nil. Qed.
Example sample_parsed : exists r s', parse EStylesheet (enough sample) (start sample p1) = Ret r s' /\ ps_msgs s' = []
  /\ map n_type (n_ch r) = [COMPONENT_VALUE; AT_KEYWORD].
Proof. eexists. eexists. split; [vm_compute; reflexivity|]. split; [vm_compute; reflexivity|vm_compute; reflexivity]. Qed.
Example sample_list_parsed : exists r s', parse ERuleList (enough sample) (start sample p1) = Ret r s' /\ ps_msgs s' = [].
Proof. eexists. eexists. split; [vm_compute; reflexivity|]. vm_compute; reflexivity. Qed.
(** [b: c; d: e] *)
Example sample_declarations : exists r s', parse EDeclarationList 60
   (start [tk IDENTIFIER [98%Z]; tk COLON []; tk IDENTIFIER [99%Z]; tk SEMICOLON []; tk IDENTIFIER [100%Z]; tk COLON []; tk IDENTIFIER [101%Z]] p1)
   = Ret r s' /\ ps_msgs s' = [] /\ map n_type (n_ch r) = [DECLARATION; DECLARATION].
Proof. eexists. eexists. split; [vm_compute; reflexivity|]. split; [vm_compute; reflexivity|vm_compute; reflexivity]. Qed.
(** [a { ( } )] *)
Definition crossed : list node := [tk IDENTIFIER [97%Z]; tk OPEN_CURLYBRACKET []; tk OPEN_PARENTHESIS []; tk CLOSE_CURLYBRACKET []; tk CLOSE_PARENTHESIS []].
Example crossed_unbalanced : Forall token crossed /\ balanced crossed = false.
Proof. split; [toks|reflexivity]. Qed.

(** [a b , c] *)
Definition two_args : node := set_ch (mk LIST p1)
  [tk IDENTIFIER [97%Z]; tk WHITESPACE []; tk IDENTIFIER [98%Z]; tk WHITESPACE []; tk COMMA []; tk WHITESPACE []; tk IDENTIFIER [99%Z]].
Example two_args_split : splittable two_args (n_ch two_args) [] /\ accepted (segments COMMA (n_ch two_args)) /\ length (segments COMMA (n_ch two_args)) = 2.
Proof.
  split; [|split; [|reflexivity]].
  - split; [reflexivity|]. split; [discriminate|]. split; [intros x r E; inversion E; discriminate|]. split; [now left|]. split; [|reflexivity].
    repeat (apply Forall_cons; [cbn; discriminate|]); apply Forall_nil.
  - apply accept_spec; [discriminate|reflexivity].
Qed.
Example comma_first_refused : ~ accepted (segments COMMA [tk COMMA []; tk IDENTIFIER [97%Z]]).
Proof. intro H. apply accept_spec in H; discriminate. Qed.

(** The full property fails on the last segment: [a, ] is accepted although its
    second segment is blank, and [a, b ] keeps the white space after [b]. *)
Theorem c28_blank_last_segment_refuted : forall code s, exists n body,
  splittable n body [] /\ In [tk WHITESPACE []] (segments COMMA body) /\ blank [tk WHITESPACE []] = true
  /\ argify code n COMMA s = Ret (true, set_ch n [new_arg code COMMA p1 [tk IDENTIFIER [97%Z]]; new_arg code COMMA p1 []]) s.
Proof.
  intros code s. exists (set_ch (mk LIST p1) [tk IDENTIFIER [97%Z]; tk COMMA []; tk WHITESPACE []]), [tk IDENTIFIER [97%Z]; tk COMMA []; tk WHITESPACE []].
  split.
  { split; [reflexivity|]. split; [discriminate|]. split; [intros x r E; inversion E; discriminate|]. split; [now left|]. split; [|reflexivity].
    repeat (apply Forall_cons; [cbn; discriminate|]); apply Forall_nil. }
  split; [right; left; reflexivity|]. split; reflexivity.
Qed.
Theorem c28_last_not_trimmed_refuted : forall code s, exists n body,
  splittable n body [] /\ argify code n COMMA s = Ret (true, set_ch n [new_arg code COMMA p1 [tk IDENTIFIER [97%Z]; tk WHITESPACE []]]) s.
Proof.
  intros code s. exists (set_ch (mk LIST p1) [tk IDENTIFIER [97%Z]; tk WHITESPACE []]), [tk IDENTIFIER [97%Z]; tk WHITESPACE []].
  split; [|reflexivity].
  split; [reflexivity|]. split; [discriminate|]. split; [intros x r E; inversion E; discriminate|]. split; [now left|]. split; [|reflexivity].
  repeat (apply Forall_cons; [cbn; discriminate|]); apply Forall_nil.
Qed.
