(** * Properties of compile(): at-rules (C64) *)

From Coq Require Import String ZArith List Bool Lia Arith ZifyBool Floats.SpecFloat.
From Verif Require Import Base NodeHeap NodeProofs.
From Verif Require OutText NodeText.
From Verif Require Import Compiler CompRun Compile AtSpec.
From Verif Require Pipeline.
Import ListNotations.
Open Scope string_scope. Open Scope list_scope. Open Scope Z_scope.
Ltac Zify.zify_post_hook ::= idtac.

Lemma find_first n : forall a b, ~ In n a -> find_child n (a ++ n :: b) = Some (length a).
Proof.
  induction a as [|z a IH]; intros b N; cbn; [now rewrite Nat.eqb_refl|]. destruct (Nat.eqb_spec n z) as [->|Ne]; [exfalso; apply N; now left|].
  rewrite IH; [reflexivity|]. intro. apply N. now right.
Qed.
Lemma erase_first (n : addr) : forall a b, list_erase (length a) (a ++ n :: b) = a ++ b.
Proof. induction a as [|z a IH]; intros b; [reflexivity|]. unfold list_erase in *. cbn [length firstn skipn app] in *. now rewrite IH. Qed.
Lemma first_split (n : addr) : forall l, In n l -> exists a b, l = a ++ n :: b /\ ~ In n a.
Proof.
  induction l as [|z l IH]; intros I; [destruct I|]. destruct (Nat.eq_dec n z) as [->|Ne]; [exists [], l; split; [reflexivity|intros []]|].
  destruct I as [I|I]; [congruence|]. destruct (IH I) as (a & b & -> & N). exists (z :: a), b. split; [reflexivity|]. intros [Q|Q]; [congruence|exact (N Q)].
Qed.
Lemma without_in n l : In n l -> exists l', without n l l'.
Proof. intros I. destruct (first_split n l I) as (a & b & E & N). exists (a ++ b), a, b. auto. Qed.
Lemma run_without h m ps p kp n l' : nth_error h p = Some kp -> has_children (c_type kp) = true -> without n (c_ch kp) l' ->
  lift (remove_child p n) (mkK h m ps) = Ret tt (mkK (put h p (with_ch kp l')) m ps).
Proof.
  intros H T (a & b & E & N & ->). erewrite run_remove; [|exact H|exact T|rewrite E; apply find_first; exact N]. rewrite E, erase_first. reflexivity.
Qed.

Lemma run_first h m ps n c o : nth_error h n = Some c -> has_children (c_type c) = true -> follows h c o -> first_expression n (mkK h m ps) = Ret o (mkK h m ps).
Proof.
  intros H T F. unfold first_expression. erewrite b_ret; [|eapply run_empty; eauto]. destruct F as [E|b l k E Hb Tb|e l k E He Te]; rewrite E; cbv iota.
  - reflexivity.
  - erewrite b_ret; [|eapply (run_child_is _ _ _ _ _ 0); eauto; [rewrite E; reflexivity|lia]]. rewrite Tb. reflexivity.
  - erewrite b_ret; [|eapply (run_child_is _ _ _ _ _ 0); eauto; [rewrite E; reflexivity|lia]]. rewrite (proj2 (ntype_eqb_neq _ _) Te). cbv iota. erewrite b_ret; [reflexivity|]. eapply run_child0; eauto.
Qed.

(** The text of a message. *)
Definition spoken (w : world) (h : heap) (o : option addr) (default : string) : string :=
  match o with Some e => text_of (w_text w h e) | None => default end.

Lemma message_run k F x r n c parent kp more h m ps o level default l' :
  nth_error h n = Some c -> c_type c = AT_KEYWORD -> speaks (c_str c) level default -> follows h c o ->
  x_parents x = n :: parent :: more -> nth_error h parent = Some kp -> has_children (c_type kp) = true -> without n (c_ch kp) l' -> parent <> n ->
  let h' := put h parent (with_ch kp l') in
  run k (S F) At x r n (mkK h m ps) = Ret r (mkK h' (m ++ [mkMsg level (c_pos c) (spoken (r_world k) h' o default)]) ps).
Proof.
  intros H T Sp Fo X Hp Tp W Ne h'. cbn [run]. unfold compile_at_keyword.
  erewrite b_ret; [|eapply run_string; [exact H|rewrite T; reflexivity]].
  erewrite b_ret; [|unfold previous_parent; rewrite X; reflexivity].
  erewrite b_ret; [|eapply run_first; [exact H|rewrite T; reflexivity|exact Fo]].
  assert (G : forall lv df, bind (at_message (r_world k) lv df parent n o) (fun _ => ret r) (mkK h m ps)
     = Ret r (mkK h' (m ++ [mkMsg lv (c_pos c) (spoken (r_world k) h' o df)]) ps)).
  { intros lv df. unfold at_message. rewrite bind_assoc. erewrite b_ret; [|eapply run_without; eauto]. cbv beta. rewrite bind_assoc. erewrite b_ret; [|eapply run_pos; subst h'; rewrite put_other by congruence; exact H]. reflexivity. }
  cbv zeta. destruct Sp; exact (G _ _).
Qed.

(** ** C64 rules that write a message

    "@error", "@warning", "@info", "@message" and "@debug" write one message of
    that level at the position of the rule; the rule is taken out of the list it
    is in; nothing else changes. *)
Theorem c64_message : forall k fuel x r n c parent kp more h m ps level default o,
  nth_error h n = Some c -> c_type c = AT_KEYWORD -> speaks (c_str c) level default -> follows h c o ->
  x_parents x = parent :: more -> nth_error h parent = Some kp -> has_children (c_type kp) = true -> In n (c_ch kp) -> parent <> n ->
  exists l' text, without n (c_ch kp) l'
    /\ run k (S (S fuel)) Compile x r n (mkK h m ps) = Ret r (mkK (put h parent (with_ch kp l')) (m ++ [mkMsg level (c_pos c) text]) ps)
    /\ text = match o with Some e => text_of (w_text (r_world k) (put h parent (with_ch kp l')) e) | None => default end.
Proof.
  intros k F x r n c parent kp more h m ps level default o H T Sp Fo X Hp Tp In_ Ne. destruct (without_in n _ In_) as (l' & W).
  exists l'. eexists. split; [exact W|]. split; [|reflexivity]. change (run k (S (S F)) Compile x r n) with
    (let x := push x n in bind (type_of n) (fun t => match t with LIST | FRAME => result_loop true (fun r child => run k (S F) Compile x r child) n (S F) 0 r | DECLARATION | COMMENT => ret r | COMPONENT_VALUE => run k (S F) Value x r n | AT_KEYWORD => run k (S F) At x r n | _ => throw XLogic end)).
  cbv zeta. erewrite b_ret; [|eapply run_type; exact H]. rewrite T. cbv iota. eapply message_run; eauto. cbn [push x_parents]. rewrite X. reflexivity.
Qed.
(** In the program as a whole, the message of a string is its text, without the
    quotes. *)
Lemma no_nul : forall s, Forall (fun c => c <> 0) s -> OutText.c_str s = s.
Proof. induction s as [|c s IH]; intros F; [reflexivity|]. inversion F as [|? ? Nc Fs]; subst. cbn. destruct (Z.eqb_spec c 0); [contradiction|]. now rewrite IH. Qed.
Theorem c64_text : forall o fn h a c, nth_error h a = Some c -> c_type c = STRING -> Forall (fun z => z <> 0) (c_str c) ->
  w_text (r_world (Pipeline.rules_of o fn)) h a = c_str c.
Proof.
  intros o fn h a c H T N. cbn [r_world Pipeline.rules_of Pipeline.world_of w_text]. unfold Pipeline.o_text. cbn [NodeText.node_text]. rewrite H. rewrite T. cbn [NodeText.fixed]. cbv iota. now apply no_nul.
Qed.

Lemma sheet_run k l x fuel : forall ns gs h m ps kl f, nth_error h l = Some kl -> c_type kl = LIST -> c_ch kl = ns -> NoDup ns ->
  Forall2 (says (w_text (r_world k)) h) ns gs -> (length ns < f)%nat ->
  result_loop true (fun r child => run k (S (S fuel)) Compile (push x l) r child) l f 0 None (mkK h m ps)
   = Ret None (mkK (put h l (with_ch kl [])) (m ++ map to_msg gs) ps).
Proof.
  induction ns as [|n ns IH]; intros gs h m ps kl [|f] Hl Tl El Nd Fo Lf; try (cbn in Lf; lia); cbn [result_loop]; (erewrite b_ret; [|eapply run_size; [exact Hl|rewrite Tl; reflexivity]]); rewrite El.
  - inversion Fo; subst. change ((Z.of_nat (@length addr []) <=? 0) || (true && false)) with true. cbv iota. cbn [map]. rewrite app_nil_r. unfold ret. f_equal. f_equal. symmetry. apply put_id. rewrite Hl. f_equal. destruct kl; cbn in *. now subst.
  - inversion Fo as [|? g ? gs' (c & o & df & H & T & Sp & Fw & P & Q) Fo']; subst.
    cbn [length]. replace (Z.of_nat (S (length ns)) <=? 0) with false by lia. cbn [orb andb]. 
    erewrite b_ret; [|eapply run_child0; [exact Hl|rewrite Tl; reflexivity|exact El]].
    assert (Ne : l <> n) by (intro; subst; rewrite H in Hl; injection Hl as <-; congruence).
    destruct (c64_message k fuel (push x l) None n c l kl (x_parents x) h m ps _ _ _ H T Sp Fw eq_refl Hl ltac:(rewrite Tl; reflexivity) ltac:(rewrite El; now left) Ne) as (l' & text & W & R & Tx).
    assert (El' : l' = ns). { destruct W as (a & b & E1 & N & ->). rewrite El in E1. destruct a as [|z a]; [injection E1 as <-; reflexivity|]. injection E1 as <- _. exfalso. apply N. now left. }
    subst l'. erewrite b_ret; [|exact R]. set (h1 := put h l (with_ch kl ns)).
    assert (Hl1 : nth_error h1 l = Some (with_ch kl ns)) by (apply put_same; now apply nth_lt in Hl).
    assert (Old : forall b k', nth_error h b = Some k' -> c_type k' <> LIST -> nth_error h1 b = Some k'). { intros b k' Hb Tb. unfold h1. rewrite put_other; [exact Hb|]. intro; subst. rewrite Hl in Hb. injection Hb as <-. contradiction. }
    assert (Tx' : text = snd g) by (rewrite Tx; symmetry; apply Q; exact Old).
    assert (F1 : Forall2 (says (w_text (r_world k)) h1) ns gs').
    { assert (Old2 : forall b k', nth_error h b = Some k' -> b <> l -> nth_error h1 b = Some k') by (intros; unfold h1; rewrite put_other; auto). assert (Tl1 : exists kx, nth_error h1 l = Some kx /\ c_type kx = LIST) by (eexists; split; [exact Hl1|exact Tl]).
      clear Hl1 R Tx Tx'. clearbody h1. clear - Fo' Old Old2 Hl Tl1 Tl. destruct Tl1 as (kx & Hl1 & Tl1). induction Fo' as [|n' g' ns' gs'' (c & o & df & H & T & Sp & Fw & P & Q) _ IHF]; constructor; [|exact IHF].
      exists c, o, df. split; [apply Old; [exact H|congruence]|]. split; [exact T|]. split; [exact Sp|]. split.
      - destruct Fw as [E|b lb kb E Hb Tb|e le ke E He Te]; [now constructor|eapply follows_block; eauto; apply Old; [exact Hb|congruence]|].
        destruct (ntype_eq_dec (c_type ke) LIST) as [Q1|Q1]; [|eapply follows_value; eauto].
        destruct (Nat.eq_dec e l) as [->|Ne']; [|eapply follows_value; [exact E|apply Old2; [exact He|exact Ne']|exact Te]].
        rewrite Hl in He. injection He as <-. eapply follows_value; [exact E|exact Hl1|rewrite Tl1; discriminate].
      - split; [exact P|]. intros h' K. apply Q. intros b k' Hb Tb. apply K; [apply Old; auto|exact Tb]. }
    unfold step_over. rewrite bind_assoc. erewrite b_ret; [|eapply run_size; [exact Hl1|cbn; rewrite Tl; reflexivity]]. cbn [c_ch with_ch].
    destruct ns as [|n2 ns].
    + cbn [length]. change (0 <? Z.of_nat 0) with false. cbv iota. rewrite bind_ret. erewrite (IH gs' h1 _ ps _ f Hl1); [|cbn; exact Tl|reflexivity|inversion Nd; assumption|exact F1|cbn in *; lia].
      unfold h1. rewrite put_put. rewrite <- app_assoc. destruct g as [[lv po] tx]. cbn in *. subst. reflexivity.
    + cbn [length]. replace (0 <? Z.of_nat (S (length ns))) with true by lia. cbv iota. rewrite bind_assoc. erewrite b_ret; [|eapply run_child0; [exact Hl1|cbn; rewrite Tl; reflexivity|reflexivity]].
      rewrite bind_ret. assert (Nq : Nat.eqb n n2 = false). { apply Nat.eqb_neq. intros <-. inversion Nd as [|? ? N _]. apply N. now left. }
      rewrite Nq. erewrite (IH gs' h1 _ ps _ f Hl1); [|cbn; exact Tl|reflexivity|inversion Nd; assumption|exact F1|cbn in *; lia].
      unfold h1. rewrite put_put. rewrite <- app_assoc. destruct g as [[lv po] tx]. cbn in *. subst. reflexivity.
Qed.

(** A sheet made of such rules, any number of them: every message is written,
    in order, and the sheet is empty. *)
Theorem c64_sheet : forall k fuel x l kl gs h m ps,
  nth_error h l = Some kl -> c_type kl = LIST -> NoDup (c_ch kl) -> Forall2 (says (w_text (r_world k)) h) (c_ch kl) gs ->
  (length (c_ch kl) < S (S fuel))%nat ->
  run k (S (S (S fuel))) Compile x None l (mkK h m ps) = Ret None (mkK (put h l (with_ch kl [])) (m ++ map to_msg gs) ps).
Proof.
  intros k F x l kl gs h m ps Hl Tl Nd Fo Lg.
  change (run k (S (S (S F))) Compile x None l) with
    (let x := push x l in bind (type_of l) (fun t => match t with LIST | FRAME => result_loop true (fun r child => run k (S (S F)) Compile x r child) l (S (S F)) 0 None | DECLARATION | COMMENT => ret None | COMPONENT_VALUE => run k (S (S F)) Value x None l | AT_KEYWORD => run k (S (S F)) At x None l | _ => throw XLogic end)).
  cbv zeta. erewrite b_ret; [|eapply run_type; exact Hl]. rewrite Tl. cbv iota. apply (sheet_run k l x F (c_ch kl)); auto.
Qed.

(** ** C64 @charset *)
Lemma blank_space c : is_space c = true <-> blank_byte c.
Proof. unfold is_space, blank_byte. lia. Qed.
Lemma trim_front_shape s : exists a, s = a ++ trim_front s /\ Forall blank_byte a /\ match trim_front s with c :: _ => ~ blank_byte c | [] => True end.
Proof.
  induction s as [|c s (a & E & Fa & N)]; [exists []; repeat split; constructor|]. cbn [trim_front]. destruct (is_space c) eqn:Sc.
  - exists (c :: a). split; [cbn; now rewrite <- E|]. split; [constructor; [now apply blank_space|exact Fa]|exact N].
  - exists []. split; [reflexivity|]. split; [constructor|]. intro B. apply blank_space in B. congruence.
Qed.
Lemma trim_front_skip a t : Forall blank_byte a -> match t with c :: _ => ~ blank_byte c | [] => True end -> trim_front (a ++ t) = t.
Proof.
  induction a as [|c a IH]; intros Fa N; cbn [app trim_front].
  - destruct t as [|c t]; [reflexivity|]. cbn. destruct (is_space c) eqn:Sc; [exfalso; apply N; now apply blank_space|reflexivity].
  - inversion Fa as [|? ? B Fa']; subst. apply blank_space in B. rewrite B. now apply IH.
Qed.
Lemma lower_same t : map lower t = zs "utf-8" <-> Forall2 same_letter (zs "utf-8") t.
Proof.
  assert (G : forall w, Forall (fun c => ~ (65 <= c <= 90)) w -> forall t, map lower t = w <-> Forall2 same_letter w t).
  { induction w as [|c w IH]; intros Fw t'; split; intros Q.
    - destruct t'; [constructor|discriminate Q].
    - inversion Q; reflexivity.
    - destruct t' as [|d t']; [discriminate Q|]. cbn [map] in Q. injection Q as Q1 Q2. inversion Fw as [|? ? Fc Fw']; subst. constructor; [|now apply (IH Fw')]. unfold same_letter, lower in *. destruct ((65 <=? d) && (d <=? 90)) eqn:B; [|left; reflexivity]. right. lia.
    - inversion Q as [|? d ? t'' Q1 Q2]; subst. inversion Fw as [|? ? Fc Fw']; subst. cbn [map]. f_equal; [|now apply (IH Fw')]. unfold same_letter, lower in *. destruct ((65 <=? d) && (d <=? 90)) eqn:B; lia. }
  apply G. repeat constructor; intros (A & B); vm_compute in A, B; congruence.
Qed.
Lemma utf8_trim s : str_eqb (map lower (trim s)) (zs "utf-8") = true <-> utf8_name s.
Proof.
  rewrite str_eqb_spec, lower_same. unfold utf8_name, trim. split.
  - intros Q. destruct (trim_front_shape s) as (a & E & Fa & _). destruct (trim_front_shape (rev (trim_front s))) as (b & E2 & Fb & _).
    exists a, (rev (trim_front (rev (trim_front s)))), (rev b). split; [|split; [exact Fa|split; [now apply Forall_rev|exact Q]]].
    rewrite <- rev_app_distr, <- E2, rev_involutive. exact E.
  - intros (a & t & b & -> & Fa & Fb & Q). inversion Q as [|c1 d1 w1 t1 Q1 Q2]; subst.
    inversion Q2 as [|c2 d2 w2 t2 P2 Q3]; subst. inversion Q3 as [|c3 d3 w3 t3 P3 Q4]; subst. inversion Q4 as [|c4 d4 w4 t4 P4 Q5]; subst. inversion Q5 as [|c5 d5 w5 t5 P5 Q6]; subst. inversion Q6; subst.
    assert (N1 : ~ blank_byte d1) by (clear - Q1; unfold same_letter, blank_byte in *; vm_compute (nth 0 (zs "utf-8") 0) in *; cbn in Q1; lia).
    assert (N5 : ~ blank_byte d5) by (clear - P5; unfold same_letter, blank_byte in *; cbn in P5; lia).
    rewrite trim_front_skip; [|exact Fa|exact N1]. rewrite rev_app_distr. rewrite trim_front_skip; [|now apply Forall_rev|exact N5]. rewrite rev_involutive. exact Q.
Qed.
(** "@charset" is taken out of the sheet in all cases; it is accepted in silence
    when it has one string which names utf-8; otherwise there is one error. *)
Theorem c64_charset : forall k fuel x r n c parent kp more h m ps,
  nth_error h n = Some c -> c_type c = AT_KEYWORD -> c_str c = zs "charset" -> (forall a, In a (c_ch c) -> exists ka, nth_error h a = Some ka) ->
  x_parents x = parent :: more -> nth_error h parent = Some kp -> has_children (c_type kp) = true -> In n (c_ch kp) -> parent <> n -> ~ In parent (c_ch c) ->
  exists l' more_msgs, without n (c_ch kp) l'
    /\ run k (S (S fuel)) Compile x r n (mkK h m ps) = Ret r (mkK (put h parent (with_ch kp l')) (m ++ more_msgs) ps)
    /\ ((more_msgs = [] /\ exists s, one_string_is h c s /\ utf8_name s)
        \/ (exists text, more_msgs = [mkMsg LError (c_pos c) text]) /\ forall s, one_string_is h c s -> ~ utf8_name s).
Proof.
  intros k F x r n c parent kp more h m ps H T Nm Al X Hp Tp In_ Ne Np. destruct (without_in n _ In_) as (l' & W). exists l'.
  set (h' := put h parent (with_ch kp l')).
  assert (R : forall ms, at_charset parent n (mkK h m ps) = Ret tt (mkK h' (m ++ ms) ps) -> run k (S (S F)) Compile x r n (mkK h m ps) = Ret r (mkK h' (m ++ ms) ps)).
  { intros ms E. change (run k (S (S F)) Compile x r n) with
    (let x := push x n in bind (type_of n) (fun t => match t with LIST | FRAME => result_loop true (fun r child => run k (S F) Compile x r child) n (S F) 0 r | DECLARATION | COMMENT => ret r | COMPONENT_VALUE => run k (S F) Value x r n | AT_KEYWORD => run k (S F) At x r n | _ => throw XLogic end)).
    cbv zeta. erewrite b_ret; [|eapply run_type; exact H]. rewrite T. cbv iota. cbn [run]. unfold compile_at_keyword.
    erewrite b_ret; [|eapply run_string; [exact H|rewrite T; reflexivity]].
    erewrite b_ret; [|unfold previous_parent; cbn [push x_parents]; rewrite X; reflexivity].
    assert (Fo : exists o, follows h c o). { destruct (c_ch c) as [|a l] eqn:Ec; [exists None; now apply follows_nothing|]. destruct (Al a (or_introl eq_refl)) as (ka & Ha). destruct (ntype_eq_dec (c_type ka) OPEN_CURLYBRACKET) as [Q|Q]; [exists None; eapply follows_block; eauto|exists (Some a); eapply follows_value; eauto]. }
    destruct Fo as (o & Fo). erewrite b_ret; [|eapply run_first; [exact H|rewrite T; reflexivity|exact Fo]]. cbv zeta. rewrite Nm.
    change (bind (at_charset parent n) (fun _ => ret r) (mkK h m ps) = Ret r (mkK h' (m ++ ms) ps)). erewrite b_ret; [|exact E]. reflexivity. }
  assert (Hn : nth_error h' n = Some c) by (unfold h'; rewrite put_other; auto).
  assert (Tc : has_children (c_type c) = true) by (rewrite T; reflexivity).
  unfold at_charset in R. destruct (c_ch c) as [|a [|b l]] eqn:Ec.
  - exists [mkMsg LError (c_pos c) one_string]. split; [exact W|]. split.
    + apply R. erewrite b_ret; [|eapply run_without; eauto]. fold h'. erewrite b_ret; [|eapply run_pos; exact Hn]. erewrite b_ret; [|eapply run_size; eauto]. rewrite Ec. reflexivity.
    + right. split; [now eexists|]. intros s (a & ka & E & _). rewrite Ec in E. discriminate.
  - destruct (Al a (or_introl eq_refl)) as (ka & Ha). assert (Ha' : nth_error h' a = Some ka) by (unfold h'; rewrite put_other; auto; intros ->; apply Np; now left).
    assert (Z0 : forall X0 Y : C unit, bind (if negb (Z.of_nat (length (c_ch c)) =? 1) then ret false else child_is n 0 STRING) (fun one => if negb one then X0 else Y) (mkK h' m ps) = (if ntype_eqb (c_type ka) STRING then Y else X0) (mkK h' m ps)).
    { intros X0 Y. rewrite Ec. cbn [length]. change (Z.of_nat 1 =? 1) with true. cbn [negb]. erewrite b_ret; [|eapply (run_child_is _ _ _ _ _ 0); [exact Hn|exact Tc|rewrite Ec; reflexivity|lia|exact Ha']]. destruct (ntype_eqb (c_type ka) STRING); reflexivity. }
    destruct (ntype_eqb (c_type ka) STRING) eqn:Ts.
    + apply ntype_eqb_spec in Ts. destruct (str_eqb (map lower (trim (c_str ka))) (zs "utf-8")) eqn:U.
      * exists []. split; [exact W|]. split; [|left; split; [reflexivity|]; exists (c_str ka); split; [exists a, ka; auto|now apply utf8_trim]].
        apply R. erewrite b_ret; [|eapply run_without; eauto]. fold h'. erewrite b_ret; [|eapply run_pos; exact Hn]. erewrite b_ret; [|eapply run_size; eauto]. rewrite Z0.
        erewrite b_ret; [|eapply run_child0; eauto]. erewrite b_ret; [|eapply run_string; [exact Ha'|rewrite Ts; reflexivity]]. rewrite U. rewrite app_nil_r. reflexivity.
      * exists [mkMsg LError (c_pos c) only_utf8]. split; [exact W|]. split; [|right; split; [now eexists|]].
        -- apply R. erewrite b_ret; [|eapply run_without; eauto]. fold h'. erewrite b_ret; [|eapply run_pos; exact Hn]. erewrite b_ret; [|eapply run_size; eauto]. rewrite Z0.
           erewrite b_ret; [|eapply run_child0; eauto]. erewrite b_ret; [|eapply run_string; [exact Ha'|rewrite Ts; reflexivity]]. rewrite U. reflexivity.
        -- intros s (a' & k' & E & Ha2 & _ & <-) Q. rewrite Ec in E. injection E as <-. rewrite Ha in Ha2. injection Ha2 as <-. apply utf8_trim in Q. congruence.
    + exists [mkMsg LError (c_pos c) one_string]. split; [exact W|]. split; [|right; split; [now eexists|]].
      * apply R. erewrite b_ret; [|eapply run_without; eauto]. fold h'. erewrite b_ret; [|eapply run_pos; exact Hn]. erewrite b_ret; [|eapply run_size; eauto]. rewrite Z0. reflexivity.
      * intros s (a' & k' & E & Ha2 & Ta & _). rewrite Ec in E. injection E as <-. rewrite Ha in Ha2. injection Ha2 as <-. rewrite Ta in Ts. discriminate.
  - exists [mkMsg LError (c_pos c) one_string]. split; [exact W|]. split.
    + apply R. erewrite b_ret; [|eapply run_without; eauto]. fold h'. erewrite b_ret; [|eapply run_pos; exact Hn]. erewrite b_ret; [|eapply run_size; eauto]. rewrite Ec. cbn [length]. replace (Z.of_nat (S (S (length l))) =? 1) with false by lia. reflexivity.
    + right. split; [now eexists|]. intros s (a' & ka & E & _). rewrite Ec in E. discriminate.
Qed.

(** An example: [@warning "a b"; @error;] and [@charset " UTF-8";]. *)
Definition ex_nd (t : ntype) (s : string) (ch : list addr) : cell := mkCell t (mkPos 1 1 1) false 0 (S754_zero false) (zs s) [] ch [] [].
Definition ex_h : heap := [ ex_nd LIST "" [1; 3]%nat; ex_nd AT_KEYWORD "warning" [2]%nat; ex_nd STRING "a b" []; ex_nd AT_KEYWORD "error" [];
  ex_nd LIST "" [5]%nat; ex_nd AT_KEYWORD "charset" [6]%nat; ex_nd STRING " UTF-8" [] ].
Theorem c64_ex : forall o fn x,
  let k := Pipeline.rules_of o fn in
  (exists h', run k 5 Compile x None 0%nat (mkK ex_h [] []) = Ret None (mkK h' [mkMsg LWarning (mkPos 1 1 1) "a b"; mkMsg LError (mkPos 1 1 1) "@error reached"] []))
  /\ exists h', run k 5 Compile (mkX 0%nat [4%nat] false) None 5%nat (mkK ex_h [] []) = Ret None (mkK h' [] []).
Proof.
  intros o fn x k. split.
  - eexists. exact (c64_sheet k 2 x 0%nat (ex_nd LIST "" [1; 3]%nat) [(LWarning, mkPos 1 1 1, "a b"); (LError, mkPos 1 1 1, "@error reached")] ex_h [] [] eq_refl eq_refl
      ltac:(repeat constructor; cbn; lia)
      ltac:(constructor; [exists (ex_nd AT_KEYWORD "warning" [2]%nat), (Some 2%nat), "@warning reached"; split; [reflexivity|]; split; [reflexivity|]; split; [constructor|]; split; [eapply follows_value; [reflexivity|reflexivity|discriminate]|]; split; [reflexivity|];
           intros h' K; unfold k; rewrite (c64_text o fn h' 2%nat (ex_nd STRING "a b" []) (K 2%nat (ex_nd STRING "a b" []) eq_refl ltac:(discriminate)) eq_refl ltac:(repeat constructor; discriminate)); reflexivity|];
         constructor; [exists (ex_nd AT_KEYWORD "error" []), None, "@error reached"; split; [reflexivity|]; split; [reflexivity|]; split; [constructor|]; split; [now apply follows_nothing|]; split; [reflexivity|]; reflexivity|constructor])
      ltac:(cbn; lia)).
  - destruct (c64_charset k 3 (mkX 0%nat [4%nat] false) None 5%nat (ex_nd AT_KEYWORD "charset" [6]%nat) 4%nat (ex_nd LIST "" [5]%nat) [] ex_h [] [] eq_refl eq_refl eq_refl
      ltac:(intros a [<-|[]]; eexists; reflexivity) eq_refl eq_refl eq_refl ltac:(now left) ltac:(discriminate) ltac:(intros [Q|[]]; discriminate)) as (l' & ms & W & R & D).
    exists (put ex_h 4%nat (with_ch (ex_nd LIST "" [5]%nat) l')). destruct D as [(-> & _)|(_ & N)]; [exact R|].
    exfalso. apply (N (zs " UTF-8")); [eexists _, _; split; [reflexivity|]; split; [reflexivity|split; reflexivity]|].
    exists [32], (zs "UTF-8"), []. split; [reflexivity|]. split; [repeat constructor|]. split; [constructor|].
    repeat constructor; unfold same_letter; vm_compute; intuition discriminate.
Qed.
