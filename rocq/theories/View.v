(** * Running the lexer on the characters of a well formed text

    [holds s v]: what the lexer will read from state [s] is the list of
    characters [v]. [runs] describes a successful run without any message. *)

From Coq Require Import String ZArith List Bool Lia Arith ZifyBool.
From Verif Require Import Base Utf8 Utf8Spec UnicodeRange Lexer LexSpec Utf8Proofs LexerWp.
Import ListNotations.
Open Scope Z_scope.
Ltac Zify.zify_post_hook ::= idtac.

Definition okc (c : Z) : Prop := 1 <= c < 1114112 /\ c <> 65533.

Definition holds (s : lexst) (v : list Z) : Prop :=
  exists l, Forall clean_char l /\ l_in s = utf8s l /\ v = l_unget s ++ normalize l
            /\ Forall okc (l_unget s).

Lemma clean_okc c : clean_char c -> okc c.
Proof. unfold clean_char, scalar, okc. lia. Qed.

Lemma normalize_ok l : Forall clean_char l -> Forall okc (normalize l).
Proof.
  induction l as [|c l IH]; intro H; [constructor|]. inversion H as [|? ? Hc Hl]; subst.
  specialize (IH Hl). cbn [normalize]. assert (Hn : okc 10) by (unfold okc; lia).
  destruct (c =? 13).
  - destruct l as [|d l]; [now constructor|]. destruct (d =? 10); [assumption|now constructor].
  - destruct (c =? 12); constructor; auto using clean_okc.
Qed.

Lemma holds_ok s v : holds s v -> Forall okc v.
Proof.
  intros (l & Hl & _ & -> & Hu). apply Forall_app. split; [assumption|now apply normalize_ok].
Qed.

Lemma normalize_length l : (length (normalize l) <= length l)%nat.
Proof.
  induction l as [|c l IH]; [auto|]. cbn [normalize].
  destruct (c =? 13).
  - destruct l as [|d l]; [auto|]. destruct (d =? 10); cbn [length] in *; lia.
  - destruct (c =? 12); cbn [length]; lia.
Qed.

Lemma utf8s_length l : (length l <= length (utf8s l))%nat.
Proof.
  induction l as [|c l IH]; [auto|]. rewrite utf8s_cons, app_length.
  destruct (utf8_nonempty c) as (b & r & ->). cbn [length]. lia.
Qed.

Lemma holds_fuel s v : holds s v -> (length v + 1 < fuel_of s)%nat.
Proof.
  intros (l & _ & Hi & -> & _). unfold fuel_of. rewrite Hi, app_length.
  pose proof (normalize_length l). pose proof (utf8s_length l). lia.
Qed.

Definition runs {A} (st : position) (d : nat) (v : list Z) (m : M A)
    (a : A) (d' : nat) (v' : list Z) : Prop :=
  forall s, holds s v -> (dep s <= d)%nat -> l_start s = st ->
  exists s', m s = Ret a s' /\ holds s' v' /\ (dep s' <= d')%nat
             /\ l_start s' = st /\ l_log s' = l_log s.

Lemma runs_ret {A} st d v (a : A) : runs st d v (ret a) a d v.
Proof. intros s H Hd Hs. exists s. auto. Qed.

Lemma runs_bind {A B} st d v (m : M A) a d1 v1 (f : A -> M B) b d2 v2 :
  runs st d v m a d1 v1 -> runs st d1 v1 (f a) b d2 v2 -> runs st d v (bind m f) b d2 v2.
Proof.
  intros H1 H2 s H Hd Hs. destruct (H1 s H Hd Hs) as (s1 & E1 & K1 & D1 & S1 & L1).
  destruct (H2 s1 K1 D1 S1) as (s2 & E2 & K2 & D2 & S2 & L2).
  exists s2. unfold bind. rewrite E1. repeat split; auto. congruence.
Qed.

Lemma runs_weaken {A} st d v (m : M A) a d1 d2 v1 :
  runs st d v m a d1 v1 -> (d1 <= d2)%nat -> runs st d v m a d2 v1.
Proof.
  intros H1 Hd s H D Hs. destruct (H1 s H D Hs) as (s1 & E1 & K1 & D1 & S1 & L1).
  exists s1. repeat split; auto. lia.
Qed.

Lemma runs_getc st d v : runs st d v getc (hd (-1) v) (pred d) (tl v).
Proof.
  intros s (l & Hl & Hi & Hv & Hu) Hd Hs. destruct (l_unget s) as [|u us] eqn:Eu.
  - cbn in Hv. assert (D0 : dep s = 0%nat) by (unfold dep; now rewrite Eu).
    destruct l as [|c l].
    + cbn in Hi, Hv. subst v. exists s. unfold getc. rewrite Eu, Hi. repeat split; auto; [|lia].
      exists []. rewrite Eu. auto.
    + inversion Hl as [|? ? Hc Hl']; subst. rewrite utf8s_cons in Hi.
      rewrite (getc_utf8 c (utf8s l)); [|assumption|assumption|assumption|now apply clean_head].
      destruct (getc_tail_eq c (utf8s l) s) as (s' & Es & Hin & Hun & Hlog & Hst). rewrite Es.
      exists s'. cbn [normalize]. pose proof (clean_okc c Hc) as Hk. unfold okc in Hk.
      assert (Hd' : dep s' = 0%nat) by (unfold dep; rewrite Hun, Eu; reflexivity).
      destruct (c =? 13) eqn:E13.
      * destruct l as [|x l].
        { cbn [hd tl]. split; [reflexivity|]. repeat split; [|lia|congruence|congruence].
          exists []. rewrite Hun, Eu. destruct Hin as [->|(_ & r & Hr & _)]; [auto|discriminate]. }
        inversion Hl' as [|? ? Hx Hl'']; subst.
        assert (Hx10 : (x =? 10) = true <-> exists r, utf8s (x :: l) = 10 :: r).
        { rewrite utf8s_cons. split.
          - intro E. apply Z.eqb_eq in E. subst x. rewrite utf8_ascii by lia. now exists (utf8s l).
          - intros [r Hr]. destruct (Z.lt_ge_cases x 128) as [L|G].
            + rewrite utf8_ascii in Hr by lia. apply cons_inj in Hr. lia.
            + destruct Hx as [Hx _]. unfold scalar in Hx.
              destruct (utf8_shape x) as (b & mb & E & Hb & _); [lia|].
              rewrite E in Hr. apply cons_inj in Hr. lia. }
        destruct (x =? 10) eqn:Ex.
        { apply Z.eqb_eq in Ex. subst x. change (normalize (10 :: l)) with (10 :: normalize l).
          cbn [hd tl]. split; [reflexivity|]. repeat split; [|lia|congruence|congruence].
          exists l. rewrite Hun, Eu. split; [assumption|]. split; [|auto].
          rewrite utf8s_cons, utf8_ascii in Hin by lia.
          unfold getc_tail in Es. rewrite E13 in Es. unfold bind, set_pos, set_in, ret in Es.
          rewrite utf8s_cons, utf8_ascii in Es by lia. cbn [app] in Es.
          change (10 =? 10) with true in Es. cbv iota in Es.
          injection Es as <-. reflexivity. }
        cbn [hd tl]. split; [reflexivity|]. repeat split; [|lia|congruence|congruence].
        exists (x :: l). rewrite Hun, Eu. split; [assumption|]. split; [|auto].
        destruct Hin as [Hin|(_ & r & Hr & _)]; [exact Hin|].
        assert (false = true) by (apply Hx10; eauto). discriminate.
      * destruct Hin as [Hin|(E & _)]; [|lia].
        replace (c =? 0) with false by lia.
        destruct (c =? 12); cbn [hd tl]; (split; [reflexivity|]); (repeat split; [|lia|congruence|congruence]);
        exists l; rewrite Hun, Eu; auto.
  - inversion Hu as [|? ? Hu1 Hu2]; subst. unfold okc in Hu1.
    unfold getc. rewrite Eu. unfold bind, set_unget, ret. replace (u =? 0) with false by lia.
    eexists. split; [reflexivity|]. cbn [app hd tl].
    repeat split; [|unfold dep in *; cbn; rewrite Eu in Hd; cbn [length] in Hd; lia].
    exists l. cbn. auto.
Qed.

Lemma runs_ungetc st d v c : okc c -> (d < 16)%nat -> runs st d v (ungetc c) tt (S d) (c :: v).
Proof.
  intros Hc Hd s (l & Hl & Hi & Hv & Hu) D Hs. unfold okc in Hc. unfold ungetc, set_unget.
  replace ((c =? -1) || (c =? 65533))%bool with false by lia.
  replace ((c <? 0) || (1114111 <? c))%bool with false by lia.
  unfold dep in D. replace (16 <=? length (l_unget s))%nat with false by (symmetry; apply Nat.leb_gt; lia).
  eexists. split; [reflexivity|]. repeat split; [|unfold dep; cbn; lia|exact Hs].
  exists l. cbn [l_in l_unget]. subst v. split; [assumption|]. split; [assumption|]. split; [reflexivity|now constructor].
Qed.

(** Push back the character that was just read, EOF included. *)
Lemma runs_unget_hd st d v : (d < 16)%nat -> Forall okc v ->
  runs st d (tl v) (ungetc (hd (-1) v)) tt (S d) v.
Proof.
  intros Hd Hv. destruct v as [|c v].
  - intros s H D Hs. exists s. cbn. repeat split; auto.
  - inversion Hv; subst. now apply runs_ungetc.
Qed.

Definition encodable (c : Z) : Prop := scalar c /\ c <> 0 /\ ~ nonchar c.

Lemma runs_wctomb st d v c : encodable c -> runs st d v (wctomb_m c) (utf8 c) d v.
Proof.
  intros (H1 & H2 & H3). unfold wctomb_m. rewrite wctomb_valid by assumption. apply runs_ret.
Qed.

Lemma runs_new_node st d v t : runs st d v (new_node t) (mk t st) d v.
Proof. intros s H D Hs. exists s. unfold new_node. rewrite Hs. auto. Qed.

Lemma runs_with_fuel {A} st d v (f : nat -> M A) a d' v' :
  (forall k, (length v + 1 < k)%nat -> runs st d v (f k) a d' v') ->
  runs st d v (with_fuel f) a d' v'.
Proof.
  intros H s Hs D E. unfold with_fuel. apply H; auto. now apply holds_fuel.
Qed.

(** From the body of the loop of next_token to next_token. *)
Lemma next_token_runs lm v node_of d' v' :
  (forall st, runs st 2 (tl v) (dispatch lm (hd (-1) v)) (Some (node_of st)) d' v') ->
  forall s, holds s v -> (dep s <= 3)%nat ->
  exists s', next_token lm s = Ret (node_of (l_pos s)) s' /\ holds s' v'
             /\ (dep s' <= d')%nat /\ l_log s' = l_log s.
Proof.
  intros H s Hv Hd. unfold next_token, with_fuel, fuel_of. cbn [token_loop].
  unfold bind at 1. unfold mark_start.
  set (s0 := mkLex (l_in s) (l_unget s) (l_pos s) (l_pos s) (l_log s)).
  assert (H0 : holds s0 v).
  { destruct Hv as (l & P1 & P2 & P3 & P4). exists l. auto. }
  destruct (runs_getc (l_pos s) 3 v s0 H0 Hd eq_refl) as (s1 & E1 & K1 & D1 & S1 & L1).
  destruct (H (l_pos s) s1 K1 D1 S1) as (s2 & E2 & K2 & D2 & S2 & L2).
  exists s2. unfold bind at 1. rewrite E1. unfold bind at 1. rewrite E2. unfold ret.
  repeat split; auto. rewrite L2, L1. reflexivity.
Qed.

Lemma holds_new l p : Forall clean_char l -> holds (new_lexer (utf8s l) p) (normalize l).
Proof. intro H. exists l. cbn. auto. Qed.

Lemma runs_strengthen {A} st d0 d v (m : M A) a d1 v1 :
  runs st d v m a d1 v1 -> (d0 <= d)%nat -> runs st d0 v m a d1 v1.
Proof.
  intros H1 Hd s H D Hs. apply H1; auto. lia.
Qed.

Lemma runs_le {A} st d0 d v (m : M A) a d1 d2 v1 :
  runs st d v m a d1 v1 -> (d0 <= d)%nat -> (d1 <= d2)%nat -> runs st d0 v m a d2 v1.
Proof. intros. eapply runs_weaken; [eapply runs_strengthen; eauto|assumption]. Qed.

Lemma normalize_plain a b : Forall (fun c => c <> 12 /\ c <> 13) a -> normalize (a ++ b) = a ++ normalize b.
Proof.
  induction a as [|c a IH]; intro H; [reflexivity|]. inversion H as [|? ? [H1 H2] H3]; subst.
  cbn [app normalize]. replace (c =? 13) with false by lia. replace (c =? 12) with false by lia.
  now rewrite IH.
Qed.

Lemma utf8s_app a b : utf8s (a ++ b) = utf8s a ++ utf8s b.
Proof. unfold utf8s. apply flat_map_app. Qed.

(** Read the head of a list of characters. *)
Lemma runs_getc_cons st d c v : runs st d (c :: v) getc c (pred d) v.
Proof. exact (runs_getc st d (c :: v)). Qed.

Lemma runs_if {A} st d v (b b' : bool) (m1 m2 : M A) a d' v' :
  b = b' -> runs st d v (if b' then m1 else m2) a d' v' -> runs st d v (if b then m1 else m2) a d' v'.
Proof. now intros ->. Qed.

(** Decide a test on characters. *)
Ltac chars := unfold is_identifier, is_variable, is_start_identifier, is_hex,
                is_hash_character, is_non_printable, is_space, is_digit, is_upper, is_lower in *; lia.
Ltac no := match goal with |- runs _ _ _ (if ?b then _ else _) _ _ _ =>
             replace b with false by (symmetry; chars); cbv iota end.
Ltac yes := match goal with |- runs _ _ _ (if ?b then _ else _) _ _ _ =>
             replace b with true by (symmetry; chars); cbv iota end.
Ltac rb := eapply runs_bind.
Ltac rget := eapply runs_bind; [apply runs_getc_cons|].
