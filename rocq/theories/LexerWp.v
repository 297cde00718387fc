(** * Total correctness of the lexer: termination, progress, exceptions

    Every function of the lexer is given a specification in weakest
    precondition style, parameterised by a relation [R] between lexer states
    which the primitive steps satisfy. *)

From Coq Require Import String ZArith List Bool Lia Arith ZifyBool.
From Verif Require Import Base Utf8 Utf8Spec UnicodeRange Lexer Utf8Proofs.
Import ListNotations.
Open Scope Z_scope.

Ltac Zify.zify_post_hook ::= idtac.

(** Number of errors in the log. *)
Definition errs (s : lexst) : nat := length (filter is_error (l_log s)).
(** Number of characters that remain to be read, at most. *)
Definition mu (s : lexst) : nat := length (l_in s) + length (l_unget s).
Definition dep (s : lexst) : nat := length (l_unget s).
(** Weight of a character: EOF consumes nothing. *)
Definition w (c : Z) : nat := if c =? -1 then 0%nat else 1%nat.

Definition char_ok (clean : bool) (c : Z) : Prop :=
  c = -1 \/ (1 <= c < 2097152 /\ (clean = true -> c < 1114112 /\ c <> 65533)).

Definition byte (b : Z) : Prop := 0 <= b < 256.

Definition valid (clean : bool) (s : lexst) : Prop :=
  Forall byte (l_in s)
  /\ Forall (fun c => 1 <= c < 1114112 /\ c <> 65533) (l_unget s)
  /\ (clean = true -> clean_text (l_in s)).

Ltac Zify.zify_post_hook ::= Z.div_mod_to_equations.
Lemma mb_follow_bound k : forall wc s r,
  0 <= wc -> mb_follow k wc s = inr r -> 0 <= r < (wc + 1) * 64 ^ Z.of_nat k.
Proof.
  induction k as [|k IH]; intros wc s r Hw H.
  - cbn [mb_follow] in H. destruct s; [|discriminate]. injection H as <-. cbn. lia.
  - cbn [mb_follow] in H. destruct s as [|c s]; [discriminate|].
    destruct (c =? 0); [discriminate|].
    destruct ((c <? 128) || (191 <? c))%bool eqn:E; [discriminate|].
    rewrite land63, follow_add in H by lia.
    apply IH in H; [|lia].
    rewrite Nat2Z.inj_succ, Z.pow_succ_r by lia.
    assert (Hp : 0 < 64 ^ Z.of_nat k) by (apply Z.pow_pos_nonneg; lia).
    split; [lia|]. eapply Z.lt_le_trans; [apply H|].
    replace ((wc + 1) * (64 * 64 ^ Z.of_nat k)) with (((wc + 1) * 64) * 64 ^ Z.of_nat k) by ring.
    apply Z.mul_le_mono_nonneg_r; lia.
Qed.

Lemma mbtowc_bound s c : Forall byte s -> mbtowc s = inr c -> 0 <= c < 2097152.
Proof.
  unfold mbtowc. destruct s as [|b r]; intros Hb H; [injection H as <-; lia|].
  inversion Hb; subst. unfold byte in *.
  destruct (b <? 128) eqn:E1; b2p; [injection H as <-; lia|].
  destruct (240 <=? b) eqn:E2; b2p.
  { destruct (248 <=? b) eqn:E3; [discriminate|].
    rewrite land7 in H. apply mb_follow_bound in H; [|lia]. cbn in H.
    change (Z.pow_pos 64 3) with 262144 in H. lia. }
  destruct (224 <=? b) eqn:E3; b2p.
  { rewrite land15 in H. apply mb_follow_bound in H; [|lia]. cbn in H.
    change (Z.pow_pos 64 2) with 4096 in H. lia. }
  destruct (192 <=? b) eqn:E4; b2p; [|discriminate].
  rewrite land31 in H. apply mb_follow_bound in H; [|lia]. cbn in H.
  change (Z.pow_pos 64 1) with 64 in H. lia.
Qed.

Ltac Zify.zify_post_hook ::= idtac.
Lemma take_follow_split k : forall l a b, take_follow k l = (a, b) -> l = a ++ b.
Proof.
  induction k as [|k IH]; intros [|c l] a b H; cbn [take_follow] in H;
    try (injection H as <- <-; reflexivity).
  destruct (is_follow c).
  - destruct (take_follow k l) as [x y] eqn:E. injection H as <- <-.
    cbn. f_equal. now apply IH.
  - injection H as <- <-. reflexivity.
Qed.

Lemma skip_follow_suffix l : exists p, l = p ++ skip_follow l.
Proof.
  induction l as [|c l [p IH]]; [now exists []|]. cbn [skip_follow].
  destruct (is_follow c); [exists (c :: p); cbn; now f_equal|now exists []].
Qed.

(** What getc does when nothing was pushed back, on a clean text. *)
Lemma utf8s_cons c l : utf8s (c :: l) = utf8 c ++ utf8s l.
Proof. reflexivity. Qed.

Lemma clean_head l : Forall clean_char l ->
  match utf8s l with b :: _ => is_follow b = false | [] => True end.
Proof.
  intro H. destruct l as [|c l]; [exact I|]. rewrite utf8s_cons.
  destruct (utf8_nonempty c) as (b & r & E). rewrite E. cbn.
  inversion H as [|? ? Hc Hl]; subst. destruct Hc as [Hs _]. unfold scalar in Hs.
  eapply utf8_head_not_follow; [|exact E]. lia.
Qed.

(** Reading the first character of an encoded text. *)
Lemma getc_utf8_gen c rest s :
  0 <= c < 1114112 -> l_unget s = [] -> l_in s = utf8 c ++ rest ->
  (match rest with b :: _ => is_follow b = false | [] => True end) ->
  getc s = getc_tail c rest s.
Proof.
  intros Hc Hu Hi Hr. unfold getc. rewrite Hu, Hi.
  destruct (Z.lt_ge_cases c 128) as [L|G].
  - rewrite utf8_ascii by exact L. cbn [app].
    replace (c <? 128) with true by (symmetry; apply Z.ltb_lt; lia). reflexivity.
  - destruct (utf8_shape c) as (b & mb & E & Hb & Hmb & Hlen); [lia|].
    rewrite E. cbn [app].
    replace (b <? 128) with false by (symmetry; apply Z.ltb_ge; lia).
    replace (192 <=? b) with true by (symmetry; apply Z.leb_le; lia).
    replace (b <? 255) with true by (symmetry; apply Z.ltb_lt; lia).
    cbn [andb].
    rewrite take_follow_app by (assumption || exact Hr || lia).
    replace (length mb =? 7)%nat with false by (symmetry; apply Nat.eqb_neq; lia).
    rewrite <- E, mbtowc_utf8 by lia. reflexivity.
Qed.

Lemma getc_utf8 c rest s :
  clean_char c -> l_unget s = [] -> l_in s = utf8 c ++ rest ->
  (match rest with b :: _ => is_follow b = false | [] => True end) ->
  getc s = getc_tail c rest s.
Proof.
  intros [Hs _]. apply getc_utf8_gen. unfold scalar in Hs. lia.
Qed.

(** Result of [getc] in general. *)
Record getc_post (clean : bool) (s : lexst) (c : Z) (s' : lexst) : Prop := {
  gp_char : char_ok clean c;
  gp_valid : valid clean s';
  gp_mu : (mu s' + w c <= mu s)%nat;
  gp_dep : dep s' = pred (dep s);
  gp_errs : (errs s <= errs s')%nat;
  gp_eof : c = -1 -> mu s' = 0%nat;
  gp_top : forall n u, l_unget s = n :: u -> c = n /\ l_unget s' = u
}.

Lemma getc_tail_eq c rest s :
  exists s', getc_tail c rest s = Ret (if c =? 13 then 10 else if c =? 12 then 10
                                       else if c =? 0 then 65533 else c) s'
    /\ (l_in s' = rest \/ (c = 13 /\ exists r, rest = 10 :: r /\ l_in s' = r))
    /\ l_unget s' = l_unget s /\ l_log s' = l_log s /\ l_start s' = l_start s.
Proof.
  unfold getc_tail. destruct (c =? 13) eqn:E1; b2p.
  { subst c. destruct rest as [|n r].
    - eexists. split; [reflexivity|]. cbn. auto.
    - eexists. split; [reflexivity|]. cbn.
      destruct (n =? 10) eqn:E; b2p; [|auto]. subst n.
      split; [|auto]. right. split; [reflexivity|]. now exists r. }
  destruct (c =? 10) eqn:E2; b2p.
  { subst c. eexists. split; [reflexivity|]. cbn. auto. }
  destruct (c =? 12) eqn:E3; b2p.
  { eexists. split; [reflexivity|]. cbn. auto. }
  destruct (c =? 0) eqn:E4; b2p; eexists; (split; [reflexivity|]); cbn; auto.
Qed.

Lemma Forall_suffix {A} (P : A -> Prop) p r : Forall P (p ++ r) -> Forall P r.
Proof. intro H. apply Forall_app in H. apply H. Qed.

Lemma getc_total clean s : valid clean s ->
  exists c s', getc s = Ret c s' /\ getc_post clean s c s'.
Proof.
  intros (Hb & Hu & Hc).
  destruct (l_unget s) as [|u us] eqn:Eu.
  2:{ unfold getc. rewrite Eu. inversion Hu as [|? ? Hu1 Hu2]; subst.
      replace (u =? 0) with false by (symmetry; apply Z.eqb_neq; lia).
      eexists _, _. split; [reflexivity|]. split.
      - right. split; [lia|]. intros _. lia.
      - split; [exact Hb|]. split; [exact Hu2|exact Hc].
      - unfold mu, w. cbn. rewrite Eu. cbn [length].
        destruct (u =? -1); lia.
      - unfold dep. cbn. rewrite Eu. reflexivity.
      - unfold errs. cbn. lia.
      - lia.
      - intros n u0 E. rewrite Eu in E. apply cons_inj in E. destruct E as [<- <-]. auto. }
  destruct (l_in s) as [|b rest] eqn:Ei.
  { unfold getc. rewrite Eu, Ei. eexists _, _. split; [reflexivity|]. split.
    - now left.
    - unfold valid. rewrite Ei, Eu. auto.
    - change (w (-1)) with 0%nat. lia.
    - unfold dep. now rewrite Eu.
    - lia.
    - intros _. unfold mu. now rewrite Eu, Ei.
    - intros n u0 E. rewrite Eu in E. discriminate. }
  destruct clean.
  - (* clean text *)
    destruct (Hc eq_refl) as (l & Hl & El).
    destruct l as [|c l]; [discriminate|].
    inversion Hl as [|? ? Hc1 Hl1]; subst. rewrite utf8s_cons in El.
    rewrite (getc_utf8 c (utf8s l)); [|exact Hc1|exact Eu|now rewrite Ei|now apply clean_head].
    destruct (getc_tail_eq c (utf8s l) s) as (s' & Es & Hin & Hun & Hlog & Hst).
    destruct Hc1 as (Hsc & Hnz & Hnf). unfold scalar in Hsc.
    eexists _, _. split; [exact Es|].
    assert (Hlen : (length (l_in s') < length (l_in s))%nat).
    { rewrite Ei, El, app_length. destruct (utf8_nonempty c) as (x & y & E). rewrite E. cbn [length].
      destruct Hin as [->|(_ & r & -> & ->)]; cbn [length]; lia. }
    assert (Hsuf : exists p, l_in s = p ++ l_in s').
    { rewrite Ei, El. destruct Hin as [->|(_ & r & -> & ->)]; [eauto|].
      exists (utf8 c ++ [10]). now rewrite <- app_assoc. }
    split.
    + right. destruct (c =? 13), (c =? 12), (c =? 0) eqn:E0; b2p; lia.
    + split; [|split].
      * destruct Hsuf as [p Hp]. eapply Forall_suffix. rewrite <- Hp, Ei. exact Hb.
      * rewrite Hun, Eu. constructor.
      * intros _. destruct Hin as [->|(_ & r & Hr & ->)]; [now exists l|].
        destruct l as [|d l]; [discriminate|]. exists l.
        inversion Hl1 as [|? ? Hd Hl2]; subst. split; [exact Hl2|].
        rewrite utf8s_cons in Hr. destruct Hd as [Hd _]. unfold scalar in Hd.
        destruct (Z.lt_ge_cases d 128) as [L|G].
        -- rewrite utf8_ascii in Hr by lia. apply cons_inj in Hr. symmetry. apply Hr.
        -- destruct (utf8_shape d) as (x & y & E & Hx & _); [lia|].
           rewrite E in Hr. apply cons_inj in Hr. lia.
    + unfold mu. rewrite Hun. unfold w. destruct (_ =? -1); lia.
    + unfold dep. rewrite Hun, Eu. reflexivity.
    + unfold errs. rewrite Hlog. lia.
    + destruct (c =? 13), (c =? 12), (c =? 0) eqn:E0; b2p; lia.
    + intros n u0 E. rewrite Eu in E. discriminate.
  - (* any bytes *)
    assert (Hgen : forall s1 c rest1,
      0 <= c < 2097152 -> (exists p, rest = p ++ rest1) ->
      l_unget s1 = [] -> (errs s <= errs s1)%nat ->
      exists c' s', getc_tail c rest1 s1 = Ret c' s' /\ getc_post false s c' s').
    { intros s1 c rest1 Hcr [p Hp] Hu1 He1.
      destruct (getc_tail_eq c rest1 s1) as (s' & Es & Hin & Hun & Hlog & Hst).
      eexists _, _. split; [exact Es|].
      assert (Hlen : (length (l_in s') <= length rest)%nat).
      { rewrite Hp, app_length. destruct Hin as [->|(_ & r & -> & ->)]; cbn [length]; lia. }
      assert (Hsuf : exists p, rest = p ++ l_in s').
      { destruct Hin as [->|(_ & r & Hr & ->)]; [eauto|].
        exists (p ++ [10]). rewrite Hp, Hr, <- app_assoc. reflexivity. }
      split.
      + right. split; [|discriminate]. destruct (c =? 13), (c =? 12), (c =? 0) eqn:E0; b2p; lia.
      + split; [|split; [|discriminate]].
        * destruct Hsuf as [p' Hp']. inversion Hb as [|? ? Hb1 Hb2]; subst.
          eapply Forall_suffix. rewrite <- Hp'. exact Hb2.
        * rewrite Hun, Hu1. constructor.
      + unfold mu. rewrite Hun, Hu1, Ei. cbn [length]. unfold w. destruct (_ =? -1); lia.
      + unfold dep. rewrite Hun, Hu1, Eu. reflexivity.
      + unfold errs in *. rewrite Hlog. lia.
      + destruct (c =? 13), (c =? 12), (c =? 0) eqn:E0; b2p; lia.
      + intros n u0 E. rewrite Eu in E. discriminate. }
    unfold getc. rewrite Eu, Ei.
    inversion Hb as [|? ? Hb1 Hb2]; subst. unfold byte in Hb1.
    destruct (b <? 128) eqn:E1; b2p.
    { apply Hgen; [lia|now exists []|exact Eu|lia]. }
    destruct ((192 <=? b) && (b <? 255))%bool eqn:E2.
    + destruct (take_follow 7 rest) as [mb rest'] eqn:Et.
      pose proof (take_follow_split _ _ _ _ Et) as Hsp.
      destruct (length mb =? 7)%nat eqn:E3.
      * destruct (skip_follow_suffix rest') as [q Hq].
        eexists _, _. split; [reflexivity|].
        split.
        -- right. split; [lia|discriminate].
        -- split; [|split; [|discriminate]]; cbn.
           ++ eapply (Forall_suffix _ (mb ++ q)). rewrite <- app_assoc, <- Hq, <- Hsp. exact Hb2.
           ++ rewrite Eu. constructor.
        -- change (w 65533) with 1%nat. unfold mu. cbn [l_in l_unget]. rewrite Eu, Ei. cbn [length].
           apply (f_equal (@length Z)) in Hq, Hsp. rewrite app_length in Hq, Hsp. lia.
        -- unfold dep. cbn. now rewrite Eu.
        -- unfold errs. cbn. lia.
        -- lia.
        -- intros n u0 E. rewrite Eu in E. discriminate.
      * destruct (mbtowc (b :: mb)) as [t|c] eqn:Em.
        -- apply (Hgen (mkLex (l_in s) (l_unget s) (l_pos s) (l_start s)
                          (mkMsg LError (l_start s) t :: l_log s))).
           ++ lia.
           ++ now exists mb.
           ++ exact Eu.
           ++ unfold errs. cbn. lia.
        -- apply Hgen.
           ++ apply mbtowc_bound in Em; [lia|]. constructor; [exact Hb1|].
              rewrite Hsp in Hb2. apply Forall_app in Hb2. apply Hb2.
           ++ now exists mb.
           ++ exact Eu.
           ++ lia.
    + destruct (skip_follow_suffix rest) as [q Hq].
      eexists _, _. split; [reflexivity|].
      split.
      * right. split; [lia|discriminate].
      * split; [|split; [|discriminate]]; cbn.
        -- eapply Forall_suffix. rewrite <- Hq. exact Hb2.
        -- rewrite Eu. constructor.
      * change (w 65533) with 1%nat. unfold mu. cbn [l_in l_unget]. rewrite Eu, Ei. cbn [length].
        apply (f_equal (@length Z)) in Hq. rewrite app_length in Hq. lia.
      * unfold dep. cbn. now rewrite Eu.
      * unfold errs. cbn. lia.
      * lia.
      * intros n u0 E. rewrite Eu in E. discriminate.
Qed.

(** ** Weakest preconditions *)

(** [reach clean s s'] : the lexer goes from [s] to [s'] by primitive steps:
    reading a character, changing the push back buffer, logging a message,
    marking the start of a token. *)
Inductive reach (clean : bool) : lexst -> lexst -> Prop :=
| R_refl s : reach clean s s
| R_trans a b c : reach clean a b -> reach clean b c -> reach clean a c
| R_getc s c s' : valid clean s -> getc s = Ret c s' -> reach clean s s'
| R_unget s u : reach clean s (mkLex (l_in s) u (l_pos s) (l_start s) (l_log s))
| R_log s m : reach clean s (mkLex (l_in s) (l_unget s) (l_pos s) (l_start s) (m :: l_log s))
| R_mark s : reach clean s (mkLex (l_in s) (l_unget s) (l_pos s) (l_pos s) (l_log s)).

Section Wp.
  Variable clean : bool.

  (** Exceptions that a text which is not clean may raise. *)
  Definition may_throw (e : exn) : Prop :=
    clean = false /\ (e = XUngetRange \/ e = XIdentStart).

  (** [n0] errors had been logged at the start: undefined behaviour only
      happens after one more. *)
  Definition wp {A} (n0 : nat) (m : M A) (Q : A -> lexst -> Prop) (s : lexst) : Prop :=
    match m s with
    | Ret a s' => Q a s'
    | Throw e s' => may_throw e
    | Undef s' => (n0 < errs s')%nat
    | NoFuel => False
    end.

  Lemma wp_bind {A B} n0 (m : M A) (f : A -> M B) Q s :
    wp n0 m (fun a s' => wp n0 (f a) Q s') s -> wp n0 (bind m f) Q s.
  Proof. unfold wp, bind. destruct (m s); auto. Qed.

  Lemma wp_ret {A} n0 (a : A) (Q : A -> lexst -> Prop) s : Q a s -> wp n0 (ret a) Q s.
  Proof. auto. Qed.

  Lemma wp_mono {A} n0 (m : M A) (Q Q' : A -> lexst -> Prop) s :
    wp n0 m Q s -> (forall a s', Q a s' -> Q' a s') -> wp n0 m Q' s.
  Proof. unfold wp. destruct (m s); auto. Qed.

  (** What every function guarantees about the state. *)
  Record okst (s s' : lexst) : Prop := {
    ok_R : reach clean s s';
    ok_valid : valid clean s';
    ok_errs : (errs s <= errs s')%nat
  }.

  Lemma okst_refl s : valid clean s -> okst s s.
  Proof. intro. split; auto. constructor. Qed.
  Lemma okst_trans a b c : okst a b -> okst b c -> okst a c.
  Proof. intros [? ? ?] [? ? ?]. split; [eapply R_trans; eauto|auto|lia]. Qed.

  Lemma wp_getc n0 (Q : Z -> lexst -> Prop) s : valid clean s ->
    (forall c s', char_ok clean c -> okst s s' -> (mu s' + w c <= mu s)%nat ->
                  dep s' = pred (dep s) -> (c = -1 -> mu s' = 0%nat) ->
                  (forall n u, l_unget s = n :: u -> c = n /\ l_unget s' = u) -> Q c s') ->
    wp n0 getc Q s.
  Proof.
    intros Hv H. destruct (getc_total clean s Hv) as (c & s' & E & [P1 P2 P3 P4 P5 P6 P7]).
    unfold wp. rewrite E. apply H; auto. split; eauto using R_getc.
  Qed.

  Lemma wp_ungetc n0 (Q : unit -> lexst -> Prop) s c : valid clean s ->
    char_ok clean c \/ c = 65533 -> (dep s < 16)%nat ->
    (forall s', okst s s' -> (mu s' <= mu s + w c)%nat ->
                (dep s' <= dep s + w c)%nat ->
                (c <> -1 -> c <> 65533 -> l_unget s' = c :: l_unget s) -> Q tt s') ->
    wp n0 (ungetc c) Q s.
  Proof.
    intros Hv Hc Hd H. unfold wp, ungetc.
    destruct ((c =? -1) || (c =? 65533))%bool eqn:E1.
    { apply H; [now apply okst_refl|lia|lia|lia]. }
    b2p. destruct Hc as [[->|[Hc Hc']]|Hc]; [lia| |lia].
    destruct ((c <? 0) || (1114111 <? c))%bool eqn:E2.
    { destruct clean eqn:Ec.
      - destruct (Hc' eq_refl). apply orb_true_iff in E2. destruct E2; b2p; lia.
      - split; [exact Ec|now left]. }
    b2p.
    destruct (16 <=? length (l_unget s))%nat eqn:E3.
    { apply Nat.leb_le in E3. unfold dep in Hd. lia. }
    unfold set_unget. assert (Hw : w c = 1%nat) by (unfold w; destruct (c =? -1) eqn:E; b2p; lia).
    apply H.
    - split; [apply R_unget| |unfold errs; cbn; lia].
      destruct Hv as (V1 & V2 & V3). split; [exact V1|]. split; [|exact V3].
      constructor; [split; lia|exact V2].
    - rewrite Hw. unfold mu. cbn [l_in l_unget length]. lia.
    - rewrite Hw. unfold dep. cbn [l_unget length]. lia.
    - reflexivity.
  Qed.

  Lemma wp_emit n0 (Q : unit -> lexst -> Prop) l p t s : valid clean s ->
    (forall s', okst s s' -> mu s' = mu s -> dep s' = dep s ->
       (errs s + (if is_error (mkMsg l (p s) t) then 1 else 0) <= errs s')%nat -> Q tt s') ->
    wp n0 (emit l p t) Q s.
  Proof.
    intros Hv H. unfold wp, emit. apply H; try reflexivity.
    - split; [apply R_log|exact Hv|].
      unfold errs. cbn [l_log filter]. destruct (is_error _); cbn [length]; lia.
    - unfold errs. cbn [l_log filter]. destruct (is_error _); cbn [length]; lia.
  Qed.

  Lemma wp_err n0 (Q : unit -> lexst -> Prop) t s : valid clean s ->
    (forall s', okst s s' -> mu s' = mu s -> dep s' = dep s -> (errs s < errs s')%nat -> Q tt s') ->
    wp n0 (err t) Q s.
  Proof.
    intros Hv H. apply wp_emit; [exact Hv|]. intros s' H1 H2 H3 H4. cbn in H4.
    apply H; auto. lia.
  Qed.

  Lemma wp_wctomb n0 (Q : str -> lexst -> Prop) c s : valid clean s ->
    (forall b s', okst s s' -> mu s' = mu s -> dep s' = dep s -> Q b s') ->
    wp n0 (wctomb_m c) Q s.
  Proof.
    intros Hv H. unfold wctomb_m. destruct (wctomb c) as [t|b].
    - apply wp_bind. apply wp_err; [exact Hv|]. intros. apply wp_ret. auto.
    - apply wp_ret. apply H; auto. now apply okst_refl.
  Qed.

  Lemma wp_new_node n0 (Q : node -> lexst -> Prop) t s :
    Q (mk t (l_start s)) s -> wp n0 (new_node t) Q s.
  Proof. auto. Qed.

  Lemma wp_with_fuel {A} n0 (f : nat -> M A) Q s :
    (forall k, (mu s + 1 < k)%nat -> wp n0 (f k) Q s) -> wp n0 (with_fuel f) Q s.
  Proof. intro H. unfold wp, with_fuel. apply H. unfold fuel_of, mu. lia. Qed.

  Lemma wp_hex n0 (Q : Z -> lexst -> Prop) c s : is_hex c = true ->
    (forall d, 0 <= d < 16 -> Q d s) -> wp n0 (hex_to_dec c) Q s.
  Proof.
    intros Hh H. unfold hex_to_dec, is_hex in *.
    destruct (is_digit c) eqn:E1.
    { apply wp_ret. apply H. unfold is_digit in E1. b2p. lia. }
    cbn [orb] in Hh.
    destruct ((65 <=? c) && (c <=? 70))%bool eqn:E2; b2p.
    { apply wp_ret. apply H. lia. }
    cbn [orb] in Hh. rewrite Hh. apply wp_ret. apply H. b2p. lia.
  Qed.

  Lemma w_cases c : (c = -1 /\ w c = 0%nat) \/ (c <> -1 /\ w c = 1%nat).
  Proof. unfold w. destruct (c =? -1) eqn:E; b2p; auto. Qed.

End Wp.

  (** Bookkeeping: one [okst] hypothesis from the initial state, and the
      arithmetic facts. *)
  Ltac merge :=
    match goal with
    | K : okst ?cl ?a ?b, H : okst ?cl ?b ?c |- _ =>
        let N := fresh "K" in
        pose proof (okst_trans cl a b c K H) as N;
        let E := fresh "He" in pose proof (ok_errs _ _ _ H) as E;
        let E := fresh "He" in pose proof (ok_errs _ _ _ K) as E;
        clear K H
    end.
  Ltac val := match goal with K : okst _ _ ?s |- valid _ ?s => exact (ok_valid _ _ _ K) end.
  Ltac ar := unfold may_throw, is_identifier, is_variable, is_start_identifier, is_hex,
                is_hash_character, is_non_printable, is_space, char_ok, is_digit, is_upper,
                is_lower in *; lia.
  Ltac step :=
    lazymatch goal with
    | |- wp _ _ (bind _ _) _ _ => apply wp_bind
    | |- wp _ _ (ret _) _ _ => apply wp_ret
    | |- wp _ _ getc _ _ =>
        apply wp_getc; [val|];
        let c := fresh "c" in let s := fresh "s" in
        intros c s ? ? ? ? ? ?; pose proof (w_cases c); merge
    | |- wp _ _ (ungetc ?c) _ _ =>
        apply wp_ungetc; [val|assumption || (left; assumption) || (left; unfold char_ok; right; lia)|ar|pose proof (w_cases c); intros ? ? ? ? ?; merge]
    | |- wp _ _ (err _) _ _ => apply wp_err; [val|intros ? ? ? ? ?; merge]
    | |- wp _ _ (emit _ _ _) _ _ => apply wp_emit; [val|intros ? ? ? ? ?; merge]
    | |- wp _ _ (wctomb_m _) _ _ => apply wp_wctomb; [val|intros ? ? ? ? ?; merge]
    | |- wp _ _ (new_node _) _ _ => apply wp_new_node
    | |- wp _ _ (with_fuel _) _ _ => apply wp_with_fuel; intros ? ?
    | |- wp _ _ (some _) _ _ => unfold some
    | |- wp _ _ (if ?b then _ else _) _ _ => let E := fresh "E" in destruct b eqn:E
    | |- wp _ _ (let '(_, _) := ?r in _) _ _ => destruct r
    end.
  Ltac start := let K := fresh "K" in
    match goal with H : valid ?cl ?s |- wp _ _ _ _ ?s => pose proof (okst_refl cl s H) as K end.

  Ltac fin := split; [eassumption|]; ar.
  Ltac go := repeat step.

Section Wp2.
  Variable clean : bool.
  Notation wp := (wp clean). Notation okst := (okst clean).

  Lemma wp_escape_hex k : forall n0 s wc, valid clean s -> (dep s < 16)%nat -> 0 <= wc < 1114112 ->
    wp n0 (escape_hex k wc)
       (fun c s' => okst s s' /\ (mu s' <= mu s)%nat /\ (dep s' <= Nat.max (dep s) 1)%nat
                    /\ 1 <= c < 1114112) s.
  Proof.
    induction k as [|k IH]; intros n0 s wc Hv Hd Hwc; start; cbn [escape_hex].
    - repeat step; (split; [eassumption|]; ar).
    - step. step. step.
      + step. step; [step; repeat step; (split; [eassumption|]; ar)|].
        step. repeat step; (split; [eassumption|]; ar).
      + step. apply wp_hex; [ar|]. intros d Hdd. step.
        * repeat step; (split; [eassumption|]; ar).
        * eapply wp_mono; [apply IH; [val|ar|lia]|].
          intros ? ? (? & ? & ? & ?). merge. split; [eassumption|]. ar.
  Qed.


  Lemma wp_escape n0 s : valid clean s -> (dep s <= 8)%nat ->
    wp n0 escape
       (fun c s' => okst s s' /\ (mu s' <= mu s)%nat /\ (dep s' <= Nat.max (pred (dep s)) 1)%nat
                    /\ 1 <= c < 2097152 /\ (c <> 65533 -> (mu s' + 1 <= mu s)%nat)) s.
  Proof.
    intros Hv Hd. start. unfold escape. step. step.
    step; [go; fin|]. step; [go; fin|]. step; [go; fin|].
    step; [|go; fin].
    step. apply wp_hex; [ar|]. intros d Hdd.
    eapply wp_mono; [apply wp_escape_hex; [val|ar|lia]|].
    intros ? ? (? & ? & ? & ?). merge. fin.
  Qed.

End Wp2.
  Ltac use_escape :=
    eapply wp_mono; [apply wp_escape; [val|ar]|];
    let c := fresh "c" in let s' := fresh "s" in
    intros c s' (? & ? & ? & ? & ?); pose proof (w_cases c); merge.

Section Wp3.
  Variable clean : bool.
  Notation wp := (wp clean). Notation okst := (okst clean).

  Lemma wp_string_loop quote : forall f n0 s acc, valid clean s -> (dep s <= 8)%nat -> (mu s < f)%nat ->
    wp n0 (string_loop f quote acc)
       (fun _ s' => okst s s' /\ (mu s' <= mu s)%nat /\ (dep s' <= Nat.max (dep s) 1)%nat) s.
  Proof.
    induction f as [|f IH]; intros n0 s acc Hv Hd Hf; [lia|]. start. cbn [string_loop].
    step. step. step; [go; fin|]. step; [go; fin|]. step; [go; fin|].
    step.
    assert (Hloop : forall s2 acc2, okst s s2 -> (mu s2 < mu s)%nat -> (dep s2 <= Nat.max (dep s) 1)%nat ->
      wp n0 (string_loop f quote acc2)
       (fun _ s' => okst s s' /\ (mu s' <= mu s)%nat /\ (dep s' <= Nat.max (dep s) 1)%nat) s2).
    { intros s2 acc2 K2 Hm Hd2. eapply wp_mono; [apply IH; [val|lia|lia]|].
      intros ? ? (? & ? & ?). merge. fin. }
    go; try (apply Hloop; [assumption|ar|ar]).
    use_escape. go; (apply Hloop; [assumption|ar|ar]).
  Qed.

  Lemma wp_lex_string n0 quote s : valid clean s -> (dep s <= 8)%nat ->
    wp n0 (lex_string quote)
       (fun _ s' => okst s s' /\ (mu s' <= mu s)%nat /\ (dep s' <= Nat.max (dep s) 1)%nat) s.
  Proof.
    intros Hv Hd. unfold lex_string. apply wp_with_fuel. intros k Hk.
    apply wp_string_loop; auto. lia.
  Qed.

  Lemma wp_ident_loop : forall f n0 s id low, valid clean s -> (dep s <= 8)%nat -> (mu s < f)%nat ->
    wp n0 (ident_loop f id low)
       (fun r s' => okst s s' /\ (mu s' + w (snd r) <= mu s)%nat
                    /\ (dep s' <= Nat.max (pred (dep s)) 1)%nat
                    /\ (char_ok clean (snd r) \/ snd r = 65533)) s.
  Proof.
    induction f as [|f IH]; intros n0 s id low Hv Hd Hf; [lia|]. start. cbn [ident_loop].
    assert (Hloop : forall s2 id2 low2, okst s s2 -> (mu s2 < mu s)%nat -> (dep s2 <= Nat.max (pred (dep s)) 1)%nat ->
      wp n0 (ident_loop f id2 low2)
       (fun r s' => okst s s' /\ (mu s' + w (snd r) <= mu s)%nat
                    /\ (dep s' <= Nat.max (pred (dep s)) 1)%nat
                    /\ (char_ok clean (snd r) \/ snd r = 65533)) s2).
    { intros s2 id2 low2 K2 Hm Hd2. eapply wp_mono; [apply IH; [val|lia|lia]|].
      intros ? ? (? & ? & ? & ?). merge. split; [eassumption|]. repeat split; [lia|lia|assumption]. }
    step. step. step.
    - step. use_escape. step.
      + step. cbn [snd]. split; [eassumption|]. split; [lia|]. split; [lia|]. right. lia.
      + go. apply Hloop; [assumption|ar|ar].
    - step.
      + step. cbn [snd]. split; [eassumption|]. split; [lia|]. split; [lia|]. now left.
      + go. apply Hloop; [assumption|ar|ar].
  Qed.

  Lemma wp_skip_spaces : forall f n0 s, valid clean s -> (mu s < f)%nat ->
    wp n0 (skip_spaces f)
       (fun c s' => okst s s' /\ (mu s' + w c <= mu s)%nat /\ (dep s' <= pred (dep s))%nat
                    /\ char_ok clean c) s.
  Proof.
    induction f as [|f IH]; intros n0 s Hv Hf; [lia|]. start. cbn [skip_spaces].
    step. step. step.
    - eapply wp_mono; [apply IH; [val|ar]|].
      intros ? ? (? & ? & ? & ?). merge. split; [eassumption|]. repeat split; [lia|lia|assumption].
    - step. split; [eassumption|]. repeat split; [lia|lia|assumption].
  Qed.

  Lemma wp_skip_blanks : forall f n0 s, valid clean s -> (mu s < f)%nat ->
    wp n0 (skip_blanks f)
       (fun c s' => okst s s' /\ (mu s' + w c <= mu s)%nat /\ (dep s' <= pred (dep s))%nat
                    /\ char_ok clean c) s.
  Proof.
    induction f as [|f IH]; intros n0 s Hv Hf; [lia|]. start. cbn [skip_blanks].
    step. step. step.
    - eapply wp_mono; [apply IH; [val|ar]|].
      intros ? ? (? & ? & ? & ?). merge. split; [eassumption|]. repeat split; [lia|lia|assumption].
    - step. split; [eassumption|]. repeat split; [lia|lia|assumption].
  Qed.

  Lemma wp_url_loop : forall f n0 s u, valid clean s -> (mu s < f)%nat ->
    wp n0 (url_loop f u)
       (fun r s' => okst s s' /\ (mu s' <= mu s)%nat /\ (dep s' <= pred (dep s))%nat) s.
  Proof.
    induction f as [|f IH]; intros n0 s u Hv Hf; [lia|]. start. cbn [url_loop].
    step. step. step; [go; fin|]. step; [go; fin|].
    go. eapply wp_mono; [apply IH; [val|ar]|]. intros ? ? (? & ? & ?). merge. fin.
  Qed.

  Lemma wp_url_close : forall f n0 s, valid clean s -> (mu s < f)%nat ->
    wp n0 (url_close f)
       (fun r s' => okst s s' /\ (mu s' <= mu s)%nat /\ (dep s' <= pred (dep s))%nat) s.
  Proof.
    induction f as [|f IH]; intros n0 s Hv Hf; [lia|]. start. cbn [url_close].
    step. step. step; [go; fin|]. step; [go; fin|].
    eapply wp_mono; [apply IH; [val|ar]|]. intros ? ? (? & ? & ?). merge. fin.
  Qed.

End Wp3.
