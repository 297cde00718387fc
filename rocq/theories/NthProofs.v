(** * An+B expressions: proofs *)

From Coq Require Import String ZArith List Bool Lia ZifyBool.
From Verif Require Import Base UnicodeRange UrangeProofs TextSpec DecText NthChild NthSpec.
Import ListNotations.
Open Scope string_scope. Open Scope list_scope. Open Scope Z_scope.
Ltac Zify.zify_post_hook ::= idtac.

Definition byte_ok (b : Z) : Prop := 0 < b < 255.
Definition inv (i : nin) : Prop :=
  Forall byte_ok (ni_rest i) /\ (ni_unget i = -1 -> ni_rest i = []).
Definition eff (i : nin) : list Z :=
  if ni_unget i =? 0 then map nchar (ni_rest i)
  else if ni_unget i =? -1 then []
  else ni_unget i :: map nchar (ni_rest i).

Lemma getc_spec i : inv i ->
  exists i', ni_getc i = (first (eff i), i') /\ inv i' /\ ni_unget i' = 0 /\ eff i' = after (eff i)
             /\ (eff i <> [] -> length (ni_rest i') + 1 = length (eff i))%nat
             /\ (length (ni_rest i') <= length (ni_rest i))%nat.
Proof.
  intros (H1 & H2). unfold ni_getc, eff. destruct (ni_unget i =? 0) eqn:E; cbn [negb].
  - destruct (ni_rest i) as [|b r] eqn:Er.
    + exists i. cbn. rewrite E. unfold inv. rewrite Er. repeat split; auto; try lia. congruence.
    + exists (mkNin 0 r). cbn. rewrite map_length. inversion H1. unfold inv. cbn. repeat split; auto; try lia.
  - eexists. split; [|unfold inv; cbn]; [destruct (ni_unget i =? -1) eqn:E1; [|reflexivity]|].
    + cbn. replace (ni_unget i) with (-1) by lia. reflexivity.
    + destruct (ni_unget i =? -1) eqn:E1; cbn.
      * rewrite H2 by lia. cbn. repeat split; auto; try lia. congruence.
      * repeat split; auto; try lia. rewrite map_length. lia.
Qed.

Lemma eff_length i : (length (eff i) <= length (ni_rest i) + 1)%nat.
Proof.
  unfold eff. destruct (ni_unget i =? 0); [rewrite map_length; lia|].
  destruct (ni_unget i =? -1); cbn; rewrite ?map_length; lia.
Qed.

(** Skipping spaces. *)
Lemma skip_run f : forall i sp w, inv i -> eff i = sp ++ w -> spaces sp -> first w <> 32 -> (length sp < f)%nat ->
  exists i', ni_skip f i = (first w, i') /\ inv i' /\ ni_unget i' = 0 /\ eff i' = after w
             /\ (length (ni_rest i') <= length (ni_rest i))%nat.
Proof.
  induction f as [|f IH]; intros i sp w Hi He Hs Hw Hf; [lia|]. cbn [ni_skip].
  destruct (getc_spec i Hi) as (i1 & E1 & I1 & U1 & F1 & _ & L1). rewrite E1, He in *.
  destruct sp as [|x sp]; cbn [app] in *.
  - replace (first w =? 32) with false by lia. exists i1. repeat split; auto; try apply I1; lia.
  - inversion Hs; subst. cbn [first]. change (32 =? 32) with true. cbv iota.
    destruct (IH i1 sp w I1) as (i2 & E2 & I2 & U2 & F2 & L2); auto; [cbn in Hf; lia|].
    exists i2. repeat split; auto; try apply I2; lia.
Qed.

Lemma spaces_split l : exists sp w, l = sp ++ w /\ spaces sp /\ first w <> 32.
Proof.
  induction l as [|c l IH]; [exists [], []; repeat split; [constructor|cbn; lia]|].
  destruct (Z.eq_dec c 32) as [->|N].
  - destruct IH as (sp & w & -> & H1 & H2). exists (32 :: sp), w. repeat split; auto. now constructor.
  - exists [], (c :: l). repeat split; [constructor|exact N].
Qed.

(** What one token is. *)
Inductive tok_rel : ntok -> Z -> list Z -> list Z -> Prop :=
| tr_eof sp : spaces sp -> tok_rel NEof 0 sp []
| tr_int sp ds w : spaces sp -> digits ds -> ~ digit (first w) -> tok_rel NInteger (decimal ds) (sp ++ ds ++ w) w
| tr_n sp c w : spaces sp -> letter 78 c -> tok_rel NN 0 (sp ++ [c] ++ w) w
| tr_plus sp w : spaces sp -> tok_rel NPlus 0 (sp ++ [43] ++ w) w
| tr_minus sp w : spaces sp -> tok_rel NMinus 0 (sp ++ [45] ++ w) w
| tr_odd sp o d1 d2 w : spaces sp -> letter 79 o -> letter 68 d1 -> letter 68 d2 ->
    tok_rel NOdd 0 (sp ++ [o; d1; d2] ++ w) w
| tr_even sp e1 v e2 n w : spaces sp -> letter 69 e1 -> letter 86 v -> letter 69 e2 -> letter 78 n ->
    tok_rel NEven 0 (sp ++ [e1; v; e2; n] ++ w) w.

Definition max_value : Z := 9223372036854775759.

Lemma ungetc_spec i l c : inv i -> ni_unget i = 0 -> eff i = after l -> c = first l -> (l = [] \/ first l <> 0) ->
  (c = -1 -> l = []) -> inv (ni_ungetc c i) /\ eff (ni_ungetc c i) = l.
Proof.
  intros (H1 & H2) Hu He -> Hl Hm. unfold ni_ungetc, inv, eff in *. cbn. rewrite Hu in *.
  change (0 =? 0) with true in He. cbv iota in He.
  destruct l as [|c l]; cbn in *.
  - assert (ni_rest i = []) by (destruct (ni_rest i); [reflexivity|discriminate]).
    split; [split; [assumption|auto]|reflexivity].
  - destruct Hl as [Hl|Hl]; [discriminate|]. split; [split; [assumption|]|].
    + intro C. specialize (Hm C). discriminate.
    + replace (c =? 0) with false by lia. destruct (c =? -1) eqn:E; [specialize (Hm ltac:(lia)); discriminate|].
      now rewrite He.
Qed.

(** Characters of the text: neither NUL nor EOF. *)
Lemma eff_chars i : inv i -> ni_unget i = 0 -> Forall (fun c => c <> 0 /\ c <> -1) (eff i).
Proof.
  intros (H1 & _) Hu. unfold eff. rewrite Hu. change (0 =? 0) with true. cbv iota.
  apply Forall_map. revert H1. apply Forall_impl. unfold byte_ok, nchar. intros b Hb. destruct (128 <=? b) eqn:E; lia.
Qed.

Lemma decimal_cons_ge ds : forall i, 0 <= i -> Forall digit ds ->
  i <= fold_left (fun a d => 10 * a + (d - 48)) ds i.
Proof.
  induction ds as [|d ds IH]; intros i Hi H; [cbn; lia|]. inversion H as [|? ? Hd Hds]; subst. cbn [fold_left].
  unfold digit in Hd. assert (10 * i + (d - 48) <= fold_left (fun a d => 10 * a + (d - 48)) ds (10 * i + (d - 48))).
  { apply IH; [lia|assumption]. } lia.
Qed.

(** Reading the digits; [c] is the first one. *)
Lemma digits_run f : forall v c i ds w, inv i -> ni_unget i = 0 -> digit c -> eff i = ds ++ w -> Forall digit ds ->
  ~ digit (first w) -> 0 <= v -> fold_left (fun a d => 10 * a + (d - 48)) (c :: ds) v <= max_value ->
  (length ds < f)%nat ->
  exists i', ni_digits f v c i = Some (fold_left (fun a d => 10 * a + (d - 48)) (c :: ds) v, i')
             /\ inv i' /\ eff i' = w.
Proof.
  induction f as [|f IH]; intros v c i ds w Hi Hu Hc He Hd Hw Hv Hmax Hf; [lia|].
  cbn [fold_left] in *. unfold digit in Hc.
  pose proof (decimal_cons_ge ds (10 * v + (c - 48)) ltac:(lia) Hd) as Hge. unfold max_value in Hmax.
  cbn [ni_digits].
  replace (int64_ok (v * 10) && int64_ok (v * 10 + c)) with true by (unfold int64_ok; lia). cbn [negb].
  destruct (getc_spec i Hi) as (i1 & E1 & I1 & U1 & F1 & _). rewrite E1, He in *.
  pose proof (eff_chars i Hi Hu) as Hch. rewrite He in Hch.
  destruct ds as [|d ds]; cbn [app first after fold_left] in *.
  - replace ((first w <? 48) || (57 <? first w)) with true by (unfold digit in Hw; lia).
    eexists. split; [f_equal; f_equal; lia|].
    apply (ungetc_spec i1 w); auto.
    + destruct w as [|x w]; [now left|right]. inversion Hch; subst. cbn. tauto.
    + intro C. destruct w as [|x w]; [reflexivity|]. inversion Hch as [|? ? Hx]; subst. cbn in C. tauto.
  - inversion Hd as [|? ? Hd1 Hd2]; subst. unfold digit in Hd1.
    replace ((d <? 48) || (57 <? d)) with false by lia.
    replace (v * 10 + c - 48) with (10 * v + (c - 48)) by lia.
    apply IH; auto; [lia|cbn in Hf; lia].
Qed.

Lemma digits_inv f : forall v c i r i', inv i -> ni_unget i = 0 -> digit c -> 0 <= v ->
  ni_digits f v c i = Some (r, i') ->
  exists ds w, eff i = ds ++ w /\ Forall digit ds /\ ~ digit (first w)
    /\ r = fold_left (fun a d => 10 * a + (d - 48)) (c :: ds) v /\ inv i' /\ eff i' = w.
Proof.
  induction f as [|f IH]; intros v c i r i' Hi Hu Hc Hv H; [discriminate|]. cbn [ni_digits] in H.
  destruct (negb _); [discriminate|].
  destruct (getc_spec i Hi) as (i1 & E1 & I1 & U1 & F1 & _). rewrite E1 in H.
  pose proof (eff_chars i Hi Hu) as Hch. unfold digit in Hc.
  destruct ((first (eff i) <? 48) || (57 <? first (eff i))) eqn:E.
  - injection H as <- <-. exists [], (eff i). repeat split; auto; try (cbn; lia).
    + unfold digit. lia.
    + apply (ungetc_spec i1 (eff i)); auto.
      * destruct (eff i) as [|x w]; [now left|right]. inversion Hch; subst. cbn. tauto.
      * intro C. destruct (eff i) as [|x w]; [reflexivity|]. inversion Hch as [|? ? Hx]; subst. cbn in C. tauto.
    + apply (ungetc_spec i1 (eff i)); auto.
      * destruct (eff i) as [|x w]; [now left|right]. inversion Hch; subst. cbn. tauto.
      * intro C. destruct (eff i) as [|x w]; [reflexivity|]. inversion Hch as [|? ? Hx]; subst. cbn in C. tauto.
    + apply (ungetc_spec i1 (eff i)); auto.
      * destruct (eff i) as [|x w]; [now left|right]. inversion Hch; subst. cbn. tauto.
      * intro C. destruct (eff i) as [|x w]; [reflexivity|]. inversion Hch as [|? ? Hx]; subst. cbn in C. tauto.
  - destruct (eff i) as [|d l] eqn:Ee; [cbn in E; lia|]. cbn [first after] in *.
    destruct (IH (v * 10 + c - 48) d i1 r i' I1 U1 ltac:(unfold digit; lia) ltac:(lia) H)
      as (ds & w & D1 & D2 & D3 & D4 & D5 & D6).
    exists (d :: ds), w. rewrite F1 in D1. split; [rewrite D1; reflexivity|]. repeat split; auto; try apply D5.
    + constructor; [unfold digit; lia|assumption].
    + rewrite D4. cbn [fold_left]. do 2 f_equal. lia.
Qed.

(** [ni_token] returns what [tok_rel] says. *)
Lemma token_inv i t v i' : inv i -> ni_token i = Some (t, v, i') ->
  inv i' /\ (t = NUnknown \/ tok_rel t v (eff i) (eff i')).
Proof.
  intros Hi H. unfold ni_token in H.
  destruct (spaces_split (eff i)) as (sp & w & Es & Hs & Hw).
  assert (Hlen : (length sp < length (ni_rest i) + 2)%nat).
  { pose proof (eff_length i) as L. rewrite Es, app_length in L. lia. }
  destruct (skip_run (length (ni_rest i) + 2) i sp w Hi Es Hs Hw Hlen) as (i1 & E1 & I1 & U1 & F1 & L1).
  rewrite E1 in H. pose proof (eff_chars i1 I1 U1) as Hch1.
  destruct w as [|c w]; cbn [first after] in *.
  { change (-1 =? -1) with true in H. cbv iota in H. injection H as <- <- <-. split; [assumption|].
    right. rewrite F1, Es, app_nil_r. now constructor. }
  assert (Hget : forall j, inv j -> exists j', ni_getc j = (first (eff j), j') /\ inv j' /\ eff j' = after (eff j)).
  { intros j Hj. destruct (getc_spec j Hj) as (j' & A & B & _ & C & _). eauto. }
  assert (Hnz : forall j, inv j -> first (eff j) <> -1 -> eff j = first (eff j) :: after (eff j)).
  { intros j Hj Hn. destruct (eff j); [cbn in Hn; congruence|reflexivity]. }
  destruct (c =? -1) eqn:Em1.
  { injection H as <- <- <-. split; [assumption|]. exfalso.
    assert (Hin : In (-1) (eff i)) by (rewrite Es, in_app_iff; right; left; lia).
    destruct Hi as (B1 & B2). unfold eff in Hin. destruct (ni_unget i =? 0) eqn:U0.
    - apply in_map_iff in Hin. destruct Hin as (b & Hb & Hin). rewrite Forall_forall in B1. specialize (B1 b Hin).
      unfold byte_ok, nchar in *. destruct (128 <=? b) eqn:?; lia.
    - destruct (ni_unget i =? -1) eqn:?; [contradiction|]. destruct Hin as [Hin|Hin]; [lia|].
      apply in_map_iff in Hin. destruct Hin as (b & Hb & Hin). rewrite Forall_forall in B1. specialize (B1 b Hin).
      unfold byte_ok, nchar in *. destruct (128 <=? b) eqn:?; lia. }
  destruct ((48 <=? c) && (c <=? 57)) eqn:Ed.
  { destruct (ni_digits _ 0 c i1) as [[r j]|] eqn:En; [|discriminate]. injection H as <- <- <-.
    destruct (digits_inv _ 0 c i1 r j I1 U1 ltac:(unfold digit; lia) ltac:(lia) En)
      as (ds & w' & D1 & D2 & D3 & D4 & D5 & D6).
    split; [assumption|]. right. rewrite Es, <- F1, D1, D4, D6.
    replace (sp ++ c :: ds ++ w') with (sp ++ (c :: ds) ++ w') by reflexivity.
    apply (tr_int sp (c :: ds) w'); auto. split; [discriminate|]. constructor; [unfold digit; lia|assumption]. }
  destruct (eq_nocase c 78) eqn:En.
  { injection H as <- <- <-. split; [assumption|]. right. rewrite Es, F1.
    apply (tr_n sp c w); auto. unfold eq_nocase, letter in *. lia. }
  destruct (eq_nocase c 69) eqn:Ee.
  { destruct (Hget i1 I1) as (j1 & G1 & J1 & K1). rewrite G1 in H.
    destruct (eq_nocase (first (eff i1)) 86) eqn:E2; [|injection H as <- <- <-; auto].
    destruct (Hget j1 J1) as (j2 & G2 & J2 & K2). rewrite G2 in H.
    destruct (eq_nocase (first (eff j1)) 69) eqn:E3; [|injection H as <- <- <-; auto].
    destruct (Hget j2 J2) as (j3 & G3 & J3 & K3). rewrite G3 in H.
    destruct (eq_nocase (first (eff j2)) 78) eqn:E4; [|injection H as <- <- <-; auto].
    injection H as <- <- <-. split; [assumption|]. right. unfold eq_nocase in *.
    pose proof (Hnz i1 I1 ltac:(lia)) as N1. pose proof (Hnz j1 J1 ltac:(lia)) as N2. pose proof (Hnz j2 J2 ltac:(lia)) as N3.
    rewrite Es, <- F1, N1, <- K1, N2, <- K2, N3, <- K3.
    apply (tr_even sp c (first (eff i1)) (first (eff j1)) (first (eff j2)) (eff j3)); auto; unfold letter; lia. }
  destruct (eq_nocase c 79) eqn:Eo.
  { destruct (Hget i1 I1) as (j1 & G1 & J1 & K1). rewrite G1 in H.
    destruct (eq_nocase (first (eff i1)) 68) eqn:E2; [|injection H as <- <- <-; auto].
    destruct (Hget j1 J1) as (j2 & G2 & J2 & K2). rewrite G2 in H.
    destruct (eq_nocase (first (eff j1)) 68) eqn:E3; [|injection H as <- <- <-; auto].
    injection H as <- <- <-. split; [assumption|]. right. unfold eq_nocase in *.
    pose proof (Hnz i1 I1 ltac:(lia)) as N1. pose proof (Hnz j1 J1 ltac:(lia)) as N2.
    rewrite Es, <- F1, N1, <- K1, N2, <- K2.
    apply (tr_odd sp c (first (eff i1)) (first (eff j1)) (eff j2)); auto; unfold letter; lia. }
  destruct (c =? 43) eqn:Ep.
  { injection H as <- <- <-. split; [assumption|]. right. rewrite Es, F1. replace c with 43 by lia.
    now apply (tr_plus sp w). }
  destruct (c =? 45) eqn:Emi.
  { injection H as <- <- <-. split; [assumption|]. right. rewrite Es, F1. replace c with 45 by lia.
    now apply (tr_minus sp w). }
  injection H as <- <- <-. auto.
Qed.


(** And conversely. *)
Lemma token_run i t v l : inv i -> tok_rel t v (eff i) l -> v <= max_value ->
  exists i', ni_token i = Some (t, v, i') /\ inv i' /\ eff i' = l.
Proof.
  intros Hi H Hv. unfold ni_token.
  assert (Hskip : forall sp w, eff i = sp ++ w -> spaces sp -> first w <> 32 ->
    exists i', ni_skip (length (ni_rest i) + 2) i = (first w, i') /\ inv i' /\ ni_unget i' = 0 /\ eff i' = after w
               /\ (length (ni_rest i') <= length (ni_rest i))%nat).
  { intros sp w Es Hs Hw. apply (skip_run (length (ni_rest i) + 2) i sp w Hi Es Hs Hw).
    pose proof (eff_length i) as L. rewrite Es, app_length in L. lia. }
  assert (Hget : forall j, inv j -> exists j', ni_getc j = (first (eff j), j') /\ inv j' /\ eff j' = after (eff j)).
  { intros j Hj. destruct (getc_spec j Hj) as (j' & A & B & _ & C & _). eauto. }
  remember (eff i) as l0 eqn:Ee.
  destruct H as [sp Hs|sp ds w Hs Hd Hw|sp c w Hs Hc|sp w Hs|sp w Hs|sp o d1 d2 w Hs H1 H2 H3|sp e1 vv e2 n w Hs H1 H2 H3 H4].
  - destruct (Hskip sp [] ltac:(rewrite app_nil_r; reflexivity) Hs ltac:(cbn; lia)) as (i1 & -> & I1 & U1 & F1 & _).
    cbn. exists i1. auto.
  - destruct Hd as (Hn & Hd). destruct ds as [|c ds]; [congruence|]. inversion Hd as [|? ? Hc Hds]; subst.
    unfold digit in Hc.
    destruct (Hskip sp ((c :: ds) ++ w) eq_refl Hs ltac:(cbn; lia)) as (i1 & -> & I1 & U1 & F1 & L1).
    cbn [app first after] in *. replace (c =? -1) with false by lia.
    replace ((48 <=? c) && (c <=? 57)) with true by lia.
    destruct (digits_run (length (ni_rest i) + 2) 0 c i1 ds w I1 U1 Hc F1 Hds Hw ltac:(lia)) as (i2 & E2 & I2 & F2).
    + exact Hv.
    + pose proof (eff_length i1) as L. rewrite F1, app_length in L. lia.
    + rewrite E2. exists i2. auto.
  - unfold letter in Hc. destruct (Hskip sp ([c] ++ w) eq_refl Hs ltac:(cbn; lia)) as (i1 & -> & I1 & U1 & F1 & L1).
    cbn [app first after] in *. replace (c =? -1) with false by lia.
    replace ((48 <=? c) && (c <=? 57)) with false by lia.
    replace (eq_nocase c 78) with true by (unfold eq_nocase; lia). eauto.
  - destruct (Hskip sp ([43] ++ w) eq_refl Hs ltac:(cbn; lia)) as (i1 & -> & I1 & U1 & F1 & L1). exists i1. split; [reflexivity|split; [exact I1|exact F1]].
  - destruct (Hskip sp ([45] ++ w) eq_refl Hs ltac:(cbn; lia)) as (i1 & -> & I1 & U1 & F1 & L1). exists i1. split; [reflexivity|split; [exact I1|exact F1]].
  - unfold letter in *. destruct (Hskip sp ([o; d1; d2] ++ w) eq_refl Hs ltac:(cbn; lia)) as (i1 & -> & I1 & U1 & F1 & L1).
    cbn [app first after] in *. replace (o =? -1) with false by lia.
    replace ((48 <=? o) && (o <=? 57)) with false by lia.
    replace (eq_nocase o 78) with false by (unfold eq_nocase; lia).
    replace (eq_nocase o 69) with false by (unfold eq_nocase; lia).
    replace (eq_nocase o 79) with true by (unfold eq_nocase; lia).
    destruct (Hget i1 I1) as (j1 & -> & J1 & K1). rewrite F1 in *. cbn [first after] in *.
    replace (eq_nocase d1 68) with true by (unfold eq_nocase; lia).
    destruct (Hget j1 J1) as (j2 & -> & J2 & K2). rewrite K1 in *. cbn [first after] in *.
    replace (eq_nocase d2 68) with true by (unfold eq_nocase; lia). eauto.
  - unfold letter in *. destruct (Hskip sp ([e1; vv; e2; n] ++ w) eq_refl Hs ltac:(cbn; lia)) as (i1 & -> & I1 & U1 & F1 & L1).
    cbn [app first after] in *. replace (e1 =? -1) with false by lia.
    replace ((48 <=? e1) && (e1 <=? 57)) with false by lia.
    replace (eq_nocase e1 78) with false by (unfold eq_nocase; lia).
    replace (eq_nocase e1 69) with true by (unfold eq_nocase; lia).
    destruct (Hget i1 I1) as (j1 & -> & J1 & K1). rewrite F1 in *. cbn [first after] in *.
    replace (eq_nocase vv 86) with true by (unfold eq_nocase; lia).
    destruct (Hget j1 J1) as (j2 & -> & J2 & K2). rewrite K1 in *. cbn [first after] in *.
    replace (eq_nocase e2 69) with true by (unfold eq_nocase; lia).
    destruct (Hget j2 J2) as (j3 & -> & J3 & K3). rewrite K2 in *. cbn [first after] in *.
    replace (eq_nocase n 78) with true by (unfold eq_nocase; lia). eauto.
Qed.
