(** * Every expression has a proper tree *)

From Coq Require Import String ZArith List Bool Lia Arith ZifyBool Floats.SpecFloat.
From Verif Require Import Base NodeHeap Color Expr PrecSpec.
Import ListNotations.
Open Scope string_scope. Open Scope list_scope. Open Scope Z_scope.

Fixpoint joinl (o : binop) (a : addr) (l x : tree) : tree :=
  if (level_of o <=? rank l)%nat then Bin o a l x
  else match l with
       | Bin o' b l1 l2 => Bin o' b l1 (joinl o a l2 x)
       | Cond q c x1 y1 z1 => Cond q c x1 y1 (joinl o a z1 x)
       | _ => Bin o a l x
       end.
Fixpoint condl (q c : addr) (x y z : tree) : tree :=
  match x with
  | Cond q1 c1 x1 y1 z1 => Cond q1 c1 x1 y1 (condl q c z1 y z)
  | _ => Cond q c x y z
  end.
Fixpoint join (o : binop) (a : addr) (l r : tree) : tree :=
  if (level_of o <? rank r)%nat then joinl o a l r
  else match r with
       | Bin o' b r1 r2 => joinl o' b (join o a l r1) r2
       | Cond q c x y z => condl q c (join o a l x) y z
       | _ => joinl o a l r
       end.
Fixpoint sign (k : tree -> tree) (x : tree) : tree :=
  match x with
  | Bin o b l r => if (level_of o <? 7)%nat then Bin o b (sign k l) r else k x
  | Cond q c x y z => Cond q c (sign k x) y z
  | _ => k x
  end.
Fixpoint normalize (t : tree) : tree :=
  match t with
  | Atom a => Atom a
  | Group a x => Group a (normalize x)
  | Neg a x => sign (Neg a) (normalize x)
  | Pos a x => sign (Pos a) (normalize x)
  | Bin OPow a l r => Bin OPow a (normalize l) (normalize r)
  | Bin o a l r => join o a (normalize l) (normalize r)
  | Cond q c x y z => condl q c (normalize x) (normalize y) (normalize z)
  end.

Lemma level_range o : (1 <= level_of o <= 7)%nat. Proof. destruct o; cbn; lia. Qed.
Lemma level_pow o : o <> OPow -> (level_of o <= 6)%nat. Proof. destruct o; cbn; try lia. congruence. Qed.
Lemma proper_low o a l r : (level_of o <= 6)%nat -> proper (Bin o a l r) <-> (level_of o <= rank l)%nat /\ (level_of o < rank r)%nat /\ proper l /\ proper r.
Proof. destruct o; cbn [proper level_of]; intro; try tauto. lia. Qed.

(** ** flatten *)
Lemma joinl_flat o a x : forall l, flatten (joinl o a l x) = flatten l ++ a :: flatten x.
Proof.
  induction l; cbn [joinl]; destruct (level_of o <=? _)%nat; cbn [flatten]; try reflexivity.
  - rewrite IHl2. rewrite <- app_assoc. reflexivity.
  - rewrite IHl3. repeat (rewrite <- app_assoc; cbn [app]). reflexivity.
Qed.
Lemma condl_flat q c y z : forall x, flatten (condl q c x y z) = flatten x ++ q :: flatten y ++ c :: flatten z.
Proof. induction x; cbn [condl flatten]; try reflexivity. rewrite IHx3. repeat (rewrite <- app_assoc; cbn [app]). reflexivity. Qed.
Lemma join_flat o a l : forall r, flatten (join o a l r) = flatten l ++ a :: flatten r.
Proof.
  induction r; cbn [join]; destruct (level_of o <? _)%nat; rewrite ?joinl_flat, ?condl_flat; cbn [flatten]; try reflexivity.
  - rewrite IHr1. rewrite <- app_assoc. reflexivity.
  - rewrite IHr1. rewrite <- app_assoc. reflexivity.
Qed.
Lemma sign_flat k a : (forall x, flatten (k x) = a :: flatten x) -> forall x, flatten (sign k x) = a :: flatten x.
Proof.
  intro K. induction x; cbn [sign]; try apply K.
  - destruct (level_of o <? 7)%nat; [|apply K]. cbn [flatten]. rewrite IHx1. reflexivity.
  - cbn [flatten]. rewrite IHx1. reflexivity.
Qed.
Theorem normalize_flat : forall t, flatten (normalize t) = flatten t.
Proof.
  induction t; cbn [normalize flatten]; try reflexivity.
  - rewrite (sign_flat _ t) by reflexivity. now rewrite IHt.
  - rewrite (sign_flat _ t) by reflexivity. now rewrite IHt.
  - destruct o; rewrite ?join_flat; cbn [flatten]; rewrite IHt1, IHt2; reflexivity.
  - rewrite condl_flat, IHt1, IHt2, IHt3. reflexivity.
Qed.

(** ** The tokens *)
Section Tokens.
  Variable h : heap.
  Lemma joinl_tokens o a x : (exists c, nth_error h a = Some c /\ op_of c = Some o) -> tokens_of h x -> forall l, tokens_of h l -> tokens_of h (joinl o a l x).
  Proof. intros A X. induction l; cbn [joinl]; destruct (level_of o <=? _)%nat; cbn [tokens_of]; intuition. Qed.
  Lemma condl_tokens q c y z : (exists k, nth_error h q = Some k /\ c_type k = CONDITIONAL) -> (exists k, nth_error h c = Some k /\ c_type k = COLON) ->
    tokens_of h y -> tokens_of h z -> forall x, tokens_of h x -> tokens_of h (condl q c x y z).
  Proof. intros A B Y Z. induction x; cbn [condl tokens_of]; intuition. Qed.
  Lemma join_tokens o a l : (exists c, nth_error h a = Some c /\ op_of c = Some o) -> tokens_of h l -> forall r, tokens_of h r -> tokens_of h (join o a l r).
  Proof.
    intros A L. induction r; cbn [join]; destruct (level_of o <? _)%nat; intro R; try (apply joinl_tokens; assumption).
    - cbn [tokens_of] in R. apply joinl_tokens; intuition.
    - cbn [tokens_of] in R. apply condl_tokens; intuition.
  Qed.
  Lemma sign_tokens k : (forall x, tokens_of h x -> tokens_of h (k x)) -> forall x, tokens_of h x -> tokens_of h (sign k x).
  Proof.
    intro K. induction x; cbn [sign]; try apply K.
    - destruct (level_of o <? 7)%nat; [|apply K]. cbn [tokens_of]. intuition.
    - cbn [tokens_of]. intuition.
  Qed.
  Theorem normalize_tokens : forall t, tokens_of h t -> tokens_of h (normalize t).
  Proof.
    induction t; cbn [normalize tokens_of]; intro T.
    - exact T.
    - destruct T as ((c & H & Tc & Sp & Ls) & X). split; [|auto]. exists c. rewrite normalize_flat. auto.
    - apply sign_tokens; [|tauto]. intros x X. cbn [tokens_of]. tauto.
    - apply sign_tokens; [|tauto]. intros x X. cbn [tokens_of]. tauto.
    - destruct o; try (apply join_tokens; tauto). cbn [tokens_of]. tauto.
    - apply condl_tokens; tauto.
  Qed.
End Tokens.

(** ** Proper *)
Lemma joinl_proper o a x : o <> OPow -> proper x -> (level_of o < rank x)%nat -> forall l, proper l -> proper (joinl o a l x) /\ rank (joinl o a l x) = Nat.min (rank l) (level_of o).
Proof.
  intros Ho Px Rx. pose proof (level_pow o Ho) as Lo.
  induction l as [b|b l IH|b l IH|b l IH|o' b l1 IH1 l2 IH2|q c x1 IH1 y1 IH2 z1 IH3]; intro Pl; cbn [joinl];
    (match goal with |- context [if (?m <=? ?k)%nat then _ else _] => destruct (Nat.leb_spec m k) as [Le|Gt] end;
     [split; [apply proper_low; auto|]; cbn [rank] in *; lia|]); try (exfalso; cbn [rank] in Gt; lia).
  - assert (L' : (level_of o' <= 6)%nat) by (cbn [rank] in Gt; lia). apply proper_low in Pl; auto. destruct Pl as (A & B & C & D).
    destruct (IH2 D) as [P2 R2]. split; [apply proper_low; auto; rewrite R2; cbn [rank] in Gt; repeat split; auto; lia|]. cbn [rank] in *. lia.
  - cbn [proper rank] in *. destruct Pl as (A & B & C & D). destruct (IH3 D) as [P3 R3]. split; [auto|]. lia.
Qed.
Lemma condl_proper q c y z : proper y -> proper z -> forall x, proper x -> proper (condl q c x y z) /\ rank (condl q c x y z) = 0%nat.
Proof.
  intros Py Pz.
  assert (G : forall x, (1 <= rank x)%nat -> proper x -> proper (Cond q c x y z) /\ rank (Cond q c x y z) = 0%nat)
    by (intros x R P; split; [cbn [proper]; auto|reflexivity]).
  induction x as [b|b l IH|b l IH|b l IH|o' b l1 IH1 l2 IH2|q1 c1 x1 IH1 y1 IH2 z1 IH3]; intro Px; cbn [condl].
  1-5: apply G; [cbn [rank]; try lia; apply level_range|exact Px].
  cbn [proper rank] in *. destruct Px as (A & B & C & D). destruct (IH3 D) as [P3 R3]. split; [auto|reflexivity].
Qed.
Lemma join_proper o a l : o <> OPow -> proper l -> forall r, proper r -> proper (join o a l r) /\ rank (join o a l r) = Nat.min (rank l) (Nat.min (level_of o) (rank r)).
Proof.
  intros Ho Pl. pose proof (level_pow o Ho) as Lo.
  induction r as [b|b r IH|b r IH|b r IH|o' b r1 IH1 r2 IH2|q c x1 IH1 y1 IH2 z1 IH3]; intro Pr; cbn [join];
    (match goal with |- context [if (?m <? ?k)%nat then _ else _] => destruct (Nat.ltb_spec m k) as [Lt|Ge] end;
     [destruct (joinl_proper o a _ Ho Pr Lt l Pl) as [A B]; split; [exact A|]; rewrite B; lia|]); try (exfalso; cbn [rank] in Ge; lia).
  - cbn [rank] in Ge. assert (L' : (level_of o' <= 6)%nat) by lia. assert (Ho' : o' <> OPow) by (intros ->; cbn in L'; lia).
    apply proper_low in Pr; auto. destruct Pr as (A & B & C & D). destruct (IH1 C) as [P1 R1].
    destruct (joinl_proper o' b r2 Ho' D B (join o a l r1) P1) as [P2 R2]. split; [auto|]. rewrite R2, R1. cbn [rank]. lia.
  - cbn [proper rank] in *. destruct Pr as (A & B & C & D). destruct (IH1 B) as [P1 R1]. destruct (condl_proper q c y1 z1 C D _ P1) as [P2 R2]. split; [auto|]. rewrite R2. lia.
Qed.
Definition sign_like (k : tree -> tree) : Prop := forall x, rank (k x) = 8%nat /\ ((7 <= rank x)%nat -> proper x -> proper (k x)).
Lemma sign_proper k : sign_like k -> forall x, proper x -> proper (sign k x) /\ rank (sign k x) = if (7 <=? rank x)%nat then 8%nat else rank x.
Proof.
  intro K. induction x as [b|b r IH|b r IH|b r IH|o' b r1 IH1 r2 IH2|q c x1 IH1 y1 IH2 z1 IH3]; intro Px; cbn [sign].
  1-4: (match goal with |- proper (_ ?x) /\ _ => destruct (K x) as [R P] end); rewrite R; split; [apply P; [cbn; lia|auto]|cbn; reflexivity].
  - destruct (Nat.ltb_spec (level_of o') 7) as [Lt|Ge].
    + apply proper_low in Px; [|lia]. destruct Px as (A & B & C & D). destruct (IH1 C) as [P1 R1]. split.
      * apply proper_low; [lia|]. rewrite R1. repeat split; auto. destruct (Nat.leb_spec 7 (rank r1)); lia.
      * cbn [rank]. destruct (Nat.leb_spec 7 (level_of o')); lia.
    + destruct (K (Bin o' b r1 r2)) as [R P]. rewrite R. split; [apply P; [cbn [rank]; lia|auto]|]. cbn [rank]. destruct (Nat.leb_spec 7 (level_of o')); lia.
  - cbn [proper rank] in *. destruct Px as (A & B & C & D). destruct (IH1 B) as [P1 R1]. rewrite R1. split; [|reflexivity]. repeat split; auto.
    destruct (Nat.leb_spec 7 (rank x1)); lia.
Qed.
Theorem normalize_proper : forall t, powers_apart t -> proper (normalize t) /\ (signed t -> rank (normalize t) = rank t).
Proof.
  induction t as [b|b r IH|b r IH|b r IH|o' b r1 IH1 r2 IH2|q c x1 IH1 y1 IH2 z1 IH3]; cbn [normalize powers_apart signed]; intro P.
  - cbn. auto.
  - destruct (IH P). cbn. auto.
  - destruct (IH P) as [A B]. destruct (sign_proper (Neg b)) with (x := normalize r) as [C D]; [intro x; cbn; auto|auto|]. split; [auto|]. intro S. rewrite D, (B S). cbn [rank].
    destruct r as [| | | |o|]; cbn in S |- *; try reflexivity; [|tauto]. now rewrite S.
  - destruct (IH P) as [A B]. destruct (sign_proper (Pos b)) with (x := normalize r) as [C D]; [intro x; cbn; auto|auto|]. split; [auto|]. intro S. rewrite D, (B S). cbn [rank].
    destruct r as [| | | |o|]; cbn in S |- *; try reflexivity; [|tauto]. now rewrite S.
  - destruct P as (Hp & P1 & P2). destruct (IH1 P1) as [A1 B1]. destruct (IH2 P2) as [A2 B2].
    destruct o'; try (split; [apply join_proper; auto; discriminate|discriminate]).
    destruct (Hp eq_refl) as (R1 & R2 & S2). split; [|reflexivity]. cbn [proper]. rewrite (B2 S2). repeat split; auto.
    rewrite B1; [auto|]. destruct r1 as [| | | |[]|]; cbn in R1 |- *; try discriminate; exact I.
  - destruct P as (P1 & P2 & P3). destruct (IH1 P1) as [A1 _]. destruct (IH2 P2) as [A2 _]. destruct (IH3 P3) as [A3 _]. split; [apply condl_proper; auto|tauto].
Qed.
