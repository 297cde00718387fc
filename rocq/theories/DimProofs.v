(** * Proofs about the dimensions of numbers *)

From Coq Require Import String ZArith List Bool Lia ZifyBool.
From Verif Require Import Base Dim DimSpec.
Import ListNotations.
Open Scope string_scope. Open Scope list_scope. Open Scope Z_scope.
Ltac Zify.zify_post_hook ::= idtac.

Lemma cut_ok n r : Forall (fun c => c <> 32 /\ c <> 42 /\ c <> 47) n ->
  (r = [] \/ exists c r', r = c :: r' /\ is_sep c = true) -> cut_name (n ++ r) = (n, r).
Proof.
  intros H R. induction H as [|c n Hc H IH]; cbn [app cut_name].
  - destruct R as [->|(c & r' & -> & Hs)]; [reflexivity|]. cbn [cut_name]. now rewrite Hs.
  - replace (is_sep c) with false by (unfold is_sep; lia). now rewrite IH.
Qed.
Lemma not_sep c n : unit_name (c :: n) -> c <> 32 /\ c <> 42 /\ c <> 47.
Proof. intros (_ & _ & H). now inversion H. Qed.

Definition push (slash : bool) (up down l : list str) : list str * list str :=
  if slash then (up, down ++ l) else (up ++ l, down).
Lemma push_nil slash up down : push slash up down [] = (up, down).
Proof. unfold push. destruct slash; now rewrite app_nil_r. Qed.
Lemma product_head l t : product l t -> exists c r, t = c :: r /\ c <> 32 /\ c <> 42 /\ c <> 47.
Proof.
  intro H. destruct H as [n Hn|n star l t Hn Hs H].
  - destruct n as [|c n]; [now destruct Hn|]. exists c, n. split; [reflexivity|]. now apply not_sep in Hn.
  - destruct n as [|c n]; [now destruct Hn|]. exists c, (n ++ star ++ t). split; [reflexivity|]. now apply not_sep in Hn.
Qed.
Lemma spaced_cases c s : spaced c s -> s = zs c \/ s = zs " " ++ zs c \/ s = zs c ++ zs " " \/ s = zs " " ++ zs c ++ zs " ".
Proof. intros [H|[H|[H|[H|[]]]]]; auto. Qed.
Lemma skip_not32 c r : c <> 32 -> skip_space (c :: r) = c :: r.
Proof. intro H. unfold skip_space. now replace (c =? 32) with false by lia. Qed.

(** One name, then a separator. *)
Lemma loop_one f slash n up down : unit_name n -> dim_loop (S f) slash n up down = (push slash up down [n], None).
Proof.
  intros (N & _ & F). cbn [dim_loop]. replace (cut_name n) with (n, [] : str) by (rewrite <- (app_nil_r n) at 2; symmetry; apply cut_ok; auto).
  destruct n; [congruence|]. unfold push. destruct slash; reflexivity.
Qed.
Lemma loop_star f slash n star t up down : unit_name n -> spaced "*" star -> (exists c r, t = c :: r /\ c <> 32 /\ c <> 42 /\ c <> 47) ->
  dim_loop (S f) slash (n ++ star ++ t) up down = let '(u, d) := push slash up down [n] in dim_loop f slash t u d.
Proof.
  intros (N & _ & F) S (c & r & -> & C1 & C2 & C3). cbn [dim_loop].
  assert (Q : exists x y, star = x :: y /\ is_sep x = true) by (destruct (spaced_cases _ _ S) as [ -> |[ -> |[ -> | -> ]]]; eexists _, _; split; reflexivity).
  rewrite cut_ok by (try assumption; right; destruct Q as (x & y & -> & Hs); exists x; cbn; eauto).
  assert (N' : exists a b, n = a :: b) by (destruct n; [congruence|eauto]). destruct N' as (a & b & ->).
  destruct (spaced_cases _ _ S) as [ -> |[ -> |[ -> | -> ]]];
  change (zs "*") with [42]; change (zs " ") with [32]; unfold push; cbn -[dim_loop];
  change (42 =? 32) with false; change (32 =? 32) with true; change (42 =? 47) with false; change (42 =? 42) with true; cbn -[dim_loop];
  change (42 =? 32) with false; change (32 =? 32) with true; change (42 =? 47) with false; change (42 =? 42) with true; cbn -[dim_loop];
  try replace (c =? 32) with false by lia; destruct slash; reflexivity.
Qed.
Lemma loop_slash f n sl t up down : unit_name n -> spaced "/" sl -> (exists c r, t = c :: r /\ c <> 32 /\ c <> 42 /\ c <> 47) ->
  dim_loop (S f) false (n ++ sl ++ t) up down = dim_loop f true t (up ++ [n]) down.
Proof.
  intros (N & _ & F) S (c & r & -> & C1 & C2 & C3). cbn [dim_loop].
  assert (Q : exists x y, sl = x :: y /\ is_sep x = true) by (destruct (spaced_cases _ _ S) as [ -> |[ -> |[ -> | -> ]]]; eexists _, _; split; reflexivity).
  rewrite cut_ok by (try assumption; right; destruct Q as (x & y & -> & Hs); exists x; cbn; eauto).
  assert (N' : exists a b, n = a :: b) by (destruct n; [congruence|eauto]). destruct N' as (a & b & ->).
  destruct (spaced_cases _ _ S) as [ -> |[ -> |[ -> | -> ]]];
  change (zs "/") with [47]; change (zs " ") with [32]; cbn -[dim_loop];
  change (47 =? 32) with false; change (32 =? 32) with true; change (47 =? 47) with true; cbn -[dim_loop];
  change (47 =? 32) with false; change (32 =? 32) with true; change (47 =? 47) with true; cbn -[dim_loop];
  try replace (c =? 32) with false by lia; reflexivity.
Qed.
Lemma app_assoc3 (a b c d : str) : (a ++ b ++ c) ++ d = a ++ b ++ c ++ d. Proof. now rewrite !app_assoc. Qed.
Lemma loop_product l t : product l t -> forall f slash up down, (length l <= f)%nat ->
  dim_loop f slash t up down = (push slash up down l, None).
Proof.
  intro H. induction H as [n Hn|n star l t Hn Hs H IH]; intros f slash up down L; (destruct f as [|f]; [cbn in L; lia|]).
  - now apply loop_one.
  - rewrite loop_star by (try assumption; eapply product_head; eassumption).
    unfold push at 1. destruct slash; rewrite IH by (cbn in L; lia); unfold push; now rewrite <- app_assoc.
Qed.
Lemma loop_quotient l t : product l t -> forall sl d t', spaced "/" sl -> product d t' -> forall f up down, (length l + length d <= f)%nat ->
  dim_loop f false (t ++ sl ++ t') up down = (up ++ l, down ++ d, None).
Proof.
  intro H. induction H as [n Hn|n star l t Hn Hs H IH]; intros sl d t' Hsl Hd f up down L; (destruct f as [|f]; [cbn in L; lia|]).
  - rewrite loop_slash by (try assumption; eapply product_head; eassumption).
    rewrite (loop_product _ _ Hd) by (cbn in L; lia). reflexivity.
  - destruct (product_head _ _ H) as (c & r & -> & C). rewrite app_assoc3.
    rewrite loop_star by (try assumption; exists c, (r ++ sl ++ t'); auto). unfold push.
    rewrite (IH sl d t' Hsl Hd) by (cbn in L; lia). now rewrite <- app_assoc.
Qed.
Lemma product_length l t : product l t -> (length l <= length t)%nat.
Proof.
  intro H. induction H as [n Hn|n star l t Hn Hs H IH]; cbn [length].
  - destruct n; [now destruct Hn|cbn; lia].
  - rewrite !app_length. destruct n; [now destruct Hn|cbn [length]; lia].
Qed.

(** The first name cannot be taken for the "1" of "1 / s". *)
Lemma vectors_plain n r up down : unit_name n -> (r = [] \/ exists c r', r = c :: r' /\ is_sep c = true) ->
  dim_vectors (n ++ r) up down = dim_loop (S (length (n ++ r))) false (n ++ r) up down.
Proof.
  intros (N & N1 & F) R. unfold dim_vectors.
  destruct n as [|a n]; [congruence|]. destruct n as [|b n].
  - (* one character, not '1' *)
    assert (A : a <> 49) by (intros ->; now apply N1).
    cbn [app]. destruct r as [|b r]; [reflexivity|]. destruct r as [|c r]; [reflexivity|].
    replace (a =? 49) with false by lia. cbn [andb]. destruct r; reflexivity.
  - inversion F as [|? ? Fa F']; subst. inversion F' as [|? ? Fb F'']; subst.
    cbn [app]. destruct (n ++ r) as [|c x]; [reflexivity|].
    replace (b =? 47) with false by lia. rewrite andb_false_r.
    destruct x as [|d x]; [reflexivity|]. replace (b =? 32) with false by lia. rewrite andb_false_r. reflexivity.
Qed.
Lemma product_shape l t : product l t -> exists n r, t = n ++ r /\ unit_name n /\ (r = [] \/ exists c r', r = c :: r' /\ is_sep c = true).
Proof.
  intro H. destruct H as [n Hn|n star l t Hn Hs H].
  - exists n, []. rewrite app_nil_r. auto.
  - exists n, (star ++ t). split; [reflexivity|]. split; [assumption|]. right.
    destruct (spaced_cases _ _ Hs) as [ -> |[ -> |[ -> | -> ]]]; eexists _, _; split; reflexivity.
Qed.

Lemma vectors_ok t u d : unit_text t u d -> forall up down, dim_vectors t up down = (up ++ u, down ++ d, None).
Proof.
  intro H. destruct H as [|t u H|t u sl t' d H Hs H'|sl t' d Hs H']; intros up down.
  - now rewrite !app_nil_r.
  - destruct (product_shape _ _ H) as (n & r & E & Hn & Hr). pose proof (product_length _ _ H) as L. rewrite E in L.
    rewrite E, vectors_plain by assumption. rewrite <- E. rewrite (loop_product _ _ H) by (rewrite E; lia).
    unfold push. now rewrite app_nil_r.
  - destruct (product_shape _ _ H) as (n & r & E & Hn & Hr).
    pose proof (product_length _ _ H) as L. pose proof (product_length _ _ H') as L'.
    assert (Hr' : (r ++ sl ++ t' = [] \/ exists c r', r ++ sl ++ t' = c :: r' /\ is_sep c = true)).
    { right. destruct Hr as [ -> |(c & r' & -> & Hc)]; [|exists c, (r' ++ sl ++ t'); auto].
      destruct (spaced_cases _ _ Hs) as [ -> |[ -> |[ -> | -> ]]]; eexists _, _; split; reflexivity. }
    replace (t ++ sl ++ t') with (n ++ r ++ sl ++ t') by (rewrite E; now rewrite <- app_assoc).
    rewrite vectors_plain by assumption.
    replace (n ++ r ++ sl ++ t') with (t ++ sl ++ t') by (rewrite E; now rewrite <- app_assoc).
    apply loop_quotient; auto. rewrite !app_length. lia.
  - pose proof (product_length _ _ H') as L'. destruct (product_head _ _ H') as (c & r & E & C1 & C2 & C3).
    rewrite app_nil_r.
    assert (K : dim_vectors (zs "1" ++ sl ++ t') up down = dim_loop (S (length (zs "1" ++ sl ++ t'))) true t' up down).
    { subst t'. destruct (spaced_cases _ _ Hs) as [ -> |[ -> |[ -> | -> ]]];
      change (zs "/") with [47]; change (zs " ") with [32]; change (zs "1") with [49]; unfold dim_vectors; cbn -[dim_loop];
      change (49 =? 49) with true; change (47 =? 47) with true; change (32 =? 47) with false; change (32 =? 32) with true; cbn -[dim_loop].
      - unfold skip_space2. replace (c =? 32) with false by lia. destruct r; reflexivity.
      - unfold skip_space2. replace (c =? 32) with false by lia. destruct r; reflexivity.
      - reflexivity.
      - reflexivity. }
    rewrite K. rewrite (loop_product _ _ H'); [reflexivity|]. rewrite !app_length. lia.
Qed.

(** Cancelling. *)
Lemma remove_first_some x l l' : remove_first x l = Some l' ->
  In x l /\ (forall y, In y l' -> In y l) /\ (forall n, occurrences n l = (if str_eqb x n then 1 else 0) + occurrences n l').
Proof.
  revert l'. induction l as [|y l IH]; cbn [remove_first]; intros l' H; [discriminate|].
  destruct (str_eqb y x) eqn:E.
  - apply str_eqb_spec in E. inversion H; subst. split; [now left|]. split; [now right|]. reflexivity.
  - destruct (remove_first x l) as [r|] eqn:R; [|discriminate]. inversion H; subst. destruct (IH r eq_refl) as (A & B & C).
    split; [now right|]. split; [intros z [->|Hz]; [now left|right; auto]|]. intro n. cbn [occurrences]. rewrite (C n). lia.
Qed.
Lemma remove_first_none x l : remove_first x l = None -> ~ In x l.
Proof.
  induction l as [|y l IH]; cbn [remove_first]; intros H; [auto|]. destruct (str_eqb y x) eqn:E; [discriminate|].
  destruct (remove_first x l); [discriminate|]. intros [K|K]; [|now apply IH]. subst. rewrite str_eqb_refl in E. discriminate.
Qed.
Lemma cancel_ok up : forall down up' down', cancel up down = (up', down') ->
  reduced up' down' /\ (forall n, exponent n up' down' = exponent n up down) /\
  (forall y, In y up' -> In y up) /\ (forall y, In y down' -> In y down).
Proof.
  induction up as [|x up IH]; cbn [cancel]; intros down up' down' H.
  - inversion H; subst. repeat split; auto. intros n [].
  - destruct (cancel up down) as [u d] eqn:E. destruct (IH _ _ _ E) as (R & X & A & B).
    destruct (remove_first x d) as [d1|] eqn:F; inversion H; subst; clear H.
    + destruct (remove_first_some _ _ _ F) as (I & J & K). split; [|split; [|split]].
      * intros n Hn Hd. apply (R n Hn). now apply J.
      * intro n. specialize (X n). unfold exponent in *. cbn [occurrences]. rewrite (K n) in X. lia.
      * intros y Hy. right. auto.
      * intros y Hy. auto.
    + apply remove_first_none in F. split; [|split; [|split]].
      * intros n [<-|Hn]; [assumption|now apply R].
      * intro n. specialize (X n). unfold exponent in *. cbn [occurrences]. lia.
      * intros y [->|Hy]; [now left|right; auto].
      * auto.
Qed.

(** The text of the result. *)
Lemma join_product l : l <> [] -> Forall unit_name l -> product l (join (zs " * ") l).
Proof.
  induction l as [|x l IH]; intros N F; [congruence|]. inversion F as [|? ? Fx Fl]; subst. destruct l as [|y l]; [now constructor|].
  change (join (zs " * ") (x :: y :: l)) with (x ++ zs " * " ++ join (zs " * ") (y :: l)).
  constructor; [assumption| |apply IH; [discriminate|assumption]]. right. right. right. left. reflexivity.
Qed.
Lemma rebuild_ok up down : Forall unit_name up -> Forall unit_name down -> unit_text (rebuild up down) up down.
Proof.
  intros U D. unfold rebuild. destruct up as [|x up]; destruct down as [|y down].
  - constructor.
  - change (zs "1" ++ zs " / " ++ join (zs " * ") (y :: down)) with (zs "1" ++ (zs " / " ++ join (zs " * ") (y :: down))).
    apply unit_inverse; [right; right; right; left; reflexivity|]. apply join_product; [discriminate|assumption].
  - rewrite app_nil_r. apply unit_up. apply join_product; [discriminate|assumption].
  - apply unit_quotient; [apply join_product; [discriminate|assumption]|right; right; right; left; reflexivity|apply join_product; [discriminate|assumption]].
Qed.
Lemma product_names l t : product l t -> Forall unit_name l.
Proof. intro H. induction H; auto. Qed.
Lemma text_names t u d : unit_text t u d -> Forall unit_name u /\ Forall unit_name d.
Proof. intro H. destruct H; repeat split; auto; eapply product_names; eassumption. Qed.
Lemma occurrences_app n a b : occurrences n (a ++ b) = occurrences n a + occurrences n b.
Proof. induction a; cbn [app occurrences]; lia. Qed.

Lemma product_ok l r u d u' d' (divide : bool) : unit_text l u d -> unit_text r u' d' ->
  exists t U D, dim_product l divide r = (t, []) /\ unit_text t U D /\ reduced U D /\
    (forall n, exponent n U D = exponent n u d + (if divide then - exponent n u' d' else exponent n u' d')).
Proof.
  intros L R. destruct (text_names _ _ _ L) as (L1 & L2), (text_names _ _ _ R) as (R1 & R2). unfold dim_product.
  rewrite (vectors_ok _ _ _ L). cbn [app].
  assert (K : exists A B, (if divide then let '(d0, u0, e) := dim_vectors r d u in (u0, d0, e) else dim_vectors r u d) = (A, B, None)
              /\ Forall unit_name A /\ Forall unit_name B /\ (forall n, exponent n A B = exponent n u d + (if divide then - exponent n u' d' else exponent n u' d'))).
  { destruct divide; rewrite (vectors_ok _ _ _ R); eexists _, _; (split; [reflexivity|]); (split; [apply Forall_app; auto|]); (split; [apply Forall_app; auto|]);
    intro n; unfold exponent; rewrite !occurrences_app; lia. }
  destruct K as (A & B & -> & FA & FB & X). destruct (cancel A B) as (A' & B') eqn:E.
  destruct (cancel_ok _ _ _ _ E) as (Hr & Hx & I & J).
  exists (rebuild A' B'), A', B'. split; [reflexivity|]. split.
  - apply rebuild_ok; apply Forall_forall; intros y Hy.
    + apply (proj1 (Forall_forall _ _) FA y). now apply I.
    + apply (proj1 (Forall_forall _ _) FB y). now apply J.
  - split; [assumption|]. intro n. rewrite Hx. apply X.
Qed.
