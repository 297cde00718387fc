(** * Reading a stream of encoded characters *)

From Coq Require Import String ZArith List Bool Lia Arith ZifyBool.
From Verif Require Import Base Utf8 Utf8Spec Lexer LexSpec Utf8Proofs LexerWp.
Import ListNotations.
Open Scope Z_scope.

(** Characters the encoder accepts. *)
Lemma wctomb_accepts c b : -2147483648 <= c < 2147483648 -> c <> 0 -> wctomb c = inr b ->
  scalar c /\ ~ nonchar c /\ b = utf8 c.
Proof.
  intros Hr Hz E.
  assert (Hd : (scalar c /\ ~ nonchar c) \/ ~ (scalar c /\ ~ nonchar c)).
  { unfold scalar, nonchar.
    destruct (Z.eq_dec (c mod 65536) 65534), (Z.eq_dec (c mod 65536) 65535); [lia|lia|lia|].
    destruct (Z_lt_dec c 0), (Z_lt_dec c 55296), (Z_lt_dec c 57344), (Z_lt_dec c 1114112); lia. }
  destruct Hd as [[Hs Hn]|Hd].
  - rewrite wctomb_valid in E by assumption. injection E as <-. auto.
  - destruct (wctomb_invalid c Hr Hz Hd) as [t Ht]. congruence.
Qed.

Lemma decode_encode c b : -2147483648 <= c < 2147483648 -> wctomb c = inr b -> mbtowc b = inr c.
Proof.
  intros Hr E. destruct (Z.eq_dec c 0) as [->|Hz].
  - injection E as <-. reflexivity.
  - destruct (wctomb_accepts c b Hr Hz E) as (Hs & _ & ->). unfold scalar in Hs.
    apply mbtowc_utf8. lia.
Qed.

Lemma heads_utf8s l : Forall (fun c => 0 <= c < 1114112) l ->
  match utf8s l with b :: _ => is_follow b = false | [] => True end.
Proof.
  destruct l as [|c l]; intro H; [exact I|]. rewrite utf8s_cons.
  inversion H as [|? ? Hc Hl]; subst.
  destruct (utf8_nonempty c) as (b & r & E). rewrite E. cbn.
  eapply utf8_head_not_follow; [exact Hc|exact E].
Qed.

Lemma read_stream l : forall s,
  Forall (fun c => 0 < c < 1114112 /\ c <> 12 /\ c <> 13) l -> l_unget s = [] -> l_in s = utf8s l ->
  exists s', get_many (length l) s = Ret l s' /\ l_in s' = [] /\ l_log s' = l_log s.
Proof.
  induction l as [|c l IH]; intros s Hl Hu Hi.
  - exists s. auto.
  - inversion Hl as [|? ? (Hc & H12 & H13) Hl']; subst. cbn [length get_many].
    unfold bind at 1.
    rewrite (getc_utf8_gen c (utf8s l)); [|lia|exact Hu|now rewrite Hi|].
    2:{ apply heads_utf8s. eapply Forall_impl; [|exact Hl']. cbn. intros; lia. }
    destruct (getc_tail_eq c (utf8s l) s) as (s1 & E1 & Hin & Hun & Hlog & _).
    rewrite E1. replace (c =? 13) with false by lia. replace (c =? 12) with false by lia.
    replace (c =? 0) with false by lia.
    destruct Hin as [Hin|[Hin _]]; [|lia].
    destruct (IH s1 Hl') as (s2 & E2 & Hi2 & Hl2); [congruence|exact Hin|].
    unfold bind. rewrite E2. exists s2. split; [reflexivity|]. split; [exact Hi2|congruence].
Qed.
