(** * Comments (C52) *)

From Coq Require Import String ZArith List Bool Lia Arith ZifyBool.
From Verif Require Import Base Utf8 Utf8Spec UnicodeRange Lexer LexSpec Utf8Proofs LexerWp LexerMain View RoundString TextSpec PreserveSpec.
From Verif Require Props_Round Assembler.
Import ListNotations.
Open Scope string_scope. Open Scope list_scope. Open Scope Z_scope.
Ltac Zify.zify_post_hook ::= idtac.

(** ** Texts *)
Lemma has_nil w t : w = [] -> has w t.
Proof. intros ->. exists [], t. reflexivity. Qed.
Lemma has_cons w c t : has w t -> has w (c :: t).
Proof. intros (a & b & ->). exists (c :: a), b. reflexivity. Qed.
Lemma has_head w t : has w (w ++ t).
Proof. exists [], t. reflexivity. Qed.
Lemma starts_iff w : forall t, starts_with w t = true <-> exists r, t = w ++ r.
Proof.
  induction w as [|c w IH]; intro t; cbn [starts_with].
  - split; [exists t; reflexivity|reflexivity].
  - destruct t as [|d t]; [split; [discriminate|intros (r & E); discriminate]|]. split.
    + intro H. apply andb_prop in H. destruct H as (E & H). apply IH in H. destruct H as (r & ->). assert (c = d) by lia. subst d. exists r. reflexivity.
    + intros (r & E). apply cons_inj in E. destruct E as (-> & ->). rewrite Z.eqb_refl. apply IH. exists r. reflexivity.
Qed.
Lemma contains_iff w : forall t, contains w t = true <-> has w t.
Proof.
  induction t as [|c t IH]; cbn [contains].
  - split; [intro H; apply orb_prop in H; destruct H as [H|H]; [apply starts_iff in H; destruct H as (r & ->); apply has_head|discriminate]|].
    intros (a & b & E). symmetry in E. apply app_eq_nil in E. destruct E as (-> & E). apply app_eq_nil in E. destruct E as (-> & ->). reflexivity.
  - split.
    + intro H. apply orb_prop in H. destruct H as [H|H]; [apply starts_iff in H; destruct H as (r & ->); apply has_head|apply has_cons; tauto].
    + intros (a & b & E). destruct a as [|x a].
      * apply orb_true_intro. left. apply starts_iff. exists b. exact E.
      * apply cons_inj in E. destruct E as (_ & ->). apply orb_true_intro. right. apply IH. exists a, b. reflexivity.
Qed.
Lemma contains_not w t : contains w t = false <-> ~ has w t.
Proof. rewrite <- contains_iff. destruct (contains w t); split; congruence. Qed.

Definition ascii (c : Z) : Prop := 0 < c < 128.
Definition coded (c : Z) : Prop := 0 < c < 1114112.
(** A text in ASCII is in the characters when it is in the bytes. *)
Lemma starts_bytes w : Forall ascii w -> forall t, Forall coded t -> starts_with w (utf8s t) = starts_with w t.
Proof.
  induction 1 as [|c w Hc Hw IH]; intros t Ht; [reflexivity|]. destruct Ht as [|d t Hd Ht]; [reflexivity|].
  rewrite utf8s_cons. unfold coded in Hd. destruct (Z.lt_ge_cases d 128).
  - rewrite utf8_ascii by lia. cbn [app starts_with]. now rewrite IH.
  - destruct (utf8_nonempty d) as (b & r & E). pose proof (utf8_bytes_high d b ltac:(lia)) as B. rewrite E in *. specialize (B (or_introl eq_refl)).
    cbn [app starts_with]. unfold ascii in Hc. replace (c =? b) with false by lia. replace (c =? d) with false by lia. reflexivity.
Qed.
Lemma contains_high w : w <> [] -> Forall ascii w -> forall u t, Forall (fun b => 128 <= b) u -> contains w (u ++ t) = contains w t.
Proof.
  intros N W u t. destruct w as [|c w]; [congruence|]. apply Forall_inv in W. unfold ascii in W.
  induction 1 as [|b u Hb Hu IH]; [reflexivity|]. cbn [app contains starts_with]. replace (c =? b) with false by lia. exact IH.
Qed.
Lemma contains_bytes w : w <> [] -> Forall ascii w -> forall t, Forall coded t -> contains w (utf8s t) = contains w t.
Proof.
  intros N W. induction 1 as [|d t Hd Ht IH]; [reflexivity|]. pose proof Hd as Hd'. unfold coded in Hd. destruct (Z.lt_ge_cases d 128).
  - cbn [contains]. rewrite <- (starts_bytes w W (d :: t)) by (constructor; assumption). rewrite utf8s_cons, utf8_ascii by lia. cbn [app contains]. now rewrite IH.
  - rewrite utf8s_cons. rewrite contains_high; [|assumption|assumption|].
    + rewrite IH. cbn [contains]. rewrite <- (starts_bytes w W (d :: t)) by (constructor; assumption). rewrite utf8s_cons.
      destruct (utf8_nonempty d) as (b & r & E). pose proof (utf8_bytes_high d b ltac:(lia)) as B. rewrite E in *. specialize (B (or_introl eq_refl)).
      destruct w as [|c w]; [congruence|]. apply Forall_inv in W. unfold ascii in W. cbn [app starts_with]. replace (c =? b) with false by lia. reflexivity.
    + apply Forall_forall. intros b Hb. apply utf8_bytes_high in Hb; lia.
Qed.
Lemma preserve_ascii : Forall ascii (zs "@preserve").
Proof. repeat constructor; unfold ascii; cbn; lia. Qed.
Lemma close_ascii : Forall ascii (zs "*/").
Proof. repeat constructor; unfold ascii; cbn; lia. Qed.

(** White space at the ends. *)
Lemma blank_space c : blank c <-> is_space c = true.
Proof. unfold blank, is_space. lia. Qed.
Lemma strip_blank a t : Forall blank a -> (t = [] \/ ~ blank (first t)) -> strip_leading (a ++ t) = t.
Proof.
  intros A T. induction A as [|c a Hc Ha IH]; cbn [app strip_leading].
  - destruct t as [|c t]; [reflexivity|]. destruct T as [T|T]; [discriminate|]. cbn [first strip_leading] in *. rewrite blank_space in T. destruct (is_space c); [tauto|reflexivity].
  - apply blank_space in Hc. rewrite Hc. exact IH.
Qed.
Lemma blank_bytes a : Forall blank a -> utf8s a = a.
Proof.
  induction 1 as [|c a Hc Ha IH]; [reflexivity|]. rewrite utf8s_cons, IH, utf8_ascii; [reflexivity|]. unfold blank in Hc. lia.
Qed.
Lemma last_app2 {A} (a b : list A) (d : A) : b <> [] -> last (a ++ b) d = last b d.
Proof. intro N. destruct (exists_last N) as (b' & x & ->). rewrite app_assoc, !last_last. reflexivity. Qed.
Lemma rtrim_bytes u b : u <> [] -> Forall coded u -> ~ blank (last u 0) -> Forall blank b -> rtrim (utf8s u ++ b) = utf8s u.
Proof.
  intros N C L B. unfold rtrim. rewrite rev_app_distr. rewrite strip_blank; [apply rev_involutive| |].
  - apply Forall_rev. exact B.
  - right. destruct (exists_last N) as (u' & x & ->). rewrite last_last in L. rewrite utf8s_app. apply Forall_app in C. destruct C as (_ & C). apply Forall_inv in C. unfold coded in C.
    unfold utf8s at 2. cbn [flat_map]. rewrite app_nil_r. rewrite rev_app_distr. destruct (Z.lt_ge_cases x 128).
    + rewrite utf8_ascii by lia. exact L.
    + destruct (utf8_nonempty x) as (c & r & E). assert (R : rev (utf8 x) <> []) by (rewrite E; cbn [rev]; destruct (rev r); discriminate).
      destruct (rev (utf8 x)) as [|y q] eqn:Q; [congruence|]. cbn [app first]. assert (In y (utf8 x)) by (apply in_rev; rewrite Q; left; reflexivity).
      apply utf8_bytes_high in H0; [|lia]. unfold blank. lia.
Qed.

(** ** The loops *)
Definition letter (c : Z) : Prop := encodable c /\ c <> 65533.
Lemma letter_okc c : letter c -> okc c.
Proof. unfold letter, encodable, scalar, okc. lia. Qed.
Lemma letters_okc l : Forall letter l -> Forall okc l.
Proof. apply Forall_impl. exact letter_okc. Qed.

Lemma runs_skip_spaces st t : forall a f, Forall blank a -> ~ blank (first t) -> (length (a ++ t) < f)%nat ->
  runs st 2 (a ++ t) (skip_spaces f) (hd (-1) t) 1 (tl t).
Proof.
  induction a as [|c a IH]; intros f A T F; (destruct f as [|f]; [cbn in F; lia|]); cbn [app skip_spaces].
  - rb; [apply runs_getc|]. replace (is_space (hd (-1) t)) with false; [apply runs_ret|]. destruct (is_space (hd (-1) t)) eqn:E; [|reflexivity]. apply blank_space in E. destruct t; [unfold blank in E; cbn in E; lia|exfalso; apply T; exact E].
  - inversion A as [|? ? Hc Ha]; subst. rget. apply blank_space in Hc. rewrite Hc. eapply runs_strengthen; [apply IH; auto; cbn in F; lia|cbn; lia].
Qed.
Lemma runs_skip_blanks st t : forall a f, Forall (fun c => c = 32 \/ c = 9) a -> first t <> 32 -> first t <> 9 -> (length (a ++ t) < f)%nat ->
  runs st 2 (a ++ t) (skip_blanks f) (hd (-1) t) 1 (tl t).
Proof.
  induction a as [|c a IH]; intros f A T1 T2 F; (destruct f as [|f]; [cbn in F; lia|]); cbn [app skip_blanks].
  - rb; [apply runs_getc|]. replace ((hd (-1) t =? 32) || (hd (-1) t =? 9)) with false; [apply runs_ret|]. destruct t; cbn [hd first] in *; lia.
  - inversion A as [|? ? Hc Ha]; subst. rget. replace ((c =? 32) || (c =? 9)) with true by lia. eapply runs_strengthen; [apply IH; auto; cbn in F; lia|cbn; lia].
Qed.

Lemma runs_c_loop st v : forall l f acc, Forall letter l -> ~ has (zs "*/") l -> Forall okc v -> (length (l ++ 42%Z :: 47%Z :: v) < f)%nat ->
  runs st 2 (l ++ 42 :: 47 :: v) (c_comment_loop f acc) (acc ++ utf8s l) 2 v.
Proof.
  induction l as [|c l IH]; intros f acc L N V F; (destruct f as [|f]; [cbn in F; lia|]); cbn [app c_comment_loop].
  - rget. no. yes. rget. yes. change (utf8s []) with (@nil Z). rewrite app_nil_r. eapply runs_weaken; [apply runs_ret|cbn; lia].
  - inversion L as [|? ? Hc Hl]; subst. pose proof (letter_okc c Hc) as Ok. unfold okc in Ok.
    assert (N' : ~ has (zs "*/") l) by (intro X; apply N; apply has_cons; exact X).
    assert (F' : (length (l ++ 42%Z :: 47%Z :: v) < f)%nat) by (cbn [app length] in F; lia).
    replace (acc ++ utf8s (c :: l)) with ((acc ++ utf8 c) ++ utf8s l) by (rewrite utf8s_cons; now rewrite app_assoc).
    rget. no. destruct (Z.eqb_spec c 42) as [->|C].
    + set (w := l ++ 42 :: 47 :: v) in *.
      assert (W : exists d r, w = d :: r /\ d <> 47 /\ okc d).
      { subst w. destruct l as [|d l]; [exists 42, (47 :: v); split; [reflexivity|]; unfold okc; lia|]. exists d, (l ++ 42 :: 47 :: v). split; [reflexivity|]. split; [|apply letter_okc; inversion Hl; assumption].
        intros ->. apply N. exists [], l. reflexivity. }
      destruct W as (d & r & -> & Hd & Hk). rget. replace (d =? 47) with false by lia. cbv iota.
      rb; [apply runs_ungetc; [exact Hk|cbn; lia]|]. rb; [apply runs_wctomb; apply Hc|].
      eapply runs_strengthen; [apply IH; assumption|cbn; lia].
    + cbv iota. rb; [apply runs_wctomb; apply Hc|]. eapply runs_strengthen; [apply IH; assumption|cbn; lia].
Qed.

Definition more (ls : list (list Z)) (v : list Z) : list Z := concat (map (fun m => 10 :: zs "//" ++ m) ls) ++ v.
Definition more_body (ls : list (list Z)) : list Z := concat (map (fun m => 10 :: unindent1 m) ls).
Lemma more_cons m ls v : more (m :: ls) v = 10 :: 47 :: 47 :: m ++ more ls v.
Proof. unfold more. cbn [map concat]. change (zs "//") with [47; 47]. cbn [app]. now rewrite <- app_assoc. Qed.
Lemma more_okc ls v : Forall (Forall letter) ls -> Forall okc v -> Forall okc (more ls v).
Proof.
  intros H V. induction H as [|m ls Hm Hs IH]; [exact V|]. rewrite more_cons. assert (okc 10 /\ okc 47) by (unfold okc; lia).
  do 3 (apply Forall_cons; [tauto|]). apply Forall_app. split; [apply letters_okc; exact Hm|exact IH].
Qed.
Lemma more_first ls v : no_more_lines v -> first (more ls v) = -1 \/ first (more ls v) = 10.
Proof. intro N. destruct ls as [|m ls]; [|right; rewrite more_cons; reflexivity]. unfold more. cbn [map concat app]. destruct N as [->|(r & -> & _)]; cbn; auto. Qed.
Lemma hd_first l : hd (-1) l = first l.
Proof. destruct l; reflexivity. Qed.

Lemma runs_cpp_loop st v : Forall okc v -> no_more_lines v ->
  forall f ls l acc, Forall letter l -> ~ In 10 l -> Forall (Forall letter) ls -> Forall (fun m => ~ In 10 m) ls -> (length (l ++ more ls v) < f)%nat ->
  runs st 3 (l ++ more ls v) (cpp_comment_loop f acc) (acc ++ utf8s l ++ utf8s (more_body ls)) 3 v.
Proof.
  intros V NV. induction f as [|f IH]; intros ls l acc L N Ls Ns F; [lia|]. cbn [cpp_comment_loop]. destruct l as [|c l].
  - cbn [app] in *. change (utf8s []) with (@nil Z). cbn [app]. destruct ls as [|m ls].
    + unfold more, more_body in *. cbn [map concat app] in *. change (utf8s []) with (@nil Z). rewrite app_nil_r. destruct NV as [->|(r & -> & Q)].
      * rb; [apply runs_getc|]. cbn [hd tl]. yes. eapply runs_weaken; [apply runs_ret|cbn; lia].
      * rget. no. yes. inversion V as [|? ? _ V']; subst. rb; [apply runs_getc|]. rewrite hd_first. destruct (Z.eqb_spec (first r) 47) as [E|E].
        -- destruct r as [|x r]; [discriminate|]. cbn [first tl] in *. subst x. inversion V' as [|? ? _ V'']; subst.
           rb; [apply runs_getc|]. rewrite hd_first. destruct (Z.eqb_spec (first r) 47) as [E|E].
           ++ exfalso. destruct r as [|x r]; [discriminate|]. cbn [first] in E. subst x. apply Q. exists r. reflexivity.
           ++ rewrite <- hd_first. rb; [apply runs_unget_hd; [cbn; lia|exact V'']|]. rb; [apply runs_ungetc; [unfold okc; lia|cbn; lia]|]. rb; [apply runs_ungetc; [unfold okc; lia|cbn; lia]|].
              eapply runs_weaken; [apply runs_ret|cbn; lia].
        -- rewrite <- hd_first. rb; [apply runs_unget_hd; [cbn; lia|exact V']|]. rb; [apply runs_ungetc; [unfold okc; lia|cbn; lia]|].
           eapply runs_weaken; [apply runs_ret|cbn; lia].
    + rewrite more_cons in *. inversion Ls as [|? ? Lm Ls']; subst. inversion Ns as [|? ? Nm Ns']; subst.
      rget. no. yes. rget. yes. rget. yes.
      pose proof (more_okc ls v Ls' V) as Vm. pose proof (more_first ls v NV) as Fm.
      replace (acc ++ utf8s (more_body (m :: ls))) with ((acc ++ [10]) ++ utf8s (unindent1 m) ++ utf8s (more_body ls))
        by (unfold more_body; cbn [map concat app]; rewrite utf8s_cons, utf8s_app, utf8_ascii by lia; cbn [app]; rewrite <- app_assoc; reflexivity).
      assert (Go : forall k, Forall letter k -> ~ In 10 k -> (length k <= length m)%nat -> runs st 3 (k ++ more ls v) (cpp_comment_loop f (acc ++ [10])) ((acc ++ [10]) ++ utf8s k ++ utf8s (more_body ls)) 3 v).
      { intros k K1 K2 K3. apply IH; auto. cbn [length] in F. rewrite app_length in *. lia. }
      rb; [apply runs_getc|]. rewrite hd_first. destruct m as [|d m].
      * cbn [app unindent1] in *. replace ((first (more ls v) =? 32) || (first (more ls v) =? 9)) with false by lia. cbv iota.
        rewrite <- hd_first. rb; [apply runs_unget_hd; [cbn; lia|exact Vm]|]. eapply runs_strengthen; [apply (Go [])|cbn; lia]; [constructor|intros []|cbn; lia].
      * cbn [app first tl unindent1] in *. inversion Lm as [|? ? Ld Lm']; subst. cbn [In] in Nm. destruct ((d =? 32) || (d =? 9)) eqn:D.
        -- rb; [apply runs_ret|]. eapply runs_strengthen; [apply (Go m)|cbn; lia]; [exact Lm'|tauto|cbn; lia].
        -- rb; [apply runs_ungetc; [apply letter_okc; exact Ld|cbn; lia]|]. eapply runs_strengthen; [apply (Go (d :: m))|cbn; lia]; [exact Lm|cbn [In]; tauto|cbn; lia].
  - inversion L as [|? ? Hc Hl]; subst. cbn [In] in N. pose proof (letter_okc c Hc) as Ok. unfold okc in Ok. cbn [app]. rget. no. no.
    rb; [apply runs_wctomb; apply Hc|]. rewrite utf8s_cons. replace (acc ++ (utf8 c ++ utf8s l) ++ utf8s (more_body ls)) with ((acc ++ utf8 c) ++ utf8s l ++ utf8s (more_body ls)) by (now rewrite <- !app_assoc).
    eapply runs_strengthen; [apply IH; auto; cbn [app length] in F; lia|cbn; lia].
Qed.

(** ** lexer::comment *)
Lemma strip_split t : exists a, t = a ++ strip_leading t /\ Forall blank a /\ (strip_leading t = [] \/ ~ blank (first (strip_leading t))).
Proof.
  induction t as [|c t IH]; [exists []; cbn; auto|]. cbn [strip_leading]. destruct (is_space c) eqn:E.
  - destruct IH as (a & Ea & A & T). exists (c :: a). cbn [app]. rewrite <- Ea. split; [reflexivity|]. split; [constructor; [apply blank_space; exact E|exact A]|exact T].
  - exists []. split; [reflexivity|]. split; [constructor|]. right. cbn [first]. rewrite blank_space. congruence.
Qed.
Lemma contains_blank w a t : (exists c r, w = c :: r /\ ~ blank c) -> Forall blank a -> contains w (a ++ t) = contains w t.
Proof.
  intros (c & r & -> & C). induction 1 as [|b a Hb Ha IH]; [reflexivity|]. cbn [app contains starts_with].
  replace (c =? b) with false; [exact IH|]. symmetry. apply Z.eqb_neq. intros ->. tauto.
Qed.
Lemma preserve_start : exists c r, zs "@preserve" = c :: r /\ ~ blank c.
Proof. exists 64, (zs "preserve"). split; [reflexivity|]. unfold blank. lia. Qed.
Lemma letter_coded c : letter c -> coded c.
Proof. unfold letter, encodable, scalar, coded. lia. Qed.
Lemma letters_coded l : Forall letter l -> Forall coded l.
Proof. apply Forall_impl. exact letter_coded. Qed.

Definition kept (c_style : bool) (st : position) (s : str) : node := set_int (set_str (mk COMMENT st) (rtrim s)) (if c_style then 1 else 0).

Lemma runs_comment_c st l v : Forall letter l -> ~ has (zs "*/") l -> Forall okc v ->
  runs st 2 (l ++ 42 :: 47 :: v) (comment true)
    (if contains (zs "@preserve") l then Some (kept true st (utf8s (strip_leading l))) else None) 2 v.
Proof.
  intros L N V. unfold comment. destruct (strip_split l) as (a & E & A & T). set (t := strip_leading l) in *. clearbody t. subst l.
  apply Forall_app in L. destruct L as (_ & L). assert (N' : ~ has (zs "*/") t) by (intros (x & y & ->); apply N; exists (a ++ x), y; now rewrite app_assoc).
  rewrite contains_blank by (exact preserve_start || exact A). rewrite <- app_assoc.
  assert (Fb : ~ blank (first (t ++ 42 :: 47 :: v))) by (destruct T as [->|T]; [cbn; unfold blank; lia|destruct t; [cbn; unfold blank; lia|exact T]]).
  assert (Vt : Forall okc (t ++ 42 :: 47 :: v)).
  { apply Forall_app. split; [apply letters_okc; exact L|]. do 2 (apply Forall_cons; [unfold okc; lia|]). exact V. }
  rb.
  - rb; [apply runs_with_fuel; intros k Hk; apply runs_skip_spaces; [exact A|exact Fb|lia]|].
    rb; [apply runs_unget_hd; [lia|exact Vt]|]. apply runs_with_fuel. intros k Hk. apply runs_c_loop; auto. lia.
  - cbn [app]. rewrite contains_bytes; [|discriminate|exact preserve_ascii|apply letters_coded; exact L].
    destruct (contains (zs "@preserve") t).
    + rb; [apply runs_new_node|]. apply runs_ret.
    + apply runs_ret.
Qed.

Lemma unindent_split l : exists a, l = a ++ unindent l /\ Forall (fun c => c = 32 \/ c = 9) a /\ first (unindent l) <> 32 /\ first (unindent l) <> 9.
Proof.
  induction l as [|c l IH]; [exists []; cbn; split; [reflexivity|]; split; [constructor|lia]|]. cbn [unindent]. destruct ((c =? 32) || (c =? 9)) eqn:E.
  - destruct IH as (a & Ea & A & T). exists (c :: a). cbn [app]. rewrite <- Ea. split; [reflexivity|]. split; [constructor; [lia|exact A]|exact T].
  - exists []. split; [reflexivity|]. split; [constructor|]. cbn [first]. lia.
Qed.
Lemma unindent1_sub c m : In c (unindent1 m) -> In c m.
Proof. destruct m as [|d m]; [auto|]. cbn [unindent1]. destruct ((d =? 32) || (d =? 9)); cbn [In]; auto. Qed.
Lemma cpp_body_letters l ls : Forall letter l -> Forall (Forall letter) ls -> Forall letter (cpp_body l ls).
Proof.
  intros L Ls. unfold cpp_body. apply Forall_app. split.
  - destruct (unindent_split l) as (a & E & _). rewrite E in L. apply Forall_app in L. tauto.
  - apply Forall_concat. apply Forall_forall. intros x Hx. apply in_map_iff in Hx. destruct Hx as (m & <- & Hm). rewrite Forall_forall in Ls. specialize (Ls m Hm). rewrite Forall_forall in *.
    intros c [<-|Hc]; [split; [apply encodable_ascii; lia|lia]|]. apply Ls. apply unindent1_sub. exact Hc.
Qed.
Lemma runs_comment_cpp st l ls v : Forall letter l -> ~ In 10 l -> Forall (Forall letter) ls -> Forall (fun m => ~ In 10 m) ls ->
  Forall okc v -> no_more_lines v ->
  runs st 2 (l ++ more ls v) (comment false)
    (if contains (zs "@preserve") (cpp_body l ls) then Some (kept false st (utf8s (cpp_body l ls))) else None) 3 v.
Proof.
  intros L N Ls Ns V NV. unfold comment. pose proof (cpp_body_letters l ls L Ls) as Lb.
  pose proof (more_okc ls v Ls V) as Vm. pose proof (more_first ls v NV) as Fm.
  change (cpp_body l ls) with (unindent l ++ more_body ls) in *.
  destruct (unindent_split l) as (a & E & A & T1 & T2). set (t := unindent l) in *. clearbody t. subst l.
  apply Forall_app in L. destruct L as (_ & L). assert (N' : ~ In 10 t) by (intro; apply N; apply in_or_app; auto).
  rewrite <- app_assoc. assert (Vt : Forall okc (t ++ more ls v)) by (apply Forall_app; split; [apply letters_okc; exact L|exact Vm]).
  assert (Fb : first (t ++ more ls v) <> 32 /\ first (t ++ more ls v) <> 9) by (destruct t; cbn [app first] in *; lia).
  rb.
  - rb; [apply runs_with_fuel; intros k Hk; apply runs_skip_blanks; [exact A|tauto|tauto|lia]|].
    rb; [apply runs_unget_hd; [lia|exact Vt]|]. eapply runs_strengthen with (d := 3%nat); [|lia]. apply runs_with_fuel. intros k Hk. apply runs_cpp_loop; auto. lia.
  - cbn [app]. rewrite <- utf8s_app. rewrite contains_bytes; [|discriminate|exact preserve_ascii|apply letters_coded; exact Lb].
    destruct (contains (zs "@preserve") (t ++ more_body ls)).
    + rb; [apply runs_new_node|]. apply runs_ret.
    + apply runs_ret.
Qed.

(** ** next_token *)
Lemma runs_slash_c lm st l v : Forall letter l -> ~ has (zs "*/") l -> Forall okc v ->
  runs st 2 (42 :: l ++ 42 :: 47 :: v) (dispatch lm 47) (if contains (zs "@preserve") l then Some (kept true st (utf8s (strip_leading l))) else None) 2 v.
Proof.
  intros L N V. unfold dispatch. repeat no. yes. rget. yes. eapply runs_strengthen; [apply runs_comment_c; assumption|cbn; lia].
Qed.

(** The loop of next_token, after a comment which is not kept. *)
Lemma loop_more lm : forall f s g, token_loop lm f s <> NoFuel -> (f <= g)%nat -> token_loop lm g s = token_loop lm f s.
Proof.
  induction f as [|f IH]; intros s g H L; [exfalso; apply H; reflexivity|]. destruct g as [|g]; [lia|]. cbn [token_loop] in *. unfold bind in *.
  destruct (mark_start s) as [u s1|e s1|s1|]; try reflexivity. destruct (getc s1) as [c s2|e s2|s2|]; try reflexivity.
  destruct (dispatch lm c s2) as [r s3|e s3|s3|]; try reflexivity. destruct r as [n|]; [reflexivity|]. apply IH; [exact H|lia].
Qed.
Lemma loop_fuel lm f g s : token_loop lm f s <> NoFuel -> token_loop lm g s <> NoFuel -> token_loop lm f s = token_loop lm g s.
Proof.
  intros H K. destruct (Nat.le_ge_cases f g); [symmetry|]; apply loop_more; assumption.
Qed.
Lemma holds_valid s v : holds s v -> valid false s.
Proof.
  intros (l & Hl & Hi & _ & Hu). split; [|split; [|discriminate]].
  - rewrite Hi. clear Hi. unfold utf8s. induction Hl as [|c l Hc _ IH]; [constructor|]. cbn [flat_map]. apply Forall_app. split; [|exact IH].
    apply Forall_forall. intros b Hb. unfold clean_char, scalar in Hc. unfold byte. destruct (Z.lt_ge_cases c 128).
    + rewrite utf8_ascii in Hb by lia. destruct Hb as [<-|[]]. lia.
    + apply utf8_bytes_high in Hb; lia.
  - exact Hu.
Qed.
Lemma next_token_not_nofuel lm s v : holds s v -> (dep s <= 3)%nat -> next_token lm s <> NoFuel.
Proof.
  intros H D E. pose proof (wp_next_token false lm (errs s) s (holds_valid s v H) D (le_n _)) as W. unfold wp in W. rewrite E in W. exact W.
Qed.
Lemma next_token_skips lm v d' v' :
  (forall st, runs st 2 (tl v) (dispatch lm (hd (-1) v)) None d' v') -> (d' <= 3)%nat ->
  forall s, holds s v -> (dep s <= 3)%nat ->
  exists s', next_token lm s = next_token lm s' /\ holds s' v' /\ (dep s' <= d')%nat /\ l_log s' = l_log s.
Proof.
  intros H Hd' s Hv Hd. pose proof (next_token_not_nofuel lm s v Hv Hd) as NF.
  set (s0 := mkLex (l_in s) (l_unget s) (l_pos s) (l_pos s) (l_log s)).
  assert (H0 : holds s0 v) by (destruct Hv as (l & P1 & P2 & P3 & P4); exists l; auto).
  destruct (runs_getc (l_pos s) 3 v s0 H0 Hd eq_refl) as (s1 & E1 & K1 & D1 & S1 & L1).
  destruct (H (l_pos s) s1 K1 D1 S1) as (s2 & E2 & K2 & D2 & S2 & L2).
  exists s2. split; [|split; [exact K2|split; [exact D2|rewrite L2, L1; reflexivity]]].
  pose proof (next_token_not_nofuel lm s2 v' K2 ltac:(lia)) as NF2. revert NF NF2. unfold next_token, with_fuel.
  set (g := fuel_of s2). clearbody g. unfold fuel_of.
  assert (Step : forall f, token_loop lm (S f) s = token_loop lm f s2).
  { intro f. cbn [token_loop]. unfold bind at 1. unfold mark_start. fold s0. unfold bind at 1. rewrite E1. unfold bind at 1. rewrite E2. reflexivity. }
  rewrite Step. intros NF NF2. apply loop_fuel; assumption.
Qed.

(** ** The texts of the files *)
Lemma normalize_app a b : first b <> 10 -> normalize (a ++ b) = normalize a ++ normalize b.
Proof.
  intro N. induction a as [|c a IH]; [reflexivity|]. cbn [app normalize]. destruct (c =? 13) eqn:E.
  - destruct a as [|d a].
    + cbn [app normalize]. destruct b as [|d b]; [reflexivity|]. cbn [first] in N. replace (d =? 10) with false by lia. reflexivity.
    + cbn [app] in *. destruct (d =? 10); [exact IH|]. cbn [app]. f_equal. exact IH.
  - destruct (c =? 12); cbn [app]; f_equal; exact IH.
Qed.
Lemma writable_letter c : writable c -> letter c.
Proof. unfold writable, letter, encodable. tauto. Qed.
Lemma writable_clean c : writable c -> clean_char c.
Proof. unfold writable, clean_char. tauto. Qed.
Lemma normalize_letters l : Forall writable l -> Forall letter (normalize l).
Proof.
  assert (K : letter 10) by (split; [apply encodable_ascii; lia|lia]).
  induction l as [|c l IH]; intro H; [constructor|]. inversion H as [|? ? Hc Hl]; subst. specialize (IH Hl). apply writable_letter in Hc. cbn [normalize].
  destruct (c =? 13).
  - destruct l as [|d l]; [constructor; auto|]. destruct (d =? 10); [assumption|constructor; auto].
  - destruct (c =? 12); constructor; auto.
Qed.
(** Line terminators aside, the same words are in a text and in its normal form. *)
Lemma starts_normal w : Forall (fun c => 31 < c) w -> forall t, starts_with w (normalize t) = starts_with w t.
Proof.
  induction 1 as [|x w Hx Hw IH]; intro t; [reflexivity|]. destruct t as [|c t]; [reflexivity|]. cbn [normalize starts_with].
  assert (C10 : forall r, starts_with (x :: w) (10 :: r) = false) by (intro; cbn [starts_with]; replace (x =? 10) with false by lia; reflexivity).
  destruct (Z.eqb_spec c 13) as [->|A].
  - replace (x =? 13) with false by lia. cbn [andb]. destruct t as [|d t]; [exact (C10 [])|]. destruct (Z.eqb_spec d 10) as [->|B]; [|exact (C10 _)].
    cbn [normalize]. change (10 =? 13) with false. change (10 =? 12) with false. cbv iota. exact (C10 _).
  - destruct (Z.eqb_spec c 12) as [->|B]; [replace (x =? 12) with false by lia; exact (C10 _)|]. cbn [starts_with]. rewrite IH. reflexivity.
Qed.
Lemma contains_normal w t : w <> [] -> Forall (fun c => 31 < c) w -> contains w (normalize t) = contains w t.
Proof.
  intros N W. assert (S13 : forall r c, c < 32 -> starts_with w (c :: r) = false).
  { intros r c L. destruct w as [|x w]; [congruence|]. apply Forall_inv in W. cbn [starts_with]. replace (x =? c) with false by lia. reflexivity. }
  induction t as [|c t IH]; [reflexivity|]. cbn [normalize contains]. destruct (Z.eqb_spec c 13) as [->|A].
  - rewrite (S13 t 13) by lia. cbn [orb]. destruct t as [|d t].
    + cbn [contains]. rewrite (S13 [] 10) by lia. reflexivity.
    + destruct (Z.eqb_spec d 10) as [->|B]; [exact IH|]. cbn [contains]. rewrite S13 by lia. exact IH.
  - destruct (Z.eqb_spec c 12) as [->|B].
    + cbn [contains]. rewrite !S13 by lia. exact IH.
    + cbn [contains]. rewrite IH. rewrite <- (starts_normal w W (c :: t)). cbn [normalize]. rewrite (proj2 (Z.eqb_neq c 13) A), (proj2 (Z.eqb_neq c 12) B). reflexivity.
Qed.
Lemma has_normal w t : w <> [] -> Forall (fun c => 31 < c) w -> has w (normalize t) <-> has w t.
Proof. intros. rewrite <- !contains_iff. now rewrite contains_normal. Qed.

(** The comment which is read. *)
Definition comment_token (c_style : bool) (t : list Z) (tok : node) : Prop :=
  n_type tok = COMMENT /\ n_int tok = (if c_style then 1 else 0) /\ n_str tok = utf8s t.
Lemma rtrim_trims t u : Forall letter t -> trims t u -> rtrim (utf8s (strip_leading t)) = utf8s u.
Proof.
  intros L (a & b & -> & A & B & N & F & K). rewrite strip_blank; [|exact A|right; destruct u; [congruence|exact F]].
  rewrite utf8s_app. rewrite (blank_bytes b B). apply rtrim_bytes; [exact N| |exact K|exact B].
  apply Forall_app in L. destruct L as (_ & L). apply Forall_app in L. apply letters_coded. tauto.
Qed.
(** A text with the mark has something between its white spaces. *)
Lemma trims_exists t : (exists c, In c t /\ ~ blank c) -> exists u, trims t u.
Proof.
  intros (c & Hc & B). destruct (strip_split t) as (a & E & A & T). set (t1 := strip_leading t) in *. clearbody t1.
  destruct (strip_split (rev t1)) as (b & E2 & A2 & T2). set (t2 := strip_leading (rev t1)) in *. clearbody t2.
  assert (E3 : t1 = rev t2 ++ rev b) by (rewrite <- rev_app_distr, <- E2; symmetry; apply rev_involutive).
  assert (Ht1 : t1 <> []).
  { intros ->. rewrite app_nil_r in E. subst t. rewrite Forall_forall in A. apply B, A, Hc. }
  assert (Ht2 : t2 <> []).
  { intros ->. cbn [rev app] in E3. subst t t1. apply B. apply in_app_or in Hc. destruct Hc as [Hc|Hc]; [rewrite Forall_forall in A; apply A, Hc|]. rewrite <- in_rev in Hc. rewrite Forall_forall in A2. apply A2, Hc. }
  exists (rev t2). exists a, (rev b). split; [rewrite E, E3; reflexivity|]. split; [exact A|]. split; [apply Forall_rev; exact A2|].
  destruct (exists_last Ht2) as (t3 & x & ->). destruct T2 as [T2|T2]; [destruct t3; discriminate|]. destruct T as [T|T]; [congruence|].
  rewrite rev_app_distr in *. cbn [rev app] in *. split; [discriminate|]. split; [subst t1; exact T|].
  destruct t3 as [|y t3]; cbn [app first rev] in *; [exact T2|]. change (x :: rev t3 ++ [y]) with ((x :: rev t3) ++ [y]). rewrite last_last. exact T2.
Qed.

Lemma above_preserve : Forall (fun c => 31 < c) (zs "@preserve").
Proof. repeat constructor; cbn; lia. Qed.
Lemma above_close : Forall (fun c => 31 < c) (zs "*/").
Proof. repeat constructor; cbn; lia. Qed.

Lemma c_comment_view body rest : Forall writable body -> Forall clean_char rest ->
  Forall clean_char (c_comment body ++ rest) /\ normalize (c_comment body ++ rest) = 47 :: 42 :: normalize body ++ 42 :: 47 :: normalize rest.
Proof.
  intros B R. unfold c_comment. change (zs "/*") with [47; 42]. change (zs "*/") with [42; 47]. split.
  - assert (clean_char 47 /\ clean_char 42) by (unfold clean_char, scalar; lia). apply Forall_app. split; [|exact R]. cbn [app]. do 2 (apply Forall_cons; [tauto|]). apply Forall_app. split; [revert B; apply Forall_impl; exact writable_clean|]. do 2 (apply Forall_cons; [tauto|]). constructor.
  - rewrite <- !app_assoc. change (normalize ([47; 42] ++ body ++ [42; 47] ++ rest)) with (47 :: 42 :: normalize (body ++ [42; 47] ++ rest)).
    rewrite normalize_app by (cbn; lia). reflexivity.
Qed.

(** ** The emitted comment *)
Lemma last_star_no x : ~ has (zs "*/") x -> ~ has (zs "*/") (x ++ [32]).
Proof.
  intros N (a & b & E). destruct (exists_last (l := zs "*/" ++ b)) as (q & y & Q); [discriminate|]. rewrite Q in E. rewrite app_assoc in E. apply app_inj_tail in E. destruct E as (-> & <-).
  destruct b as [|z b] using rev_ind; [change (zs "*/" ++ []) with ([42] ++ [47]) in Q; apply app_inj_tail in Q; destruct Q; discriminate|].
  clear IHb. rewrite app_assoc in Q. apply app_inj_tail in Q. destruct Q as (<- & _). apply N. exists a, b. reflexivity.
Qed.
Lemma space_no x : ~ has (zs "*/") x -> ~ has (zs "*/") (32 :: x).
Proof. intros N (a & b & E). destruct a as [|y a]; [discriminate|]. cbn [app] in E. apply cons_inj in E. destruct E as (_ & ->). apply N. exists a, b. reflexivity. Qed.
Lemma emitted_c x : ~ has (zs "*/") x -> one_comment (Assembler.comment_text false x).
Proof.
  intro N. exists (32 :: x ++ [32]). split; [|apply (last_star_no (32 :: x)), space_no, N]. unfold Assembler.comment_text.
  change (zs "/* ") with [47; 42; 32]. change (zs " */") with ([32] ++ [42; 47]). change (zs "/*") with [47; 42]. change (zs "*/") with [42; 47]. cbn [app]. rewrite <- !app_assoc. reflexivity.
Qed.
Lemma has_bytes w u : w <> [] -> Forall ascii w -> Forall coded u -> has w (utf8s u) <-> has w u.
Proof. intros. rewrite <- !contains_iff. now rewrite contains_bytes. Qed.

(** ** Theorems *)

(** A comment [/* ... */] which has the mark [@preserve] is one token, without any message; its text is that of
    the file, without the white space at both ends, and what is output for this token is a
    single comment. *)
Theorem c52_kept lm body rest p : Forall writable body -> ~ has (zs "*/") body -> has (zs "@preserve") body -> Forall clean_char rest ->
  exists tok t, reads_token lm (utf8s (c_comment body ++ rest)) p tok rest
    /\ trims (normalize body) t /\ comment_token true t tok
    /\ one_comment (Assembler.comment_text (n_int tok =? 0) (n_str tok)).
Proof.
  intros W N P R. pose proof (normalize_letters body W) as L. destruct (c_comment_view body rest W R) as (Cl & V).
  assert (N' : ~ has (zs "*/") (normalize body)) by (rewrite has_normal; [exact N|discriminate|exact above_close]).
  assert (P' : has (zs "@preserve") (normalize body)) by (rewrite has_normal; [exact P|discriminate|exact above_preserve]).
  destruct (trims_exists (normalize body)) as (t & T).
  { destruct P' as (a & b & E). exists 64. rewrite E. split; [apply in_or_app; right; left; reflexivity|unfold blank; lia]. }
  destruct (next_token_runs lm (normalize (c_comment body ++ rest)) (fun st => kept true st (utf8s (strip_leading (normalize body)))) 2 (normalize rest)) with (s := new_lexer (utf8s (c_comment body ++ rest)) p) as (s' & E & K & D & Lg).
  - intro st. rewrite V. cbn [hd tl]. pose proof (runs_slash_c lm st (normalize body) (normalize rest) L N' (normalize_ok rest R)) as X. apply contains_iff in P'. rewrite P' in X. exact X.
  - apply holds_new. exact Cl.
  - cbn. lia.
  - exists (kept true p (utf8s (strip_leading (normalize body)))), t. split; [exists s'; split; [exact E|]; split; [exact Lg|apply Props_Round.holds_will_read; exact K]|]. split; [exact T|].
    assert (Q : comment_token true t (kept true p (utf8s (strip_leading (normalize body))))).
    { split; [reflexivity|]. split; [reflexivity|]. unfold kept. cbn [set_int set_str n_str mk]. apply rtrim_trims; assumption. }
    split; [exact Q|]. destruct Q as (_ & -> & ->). change (1 =? 0) with false. apply emitted_c.
    destruct T as (a & b & Et & _). rewrite Et in *. apply Forall_app in L. destruct L as (_ & L). apply Forall_app in L.
    rewrite has_bytes; [|discriminate|exact close_ascii|apply letters_coded; tauto].
    intros (x & y & ->). apply N'. exists (a ++ x), (y ++ b). rewrite <- !app_assoc. reflexivity.
Qed.

(** Without the mark the comment is not there: the next token is the one which is read after the
    comment. *)
Theorem c52_dropped lm body rest p : Forall writable body -> ~ has (zs "*/") body -> ~ has (zs "@preserve") body -> Forall clean_char rest ->
  exists s, next_token lm (new_lexer (utf8s (c_comment body ++ rest)) p) = next_token lm s /\ will_read s (normalize rest) /\ l_log s = [].
Proof.
  intros W N P R. pose proof (normalize_letters body W) as L. destruct (c_comment_view body rest W R) as (Cl & V).
  assert (N' : ~ has (zs "*/") (normalize body)) by (rewrite has_normal; [exact N|discriminate|exact above_close]).
  assert (P' : ~ has (zs "@preserve") (normalize body)) by (rewrite has_normal; [exact P|discriminate|exact above_preserve]).
  destruct (next_token_skips lm (normalize (c_comment body ++ rest)) 2 (normalize rest)) with (s := new_lexer (utf8s (c_comment body ++ rest)) p) as (s' & E & K & D & Lg).
  - intro st. rewrite V. cbn [hd tl]. pose proof (runs_slash_c lm st (normalize body) (normalize rest) L N' (normalize_ok rest R)) as X. apply contains_not in P'. rewrite P' in X. exact X.
  - lia.
  - apply holds_new. exact Cl.
  - cbn. lia.
  - exists s'. split; [exact E|]. split; [apply Props_Round.holds_will_read; exact K|exact Lg].
Qed.

(** ** Comments [// ...] *)
Definition closed_free (t : list Z) : Prop := contains (zs "*/") t = false.
Lemma free_app : forall a b, closed_free a -> closed_free b -> (last a 0 <> 42 \/ first b <> 47) -> closed_free (a ++ b).
Proof.
  unfold closed_free. change (zs "*/") with [42; 47]. induction a as [|c a IH]; intros b A B J; [exact B|]. cbn [app contains] in *. apply orb_false_elim in A. destruct A as (A1 & A2).
  apply orb_false_intro.
  - cbn [starts_with] in *. destruct (Z.eqb_spec 42 c) as [<-|]; [|reflexivity]. cbn [andb] in *. destruct a as [|d a]; cbn [app last] in *; [|exact A1].
    destruct J as [J|J]; [lia|]. destruct b as [|d b]; [reflexivity|]. cbn [first] in J. replace (47 =? d) with false by lia. reflexivity.
  - apply IH; [exact A2|exact B|]. destruct a as [|d a]; [cbn [last]; left; lia|exact J].
Qed.
Lemma free_left a b : closed_free (a ++ b) -> closed_free a.
Proof. unfold closed_free. rewrite !contains_not. intros N (x & y & ->). apply N. exists x, (y ++ b). rewrite <- !app_assoc. reflexivity. Qed.
Lemma free_right a b : closed_free (a ++ b) -> closed_free b.
Proof. unfold closed_free. rewrite !contains_not. intros N (x & y & ->). apply N. exists (a ++ x), y. rewrite <- !app_assoc. reflexivity. Qed.

Lemma lines_text : forall t ls e, Assembler.lines t = (ls, e) -> t = concat (map (fun x => x ++ [10]) ls) ++ e.
Proof.
  induction t as [|c t IH]; intros ls e H; cbn [Assembler.lines] in H.
  - injection H as <- <-. reflexivity.
  - destruct (Assembler.lines t) as [l e0] eqn:E. specialize (IH l e0 eq_refl). destruct (Z.eqb_spec c 10) as [->|N].
    + injection H as <- <-. cbn [map concat app]. now rewrite IH.
    + destruct l as [|x l].
      * injection H as <- <-. cbn [map concat app] in *. now rewrite IH.
      * injection H as <- <-. cbn [map concat app] in *. now rewrite IH.
Qed.
Lemma emitted_cpp t : closed_free t -> t <> [] -> last t 0 <> 10 -> one_comment (Assembler.comment_text true t).
Proof.
  intros F N L. unfold Assembler.comment_text. destruct (Assembler.lines t) as [ls e] eqn:E. pose proof (lines_text t ls e E) as T.
  assert (Ne : e <> []).
  { intros ->. rewrite app_nil_r in T. destruct ls as [|x ls] using rev_ind; [subst t; apply N; reflexivity|]. clear IHls. rewrite map_app, concat_app in T. cbn [map concat] in T. rewrite app_nil_r in T. rewrite app_assoc in T. rewrite T, last_last in L. congruence. }
  assert (Fe : closed_free e) by (rewrite T in F; apply free_right in F; exact F).
  assert (Fx : Forall closed_free ls).
  { rewrite T in F. clear - F. apply free_left in F. induction ls as [|x ls IH]; [constructor|]. cbn [map concat] in F. pose proof (free_left _ _ F) as F1. apply free_left in F1. apply free_right in F. constructor; auto. }
  destruct ls as [|x ls].
  - destruct e as [|c e]; [congruence|]. apply (emitted_c (c :: e)). apply contains_not. exact Fe.
  - inversion Fx as [|? ? F1 F2]; subst. destruct e as [|c e]; [congruence|]. set (e' := c :: e) in *.
    assert (St : forall q, closed_free q -> first q = 32 -> closed_free (Assembler.star_lines ls ++ q) /\ first (Assembler.star_lines ls ++ q) = 32).
    { clear - F2. induction F2 as [|y ls Fy Fs IH]; intros q Fq Hq; [split; assumption|]. destruct (IH q Fq Hq) as (I1 & I2). cbn [Assembler.star_lines]. rewrite <- !app_assoc. split; [|reflexivity].
      apply free_app; [reflexivity| |left; cbn; lia]. apply free_app; [exact Fy| |right; cbn; lia]. apply free_app; [reflexivity|exact I1|left; cbn; lia]. }
    exists (zs " " ++ x ++ [10] ++ Assembler.star_lines ls ++ zs " * " ++ e' ++ [10] ++ zs " "). split.
    + change (zs "/* ") with (zs "/*" ++ zs " "). change (zs " */") with (zs " " ++ zs "*/"). unfold Assembler.nl. rewrite <- !app_assoc. reflexivity.
    + apply contains_not. change (closed_free (zs " " ++ x ++ [10] ++ Assembler.star_lines ls ++ zs " * " ++ e' ++ [10] ++ zs " ")).
      apply free_app; [reflexivity| |left; cbn; lia]. apply free_app; [exact F1| |right; cbn; lia]. apply free_app; [reflexivity| |left; cbn; lia].
      apply St; [|reflexivity]. apply free_app; [reflexivity| |left; cbn; lia]. apply free_app; [exact Fe|reflexivity|right; cbn; lia].
Qed.
Lemma runs_slash_cpp lm st l ls v : Forall letter l -> ~ In 10 l -> Forall (Forall letter) ls -> Forall (fun m => ~ In 10 m) ls ->
  Forall okc v -> no_more_lines v -> contains (zs "@preserve") (cpp_body l ls) = false ->
  runs st 2 (47 :: l ++ more ls v) (dispatch lm 47) None 3 v.
Proof.
  intros L N Ls Ns V NV P. unfold dispatch. repeat no. yes. rget. no. yes. rb; [eapply runs_strengthen; [apply runs_comment_cpp; eassumption|cbn; lia]|]. rewrite P. apply runs_ret.
Qed.
Lemma inline_plain l : Forall inline l -> Forall letter l /\ ~ In 10 l /\ Forall (fun c => c <> 12 /\ c <> 13) l /\ Forall clean_char l.
Proof.
  intro H. split; [revert H; apply Forall_impl; intros c (W & _); apply writable_letter; exact W|]. split; [|split].
  - intro I. rewrite Forall_forall in H. destruct (H 10 I) as (_ & X & _). congruence.
  - revert H. apply Forall_impl. intros c (_ & _ & A & B). auto.
  - revert H. apply Forall_impl. intros c (W & _). apply writable_clean. exact W.
Qed.
Lemma more_view ls rest : Forall (Forall inline) ls -> Forall clean_char rest -> Forall clean_char (more ls rest) /\ normalize (more ls rest) = more ls (normalize rest).
Proof.
  intros H R. induction H as [|m ls Hm Hs (IH1 & IH2)]; [split; [exact R|reflexivity]|]. destruct (inline_plain m Hm) as (_ & _ & A & B). rewrite !more_cons. split.
  - do 3 (apply Forall_cons; [unfold clean_char, scalar; lia|]). apply Forall_app. split; assumption.
  - change (10 :: 47 :: 47 :: m ++ more ls rest) with (([10; 47; 47] ++ m) ++ more ls rest) at 1. rewrite normalize_plain; [|apply Forall_app; split; [repeat constructor; lia|exact A]]. rewrite IH2. reflexivity.
Qed.
Lemma cpp_view l ls rest : Forall inline l -> Forall (Forall inline) ls -> Forall clean_char rest ->
  Forall clean_char (cpp_comment l ls ++ rest) /\ normalize (cpp_comment l ls ++ rest) = 47 :: 47 :: l ++ more ls (normalize rest).
Proof.
  intros H Hs R. destruct (inline_plain l H) as (_ & _ & A & B). destruct (more_view ls rest Hs R) as (M1 & M2).
  assert (E : cpp_comment l ls ++ rest = ([47; 47] ++ l) ++ more ls rest) by (unfold cpp_comment, more; change (zs "//") with [47; 47]; rewrite <- !app_assoc; reflexivity). rewrite E. split.
  - apply Forall_app. split; [|exact M1]. apply Forall_app. split; [repeat constructor; unfold clean_char, scalar; lia|exact B].
  - rewrite normalize_plain; [rewrite M2; reflexivity|]. apply Forall_app. split; [repeat constructor; lia|exact A].
Qed.
Lemma lines_plain ls : Forall (Forall inline) ls -> Forall (Forall letter) ls /\ Forall (fun m => ~ In 10 m) ls.
Proof. induction 1 as [|m ls Hm Hs (A & B)]; [split; constructor|]. destruct (inline_plain m Hm) as (? & ? & _). split; constructor; auto. Qed.

(** A comment [// ...]: the lines which follow and also are comments are part of it, and the end of the
    last line is still to be read. The comment is kept, with a warning, when it has the mark; it is then output as a
    single comment if it does not have the closing mark of the other comments. *)
Theorem c52_cpp_kept lm l ls rest p : Forall inline l -> Forall (Forall inline) ls -> Forall clean_char rest -> no_more_lines (normalize rest) ->
  has (zs "@preserve") (cpp_body l ls) ->
  exists tok s t b, next_token lm (new_lexer (utf8s (cpp_comment l ls ++ rest)) p) = Ret tok s
    /\ will_read s (normalize rest) /\ map m_level (l_log s) = [LWarning]
    /\ comment_token false t tok /\ cpp_body l ls = t ++ b /\ Forall blank b /\ t <> [] /\ ~ blank (last t 0)
    /\ (~ has (zs "*/") t -> one_comment (Assembler.comment_text (n_int tok =? 0) (n_str tok))).
Proof.
  intros H Hs R NV P. destruct (inline_plain l H) as (L & N & _). destruct (lines_plain ls Hs) as (Ls & Ns). destruct (cpp_view l ls rest H Hs R) as (Cl & V).
  pose proof (cpp_body_letters l ls L Ls) as Lb. apply contains_iff in P.
  set (s0 := mkLex (utf8s (cpp_comment l ls ++ rest)) [] p p []).
  assert (H0 : holds s0 (normalize (cpp_comment l ls ++ rest))) by (exists (cpp_comment l ls ++ rest); cbn; auto).
  destruct (runs_getc p 3 _ s0 H0 ltac:(cbn; lia) eq_refl) as (s1 & E1 & K1 & D1 & S1 & L1). rewrite V in *. cbn [hd tl] in *.
  destruct (runs_getc p 2 _ s1 K1 D1 S1) as (s2 & E2 & K2 & D2 & S2 & L2). cbn [hd tl] in *.
  destruct (runs_comment_cpp p l ls (normalize rest) L N Ls Ns (normalize_ok rest R) NV s2 K2 ltac:(cbn in D2; lia) S2) as (s3 & E3 & K3 & D3 & S3 & L3). rewrite P in E3.
  set (tok := kept false p (utf8s (cpp_body l ls))) in *.
  set (s4 := mkLex (l_in s3) (l_unget s3) (l_pos s3) (l_start s3) (mkMsg LWarning p "C++ comments should not be preserved as they are not supported by most CSS parsers." :: l_log s3)).
  assert (K4 : holds s4 (normalize rest)) by (destruct K3 as (q & Q1 & Q2 & Q3 & Q4); exists q; auto).
  destruct (trims_exists (cpp_body l ls)) as (u & a & b & Eb & A & B & Nu & Fu & Lu).
  { apply contains_iff in P. destruct P as (a & b & ->). exists 64. split; [apply in_or_app; right; left; reflexivity|unfold blank; lia]. }
  assert (La : last (a ++ u) 0 = last u 0) by (apply last_app2; exact Nu).
  assert (Ct : Forall coded (a ++ u)) by (rewrite Eb in Lb; rewrite app_assoc in Lb; apply Forall_app in Lb; apply letters_coded; tauto).
  assert (Na : a ++ u <> []) by (intro X; apply app_eq_nil in X; tauto).
  assert (Et : n_str tok = utf8s (a ++ u)).
  { subst tok. unfold kept. cbn [set_int set_str n_str mk]. rewrite Eb, app_assoc, utf8s_app, (blank_bytes b B). apply rtrim_bytes; [exact Na|exact Ct|rewrite La; exact Lu|exact B]. }
  exists tok, s4, (a ++ u), b. split; [|split; [apply Props_Round.holds_will_read; exact K4|split; [cbn; rewrite L3, L2, L1; reflexivity|split; [split; [reflexivity|split; [reflexivity|exact Et]]|]]]].
  - unfold next_token, with_fuel, fuel_of. cbn [token_loop]. unfold bind at 1. unfold mark_start. fold s0. cbn [new_lexer l_in l_unget l_pos l_log]. fold s0.
    unfold bind at 1. rewrite E1.
    assert (Dsp : dispatch lm 47 s1 = Ret (Some tok) s4).
    { unfold dispatch. repeat match goal with |- (if ?b then _ else _) _ = _ => let q := eval vm_compute in b in change b with q; cbv iota end.
      unfold bind at 1. rewrite E2. change (47 =? 42) with false. change (47 =? 47) with true. cbv iota. unfold bind at 1. rewrite E3. unfold bind, emit, ret, s4. rewrite S3. reflexivity. }
    unfold bind at 1. rewrite Dsp. reflexivity.
  - split; [rewrite Eb; apply app_assoc|]. split; [exact B|]. split; [exact Na|]. split; [rewrite La; exact Lu|]. intro C. rewrite Et. change (n_int tok =? 0) with true. apply emitted_cpp.
    + apply contains_not. rewrite has_bytes; [exact C|discriminate|exact close_ascii|exact Ct].
    + intro X. destruct (a ++ u) as [|x q]; [congruence|]. rewrite utf8s_cons in X. destruct (utf8_nonempty x) as (? & ? & Y). rewrite Y in X. discriminate.
    + assert (X : ~ blank (last (utf8s (a ++ u)) 0)); [|unfold blank in X; lia]. rewrite <- La in Lu. destruct (exists_last Na) as (u' & x & Q). rewrite Q in *. rewrite last_last in Lu.
      rewrite utf8s_app. apply Forall_app in Ct. destruct Ct as (_ & C'). apply Forall_inv in C'. unfold coded in C'. unfold utf8s at 2. cbn [flat_map]. rewrite app_nil_r.
      destruct (utf8_nonempty x) as (y & r & Y). rewrite last_app2 by (rewrite Y; discriminate). destruct (Z.lt_ge_cases x 128); [rewrite utf8_ascii by lia; exact Lu|].
      assert (I : In (last (utf8 x) 0) (utf8 x)). { destruct (exists_last (l := utf8 x)) as (q & z & Z); [rewrite Y; discriminate|]. rewrite Z, last_last. apply in_or_app. right. left. reflexivity. }
      apply utf8_bytes_high in I; [|lia]. unfold blank. lia.
Qed.
Theorem c52_cpp_dropped lm l ls rest p : Forall inline l -> Forall (Forall inline) ls -> Forall clean_char rest -> no_more_lines (normalize rest) ->
  ~ has (zs "@preserve") (cpp_body l ls) ->
  exists s, next_token lm (new_lexer (utf8s (cpp_comment l ls ++ rest)) p) = next_token lm s /\ will_read s (normalize rest) /\ l_log s = [].
Proof.
  intros H Hs R NV P. destruct (inline_plain l H) as (L & N & _). destruct (lines_plain ls Hs) as (Ls & Ns). destruct (cpp_view l ls rest H Hs R) as (Cl & V). apply contains_not in P.
  destruct (next_token_skips lm (normalize (cpp_comment l ls ++ rest)) 3 (normalize rest)) with (s := new_lexer (utf8s (cpp_comment l ls ++ rest)) p) as (s' & E & K & D & Lg).
  - intro st. rewrite V. cbn [hd tl]. apply runs_slash_cpp; auto. apply normalize_ok. exact R.
  - lia.
  - apply holds_new. exact Cl.
  - cbn. lia.
  - exists s'. split; [exact E|]. split; [apply Props_Round.holds_will_read; exact K|exact Lg].
Qed.

(** The closing mark in a comment [// ...] ends the comment which is output. *)
Definition quiet_libm : libm := Base.mkLibm (fun x _ => x).
Theorem c52_cpp_close_refuted : exists tok s,
  next_token quiet_libm (new_lexer (zs "// @preserve a */ b{} /* c") (new_position 1 1)) = Ret tok s
  /\ n_type tok = COMMENT /\ Assembler.comment_text (n_int tok =? 0) (n_str tok) = zs "/* @preserve a */ b{} /* c */" ++ [10]
  /\ ~ one_comment (Assembler.comment_text (n_int tok =? 0) (n_str tok)).
Proof.
  eexists _, _. split; [vm_compute; reflexivity|]. split; [reflexivity|]. split; [reflexivity|].
  intros (body & E & N). apply N. exists (zs " @preserve a "), (zs " b{} /* c "). change (zs "/* @preserve a */ b{} /* c */" ++ [10] = zs "/*" ++ body ++ zs "*/" ++ [10]) in E.
  change (zs "/* @preserve a */ b{} /* c */" ++ [10]) with (zs "/*" ++ (zs " @preserve a " ++ zs "*/" ++ zs " b{} /* c ") ++ zs "*/" ++ [10]) in E. apply app_inv_head in E. apply app_inv_tail in E. symmetry. exact E.
Qed.
(** U+FFFD (and the byte 0) after a '*' is lost, without any message, and the characters '*' and '/' are then side by side. *)
Theorem c52_lost_character_refuted : exists tok s,
  next_token quiet_libm (new_lexer (utf8s (zs "/* @preserve *" ++ [65533] ++ zs "/ b{} /* c */")) (new_position 1 1)) = Ret tok s
  /\ l_log s = [] /\ will_read s []
  /\ n_type tok = COMMENT /\ Assembler.comment_text (n_int tok =? 0) (n_str tok) = zs "/* @preserve */ b{} /* c */" ++ [10].
Proof.
  eexists _, _. split; [vm_compute; reflexivity|]. split; [reflexivity|]. split; [eexists; split; reflexivity|]. split; reflexivity.
Qed.
(** A comment without an end is an error, and it is kept if it has the mark. *)
Example c52_unclosed : exists tok s,
  next_token quiet_libm (new_lexer (zs "/* @preserve a") (new_position 1 1)) = Ret tok s /\ n_str tok = zs "@preserve a" /\ map m_level (l_log s) = [LError].
Proof. eexists _, _. split; [vm_compute; reflexivity|]. split; reflexivity. Qed.

Example c52_example :
  (let body := zs "/ ** a @preserve 2 " ++ [233; 13; 10; 32] ++ zs "*" in
      ~ has (zs "*/") body /\ has (zs "@preserve") body)
  /\ no_more_lines (normalize ([13; 10] ++ zs "/ /")) /\ cpp_body (zs "  a") [zs "  b"; zs "@preserve"; []] = zs "a" ++ [10] ++ zs " b" ++ [10] ++ zs "@preserve" ++ [10]
  /\ (exists tok s, next_token quiet_libm (new_lexer (utf8s (cpp_comment (zs "  a") [zs "  b"; zs "@preserve"] ++ [10] ++ zs "/ /")) (new_position 1 1)) = Ret tok s
       /\ Assembler.comment_text (n_int tok =? 0) (n_str tok) = zs "/* a" ++ [10] ++ zs " *  b" ++ [10] ++ zs " * @preserve" ++ [10] ++ zs " */" ++ [10]).
Proof.
  split; [split; [apply contains_not; vm_compute; reflexivity|apply contains_iff; vm_compute; reflexivity]|].
  split; [right; exists (zs "/ /"); split; [reflexivity|]; intros (q & Q); discriminate|]. split; [reflexivity|].
  eexists _, _. split; [vm_compute; reflexivity|]. reflexivity.
Qed.
