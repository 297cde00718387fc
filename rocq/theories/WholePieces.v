(** * The lexer on a style sheet, whatever its layout *)

From Coq Require Import String ZArith List Bool Lia Arith ZifyBool.
From Verif Require Import Base Utf8 Utf8Spec UnicodeRange Lexer LexSpec Utf8Proofs LexerWp Utf8Stream View OutText RoundString RoundUrl RoundIdent RoundInt RoundHash TextSpec Ops DecText.
From Verif Require Import WholeSpec LaySpec VarSpec WholeShape WholeLex.
Import ListNotations.
Open Scope string_scope. Open Scope list_scope. Open Scope Z_scope.
Ltac Zify.zify_post_hook ::= idtac.

(** ** The pieces of a style sheet *)
Definition p_space : lang piece := fun l => exists s, space s /\ l = [PG s].
Definition p_gap : lang piece := either (this []) p_space.
Definition p_around (c : Z) (t : ntype) : lang piece := p_gap # this [PO c t] # p_gap.
Definition value_piece (v : value) : piece := match v with Word w => PW w | Size n u => PN n u | Var w => PV w end.
Definition group_pieces (g : list value) : lang piece := between p_space (map (fun v => this [value_piece v]) g).
Definition decl_pieces (d : decl) : lang piece :=
  this [PW (d_name d)] # p_around 58 COLON # between (p_around 44 COMMA) (map group_pieces (d_groups d))
  # (if d_important d then p_around 33 EXCLAMATION # this [PW (zs "important")] else this []).
Definition mark_pieces (m : mark) : list piece := match m with Class w => [PO 46 PERIOD; PW w] | Id w => [PH w] end.
Definition compound_pieces (k : compound) : list piece :=
  match k_name k with Some w => [PW w] | None => [] end ++ flat_map mark_pieces (k_marks k).
Definition link_pieces (l : link) : lang piece :=
  match l with Inside => p_space | Child => p_around 62 GREATER_THAN | Sibling => p_around 126 PRECEDED end.
Definition complex_pieces (s : complex) : lang piece :=
  this (compound_pieces (s_first s)) # each (map (fun x => link_pieces (fst x) # this (compound_pieces (snd x))) (s_more s)).
Definition rule_pieces (r : rule) : lang piece :=
  between (p_around 44 COMMA) (map complex_pieces (r_selectors r)) # p_around 123 OPEN_CURLYBRACKET
  # between (p_around 59 SEMICOLON) (map decl_pieces (r_decls r))
  # either (this []) (p_gap # this [PO 59 SEMICOLON]) # p_gap # this [PO 125 CLOSE_CURLYBRACKET].
Definition sheet_pieces (l : list rule) : lang piece := p_gap # each (map (fun r => rule_pieces r # p_gap) l).
Definition statement_pieces (s : statement) : lang piece :=
  match s with
  | Set_to w g => this [PV w] # p_around 58 COLON # group_pieces g # p_gap # this [PO 59 SEMICOLON]
  | Style r => rule_pieces r
  end.
Definition script_pieces (l : list statement) : lang piece := p_gap # each (map (fun s => statement_pieces s # p_gap) l).

(** ** From the text to the pieces *)
Definition covers (T : lang Z) (P : lang piece) : Prop := forall t, T t -> exists ps, P ps /\ texts ps = t.
Lemma covers_this t ps : texts ps = t -> covers (this t) (this ps).
Proof. intros E x ->. exists ps. split; [reflexivity|exact E]. Qed.
Lemma covers_then T P T' P' : covers T P -> covers T' P' -> covers (T # T') (P # P').
Proof. intros A B t (a & b & -> & Ha & Hb). destruct (A a Ha) as (p & Pp & <-). destruct (B b Hb) as (q & Pq & <-). exists (p ++ q). split; [exists p, q; auto|apply texts_app]. Qed.
Lemma covers_either T P T' P' : covers T P -> covers T' P' -> covers (either T T') (either P P').
Proof. intros A B t [H|H]; [destruct (A t H) as (p & Pp & E)|destruct (B t H) as (p & Pp & E)]; exists p; (split; [|exact E]); [now left|now right]. Qed.
Lemma covers_space : covers space p_space.
Proof. intros t H. exists [PG t]. split; [exists t; auto|]. cbn. apply app_nil_r. Qed.
Lemma covers_gap : covers gap p_gap.
Proof. intros t H. destruct t as [|c t]; [exists []; split; [now left|reflexivity]|]. destruct (covers_space (c :: t)) as (p & Pp & E); [split; [exact H|discriminate]|]. exists p. split; [now right|exact E]. Qed.
Lemma covers_around s c t : zs s = [c] -> covers (around s) (p_around c t).
Proof. intro E. unfold around, p_around. apply covers_then; [apply covers_gap|]. apply covers_then; [apply covers_this; now rewrite E|apply covers_gap]. Qed.
Lemma covers_between T P : covers T P -> forall l k, Forall2 covers l k -> covers (between T l) (between P k).
Proof.
  intros S0 l k F. induction F as [|x y l k H F IH]; [now apply covers_this|]. destruct F as [|x2 y2 l k H2 F]; [exact H|].
  change (covers (x # T # between T (x2 :: l)) (y # P # between P (y2 :: k))). apply covers_then; [exact H|]. apply covers_then; [exact S0|exact IH].
Qed.
Lemma covers_each l k : Forall2 covers l k -> covers (each l) (each k).
Proof. intro F. induction F as [|x y l k H F IH]; [now apply covers_this|]. cbn [each]. now apply covers_then. Qed.
Lemma forall2_same {A B C} (P : B -> C -> Prop) (f : A -> B) (g : A -> C) l : (forall x, P (f x) (g x)) -> Forall2 P (map f l) (map g l).
Proof. intro H. induction l; constructor; auto. Qed.

Lemma texts_flat_map {A} (g : A -> list piece) l : texts (flat_map g l) = flat_map (fun x => texts (g x)) l.
Proof. induction l as [|x l IH]; [reflexivity|]. cbn [flat_map]. now rewrite texts_app, IH. Qed.
Lemma value_texts v : texts [value_piece v] = value_text v. Proof. destruct v; cbn; now rewrite ?app_nil_r. Qed.
Lemma mark_texts m : texts (mark_pieces m) = mark_text m. Proof. destruct m; cbn; now rewrite ?app_nil_r. Qed.
Lemma compound_texts k : texts (compound_pieces k) = compound_text k.
Proof.
  unfold compound_pieces, compound_text. rewrite texts_app, texts_flat_map. f_equal; [destruct (k_name k); cbn; now rewrite ?app_nil_r|].
  apply flat_map_ext. apply mark_texts.
Qed.
Lemma covers_group g : covers (group_laid g) (group_pieces g).
Proof. apply covers_between; [apply covers_space|]. apply forall2_same. intro v. apply covers_this, value_texts. Qed.
Lemma covers_decl d : covers (decl_laid d) (decl_pieces d).
Proof.
  apply covers_then; [apply covers_this; cbn; apply app_nil_r|]. apply covers_then; [now apply covers_around|]. apply covers_then.
  - apply covers_between; [now apply covers_around|]. apply forall2_same. apply covers_group.
  - destruct (d_important d); [apply covers_then; [now apply covers_around|now apply covers_this]|now apply covers_this].
Qed.
Lemma covers_complex s : covers (complex_laid s) (complex_pieces s).
Proof.
  apply covers_then; [apply covers_this, compound_texts|]. apply covers_each, forall2_same. intros (l & k). cbn [fst snd]. apply covers_then; [|apply covers_this, compound_texts].
  destruct l; [apply covers_space|now apply covers_around|now apply covers_around].
Qed.
Lemma covers_rule r : covers (rule_laid r) (rule_pieces r).
Proof.
  apply covers_then; [apply covers_between; [now apply covers_around|apply forall2_same, covers_complex]|].
  apply covers_then; [now apply covers_around|]. apply covers_then; [apply covers_between; [now apply covers_around|apply forall2_same, covers_decl]|].
  apply covers_then; [apply covers_either; [now apply covers_this|]; apply covers_then; [apply covers_gap|now apply covers_this]|]. apply covers_then; [apply covers_gap|now apply covers_this].
Qed.
Lemma covers_statement x : covers (statement_laid x) (statement_pieces x).
Proof.
  destruct x as [w g|r]; [|apply covers_rule]. apply covers_then; [apply covers_this; cbn; now rewrite app_nil_r|]. apply covers_then; [now apply covers_around|].
  apply covers_then; [apply covers_group|]. apply covers_then; [apply covers_gap|now apply covers_this].
Qed.
Lemma covers_script l : covers (script_laid l) (script_pieces l).
Proof. apply covers_then; [apply covers_gap|]. apply covers_each, forall2_same. intro r. apply covers_then; [apply covers_statement|apply covers_gap]. Qed.

(** ** From the pieces to the tokens *)
Definition gives (P : lang piece) (S0 : lang shape) : Prop := forall ps, P ps -> S0 (map piece_shape ps).
Lemma gives_this ps l : map piece_shape ps = l -> gives (this ps) (this l). Proof. intros E x ->. exact E. Qed.
Lemma gives_then P S0 P' S' : gives P S0 -> gives P' S' -> gives (P # P') (S0 # S').
Proof. intros A B t (a & b & -> & Ha & Hb). rewrite map_app. exists (map piece_shape a), (map piece_shape b). auto. Qed.
Lemma gives_either P S0 P' S' : gives P S0 -> gives P' S' -> gives (either P P') (either S0 S').
Proof. intros A B t [H|H]; [left|right]; auto. Qed.
Lemma gives_space : gives p_space (this [sign WHITESPACE]). Proof. intros t (s & _ & ->). reflexivity. Qed.
Lemma gives_gap : gives p_gap blanks. Proof. apply gives_either; [now apply gives_this|exact gives_space]. Qed.
Lemma gives_around c t : gives (p_around c t) (spaced t).
Proof. apply gives_then; [exact gives_gap|]. apply gives_then; [now apply gives_this|exact gives_gap]. Qed.
Lemma gives_between P S0 : gives P S0 -> forall l k, Forall2 gives l k -> gives (between P l) (between S0 k).
Proof.
  intros G l k F. induction F as [|x y l k H F IH]; [now apply gives_this|]. destruct F as [|x2 y2 l k H2 F]; [exact H|].
  change (gives (x # P # between P (x2 :: l)) (y # S0 # between S0 (y2 :: k))). apply gives_then; [exact H|]. apply gives_then; [exact G|exact IH].
Qed.
Lemma gives_each l k : Forall2 gives l k -> gives (each l) (each k).
Proof. intro F. induction F as [|x y l k H F IH]; [now apply gives_this|]. cbn [each]. now apply gives_then. Qed.
Lemma map_flat_map {A B C} (f : B -> C) (g : A -> list B) l : map f (flat_map g l) = flat_map (fun x => map f (g x)) l.
Proof. induction l as [|x l IH]; [reflexivity|]. cbn [flat_map]. now rewrite map_app, IH. Qed.
Lemma gives_group g : gives (group_pieces g) (this (group_leaves g)).
Proof.
  assert (E : forall l, gives (between p_space (map (fun v => this [value_piece v]) l)) (this (group_leaves l))); [|apply E].
  induction l as [|v [|w l] IH]; [now apply gives_this|intros x ->; destruct v; reflexivity|].
  cbn [map between] in *. intros ps (a & b & -> & -> & c & d & -> & Hc & Hd). rewrite !map_app. apply IH in Hd. apply gives_space in Hc. unfold this in *. rewrite Hc, Hd. destruct v; reflexivity.
Qed.
Lemma compound_shapes k : map piece_shape (compound_pieces k) = compound_leaves k.
Proof.
  unfold compound_pieces, compound_leaves. rewrite map_app, map_flat_map. f_equal; [destruct (k_name k); reflexivity|].
  apply flat_map_ext. intros []; reflexivity.
Qed.
Lemma gives_decl d : gives (decl_pieces d) (decl_tokens d).
Proof.
  intros ps (a & b & -> & -> & c & e & -> & Hc & g & f & -> & Hg & Hf). rewrite !map_app, !app_assoc. eexists _, _. split; [reflexivity|]. split.
  - exists [leaf IDENTIFIER (d_name d) 0], (map piece_shape c ++ map piece_shape g). rewrite app_assoc. split; [reflexivity|]. split; [reflexivity|]. eexists _, _. split; [reflexivity|]. split; [now apply (gives_around 58)|].
    revert g Hg. apply gives_between; [apply gives_around|]. apply forall2_same. apply gives_group.
  - revert f Hf. destruct (d_important d); [apply gives_then; [apply gives_around|now apply gives_this]|now apply gives_this].
Qed.
Lemma gives_complex s : gives (complex_pieces s) (complex_lay s).
Proof.
  apply gives_then; [apply gives_this, compound_shapes|]. apply gives_each, forall2_same. intros (l & k). cbn [fst snd]. apply gives_then; [|apply gives_this, compound_shapes].
  destruct l; [exact gives_space|apply gives_around|apply gives_around].
Qed.
Lemma gives_rule r : gives (rule_pieces r) (rule_tokens r).
Proof.
  apply gives_then; [apply gives_between; [apply gives_around|apply forall2_same, gives_complex]|].
  apply gives_then; [apply gives_around|]. apply gives_then; [apply gives_between; [apply gives_around|apply forall2_same, gives_decl]|].
  apply gives_then; [apply gives_either; [now apply gives_this|]; apply gives_then; [exact gives_gap|now apply gives_this]|]. apply gives_then; [exact gives_gap|now apply gives_this].
Qed.
Lemma gives_statement x : gives (statement_pieces x) (statement_tokens x).
Proof.
  destruct x as [w g|r]; [|apply gives_rule]. apply gives_then; [now apply gives_this|]. apply gives_then; [apply gives_around|].
  apply gives_then; [apply gives_group|]. apply gives_then; [exact gives_gap|now apply gives_this].
Qed.
Lemma gives_script l : gives (script_pieces l) (script_tokens l).
Proof. apply gives_then; [exact gives_gap|]. apply gives_each, forall2_same. intro r. apply gives_then; [apply gives_statement|exact gives_gap]. Qed.

(** ** What follows what *)
Definition good (F E : Z -> Prop) (ps : list piece) : Prop :=
  Forall piece_ok ps /\ texts ps <> [] /\ F (hd (-1) (texts ps)) /\ forall c, E c -> chain ps c.
Definition flows (F E : Z -> Prop) (P : lang piece) : Prop := forall ps, P ps -> good F E ps.
Lemma good_weak (F E F' E' : Z -> Prop) ps : good F E ps -> (forall c, F c -> F' c) -> (forall c, E' c -> E c) -> good F' E' ps.
Proof. intros (H1 & H2 & H3 & H4) A B. split; [exact H1|]. split; [exact H2|]. split; [auto|]. auto. Qed.
Lemma hd_dep c c' (l : str) : l <> [] -> hd c l = hd c' l. Proof. now destruct l. Qed.
Lemma flows_weak (F E F' E' : Z -> Prop) P : flows F E P -> (forall c, F c -> F' c) -> (forall c, E' c -> E c) -> flows F' E' P.
Proof. intros H A B ps Hp. eapply good_weak; [exact (H ps Hp)|exact A|exact B]. Qed.
Lemma flows_then (F E F' E' : Z -> Prop) P Q : flows F E' P -> flows F' E Q -> (forall c, F' c -> E' c) -> flows F E (P # Q).
Proof.
  intros A B H ps (a & b & -> & Ha & Hb). destruct (A a Ha) as (A1 & A2 & A3 & A4). destruct (B b Hb) as (B1 & B2 & B3 & B4).
  split; [apply Forall_app; split; assumption|]. rewrite texts_app. split; [intro E0; apply app_eq_nil in E0; tauto|]. split; [rewrite hd_app, (hd_dep _ (-1) _ A2); exact A3|].
  intros c Hc. apply chain_app. split; [|now apply B4]. apply A4, H. now rewrite (hd_dep c (-1) _ B2).
Qed.
Lemma flows_one (F E : Z -> Prop) p : piece_ok p -> piece_text p <> [] -> F (hd (-1) (piece_text p)) -> (forall c, E c -> fits p c) -> flows F E (this [p]).
Proof.
  intros A B C D ps ->. unfold good. cbn [texts flat_map]. rewrite app_nil_r. split; [constructor; [exact A|constructor]|]. split; [exact B|]. split; [exact C|]. intros c Hc. cbn [chain texts flat_map hd]. auto.
Qed.
Definition far (c : Z) : Prop := c <> 61 /\ ~ blank c.
Lemma flows_space : flows blank (fun c => ~ blank c) p_space.
Proof.
  intros ps (s & Hs & ->). unfold good. cbn [texts flat_map piece_text]. rewrite app_nil_r. split; [constructor; [exact Hs|constructor]|]. destruct Hs as (B & N). split; [exact N|]. split; [|intros c Hc; cbn; auto].
  destruct s; [congruence|]. now inversion B.
Qed.
Lemma flows_gap_then (F E : Z -> Prop) Q : flows F E Q -> (forall c, F c -> ~ blank c) -> flows (fun c => blank c \/ F c) E (p_gap # Q).
Proof.
  intros H N ps (a & b & -> & Ha & Hb). destruct Ha as [-> |Ha].
  - cbn [app]. eapply good_weak; [exact (H _ Hb)| |]; intros c; tauto.
  - refine (flows_then _ _ F _ p_space Q _ H N (a ++ b) _); [eapply flows_weak; [exact flows_space| |]; intros c; tauto|exists a, b; auto].
Qed.
Lemma flows_then_gap (F E : Z -> Prop) P : flows F E P -> (forall c, blank c -> E c) -> flows F (fun c => E c /\ ~ blank c) (P # p_gap).
Proof.
  intros H N ps (a & b & -> & Ha & [-> |Hb]).
  - rewrite app_nil_r. eapply good_weak; [exact (H _ Ha)| |]; intros c; tauto.
  - refine (flows_then F (fun c => E c /\ ~ blank c) blank E P p_space H _ N (a ++ b) _); [eapply flows_weak; [exact flows_space| |]; intros c; tauto|exists a, b; auto].
Qed.
Lemma sign_blank c t : In (c, t) signs -> ~ blank c.
Proof. unfold signs, blank. cbn [In]. intro H. repeat match type of H with _ \/ _ => destruct H as [H|H] end; [..|contradiction]; apply pair_equal_spec in H; destruct H as [<- _]; lia. Qed.
Lemma flows_sign c t : In (c, t) signs -> c <> 46 -> flows (fun x => x = c) (fun x => x <> 61) (this [PO c t]).
Proof. intros H N. apply flows_one; [exact H|discriminate|reflexivity|]. intros x Hx. cbn [fits]. split; [exact Hx|]. intro Q. injection Q as Q _. congruence. Qed.
Lemma flows_around c t : In (c, t) signs -> c <> 46 -> flows (fun x => blank x \/ x = c) far (p_around c t).
Proof.
  intros H N. unfold p_around. eapply flows_weak; [apply flows_gap_then; [apply flows_then_gap; [apply flows_sign; eassumption|]|]| |].
  - intros x Hx. cbv beta. unfold blank in Hx. lia.
  - intros x ->. now apply sign_blank in H.
  - intros x Hx. exact Hx.
  - intros x (A & B). auto.
Qed.
Lemma flows_between (F E Fs Es : Z -> Prop) Q l : flows Fs Es Q -> l <> [] -> Forall (flows F E) l -> (forall c, Fs c -> E c) -> (forall c, F c -> Es c) -> flows F E (between Q l).
Proof.
  intros HQ N Fl A B. induction Fl as [|P l HP Fl IH]; [congruence|]. destruct l as [|P2 l]; [exact HP|].
  change (flows F E (P # Q # between Q (P2 :: l))). eapply flows_then; [exact HP| |exact A]. eapply flows_then; [exact HQ|apply IH; discriminate|exact B].
Qed.
Lemma flows_each (F E F' : Z -> Prop) P l : flows F E P -> Forall (flows F' E) l -> (forall c, F' c -> E c) -> flows F E (P # each l).
Proof.
  intros H Fl A. revert P H. induction Fl as [|Q l HQ Fl IH]; intros P H.
  - intros ps (a & b & -> & Ha & ->). rewrite app_nil_r. now apply H.
  - assert (K : flows F E ((P # Q) # each l)) by (apply IH; eapply flows_then; [exact H|exact HQ|exact A]).
    intros ps (a & b & -> & Ha & c & d & -> & Hc & Hd). apply K. exists (a ++ c), d. rewrite app_assoc. split; [reflexivity|]. split; [exists a, c; auto|exact Hd].
Qed.

Definition starter (c : Z) : Prop := small c \/ numeral c \/ c = 46 \/ c = 35 \/ c = 36.
Definition after_value (c : Z) : Prop := blank c \/ In c [33; 44; 59; 125].
Definition after_name (c : Z) : Prop := blank c \/ In c [58; 44; 123; 46; 62; 126; 35].
Lemma starter_far c : starter c -> far c. Proof. unfold starter, far, blank, small, numeral. lia. Qed.
Ltac sign_in := unfold signs; cbn [In]; tauto.
Lemma flows_word w : word w -> flows small (fun c => after_value c \/ after_name c) (this [PW w]).
Proof.
  intro H. apply flows_one; [exact H|destruct w; [contradiction|discriminate]|destruct w; [contradiction|apply H]|].
  intros c. unfold after_value, after_name. cbn [fits In]. tauto.
Qed.
Lemma flows_variable w : variable_name w -> flows (fun c => c = 36) (fun c => after_value c \/ after_name c) (this [PV w]).
Proof.
  intro H. apply flows_one; [exact H|discriminate|reflexivity|]. intros c. unfold after_value, after_name. cbn [fits In]. tauto.
Qed.
Lemma flows_value v : script_value v -> flows starter after_value (this [value_piece v]).
Proof.
  destruct v as [w|n u|w]; cbn [script_value value_ok value_piece]; [..|intro H; eapply flows_weak; [now apply flows_variable| |]; unfold starter; intros c; tauto].
  - intros (W & _). eapply flows_weak; [now apply flows_word| |]; unfold starter; intros c; tauto.
  - intros (A & B). destruct (int_text_digits n A) as (D & _ & N). apply flows_one; cbn [piece_ok piece_text].
    + auto.
    + intro E. apply app_eq_nil in E. tauto.
    + destruct (int_text n) as [|x l]; [congruence|]. inversion D; subst. right. left. assumption.
    + intros c H. exact H.
Qed.
Lemma flows_group g : g <> [] -> Forall script_value g -> flows starter after_value (group_pieces g).
Proof.
  intros N F. unfold group_pieces. eapply flows_between; [exact flows_space|destruct g; [congruence|discriminate]| | |].
  - rewrite Forall_map. revert F. apply Forall_impl. apply flows_value.
  - intros c H. now left.
  - intros c H. apply starter_far in H. apply H.
Qed.
Lemma important_word : word (zs "important").
Proof.
  change (zs "important") with [105; 109; 112; 111; 114; 116; 97; 110; 116]. split; [unfold small; lia|]. unfold small.
  repeat (constructor; [left; lia|]). constructor.
Qed.
Lemma flows_decl d : decl_with script_value d -> flows small (fun c => blank c \/ c = 59 \/ c = 125) (decl_pieces d).
Proof.
  intros (A & _ & N & F). unfold decl_pieces.
  assert (G : flows starter after_value (between (p_around 44 COMMA) (map group_pieces (d_groups d)))).
  { eapply flows_between; [apply flows_around; [sign_in|lia]|destruct (d_groups d); [congruence|discriminate]| | |].
    - rewrite Forall_map. revert F. apply Forall_impl. intros g (G1 & G2). now apply flows_group.
    - intros c [H|H]; [now left|]. right. cbn. auto.
    - apply starter_far. }
  eapply flows_then with (F' := fun c => blank c \/ c = 58); [now apply flows_word| |intros c [H|H]; [right; now left|right; right; cbn; auto]].
  eapply flows_then with (F' := starter); [apply flows_around; [sign_in|lia]| |apply starter_far].
  destruct (d_important d).
  - eapply flows_then with (F' := fun c => blank c \/ c = 33); [exact G| |intros c [H|H]; [now left|right; cbn; auto]].
    eapply flows_then with (F' := small); [apply flows_around; [sign_in|lia]| |intros c H; apply starter_far; left; exact H].
    eapply flows_weak; [apply flows_word, important_word| |]; [intros c H; exact H|]. intros c H. left. unfold after_value. cbn. intuition.
  - intros ps (a & b & -> & Ha & ->). rewrite app_nil_r. eapply good_weak; [exact (G _ Ha)| |]; [unfold starter; tauto|]. intros c H. unfold after_value. cbn. intuition.
Qed.
Lemma flows_mark m : mark_ok m -> flows (fun c => c = 46 \/ c = 35) after_name (this (mark_pieces m)).
Proof.
  destruct m as [w|w]; cbn [mark_ok mark_pieces]; intro H.
  - change (this [PO 46 PERIOD; PW w]) with (this ([PO 46 PERIOD] ++ [PW w])). intros ps ->. refine (flows_then _ _ small small (this [PO 46 PERIOD]) (this [PW w]) _ _ _ _ _).
    + apply flows_one; [cbn [piece_ok]; sign_in|discriminate|now left|]. intros c Hc. cbn [fits]. unfold small in *. split; [lia|auto].
    + eapply flows_weak; [now apply flows_word|auto|]. intros c Hc. now right.
    + auto.
    + exists [PO 46 PERIOD], [PW w]. repeat split.
  - apply flows_one; [exact H|discriminate|now right|]. intros c. unfold after_name. cbn [fits In]. tauto.
Qed.
Lemma each_this {A B} (f : A -> list B) l : each (map (fun x => this (f x)) l) (flat_map f l).
Proof. induction l as [|x l IH]; [reflexivity|]. cbn [map each flat_map]. exists (f x), (flat_map f l). repeat split. exact IH. Qed.
Lemma flows_compound k : compound_ok k -> flows starter after_name (this (compound_pieces k)).
Proof.
  intros (A & B) ps ->. assert (M : Forall (flows (fun c => c = 46 \/ c = 35) after_name) (map (fun m => this (mark_pieces m)) (k_marks k))) by (rewrite Forall_map; revert B; apply Forall_impl; apply flows_mark).
  assert (D : forall c, c = 46 \/ c = 35 -> after_name c) by (intros c H; right; cbn; intuition).
  unfold compound_pieces. destruct (k_name k) as [w|].
  - refine (flows_each starter after_name _ (this [PW w]) _ _ M D _ _).
    + eapply flows_weak; [now apply flows_word| |]; unfold starter; intros c; tauto.
    + exists [PW w], (flat_map mark_pieces (k_marks k)). repeat split. apply each_this.
  - cbn [app]. destruct (k_marks k) as [|m l]; [congruence|]. cbn [map] in M. inversion M as [|? ? M1 M2]; subst.
    refine (flows_each starter after_name _ (this (mark_pieces m)) _ _ M2 D _ _).
    + eapply flows_weak; [exact M1| |]; unfold starter; intros c; tauto.
    + exists (mark_pieces m), (flat_map mark_pieces l). repeat split. apply each_this.
Qed.
Lemma flows_complex s : complex_ok s -> flows starter after_name (complex_pieces s).
Proof.
  intros (A & _). unfold compounds in A. inversion A as [|? ? A1 A2]; subst. rewrite Forall_map in A2.
  eapply flows_each with (F' := fun c => blank c \/ c = 62 \/ c = 126); [now apply flows_compound| |intros c [H|H]; [now left|right; cbn; intuition]].
  rewrite Forall_map. revert A2. apply Forall_impl. intros (l & k) H. cbn [fst snd] in *.
  assert (L : flows (fun c => blank c \/ c = 62 \/ c = 126) far (link_pieces l)).
  { destruct l; cbn [link_pieces]; [eapply flows_weak; [exact flows_space| |]; intros c; [tauto|unfold far; tauto]|eapply flows_weak; [apply flows_around; [sign_in|lia]| |]; intros c; cbv beta; tauto|eapply flows_weak; [apply flows_around; [sign_in|lia]| |]; intros c; cbv beta; tauto]. }
  eapply flows_then; [exact L|now apply flows_compound|apply starter_far].
Qed.
Lemma flows_rule r : rule_with script_value r -> flows starter (fun c => c <> 61) (rule_pieces r).
Proof.
  intros (N & F & N' & F'). unfold rule_pieces.
  assert (C : flows (fun c => blank c \/ c = 125) (fun c => c <> 61) (p_gap # this [PO 125 CLOSE_CURLYBRACKET])).
  { apply flows_gap_then; [apply flows_sign; [sign_in|lia]|]. intros c ->. unfold blank. lia. }
  eapply flows_then with (F' := fun c => blank c \/ c = 123) (E' := after_name).
  - eapply flows_between; [apply flows_around; [sign_in|lia]|destruct (r_selectors r); [congruence|discriminate]| | |].
    + rewrite Forall_map. revert F. apply Forall_impl. apply flows_complex.
    + intros c [H|H]; [now left|right; cbn; auto].
    + apply starter_far.
  - eapply flows_then with (F' := small); [apply flows_around; [sign_in|lia]| |intros c H; apply starter_far; now left].
    eapply flows_then with (F' := fun c => blank c \/ c = 59 \/ c = 125) (E' := fun c => blank c \/ c = 59 \/ c = 125).
    + eapply flows_between; [apply flows_around; [sign_in|lia]|destruct (r_decls r); [congruence|discriminate]| | |].
      * rewrite Forall_map. revert F'. apply Forall_impl. apply flows_decl.
      * intros c. cbv beta. tauto.
      * intros c H. apply starter_far. now left.
    + intros ps (a & b & -> & [-> |Ha] & Hb); [cbn [app]; eapply good_weak; [exact (C _ Hb)| |]; auto; intros c; cbv beta; tauto|].
      refine (flows_then _ _ _ _ (p_gap # this [PO 59 SEMICOLON]) _ _ C _ (a ++ b) _).
      * eapply flows_weak; [apply flows_gap_then; [apply flows_sign; [sign_in|lia]|]| |]; [intros c ->; unfold blank; lia|intros c; cbv beta; tauto|]. intros c H. exact H.
      * intros c H. cbv beta. unfold blank in H. lia.
      * exists a, b. auto.
    + auto.
  - intros c [H|H]; [now left|right; cbn; auto].
Qed.
Lemma flows_statement x : statement_ok x -> flows starter (fun c => c <> 61) (statement_pieces x).
Proof.
  destruct x as [w g|r]; [|apply flows_rule]. intros (A & N & F).
  eapply flows_then with (F' := fun c => blank c \/ c = 58) (E' := fun c => after_value c \/ after_name c); [eapply flows_weak; [now apply flows_variable| |]; unfold starter; intros c; cbv beta; tauto| |intros c [H|H]; [right; now left|right; right; cbn; auto]].
  eapply flows_then with (F' := starter); [apply flows_around; [sign_in|lia]| |apply starter_far].
  eapply flows_then with (F' := fun c => blank c \/ c = 59); [now apply flows_group| |intros c [H|H]; [now left|right; cbn; auto]].
  apply flows_gap_then; [apply flows_sign; [sign_in|lia]|]. intros c ->. unfold blank. lia.
Qed.
Lemma flows_script l ps : l <> [] -> Forall statement_ok l -> script_pieces l ps -> Forall piece_ok ps /\ chain ps (-1).
Proof.
  intros N F H. assert (R : Forall (flows starter far) (map (fun r => statement_pieces r # p_gap) l)).
  { rewrite Forall_map. revert F. apply Forall_impl. intros r Hr. eapply flows_weak; [apply flows_then_gap; [now apply flows_statement|]| |]; [intros c Hc; cbv beta; unfold blank in Hc; lia|auto|]. intros c Hc. exact Hc. }
  destruct l as [|r l]; [congruence|]. cbn [map] in R. inversion R as [|? ? R1 R2]; subst.
  assert (K : flows (fun c => blank c \/ starter c) far (p_gap # (statement_pieces r # p_gap) # each (map (fun r => statement_pieces r # p_gap) l))).
  { apply flows_gap_then; [|intros c Hc; apply starter_far in Hc; apply Hc]. eapply flows_each; [exact R1|exact R2|apply starter_far]. }
  destruct (K ps H) as (A & _ & _ & B). split; [exact A|]. apply B. unfold far, blank. lia.
Qed.

(** ** Ends of lines *)
Definition norm (p : piece) : piece := match p with PG s => PG (normalize s) | _ => p end.
Lemma normalize_app a b : hd (-1) b <> 10 -> normalize (a ++ b) = normalize a ++ normalize b.
Proof.
  intro H. induction a as [|c a IH]; [reflexivity|]. cbn [app normalize]. destruct (c =? 13).
  - destruct a as [|d a]; [cbn [app] in *; destruct b as [|x b]; [reflexivity|]; cbn [hd] in H; replace (x =? 10) with false by lia; reflexivity|].
    cbn [app] in *. destruct (d =? 10); rewrite IH; reflexivity.
  - destruct (c =? 12); cbn [app]; now rewrite IH.
Qed.
Lemma normalize_space s : space s -> space (normalize s) /\ Forall (fun c => c <> 12 /\ c <> 13) (normalize s).
Proof.
  intros (B & N). unfold space, gap in *. assert (G : Forall (fun c => c = 32 \/ c = 9 \/ c = 10) (normalize s)).
  { clear N. induction B as [|c s Hc B IH]; [constructor|]. cbn [normalize]. unfold blank in Hc. destruct (c =? 13) eqn:E; [|destruct (c =? 12) eqn:E2; constructor; auto; lia].
    destruct s as [|x s]; [constructor; [auto|constructor]|]. destruct (x =? 10); [exact IH|constructor; auto]. }
  split; [split|].
  - revert G. apply Forall_impl. unfold blank. tauto.
  - clear G B. assert (L : forall l, l <> [] -> normalize l <> []); [|now apply L]. clear. induction l as [|c l IH]; [congruence|]. intros _. cbn [normalize]. destruct (c =? 13); [|destruct (c =? 12); discriminate].
    destruct l as [|d l]; [discriminate|]. destruct (d =? 10); [apply IH; discriminate|discriminate].
  - revert G. apply Forall_impl. lia.
Qed.
Lemma piece_plain p : piece_ok p -> piece_text p <> [] /\ ((exists s, p = PG s) \/ Forall (fun c => c <> 12 /\ c <> 13) (piece_text p)).
Proof.
  destruct p as [w|n u|w|c t|s|w]; cbn [piece_ok piece_text]; [..|intros (_ & H); split; [exact H|left; eauto]|intro H; split; [discriminate|]; right; constructor; [lia|]; destruct w as [|c w]; [constructor|]; destruct H as (A & B); constructor; [unfold small in A; lia|]; revert B; apply Forall_impl; unfold small, numeral; lia].
  - intro H. destruct w; [contradiction|]. split; [discriminate|]. right. pose proof (word_text _ H) as W. revert W. apply Forall_impl. unfold textc. tauto.
  - intros (A & B). destruct (int_text_digits n A) as (D & _ & N). split; [intro E; apply app_eq_nil in E; tauto|]. right. apply Forall_app. split; [revert D|revert B]; apply Forall_impl; unfold digit, small; lia.
  - intro H. split; [discriminate|]. right. constructor; [lia|]. pose proof (word_text _ H) as W. revert W. apply Forall_impl. unfold textc. tauto.
  - intro H. split; [discriminate|]. right. constructor; [|constructor]. unfold signs in H. cbn [In] in H.
    repeat match type of H with _ \/ _ => destruct H as [H|H] end; [..|contradiction]; injection H as <- _; lia.
Qed.
Lemma space_first c s : space s -> blank (hd c s). Proof. intros (B & N). destruct s; [congruence|]. now inversion B. Qed.
Lemma fits_blank p x y : fits p x -> blank x -> blank y -> fits p y.
Proof.
  intros F X Y. destruct p as [w|n u|w|c t|s|w]; cbn [fits] in *; [now left|now left|now left| |contradiction|now left]. unfold blank in *. destruct F as (_ & F). split; [lia|]. intro Q. apply F in Q. unfold small in Q. lia.
Qed.
Lemma normalized ps : Forall piece_ok ps -> chain ps (-1) -> normalize (texts ps) = texts (map norm ps) /\ chain (map norm ps) (-1) /\ Forall piece_ok (map norm ps) /\ Forall tidy_gap (map norm ps)
  /\ map piece_shape (map norm ps) = map piece_shape ps.
Proof.
  induction 1 as [|p ps Hp F IH]; intro Ch; [repeat split; constructor|]. destruct Ch as (Fp & Ch). destruct (IH Ch) as (A & B & C & D & E). clear IH. cbn [texts flat_map map]. fold (texts ps). fold (texts (map norm ps)).
  split; [|split; [|split; [|split]]].
  - destruct p as [w|n u|w|c t|s|w]; [| | | |cbn [piece_text norm]; rewrite normalize_app, A; [reflexivity|]; cbn [fits] in Fp; unfold blank in Fp; lia|];
      (destruct (piece_plain _ Hp) as (_ & [(s & Q)|Pl]); [discriminate Q|]; rewrite normalize_plain by exact Pl; rewrite A; reflexivity).
  - cbn [chain]. split; [|exact B].
    assert (Fn : fits p (hd (-1) (texts (map norm ps)))).
    { destruct ps as [|q ps]; [exact Fp|]. inversion F as [|? ? Hq _]; subst. cbn [map texts flat_map] in *. destruct (piece_plain q Hq) as (Nq & _). rewrite hd_app in *. destruct q as [w|n u|w|c t|s|w]; cbn [norm piece_text] in *; try (now destruct (piece_text _)); try exact Fp.
      - destruct w; [congruence|exact Fp].
      - destruct (int_text n ++ u); [congruence|exact Fp].
      - cbn [piece_ok] in Hq. eapply fits_blank; [exact Fp|now apply space_first|]. apply space_first, normalize_space, Hq. }
    destruct p; exact Fn.
  - constructor; [|exact C]. destruct p; try exact Hp. cbn [norm piece_ok] in *. now apply normalize_space.
  - constructor; [|exact D]. destruct p; try exact I. cbn [norm tidy_gap piece_ok] in *. now apply normalize_space.
  - rewrite E. destruct p; reflexivity.
Qed.
Lemma pieces_length l : Forall piece_ok l -> (length l <= length (texts l))%nat.
Proof.
  induction 1 as [|p l H F IH]; [auto|]. cbn [texts flat_map length]. fold (texts l). rewrite app_length. destruct (piece_plain p H) as (N & _). destruct (piece_text p); [congruence|]. cbn [length]. lia.
Qed.

(** ** The tokens of a style sheet *)
Theorem script_lexed lm l t : l <> [] -> Forall statement_ok l -> script_laid l t ->
  exists toks s', lex_all lm (new_lexer t (new_position 1 1)) = Ret toks s' /\ script_tokens l (map node_shape toks) /\ (length toks <= length t)%nat /\ l_log s' = [].
Proof.
  intros N H L. destruct (covers_script l t L) as (ps & Hp & <-). destruct (flows_script l ps N H Hp) as (Ok & Ch). destruct (normalized ps Ok Ch) as (A & B & C & D & E).
  assert (As : Forall (fun c => 0 < c < 128) (texts ps)) by now apply texts_ascii.
  assert (Cl : Forall clean_char (texts ps)) by (revert As; apply Forall_impl; unfold clean_char, scalar; intros; lia).
  pose proof (holds_new _ (new_position 1 1) Cl) as H0. rewrite utf8s_ascii in H0 by (revert As; apply Forall_impl; intros; lia). rewrite A in H0.
  unfold lex_all, with_fuel. pose proof (holds_fuel _ _ H0) as Fu.
  destruct (lexed lm (map norm ps) C D B (fuel_of (new_lexer (texts ps) (new_position 1 1))) _ H0) as (toks & s' & El & M & Lg).
  - left. unfold dep. cbn. lia.
  - pose proof (pieces_length _ C). lia.
  - exists toks, s'. rewrite M, Lg, E. split; [exact El|]. split; [now apply gives_script|]. split; [|reflexivity].
    rewrite <- (map_length node_shape), M, E, map_length. now apply pieces_length.
Qed.
