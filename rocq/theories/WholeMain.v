(** * A plain style sheet, however it is laid out, to its compressed text *)

From Coq Require Import String ZArith List Bool Lia Arith ZifyBool Floats.SpecFloat.
From Verif Require Import Base NodeHeap NodeProofs.
From Verif Require Lexer Parser Assembler Functions DecText.
From Verif Require Import Compiler Compile CompRun Pipeline.
From Verif Require WholeLex WholePieces WholeParse WholeOut.
From Verif Require Import Trees WholeSpec LaySpec VarSpec StyleSpec WholeShape WholeTree WholeRule WholeAfter.
Import ListNotations.
Open Scope string_scope. Open Scope list_scope. Open Scope Z_scope.
Ltac Zify.zify_post_hook ::= idtac.

(** ** The compressed style is the text *)
Lemma complex_compressed s : complex_styled Assembler.COMPRESSED s = complex_text s.
Proof. unfold complex_styled, complex_text. apply f_equal. apply flat_map_ext. intros (x & k). destruct x; reflexivity. Qed.
Lemma sheet_compressed l : sheet_styled Assembler.COMPRESSED l = sheet_text l.
Proof. reflexivity. Qed.

(** ** Sizes *)
Lemma sum_cons x l : list_sum (x :: l) = (x + list_sum l)%nat. Proof. reflexivity. Qed.
Lemma sum_nil : list_sum [] = 0%nat. Proof. reflexivity. Qed.
Ltac sums := cbn [map length] in *; rewrite ?sum_cons, ?sum_nil in *.
Lemma leaf_some s : WholeOut.leaf_ok s -> (1 <= length (WholeOut.leaf_text Assembler.COMPRESSED s))%nat.
Proof.
  destruct s as [t w i f k]. cbn [WholeOut.leaf_ok WholeOut.leaf_text]. destruct t; try contradiction; intro H; try (cbn; lia).
  - destruct w; [contradiction|cbn; lia].
  - rewrite app_length. destruct (WholeLex.int_text_digits i (proj1 H)) as (_ & _ & N). destruct (DecText.int_text i); [congruence|cbn; lia].
Qed.
Lemma leaves_length l : Forall WholeOut.leaf_ok l -> (length l <= length (flat_map (WholeOut.leaf_text Assembler.COMPRESSED) l))%nat.
Proof. induction 1 as [|s l H F IH]; [cbn; lia|]. cbn [flat_map length]. rewrite app_length. pose proof (leaf_some s H). lia. Qed.
Lemma bare_sum l : Forall (fun s => sh_kids s = []) l -> list_sum (map shape_size l) = length l.
Proof. induction 1 as [|s l H F IH]; [reflexivity|]. destruct s as [t x i f k]. cbn in H. subst. cbn [shape_size] in *. sums. cbn [shape_size map]. rewrite sum_nil. lia. Qed.
Lemma joined_length sep ts : (list_sum (map (@length Z) ts) <= length (joined sep ts))%nat.
Proof.
  induction ts as [|x [|y ts] IH]; [cbn; lia|cbn; lia|]. change (joined sep (x :: y :: ts)) with (x ++ sep ++ joined sep (y :: ts)). rewrite !app_length. sums. lia.
Qed.
Lemma sum_map {A} (f g : A -> nat) l : Forall (fun x => (f x <= g x)%nat) l -> (list_sum (map f l) <= list_sum (map g l))%nat.
Proof. induction 1; [cbn; lia|]. sums. lia. Qed.
Lemma sum_succ {A} (f : A -> nat) l : list_sum (map (fun x => S (f x)) l) = (length l + list_sum (map f l))%nat.
Proof. induction l as [|x l IH]; [reflexivity|]. sums. lia. Qed.
Lemma glue_one {A} (s : A) l : l <> [] -> (S (length (glue [s] l)) = list_sum (map (@length A) l) + length l)%nat.
Proof.
  induction l as [|x [|y l] IH]; intro H; [congruence|cbn; lia|]. change (glue [s] (x :: y :: l)) with (x ++ [s] ++ glue [s] (y :: l)). rewrite !app_length. specialize (IH ltac:(discriminate)). sums. lia.
Qed.
Lemma word_length w : word w -> (1 <= length w)%nat. Proof. destruct w; [contradiction|cbn; lia]. Qed.
(** Rules of scripts. *)
Lemma decl_script d : decl_ok d -> decl_with script_value d.
Proof. intros (A & B & C & D). split; [exact A|]. split; [exact B|]. split; [exact C|]. revert D. apply Forall_impl. intros g (N & G). split; [exact N|]. revert G. apply Forall_impl. intros [w|n u|w] V; [exact V|exact V|destruct V]. Qed.
Lemma rule_script r : rule_ok r -> rule_with script_value r.
Proof. intros (A & B & C & D). split; [exact A|]. split; [exact B|]. split; [exact C|]. revert D. apply Forall_impl. exact decl_script. Qed.
Lemma value_script v : value_ok v -> script_value v. Proof. destruct v; cbn; tauto. Qed.
Lemma values_script g : Forall value_ok g -> Forall script_value g. Proof. apply Forall_impl. exact value_script. Qed.
Lemma joined_one c ts : ts <> [] -> (S (length (joined [c] ts)) = list_sum (map (@length Z) ts) + length ts)%nat.
Proof.
  induction ts as [|x [|y ts] IH]; intro H; [congruence|cbn; lia|]. change (joined [c] (x :: y :: ts)) with (x ++ [c] ++ joined [c] (y :: ts)). rewrite !app_length. specialize (IH ltac:(discriminate)). cbn [length] in *. sums. lia.
Qed.
Lemma value_length v : script_value v -> (1 <= length (value_text v))%nat.
Proof.
  destruct v as [w|n u|w]; cbn [script_value value_ok value_text]; intro H.
  - apply word_length, H.
  - rewrite app_length. destruct (WholeLex.int_text_digits n ltac:(lia)) as (_ & _ & N). destruct (DecText.int_text n); [congruence|cbn; lia].
  - rewrite app_length. cbn. lia.
Qed.
Lemma group_length g : Forall script_value g -> (length (group_leaves g) <= length (group_text g))%nat.
Proof.
  intro F. destruct g as [|v g]; [cbn; lia|]. unfold group_leaves, group_text. pose proof (glue_one (sign WHITESPACE) (map (fun v => [value_leaf v]) (v :: g)) ltac:(discriminate)) as A. pose proof (joined_one 32 (map value_text (v :: g)) ltac:(discriminate)) as B.
  change (zs " ") with [32]. rewrite map_map, map_length in A, B. cbn [length] in A, B.
  assert (Q : (list_sum (map (fun _ : value => 1) (v :: g)) <= list_sum (map (fun v => length (value_text v)) (v :: g)))%nat) by (apply sum_map; revert F; apply Forall_impl; exact value_length). lia.
Qed.
Lemma complex_length s : complex_ok s -> (length (complex_leaves s) <= length (complex_text s))%nat.
Proof. intro F. destruct (WholeOut.complex_out Assembler.COMPRESSED s F) as (E & L). rewrite <- complex_compressed, <- E. now apply leaves_length. Qed.
Lemma joined_commas ts : ts <> [] -> (S (length (joined (zs ",") ts)) = list_sum (map (@length Z) ts) + length ts)%nat.
Proof.
  induction ts as [|x [|y ts] IH]; intro H; [congruence|cbn; lia|]. change (joined (zs ",") (x :: y :: ts)) with (x ++ zs "," ++ joined (zs ",") (y :: ts)). rewrite !app_length. specialize (IH ltac:(discriminate)). change (length (zs ",")) with 1%nat. sums. lia.
Qed.
Lemma group_bare g : Forall (fun s => sh_kids s = []) (group_leaves g).
Proof. unfold group_leaves. apply WholeParse.forall_glue'; [repeat constructor|]. apply Forall_forall. intros l I. apply in_map_iff in I. destruct I as (v & <- & _). destruct v; repeat constructor. Qed.
Lemma decl_text_length ok d : decl_with ok d -> (list_sum (map (fun g => length (group_text g)) (d_groups d)) + length (d_groups d) + 1 + (if d_important d then 10 else 0) <= length (decl_text d))%nat.
Proof.
  intros (W & _ & Ne & _). apply word_length in W. unfold decl_text. rewrite !app_length. change (length (zs ":")) with 1%nat.
  pose proof (joined_commas (map group_text (d_groups d)) ltac:(destruct (d_groups d); [congruence|discriminate])) as J. rewrite map_map, map_length in J. destruct (d_important d); [change (length (zs "!important")) with 10%nat|cbn [length]]; lia.
Qed.
(** *** As parsed *)
Definition at_most (n : nat) (P : lang shape) : Prop := forall x, P x -> (length x <= n)%nat.
Lemma most_this l : at_most (length l) (this l). Proof. intros x ->. lia. Qed.
Lemma most_then n m P Q : at_most n P -> at_most m Q -> at_most (n + m) (P # Q).
Proof. intros A B x (a & b & -> & Ha & Hb). apply A in Ha. apply B in Hb. rewrite app_length. lia. Qed.
Lemma most_blanks : at_most 1 blanks. Proof. intros x [-> | ->]; cbn; lia. Qed.
Lemma most_spaced t : at_most 3 (spaced t).
Proof. change 3%nat with (1 + (1 + 1))%nat. apply most_then; [apply most_blanks|]. apply most_then; [apply (most_this [sign t])|apply most_blanks]. Qed.
Lemma most_between {A} (f : A -> lang shape) (g : A -> nat) sep l : at_most 3 sep -> Forall (fun x => at_most (g x) (f x)) l -> at_most (list_sum (map g l) + 3 * (length l - 1)) (between sep (map f l)).
Proof.
  intros Hs. induction 1 as [|x l H F IH]; [intros y ->; cbn; lia|]. destruct l as [|z l].
  - cbn [map between]. intros y Hy. apply H in Hy. sums. lia.
  - change (between sep (map f (x :: z :: l))) with (f x # sep # between sep (map f (z :: l))). intros y Hy. apply (most_then _ _ _ _ H (most_then _ _ _ _ Hs IH)) in Hy. sums. lia.
Qed.
Lemma most_each {A} (f : A -> lang shape) (g : A -> nat) l : Forall (fun x => at_most (g x) (f x)) l -> at_most (list_sum (map g l)) (each (map f l)).
Proof. induction 1 as [|x l H F IH]; [intros y ->; cbn; lia|]. cbn [map each]. rewrite sum_cons. now apply most_then. Qed.
Lemma most_complex s : complex_ok s -> at_most (3 * length (complex_text s)) (complex_lay s).
Proof.
  intros Ok x Hx. pose proof (complex_length s Ok) as L. revert x Hx.
  assert (K : at_most (length (compound_leaves (s_first s)) + list_sum (map (fun x => 3 + length (compound_leaves (snd x)))%nat (s_more s))) (complex_lay s)).
  { apply most_then; [apply most_this|]. apply (most_each (fun x => link_leaves (fst x) # this (compound_leaves (snd x)))). apply Forall_forall. intros (k & q) _. apply most_then; [|apply most_this].
    destruct k; cbn [fst link_leaves]; [|apply most_spaced|apply most_spaced]. intros y ->. cbn. lia. }
  intros x Hx. apply K in Hx. clear K. unfold complex_leaves in L. rewrite app_length in L.
  assert (Q : (list_sum (map (fun x => 3 + length (compound_leaves (snd x)))%nat (s_more s)) <= 3 * length (flat_map (fun x => sign (link_type (fst x)) :: compound_leaves (snd x)) (s_more s)))%nat).
  { clear. induction (s_more s) as [|y l IH]; [cbn; lia|]. cbn [flat_map map]. rewrite sum_cons. cbn [app length]. rewrite app_length. lia. }
  lia.
Qed.
Lemma decl_size d s : decl_with script_value d -> decl_shape d s -> (shape_size s <= 4 * length (decl_text d))%nat.
Proof.
  intros Ok (l & Hl & ->). pose proof (decl_text_length _ d Ok) as L. destruct Ok as (W & _ & Ne & Fg).
  assert (G : (list_sum (map (fun g => length (group_leaves g)) (d_groups d)) <= list_sum (map (fun g => length (group_text g)) (d_groups d)))%nat).
  { apply sum_map. revert Fg. apply Forall_impl. intros g (_ & F). now apply group_length. }
  unfold inner. cbn [shape_size]. rewrite bare_sum by (eapply WholeDecl.decl_leaves; exact Hl).
  assert (K : at_most (1 + (3 + (list_sum (map (fun g => length (group_leaves g)) (d_groups d)) + 3 * (length (d_groups d) - 1))) + length (flag_leaves d)) (decl_nodes d)).
  { apply most_then; [|apply most_this]. apply most_then; [apply (most_this [_])|]. apply most_then; [apply most_spaced|]. unfold groups_leaves. apply (most_between (fun g => this (group_leaves g)) (fun g => length (group_leaves g))); [apply most_spaced|]. apply Forall_forall. intros g _. apply most_this. }
  apply K in Hl. assert (F1 : (length (flag_leaves d) <= (if d_important d then 10 else 0))%nat) by (unfold flag_leaves; destruct (d_important d); cbn; lia).
  assert (N1 : (1 <= length (d_groups d))%nat) by (destruct (d_groups d); [congruence|cbn; lia]). lia.
Qed.
Lemma rule_text_length ok r : rule_with ok r -> (list_sum (map (fun s => length (complex_text s)) (r_selectors r)) + length (r_selectors r) + 1 + list_sum (map (fun d => length (decl_text d)) (r_decls r)) <= length (rule_text r))%nat.
Proof.
  intros (Nr & Fs & Nd & Fd). unfold rule_text. rewrite !app_length. change (length (zs "{")) with 1%nat. change (length (zs "}")) with 1%nat. pose proof (joined_commas (map complex_text (r_selectors r)) ltac:(destruct (r_selectors r); [congruence|discriminate])) as J. rewrite map_map, map_length in J.
  pose proof (joined_length (zs ";") (map decl_text (r_decls r))) as K. rewrite map_map in K. lia.
Qed.
Lemma sum_shapes {A} (P : A -> Prop) (R : A -> shape -> Prop) (g : A -> nat) l ss : (forall x s, P x -> R x s -> (shape_size s <= g x)%nat) -> Forall P l -> Forall2 R l ss -> (list_sum (map shape_size ss) <= list_sum (map g l))%nat.
Proof. intros H Fp. induction 1 as [|x s l ss Hx F IH]; [cbn; lia|]. inversion Fp; subst. sums. specialize (H x s ltac:(assumption) Hx). specialize (IH ltac:(assumption)). lia. Qed.
Lemma sum_times {A} k (f : A -> nat) l : list_sum (map (fun x => k * f x)%nat l) = (k * list_sum (map f l))%nat.
Proof. induction l as [|x l IH]; [cbn; lia|]. sums. lia. Qed.
Lemma listed_bound l : (shape_size (listed l) <= 1 + list_sum (map shape_size l))%nat.
Proof. destruct l as [|d [|d2 l]]; [cbn; lia|cbn [map listed]; sums; lia|]. unfold listed, inner. cbn [map shape_size]. sums. lia. Qed.
Lemma rule_size r s : rule_with script_value r -> rule_shape r s -> (shape_size s <= 4 * length (rule_text r))%nat.
Proof.
  intros Ok (sel & ds & Hs & Hd & ->). pose proof (rule_text_length _ r Ok) as T. destruct Ok as (Nr & Fs & Nd & Fd).
  assert (S1 : (1 <= length (r_selectors r))%nat) by (destruct (r_selectors r); [congruence|cbn; lia]).
  assert (K : at_most (list_sum (map (fun s => 3 * length (complex_text s))%nat (r_selectors r)) + 3 * (length (r_selectors r) - 1)) (selector_lay r)).
  { apply (most_between complex_lay); [apply most_spaced|]. revert Fs. apply Forall_impl. intros s. apply most_complex. }
  pose proof (K _ Hs) as L. rewrite sum_times in L.
  assert (D : (list_sum (map shape_size ds) <= list_sum (map (fun d => 4 * length (decl_text d))%nat (r_decls r)))%nat) by (eapply (sum_shapes (decl_with script_value)); [|exact Fd|exact Hd]; intros; now apply decl_size).
  rewrite sum_times in D. unfold inner at 1. cbn [shape_size]. rewrite map_app, list_sum_app. rewrite bare_sum.
  2:{ pose proof (selector_bare r sel Hs) as B. revert B. apply Forall_impl. intros s B. apply B. }
  pose proof (listed_bound ds) as Q. unfold inner. cbn [shape_size map]. rewrite !sum_cons, sum_nil. lia.
Qed.
Lemma sheet_text_length l : length (sheet_text l) = list_sum (map (fun r => length (rule_text r)) l).
Proof. unfold sheet_text. induction l as [|r l IH]; [reflexivity|]. cbn [flat_map]. sums. rewrite app_length, IH. reflexivity. Qed.
Lemma sheet_size l s : Forall rule_ok l -> sheet_shape l s -> (shape_size s <= 4 * length (sheet_text l) + 1)%nat.
Proof.
  intros F (rs & Hr & ->). rewrite sheet_text_length. unfold inner. cbn [shape_size]. rewrite <- sum_times.
  assert (A : (list_sum (map shape_size rs) <= list_sum (map (fun r => 4 * length (rule_text r))%nat l))%nat) by (eapply (sum_shapes rule_ok); [|exact F|exact Hr]; intros; apply rule_size; [now apply rule_script|assumption]). lia.
Qed.

(** *** As compiled *)
Lemma complex_bare s : Forall (fun s => sh_kids s = []) (complex_leaves s).
Proof.
  assert (K : forall k, Forall (fun s => sh_kids s = []) (compound_leaves k)).
  { intro k. unfold compound_leaves. apply Forall_app. split; [destruct (k_name k); repeat constructor|]. apply WholeParse.forall_flat. intros [w|w]; repeat constructor. }
  unfold complex_leaves. apply Forall_app. split; [apply K|]. apply WholeParse.forall_flat. intros x. constructor; [reflexivity|apply K].
Qed.
Lemma done_decl_size d : decl_ok d -> (shape_size (done_decl d) <= 2 * length (decl_text d))%nat.
Proof.
  intro Ok. pose proof (decl_text_length _ d Ok) as L. destruct Ok as (W & _ & Ne & Fg).
  assert (G : (list_sum (map (fun g => length (group_leaves g)) (d_groups d)) <= list_sum (map (fun g => length (group_text g)) (d_groups d)))%nat).
  { apply sum_map. revert Fg. apply Forall_impl. intros g (_ & F). now apply group_length, values_script. }
  unfold done_decl. cbn [shape_size]. rewrite map_map. replace (list_sum (map (fun g => shape_size (arg_shape (group_leaves g))) (d_groups d))) with (list_sum (map (fun g => S (length (group_leaves g))) (d_groups d))).
  2:{ f_equal. apply map_ext. intro g. unfold arg_shape. cbn [shape_size]. now rewrite bare_sum by apply group_bare. }
  rewrite sum_succ. lia.
Qed.
Lemma done_rule_size r : rule_ok r -> (shape_size (done_rule r) <= 3 * length (rule_text r))%nat.
Proof.
  intro Ok. pose proof (rule_text_length _ r Ok) as T. destruct Ok as (Nr & Fs & Nd & Fd).
  assert (G : (list_sum (map (fun s => length (complex_leaves s)) (r_selectors r)) <= list_sum (map (fun s => length (complex_text s)) (r_selectors r)))%nat).
  { apply sum_map. revert Fs. apply Forall_impl. intros s F. now apply complex_length. }
  assert (D2 : (list_sum (map (fun d => shape_size (done_decl d)) (r_decls r)) <= 2 * list_sum (map (fun d => length (decl_text d)) (r_decls r)))%nat).
  { rewrite <- sum_times. apply sum_map. revert Fd. apply Forall_impl. intros d F. now apply done_decl_size. }
  assert (S1 : (1 <= length (r_selectors r))%nat) by (destruct (r_selectors r); [congruence|cbn; lia]).
  unfold done_rule, inner at 1. cbn [shape_size]. rewrite map_app, list_sum_app, map_map.
  replace (list_sum (map (fun s => shape_size (arg_shape (complex_leaves s))) (r_selectors r))) with (list_sum (map (fun s => S (length (complex_leaves s))) (r_selectors r))).
  2:{ f_equal. apply map_ext. intro s. unfold arg_shape. cbn [shape_size]. now rewrite bare_sum by apply complex_bare. }
  rewrite sum_succ. sums.
  assert (B : (shape_size (inner OPEN_CURLYBRACKET match r_decls r with [d] => [done_decl d] | l => [inner LIST (map done_decl l)] end) <= 2 + list_sum (map (fun d => shape_size (done_decl d)) (r_decls r)))%nat).
  { clear. destruct (r_decls r) as [|d [|d2 l]]; unfold inner; cbn [map shape_size]; sums; [lia|lia|]. rewrite map_map. lia. }
  cbn [map] in B. lia.
Qed.
Lemma done_sheet_size l : Forall rule_ok l -> (shape_size (done_sheet l) <= 3 * length (sheet_text l) + 1)%nat.
Proof.
  intro F. rewrite sheet_text_length. unfold done_sheet, inner. cbn [shape_size]. rewrite !map_map.
  assert (B : (list_sum (map (fun r => shape_size (done_rule r)) l) <= list_sum (map (fun r => 3 * length (rule_text r))%nat l))%nat) by (apply sum_map; revert F; apply Forall_impl; intros r H; now apply done_rule_size).
  rewrite sum_times in B. lia.
Qed.

(** ** The whole *)
Lemma script_read o l t : l <> [] -> Forall statement_ok l -> script_laid l t -> exists n T, read_sheet o t ([], []) = Ret (top T) (snd (plant n []), []) /\ top T = fst (plant n []) /\ holds (snd (plant n [])) T /\ script_shape l (tree_shape T) /\ NoDup (nodes T).
Proof.
  intros Ne F La. destruct (WholePieces.script_lexed (o_libm o) l t Ne F La) as (toks & s' & E & Sh & _ & Lg). unfold read_sheet. rewrite E. cbn [snd fst]. rewrite Lg. cbn [rev app].
  destruct (WholeParse.script_parsed l toks (Lexer.l_pos s') [] F Sh) as (n & Ep & Sn). rewrite Ep. cbn [Parser.ps_msgs].
  destruct (plant_holds n []) as (T & Pl & H & St & Nd & _). exists n, T. split; [rewrite Pl; reflexivity|]. split; [rewrite Pl; reflexivity|]. split; [exact H|]. split; [rewrite St; exact Sn|exact Nd].
Qed.
Lemma sheet_read o l t : l <> [] -> Forall rule_ok l -> sheet_laid l t -> exists h T, read_sheet o t ([], []) = Ret (top T) (h, []) /\ holds h T /\ sheet_shape l (tree_shape T) /\ NoDup (nodes T).
Proof.
  intros Ne F La. destruct (script_read o (map Style l) t) as (n & T & E & _ & H & Sh & Nd).
  - destruct l; [congruence|discriminate].
  - apply Forall_map. revert F. apply Forall_impl. exact rule_script.
  - unfold script_laid. rewrite map_map. exact La.
  - exists (snd (plant n [])), T. split; [exact E|]. split; [exact H|]. split; [|exact Nd].
    destruct Sh as (rs & Hr & ->). exists rs. split; [|reflexivity]. clear - Hr. revert rs Hr. induction l as [|r l IH]; intros rs Hr; inversion Hr; subst; constructor; auto.
Qed.
Lemma sheet_passes o fn fuel h m ps T l : l <> [] -> Forall rule_ok l -> Forall (fun r => Forall (fun d => o_slash o (d_name d) = false) (r_decls r)) l ->
  holds h T -> sheet_shape l (tree_shape T) -> NoDup (nodes T) -> Z.of_nat (length (sheet_text l)) < 2 ^ 60 -> (8 * length (sheet_text l) + 12 <= fuel)%nat ->
  exists h' T', passes (rules_of o fn) fuel (mkX (top T) [] false) (mkK h m ps) = Ret None (mkK h' m ps) /\ holds h' T' /\ tree_shape T' = done_sheet l /\ top T' = top T.
Proof.
  intros Ne Ok Sl H E Nd Zs Lf. change (2 ^ 60) with 1152921504606846976 in Zs. pose proof (sheet_size l _ Ok E) as S1. pose proof (done_sheet_size l Ok) as S2. pose proof (sheet_calm l _ Ne Ok E) as Ca.
  unfold passes. cbn [x_root].
  destruct (mark_run (tree_shape T) (calm_mild _ Ca) ltac:(change (2 ^ 64) with 18446744073709551616; lia) fuel ltac:(lia) T h m ps) as (h1 & E1 & R1); [reflexivity|exact H|].
  rewrite (b_ret _ _ _ _ _ E1). destruct (holds_rebool h h1 T R1 H) as (T1 & H1 & Sh1 & N1 & Tp1). rewrite <- Tp1.
  erewrite b_ret; [|eapply calm_variables; [exact H1|rewrite Sh1; exact Ca|rewrite Sh1; lia]].
  destruct (sheet_compiles o (rules_of o fn) (mkX (top T1) [] false) fuel h1 m ps T1 l eq_refl H1 ltac:(rewrite Sh1; exact E) Ok Sl ltac:(rewrite N1; exact Nd) ltac:(rewrite Sh1; lia) ltac:(rewrite Sh1; lia)) as (h2 & T2 & E2 & H2 & Sh2 & Tp2).
  rewrite (b_ret _ _ _ _ _ E2). rewrite <- Tp2.
  erewrite b_ret; [|eapply done_sheet_remove; [exact H2|exact Sh2|exact Ok|lia|lia]].
  erewrite b_ret; [|eapply done_sheet_expand; [exact H2|exact Sh2|exact Ok|lia]].
  exists h2, T2. split; [reflexivity|]. split; [exact H2|]. split; [exact Sh2|reflexivity].
Qed.
Theorem sheet_same o l t m fuel : l <> [] -> Forall rule_ok l -> Forall (fun r => Forall (fun d => o_slash o (d_name d) = false) (r_decls r)) l -> sheet_laid l t -> Z.of_nat (length (sheet_text l)) < 2 ^ 60 -> (8 * length (sheet_text l) + 12 <= fuel)%nat ->
  translate o fuel m t = Ret (Some (sheet_styled m l)) [].
Proof.
  intros Ne Ok Sl La Zs Lf. destruct (sheet_read o l t Ne Ok La) as (h & T & E & H & Sh & Nd). unfold translate. rewrite E. cbn [has_error existsb].
  destruct (sheet_passes o (functions_of o default_paths fuel) fuel h [] default_paths T l Ne Ok Sl H Sh Nd Zs Lf) as (h' & T' & E2 & H2 & Sh2 & Tp2). rewrite E2. cbn [k_msgs k_heap has_error existsb]. rewrite <- Tp2.
  destruct (WholeOut.sheet_out h' (o_libm o) (Functions.f_precision (o_env o)) m T' fuel l Ok H2 Sh2 ltac:(lia) (Assembler.mkO [] false [])) as (b & E3). rewrite E3. reflexivity.
Qed.

(** ** All styles are layouts *)
Lemma no_gap : gap []. Proof. constructor. Qed.
Lemma tight {A} (P : lang A) (Q : lang A) a b : P a -> Q b -> (P # Q) (a ++ b). Proof. intros. now exists a, b. Qed.
Lemma tight_around a s b : gap a -> gap b -> around s (a ++ zs s ++ b).
Proof. intros Ha Hb. apply tight; [exact Ha|]. now apply tight. Qed.
Lemma tight_between {A} (f : A -> lang Z) (g : A -> str) (S : lang Z) (sep : str) l : S sep -> (forall x, f x (g x)) -> between S (map f l) (joined sep (map g l)).
Proof.
  intros Hs H. induction l as [|x [|y l] IH]; [reflexivity|apply H|].
  change (between S (map f (x :: y :: l))) with (f x # S # between S (map f (y :: l))). change (joined sep (map g (x :: y :: l))) with (g x ++ sep ++ joined sep (map g (y :: l))).
  apply tight; [apply H|]. now apply tight.
Qed.
Lemma tight_each {A} (f : A -> lang Z) (g : A -> str) l : (forall x, f x (g x)) -> each (map f l) (flat_map g l).
Proof. intro H. induction l as [|x l IH]; [reflexivity|]. cbn [map each flat_map]. now apply tight. Qed.
Lemma blanks_gap s : forallb (fun c => (c =? 32) || (c =? 9) || (c =? 10) || (c =? 12) || (c =? 13)) s = true -> gap s.
Proof. intro H. rewrite forallb_forall in H. apply Forall_forall. intros c I. specialize (H c I). unfold blank. lia. Qed.
Ltac gaps := apply blanks_gap; reflexivity.
Lemma joined_lead {A} (p sep : str) (f : A -> str) l : l <> [] -> joined sep (map (fun x => p ++ f x) l) = p ++ joined (sep ++ p) (map f l).
Proof.
  induction l as [|x [|y l] IH]; intro N; [congruence|reflexivity|]. specialize (IH ltac:(discriminate)).
  change (joined sep (map (fun x => p ++ f x) (x :: y :: l))) with ((p ++ f x) ++ sep ++ joined sep (map (fun x => p ++ f x) (y :: l))). rewrite IH.
  change (joined (sep ++ p) (map f (x :: y :: l))) with (f x ++ (sep ++ p) ++ joined (sep ++ p) (map f (y :: l))). now rewrite <- !app_assoc.
Qed.
Definition decl_core (m : Assembler.mode) (d : decl) : str :=
  d_name d ++ s_colon m ++ joined (s_comma m) (map group_text (d_groups d)) ++ (if d_important d then s_bang m ++ zs "important" else []).
Lemma styled_comma m : around "," (s_comma m). Proof. destruct m; [apply (tight_around [] "," (zs " "))|apply (tight_around [] "," [])|apply (tight_around [] "," (zs " "))|apply (tight_around [] "," [])]; gaps. Qed.
Lemma styled_decl m d : decl_laid d (decl_core m d).
Proof.
  unfold decl_laid, decl_core. apply tight; [reflexivity|]. apply tight; [destruct m; [apply (tight_around [] ":" (zs " "))|apply (tight_around [] ":" [])|apply (tight_around [] ":" (zs " "))|apply (tight_around [] ":" [])]; gaps|]. apply tight.
  - apply tight_between; [apply styled_comma|]. intro g. apply tight_between; [|reflexivity]. split; [gaps|discriminate].
  - destruct (d_important d); [|reflexivity]. apply tight; [|reflexivity]. destruct m; [apply (tight_around (zs " ") "!" [])|apply (tight_around [] "!" [])|apply (tight_around (zs " ") "!" [])|apply (tight_around [] "!" [])]; gaps.
Qed.
Lemma styled_complex m s : complex_laid s (complex_styled m s).
Proof.
  unfold complex_laid, complex_styled. apply tight; [reflexivity|]. apply tight_each. intros (k & q). cbn [fst snd]. apply tight; [|reflexivity].
  destruct k; cbn [link_laid link_styled].
  - split; [gaps|discriminate].
  - destruct m; [apply (tight_around (zs " ") ">" (zs " "))|apply (tight_around [] ">" [])|apply (tight_around (zs " ") ">" (zs " "))|apply (tight_around [] ">" [])]; gaps.
  - destruct m; [apply (tight_around (zs " ") "~" (zs " "))|apply (tight_around [] "~" [])|apply (tight_around (zs " ") "~" (zs " "))|apply (tight_around [] "~" [])]; gaps.
Qed.
Definition s_end (m : Assembler.mode) : str := by_style m (zs " }") (zs "}") (zs ";" ++ line ++ zs "}") (zs "}").
Definition s_after (m : Assembler.mode) : str := by_style m line [] line line.
Lemma rule_styled_core m r : r_decls r <> [] -> rule_styled m r =
  (joined (s_comma m) (map (complex_styled m) (r_selectors r)) ++ (s_open m ++ s_indent m) ++ joined (s_semi m ++ s_indent m) (map (decl_core m) (r_decls r)) ++ s_end m) ++ s_after m.
Proof.
  intro N. unfold rule_styled. change (map (decl_styled m) (r_decls r)) with (map (fun d => s_indent m ++ decl_core m d) (r_decls r)). rewrite joined_lead by exact N.
  replace (s_close m) with (s_end m ++ s_after m) by (destruct m; reflexivity). now rewrite <- !app_assoc.
Qed.
Lemma styled_sheet m l : Forall rule_ok l -> sheet_laid l (sheet_styled m l).
Proof.
  intro F. unfold sheet_laid. exists [], (sheet_styled m l). split; [reflexivity|]. split; [apply no_gap|]. unfold sheet_styled. induction F as [|r l (_ & _ & N & _) F IH]; [reflexivity|]. cbn [map each flat_map]. apply tight; [|exact IH].
  rewrite rule_styled_core by exact N. apply tight; [|destruct m; gaps]. unfold rule_laid.
  apply tight; [apply tight_between; [apply styled_comma|apply styled_complex]|].
  apply tight; [destruct m; [apply (tight_around (zs " ") "{" (zs " "))|apply (tight_around [] "{" [])|apply (tight_around line "{" (line ++ zs "  "))|apply (tight_around [] "{" [])]; gaps|].
  apply tight; [apply tight_between; [|apply styled_decl]; destruct m; [apply (tight_around [] ";" (zs " "))|apply (tight_around [] ";" [])|apply (tight_around [] ";" (line ++ zs "  "))|apply (tight_around [] ";" [])]; gaps|].
  destruct m; cbn [s_end by_style].
  - apply (tight _ _ [] (zs " }")); [now left|]. apply (tight _ _ (zs " ") (zs "}")); [gaps|reflexivity].
  - apply (tight _ _ [] (zs "}")); [now left|]. apply (tight _ _ [] (zs "}")); [gaps|reflexivity].
  - apply (tight _ _ (zs ";") (line ++ zs "}")); [right; apply (tight _ _ [] (zs ";")); [gaps|reflexivity]|]. apply (tight _ _ line (zs "}")); [gaps|reflexivity].
  - apply (tight _ _ [] (zs "}")); [now left|]. apply (tight _ _ [] (zs "}")); [gaps|reflexivity].
Qed.
Lemma tight_sheet l : Forall rule_ok l -> sheet_laid l (sheet_text l).
Proof. intro F. rewrite <- sheet_compressed. now apply styled_sheet. Qed.
