(** * The assembler on a compiled style sheet, in each style *)

From Coq Require Import String ZArith List Bool Lia Arith ZifyBool Floats.SpecFloat.
From Verif Require Import Base OutText DecText NodeHeap NodeProofs Assembler.
From Verif Require RoundUrl RoundIdent WholeLex WholeParse.
From Verif Require Import Trees WholeSpec StyleSpec WholeShape.
Import ListNotations.
Open Scope string_scope. Open Scope list_scope. Open Scope Z_scope.
Ltac Zify.zify_post_hook ::= idtac.

(** [f] sends [t] to the output and says nothing. *)
Definition writes (f : O unit) (t : str) : Prop := forall s, exists b, f s = Ret tt (mkO (o_text s ++ t) b (o_msgs s)).
Lemma writes_bind f g a b : writes f a -> writes g b -> writes (f ;;; g) (a ++ b).
Proof. intros F G s. destruct (F s) as (x & E). destruct (G (mkO (o_text s ++ a) x (o_msgs s))) as (y & E2). exists y. unfold obind. rewrite E, E2. cbn [o_text o_msgs]. now rewrite app_assoc. Qed.
Lemma writes_nil : writes (oret tt) [].
Proof. intros [t b m]. exists b. cbn. now rewrite app_nil_r. Qed.
Lemma writes_then g b : writes g b -> writes (oret tt ;;; g) b.
Proof. intro G. apply (writes_bind _ _ [] b writes_nil G). Qed.
Lemma writes_end f a : writes f a -> writes (f ;;; oret tt) a.
Proof. intro G. rewrite <- (app_nil_r a). apply (writes_bind _ _ _ _ G writes_nil). Qed.
Lemma writes_out t : writes (out t) t. Proof. intros s. eexists. reflexivity. Qed.
Lemma writes_impl t : writes (impl_string t) t.
Proof. unfold impl_string. destruct (rev t) as [|c r]; intro s; eexists; reflexivity. Qed.
Lemma writes_started b f t : writes f t -> writes (started b ;;; f) t.
Proof. intros W s. unfold obind at 1, started. destruct (W (mkO (o_text s) b (o_msgs s))) as (x & E). exists x. rewrite E. reflexivity. Qed.
(** What output_operator() writes. *)
Definition op_text (m : mode) (t : str) (f : flag) : str :=
  match f with
  | NoFlag => t
  | OptOperator => by_style m [] [] t []
  | OptSpaces => by_style m (zs " " ++ t ++ zs " ") t (zs " " ++ t ++ zs " ") t
  | OptBefore => by_style m (zs " " ++ t) t (zs " " ++ t) t
  | OptAfter => by_style m (t ++ zs " ") t (t ++ zs " ") t
  | OptSpacesNl => by_style m (zs " " ++ t ++ zs " ") t (line ++ t ++ line) t
  | OptBeforeNl => by_style m (zs " " ++ t) t (line ++ t) t
  | OptAfterNl => by_style m (t ++ zs " ") t (t ++ line) t
  end.
Lemma writes_operator m t f : writes (operator m t f) (op_text m t f).
Proof.
  unfold operator, expanded_operator, compact_operator, base_operator. destruct m, f; cbn [op_text by_style];
    first [apply writes_impl | apply writes_nil | apply writes_started; first [apply writes_out | apply writes_impl | apply writes_nil]].
Qed.
Lemma writes_is_text f t t' : writes f t -> t = t' -> writes f t'. Proof. now intros H <-. Qed.
Lemma writes_op m t f t' : op_text m t f = t' -> writes (operator m t f) t'. Proof. intros <-. apply writes_operator. Qed.
Lemma writes_newline m : writes (newline m) (by_style m line [] line line).
Proof. unfold newline. destruct m; cbn [by_style]; [|apply writes_nil| |]; apply writes_started; apply writes_out. Qed.
Lemma writes_indentation m : writes (indentation m) (s_indent m).
Proof. destruct m; [apply writes_nil|apply writes_nil|apply writes_out|apply writes_nil]. Qed.

Lemma word_id w : word w -> escape_id w = Some w.
Proof.
  intro H. pose proof (RoundIdent.escape_id_utf8s w (WholeLex.word_text w H)) as E. rewrite WholeLex.word_escape in E by exact H.
  rewrite !RoundUrl.utf8s_ascii in E by (pose proof (WholeLex.word_ascii _ H) as A; revert A; apply Forall_impl; intros; lia). exact E.
Qed.

(** ** Leaves *)
Definition leaf_text (m : mode) (s : shape) : str :=
  match s with Shape t w i _ _ =>
    match t with
    | IDENTIFIER => w | INTEGER => int_text i ++ w | HASH => zs "#" ++ w
    | WHITESPACE => zs " " | PERIOD => zs "." | GREATER_THAN => s_child m | PRECEDED => s_sibling m | _ => []
    end
  end.
Definition leaf_ok (s : shape) : Prop :=
  match s with Shape t w i _ _ =>
    match t with
    | IDENTIFIER => word w | INTEGER => 0 <= i < 9223372036854775808 /\ Forall small w
    | HASH | WHITESPACE | PERIOD | GREATER_THAN | PRECEDED => True | _ => False
    end
  end.
Lemma glue_text m (sep : list shape) l : flat_map (leaf_text m) (glue sep l) = joined (flat_map (leaf_text m) sep) (map (flat_map (leaf_text m)) l).
Proof.
  induction l as [|x [|y l] IH]; [reflexivity|reflexivity|]. change (glue sep (x :: y :: l)) with (x ++ sep ++ glue sep (y :: l)). rewrite !flat_map_app, IH. reflexivity.
Qed.
Lemma group_out m g : Forall value_ok g -> flat_map (leaf_text m) (group_leaves g) = group_text g /\ Forall leaf_ok (group_leaves g).
Proof.
  intro F. unfold group_leaves, group_text. rewrite glue_text. split.
  - change (flat_map (leaf_text m) [sign WHITESPACE]) with (zs " "). f_equal. rewrite map_map. rewrite Forall_forall in F. apply map_ext_in. intros [w|n u|w] I; [cbn; now rewrite app_nil_r|cbn; now rewrite app_nil_r|destruct (F _ I)].
  - apply WholeParse.forall_glue'; [repeat constructor|]. rewrite Forall_forall in *. intros l I. apply in_map_iff in I. destruct I as (v & <- & I). constructor; [|constructor]. specialize (F v I). destruct v as [w|n u|w]; cbn in *; [apply F|exact F|destruct F].
Qed.
Lemma compound_out m k : compound_ok k -> flat_map (leaf_text m) (compound_leaves k) = compound_text k /\ Forall leaf_ok (compound_leaves k).
Proof.
  intros (N & M). unfold compound_leaves, compound_text. rewrite flat_map_app.
  assert (Mk : flat_map (leaf_text m) (flat_map mark_leaves (k_marks k)) = flat_map mark_text (k_marks k) /\ Forall leaf_ok (flat_map mark_leaves (k_marks k))).
  { clear N. induction M as [|x l Hx M (IH1 & IH2)]; [split; constructor|]. cbn [flat_map]. rewrite flat_map_app, IH1. split.
    - destruct x; cbn; rewrite ?app_nil_r; reflexivity.
    - apply Forall_app. split; [destruct x; repeat constructor; exact Hx|exact IH2]. }
  destruct Mk as (M1 & M2). rewrite M1. split; [destruct (k_name k); cbn; rewrite ?app_nil_r; reflexivity|]. apply Forall_app. split; [|exact M2]. destruct (k_name k); repeat constructor. exact N.
Qed.
Lemma complex_out m s : complex_ok s -> flat_map (leaf_text m) (complex_leaves s) = complex_styled m s /\ Forall leaf_ok (complex_leaves s).
Proof.
  intros (F & _). unfold compounds in F. inversion F as [|? ? F1 F2]; subst. destruct (compound_out m _ F1) as (A1 & A2). unfold complex_leaves, complex_styled. rewrite flat_map_app, A1.
  assert (M : flat_map (leaf_text m) (flat_map (fun x => sign (link_type (fst x)) :: compound_leaves (snd x)) (s_more s)) = flat_map (fun x => link_styled m (fst x) ++ compound_text (snd x)) (s_more s) /\ Forall leaf_ok (flat_map (fun x => sign (link_type (fst x)) :: compound_leaves (snd x)) (s_more s))).
  { clear - F2. induction (s_more s) as [|(l & k) r IH]; [split; constructor|]. cbn [map snd] in F2. inversion F2 as [|? ? G1 G2]; subst. destruct (IH G2) as (B1 & B2). destruct (compound_out m _ G1) as (C1 & C2). cbn [flat_map fst snd]. rewrite flat_map_app, B1. cbn [flat_map]. rewrite C1. split.
    - destruct l; reflexivity.
    - apply Forall_app. split; [constructor; [destruct l; exact I|exact C2]|exact B2]. }
  destruct M as (M1 & M2). rewrite M1. split; [reflexivity|]. apply Forall_app. auto.
Qed.
Section Out.
  Variables (h : heap) (lm : libm) (prec : Z) (m : mode).
  Notation output := (Assembler.output h lm prec m).
  Notation read := (Assembler.read h).
  Lemma writes_read {A} a c (f : cell -> O A) : nth_error h a = Some c -> forall s, (c <- read a ;; f c) s = f c s.
  Proof. intros H s. unfold obind, Assembler.read. rewrite H. reflexivity. Qed.
  Lemma writes_read' a c (f : cell -> O unit) t : nth_error h a = Some c -> writes (f c) t -> writes (c <- read a ;; f c) t.
  Proof. intros H W s. rewrite (writes_read a c f H). apply W. Qed.
  Lemma writes_is a c t (f : bool -> O unit) x : nth_error h a = Some c -> writes (f (ntype_eqb (c_type c) t)) x -> writes (b <- is_a h a t ;; f b) x.
  Proof. intros H W s. unfold obind at 1, is_a, obind at 1, Assembler.read. rewrite H. apply W. Qed.
  Lemma on_arg f a c s : nth_error h a = Some c -> c_type c = ARG -> output (S f) a s = each (output f) (c_ch c) s.
  Proof. intros H T. cbn [Assembler.output]. rewrite (writes_read a _ _ H), T. reflexivity. Qed.
  Lemma on_declaration f a c s : nth_error h a = Some c -> c_type c = DECLARATION -> output (S f) a s =
    (indentation m ;;; out (NodeHeap.c_str c) ;;; operator m (zs ":") OptAfter ;;; separated h (output f) ARG (operator m (zs ",") OptAfter) (c_ch c) ;;;
      (if flag_mem (zs "important") (c_flags c) then operator m (zs "!") OptBefore ;;; out (zs "important") else oret tt)) s.
  Proof. intros H T. cbn [Assembler.output]. rewrite (writes_read a _ _ H), T. reflexivity. Qed.
  Lemma on_list f a c s : nth_error h a = Some c -> c_type c = LIST -> output (S f) a s = separated h (output f) DECLARATION (operator m (zs ";") OptAfterNl) (c_ch c) s.
  Proof. intros H T. cbn [Assembler.output]. rewrite (writes_read a _ _ H), T. reflexivity. Qed.
  Lemma on_block f a c s : nth_error h a = Some c -> c_type c = OPEN_CURLYBRACKET -> output (S f) a s = block h m (output f) (c_ch c) s.
  Proof. intros H T. cbn [Assembler.output]. rewrite (writes_read a _ _ H), T. reflexivity. Qed.
  Lemma on_rule f a c s : nth_error h a = Some c -> c_type c = COMPONENT_VALUE -> output (S f) a s = component_value h m (output f) true false (c_ch c) s.
  Proof. intros H T. cbn [Assembler.output]. rewrite (writes_read a _ _ H), T. reflexivity. Qed.
  Lemma leaf_out T f : holds h T -> leaf_ok (tree_shape T) -> writes (output (S f) (top T)) (leaf_text m (tree_shape T)).
  Proof.
    intros H L. pose proof (holds_top _ _ H) as Ha. destruct T as [a c l]. cbn [tree_shape top data kids leaf_ok leaf_text] in *. cbn [Assembler.output].
    apply (writes_read' _ _ _ _ Ha). cbn [c_type with_ch c_int]. destruct (c_type c) eqn:T; try contradiction.
    all: try (apply writes_op; destruct m; reflexivity). all: try apply writes_out.
    - cbn [NodeHeap.c_str with_ch]. rewrite (word_id _ L). apply writes_out.
    - change (writes (verify_dimension (with_ch c (map top l)) ;;; out (int_text (c_int c) ++ NodeHeap.c_str c)) ([] ++ (int_text (c_int c) ++ NodeHeap.c_str c))). apply writes_bind; [|apply writes_out]. unfold verify_dimension. cbn [NodeHeap.c_str with_ch].
      replace (existsb _ _) with false; [apply writes_nil|]. symmetry. destruct L as (_ & L). induction L as [|x r Hx _ IH]; [reflexivity|]. cbn [existsb]. rewrite IH. unfold small in Hx. lia.
  Qed.
  Lemma each_out f Ts : Forall (holds h) Ts -> Forall leaf_ok (map tree_shape Ts) -> writes (each (output (S f)) (map top Ts)) (flat_map (leaf_text m) (map tree_shape Ts)).
  Proof.
    induction 1 as [|T Ts H F IH]; intro L; [apply writes_nil|]. cbn [map flat_map each] in *. inversion L as [|? ? L1 L2]; subst. apply writes_bind; [now apply leaf_out|now apply IH].
  Qed.
  Lemma arg_out T f l : holds h T -> tree_shape T = arg_shape l -> Forall leaf_ok l -> writes (output (S (S f)) (top T)) (flat_map (leaf_text m) l).
  Proof.
    intros H E L. pose proof (holds_top _ _ H) as Ha. destruct T as [a c k]. cbn [tree_shape top data kids] in *. injection E as Tc _ _ _ Ek. apply holds_inv in H. destruct H as (_ & H).
    intro s0. rewrite (on_arg (S f) a _ s0 Ha Tc). cbn [c_ch with_ch]. rewrite <- Ek in *. exact (each_out f k H L s0).
  Qed.
  (** *** Lists *)
  Definition writing (f : nat) (T : tree) (t : str) : Prop := holds h T /\ writes (output f (top T)) t.
  Lemma separated_out f t sep w Ts ts : writes sep w -> Forall2 (writing f) Ts ts -> Forall (fun T => kind T = t) Ts -> writes (separated h (output f) t sep (map top Ts)) (joined w ts).
  Proof.
    intros Ws F. induction F as [|T s Ts ts (H & W) F IH]; intro K; [apply writes_nil|]. inversion K as [|? ? K1 K2]; subst. pose proof (holds_top _ _ H) as Ha.
    destruct F as [|T2 s2 Ts ts W2 F].
    - cbn [map separated joined]. rewrite <- (app_nil_r s). apply writes_bind; [exact W|]. apply (writes_is _ _ _ _ _ Ha). apply writes_nil.
    - change (map top (T :: T2 :: Ts)) with (top T :: top T2 :: map top Ts). change (map top (T2 :: Ts)) with (top T2 :: map top Ts) in IH. change (joined w (s :: s2 :: ts)) with (s ++ w ++ joined w (s2 :: ts)).
      change (separated h (output f) (kind T) sep (top T :: top T2 :: map top Ts)) with (output f (top T) ;;; b <- is_a h (top T) (kind T) ;; (if b : bool then sep else oret tt) ;;; separated h (output f) (kind T) sep (top T2 :: map top Ts)).
      apply writes_bind; [exact W|]. apply (writes_is _ _ _ (fun b => (if b : bool then sep else oret tt) ;;; separated h (output f) (kind T) sep (top T2 :: map top Ts)) _ Ha). cbn [c_type with_ch].
      replace (ntype_eqb (c_type (data T)) (kind T)) with true by (symmetry; apply ntype_eqb_spec; reflexivity). apply writes_bind; [exact Ws|]. apply IH. exact K2.
  Qed.
  Lemma plain_out f t sep Ts ts : Forall2 (writing f) Ts ts -> Forall (fun T => kind T <> t) Ts -> writes (separated h (output f) t sep (map top Ts)) (concat ts).
  Proof.
    intros F. induction F as [|T s Ts ts (H & W) F IH]; intro K; [apply writes_nil|]. inversion K as [|? ? K1 K2]; subst. pose proof (holds_top _ _ H) as Ha.
    destruct F as [|T2 s2 Ts ts W2 F].
    - cbn [map separated concat]. apply writes_bind; [exact W|]. apply (writes_is _ _ _ _ _ Ha). apply writes_nil.
    - change (map top (T :: T2 :: Ts)) with (top T :: top T2 :: map top Ts). change (map top (T2 :: Ts)) with (top T2 :: map top Ts) in IH. change (concat (s :: s2 :: ts)) with (s ++ concat (s2 :: ts)).
      change (separated h (output f) t sep (top T :: top T2 :: map top Ts)) with (output f (top T) ;;; b <- is_a h (top T) t ;; (if b : bool then sep else oret tt) ;;; separated h (output f) t sep (top T2 :: map top Ts)).
      apply writes_bind; [exact W|]. apply (writes_is _ _ _ (fun b => (if b : bool then sep else oret tt) ;;; separated h (output f) t sep (top T2 :: map top Ts)) _ Ha). cbn [c_type with_ch].
      replace (ntype_eqb (c_type (data T)) t) with false by (symmetry; apply ntype_eqb_neq; exact K1). apply writes_then. apply IH. exact K2.
  Qed.

  Lemma head_kind T : kind T = sh_type (tree_shape T). Proof. now destruct T. Qed.
  Lemma all_kinds t Ts : Forall (fun s => sh_type s = t) (map tree_shape Ts) -> Forall (fun T => kind T = t) Ts.
  Proof. induction Ts as [|T Ts IH]; cbn [map]; intro F; inversion F; subst; constructor; [apply head_kind|auto]. Qed.
  Lemma decl_out T f d : decl_ok d -> holds h T -> tree_shape T = done_decl d -> writes (output (S (S (S f))) (top T)) (decl_styled m d).
  Proof.
    intros (_ & _ & _ & Fg) H E. pose proof (holds_top _ _ H) as Ha. destruct T as [a c k]. cbn [tree_shape top data kids] in *. injection E as Tc Sc _ Fc Ek. apply holds_inv in H. destruct H as (_ & H).
    assert (F2 : Forall2 (writing (S (S f))) k (map group_text (d_groups d))).
    { clear - H Ek Fg. revert Fg. revert k H Ek. induction (d_groups d) as [|g gs IH]; intros [|T k] H Ek F; try discriminate; [constructor|]. cbn [map] in *. injection Ek as E1 E2. inversion H as [|? ? H1 H2]; subst. inversion F as [|? ? F1 F2]; subst.
      constructor; [|auto]. split; [exact H1|]. destruct (group_out m g (proj2 F1)) as (G1 & G2). rewrite <- G1. eapply arg_out; eauto. }
    assert (Kk : Forall (fun T => kind T = ARG) k). { apply all_kinds. rewrite Ek. rewrite Forall_forall. intros s I. apply in_map_iff in I. destruct I as (g & <- & _). reflexivity. }
    assert (W : writes (indentation m ;;; out (NodeHeap.c_str c) ;;; operator m (zs ":") OptAfter ;;; separated h (output (S (S f))) ARG (operator m (zs ",") OptAfter) (map top k) ;;;
      (if flag_mem (zs "important") (c_flags c) then operator m (zs "!") OptBefore ;;; out (zs "important") else oret tt)) (decl_styled m d)).
    { unfold decl_styled. rewrite Sc. apply writes_bind; [apply writes_indentation|]. apply writes_bind; [apply writes_out|]. apply writes_bind; [apply writes_op; destruct m; reflexivity|]. apply writes_bind.
      - apply separated_out; [apply writes_op; destruct m; reflexivity|exact F2|exact Kk].
      - rewrite Fc. destruct (d_important d).
        + replace (flag_mem (zs "important") [zs "important"]) with true by reflexivity. apply writes_bind; [apply writes_op; destruct m; reflexivity|apply writes_out].
        + apply writes_nil. }
    intro s0. rewrite (on_declaration _ a _ s0 Ha Tc). exact (W s0).
  Qed.
  Lemma decls_out f ds Ts : Forall decl_ok ds -> Forall (holds h) Ts -> map tree_shape Ts = map done_decl ds -> Forall2 (writing (S (S (S f)))) Ts (map (decl_styled m) ds) /\ Forall (fun T => kind T = DECLARATION) Ts.
  Proof.
    intros F H E. split.
    - revert Ts H E. induction F as [|d ds Hd F IH]; intros [|T Ts] H E; try discriminate; [constructor|]. cbn [map] in *. injection E as E1 E2. inversion H as [|? ? H1 H2]; subst. constructor; [|auto]. split; [exact H1|]. now apply decl_out.
    - apply all_kinds. rewrite E, Forall_forall. intros s I. apply in_map_iff in I. destruct I as (d & <- & _). reflexivity.
  Qed.
  Lemma block_out T f ds : ds <> [] -> Forall decl_ok ds -> holds h T -> tree_shape T = inner OPEN_CURLYBRACKET (match ds with [d] => [done_decl d] | l => [inner LIST (map done_decl l)] end) ->
    writes (output (S (S (S (S (S f))))) (top T)) (s_open m ++ joined (s_semi m) (map (decl_styled m) ds) ++ s_close m).
  Proof.
    intros Ne Fd H E. pose proof (holds_top _ _ H) as Ha. destruct T as [a c k]. cbn [tree_shape top data kids] in *. injection E as Tc _ _ _ Ek. apply holds_inv in H. destruct H as (_ & H).
    assert (W : writes (separated h (output (S (S (S (S f))))) DECLARATION (operator m (zs ";") OptAfterNl) (map top k)) (joined (s_semi m) (map (decl_styled m) ds))).
    { destruct ds as [|d [|d2 ds]]; [congruence| |].
      - destruct (decls_out (S f) [d] k Fd H Ek) as (A & B). apply separated_out; [apply writes_op; destruct m; reflexivity|exact A|exact B].
      - set (dl := d :: d2 :: ds) in *. assert (exists L, k = [L] /\ tree_shape L = inner LIST (map done_decl dl)) as (L & -> & El). { destruct k as [|L [|? ?]]; cbn [map] in Ek; try discriminate. injection Ek as Ek. exists L. auto. } clearbody dl.
        inversion H as [|? ? HL _]; subst. rewrite <- (app_nil_r (joined (s_semi m) (map (decl_styled m) dl))). change (joined (s_semi m) (map (decl_styled m) dl) ++ []) with (concat [joined (s_semi m) (map (decl_styled m) dl)]).
        apply plain_out; [|constructor; [rewrite head_kind, El; discriminate|constructor]]. constructor; [|constructor]. split; [exact HL|].
        pose proof (holds_top _ _ HL) as Hl. destruct L as [b cb kl]. cbn [tree_shape top data kids] in *. injection El as Tb _ _ _ El. apply holds_inv in HL. destruct HL as (_ & HL). destruct (decls_out f dl kl Fd HL El) as (A & B).
        intro s0. rewrite (on_list _ b _ s0 Hl Tb). cbn [c_ch with_ch].
        exact (separated_out (S (S (S f))) DECLARATION (operator m (zs ";") OptAfterNl) (s_semi m) kl _ ltac:(apply writes_op; destruct m; reflexivity) A B s0). }
    assert (W2 : writes (block h m (output (S (S (S (S f))))) (map top k)) (s_open m ++ joined (s_semi m) (map (decl_styled m) ds) ++ s_close m)).
    { unfold block. apply writes_bind; [apply writes_op; destruct m; reflexivity|]. apply writes_bind; [exact W|]. eapply writes_is_text; [apply writes_bind; [apply writes_operator|]; apply writes_bind; [apply writes_operator|apply writes_newline]|]. destruct m; reflexivity. }
    intro s0. rewrite (on_block _ a _ s0 Ha Tc). cbn [c_ch with_ch]. exact (W2 s0).
  Qed.
  (** Selectors, then the block. *)
  Lemma selectors_out f ss : forall As B first has t, Forall complex_ok ss -> Forall (holds h) As -> map tree_shape As = map (fun s => arg_shape (complex_leaves s)) ss -> kind B = OPEN_CURLYBRACKET -> writing (S (S f)) B t ->
    (ss = [] -> has = true) ->
    writes (component_value h m (output (S (S f))) first has (map top As ++ [top B])) ((if first then joined (s_comma m) (map (complex_styled m) ss) else flat_map (fun s => s_comma m ++ complex_styled m s) ss) ++ t).
  Proof.
    induction ss as [|s ss IH]; intros As B first has t Fs H E KB WB Hh; destruct As as [|A As]; try discriminate.
    - rewrite (Hh eq_refl). cbn [map app component_value]. destruct WB as (HB & WB). pose proof (holds_top _ _ HB) as Hb. 
      destruct first; cbn [joined flat_map app]; apply (writes_read' _ _ _ _ Hb); cbn [c_type with_ch]; unfold kind in KB; rewrite KB; cbv iota; apply writes_end; exact WB.
    - cbn [map] in E. injection E as E1 E2. inversion Fs as [|? ? F1 F2]; subst. inversion H as [|? ? H1 H2]; subst. destruct (complex_out m s F1) as (C1 & C2). pose proof (arg_out A f _ H1 E1 C2) as WA. rewrite C1 in WA.
      pose proof (holds_top _ _ H1) as Ha. assert (TA : c_type (data A) = ARG) by (change (kind A = ARG); rewrite head_kind, E1; reflexivity).
      cbn [map app component_value]. apply (writes_read' _ _ _ _ Ha). cbn [c_type with_ch c_ch]. rewrite TA. cbv iota.
      assert (Pl : forall s0, (match rev (map top (kids A)) with [] => oret false | z :: _ => is_a h z PLACEHOLDER end) s0 = Ret false s0).
      { intro s0. destruct (rev (map top (kids A))) as [|z r] eqn:R; [reflexivity|]. assert (Iz : In z (map top (kids A))) by (apply in_rev; rewrite R; now left). apply in_map_iff in Iz. destruct Iz as (Q & <- & Iq).
        destruct A as [a0 c0 k0]. apply holds_inv in H1. destruct H1 as (_ & H1). cbn [kids tree_shape] in *. injection E1 as _ _ _ _ E1. rewrite Forall_forall in H1, C2. pose proof (holds_top _ _ (H1 Q Iq)) as Hq. unfold is_a, obind, Assembler.read. rewrite Hq. unfold oret. f_equal. apply ntype_eqb_neq.
        assert (LQ : leaf_ok (tree_shape Q)) by (apply C2; rewrite <- E1; now apply in_map). destruct Q as [q1 q2 q3]. cbn [tree_shape leaf_ok data c_type with_ch] in *. intro X. rewrite X in LQ. exact LQ. }
      assert (W : writes ((if first then oret tt else operator m (zs ",") OptAfter) ;;; output (S (S f)) (top A) ;;; component_value h m (output (S (S f))) false true (map top As ++ [top B]))
        ((if first then joined (s_comma m) (map (complex_styled m) (s :: ss)) else flat_map (fun s => s_comma m ++ complex_styled m s) (s :: ss)) ++ t)).
      { assert (Jn : joined (s_comma m) (map (complex_styled m) (s :: ss)) = complex_styled m s ++ flat_map (fun s => s_comma m ++ complex_styled m s) ss).
        { clear. revert s. induction ss as [|x ss IH]; intro s; [cbn; now rewrite app_nil_r|]. change (joined (s_comma m) (map (complex_styled m) (s :: x :: ss))) with (complex_styled m s ++ s_comma m ++ joined (s_comma m) (map (complex_styled m) (x :: ss))). rewrite IH. cbn [flat_map]. rewrite !app_assoc. reflexivity. }
        pose proof (IH As B false true t F2 H2 E2 KB WB ltac:(auto)) as Wr. cbv iota in Wr. destruct first.
        - rewrite Jn. rewrite <- app_assoc. apply writes_then. apply writes_bind; [exact WA|exact Wr].
        - cbn [flat_map]. rewrite <- !app_assoc. apply writes_bind; [apply writes_op; destruct m; reflexivity|]. apply writes_bind; [exact WA|exact Wr]. }
      intro s0. unfold obind at 1. rewrite Pl. exact (W s0).
  Qed.
  Lemma rule_out T f r : rule_ok r -> holds h T -> tree_shape T = done_rule r -> writes (output (S (S (S (S (S (S f)))))) (top T)) (rule_styled m r).
  Proof.
    intros (Nr & Fs & Nd & Fd) H E. pose proof (holds_top _ _ H) as Ha. destruct T as [a c k]. cbn [tree_shape top data kids] in *. unfold done_rule, inner at 1 in E. injection E as Tc _ _ _ Ek. apply holds_inv in H. destruct H as (_ & H).
    apply map_eq_app in Ek. destruct Ek as (As & Bs & -> & EA & EB). destruct Bs as [|B [|? ?]]; try discriminate. change (map tree_shape [B]) with [tree_shape B] in EB. assert (EB' := f_equal (hd (sign COMMA)) EB). cbn [hd] in EB'. clear EB. apply Forall_app in H. destruct H as (HA & HB). inversion HB as [|? ? HB1 _]; subst.
    assert (WB : writing (S (S (S (S (S f))))) B (s_open m ++ joined (s_semi m) (map (decl_styled m) (r_decls r)) ++ s_close m)) .
    { split; [exact HB1|]. apply block_out; [exact Nd|exact Fd|exact HB1|]. rewrite EB'. destruct (r_decls r) as [|? [|? ?]]; reflexivity. }
    assert (KB : kind B = OPEN_CURLYBRACKET) by (rewrite head_kind, EB'; reflexivity).
    pose proof (selectors_out (S (S (S f))) (r_selectors r) As B true false _ Fs HA EA KB WB ltac:(congruence)) as W. cbv iota in W.
    intro s0. rewrite (on_rule _ a _ s0 Ha Tc). cbn [c_ch with_ch]. rewrite map_app. exact (W s0).
  Qed.
  Lemma sheet_out T f l : Forall rule_ok l -> holds h T -> tree_shape T = done_sheet l -> (7 <= f)%nat -> writes (output f (top T)) (sheet_styled m l).
  Proof.
    intros Fr H E L. do 7 (destruct f as [|f]; [lia|]). pose proof (holds_top _ _ H) as Ha. destruct T as [a c k]. cbn [tree_shape top data kids] in *. unfold done_sheet, inner in E. injection E as Tc _ _ _ Ek. apply holds_inv in H. destruct H as (_ & H).
    assert (F2 : Forall2 (writing (S (S (S (S (S (S f))))))) k (map (rule_styled m) l)).
    { clear - H Ek Fr. revert k H Ek. induction Fr as [|r l Hr F IH]; intros [|T k] H Ek; try discriminate; [constructor|]. cbn [map] in *. injection Ek as E1 E2. inversion H as [|? ? H1 H2]; subst. constructor; [|auto]. split; [exact H1|]. now apply rule_out. }
    assert (K : Forall (fun T => kind T <> DECLARATION) k).
    { assert (K0 : Forall (fun T => kind T = COMPONENT_VALUE) k) by (apply all_kinds; rewrite Ek, Forall_forall; intros s I; apply in_map_iff in I; destruct I as (r & <- & _); reflexivity). revert K0. apply Forall_impl. intros T ->. discriminate. }
    pose proof (plain_out _ DECLARATION (operator m (zs ";") OptAfterNl) k _ F2 K) as W. unfold sheet_styled. rewrite flat_map_concat_map.
    intro s0. rewrite (on_list _ a _ s0 Ha Tc). cbn [c_ch with_ch]. exact (W s0).
  Qed.
End Out.
