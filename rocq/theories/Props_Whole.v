(** * C66-C70: from a text to a text

    WholeSpec.v says what a compressed style sheet is, LaySpec.v what its layouts are,
    StyleSpec.v its text in each style; Pipeline.translate is the
    whole of the program (lexer, parser, the passes of compile(), assembler). *)

From Coq Require Import String ZArith List Bool Lia Floats.SpecFloat.
From Verif Require Import Base NodeHeap.
From Verif Require Lexer Parser Expr Functions Selector Assembler NodeText.
From Verif Require Import Compiler Compile Pipeline WholeSpec LaySpec StyleSpec.
From Verif Require WholeMain.
Import ListNotations.
Open Scope string_scope. Open Scope list_scope. Open Scope Z_scope.

(** No field of the style sheet takes '/' as a separator of its values (the
    scripts of the distribution have border-radius only, which csspp rewrites). *)
Definition no_slash_field (o : outside) (l : list rule) : Prop :=
  Forall (fun r => Forall (fun d => o_slash o (d_name d) = false) (r_decls r)) l.

(** C66. A style sheet which is compressed CSS comes out as it was, byte for
    byte, and no message is written. *)
Theorem c66_unchanged : forall o l fuel,
  l <> [] -> Forall rule_ok l -> no_slash_field o l ->
  Z.of_nat (length (sheet_text l)) < 2 ^ 60 -> (8 * length (sheet_text l) + 12 <= fuel)%nat ->
  translate o fuel Assembler.COMPRESSED (sheet_text l) = Ret (Some (sheet_text l)) [].
Proof. intros. rewrite <- WholeMain.sheet_compressed at 2. apply WholeMain.sheet_same; try assumption. now apply WholeMain.tight_sheet. Qed.

(** Two such style sheets with the same output are the same text: nothing is lost. *)
Theorem c66_injective : forall o l1 l2 fuel,
  l1 <> [] -> Forall rule_ok l1 -> no_slash_field o l1 -> l2 <> [] -> Forall rule_ok l2 -> no_slash_field o l2 ->
  Z.of_nat (length (sheet_text l1)) < 2 ^ 60 -> Z.of_nat (length (sheet_text l2)) < 2 ^ 60 ->
  (8 * length (sheet_text l1) + 12 <= fuel)%nat -> (8 * length (sheet_text l2) + 12 <= fuel)%nat ->
  translate o fuel Assembler.COMPRESSED (sheet_text l1) = translate o fuel Assembler.COMPRESSED (sheet_text l2) -> sheet_text l1 = sheet_text l2.
Proof.
  intros o l1 l2 fuel A1 A2 A3 B1 B2 B3 C1 C2 D1 D2 E. rewrite !c66_unchanged in E by assumption. now injection E.
Qed.

(** A style sheet the theorems apply to. *)
Module Example66.
  Definition w (s : string) : complex := mkComplex (mkCompound (Some (zs s)) []) [].
  Definition sheet : list rule :=
    [mkRule [mkComplex (mkCompound (Some (zs "ul")) [Class (zs "menu"); Id (zs "top")]) [(Inside, mkCompound None [Class (zs "item-2")]); (Child, mkCompound (Some (zs "a")) [])]; w "h1"]
       [mkDecl (zs "margin") [[Size 0 []; Size 12 (zs "px"); Word (zs "auto")]] true;
        mkDecl (zs "font-family") [[Word (zs "verdana")]; [Word (zs "sans-serif")]] false];
     mkRule [mkComplex (mkCompound (Some (zs "p")) []) [(Sibling, mkCompound (Some (zs "em")) [])]] [mkDecl (zs "width") [[Size 9223372036854775807 (zs "em")]] false]].
  Example text : sheet_text sheet = zs "ul.menu#top .item-2>a,h1{margin:0 12px auto!important;font-family:verdana,sans-serif}p~em{width:9223372036854775807em}".
  Proof. reflexivity. Qed.
  Ltac wd := cbn; repeat match goal with |- _ /\ _ => split | |- Forall _ _ => constructor end; unfold small, numeral; try lia.
  Example meets : sheet <> [] /\ Forall rule_ok sheet /\ (forall o, (forall f, o_slash o f = scripts_slash f) -> no_slash_field o sheet) /\ Z.of_nat (length (sheet_text sheet)) < 2 ^ 60.
  Proof.
    split; [discriminate|]. split; [|split; [|reflexivity]].
    - assert (Wd : forall s, forallb (fun c => ((97 <=? c) && (c <=? 122)) || ((48 <=? c) && (c <=? 57)) || (c =? 45)) (zs s) = true -> (match zs s with c :: _ => (97 <=? c) && (c <=? 122) | [] => false end) = true -> word (zs s)).
      { intros s A B. unfold word. destruct (zs s) as [|c r]; [discriminate|]. split; [unfold small; lia|]. cbn [forallb] in A. apply andb_prop in A. destruct A as (_ & A). rewrite forallb_forall in A. apply Forall_forall. intros x I. specialize (A x I). unfold small, numeral. lia. }
      assert (Wv : forall s, word (zs s) -> existsb (str_eqb (zs s)) reserved = false -> is_colour (zs s) = false -> value_ok (Word (zs s))).
      { intros s A B D. split; [exact A|]. split; [|exact D]. intro I. assert (existsb (str_eqb (zs s)) reserved = true) by (apply existsb_exists; exists (zs s); split; [exact I|apply str_eqb_refl]). congruence. }
      assert (Sm : forall s, forallb (fun c => (97 <=? c) && (c <=? 122)) (zs s) = true -> Forall small (zs s)).
      { intros s A. rewrite forallb_forall in A. apply Forall_forall. intros x I. specialize (A x I). unfold small. lia. }
      unfold sheet. constructor; [|constructor; [|constructor]]; unfold rule_ok; cbn [r_selectors r_decls]; (split; [discriminate|]); split.
      + constructor; [|constructor; [|constructor]]; split.
        * unfold compounds. cbn [map snd s_first s_more]. repeat (constructor; [split; cbn [k_name k_marks]; [first [discriminate|apply Wd; reflexivity]|repeat (constructor; [apply Wd; reflexivity|]); constructor]|]). constructor.
        * cbn. lia.
        * unfold compounds. cbn [map snd s_first s_more w]. repeat (constructor; [split; cbn [k_name k_marks]; [first [discriminate|apply Wd; reflexivity]|repeat (constructor; [apply Wd; reflexivity|]); constructor]|]). constructor.
        * cbn. lia.
      + split; [discriminate|]. constructor; [|constructor; [|constructor]]; unfold decl_ok; cbn [d_name d_groups]; (split; [apply Wd; reflexivity|]); (split; [discriminate|]); (split; [discriminate|]).
        * constructor; [|constructor]. split; [discriminate|]. constructor; [split; [lia|constructor]|]. constructor; [split; [lia|apply Sm; reflexivity]|]. constructor; [apply Wv; [apply Wd|reflexivity|]; reflexivity|constructor].
        * constructor; [|constructor; [|constructor]]; (split; [discriminate|]); (constructor; [apply Wv; [apply Wd|reflexivity|]; reflexivity|constructor]).
      + constructor; [|constructor]; split.
        * unfold compounds. cbn [map snd s_first s_more]. repeat (constructor; [split; cbn [k_name k_marks]; [first [discriminate|apply Wd; reflexivity]|repeat (constructor; [apply Wd; reflexivity|]); constructor]|]). constructor.
        * cbn. lia.
      + split; [discriminate|]. constructor; [|constructor]. unfold decl_ok; cbn [d_name d_groups]. split; [apply Wd; reflexivity|]. split; [discriminate|]. split; [discriminate|]. constructor; [|constructor]. split; [discriminate|]. constructor; [split; [lia|apply Sm; reflexivity]|constructor].
    - intros o H. unfold no_slash_field, sheet. repeat constructor; rewrite H; reflexivity.
  Qed.
End Example66.

(** C69. The layout does not matter: however a plain style sheet is laid out
    (LaySpec.v: any white space where CSS allows it, of any length, and a ';' or
    none after the last declaration of a rule) it is translated to its compressed
    text, and no message is written. *)
Theorem c69_layout : forall o l t fuel,
  l <> [] -> Forall rule_ok l -> no_slash_field o l -> sheet_laid l t ->
  Z.of_nat (length (sheet_text l)) < 2 ^ 60 -> (8 * length (sheet_text l) + 12 <= fuel)%nat ->
  translate o fuel Assembler.COMPRESSED t = Ret (Some (sheet_text l)) [].
Proof. intros. rewrite <- WholeMain.sheet_compressed. now apply WholeMain.sheet_same. Qed.

(** C67. "Every text is translated or refused with a message": there are texts
    which end with an exception nobody catches. *)
Theorem c67_lone_field_refuted : forall o, exists m, translate o 30 Assembler.COMPRESSED (zs "a { *color; }") = Throw XChildRange m.
Proof. intro o. eexists. vm_compute. reflexivity. Qed.
Theorem c67_comment_refuted : forall o, exists m, translate o 30 Assembler.COMPRESSED (zs "a { /* @preserve hi */ color: red; b: c }") = Throw XNodeType m.
Proof. intro o. eexists. vm_compute. reflexivity. Qed.
Theorem c67_null_refuted : forall o, exists m, translate o 30 Assembler.COMPRESSED (zs "$e: null; $a: $e b; x { c: y $a; }") = Throw XChildRange m.
Proof. intro o. eexists. vm_compute. reflexivity. Qed.
(** It holds of the plain style sheets, however they are laid out. *)
Theorem c67_plain_partial : forall o l t fuel mode,
  l <> [] -> Forall rule_ok l -> no_slash_field o l -> sheet_laid l t -> Z.of_nat (length (sheet_text l)) < 2 ^ 60 -> (8 * length (sheet_text l) + 12 <= fuel)%nat ->
  exists u, translate o fuel mode t = Ret (Some u) [].
Proof. intros o l t fuel mode A B D L E F. exists (sheet_styled mode l). now apply WholeMain.sheet_same. Qed.

(** C68. "The separators and the flags of a declaration are kept": they are for
    the ',' and !important of C66, not for the '/' of border-radius nor for an
    unknown flag, and no message says so. *)
Theorem c68_slash_refuted : forall env read checks,
  translate (mkOut env read checks scripts_metrics scripts_slash) 30 Assembler.COMPRESSED (zs "a { border-radius: 1em / 5em; }") = Ret (Some (zs "a{border-radius:1em,5em}")) [].
Proof. intros. vm_compute. reflexivity. Qed.
Theorem c68_flag_refuted : forall env read checks,
  translate (mkOut env read checks scripts_metrics scripts_slash) 30 Assembler.COMPRESSED (zs "a { color: red !ie; }") = Ret (Some (zs "a{color:red}")) [].
Proof. intros. vm_compute. reflexivity. Qed.
(** What is kept: a declaration on its own, with its groups, its values in order
    and its !important. *)
Theorem c68_kept_partial : forall o s d t fuel,
  complex_ok s -> decl_ok d -> o_slash o (d_name d) = false -> sheet_laid [mkRule [s] [d]] t ->
  Z.of_nat (length (sheet_text [mkRule [s] [d]])) < 2 ^ 60 -> (8 * length (sheet_text [mkRule [s] [d]]) + 12 <= fuel)%nat ->
  translate o fuel Assembler.COMPRESSED t = Ret (Some (complex_text s ++ zs "{" ++ decl_text d ++ zs "}")) [].
Proof.
  intros o s d t fuel A B D L E F. rewrite (c69_layout o [mkRule [s] [d]]); try assumption; [|discriminate| |].
  - unfold sheet_text. cbn. rewrite ?app_nil_r. reflexivity.
  - constructor; [|constructor]. repeat split; try discriminate; constructor; try assumption; constructor.
  - constructor; [|constructor]. constructor; [exact D|constructor].
Qed.

(** C69, continued. Two layouts of one style sheet are translated to the same text. *)
Theorem c69_same : forall o l t1 t2 fuel,
  l <> [] -> Forall rule_ok l -> no_slash_field o l -> sheet_laid l t1 -> sheet_laid l t2 ->
  Z.of_nat (length (sheet_text l)) < 2 ^ 60 -> (8 * length (sheet_text l) + 12 <= fuel)%nat ->
  translate o fuel Assembler.COMPRESSED t1 = translate o fuel Assembler.COMPRESSED t2.
Proof. intros. now rewrite !(c69_layout o l) by assumption. Qed.
(** Translating the output again changes nothing. *)
Theorem c69_settled : forall o l t u m fuel,
  l <> [] -> Forall rule_ok l -> no_slash_field o l -> sheet_laid l t ->
  Z.of_nat (length (sheet_text l)) < 2 ^ 60 -> (8 * length (sheet_text l) + 12 <= fuel)%nat ->
  translate o fuel Assembler.COMPRESSED t = Ret (Some u) m -> translate o fuel Assembler.COMPRESSED u = Ret (Some u) [].
Proof. intros o l t u m fuel A B D E F G H. rewrite (c69_layout o l t fuel) in H by assumption. injection H as <- <-. now apply c66_unchanged. Qed.
(** Layouts are layouts of one text only. *)
Theorem c69_one : forall o l1 l2 t fuel,
  l1 <> [] -> Forall rule_ok l1 -> no_slash_field o l1 -> l2 <> [] -> Forall rule_ok l2 -> no_slash_field o l2 ->
  Z.of_nat (length (sheet_text l1)) < 2 ^ 60 -> Z.of_nat (length (sheet_text l2)) < 2 ^ 60 ->
  (8 * length (sheet_text l1) + 12 <= fuel)%nat -> (8 * length (sheet_text l2) + 12 <= fuel)%nat ->
  sheet_laid l1 t -> sheet_laid l2 t -> sheet_text l1 = sheet_text l2.
Proof.
  intros o l1 l2 t fuel A1 A2 A3 B1 B2 B3 C1 C2 D1 D2 L1 L2. pose proof (c69_layout o l1 t fuel A1 A2 A3 L1 C1 D1) as E. rewrite (c69_layout o l2 t fuel B1 B2 B3 L2 C2 D2) in E. now injection E.
Qed.
Module Example69.
  Import Example66.
  Definition newline : string := String (Ascii.ascii_of_nat 10) "".
  Definition indent : string := String (Ascii.ascii_of_nat 13) (String (Ascii.ascii_of_nat 10) (String (Ascii.ascii_of_nat 9) "")).
  Definition text69 : str :=
    zs newline ++ zs "ul.menu#top  .item-2 > a ," ++ zs newline ++ zs "h1" ++ zs newline ++ zs "{" ++ zs indent ++ zs "margin : 0 12px   auto ! important;"
    ++ zs indent ++ zs "font-family: verdana, sans-serif;" ++ zs newline ++ zs "}" ++ zs newline ++ zs "p ~em{ width:9223372036854775807em }" ++ zs newline.
  Ltac cut s := match goal with |- (_ # _) ?t => exists (zs s), (skipn (length (zs s)) t); split; [reflexivity|split; [try reflexivity|cbn [skipn length zs list_ascii_of_string map]]] end.
  Example laid : sheet_laid sheet text69.
  Proof.
    assert (B : forall s, forallb (fun c => (c =? 32) || (c =? 9) || (c =? 10) || (c =? 12) || (c =? 13)) s = true -> gap s).
    { intros s H. rewrite forallb_forall in H. apply Forall_forall. intros c I. specialize (H c I). unfold blank. lia. }
    assert (Sp : forall s, forallb (fun c => (c =? 32) || (c =? 9) || (c =? 10) || (c =? 12) || (c =? 13)) s = true -> s <> [] -> space s) by (intros; split; auto).
    assert (Ar : forall s (a b : str), gap a -> gap b -> around s (a ++ zs s ++ b)).
    { intros s a b Ha Hb. exists a, (zs s ++ b). split; [reflexivity|]. split; [exact Ha|]. exists (zs s), b. split; [reflexivity|]. split; [reflexivity|exact Hb]. }
    unfold sheet_laid, sheet, text69. cut newline; [now apply B|]. cbn [map each].
    assert (R1 : rule_laid (nth 0 sheet (mkRule [] [])) (zs "ul.menu#top  .item-2 > a ," ++ zs newline ++ zs "h1" ++ zs newline ++ zs "{" ++ zs indent ++ zs "margin : 0 12px   auto ! important;"
      ++ zs indent ++ zs "font-family: verdana, sans-serif;" ++ zs newline ++ zs "}")).
    { unfold rule_laid. cbn [nth sheet r_selectors r_decls map between].
      exists (zs "ul.menu#top  .item-2 > a ," ++ zs newline ++ zs "h1"), (zs newline ++ zs "{" ++ zs indent ++ zs "margin : 0 12px   auto ! important;" ++ zs indent ++ zs "font-family: verdana, sans-serif;" ++ zs newline ++ zs "}"). split; [reflexivity|]. split.
      - exists (zs "ul.menu#top  .item-2 > a"), (zs " ," ++ zs newline ++ zs "h1"). split; [reflexivity|]. split.
        + unfold complex_laid. cbn [s_first s_more map each fst snd link_laid]. exists (zs "ul.menu#top"), (zs "  .item-2 > a"). split; [reflexivity|]. split; [reflexivity|].
          exists (zs "  .item-2"), (zs " > a"). split; [reflexivity|]. split.
          * exists (zs "  "), (zs ".item-2"). split; [reflexivity|]. split; [apply Sp; [reflexivity|discriminate]|reflexivity].
          * exists (zs " > a"), []. split; [reflexivity|]. split; [|reflexivity]. exists (zs " > "), (zs "a"). split; [reflexivity|]. split; [apply (Ar ">" (zs " ") (zs " ")); apply B; reflexivity|reflexivity].
        + exists (zs " ," ++ zs newline), (zs "h1"). split; [reflexivity|]. split; [apply (Ar "," (zs " ") (zs newline)); apply B; reflexivity|]. exists (zs "h1"), []. split; [reflexivity|]. split; reflexivity.
      - exists (zs newline ++ zs "{" ++ zs indent), (zs "margin : 0 12px   auto ! important;" ++ zs indent ++ zs "font-family: verdana, sans-serif;" ++ zs newline ++ zs "}"). split; [reflexivity|]. split; [apply Ar; apply B; reflexivity|].
        exists (zs "margin : 0 12px   auto ! important;" ++ zs indent ++ zs "font-family: verdana, sans-serif"), (zs ";" ++ zs newline ++ zs "}"). split; [reflexivity|]. split.
        + exists (zs "margin : 0 12px   auto ! important"), (zs ";" ++ zs indent ++ zs "font-family: verdana, sans-serif"). split; [reflexivity|]. split.
          * unfold decl_laid. cbn [d_name d_groups d_important map between]. exists (zs "margin"), (zs " : 0 12px   auto ! important"). split; [reflexivity|]. split; [reflexivity|].
            exists (zs " : "), (zs "0 12px   auto ! important"). split; [reflexivity|]. split; [apply (Ar ":" (zs " ") (zs " ")); apply B; reflexivity|].
            exists (zs "0 12px   auto"), (zs " ! important"). split; [reflexivity|]. split.
            -- unfold group_laid. cbn [map between]. exists (zs "0"), (zs " 12px   auto"). split; [reflexivity|]. split; [reflexivity|]. exists (zs " "), (zs "12px   auto"). split; [reflexivity|]. split; [apply Sp; [reflexivity|discriminate]|].
               exists (zs "12px"), (zs "   auto"). split; [reflexivity|]. split; [reflexivity|]. exists (zs "   "), (zs "auto"). split; [reflexivity|]. split; [apply Sp; [reflexivity|discriminate]|reflexivity].
            -- exists (zs " ! "), (zs "important"). split; [reflexivity|]. split; [apply (Ar "!" (zs " ") (zs " ")); apply B; reflexivity|reflexivity].
          * exists (zs ";" ++ zs indent), (zs "font-family: verdana, sans-serif"). split; [reflexivity|]. split; [apply (Ar ";" [] (zs indent)); apply B; reflexivity|].
            unfold decl_laid. cbn [d_name d_groups d_important map between]. exists (zs "font-family"), (zs ": verdana, sans-serif"). split; [reflexivity|]. split; [reflexivity|].
            exists (zs ": "), (zs "verdana, sans-serif"). split; [reflexivity|]. split; [apply (Ar ":" [] (zs " ")); apply B; reflexivity|].
            exists (zs "verdana, sans-serif"), []. split; [reflexivity|]. split; [|reflexivity]. exists (zs "verdana"), (zs ", sans-serif"). split; [reflexivity|]. split; [reflexivity|].
            exists (zs ", "), (zs "sans-serif"). split; [reflexivity|]. split; [apply (Ar "," [] (zs " ")); apply B; reflexivity|reflexivity].
        + exists (zs ";"), (zs newline ++ zs "}"). split; [reflexivity|]. split; [right; exists [], (zs ";"); split; [reflexivity|]; split; [apply B; reflexivity|reflexivity]|].
          exists (zs newline), (zs "}"). split; [reflexivity|]. split; [apply B; reflexivity|reflexivity]. }
    assert (R2 : rule_laid (nth 1 sheet (mkRule [] [])) (zs "p ~em{ width:9223372036854775807em }")).
    { unfold rule_laid. cbn [nth sheet r_selectors r_decls map between]. exists (zs "p ~em"), (zs "{ width:9223372036854775807em }"). split; [reflexivity|]. split.
      - unfold complex_laid. cbn [s_first s_more map each fst snd link_laid]. exists (zs "p"), (zs " ~em"). split; [reflexivity|]. split; [reflexivity|]. exists (zs " ~em"), []. split; [reflexivity|]. split; [|reflexivity].
        exists (zs " ~"), (zs "em"). split; [reflexivity|]. split; [apply (Ar "~" (zs " ") []); apply B; reflexivity|reflexivity].
      - exists (zs "{ "), (zs "width:9223372036854775807em }"). split; [reflexivity|]. split; [apply (Ar "{" [] (zs " ")); apply B; reflexivity|].
        exists (zs "width:9223372036854775807em"), (zs " }"). split; [reflexivity|]. split.
        + unfold decl_laid. cbn [d_name d_groups d_important map between]. exists (zs "width"), (zs ":9223372036854775807em"). split; [reflexivity|]. split; [reflexivity|].
          exists (zs ":"), (zs "9223372036854775807em"). split; [reflexivity|]. split; [apply (Ar ":" [] []); apply B; reflexivity|]. exists (zs "9223372036854775807em"), []. split; [reflexivity|]. split; reflexivity.
        + exists [], (zs " }"). split; [reflexivity|]. split; [left; reflexivity|]. exists (zs " "), (zs "}"). split; [reflexivity|]. split; [apply B; reflexivity|reflexivity]. }
    eexists _, _. split; [|split]; [|eexists _, _; split; [reflexivity|]; split; [exact R1|apply (B (zs newline)); reflexivity]|eexists _, _; split; [reflexivity|]; split; [eexists _, _; split; [reflexivity|]; split; [exact R2|apply (B (zs newline)); reflexivity]|reflexivity]].
    reflexivity.
  Qed.
End Example69.

(** C70. In each of the four styles a plain style sheet, however it is laid out,
    is translated to the text of that style. *)
Theorem c70_exact : forall o l t m fuel,
  l <> [] -> Forall rule_ok l -> no_slash_field o l -> sheet_laid l t ->
  Z.of_nat (length (sheet_text l)) < 2 ^ 60 -> (8 * length (sheet_text l) + 12 <= fuel)%nat ->
  translate o fuel m t = Ret (Some (sheet_styled m l)) [].
Proof. intros. now apply WholeMain.sheet_same. Qed.
(** The styles differ by the layout only. *)
Theorem c70_layout : forall l m, Forall rule_ok l -> sheet_laid l (sheet_styled m l).
Proof. intros. now apply WholeMain.styled_sheet. Qed.
(** So the output in any style may be given to csspp again: in the same style
    nothing changes, in another one it is as if the source had been given. *)
Theorem c70_again : forall o l t m1 m2 u w fuel,
  l <> [] -> Forall rule_ok l -> no_slash_field o l -> sheet_laid l t ->
  Z.of_nat (length (sheet_text l)) < 2 ^ 60 -> (8 * length (sheet_text l) + 12 <= fuel)%nat ->
  translate o fuel m1 t = Ret (Some u) w -> translate o fuel m2 u = translate o fuel m2 t.
Proof.
  intros o l t m1 m2 u w fuel A B D E F G H. rewrite (c70_exact o l t m1 fuel) in H by assumption. injection H as <- <-.
  rewrite !(c70_exact o l _ m2 fuel); try assumption; [reflexivity|]. now apply c70_layout.
Qed.
Theorem c70_settled : forall o l t m u w fuel,
  l <> [] -> Forall rule_ok l -> no_slash_field o l -> sheet_laid l t ->
  Z.of_nat (length (sheet_text l)) < 2 ^ 60 -> (8 * length (sheet_text l) + 12 <= fuel)%nat ->
  translate o fuel m t = Ret (Some u) w -> translate o fuel m u = Ret (Some u) [].
Proof.
  intros o l t m u w fuel A B D E F G H. pose proof (c70_again o l t m m u w fuel A B D E F G H) as R. rewrite R, (c70_exact o l t m fuel) by assumption.
  rewrite (c70_exact o l t m fuel) in H by assumption. injection H as <- <-. reflexivity.
Qed.
Module Example70.
  Import Example66 Example69.
  Example expanded : sheet_styled Assembler.EXPANDED sheet =
    zs "ul.menu#top .item-2 > a, h1" ++ zs newline ++ zs "{" ++ zs newline ++ zs "  margin: 0 12px auto !important;" ++ zs newline
    ++ zs "  font-family: verdana, sans-serif;" ++ zs newline ++ zs "}" ++ zs newline
    ++ zs "p ~ em" ++ zs newline ++ zs "{" ++ zs newline ++ zs "  width: 9223372036854775807em;" ++ zs newline ++ zs "}" ++ zs newline.
  Proof. reflexivity. Qed.
  Example compact : sheet_styled Assembler.COMPACT sheet =
    zs "ul.menu#top .item-2 > a, h1 { margin: 0 12px auto !important; font-family: verdana, sans-serif }" ++ zs newline ++ zs "p ~ em { width: 9223372036854775807em }" ++ zs newline.
  Proof. reflexivity. Qed.
  Example tidy : sheet_styled Assembler.TIDY sheet =
    zs "ul.menu#top .item-2>a,h1{margin:0 12px auto!important;font-family:verdana,sans-serif}" ++ zs newline ++ zs "p~em{width:9223372036854775807em}" ++ zs newline.
  Proof. reflexivity. Qed.
End Example70.
