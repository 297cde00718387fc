(** * Specification of selectors: a grammar with its output

    Each rule relates a list of tokens to the list of tokens that replaces it.
    The grammar is parameterized by the names which are valid (the validation
    scripts) and by the meaning of the arguments of the nth functions. *)

From Coq Require Import String ZArith List Bool.
From Verif Require Import Base.
Import ListNotations.
Open Scope string_scope. Open Scope list_scope. Open Scope Z_scope.

Section Grammar.
  Variables class_name nth_name function_name element_name language country : str -> Prop.
  (** The children of an nth function stand for this An+B value. *)
  Variable nth_args : list node -> Z -> Prop.

  Definition optional_space (l : list node) : Prop := l = [] \/ exists w, l = [w] /\ n_type w = WHITESPACE.
  Definition operator (t : ntype) : Prop :=
    In t [EQUAL; NOT_EQUAL; INCLUDE_MATCH; PREFIX_MATCH; SUFFIX_MATCH; SUBSTRING_MATCH; DASH_MATCH].
  Definition value (t : ntype) : Prop := In t [IDENTIFIER; STRING; INTEGER; DECIMAL_NUMBER].
  Definition combinator (t : ntype) : Prop := In t [GREATER_THAN; ADD; PRECEDED].
  Definition name (t : ntype) : Prop := In t [IDENTIFIER; MULTIPLY].

  (** What is between the square brackets: a name, or a name, an operator and a
      value; white space round the operator is removed. *)
  Inductive attribute : list node -> list node -> Prop :=
  | at_name a n b : optional_space a -> n_type n = IDENTIFIER -> optional_space b -> attribute (a ++ n :: b) [n]
  | at_value a n b o c v : optional_space a -> n_type n = IDENTIFIER -> optional_space b ->
      operator (n_type o) -> optional_space c -> value (n_type v) ->
      attribute (a ++ n :: b ++ o :: c ++ [v]) [n; o; v].

  (** The token that comes next. *)
  Definition next_is (t : ntype) (l : list node) : Prop := exists x r, l = x :: r /\ n_type x = t.

  Definition dash : Z := 45.
  (** A language tag: a language, then perhaps a country, then anything. *)
  Inductive tag : str -> Prop :=
  | tag_language l : ~ In dash l -> language l -> tag l
  | tag_country l c t : ~ In dash l -> ~ In dash c -> t = [] \/ (exists r, t = dash :: r) ->
      language l -> (c = [] \/ country c) -> tag (l ++ dash :: c ++ t).

  (** The functions allowed after a ':' in a simple term, and the function as it
      is written out. *)
  Inductive pseudo : node -> node -> Prop :=
  | ps_nth f v : nth_name (n_str f) -> nth_args (n_ch f) v ->
      pseudo f (set_ch f [set_int (mk AN_PLUS_B (n_pos f)) v])
  | ps_lang f x : ~ nth_name (n_str f) -> function_name (n_str f) -> n_str f = zs "lang" ->
      n_ch f = [x] -> n_type x = IDENTIFIER -> tag (n_str x) -> pseudo f f
  | ps_other f : ~ nth_name (n_str f) -> function_name (n_str f) -> n_str f <> zs "lang" -> n_str f <> zs "not" -> pseudo f f.

  (** [simple x rest y]: the tokens [x], when followed by [rest], are a simple
      term, which becomes [y]. *)
  Inductive simple : list node -> list node -> list node -> Prop :=
  | si_id h rest : n_type h = HASH -> simple [h] rest [h]
  | si_name x rest : name (n_type x) -> ~ next_is SCOPE rest ->
      ~ (n_type x = MULTIPLY /\ (next_is OPEN_SQUAREBRACKET rest \/ next_is PERIOD rest)) -> simple [x] rest [x]
  | si_star x rest : n_type x = MULTIPLY -> next_is OPEN_SQUAREBRACKET rest \/ next_is PERIOD rest -> simple [x] rest []
  | si_space_name x b y rest : name (n_type x) -> n_type b = SCOPE -> name (n_type y) -> simple [x; b; y] rest [x; b; y]
  | si_no_space b y rest : n_type b = SCOPE -> name (n_type y) -> simple [b; y] rest [b; y]
  | si_class p x rest : n_type p = PERIOD -> n_type x = IDENTIFIER -> simple [p; x] rest [p; x]
  | si_pseudo_class c x rest : n_type c = COLON -> n_type x = IDENTIFIER -> class_name (n_str x) -> simple [c; x] rest [c; x]
  | si_function c f f' rest : n_type c = COLON -> n_type f = FUNCTION -> pseudo f f' -> simple [c; f] rest [c; f']
  | si_attribute b l rest : n_type b = OPEN_SQUAREBRACKET -> attribute (n_ch b) l ->
      ~ (exists n o v, l = [n; o; v] /\ n_type o = NOT_EQUAL) -> simple [b] rest [set_ch b l]
  | si_not_equal b n o v rest : n_type b = OPEN_SQUAREBRACKET -> attribute (n_ch b) [n; o; v] -> n_type o = NOT_EQUAL ->
      simple [b] rest [mk COLON (n_pos b);
                       set_ch (set_str (mk FUNCTION (n_pos b)) (zs "not")) [set_ch b [n; mk EQUAL (n_pos b); v]]].

  (** [term first x rest y]: the same for a term; [first] says whether it is the
      first one of the selector. *)
  Inductive term (first : bool) : list node -> list node -> list node -> Prop :=
  | te_simple x rest y : simple x rest y -> term first x rest y
  | te_placeholder h rest : n_type h = PLACEHOLDER -> term first [h] rest [h]
  | te_reference h rest : n_type h = REFERENCE -> first = true -> term first [h] rest [h]
  | te_not c f l rest : n_type c = COLON -> n_type f = FUNCTION -> n_str f = zs "not" -> simple (n_ch f) [] l ->
      term first [c; f] rest [c; set_ch f l]
  | te_element c d x : n_type c = COLON -> n_type d = COLON -> n_type x = IDENTIFIER -> element_name (n_str x) ->
      term first [c; d; x] [] [c; d; x].

  (** What may stand between two terms: nothing, a white space, or an operator,
      which loses the white space round it. *)
  Inductive between : list node -> list node -> Prop :=
  | be_nothing : between [] []
  | be_space w : n_type w = WHITESPACE -> between [w] [w]
  | be_operator a o b : optional_space a -> combinator (n_type o) -> optional_space b -> between (a ++ o :: b) [o].

  Inductive terms (first : bool) : list node -> list node -> Prop :=
  | tm_last x y : term first x [] y -> terms first x y
  | tm_more x y g g' r r' : term first x (g ++ r) y -> between g g' -> terms false r r' ->
      terms first (x ++ g ++ r) (y ++ g' ++ r').

  (** A selector: a list of terms. *)
  Definition selector (l l' : list node) : Prop := terms true l l'.
End Grammar.
