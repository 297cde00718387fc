(** * Base: byte strings, outcomes of a computation, nodes

    Shared by all the models. Wide characters ([wide_char_t] is [int32_t],
    csspp/csspp.h.in:56) and bytes are [Z]; a [std::string] is the list of its
    bytes, each in 0..255; [EOF] is [-1]. *)

From Coq Require Import String Ascii ZArith List Bool Lia.
From Coq Require Import Floats.SpecFloat.
Import ListNotations.
Open Scope Z_scope.

Global Arguments Z.add : simpl never.
Global Arguments Z.sub : simpl never.
Global Arguments Z.mul : simpl never.
Global Arguments Z.div : simpl never.
Global Arguments Z.modulo : simpl never.
Global Arguments Z.eqb : simpl never.
Global Arguments Z.ltb : simpl never.
Global Arguments Z.leb : simpl never.

Lemma cons_inj {A} (a b : A) l m : a :: l = b :: m -> a = b /\ l = m.
Proof. intro H. now injection H. Qed.

(** A C++ [std::string]: the list of its bytes. *)
Definition str := list Z.

(** Byte string of a Coq literal, used for the string literals of the code. *)
Fixpoint zs (s : string) : str :=
  match s with
  | EmptyString => []
  | String a r => Z.of_N (N_of_ascii a) :: zs r
  end.

(** [operator ==] on [std::string]. *)
Fixpoint str_eqb (a b : str) : bool :=
  match a, b with
  | [], [] => true
  | x :: a', y :: b' => (x =? y) && str_eqb a' b'
  | _, _ => false
  end.

Lemma str_eqb_spec a b : str_eqb a b = true <-> a = b.
Proof.
  revert b. induction a as [|x a IH]; destruct b as [|y b]; cbn [str_eqb];
    split; intro H; try reflexivity; try discriminate.
  - apply andb_true_iff in H. destruct H as [H1 H2].
    apply Z.eqb_eq in H1. apply IH in H2. congruence.
  - injection H as <- <-. rewrite Z.eqb_refl. cbn. now apply IH.
Qed.

Lemma str_eqb_refl a : str_eqb a a = true.
Proof. now apply str_eqb_spec. Qed.

Lemma str_eqb_neq a b : str_eqb a b = false <-> a <> b.
Proof.
  destruct (str_eqb a b) eqn:E; split; intro H; try discriminate.
  - apply str_eqb_spec in E. contradiction.
  - intro C. subst. rewrite str_eqb_refl in E. discriminate.
  - reflexivity.
Qed.

(** ** Exceptions (csspp/exception.h) raised by the modelled code

    One constructor per [throw] statement so that theorems can tell them
    apart. All are [csspp_exception_logic] unless said otherwise. *)
Inductive exn : Type :=
  | XUngetRange        (* lexer.cpp:729 ungetc() character out of range *)
  | XUngetSpace        (* lexer.cpp:736 ungetc() ran out of space *)
  | XHexDigit          (* lexer.cpp:761 hex_to_dec() invalid digit *)
  | XIdentStart        (* lexer.cpp:873 identifier() invalid start *)
  | XExponent          (* lexer.cpp:1107 a digit was expected *)
  | XBufferSmall       (* lexer.cpp:555 csspp_exception_overflow *)
  | XNodeType          (* node.cpp:60-222 field not supported by the type *)
  | XChildRange        (* node.cpp csspp_exception_overflow, child index *)
  | XNotAChild         (* node.cpp remove_child/replace_child *)
  | XOverflow          (* csspp_exception_overflow of another class *)
  | XLogic.            (* any other csspp_exception_logic *)

(** Result of running a piece of C++: a value, an exception, undefined
    behaviour, or (model only) exhausted fuel. The last three carry the state
    reached so that statements can speak about the messages emitted so far. *)
Inductive outcome (S A : Type) : Type :=
  | Ret (a : A) (s : S)
  | Throw (e : exn) (s : S)
  | Undef (s : S)
  | NoFuel.
Arguments Ret {S A}.
Arguments Throw {S A}.
Arguments Undef {S A}.
Arguments NoFuel {S A}.

(** ** Source positions (csspp/position.h, csspp/position.cpp:22-46)

    The file name is not modelled. *)
Record position := mkPos { p_page : Z; p_line : Z; p_total : Z }.

(** position::position (position.cpp:22-28). *)
Definition new_position (page line : Z) : position := mkPos page line line.
(** position::next_line (position.cpp:30-34). *)
Definition next_line (p : position) : position :=
  mkPos (p_page p) (p_line p + 1) (p_total p + 1).
(** position::next_page (position.cpp:36-40). *)
Definition next_page (p : position) : position :=
  mkPos (p_page p + 1) 1 (p_total p).

(** ** Messages (csspp/error.h)

    [error_mode_t] levels used by the library. The text is the fixed part of
    the message; interpolated values are not modelled. *)
Inductive level := LDebug | LInfo | LWarning | LError | LFatal.
Record msg := mkMsg { m_level : level; m_pos : position; m_text : string }.

Definition is_error (m : msg) : bool :=
  match m_level m with LError | LFatal => true | _ => false end.

(** ** Node types (csspp/node.h:41-122) *)
Inductive ntype :=
  | UNKNOWN | ADD | AND | ASSIGNMENT | AT_KEYWORD | BOOLEAN | CDC | CDO
  | CLOSE_CURLYBRACKET | CLOSE_PARENTHESIS | CLOSE_SQUAREBRACKET | COLON
  | COLOR | COLUMN | COMMA | COMMENT | CONDITIONAL | DASH_MATCH
  | DECIMAL_NUMBER | DIVIDE | DOLLAR | EOF_TOKEN | EQUAL | EXCLAMATION
  | FONT_METRICS | FUNCTION | GREATER_EQUAL | GREATER_THAN | HASH | IDENTIFIER
  | INCLUDE_MATCH | INTEGER | LESS_EQUAL | LESS_THAN | MODULO | MULTIPLY
  | NOT_EQUAL | NULL_TOKEN | OPEN_CURLYBRACKET | OPEN_PARENTHESIS
  | OPEN_SQUAREBRACKET | PERCENT | PERIOD | PLACEHOLDER | POWER | PRECEDED
  | PREFIX_MATCH | REFERENCE | SCOPE | SEMICOLON | STRING | SUBSTRING_MATCH
  | SUBTRACT | SUFFIX_MATCH | UNICODE_RANGE | URL | VARIABLE
  | VARIABLE_FUNCTION | WHITESPACE
  | AN_PLUS_B | ARG | ARRAY | COMPONENT_VALUE | DECLARATION | LIST | MAP
  | FRAME.

Definition ntype_eq_dec (a b : ntype) : {a = b} + {a <> b}.
Proof. decide equality. Defined.
(** [node::is] compares types (node.cpp:274-277). *)
Definition ntype_eqb (a b : ntype) : bool := if ntype_eq_dec a b then true else false.

Lemma ntype_eqb_spec a b : ntype_eqb a b = true <-> a = b.
Proof. unfold ntype_eqb. destruct (ntype_eq_dec a b); split; congruence. Qed.
Lemma ntype_eqb_refl a : ntype_eqb a a = true.
Proof. now apply ntype_eqb_spec. Qed.
Lemma ntype_eqb_neq a b : ntype_eqb a b = false <-> a <> b.
Proof. unfold ntype_eqb. destruct (ntype_eq_dec a b); split; congruence. Qed.

(** ** Nodes (csspp/node.h:207-217)

    A node is a tree; [f_variables] and [f_flags] are not part of this type
    (see Scope.v and NodeHeap.v for the parts of the code which use them). *)
Inductive node : Type :=
  Node (ty : ntype) (pos : position) (b : bool) (i : Z) (d : spec_float)
       (s : str) (low : str) (ch : list node).

Definition n_type (n : node) := let 'Node t _ _ _ _ _ _ _ := n in t.
Definition n_pos (n : node) := let 'Node _ p _ _ _ _ _ _ := n in p.
Definition n_bool (n : node) := let 'Node _ _ b _ _ _ _ _ := n in b.
Definition n_int (n : node) := let 'Node _ _ _ i _ _ _ _ := n in i.
Definition n_dec (n : node) := let 'Node _ _ _ _ d _ _ _ := n in d.
Definition n_str (n : node) := let 'Node _ _ _ _ _ s _ _ := n in s.
Definition n_low (n : node) := let 'Node _ _ _ _ _ _ l _ := n in l.
Definition n_ch (n : node) := let 'Node _ _ _ _ _ _ _ c := n in c.

(** [new node(type, pos)] (node.cpp:227-243); the allocation limit used by the
    test suite ([g_node_max_count]) is off, as it is by default. *)
Definition mk (t : ntype) (p : position) : node :=
  Node t p false 0 (S754_zero false) [] [] [].
(** Setters, applied to the types which support the field (node.cpp:60-222);
    callers in the model only use them where the C++ type check passes. *)
Definition set_str (n : node) (s : str) : node :=
  let 'Node t p b i d _ l c := n in Node t p b i d s l c.
Definition set_low (n : node) (l : str) : node :=
  let 'Node t p b i d s _ c := n in Node t p b i d s l c.
Definition set_int (n : node) (i : Z) : node :=
  let 'Node t p b _ d s l c := n in Node t p b i d s l c.
Definition set_bool (n : node) (b : bool) : node :=
  let 'Node t p _ i d s l c := n in Node t p b i d s l c.
Definition set_dec (n : node) (d : spec_float) : node :=
  let 'Node t p b i _ s l c := n in Node t p b i d s l c.
Definition set_ch (n : node) (c : list node) : node :=
  let 'Node t p b i d s l _ := n in Node t p b i d s l c.

Definition is (n : node) (t : ntype) : bool := ntype_eqb (n_type n) t.

(** Induction principle over trees. *)
Section NodeInd.
  Variable P : node -> Prop.
  Hypothesis H : forall t p b i d s l c, Forall P c -> P (Node t p b i d s l c).
  Fixpoint node_ind' (n : node) : P n :=
    match n with
    | Node t p b i d s l c =>
        H t p b i d s l c
          ((fix go (c : list node) : Forall P c :=
              match c with
              | [] => Forall_nil P
              | x :: r => Forall_cons x (node_ind' x) (go r)
              end) c)
    end.
End NodeInd.

(** [double] arithmetic: IEEE binary64, round to nearest even. *)
Definition f64 := spec_float.
Definition f64_of_Z (z : Z) : f64 := binary_normalize 53 1024 z 0 false.
Definition f64_add := SFadd 53 1024.
Definition f64_sub := SFsub 53 1024.
Definition f64_mul := SFmul 53 1024.
Definition f64_div := SFdiv 53 1024.
(** Signed 64 bit range. *)
Definition int64_ok (z : Z) : bool := (-9223372036854775808 <=? z) && (z <=? 9223372036854775807).
(** Conversion of an unsigned 64 bit value to [int64_t]. *)
Definition wrap64 (z : Z) : Z :=
  (z + 9223372036854775808) mod 18446744073709551616 - 9223372036854775808.
(** Conversion to [uint64_t]. *)
Definition u64 (z : Z) : Z := z mod 18446744073709551616.

(** The functions of libm used by the code, about which nothing is assumed. *)
Record libm := mkLibm { lm_pow : f64 -> f64 -> f64 }.
