(** * node::to_string (csspp/node.cpp:765-1300)

    [None] is an exception (a type that cannot be part of a value), or more
    levels than the fuel. [show] is the text a double gets when it is sent to a
    std::stringstream. *)

From Coq Require Import String ZArith List Bool Floats.SpecFloat.
From Verif Require Import Base UnicodeRange OutText NthChild DecText DecFmt Color NodeHeap FloatBits.
Import ListNotations.
Open Scope string_scope. Open Scope list_scope. Open Scope Z_scope.

Section Text.
Variables (lm : libm) (prec : Z) (show : f64 -> str).

Definition plus_sign (c : cell) : str := if c_bool c && (0 <=? c_int c) then zs "+" else [].
Definition percent_of (unit : str) : f64 := if str_eqb unit (zs "%") then f64_of_Z 100 else f64_of_Z 1.
(** Two texts one after the other. *)
Definition cat (a b : option str) : option str :=
  match a, b with Some x, Some y => Some (x ++ y) | _, _ => None end.
Fixpoint cats (l : list (option str)) : option str :=
  match l with [] => Some [] | x :: r => cat x (cats r) end.
(** The same with a text between two of them. *)
Fixpoint joined (sep : str) (l : list (option str)) : option str :=
  match l with [] => Some [] | [x] => x | x :: r => cat x (cat (Some sep) (joined sep r)) end.
(** The labels and the values of a MAP. *)
Fixpoint fields (first label : bool) (l : list (option str)) : option str :=
  match l with
  | [] => Some []
  | x :: r =>
      cat (Some (if label && negb first then zs ", " else []))
        (cat x (cat (Some (if label then zs ": " else [])) (fields false (negb label) r)))
  end.
(** A C++ comment: one "//" per line. *)
Fixpoint slash_lines (line : str) (t : str) : str :=
  match t with
  | [] => match line with [] => [] | _ => zs "// " ++ line ++ [10] end
  | c :: r => if c =? 10 then zs "// " ++ line ++ [10] ++ slash_lines [] r else slash_lines (line ++ [c]) r
  end.
(** The types whose text is fixed. *)
Definition fixed (spaces : bool) (t : ntype) : option string :=
  match t with
  | ADD => Some "+" | AND => Some "&&" | ASSIGNMENT => Some ":=" | COLON => Some ":" | COLUMN => Some "||"
  | COMMA => Some "," | CONDITIONAL => Some "?" | DASH_MATCH => Some "|=" | DIVIDE => Some (if spaces then " / " else "/")
  | DOLLAR => Some "$" | EQUAL => Some "=" | EXCLAMATION => Some "!" | GREATER_EQUAL => Some ">=" | GREATER_THAN => Some ">"
  | INCLUDE_MATCH => Some "~=" | LESS_EQUAL => Some "<=" | LESS_THAN => Some "<" | MODULO => Some (if spaces then " % " else "%")
  | MULTIPLY => Some "*" | NOT_EQUAL => Some "!=" | NULL_TOKEN => Some "" | PERIOD => Some "." | POWER => Some "**"
  | PRECEDED => Some "~" | PREFIX_MATCH => Some "^=" | REFERENCE => Some "&" | SCOPE => Some "|" | SEMICOLON => Some ";"
  | SUBSTRING_MATCH => Some "*=" | SUBTRACT => Some "-" | SUFFIX_MATCH => Some "$=" | WHITESPACE => Some " "
  | _ => None
  end.

Fixpoint node_text (fuel : nat) (quotes spaces : bool) (h : heap) (a : addr) : option str :=
  match fuel with
  | O => None
  | S f =>
      match List.nth_error h a with
      | None => None
      | Some c =>
          let children := map (node_text f quotes spaces h) (c_ch c) in
          let quoted := map (node_text f true spaces h) (c_ch c) in
          let within (o : str) (l : option str) (e : string) := cat (Some o) (cat l (Some (zs e))) in
          (* each child of the type is followed by the separator, but the last one *)
          let separated (t : ntype) (sep : string) :=
            (fix go (l : list addr) : option str :=
               match l with
               | [] => Some []
               | x :: r =>
                   let is_t := match List.nth_error h x with Some k => ntype_eqb (c_type k) t | None => false end in
                   cat (node_text f quotes spaces h x) (cat (Some (if is_t then match r with [] => [] | _ => zs sep end else [])) (go r))
               end) (c_ch c) in
          match fixed spaces (c_type c) with
          | Some t => Some (zs t)
          | None =>
              match c_type c with
              | AT_KEYWORD => Some (zs "@" ++ NodeHeap.c_str c)
              | BOOLEAN => Some (zs (if c_bool c then "true" else "false"))
              | COLOR => Color.to_string lm (cell_color c)
              | COMMENT => Some (if c_int c =? 0 then slash_lines [] (NodeHeap.c_str c) else zs "/* " ++ NodeHeap.c_str c ++ zs " */")
              | DECIMAL_NUMBER => Some (plus_sign c ++ show (c_dec c) ++ NodeHeap.c_str c)
              | FONT_METRICS =>
                  Some (decimal_number_to_string lm prec (f64_mul (c_dec c) (percent_of (dim1_of (NodeHeap.c_str c)))) false ++ dim1_of (NodeHeap.c_str c)
                        ++ zs "/" ++ decimal_number_to_string lm prec (f64_mul (bits_f64 (u64 (c_int c))) (percent_of (dim2_of (NodeHeap.c_str c)))) false ++ dim2_of (NodeHeap.c_str c))
              | VARIABLE_FUNCTION => within (zs "$" ++ NodeHeap.c_str c ++ zs "(") (joined (zs ",") children) ")"
              | FUNCTION => within (c_str c ++ zs "(") (joined (zs ",") children) ")"
              | HASH => Some (zs "#" ++ NodeHeap.c_str c)
              | IDENTIFIER => Some (NodeHeap.c_str c)
              | INTEGER => Some (plus_sign c ++ int_text (c_int c) ++ NodeHeap.c_str c)
              | OPEN_CURLYBRACKET => within (zs "{") (cats children) "}"
              | OPEN_PARENTHESIS => within (zs "(") (cats children) ")"
              | OPEN_SQUAREBRACKET => within (zs "[") (cats children) "]"
              | PERCENT => Some (plus_sign c ++ decimal_number_to_string lm prec (f64_mul (c_dec c) (f64_of_Z 100)) false ++ zs "%")
              | PLACEHOLDER => Some (zs "%" ++ NodeHeap.c_str c)
              | STRING => Some (if quotes then output_string (NodeHeap.c_str c) else OutText.c_str (NodeHeap.c_str c))
              | UNICODE_RANGE => match ur_to_string (u64 (c_int c)) with Some t => Some (zs "U+" ++ t) | None => None end
              | URL => Some (zs "url(" ++ NodeHeap.c_str c ++ zs ")")
              | VARIABLE => Some (zs "$" ++ NodeHeap.c_str c)
              | COMPONENT_VALUE =>
                  (fix go (first : bool) (l : list addr) : option str :=
                     match l with
                     | [] => Some []
                     | x :: r =>
                         match List.nth_error h x with
                         | None => None
                         | Some k =>
                             if ntype_eqb (c_type k) ARG then
                               let sep := if first then Some []
                                          else if (c_int k =? 0) || (c_int k =? 14) then Some (zs ",")
                                          else if c_int k =? 19 then Some (zs "/") else None in
                               cat sep (cat (node_text f quotes spaces h x) (go false r))
                             else cat (node_text f quotes spaces h x) (go first r)
                         end
                     end) true (c_ch c)
              | AN_PLUS_B => Some (nth_to_string (nth_of_value (c_int c)))
              | ARG => cats children
              | DECLARATION => cat (Some (match NodeHeap.c_str c with [] => [] | s => s ++ zs ": " end)) (separated ARG ",")
              | LIST => separated DECLARATION ";"
              | ARRAY => within (zs "(") (joined (zs ", ") quoted) ")"
              | MAP => within (zs "(") (fields true true quoted) ")"
              | FRAME =>
                  within ((if SFleb (c_dec c) (f64_of_Z 0) then zs "from"
                           else if SFleb (f64_of_Z 1) (c_dec c) then zs "to"
                           else decimal_number_to_string lm prec (f64_mul (c_dec c) (f64_of_Z 100)) false ++ zs "%") ++ zs "{") (cats children) "}"
              | _ => None
              end
          end
      end
  end.
End Text.
