(** * Text output of the assembler (csspp/assembler.cpp): strings, URLs,
      identifiers

    The strings of the C++ are byte strings. They come from the lexer, which
    encodes characters in UTF-8; [escape_id] is the only function which decodes
    them. *)

From Coq Require Import String ZArith List Bool.
From Verif Require Import Base Utf8 Lexer.
Import ListNotations.
Open Scope string_scope. Open Scope list_scope. Open Scope Z_scope.

(** The C string of a std::string: the bytes before the first NUL. *)
Fixpoint c_str (s : str) : str :=
  match s with
  | [] => []
  | c :: r => if c =? 0 then [] else c :: c_str r
  end.

(** assembler::output_string (assembler.cpp:952-1004). *)
Fixpoint count (q : Z) (s : str) : nat :=
  match s with
  | [] => O
  | c :: r => if c =? q then S (count q r) else count q r
  end.
Fixpoint quote_with (q : Z) (s : str) : str :=
  match s with
  | [] => []
  | c :: r => if c =? q then 92 :: q :: quote_with q r else c :: quote_with q r
  end.
Definition output_string (s : str) : str :=
  let s := c_str s in
  let q := if (count 34 s <=? count 39 s)%nat then 34 else 39 in
  q :: quote_with q s ++ [q].

(** A byte seen as a (signed) [char]. *)
Definition to_char (b : Z) : Z := if 128 <=? b then b - 256 else b.

(** assembler::output_url (assembler.cpp:1006-1045); [spaces] is true in the
    COMPACT and EXPANDED modes, where the operators '(' and ')' are followed and
    preceded by a space (assembler.cpp:187-208). *)
Definition url_direct (s : str) : bool :=
  negb (existsb (fun b => let c := to_char b in
    (c =? 40) || (c =? 41) || (c =? 39) || (c =? 34) || is_non_printable c) s).
Definition output_url (spaces : bool) (s : str) : str :=
  let sp := if spaces then [32] else [] in
  zs "url(" ++ sp ++
  (if url_direct (c_str s) then s else output_string s) ++ sp ++ zs ")".

(** assembler::escape_id (assembler.cpp:263-337). [None] is the exception of
    line 296. [mbtowc] logs an error and returns U+FFFD on invalid bytes. *)
Definition mb_len (b : Z) : nat :=
  if 240 <=? b then 4 else if 224 <=? b then 3 else if 192 <=? b then 2 else 1.
Fixpoint take_bytes (n : nat) (s : str) : option (str * str) :=
  match n with
  | O => Some ([], s)
  | S k =>
      match s with
      | [] => None
      | b :: r => match take_bytes k r with
                  | Some (a, t) => Some (b :: a, t)
                  | None => None
                  end
      end
  end.
Fixpoint escape_loop (fuel : nat) (first : bool) (s : str) : option str :=
  match fuel with
  | O => None
  | S f =>
      match s with
      | [] => Some []
      | b :: _ =>
          match take_bytes (mb_len b) s with
          | None => None
          | Some (mb, r) =>
              let wc := match mbtowc mb with inr c => c | inl _ => 65533 end in
              let out :=
                if (first && is_start_identifier wc) || (negb first && is_identifier wc) then mb
                else 92 ::
                  (if is_digit wc then
                     51 :: wc ::
                     (match r with
                      | n :: _ => if is_hex n then [32] else []
                      | [] => []
                      end)
                   else mb) in
              match escape_loop f false r with
              | Some o => Some (out ++ o)
              | None => None
              end
          end
      end
  end.
Definition escape_id (id : str) : option str :=
  escape_loop (S (length (c_str id))) true (c_str id).
