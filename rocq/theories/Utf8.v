(** * UTF-8 conversion of the lexer (csspp/lexer.cpp:488-617) *)

From Coq Require Import String ZArith List Bool.
From Verif Require Import Base.
Import ListNotations.
Open Scope string_scope.
Open Scope list_scope.
Open Scope Z_scope.

(** lexer::mbtowc (lexer.cpp:488-547). The C string is the list of its bytes
    without the final NUL. Returns the character or the message emitted (in
    which case the C++ returns 0xFFFD). *)
Fixpoint mb_follow (cnt : nat) (wc : Z) (s : list Z) : string + Z :=
  match cnt with
  | O => match s with
         | [] => inr wc
         | _ => inl "sequence of bytes too long, it cannot represent a valid UTF-8 encoded character."
         end
  | S k =>
      match s with
      | [] => inl "sequence of bytes too short to represent a valid UTF-8 encoded character."
      | c :: r =>
          if c =? 0 then
            inl "sequence of bytes too short to represent a valid UTF-8 encoded character."
          else if (c <? 128) || (191 <? c) then
            inl "invalid sequence of bytes, it cannot represent a valid UTF-8 encoded character."
          else mb_follow k (Z.lor (Z.shiftl wc 6) (Z.land c 63)) r
      end
  end.

Definition mbtowc (s : list Z) : string + Z :=
  match s with
  | [] => inr 0
  | c :: r =>
      if c <? 128 then inr c
      else if 240 <=? c then
        if 248 <=? c then inl "byte not valid in a UTF-8 stream."
        else mb_follow 3 (Z.land c 7) r
      else if 224 <=? c then mb_follow 2 (Z.land c 15) r
      else if 192 <=? c then mb_follow 1 (Z.land c 31) r
      else inl "byte not valid to introduce a UTF-8 encoded character."
  end.

(** lexer::wctomb (lexer.cpp:549-617), std::string version: the bytes up to the
    first NUL, or the message emitted (in which case the string is empty). The
    tests are on the value cast to [uint32_t]. *)
Definition wctomb (wc : Z) : string + list Z :=
  let u := wc mod 4294967296 in
  if u <? 128 then inr (if wc =? 0 then [] else [wc])
  else if u <? 2048 then
    inr [Z.lor (Z.shiftr wc 6) 192; Z.lor (Z.land wc 63) 128]
  else if u <? 65536 then
    if (55296 <=? wc) && (wc <=? 57343) then
      inl "surrogate characters cannot be encoded in UTF-8."
    else if (wc =? 65534) || (wc =? 65535) then
      inl "characters 0xFFFE and 0xFFFF are not valid."
    else
      inr [Z.lor (Z.shiftr wc 12) 224;
           Z.lor (Z.land (Z.shiftr wc 6) 63) 128;
           Z.lor (Z.land wc 63) 128]
  else if u <? 1114112 then
    if (Z.land wc 65535 =? 65534) || (Z.land wc 65535 =? 65535) then
      inl "any characters that end with 0xFFFE or 0xFFFF are not valid."
    else
      inr [Z.lor (Z.shiftr wc 18) 240;
           Z.lor (Z.land (Z.shiftr wc 12) 63) 128;
           Z.lor (Z.land (Z.shiftr wc 6) 63) 128;
           Z.lor (Z.land wc 63) 128]
  else inl "character too large, it cannot be encoded in UTF-8.".
