(** * Canonical decimal notation *)

From Coq Require Import ZArith List Bool.
From Verif Require Import Base TextSpec.
Import ListNotations.
Open Scope Z_scope.

(** The integer part of m * 2^e * 10^p. *)
Definition scaled (m e p : Z) : Z :=
  if 0 <=? e then m * 2 ^ e * 10 ^ p else m * 10 ^ p / 2 ^ (- e).

(** [out] is the notation of q / 10^p, negated when [neg]: digits, a point
    followed by 1 to p digits that do not end with a zero when there is a
    fraction, a minus sign for negative numbers but not for zero, no
    superfluous zero at the start; with [short] the zero before the point is
    removed too. *)
Definition canonical (short : bool) (p : Z) (neg : bool) (q : Z) (out : list Z) : Prop :=
  exists ip fp,
    out = (if neg && negb (q =? 0) then [45] else []) ++ ip ++ match fp with [] => [] | _ => 46 :: fp end
    /\ Forall digit ip /\ Forall digit fp
    /\ Z.of_nat (length fp) <= p /\ last fp 0 <> 48
    /\ q = decimal ip * 10 ^ p + decimal fp * 10 ^ (p - Z.of_nat (length fp))
    /\ (if short && negb (match fp with [] => true | _ => false end) then first ip <> 48 else ip = [48] \/ (first ip <> 48 /\ ip <> [])).
