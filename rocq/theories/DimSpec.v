(** * What the text of a unit means

    Written without reference to the code: a unit is a quotient of products of
    names, such as "px * em / s" or "1 / s". *)

From Coq Require Import String ZArith List Bool.
From Verif Require Import Base.
Import ListNotations.
Open Scope string_scope. Open Scope list_scope. Open Scope Z_scope.

(** The name of a unit: not empty, without space, star or slash; "1" is not a
    name. *)
Definition unit_name (n : str) : Prop :=
  n <> [] /\ n <> zs "1" /\ Forall (fun c => c <> 32 /\ c <> 42 /\ c <> 47) n.
(** An operator, with or without a space on each side. *)
Definition spaced (c : string) (s : str) : Prop :=
  In s [zs c; zs " " ++ zs c; zs c ++ zs " "; zs " " ++ zs c ++ zs " "].

(** [product l t]: t is the product of the names l. *)
Inductive product : list str -> str -> Prop :=
| product_one : forall n, unit_name n -> product [n] n
| product_more : forall n star l t, unit_name n -> spaced "*" star -> product l t -> product (n :: l) (n ++ star ++ t).
(** [unit_text t u d]: the text t is the quotient of the product of the names u
    by the product of the names d. *)
Inductive unit_text : str -> list str -> list str -> Prop :=
| unit_none : unit_text [] [] []
| unit_up : forall t u, product u t -> unit_text t u []
| unit_quotient : forall t u slash t' d, product u t -> spaced "/" slash -> product d t' -> unit_text (t ++ slash ++ t') u d
| unit_inverse : forall slash t' d, spaced "/" slash -> product d t' -> unit_text (zs "1" ++ slash ++ t') [] d.

(** How many times a name appears, and the exponent of a name in a unit. *)
Fixpoint occurrences (n : str) (l : list str) : Z :=
  match l with [] => 0 | x :: r => (if str_eqb x n then 1 else 0) + occurrences n r end.
Definition exponent (n : str) (u d : list str) : Z := occurrences n u - occurrences n d.
(** No name is in both parts. *)
Definition reduced (u d : list str) : Prop := forall n, In n u -> ~ In n d.
