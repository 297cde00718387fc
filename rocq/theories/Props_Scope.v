(** * C42: scoping of variables *)

From Coq Require Import String ZArith List Bool Lia Arith Floats.SpecFloat.
From Verif Require Import Base NodeHeap NodeProofs Compiler CompRun ScopeSpec ScopeProofs.
Import ListNotations.
Open Scope string_scope. Open Scope list_scope. Open Scope Z_scope.

(** C42, for every history of block entries, exits, assignments (with any
    tokens, white space and flags) and reads, from an empty style sheet: the
    reads give what the reference semantics of ScopeSpec.v gives. *)
Theorem c42_scoping : forall (quiet : bool) (l : list event), Forall event_ok l ->
  exists s', history (at_sheet quiet) l new_sheet = Ret (reads (mkScopes [] empty_env) l) s'.
Proof.
  intros quiet l OK. apply history_run; [| |exact OK].
  - exists [], (node_with LIST []). cbn. split; [reflexivity|]. split; [repeat constructor; intros []|]. split; [constructor|].
    split; [reflexivity|]. split; [reflexivity|]. intro k. reflexivity.
  - intros a c b [<-|[]] H I. injection H as <-. destruct I.
Qed.

(** The laws of the English statement, on the reference semantics: a value set
    in a scope is read there until the scope is left, the outer value is back
    afterwards, a global one is found where no open block hides it and a
    default one changes nothing when there is a value. *)
Lemma reference_laws :
  (forall s k v q, find_value (set_local s k v) q = if str_eqb q k then Some v else find_value s q)
  /\ (forall s k v, find_value s k = Some v -> forall l, existsb is_default l = true -> assign s k l = s)
  /\ (forall s k l, existsb is_global l = true -> existsb is_default l = false ->
        blocks (assign s k l) = blocks s
        /\ forall q, find_value (assign s k l) q = if str_eqb q k then match find_in (blocks s) q with Some v => Some v | None => Some (value_of (tokens_of l)) end else find_value s q)
  /\ (forall s k v e b, set_local (mkScopes (Some e :: b) s) k v = mkScopes (Some (update e k v) :: b) s).
Proof.
  split; [|split; [|split]].
  - intros [bl sh] k v q. unfold set_local. cbn [blocks sheet].
    assert (L : match set_in bl k v with
                | Some l => forall d : option value, match find_in l q with Some w => Some w | None => d end
                              = if str_eqb q k then Some v else match find_in bl q with Some w => Some w | None => d end
                | None => find_in bl q = None end).
    { induction bl as [|[e|] bl IH]; cbn [set_in find_in]; [reflexivity| |].
      - intro d. unfold update. destruct (str_eqb q k); reflexivity.
      - destruct (set_in bl k v); cbn [option_map find_in]; exact IH. }
    destruct (set_in bl k v) as [l|]; unfold find_value; cbn [blocks sheet].
    + apply L.
    + rewrite L. unfold update. destruct (str_eqb q k); reflexivity.
  - intros s k v H l D. unfold assign. rewrite D, H. reflexivity.
  - intros s k l G D. unfold assign. rewrite G, D. cbn [andb]. split; [reflexivity|]. intro q. unfold find_value. cbn [blocks sheet].
    unfold update. destruct (find_in (blocks s) q); destruct (str_eqb q k); reflexivity.
  - reflexivity.
Qed.

(** A history with shadowing, a global and a default. *)
Definition one (t : string) : list item := [Tok (IDENTIFIER, zs t)].
Example c42_example : exists s',
  history (at_sheet false)
    [Assign (zs "x") false true (one "red");
     Enter true; Read (zs "x"); Assign (zs "x") true true (one "blue" ++ [Tok (WHITESPACE, []); Tok (INTEGER, [])]);
     Enter false; Assign (zs "x") false false (one "no" ++ [Default]); Read (zs "x"); Exit;
     Assign (zs "y") false true (one "null" ++ [Global]); Exit;
     Read (zs "x"); Read (zs "y"); Read (zs "z")] new_sheet
  = Ret [Some [(IDENTIFIER, zs "red")];
         Some [(IDENTIFIER, zs "blue"); (WHITESPACE, []); (INTEGER, [])];
         Some [(IDENTIFIER, zs "red")]; Some [(NULL_TOKEN, [])]; None] s'.
Proof. eexists. vm_compute. reflexivity. Qed.
