(** * C43: @if / @else if / @else *)

From Coq Require Import String ZArith List Bool Lia Arith ZifyBool Floats.SpecFloat.
From Verif Require Import Base NodeHeap NodeProofs Compiler CompRun ScopeProofs IfSpec IfProofs.
Import ListNotations.
Open Scope string_scope. Open Scope list_scope. Open Scope Z_scope.
Ltac Zify.zify_post_hook ::= idtac.

(** A list of statements (a style sheet or a block) made of [pre], one chain
    @if / @else if ... / @else, and [post], is replaced by [pre], the
    statements of the branch to be kept, and [post]; no other node changes.
    The branch kept is the one of the first condition that is true, else the
    @else, else nothing.

    The statements before, after and in the blocks need no preprocessing.  The
    case left out is an @if whose condition is false, without any @else, and
    followed by something: see c43_lone_false_if_refuted. *)
Theorem c43_if_chain_partial : forall w x (P : addr) h cp d F0 T (pre post : list addr) br elses final m ps,
  let nodes := map b_node (br :: elses) ++ final_node final in
  let D := P :: nodes in
  nth_error h P = Some cp -> c_type cp = LIST \/ c_type cp = OPEN_CURLYBRACKET ->
  c_ch cp = pre ++ nodes ++ post -> NoDup D ->
  Forall (settled D h d) pre -> Forall (settled D h d) post ->
  if_node D h d br -> Forall (else_if_node D h d) elses ->
  match final with Some (n, b) => else_node D h d n b | None => True end ->
  Forall (evaluates w (push x P) F0 h T) (br :: elses) -> (forall a, In a T -> ~ In a D /\ (a < length h)%nat) ->
  b_truth br = true \/ elses <> [] \/ final <> None \/ post = [] ->
  exists F, forall fuel, (F <= fuel)%nat ->
    exists h' m', replace_variables w fuel x P (mkK h m ps) = Ret tt (mkK h' m' ps)
      /\ nth_error h' P = Some (with_ch cp (pre ++ kept_statements h (chosen (br :: elses) (option_map snd final)) ++ post))
      /\ keeps D h h'.
Proof.
  intros w x P h cp d F0 T pre post br elses final m ps nodes D HP TP Ch ND Fpre Fpost Ib Fe Hf Fv TD Need.
  set (ins := kept_statements h (chosen (br :: elses) (option_map snd final))).
  exists (2 + (length pre + (length nodes + length ins + (length post + (1 + F0)))) + d + 2)%nat. intros fuel Lf.
  destruct fuel as [|fu]; [lia|].
  assert (CP : has_children (c_type cp) = true) by (destruct TP as [-> | ->]; reflexivity).
  assert (PD : In P D) by (cbn; auto).
  set (f0 := (fu - length pre - length nodes - length ins - length post - 1)%nat).
  set (f1 := (length post + S f0)%nat).
  set (f2 := (length nodes + length ins + f1)%nat).
  assert (E : fu = (length pre + f2)%nat) by (unfold f2, f1, f0; lia).
  apply NoDup_cons_iff in ND. destruct ND as [NP ND].   
  assert (Sf : forall hh mm a, settled D hh d a -> replace_variables w fu (push x P) a (mkK hh mm ps) = Ret tt (mkK hh mm ps)).
  { intros hh mm a Sa. eapply settled_run; [exact Sa|]. lia. }
  destruct (if_chain w (push x P) P D h d F0 ps PD T pre post br elses final cp h m f1 fu) as (h' & m' & Run & K & HP'); auto.
  { apply keeps_refl. }
  { intros n In_. split; [right; exact In_|]. split; [intros ->; auto|]. split; [|reflexivity].
    unfold nodes in In_. apply in_app_or in In_. destruct In_ as [In_|In_].
    - apply in_map_iff in In_. destruct In_ as (b & <- & [<-|Ibb]).
      + destruct Ib as (cb & Hb & _). eapply nth_lt; eauto.
      + rewrite Forall_forall in Fe. destruct (Fe b Ibb) as (cb & ? & ? & ? & Hb & _). eapply nth_lt; eauto.
    - destruct final as [[fn fb]|]; [|destruct In_]. destruct In_ as [<-|[]]. destruct Hf as (cb & Hb & _). eapply nth_lt; eauto. }
  { unfold f1, f0. lia. } { lia. }
  exists h', m'. split; [|split; [exact HP'|exact K]].
  assert (Loop : variables_loop w (replace_variables w fu) (push x P) P fu 0 (mkK h m ps) = Ret tt (mkK h' m' ps)).
  { rewrite E at 2.
    pose proof (loop_past w (replace_variables w fu) (push x P) P cp h m ps D d HP CP (Sf h m) pre [] (nodes ++ post) f2 Ch Fpre) as Q. cbn [app length] in Q. change (Z.of_nat 0) with 0 in Q.
    etransitivity; [exact Q|]. clear Q. etransitivity; [exact Run|]. fold ins. fold ins in HP'. unfold f1.
    pose proof (loop_past w (replace_variables w fu) (push x P) P _ h' m' ps D d HP' CP (Sf h' m') post (pre ++ ins) [] (S f0)) as Q.
    rewrite app_nil_r, <- app_assoc in Q. etransitivity; [apply Q; [reflexivity|]|].
    - eapply Forall_impl; [|exact Fpost]. intros a Sa. eapply settled_keeps; eauto.
    - etransitivity; [|eapply (loop_end w _ (push x P) P _ h' m' ps f0 HP' CP)]. cbn [c_ch with_ch]. rewrite <- ?app_assoc. reflexivity. }
  cbn [replace_variables].
  erewrite b_ret; [|eapply run_type; exact HP].
  assert (Body : (t <- type_of P ;;
        set <- (if ntype_eqb t COMPONENT_VALUE then is_variable_set P false else ret false) ;;
        first <- (if set : bool then
                    v <- child_is P 0 VARIABLE_FUNCTION ;; if v : bool then lift (size P) else ret 1
                  else ret 0) ;;
        variables_loop w (replace_variables w fu) (push x P) P fu first ;;;
        if set : bool then compiler_set_variable (push x P) P else ret tt) (mkK h m ps) = Ret tt (mkK h' m' ps)).
  { erewrite b_ret; [|eapply run_type; exact HP].
    replace (ntype_eqb (c_type cp) COMPONENT_VALUE) with false by (destruct TP as [-> | ->]; reflexivity).
    rewrite bind_ret. cbv iota. rewrite bind_ret. erewrite b_ret; [|exact Loop]. reflexivity. }
  destruct TP as [TP|TP]; rewrite TP; [|exact Body].
  erewrite b_ret; [|eapply run_empty; [exact HP|exact CP]]. rewrite Ch.
  replace (match pre ++ nodes ++ post with [] => true | _ => false end) with false by (destruct pre; reflexivity). exact Body.
Qed.

(** ** Counter examples *)
Definition nowhere : world :=
  mkW (mkLibm (fun x _ => x)) (fun _ => fun _ _ _ => NoFuel) (fun _ => false) (fun _ g => Ret None g) (fun _ _ => []).
Definition node (t : ntype) (s : string) (ch : list addr) : cell :=
  mkCell t (new_position 1 1) false 0 (S754_zero false) (zs s) [] ch [] [].

(** [@if false \{ a: b \}] followed by a rule [x \{\}]: an exception, whereas the rule
    alone should remain. *)
Definition lone_if : heap :=
  [node LIST "" [1; 7]; node AT_KEYWORD "if" [2; 3]; node IDENTIFIER "false" []; node OPEN_CURLYBRACKET "" [4];
   node DECLARATION "a" [5]; node ARG "" [6]; node IDENTIFIER "b" [];
   node COMPONENT_VALUE "" [8; 9]; node IDENTIFIER "x" []; node OPEN_CURLYBRACKET "" [10]; node DECLARATION "c" [5]]%nat.
Theorem c43_lone_false_if_refuted : exists s',
  replace_variables nowhere 30 (mkX 0%nat [] false) 0%nat (mkK lone_if [] []) = Throw XNodeType s'.
Proof. eexists. vm_compute. reflexivity. Qed.
(** A block which is not kept is processed nevertheless: [@if false \{ $x: 1 !global \}]
    sets the variable. *)
Definition false_set : heap :=
  [node LIST "" [1]; node AT_KEYWORD "if" [2; 3]; node IDENTIFIER "false" []; node OPEN_CURLYBRACKET "" [4];
   node COMPONENT_VALUE "" [5; 6; 7; 8]; node VARIABLE "x" []; node COLON "" []; node INTEGER "" []; node EXCLAMATION "global" []]%nat.
Theorem c43_false_block_sets_refuted : exists s' c v,
  replace_variables nowhere 30 (mkX 0%nat [] false) 0%nat (mkK false_set [] []) = Ret tt s'
  /\ nth_error (k_heap s') 0%nat = Some c /\ c_ch c = [] /\ map_get (c_vars c) (zs "x") = Some v.
Proof. eexists _, _, _. vm_compute. split; [reflexivity|]. split; [reflexivity|]. split; reflexivity. Qed.

(** * C54: what needs no preprocessing is left as it is

    [settled [] h d a]: the tree at [a], of depth and width below [d], has no
    variable, no at-keyword of the preprocessor, no reference in a comment and
    no empty list.  Then the replacement of variables ends, whatever the
    environment is, and changes nothing and reports nothing. *)
Theorem c54_plain_css_unchanged : forall w h d a, settled [] h d a ->
  forall fuel x m ps, (d < fuel)%nat -> replace_variables w fuel x a (mkK h m ps) = Ret tt (mkK h m ps).
Proof. intros. eapply settled_run; eauto. Qed.
(** [@media x \{ b \{ c: url(d) \} \} /* \{d\} */]. *)
Definition plain_sheet : heap :=
  [node LIST "" [1; 10]; node AT_KEYWORD "media" [2; 3]; node IDENTIFIER "x" []; node OPEN_CURLYBRACKET "" [4];
   node COMPONENT_VALUE "" [5; 6]; node IDENTIFIER "b" []; node OPEN_CURLYBRACKET "" [7]; node DECLARATION "c" [8];
   node ARG "" [9]; node URL "d" []; node COMMENT "{d}" []]%nat.
Example c54_example : settled [] plain_sheet 9 0%nat.
Proof.
  assert (S9 : forall d, settled [] plain_sheet d 9%nat) by (intro; eapply settled_simple; [auto|reflexivity|reflexivity]).
  assert (S5 : forall d, settled [] plain_sheet d 5%nat) by (intro; eapply settled_simple; [auto|reflexivity|reflexivity]).
  assert (S2 : forall d, settled [] plain_sheet d 2%nat) by (intro; eapply settled_simple; [auto|reflexivity|reflexivity]).
  assert (G : forall a c d, nth_error plain_sheet a = Some c -> group_type (c_type c) = true -> c_ch c <> [] -> (length (c_ch c) < d)%nat ->
               Forall (settled [] plain_sheet d) (c_ch c) -> settled [] plain_sheet (S d) a).
  { intros. eapply settled_group; eauto. }
  assert (S8 : settled [] plain_sheet 3 8%nat) by (eapply G; [reflexivity|reflexivity|discriminate|cbn; lia|repeat constructor; apply S9]).
  assert (S7 : settled [] plain_sheet 4 7%nat) by (eapply G; [reflexivity|reflexivity|discriminate|cbn; lia|repeat constructor; apply S8]).
  assert (S6 : settled [] plain_sheet 5 6%nat) by (eapply G; [reflexivity|reflexivity|discriminate|cbn; lia|repeat constructor; apply S7]).
  assert (S4 : settled [] plain_sheet 6 4%nat) by (eapply G; [reflexivity|reflexivity|discriminate|cbn; lia|constructor; [apply S5|constructor; [apply S6|constructor]]]).
  assert (S3 : settled [] plain_sheet 7 3%nat) by (eapply G; [reflexivity|reflexivity|discriminate|cbn; lia|constructor; [apply S4|constructor]]).
  assert (S1 : settled [] plain_sheet 8 1%nat).
  { eapply settled_group; [auto|reflexivity|right; split; [reflexivity|]|discriminate|cbn; lia|constructor; [apply S2|constructor; [apply S3|constructor]]].
    apply special_spec. vm_compute. reflexivity. }
  assert (S10 : settled [] plain_sheet 8 10%nat).
  { eapply settled_comment; [auto|reflexivity|reflexivity|]. intro i. do 4 (destruct i as [|i]; [vm_compute; discriminate|]). destruct i; vm_compute; discriminate. }
  eapply G; [reflexivity|reflexivity|discriminate|cbn; lia|constructor; [apply S1|constructor; [apply S10|constructor]]].
Qed.
