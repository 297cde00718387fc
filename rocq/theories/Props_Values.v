(** * Properties of compile(): declarations (C63) *)

From Coq Require Import String ZArith List Bool Lia Arith ZifyBool Floats.SpecFloat.
From Verif Require Import Base NodeHeap NodeProofs Color FloatBits.
From Verif Require Expr ExprRun.
From Verif Require Import PrecSpec ListSpec SplitSpec.
From Verif Require Import Compiler CompRun Compile ValuesSpec ValuesProofs DeclCompile.
Import ListNotations.
Open Scope string_scope. Open Scope list_scope. Open Scope Z_scope.
Ltac Zify.zify_post_hook ::= idtac.

(** ** C63 compile() keeps the name of a declaration and its values

    [n] holds "name: values", a child of [parent].  The component value is
    replaced by a declaration of the same name, at the same place; the values
    are in the same order and between the same separators, each one being the
    value of the expression that was written ([declared]); the flags
    (!important) are on the declaration; no message; the other nodes are as they
    were. *)
Theorem c63_declaration : forall k h m ps n parent c kp its name x more fuel r,
  nth_error h n = Some c -> c_type c = COMPONENT_VALUE ->
  declares h c name (r_metrics k name) (separator k name) its ->
  name <> zs "filter" /\ name <> zs "-filter" ->
  x_parents x = parent :: more -> nth_error h parent = Some kp -> container (c_type kp) = true -> In n (c_ch kp) ->
  Z.of_nat (length (c_ch c)) < 18446744073709551616 -> enough fuel its ->
  exists h' d, run k fuel Compile x r n (mkK h m ps) = Ret r (mkK h' m ps)
    /\ declared h h' (c_pos c) name (separator k name) its d
    /\ (exists l', replaced n d (c_ch kp) l' /\ nth_error h' parent = Some (with_ch kp l'))
    /\ nth_error h d = None
    /\ forall b cb, b <> n -> b <> parent -> nth_error h b = Some cb -> nth_error h' b = Some cb.
Proof.
  intros k h m ps n parent c kp its name x more fuel r Hn Tn De Nm Xp Hp Tp Ip Sz En.
  destruct (declaration_compiles k h m ps n parent c kp its name x more Hn Tn De Nm Xp Hp Tp Ip Sz fuel r En) as (h' & d & A & B & C & D & _ & E). exists h', d. auto.
Qed.
(** A list of declarations, such as the block of a rule: all of them, in order,
    and nothing else in the list. *)
Theorem c63_block : forall k fuel l kl x h m ps ns fs,
  nth_error h l = Some kl -> c_type kl = LIST -> c_ch kl = ns -> NoDup ns -> Forall2 (field_ok k fuel h) ns fs -> (2 * length ns < fuel)%nat ->
  exists h' ds, run k (S fuel) Compile x None l (mkK h m ps) = Ret None (mkK h' m ps)
    /\ nth_error h' l = Some (with_ch kl ds)
    /\ Forall2 (fun nf d => field_done k h h' (fst nf) (snd nf) d) (combine ns fs) ds
    /\ forall b cb, ~ In b ns -> b <> l -> nth_error h b = Some cb -> nth_error h' b = Some cb.
Proof.
  intros k fuel l kl x h m ps ns fs Hl Tl El Nd Fo Lg.
  destruct (block_loop k l x fuel m ps ns fs [] h kl fuel Hl (or_introl Tl) El Nd ltac:(intros a []) Fo Lg) as (h' & ds & E & A & B & C & _).
  exists h', ds. split; [|auto]. cbn [run]. erewrite b_ret; [|eapply run_type; exact Hl]. rewrite Tl. exact E.
Qed.

(** An example: [margin: 1 + 2 auto, #fff !important; color : red]. *)
Module Example.
  Definition nd (t : ntype) (s : string) (i : Z) (ch : list addr) : cell := mkCell t (mkPos 1 1 1) false i (S754_zero false) (zs s) [] ch [] [].
  Definition h : heap :=
    [ nd LIST "" 0 [1; 16];
      nd COMPONENT_VALUE "" 0 [2; 3; 4; 5; 6; 7; 6; 8; 6; 9; 10; 11; 12; 13; 14];
      nd IDENTIFIER "margin" 0 []; nd COLON "" 0 []; nd WHITESPACE "" 0 []; nd INTEGER "" 1 []; nd WHITESPACE "" 0 []; nd ADD "" 0 []; nd INTEGER "" 2 [];
      nd IDENTIFIER "auto" 0 []; nd COMMA "" 0 []; nd WHITESPACE "" 0 []; nd HASH "fff" 0 []; nd WHITESPACE "" 0 []; nd EXCLAMATION "important" 0 [];
      nd NULL_TOKEN "" 0 [];
      nd COMPONENT_VALUE "" 0 [17; 4; 3; 11; 18]; nd IDENTIFIER "color" 0 []; nd IDENTIFIER "red" 0 [] ]%nat.
  Definition margin : field := mkField (zs "margin")
    [mkItem [mkEntry (Bin (OAdd false) 7%nat (Atom 5%nat) (Atom 8%nat)) [5; 6; 7; 6; 8]%nat [6%nat]; mkEntry (Atom 9%nat) [9%nat] []] [];
     mkItem [mkEntry (Atom 12%nat) [12%nat] [13%nat]] [14%nat]].
  Definition color : field := mkField (zs "color") [mkItem [mkEntry (Atom 18%nat) [18%nat] []] []].
  Definition none : rules := mkR (mkW (mkLibm (fun x _ => x)) (fun _ => fun _ _ _ => NoFuel) (fun _ => false) (fun _ g => Ret None g) (fun _ _ => []))
    (fun _ _ => ret true) (fun _ => false) (fun _ => false).
  Ltac sp := intros w I; cbn in I; repeat (destruct I as [<-|I]; [eexists; split; reflexivity|]); destruct I.
  Ltac nosp := let Q := fresh in let z := fresh in let c := fresh in intros z Q; cbn in Q; injection Q as <-; intros Q; destruct (Q _ (or_introl eq_refl)) as (c & Q1 & Q2); vm_compute in Q1; injection Q1 as <-; discriminate Q2.
  Ltac types := let I := fresh in let y := fresh in intros y I; cbn in I; repeat (destruct I as [<-|I]; [eexists; split; [reflexivity|repeat split; discriminate]|]); destruct I.
  Ltac apt := cbn [apart]; repeat split; try exact I; intros (A & B); first [destruct (A _ (or_introl eq_refl)) as (? & Q1 & Q2); vm_compute in Q1; injection Q1 as <-; discriminate Q2 | destruct (B _ (or_introl eq_refl)) as (? & Q1 & Q2); vm_compute in Q1; injection Q1 as <-; discriminate Q2].
  Ltac lead := cbn; intros ? Q; vm_compute in Q; injection Q as <-; discriminate.
  Ltac grp := split; [discriminate|]; split; [apt|]; split; [nosp|]; split; [nosp|types].
  Lemma margin_ok : field_ok none 20 h 1%nat margin.
  Proof.
    eexists. split; [reflexivity|]. split; [reflexivity|]. split.
    - eexists 2%nat, _, [], 3%nat, _, [4%nat], [5; 6; 7; 6; 8; 6; 9; 10; 11; 12; 13; 14]%nat, _. split; [reflexivity|]. split; [reflexivity|]. split; [reflexivity|]. split; [reflexivity|].
      split; [reflexivity|]. split; [reflexivity|]. split; [now left|]. split; [right; exists 4%nat; split; [reflexivity|]; eexists; split; reflexivity|]. split; [lead|].
      split; [apt|]. split.
      + apply (grouped_more h COMMA [] [5; 6; 7; 6; 8; 6; 9]%nat [] 10%nat (nd COMMA "" 0 []) [11; 12; 13; 14]%nat [[12; 13; 14]%nat]); [intros w []| |now left|reflexivity|reflexivity|].
        * grp.
        * apply (grouped_last h COMMA [11%nat] [12; 13; 14]%nat); [sp|grp].
      + split; [|types]. constructor; [|constructor; [|constructor]].
        * split; [reflexivity|]. split; [constructor; [|constructor; [|constructor]]|].
          -- split; [|split; [lead|split; [lead|split; [|split; [|split; [|right; exists 6%nat; split; [reflexivity|eexists; split; reflexivity]]]]]]].
             ++ eapply spaced_token; [reflexivity|discriminate|]. eapply spaced_ws; [reflexivity|reflexivity|]. eapply spaced_token; [reflexivity|discriminate|]. eapply spaced_ws; [reflexivity|reflexivity|]. eapply spaced_token; [reflexivity|discriminate|]. constructor.
             ++ cbn. split; [eexists; split; reflexivity|]. split; eexists; split; reflexivity.
             ++ cbn. repeat split; lia.
             ++ right. right. split; [reflexivity|]. eexists. vm_compute. reflexivity.
          -- split; [eapply spaced_token; [reflexivity|discriminate|constructor]|]. split; [lead|]. split; [lead|]. split; [eexists; split; reflexivity|]. split; [exact I|]. split; [left; eexists _, _; split; [reflexivity|split; [reflexivity|vm_compute; reflexivity]]|now left].
          -- split; [|split; [now left|discriminate]]. cbn [chained]. split; [eexists; split; [reflexivity|]; split; [vm_compute; reflexivity|repeat split; discriminate]|]. split; [discriminate|]. split; [exact I|]. split; [reflexivity|exact I].
        * split; [reflexivity|]. split; [constructor; [|constructor]|].
          -- split; [eapply spaced_token; [reflexivity|discriminate|constructor]|]. split; [lead|]. split; [lead|]. split; [eexists; split; reflexivity|]. split; [exact I|]. split; [right; left; eexists _, _, _; split; [reflexivity|split; [reflexivity|vm_compute; reflexivity]]|]. right. exists 13%nat. split; [reflexivity|eexists; split; reflexivity].
          -- split; [|split; [|discriminate]]. ++ cbn [chained]. split; [eexists; split; [reflexivity|]; split; [reflexivity|repeat split; discriminate]|]. split; [discriminate|exact I]. ++ right. eexists _, _. split; [reflexivity|]. split; reflexivity.
    - split; [discriminate|]. split; [discriminate|]. split; [reflexivity|]. split; [cbn; lia|]. repeat constructor; cbn; lia.
  Qed.
  Lemma color_ok : field_ok none 20 h 16%nat color.
  Proof.
    eexists. split; [reflexivity|]. split; [reflexivity|]. split.
    - eexists 17%nat, _, [4%nat], 3%nat, _, [11%nat], [18%nat], _. split; [reflexivity|]. split; [reflexivity|]. split; [reflexivity|]. split; [reflexivity|].
      split; [reflexivity|]. split; [reflexivity|]. split; [right; exists 4%nat; split; [reflexivity|]; eexists; split; reflexivity|]. split; [right; exists 11%nat; split; [reflexivity|]; eexists; split; reflexivity|]. split; [lead|].
      split; [exact I|]. split; [apply (grouped_last h COMMA [] [18%nat]); [intros w []|split; [discriminate|]; split; [exact I|]; split; [nosp|]; split; [nosp|types]]|].
      split; [|types]. constructor; [|constructor]. split; [reflexivity|]. split; [constructor; [|constructor]|].
      + split; [eapply spaced_token; [reflexivity|discriminate|constructor]|]. split; [lead|]. split; [lead|]. split; [eexists; split; reflexivity|]. split; [exact I|]. split; [right; left; eexists _, _, _; split; [reflexivity|split; [reflexivity|vm_compute; reflexivity]]|now left].
      + split; [cbn [chained]; split; [exact I|]; split; [reflexivity|exact I]|]. split; [now left|discriminate].
    - split; [discriminate|]. split; [discriminate|]. split; [reflexivity|]. split; [cbn; lia|]. repeat constructor; cbn; lia.
  Qed.
End Example.
(** Both declarations are there afterwards; the first one is important and its
    first argument is 3 auto. *)
Theorem c63_ex : exists h' d1 d2 k1 k2 a b r w v,
  run Example.none 21 Compile (mkX 0%nat [] false) None 0%nat (mkK Example.h [] []) = Ret None (mkK h' [] [])
  /\ nth_error h' 0%nat = Some (with_ch (Example.nd LIST "" 0 []) [d1; d2])
  /\ nth_error h' d1 = Some k1 /\ c_str k1 = zs "margin" /\ c_flags k1 = [zs "important"] /\ c_ch k1 = [a; b]
  /\ nth_error h' d2 = Some k2 /\ c_str k2 = zs "color"
  /\ nth_error h' a = Some (argument (mkPos 1 1 1) COMMA [r; w; 9%nat])
  /\ nth_error h' r = Some v /\ c_type v = INTEGER /\ c_int v = 3.
Proof.
  assert (Fo : Forall2 (field_ok Example.none 20 Example.h) [1; 16]%nat [Example.margin; Example.color]) by (constructor; [exact Example.margin_ok|constructor; [exact Example.color_ok|constructor]]).
  destruct (c63_block Example.none 20 0%nat _ (mkX 0%nat [] false) Example.h [] [] [1; 16]%nat _ eq_refl eq_refl eq_refl ltac:(repeat constructor; cbn; lia) Fo ltac:(cbn; lia)) as (h' & ds & E & Hl & V & _).
  inversion V as [|? d1 ? ? (c1 & H1 & (args & Hd1 & V1)) V']; subst. inversion V' as [|? d2 ? ? (c2 & H2 & (args2 & Hd2 & V2)) V'']; subst. inversion V''; subst.
  vm_compute in H1. injection H1 as <-. inversion V1 as [|a ? ? ? (rs & Ha & Hr) V1']; subst. inversion V1' as [|b ? ? ? _ V1'']; subst. inversion V1''; subst.
  cbn [i_values] in Hr. inversion Hr as [|? r ? ? (v & Hv & Sv) Hr']; subst. inversion Hr' as [|? r2 ? ? (v2 & Hv2 & Sv2) Hr'']; subst. inversion Hr''; subst.
  assert (r2 = 9%nat). { destruct Sv2 as [(Q & _)|[(? & ? & ? & Q & Q1 & Q2 & _)|(v0 & Q & _)]]; [cbn in Q; congruence| |vm_compute in Q; discriminate]. cbn in Q. injection Q as <-. vm_compute in Q1. injection Q1 as <-. vm_compute in Q2. discriminate. }
  subst r2. exists h', d1, d2. eexists _, _, a, b, r, 6%nat, v. split; [exact E|]. split; [exact Hl|]. split; [exact Hd1|]. split; [reflexivity|]. split; [reflexivity|]. split; [reflexivity|]. split; [exact Hd2|]. split; [reflexivity|]. split; [exact Ha|]. split; [exact Hv|].
  destruct Sv as [(Q & _)|[(? & ? & ? & Q & _)|(v0 & Q & R)]]; [discriminate Q|discriminate Q|]. vm_compute in Q. injection Q as <-. destruct R as ((T & I & _) & _). auto.
Qed.

(** A block among the values of a declaration (a nested field) is not a value: alone
    it is left as it is. *)
Theorem c63_nested_block_kept : forall lm fn fuel font d b (s : Expr.est) kd kb,
  nth_error (Expr.e_heap s) d = Some kd -> c_type kd = DECLARATION -> c_ch kd = [b] ->
  nth_error (Expr.e_heap s) b = Some kb -> c_type kb = OPEN_CURLYBRACKET ->
  compile_args lm fn fuel font d s = Ret tt s.
Proof.
  intros lm fn fuel font d b s kd kb Hd Td Ec Hb Tb. assert (Hch : has_children (c_type kd) = true) by (rewrite Td; reflexivity).
  unfold compile_args. assert (E1 : Expr.lift (child_empty d) s = Ret false s). { unfold Expr.lift, child_empty, NodeHeap.bind, load, supports. rewrite Hd, Hch. unfold NodeHeap.ret. rewrite Ec. destruct s; reflexivity. }
  assert (E2 : Expr.lift (get_last_child d) s = Ret b s) by (apply (last_child_run s d kd [] b Hd Hch Ec); reflexivity).
  assert (E3 : Expr.type_of b s = Ret OPEN_CURLYBRACKET s) by (rewrite (ExprRun.run_type s b kb Hb), Tb; reflexivity).
  assert (E4 : Expr.lift (size d) s = Ret 1 s). { unfold Expr.lift, size, NodeHeap.bind, load, supports. rewrite Hd, Hch. unfold NodeHeap.ret. rewrite Ec. destruct s; reflexivity. }
  unfold Expr.bind. rewrite E1, E2, E3, E4. reflexivity.
Qed.
Example c63_nested_block_ex : forall lm fn,
  let cell t l := mkCell t (mkPos 1 1 1) false 0 (S754_zero false) [] [] l [] [] in
  let s := Expr.mkE [cell DECLARATION [1%nat]; cell OPEN_CURLYBRACKET [2%nat]; cell IDENTIFIER []] [] 0%nat 0 (-1) None [] false in
  compile_args lm fn 5 false 0%nat s = Ret tt s.
Proof. intros. eapply c63_nested_block_kept; reflexivity. Qed.
