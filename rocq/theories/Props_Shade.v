(** * C59: the functions on colours *)

From Coq Require Import String ZArith List Bool Lia Arith ZifyBool Reals Floats.SpecFloat.
From Verif Require Import Base UnicodeRange NodeHeap NodeProofs Color FloatBits Dim Expr ExprSpec ExprRun Hsl Functions FunctionSpec FunctionRun
  F32Facts Props_Color Props_Functions Props_Math.
Import ListNotations.
Open Scope string_scope. Open Scope list_scope. Open Scope Z_scope.
Ltac Zify.zify_post_hook ::= idtac.

(** A colour is read back from the node where it was stored. *)
Lemma double_back v : 0 <= v < 18446744073709551616 -> v / 4503599627370496 mod 2048 <> 2047 -> f64_bits (bits_f64 v) = v.
Proof.
  intros B N.
  assert (D : exists k x f, (k = 0 \/ k = 1) /\ 0 <= x < 2047 /\ 0 <= f < 4503599627370496 /\ v = k * 9223372036854775808 + (x * 4503599627370496 + f)
    /\ v / 4503599627370496 mod 2048 = x /\ v mod 4503599627370496 = f).
  { exists (v / 9223372036854775808), (v / 4503599627370496 mod 2048), (v mod 4503599627370496).
    Z.to_euclidean_division_equations. lia. }
  destruct D as (k & x & f & Hk & Hx & Hf & E & Ex & Ef). unfold bits_f64. rewrite Ex, Ef.
  replace (x =? 2047) with false by lia.
  assert (Es : (9223372036854775808 <=? v) = (k =? 1)) by lia. rewrite Es.
  destruct (Z.eqb_spec x 0) as [X|X].
  - destruct f as [|m|m]; [| |lia].
    + destruct Hk as [-> | ->]; [change (0 =? 1) with false|change (1 =? 1) with true]; cbn [f64_bits]; lia.
    + destruct Hk as [-> | ->]; [change (0 =? 1) with false|change (1 =? 1) with true]; cbn [f64_bits]; (replace (Z.pos m <? 4503599627370496) with true by lia); lia.
  - destruct (f + 4503599627370496) as [|m|m] eqn:M; [lia| |lia].
    destruct Hk as [-> | ->]; [change (0 =? 1) with false|change (1 =? 1) with true]; cbn [f64_bits]; (replace (Z.pos m <? 4503599627370496) with false by lia); lia.
Qed.
Lemma bits_small x : f32_valid x -> f32_bits x / 1048576 mod 2048 <> 2047.
Proof.
  intro V. destruct x as [s|s| |s m e]; [destruct s; cbn; discriminate..|cbn; discriminate|].
  apply bounded_cases in V. destruct V as (V1 & V2 & V3). unfold f32_bits.
  destruct (Z.pos m <? 8388608) eqn:E; destruct s; Z.to_euclidean_division_equations; lia.
Qed.
Lemma color_back c k : f32_valid (c_red k) -> f32_valid (c_green k) -> f32_valid (c_blue k) -> f32_valid (c_alpha k) ->
  cell_color (with_color c k) = k.
Proof.
  intros R G B A. unfold cell_color, with_color. cbn [c_int c_dec with_int with_dec].
  destruct k as [r g b a]. cbn [c_red c_green c_blue c_alpha] in *. rewrite double_back.
  - rewrite <- surjective_pairing. apply c53_stored; assumption.
  - apply (pack_low (f32_bits b) (f32_bits a) (bits_range b B) (bits_range a A)).
  - unfold store_color. cbn [snd c_blue c_alpha]. unfold pack2.
    pose proof (bits_range b B) as Rb. pose proof (bits_small a A) as Ra.
    replace ((f32_bits b + 4294967296 * f32_bits a) / 4503599627370496) with (f32_bits a / 1048576); [exact Ra|].
    change 4503599627370496 with (4294967296 * 1048576). rewrite <- Z.div_div by lia.
    replace (f32_bits b + 4294967296 * f32_bits a) with (f32_bits b + f32_bits a * 4294967296) by lia.
    rewrite Z.div_add by lia. rewrite (Z.div_small (f32_bits b)) by lia. reflexivity.
Qed.

Lemma f32_of_f64_valid x : f32_valid (f32_of_f64 x).
Proof.
  destruct x as [s|s| |s m e]; try reflexivity. cbn [f32_of_f64]. rewrite binary_normalize_equiv. apply B2SF_valid.
Qed.

(** A node which holds this colour. *)
Definition color_node (c : cell) (k : color) : Prop := c_type c = COLOR /\ cell_color c = k.
Lemma get_color_run s func name x c k : called s func name [[x]] -> node_at s x c -> color_node c k ->
  get_color_arg func 0 s = Ret (Some (x, k)) s.
Proof.
  intros C H (T & K). unfold get_color_arg.
  erewrite b_ret; [|exact (run_get_typed s func name [[x]] C _ 0 x c eq_refl H)]. cbv beta. rewrite T. change (ntype_eqb COLOR COLOR) with true. cbv iota.
  steps. rewrite K. reflexivity.
Qed.
Lemma blank_color p k : f32_valid (c_red k) -> f32_valid (c_green k) -> f32_valid (c_blue k) -> f32_valid (c_alpha k) ->
  color_node (with_color (blank COLOR p) k) k.
Proof. intros. split; [reflexivity|]. apply color_back; assumption. Qed.

(** The component of a byte. *)
Definition of_byte (v : Z) : f32 := f32_of_f64 (byte_scale (f64_of_Z v)).
Definition to_byte64 (x : f32) : option Z :=
  int_of_f64 (f64_add (f64_mul (f64_of_f32 x) (f64_of_Z 255)) (f64_div f_one f_two)).
Lemma bytes_back : forall v, 0 <= v <= 255 -> to_byte64 (of_byte v) = Some v.
Proof.
  assert (A : forallb (fun n => match to_byte64 (of_byte (Z.of_nat n)) with Some w => w =? Z.of_nat n | None => false end) (seq 0 256) = true)
    by (vm_compute; reflexivity).
  intros v B. rewrite forallb_forall in A. specialize (A (Z.to_nat v)). rewrite Z2Nat.id in A by lia.
  specialize (A ltac:(apply in_seq; lia)). destruct (to_byte64 (of_byte v)) as [w|]; [|discriminate]. apply Z.eqb_eq in A. congruence.
Qed.

(** What red(), green(), blue() and alpha() give for the colour of a node,
    whatever the state and the call are. *)
Definition component_is (env : fenv) (c : cell) (name : string) (P : cell -> Prop) : Prop :=
  forall s func x, called s func (zs name) [[x]] -> node_at s x c -> yields env s func [] P.
Lemma component_byte env c k name f t v : In (name, f, t)
    [("red", c_red, "red() expects a color as parameter."); ("green", c_green, "green() expects a color as parameter.");
     ("blue", c_blue, "blue() expects a color as parameter.")] ->
  color_node c k -> to_byte64 (f k) = Some v -> component_is env c name (fun r => int_node r v []).
Proof.
  intros I K V s func x C H. destruct (called_pos _ _ _ _ C) as (p & P).
  eapply (yields_fresh _ _ _ (with_int (blank INTEGER p) v)); [|repeat split].
  assert (G : fn_component f t func s = Ret (Some (new_addr s)) (fresh s (with_int (blank INTEGER p) v))).
  { unfold fn_component. rewrite (b_ret _ _ _ _ _ (get_color_run s func _ x c k C H K)). cbv beta iota. rewrite (b_ret _ _ _ _ _ P).
    step. unfold to_int64. unfold to_byte64 in V. rewrite V. steps. reflexivity. }
  destruct I as [I|[I|[I|[]]]]; injection I as <- <- <-; enter C; exact G.
Qed.
Lemma component_alpha env c k : color_node c k -> component_is env c "alpha" (fun r => dec_node r (f64_of_f32 (c_alpha k)) []).
Proof.
  intros K s func x C H. destruct (called_pos _ _ _ _ C) as (p & P).
  eapply (yields_fresh _ _ _ (with_dec (blank DECIMAL_NUMBER p) (f64_of_f32 (c_alpha k)))); [|repeat split].
  enter C. unfold fn_alpha. rewrite (b_ret _ _ _ _ _ (get_color_run s func _ x c k C H K)). cbv beta iota. rewrite (b_ret _ _ _ _ _ P).
  unfold make_decimal. steps. reflexivity.
Qed.

(** rgb(r, g, b) of bytes: red(), green() and blue() give the bytes back, the
    colour is opaque. *)
Theorem c59_rgb : forall env s func x y z cx cy cz r g b ux uy uz,
  called s func (zs "rgb") [[x]; [y]; [z]] -> node_at s x cx -> node_at s y cy -> node_at s z cz ->
  int_node cx r ux -> int_node cy g uy -> int_node cz b uz -> 0 <= r <= 255 -> 0 <= g <= 255 -> 0 <= b <= 255 ->
  yields env s func [] (fun k => c_type k = COLOR
    /\ component_is env k "red" (fun v => int_node v r []) /\ component_is env k "green" (fun v => int_node v g [])
    /\ component_is env k "blue" (fun v => int_node v b []) /\ component_is env k "alpha" (fun v => dec_node v (f64_of_Z 1) [])).
Proof.
  intros env s func x y z cx cy cz r g b ux uy uz C Hx Hy Hz Nx Ny Nz Br Bg Bb.
  destruct (called_pos _ _ _ _ C) as (p & P). set (k := mkColor (of_byte r) (of_byte g) (of_byte b) (f32_of_Z 1)).
  assert (K : color_node (with_color (blank COLOR p) k) k) by (apply blank_color; [apply f32_of_f64_valid..|reflexivity]).
  eapply (yields_fresh _ _ _ (with_color (blank COLOR p) k)).
  - enter C. unfold fn_rgb.
    assert (M : misfit s [x] [COLOR]) by (right; exists x, cx; split; [reflexivity|]; split; [exact Hx|]; destruct Nx as (T & _); rewrite T; cbn; intuition discriminate).
    pose proof (pick_color_no s func _ _ 0 [x] C eq_refl M) as G0.
    pose proof (pick_number s func _ _ 0 x cx (inl r) ux C eq_refl Hx (number_int _ _ _ Nx)) as G1.
    pose proof (pick_number s func _ _ 1 y cy (inl g) uy C eq_refl Hy (number_int _ _ _ Ny)) as G2.
    pose proof (pick_number s func _ _ 2 z cz (inl b) uz C eq_refl Hz (number_int _ _ _ Nz)) as G3.
    change (Z.of_nat 0) with 0 in *. change (Z.of_nat 1) with 1 in *. change (Z.of_nat 2) with 2 in *.
    rewrite (b_ret _ _ _ _ _ G0), (b_ret _ _ _ _ _ G1), (b_ret _ _ _ _ _ G2), (b_ret _ _ _ _ _ G3). cbv beta iota.
    rewrite (b_ret _ _ _ _ _ P). apply run_new_color.
  - split; [reflexivity|].
    split; [eapply component_byte; [left; reflexivity|exact K|exact (bytes_back r Br)]|].
    split; [eapply component_byte; [right; left; reflexivity|exact K|exact (bytes_back g Bg)]|].
    split; [eapply component_byte; [right; right; left; reflexivity|exact K|exact (bytes_back b Bb)]|].
    pose proof (component_alpha env _ k K) as A. cbn [c_alpha k] in A.
    assert (E : f64_of_f32 (f32_of_Z 1) = f64_of_Z 1) by (vm_compute; reflexivity). rewrite E in A. exact A.
Qed.

(** rgba(r, g, b, a) with an integer or a decimal alpha: same components, and
    alpha() gives the alpha rounded to a float. *)
Theorem c59_rgba : forall env s func x y z w cx cy cz cw r g b a ux uy uz uw,
  called s func (zs "rgba") [[x]; [y]; [z]; [w]] -> node_at s x cx -> node_at s y cy -> node_at s z cz -> node_at s w cw ->
  int_node cx r ux -> int_node cy g uy -> int_node cz b uz -> number cw a uw -> 0 <= r <= 255 -> 0 <= g <= 255 -> 0 <= b <= 255 ->
  yields env s func [] (fun k => c_type k = COLOR
    /\ component_is env k "red" (fun v => int_node v r []) /\ component_is env k "green" (fun v => int_node v g [])
    /\ component_is env k "blue" (fun v => int_node v b [])
    /\ component_is env k "alpha" (fun v => dec_node v (f64_of_f32 (f32_of_f64 (as_double a))) [])).
Proof.
  intros env s func x y z w cx cy cz cw r g b a ux uy uz uw C Hx Hy Hz Hw Nx Ny Nz Nw Br Bg Bb.
  destruct (called_pos _ _ _ _ C) as (p & P). set (k := mkColor (of_byte r) (of_byte g) (of_byte b) (f32_of_f64 (as_double a))).
  assert (K : color_node (with_color (blank COLOR p) k) k) by (apply blank_color; apply f32_of_f64_valid).
  eapply (yields_fresh _ _ _ (with_color (blank COLOR p) k)).
  - enter C. unfold fn_rgba.
    assert (M : misfit s [x] [COLOR]) by (right; exists x, cx; split; [reflexivity|]; split; [exact Hx|]; destruct Nx as (T & _); rewrite T; cbn; intuition discriminate).
    pose proof (pick_color_no s func _ _ 0 [x] C eq_refl M) as G0.
    pose proof (pick_number s func _ _ 0 x cx (inl r) ux C eq_refl Hx (number_int _ _ _ Nx)) as G1.
    pose proof (pick_number s func _ _ 1 y cy (inl g) uy C eq_refl Hy (number_int _ _ _ Ny)) as G2.
    pose proof (pick_number s func _ _ 2 z cz (inl b) uz C eq_refl Hz (number_int _ _ _ Nz)) as G3.
    pose proof (pick_number s func _ _ 3 w cw a uw C eq_refl Hw Nw) as G4.
    change (Z.of_nat 0) with 0 in *. change (Z.of_nat 1) with 1 in *. change (Z.of_nat 2) with 2 in *. change (Z.of_nat 3) with 3 in *.
    rewrite (b_ret _ _ _ _ _ G0), (b_ret _ _ _ _ _ G2). cbv beta iota.
    rewrite (b_ret _ _ _ _ _ G1), (b_ret _ _ _ _ _ G2), (b_ret _ _ _ _ _ G3), (b_ret _ _ _ _ _ G4). cbv beta iota.
    rewrite (b_ret _ _ _ _ _ P). apply run_new_color.
  - split; [reflexivity|].
    split; [eapply component_byte; [left; reflexivity|exact K|exact (bytes_back r Br)]|].
    split; [eapply component_byte; [right; left; reflexivity|exact K|exact (bytes_back g Bg)]|].
    split; [eapply component_byte; [right; right; left; reflexivity|exact K|exact (bytes_back b Bb)]|].
    exact (component_alpha env _ k K).
Qed.
(** rgba(colour, a): the components of the colour, with this alpha. *)
Theorem c59_rgba_color : forall env s func name x y cx cy k a u, In name ["rgba"; "frgba"] ->
  called s func (zs name) [[x]; [y]] -> node_at s x cx -> node_at s y cy -> color_node cx k -> number cy a u ->
  f32_valid (c_red k) -> f32_valid (c_green k) -> f32_valid (c_blue k) ->
  yields env s func [x] (fun r => color_node r (mkColor (c_red k) (c_green k) (c_blue k) (f32_of_f64 (as_double a)))).
Proof.
  intros env s func name x y cx cy k a u I C Hx Hy K N Vr Vg Vb.
  set (k' := mkColor (c_red k) (c_green k) (c_blue k) (f32_of_f64 (as_double a))).
  assert (G : forall scale t, fn_rgba scale t func s = Ret (Some x) (placed s x (with_color cx k'))).
  { intros scale t. unfold fn_rgba. pose proof (pick_number s func _ _ 1 y cy a u C eq_refl Hy N) as G1. change (Z.of_nat 1) with 1 in G1.
    assert (G0 : get_color_arg func 0 s = Ret (Some (x, k)) s).
    { destruct K as (T & K). unfold get_color_arg.
      erewrite b_ret; [|exact (run_get_typed s func _ _ C _ 0 x cx eq_refl Hx)]. cbv beta. rewrite T. change (ntype_eqb COLOR COLOR) with true. cbv iota.
      steps. rewrite K. reflexivity. }
    rewrite (b_ret _ _ _ _ _ G0), (b_ret _ _ _ _ _ G1). cbv beta iota.
    rewrite (b_ret _ _ _ _ _ (run_set_color s x cx Hx k' ltac:(destruct K as (T & _); has))). reflexivity. }
  assert (Q : color_node (with_color cx k') k').
  { destruct K as (T & K). split; [exact T|]. apply color_back; [exact Vr|exact Vg|exact Vb|apply f32_of_f64_valid]. }
  repeat (destruct I as [I|I]; [subst name; eapply yields_placed; [exact Hx|enter C; apply G|exact Q]|]). destruct I.
Qed.

(** hsl() and a negative angle: -120 degrees is 240 degrees, which is blue, but
    the result is black. *)
Definition full : cell := with_dec (ExprSpec.plain PERCENT) f_one.
Definition middle : cell := with_dec (ExprSpec.plain PERCENT) (f64_div f_one f_two).
Definition bytes_of (s : est) (o : option addr) : option (option Z * option Z * option Z) :=
  match o with
  | Some a => match nth_error (e_heap s) a with
              | Some c => let k := cell_color c in Some (to_byte64 (c_red k), to_byte64 (c_green k), to_byte64 (c_blue k))
              | None => None
              end
  | None => None
  end.
Theorem c59_hsl_refuted :
  (exists s r, execute trivial_env 0 0%nat (call "hsl" [num 240 "deg"; full; middle]) = Ret (r, 0) s
     /\ bytes_of s r = Some (Some 0, Some 0, Some 255) /\ e_msgs s = [])
  /\ (exists s r, execute trivial_env 0 0%nat (call "hsl" [num (-120) "deg"; full; middle]) = Ret (r, 0) s
     /\ bytes_of s r = Some (Some 0, Some 0, Some 0) /\ e_msgs s = []).
Proof.
  split; eexists _, _; (split; [vm_compute; reflexivity|split; [vm_compute; reflexivity|reflexivity]]).
Qed.

Example c59_ex : called (call "rgb" [num 12 ""; num 200 ""; num 255 ""]) 0%nat (zs "rgb") [[4%nat]; [5%nat]; [6%nat]]
  /\ (exists s r, execute trivial_env 0 0%nat (call "rgb" [num 12 ""; num 200 ""; num 255 ""]) = Ret (r, 0) s
      /\ bytes_of s r = Some (Some 12, Some 200, Some 255))
  /\ color_node red_color (mkColor (f32_of_Z 1) (f32_of_Z 0) (f32_of_Z 0) (f32_of_Z 1)).
Proof.
  split; [exact (call_called "rgb" [num 12 ""; num 200 ""; num 255 ""])|].
  split; [eexists _, _; split; [vm_compute; reflexivity|vm_compute; reflexivity]|]. apply blank_color; reflexivity.
Qed.
