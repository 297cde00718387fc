(** * Dimensions of numbers (csspp/expr_multiplicative.cpp:81-291)

    A dimension such as "px * em / s" is a string: names separated by " * ",
    with at most one " / ". *)

From Coq Require Import String ZArith List Bool.
From Verif Require Import Base.
Import ListNotations.
Open Scope string_scope. Open Scope list_scope. Open Scope Z_scope.

(** The part of a string before the first space, star or slash. *)
Definition is_sep (c : Z) : bool := (c =? 32) || (c =? 42) || (c =? 47).
Fixpoint cut_name (s : str) : str * str :=
  match s with
  | [] => ([], [])
  | c :: r => if is_sep c then ([], s) else let '(a, b) := cut_name r in (c :: a, b)
  end.

(** The messages that dimensions_to_vectors may send. *)
Inductive dim_error := DimMissing | DimSecondSlash | DimSeparator.

(** The loop of dimensions_to_vectors (expr_multiplicative.cpp:121-201) on the
    text that remains; [slash] is [found_slash]. *)
Definition skip_space (s : str) : str := match s with c :: r => if c =? 32 then r else s | [] => s end.
Fixpoint dim_loop (fuel : nat) (slash : bool) (s : str) (up down : list str) : list str * list str * option dim_error :=
  match fuel with
  | O => (up, down, None)
  | S f =>
      let '(name, r) := cut_name s in
      match name with
      | [] => (up, down, Some DimMissing)
      | _ =>
          let up := if slash then up else up ++ [name] in
          let down := if slash then down ++ [name] else down in
          match r with
          | [] => (up, down, None)
          | _ =>
              match skip_space r with
              | [] => (up, down, None)
              | c :: r' =>
                  if c =? 47 then
                    if slash then (up, down, Some DimSecondSlash)
                    else dim_loop f true (skip_space r') up down
                  else if c =? 42 then dim_loop f slash (skip_space r') up down
                  else (up, down, Some DimSeparator)
              end
          end
      end
  end.

(** expression::dimensions_to_vectors (expr_multiplicative.cpp:81-202). *)
Definition skip_space2 (s : str) : str :=
  match s with c :: (_ :: _) as r => if c =? 32 then r else s | _ => s end.
Definition dim_vectors (dim : str) (up down : list str) : list str * list str * option dim_error :=
  let n := S (length dim) in
  match dim with
  | [] => (up, down, None)
  | a :: b :: (_ :: _) as r =>
      if (a =? 49) && (b =? 47) then dim_loop n true (skip_space2 (tl (tl dim))) up down
      else match dim with
           | a :: b :: c :: (_ :: _) as t =>
               if (a =? 49) && (b =? 32) && (c =? 47) then dim_loop n true (skip_space2 t) up down
               else dim_loop n false dim up down
           | _ => dim_loop n false dim up down
           end
  | _ => dim_loop n false dim up down
  end.

(** [std::find] then [erase]: remove the first occurrence. *)
Fixpoint remove_first (x : str) (l : list str) : option (list str) :=
  match l with
  | [] => None
  | y :: r => if str_eqb y x then Some r
              else match remove_first x r with Some r' => Some (y :: r') | None => None end
  end.
(** The loop which removes what is in both vectors
    (expr_multiplicative.cpp:224-236): from the last to the first entry of the
    dividend. *)
Fixpoint cancel (up down : list str) : list str * list str :=
  match up with
  | [] => ([], down)
  | x :: r =>
      let '(r', down') := cancel r down in
      match remove_first x down' with
      | Some d => (r', d)
      | None => (x :: r', down')
      end
  end.

(** expression::rebuild_dimension (expr_multiplicative.cpp:245-282). *)
Fixpoint join (sep : str) (l : list str) : str :=
  match l with
  | [] => []
  | [x] => x
  | x :: r => x ++ sep ++ join sep r
  end.
Definition rebuild (up down : list str) : str :=
  match up, down with
  | [], [] => []
  | _, _ =>
      (match up with [] => zs "1" | _ => join (zs " * ") up end)
      ++ (match down with [] => [] | _ => zs " / " ++ join (zs " * ") down end)
  end.

(** expression::multiplicative_dimension (expr_multiplicative.cpp:204-243);
    the errors sent come with the result. *)
Definition dim_product (ldim : str) (divide : bool) (rdim : str) : str * list dim_error :=
  let '(up, down, e1) := dim_vectors ldim [] [] in
  let '(up, down, e2) :=
    if divide then let '(d, u, e) := dim_vectors rdim down up in (u, d, e)
    else dim_vectors rdim up down in
  let '(up, down) := cancel up down in
  (rebuild up down, (match e1 with Some e => [e] | None => [] end) ++ (match e2 with Some e => [e] | None => [] end)).
