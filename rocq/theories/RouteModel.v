(* Model of /repo/include/nbdl/webui/route_map.hpp.  A string is a list of bytes.
   A route map is a list of route names with the types of the members of the route's value; the names are distinct because
   they are the keys of an mp11 map, the values are told apart by their position in the list. *)
From Verif Require Import Base.
Open Scope N_scope.

(* the type of a member: nbdl::string, bool or an integer type of some number of bits *)
Inductive mtype := TString | TBool | TUnsigned (bits : N) | TSigned (bits : N).
Inductive mvalue := VStr (s : list N) | VInt (z : Z).

Definition route_map := list (list N * list mtype).
(* the variant: the position of the route and its members, or the default (unresolved) alternative *)
Inductive variant := NotFound | Route (i : nat) (ms : list mvalue).

(* std::to_string of an integer *)
Fixpoint dec_fuel (fuel : nat) (n : N) : list N :=
  match fuel with
  | O => []
  | S f => if n <? 10 then [48 + n] else dec_fuel f (n / 10) ++ [48 + n mod 10]
  end.
Definition dec (n : N) : list N := dec_fuel (S (N.to_nat (N.log2 n))) n.
Definition std_to_string (z : Z) : list N := match z with Zneg p => 45 :: dec (Npos p) | _ => dec (Z.to_N z) end.

(* route_map.hpp:38-49 append_route_param *)
Definition append_route_param (s : list N) (x : mvalue) : list N :=
  (s ++ [47]) ++ match x with VStr t => t | VInt z => std_to_string z end.

Definition size_t (n : N) : N := n mod 2 ^ 64.

(* route_map.hpp:52-69 to_integral_param; digit_value is a size_t, so a character below '0' is a large number *)
Fixpoint to_integral_from (result : N) (param : list N) : N :=
  match param with
  | [] => result
  | c :: r =>
      let digit_value := size_t (c + 2 ^ 64 - 48) in
      if 9 <? digit_value then 0 else to_integral_from (size_t (size_t (result * 10) + digit_value)) r
  end.
Definition to_integral_param (param : list N) : N := to_integral_from 0 param.

(* conversion of a size_t to the type of a member *)
Definition convert (t : mtype) (n : N) : Z :=
  match t with
  | TString => 0%Z
  | TBool => if n =? 0 then 0%Z else 1%Z
  | TUnsigned b => Z.of_N (n mod 2 ^ b)
  | TSigned b => let r := n mod 2 ^ b in if r <? 2 ^ (b - 1) then Z.of_N r else (Z.of_N r - Z.of_N (2 ^ b))%Z
  end.

(* route_map.hpp:71-95 bind_route_param: the new value of the member and whether it is valid *)
Definition bind_route_param (t : mtype) (param : list N) : mvalue * bool :=
  match t with
  | TString => (VStr param, 0 <? N.of_nat (length param))
  | _ => let z := convert t (to_integral_param param) in (VInt z, negb (Z.eqb z 0))
  end.

(* std::string_view::find of '/', then std::min with the size *)
Fixpoint find_slash (s : list N) : nat :=
  match s with [] => 0%nat | c :: r => if c =? 47 then 0%nat else S (find_slash r) end.

(* route_map.hpp:97-111 parse_route_param: the parameter and what is left of the view *)
Definition parse_route_param (s : list N) : list N * list N :=
  match s with
  | [] => ([], s)
  | c :: r => if negb (c =? 47) then ([], s) else let end_pos := find_slash r in (firstn end_pos r, skipn end_pos r)
  end.

(* route_map.hpp:138-145 std::find_if over the route names *)
Fixpoint find_name (x : list N) (m : route_map) : option nat :=
  match m with
  | [] => None
  | (n, _) :: r => if bytes_eqb x n then Some 0%nat else option_map S (find_name x r)
  end.

(* route_map.hpp:176 (bind_route_param(member, param) && ...) *)
Fixpoint bind_members (ts : list mtype) (params : list (list N)) : option (list mvalue) :=
  match ts, params with
  | [], _ => Some []
  | t :: ts', p :: ps => let (v, ok) := bind_route_param t p in
                         if ok then option_map (cons v) (bind_members ts' ps) else None
  | _ :: _, [] => None
  end.

(* route_map.hpp:136-192 make_from_params.  [params] is the array of ten; reading past it (lines 165-167) is undefined *)
Definition make_from_params (m : route_map) (params : list (list N)) (params_count : N) : res variant :=
  match find_name (nth 0 params []) m with
  | None => Ok NotFound
  | Some i =>
      let ts := snd (nth i m ([], [])) in
      if Nat.ltb (length params) (S (length ts)) then UB
      else if negb (N.of_nat (length ts) =? size_t (params_count + 2 ^ 64 - 1)) then Ok NotFound
      else match bind_members ts (tl params) with Some vs => Ok (Route i vs) | None => Ok NotFound end
  end.

(* route_map.hpp:249-257: fills the array from the view until an empty parameter or the end of the array *)
Fixpoint collect (n : nat) (view : list N) : list (list N) * list N :=
  match n with
  | O => ([], view)
  | S k => let (x, view') := parse_route_param view in
           if N.of_nat (length x) =? 0 then ([], view')
           else let (xs, v) := collect k view' in (x :: xs, v)
  end.

(* route_map.hpp:230-267 from_string *)
Definition from_string (m : route_map) (s : list N) : res variant :=
  match s with
  | [] => Ok NotFound
  | c :: r =>
      if negb (c =? 47) then Ok NotFound
      else if N.of_nat (length s) =? 1 then make_from_params m (repeat [] 10) 1
      else let (xs, view) := collect 10 s in
           if negb (N.of_nat (length view) =? 0) then Ok NotFound
           else make_from_params m (xs ++ repeat [] (10 - length xs)) (N.of_nat (length xs))
  end.

(* route_map.hpp:210-228 to_string *)
Definition to_string (m : route_map) (i : nat) (ms : list mvalue) : list N :=
  fold_left append_route_param ms ([47] ++ fst (nth i m ([], []))).
