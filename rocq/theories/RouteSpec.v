(* What strings denote which routes. *)
From Verif Require Import Base RouteModel.
Open Scope N_scope.

(* '/' name '/' parameter '/' parameter ... *)
Definition route_text (name : list N) (params : list (list N)) : list N := 47 :: name ++ flat_map (cons 47) params.

(* the number a string of decimal digits denotes *)
Definition digit (c : N) : Prop := 48 <= c <= 57.
Definition number (s : list N) : N := fold_left (fun n c => n * 10 + (c - 48)) s 0.

(* the values a member can have *)
Definition has_type (t : mtype) (v : mvalue) : Prop :=
  match t, v with
  | TString, VStr s => all_bytes s
  | TBool, VInt z => (0 <= z <= 1)%Z
  | TUnsigned b, VInt z => (0 <= z < 2 ^ Z.of_N b)%Z
  | TSigned b, VInt z => (- 2 ^ (Z.of_N b - 1) <= z < 2 ^ (Z.of_N b - 1))%Z
  | _, _ => False
  end.
Definition real_type (t : mtype) : Prop := match t with TUnsigned b | TSigned b => 1 <= b <= 64 | _ => True end.

(* a parameter and the value it stands for: text is not empty and has no '/'; a number is positive and in range *)
Definition param_means (t : mtype) (p : list N) (v : mvalue) : Prop :=
  p <> [] /\ ~ In 47 p /\
  match t, v with
  | TString, VStr s => s = p
  | TString, VInt _ => False
  | _, VInt z => Forall digit p /\ z = Z.of_N (number p) /\ z <> 0%Z /\ has_type t v
  | _, VStr _ => False
  end.

(* what the code makes of a parameter: the number is first reduced modulo 2^64 and then converted to the member's type *)
Definition code_means (t : mtype) (p : list N) (v : mvalue) : Prop :=
  p <> [] /\ ~ In 47 p /\
  match t, v with
  | TString, VStr s => s = p
  | TString, VInt _ => False
  | _, VInt z => Forall digit p /\ z = convert t (number p mod 2 ^ 64) /\ z <> 0%Z
  | _, VStr _ => False
  end.

(* the same without the conversions: the value of the member's type that differs from the number by a multiple of 2^bits; a flag is set *)
Definition taken_modulo (t : mtype) (p : list N) (v : mvalue) : Prop :=
  p <> [] /\ ~ In 47 p /\
  match t, v with
  | TString, VStr s => s = p
  | TBool, VInt z => Forall digit p /\ z = 1%Z /\ ~ (2 ^ 64 | number p)
  | TUnsigned b, VInt z | TSigned b, VInt z => Forall digit p /\ z <> 0%Z /\ has_type t v /\ exists k : Z, Z.of_N (number p) = (z + k * 2 ^ Z.of_N b)%Z
  | _, _ => False
  end.

(* a map of routes: the names differ and have no '/'; at most nine members *)
Definition wf_map (m : route_map) : Prop :=
  NoDup (map fst m) /\ forall name ts, In (name, ts) m -> ~ In 47 name /\ (length ts <= 9)%nat /\ Forall real_type ts.

(* a string for the route: its text, or its text with one '/' after it (the tests ask for that)
   unless it has nine parameters; the route with the empty
   name can have no parameters and is just "/" *)
Definition denotes (means : mtype -> list N -> mvalue -> Prop) (m : route_map) (s : list N) (i : nat) (vs : list mvalue) : Prop :=
  exists name ts params, nth_error m i = Some (name, ts) /\ length params = length ts /\ length vs = length ts /\
    (forall k t p v, nth_error ts k = Some t -> nth_error params k = Some p -> nth_error vs k = Some v -> means t p v) /\
    ((name <> [] /\ (s = route_text name params \/ (s = route_text name params ++ [47] /\ (length ts <= 8)%nat))) \/ (name = [] /\ ts = [] /\ s = [47])).
