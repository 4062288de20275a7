(* What navigation should do: a history of routes of which one is shown. *)
From Coq Require Import String.
From Verif Require Import Base RouteModel RouteSpec RouteProps NavModel.
Open Scope N_scope.

Record routes := { visited : list variant; shown : nat }.

Definition go_to (a : action) (h : routes) : routes :=
  match a with
  | Navigate (Route i ms) => {| visited := firstn (S (shown h)) (visited h) ++ [Route i ms]; shown := S (shown h) |}
  | Go i => if Nat.ltb i (length (visited h)) then {| visited := visited h; shown := i |} else h
  | _ => h
  end.

(* characters that an address keeps as they are, and segments that are not dots *)
Definition plain_char (c : N) : Prop := encoded c = false /\ is_slash c = false /\ is_query c = false.
(* a dot in an address may be written as %2e or %2E; these segments mean this and the parent segment (URL standard, 4.1) *)
Inductive Dot : list N -> Prop := Dot_plain : Dot [46] | Dot_lower : Dot [37; 50; 101] | Dot_upper : Dot [37; 50; 69].
Definition this_segment (x : list N) : Prop := Dot x.
Definition parent_segment (x : list N) : Prop := exists a b, Dot a /\ Dot b /\ x = a ++ b.

Definition plain_segment (x : list N) : Prop := Forall plain_char x /\ single_dot x = false /\ double_dot x = false.

(* a prefix such as "" or "/app": its segments are plain and not empty *)
Definition plain_prefix (p : list N) : Prop := exists segs, p = join segs /\ Forall (fun x => plain_segment x /\ x <> []) segs.

Definition plain_value (v : mvalue) : Prop := match v with VStr s => plain_segment s | VInt _ => True end.

(* a route whose address means itself: a value of the route's type that survives (C47), in plain characters *)
Definition good_route (m : route_map) (v : variant) : Prop :=
  match v with
  | NotFound => True
  | Route i ms => exists name ts, nth_error m i = Some (name, ts) /\ plain_segment name /\ (name <> [] \/ ts = []) /\
      Forall2 has_type ts ms /\ Forall survives ms /\ Forall plain_value ms
  end.
Definition good_action (m : route_map) (a : action) : Prop :=
  match a with Navigate v => good_route m v | NavigateString _ => False | Go _ => True end.

(* the address of a route *)
Definition address (m : route_map) (prefix : list N) (v : variant) : list N :=
  match v with NotFound => prefix | Route i ms => prefix ++ to_string m i ms end.

(* characters that an address keeps or encodes *)
Definition fair_char (c : N) : Prop := is_byte c /\ c <> 0 /\ c <> 9 /\ c <> 10 /\ c <> 13 /\ is_slash c = false /\ is_query c = false.
Definition fair_value (v : mvalue) : Prop := match v with VStr s => Forall fair_char s /\ single_dot s = false /\ double_dot s = false | VInt _ => True end.
(* a route that survives (C47), with strings of such characters, that does not end in a blank *)
Definition fair_route (m : route_map) (i : nat) (ms : list mvalue) : Prop := exists name ts, nth_error m i = Some (name, ts) /\ plain_segment name /\ (name <> [] \/ ts = []) /\
  Forall2 has_type ts ms /\ Forall survives ms /\ Forall fair_value ms /\ 32 < last (to_string m i ms) 47.
(* two upper case hexadecimal digits *)
Definition hex (n : N) : list N := [nth (N.to_nat (n / 16)) (bs "0123456789ABCDEF") 0; nth (N.to_nat (n mod 16)) (bs "0123456789ABCDEF") 0].
Definition percent (c : N) : list N := 37 :: hex c.
Definition as_addressed (v : mvalue) : mvalue := match v with VStr s => VStr (flat_map (fun c => if encoded c then percent c else [c]) s) | VInt z => VInt z end.

(* addresses of other sites: a scheme (a letter, then letters, digits, "+", "-" and ".", then ":") or two slashes *)
Definition letter (c : N) : Prop := 65 <= c <= 90 \/ 97 <= c <= 122.
Definition scheme_char (c : N) : Prop := letter c \/ 48 <= c <= 57 \/ In c (bs "+-.").
Definition other_site (s : list N) : Prop :=
  (exists c x r, s = c :: x ++ bs ":" ++ r /\ letter c /\ Forall scheme_char x) \/
  exists c d r, s = c :: d :: r /\ In c (bs "/\") /\ In d (bs "/\").
(* a string without the blanks and control characters around it and the tabs and line ends in it *)
Definition cleaned (s u : list N) : Prop := exists a v b, s = a ++ v ++ b /\ Forall (fun c => c <= 32) (a ++ b) /\ (v = [] \/ 32 < hd 0 v /\ 32 < last v 0) /\
  u = filter (fun c => negb (existsb (N.eqb c) [9; 10; 13])) v.
