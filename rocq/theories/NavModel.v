(* Model of the navigation producer and store, /repo/include/nbdl/webui/nav_route.hpp, over the route map of RouteModel, and of
   the part of the browser they use: the session history and how history.pushState makes a path out of a string (the URL
   standard's basic parser for http and https addresses). *)
From Verif Require Import Base RouteModel.
Open Scope N_scope.

(* ---- the browser ---- *)

(* the path percent-encode set *)
Definition encoded (c : N) : bool :=
  (c <=? 32) || (126 <? c) || (c =? 34) || (c =? 35) || (c =? 60) || (c =? 62) || (c =? 63) || (c =? 94) || (c =? 96) || (c =? 123) || (c =? 125).
Definition hex_digit (d : N) : N := if d <? 10 then 48 + d else 55 + d.
Definition encode (s : list N) : list N :=
  flat_map (fun c => if encoded c then [37; hex_digit (c / 16); hex_digit (c mod 16)] else [c]) s.

Definition is_slash (c : N) : bool := (c =? 47) || (c =? 92).
(* the segments between slashes *)
Fixpoint split (s : list N) : list (list N) :=
  match s with
  | [] => [[]]
  | c :: r => if is_slash c then [] :: split r else match split r with x :: l => (c :: x) :: l | [] => [[c]] end
  end.
Definition join (segs : list (list N)) : list N := flat_map (cons 47) segs.

Definition lower (c : N) : N := if (65 <=? c) && (c <=? 90) then c + 32 else c.
(* "." and "%2e" *)
Definition single_dot (x : list N) : bool := bytes_eqb (map lower x) [46] || bytes_eqb (map lower x) [37; 50; 101].
Definition double_dot (x : list N) : bool :=
  let y := map lower x in
  bytes_eqb y [46; 46] || bytes_eqb y [46; 37; 50; 101] || bytes_eqb y [37; 50; 101; 46] || bytes_eqb y [37; 50; 101; 37; 50; 101].

(* the path state: [acc] are the segments so far, last first *)
Fixpoint path_state (segs acc : list (list N)) : list (list N) :=
  match segs with
  | [] => rev acc
  | [x] => rev (if double_dot x then [] :: tl acc else if single_dot x then [] :: acc else encode x :: acc)
  | x :: r => path_state r (if double_dot x then tl acc else if single_dot x then acc else encode x :: acc)
  end.

Definition is_query (c : N) : bool := (c =? 63) || (c =? 35).
Fixpoint before_query (s : list N) : list N := match s with [] => [] | c :: r => if is_query c then [] else c :: before_query r end.
Definition blank (c : N) : bool := c <=? 32.
Fixpoint skip_blank (s : list N) : list N := match s with [] => [] | c :: r => if blank c then skip_blank r else s end.
Definition trim (s : list N) : list N := rev (skip_blank (rev (skip_blank s))).
Definition no_newlines (s : list N) : list N := filter (fun c => negb ((c =? 9) || (c =? 10) || (c =? 13))) s.

(* a scheme: the address is of another site.  Simplified: addresses in full of the page's own site, and "http:x" on an http page, also count as such *)
Fixpoint scheme_rest (s : list N) : bool :=
  match s with
  | [] => false
  | c :: r => if c =? 58 then true
              else if ((97 <=? lower c) && (lower c <=? 122)) || ((48 <=? c) && (c <=? 57)) || (c =? 43) || (c =? 45) || (c =? 46) then scheme_rest r
              else false
  end.
Definition has_scheme (s : list N) : bool :=
  match s with c :: r => (97 <=? lower c) && (lower c <=? 122) && scheme_rest r | [] => false end.

(* the pathname of [s] seen from the page with pathname [cur]; None when it is on another site (or "//", which names one): pushState throws *)
Definition resolve (cur s : list N) : option (list N) :=
  let s := no_newlines (trim s) in
  if has_scheme s then None
  else match s with
       | [] => Some cur
       | c :: r =>
           if is_query c then Some cur
           else if is_slash c then
             match r with
             | d :: _ => if is_slash d then None else Some (join (path_state (split (before_query r)) []))
             | [] => Some (join (path_state (split (before_query r)) []))
             end
           else Some (join (path_state (split (before_query s)) (tl (rev (tl (split cur))))))
       end.

(* the session history: the paths of its entries and which of them is shown *)
Record browser := { entries : list (list N); index : nat }.
Definition pathname (b : browser) : list N := nth (index b) (entries b) [].
(* history.pushState: the entries after the current one go *)
Definition push_state (s : list N) (b : browser) : option browser :=
  match resolve (pathname b) s with
  | None => None
  | Some p => Some {| entries := firstn (S (index b)) (entries b) ++ [p]; index := S (index b) |}
  end.

(* ---- nav_route.hpp ---- *)

Record nav := { page : browser; prefix : list N; store : variant }.

(* Throws: an uncaught exception; Bad: undefined behaviour *)
Inductive outcome := Done (s : nav) | Throws | Bad.

(* UTF8ToString of data(): up to the first NUL *)
Fixpoint c_string (s : list N) : list N := match s with [] => [] | c :: r => if c =? 0 then [] else c :: c_string r end.

(* nav_route.hpp:42-51 web_route_update *)
Definition web_route_update (route : list N) (s : nav) : option nav :=
  match push_state (prefix s ++ c_string route) (page s) with
  | None => None
  | Some b => Some {| page := b; prefix := prefix s; store := store s |}
  end.

(* nav_route.hpp:78-104 receive_event, with apply_foreign_message of the store (190-209).  The length is negative when the
   pathname is shorter than the prefix; as size_t it is more than a string can have: std::length_error *)
Definition receive_event (m : route_map) (s : nav) : outcome :=
  let p := pathname (page s) in
  if Nat.ltb (length p) (length (prefix s)) then Throws
  else match from_string m (skipn (length (prefix s)) p) with
       | Ok v => Done {| page := page s; prefix := prefix s; store := v |}
       | UB => Bad
       end.

(* nav_route.hpp:147-156 producer_init; the store is made with a default variant (128-134) *)
Definition start (m : route_map) (prefix : list N) (b : browser) : outcome :=
  receive_event m {| page := b; prefix := prefix; store := NotFound |}.

Inductive action :=
| Navigate (v : variant)        (* an upstream update of nav_route, e.g. set_route.hpp:20-40 *)
| NavigateString (s : list N)   (* an upstream update of nav_route with a string *)
| Go (i : nat).                 (* back, forward: the browser shows the entry and sends popstate, nav_route.hpp:68-72 *)

(* nav_route.hpp:158-186 send_upstream_message *)
Definition perform (m : route_map) (a : action) (s : nav) : outcome :=
  match a with
  | NavigateString t => match web_route_update t s with Some s' => Done s' | None => Throws end
  | Navigate NotFound => receive_event m s
  | Navigate (Route i ms) => match web_route_update (to_string m i ms) s with Some s' => receive_event m s' | None => Throws end
  | Go i => if Nat.ltb i (length (entries (page s)))
            then receive_event m {| page := {| entries := entries (page s); index := i |}; prefix := prefix s; store := store s |}
            else Done s
  end.

Fixpoint perform_all (m : route_map) (l : list action) (s : nav) : outcome :=
  match l with
  | [] => Done s
  | a :: r => match perform m a s with Done s' => perform_all m r s' | o => o end
  end.
