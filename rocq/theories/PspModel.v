(* Model of the paths and parameters of the user interface: /repo/include/nbdl/ui_spec.hpp (get, match_when, key_at, apply, match, match_if),
   ui_helper.hpp (flatten_param_node), ui_helper/match_params_spec.hpp, match_path_spec.hpp and match_branch.hpp.
   A specification is a type; here it is data.  Stores and match_path are those of MatchModel.  None: the program does not compile.
   Left out: values are copied in several places (match_params_spec.hpp:113, 62; match_path_spec.hpp:48-52), which asks for copyable types. *)
From Verif Require Import Base MatchModel.
Open Scope nat_scope.

(* a predicate of match_if: known when compiling, or not (detail/match_if.hpp, C40) *)
Inductive test := Always (b : bool) | Test (f : store -> bool).
Definition passes (t : test) (v : store) : bool := match t with Always b => b | Test f => f v end.

(* what may stand for a parameter; the type None is void, the default of when<> (ui_spec.hpp:188, 201) *)
Inductive param :=
| PConst (c : nat)                                           (* any type that is no specification, noop_t among them *)
| PPath (p : list pnode)                                     (* path_t, the last node first (ui_spec.hpp:47-63) *)
| PKeyAt (p : list pnode)                                    (* key_at_t *)
| PConcat (l : list param)                                   (* the directive concat *)
| PApply (f : nat) (l : list param)                          (* apply_t, ui_spec.hpp:78-89 *)
| PMatch (p : list pnode) (l : list (option nat * param))    (* branch_spec<match_tag, ...> *)
| PMatchIf (p : list pnode) (l : list (test * param))        (* branch_spec<match_if_tag, ...> *)
with pnode := Get (l : list param) | MatchType (t : option nat) (l : list param).

(* ---- ui_spec.hpp ---- *)

(* get, 105-112 with make_path, 47-63 *)
Definition get_fn (xs : list param) : list pnode :=
  match xs with
  | PPath (Get l :: ys) :: xs => Get (l ++ xs) :: ys
  | PPath (MatchType t l :: ys) :: xs => Get xs :: MatchType t l :: ys
  | xs => [Get xs]
  end.
(* make_path_match_type, 65-72 *)
Definition make_path_match_type (t : option nat) (p : list pnode) : option (list pnode) :=
  match p with Get l :: xs => Some (MatchType t l :: xs) | _ => None end.
(* match_when, 118-128 *)
Definition match_when (t : nat) (p : list pnode) : option (list pnode) := make_path_match_type (Some t) p.

(* what is given to when and cond: a specification, or a function that is given the path (158-164, 172-178) *)
Inductive alternative := Spec (a : param) | Fn (f : list pnode -> param).
(* make_when_pair_fn, 150-165: the matched path is made in either case *)
Definition make_when_pair (p : list pnode) (w : option nat * alternative) : option (option nat * param) :=
  match make_path_match_type (fst w) p with
  | None => None
  | Some q => Some (fst w, match snd w with Spec a => a | Fn f => f q end)
  end.
Fixpoint all_some {A} (l : list (option A)) : option (list A) :=
  match l with [] => Some [] | Some x :: r => option_map (cons x) (all_some r) | None :: _ => None end.
(* match, 251-263 *)
Definition match_fn (p : list pnode) (ws : list (option nat * alternative)) : option param :=
  option_map (PMatch p) (all_some (map (make_when_pair p) ws)).
(* match_if, 276-288 with make_cond_pair_fn, 167-180 *)
Definition match_if_fn (p : list pnode) (ws : list (test * alternative)) : param :=
  PMatchIf p (map (fun w => (fst w, match snd w with Spec a => a | Fn f => f p end)) ws).

(* ---- ui_helper.hpp:64-107 ---- *)

(* a flat list of parameters.  The parameters in the nodes of a path are flattened by the match_params_spec that is called for the node
   (match_path_spec.hpp:48, 72), the path is reversed by match_path_spec (141); neither depends on the store, so both are done here. *)
Inductive fparam :=
| FConst (c : nat)
| FPath (p : list fnode)
| FApply (f : nat) (l : list fparam)
| FMatch (p : list fnode) (l : list (option nat * list fparam))
| FMatchIf (p : list fnode) (l : list (test * list fparam))
with fnode := FGet (l : list fparam) | FMatchType (t : option nat) (l : list fparam).

Fixpoint flatten (n : param) : list fparam :=
  match n with
  | PConst c => [FConst c]
  | PPath p | PKeyAt p => [FPath (rev (map flatten_node p))]
  | PConcat l => flat_map flatten l
  | PApply f l => [FApply f (flat_map flatten l)]
  | PMatch p l => [FMatch (rev (map flatten_node p)) (map (fun a => (fst a, flatten (snd a))) l)]
  | PMatchIf p l => [FMatchIf (rev (map flatten_node p)) (map (fun a => (fst a, flatten (snd a))) l)]
  end
with flatten_node (n : pnode) : fnode :=
  match n with Get l => FGet (flat_map flatten l) | MatchType t l => FMatchType t (flat_map flatten l) end.

(* ---- ui_helper/ ---- *)

(* what a function is given: a constant, something in the store (by reference), or what apply made *)
Inductive value := Const (c : nat) | Val (s : store) | Made (n : N).
(* what is done: the function is called, a path is seen to lead to a value, or anything at all (undefined behaviour) *)
Inductive effect := Called (l : list value) | Seen (v : store) | Undefined.
Definition result := option (list effect).

Section Helper.
Variable type_of : store -> nat.
Variable key_of : value -> key.
Variable apply : nat -> list value -> value.

Definition is_type (t : option nat) (v : store) : bool := match t with Some t => Nat.eqb t (type_of v) | None => false end.

(* path_impl, match_path_spec.hpp:86-131 *)
Definition path_impl (node_match : fnode -> store -> (store -> result) -> result) := fix go (ps : list fnode) (s : store) (fn : store -> result) : result :=
  match ps with
  | [] => fn s
  | [p1] => node_match p1 s fn
  | [p1; p2] => node_match p1 s (fun r => node_match p2 r fn)
  | p1 :: p2 :: p3 :: ps => node_match p1 s (fun r => node_match p2 r (fun r => node_match p3 r (fun r => go ps r fn)))
  end.

(* match_branch.hpp:30-44: the first branch of the type or of void *)
Fixpoint find_type (l : list (option nat)) (v : store) : option nat :=
  match l with
  | [] => None
  | t :: r => if match t with None => true | Some _ => is_type t v end then Some 0 else option_map S (find_type r v)
  end.
(* match_branch.hpp:53-62 with detail/match_if.hpp (C40_first); a list where no branch is taken for sure does not compile *)
Definition find_test (l : list test) (v : store) : option nat :=
  if existsb (fun t => match t with Always true => true | _ => false end) l then
    (fix go l := match l with [] => None | t :: r => if passes t v then Some 0 else option_map S (go r) end) l
  else None.

(* the index that get_branch_index leaves in result, and mp_with_index with it (match_branch.hpp:27-46, 67-100): -1 when nothing was seen *)
Definition is_undefined (e : effect) : bool := match e with Undefined => true | _ => false end.
Definition last_seen (l : list effect) : option store := fold_left (fun r e => match e with Seen v => Some v | _ => r end) l None.
Definition with_branch (seen : result) (find : store -> option nat) (go : nat -> result) : result :=
  match seen with
  | None => None
  | Some l => if existsb is_undefined l then Some [Undefined]
              else match last_seen l with
                   | None => Some [Undefined]
                   | Some v => match find v with Some i => go i | None => None end
                   end
  end.
(* mp_at *)
Definition at_with {A} (f : A -> result) := fix go (l : list A) (i : nat) : result :=
  match l, i with [], _ => None | x :: _, 0 => f x | _ :: r, S j => go r j end.

(* match_param_spec_impl and match_param_action, match_params_spec.hpp:35-106; the fold over the parameters is 113-134 *)
Fixpoint run_param (p : fparam) (s : store) (next : list value -> result) (params : list value) {struct p} : result :=
  match p with
  | FConst c => next (params ++ [Const c])
  | FPath ps => path_impl run_node ps s (fun v => next (params ++ [Val v]))
  | FApply f l => fold_right (fun q next => run_param q s next) (fun rs => next (params ++ [apply f rs])) l []
  | FMatch ps l =>
      with_branch (path_impl run_node ps s (fun v => Some [Seen v])) (find_type (map fst l))
        (at_with (fun a => match a with (_, b) => fold_right (fun q next => run_param q s next) (fun rs => next (params ++ rs)) b [] end) l)
  | FMatchIf ps l =>
      with_branch (path_impl run_node ps s (fun v => Some [Seen v])) (find_test (map fst l))
        (at_with (fun a => match a with (_, b) => fold_right (fun q next => run_param q s next) (fun rs => next (params ++ rs)) b [] end) l)
  end
(* path_node_match, match_path_spec.hpp:40-78 *)
with run_node (n : fnode) (s : store) (fn : store -> result) {struct n} : result :=
  match n with
  | FGet l => fold_right (fun q next => run_param q s next) (fun xs => match_path s (map key_of xs) fn) l []
  | FMatchType t l => fold_right (fun q next => run_param q s next) (fun xs => match_path s (map key_of xs) (fun v => if is_type t v then fn v else Some [])) l []
  end.

(* match_params_spec.hpp:110-135 *)
Definition match_params_spec (s : store) (l : list param) (fn : list value -> result) : result :=
  fold_right (fun q next => run_param q s next) fn (flat_map flatten l) [].
(* match_path_spec.hpp:138-145 *)
Definition match_path_spec (s : store) (p : list pnode) (fn : store -> result) : result := path_impl run_node (rev (map flatten_node p)) s fn.
(* match_path_spec_predicate, match_path_spec.hpp:147-158 *)
Definition predicate (t : nat) (p : list pnode) (s : store) : option bool :=
  option_map (fun l => match last_seen l with Some _ => true | None => false end) (match_path_spec s (MatchType (Some t) [] :: p) (fun v => Some [Seen v])).
(* what a handler is called with (webui/detail/event_receiver.hpp:58-76) *)
Definition receive (s : store) (l : list param) : result := match_params_spec s l (fun xs => Some [Called xs]).
End Helper.
