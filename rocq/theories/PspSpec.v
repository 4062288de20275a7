(* What the parameters of a user interface stand for, from left to right and without flattening, reversing or continuations. *)
From Verif Require Import Base MatchModel PspModel.
Open Scope nat_scope.

(* something; not there; undefined behaviour; does not compile *)
Inductive ans (A : Type) := Is (a : A) | Nothing | Undef | Fails.
Arguments Is {A}. Arguments Nothing {A}. Arguments Undef {A}. Arguments Fails {A}.
Definition bind {A B} (x : ans A) (k : A -> ans B) : ans B := match x with Is a => k a | Nothing => Nothing | Undef => Undef | Fails => Fails end.
(* what comes of telling a function *)
Definition told {A} (x : ans A) (fn : A -> result) : result := match x with Is a => fn a | Nothing => Some [] | Undef => Some [Undefined] | Fails => None end.

Section Spec.
Variable type_of : store -> nat.
Variable key_of : value -> key.
Variable apply : nat -> list value -> value.
(* the store that the parameters of a node of a path stand for something in: given the store where the path begins and the place it has come to *)
Variable ctx : store -> store -> store.

(* what is at a path of keys (C41) *)
Definition look (s : store) (ks : list key) : ans store := match match_path s ks (fun v => Some [v]) with Some [v] => Is v | _ => Fails end.
Definition all_of {A} (f : A -> ans (list value)) : list A -> ans (list value) := fold_right (fun q r => bind (f q) (fun a => bind r (fun b => Is (a ++ b)))) (Is []).
Definition fits (t : option nat) (v : store) : bool := match t with Some t => Nat.eqb t (type_of v) | None => true end.

Fixpoint means (p : param) (s : store) {struct p} : ans (list value) :=
  match p with
  | PConst c => Is [Const c]
  | PPath p | PKeyAt p => bind (fold_right (fun n c => bind c (go_on n s)) (Is s) p) (fun v => Is [Val v])
  | PConcat l => all_of (fun q => means q s) l
  | PApply f l => bind (all_of (fun q => means q s) l) (fun rs => Is [apply f rs])
  | PMatch p l =>
      match fold_right (fun n c => bind c (go_on n s)) (Is s) p with
      | Is v => fold_right (fun a rest => if fits (fst a) v then means (snd a) s else rest) Fails l
      | Nothing | Undef => Undef
      | Fails => Fails
      end
  | PMatchIf p l =>
      match fold_right (fun n c => bind c (go_on n s)) (Is s) p with
      | Is v => if existsb (fun a => match fst a with Always true => true | _ => false end) l
                then fold_right (fun a rest => if passes (fst a) v then means (snd a) s else rest) Fails l else Fails
      | Nothing | Undef => Undef
      | Fails => Fails
      end
  end
(* from the place c of a path that begins at s *)
with go_on (n : pnode) (s c : store) {struct n} : ans store :=
  match n with
  | Get l => bind (all_of (fun q => means q (ctx s c)) l) (fun xs => look c (map key_of xs))
  | MatchType t l => bind (all_of (fun q => means q (ctx s c)) l) (fun xs => bind (look c (map key_of xs)) (fun v => match t with Some t' => if Nat.eqb t' (type_of v) then Is v else Nothing | None => Nothing end))
  end.
Definition leads (p : list pnode) (s : store) : ans store := fold_right (fun n c => bind c (go_on n s)) (Is s) p.
End Spec.

(* key_at: "Use key from value at location in store" (ui_spec.hpp:130-132): in the store where the path begins *)
Definition in_store (s _ : store) : store := s.
(* in what the path has come to *)
Definition in_place (_ c : store) : store := c.

(* the parameters that stand for the same in every store *)
Fixpoint closed (p : param) : bool :=
  match p with PConst _ => true | PConcat l | PApply _ l => forallb closed l | _ => false end.
Definition closed_node (n : pnode) : bool := match n with Get l | MatchType _ l => forallb closed l end.
(* after a match_when only such keys *)
Fixpoint rooted (p : param) : bool :=
  match p with
  | PConst _ => true
  | PPath p | PKeyAt p => match rev (map (fun n => (rooted_node n, closed_node n)) p) with [] => true | (r, _) :: rest => r && forallb snd rest end
  | PConcat l | PApply _ l => forallb rooted l
  | PMatch p l => match rev (map (fun n => (rooted_node n, closed_node n)) p) with [] => true | (r, _) :: rest => r && forallb snd rest end && forallb (fun a => rooted (snd a)) l
  | PMatchIf p l => match rev (map (fun n => (rooted_node n, closed_node n)) p) with [] => true | (r, _) :: rest => r && forallb snd rest end && forallb (fun a => rooted (snd a)) l
  end
with rooted_node (n : pnode) : bool := match n with Get l | MatchType _ l => forallb rooted l end.
