(* What lookups should do. *)
From Verif Require Import Base PromiseModel MatchModel.
Open Scope nat_scope.

(* the continuation is called once, with v, and nothing else happens *)
Definition resolves (s : store) (p : list key) (v : store) : Prop := forall E (fn : store -> option (list E)), match_path s p fn = fn v.
Definition rejects (s : store) (p : list key) : Prop := forall E (fn : store -> option (list E)), match_path s p fn = None.

(* what is seen once references, aliases and variants are looked through *)
Fixpoint view (s : store) : store := match s with Ref t | Alias t | Variant _ t => view t | _ => s end.
Definition plain (s : store) : Prop := match s with Ref _ | Alias _ | Variant _ _ => False | _ => True end.

(* a chain of stores, the most recently composed first *)
Definition chain (l : list (key * store)) (base : store) : store := fold_right (fun kv s => store_compose (fst kv) (snd kv) s) base l.
Definition latest (k : key) (l : list (key * store)) : option store := option_map snd (find (fun kv => Nat.eqb (fst kv) k) l).

(* the chain in which only the most recently composed store for k is replaced *)
Fixpoint replace_latest (k : key) (v : store) (l : list (key * store)) : list (key * store) :=
  match l with [] => [] | (k', w) :: r => if Nat.eqb k' k then (k, v) :: r else (k', w) :: replace_latest k v r end.

(* i is the first position of l at which P holds *)
Definition first_at {A} (P : A -> Prop) (l : list A) (i : nat) : Prop :=
  (exists a, nth_error l i = Some a /\ P a) /\ forall j b, j < i -> nth_error l j = Some b -> ~ P b.

(* references and strong aliases, one upon the other, of a state *)
Inductive stands_for (l : list (key * store)) : store -> Prop :=
| stands_state : stands_for l (State l)
| stands_ref s : stands_for l s -> stands_for l (Ref s)
| stands_alias s : stands_for l s -> stands_for l (Alias s).
