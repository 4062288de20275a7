(* What the list of actions of a tree of views should be. *)
From Verif Require Import Base VwModel.
Open Scope nat_scope.

(* from the open views [o] some actions lead to [o']: every end is that of the view opened last; the alternatives of a branch close what they open *)
Inductive leads : list (nat * spec) -> list action -> list (nat * spec) -> Prop :=
| leads_nil o : leads o [] o
| leads_begin o t ty i r o' : leads ((t, ty) :: o) r o' -> leads o (Begin t ty i :: r) o'
| leads_end o t ty r o' : leads o r o' -> leads ((t, ty) :: o) (End t ty :: r) o'
| leads_branch o p alts r o' : Forall (fun a => leads [] (snd a) []) alts -> leads o r o' -> leads o (Branch p alts :: r) o'
| leads_same o x r o' : leads o r o' -> leads o (Same x :: r) o'.

(* a tree, line by line: how deep, and what *)
Inductive line := LView (tag : nat) (type init : spec) | LMatch (path : nat) (alts : list (nat * list (nat * line))) | LOther (x : nat).
Fixpoint outline (d : nat) (s : spec) : list (nat * line) :=
  match s with
  | Pair t l => match l with ty :: i :: cs => (d, LView t ty i) :: flat_map (outline (S d)) cs | _ => [] end
  | Match p alts => [(d, LMatch p (map (fun a => (fst a, outline 0 (snd a))) alts))]
  | Leaf x => [(d, LOther x)]
  end.
(* the same of a list of actions *)
Inductive outlined : nat -> list action -> list (nat * line) -> Prop :=
| out_nil d : outlined d [] []
| out_begin d t ty i r ls : outlined (S d) r ls -> outlined d (Begin t ty i :: r) ((d, LView t ty i) :: ls)
| out_end d t ty r ls : outlined d r ls -> outlined (S d) (End t ty :: r) ls
| out_branch d p alts alts' r ls : Forall2 (fun a b => fst a = fst b /\ outlined 0 (snd a) (snd b)) alts alts' -> outlined d r ls ->
    outlined d (Branch p alts :: r) ((d, LMatch p alts') :: ls)
| out_same d x r ls : outlined d r ls -> outlined d (Same x :: r) ((d, LOther x) :: ls).

(* every view has a type and a function, and the rest is made of such *)
Inductive complete : spec -> Prop :=
| complete_pair t ty i cs : Forall complete cs -> complete (Pair t (ty :: i :: cs))
| complete_match p alts : Forall (fun a => complete (snd a)) alts -> complete (Match p alts)
| complete_leaf x : complete (Leaf x).
