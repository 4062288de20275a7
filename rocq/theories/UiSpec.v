(* What the document should show for a specification and a state of the store, without regard to how it is put together. *)
From Coq Require Import String.
From Verif Require Import Base UiModel.
Open Scope nat_scope.

(* a subtree of the document; the slots of an element are its attributes, properties and classes *)
Inductive tree := TElem (name : bytes) (sl : key -> option bytes) (l : list tree) | TText (b : bytes) | TRaw (b : bytes).

(* the node [id] is in place below [par] and is the root of the tree; P says which nodes may take part *)
Inductive shows (P : nat -> Prop) (h : heap) : option nat -> nat -> tree -> Prop :=
| ShowsElem q id n nm sl ts :
    P id -> nth_error h id = Some n -> parent n = q -> kind_of n = KElem nm -> (forall k, lookup k (slots n) = sl k) ->
    shows_all P h (Some id) (kids n) ts -> shows P h q id (TElem nm sl ts)
| ShowsText q id n b : P id -> nth_error h id = Some n -> parent n = q -> kind_of n = KText b -> shows P h q id (TText b)
| ShowsRaw q id n b : P id -> nth_error h id = Some n -> parent n = q -> kind_of n = KRaw b -> shows P h q id (TRaw b)
with shows_all (P : nat -> Prop) (h : heap) : option nat -> list nat -> list tree -> Prop :=
| ShowsNil q : shows_all P h q [] []
| ShowsCons q id t ids ts : shows P h q id t -> shows_all P h q ids ts -> shows_all P h q (id :: ids) (t :: ts).

Section Spec.
Variable st : Type.
Implicit Types (x : st) (s : spec st).

(* the text of an attribute; None when a match in it is at a path that does not resolve *)
Definition opt_concat (l : list (option bytes)) : option bytes :=
  fold_right (fun a b => match a, b with Some a, Some b => Some (a ++ b) | _, _ => None end) (Some []) l.
Definition pick {A B} (f : A -> option B) (l : list A) (i : option nat) : option B :=
  match i with Some i => nth i (map f l) None | None => None end.
Fixpoint text_of (x : st) (v : pspec st) : option bytes :=
  match v with
  | QConst b => Some b
  | QPath f => Some (match f x with Some b => b | None => [] end)
  | QConcat l => opt_concat (map (text_of x) l)
  | QBranch c alts => pick (text_of x) alts (c x)
  end.

(* the texts of a text node *)
Fixpoint texts (x : st) (t : tspec st) : list bytes :=
  match t with
  | TConst b => [b]
  | TPath f => [match f x with Some b => b | None => [] end]
  | TConcat l => flat_map (texts x) l
  end.
Fixpoint count (t : tspec st) : nat := match t with TConst _ | TPath _ => 1 | TConcat l => list_sum (map count l) end.

(* what a child makes of the slots of its element *)
Definition set (k : key) (v : option bytes) (sl : key -> option bytes) : key -> option bytes := fun k' => if key_eqb k k' then v else sl k'.
Definition slot (s : spec st) (x : st) (sl : key -> option bytes) : key -> option bytes :=
  match s with
  | Attribute k v => match text_of x v with Some b => set k (Some b) sl | None => sl end
  | AddIf k f => match f x with Some b => set k (if b then Some [] else None) sl | None => sl end
  | AddClassWhen n f => set (Class n) (if f x then Some [] else None) sl
  | _ => sl
  end.
Definition none : key -> option bytes := fun _ => None.

(* the nodes a specification stands for *)
Fixpoint content (s : spec st) (x : st) {struct s} : list tree :=
  match s with
  | Element nm l => [TElem nm (fold_left (fun sl c => slot c x sl) l none) (flat_map (fun c => content c x) l)]
  | TextNode t => map TText (texts x t)
  | InnerHtml b => match b with [] => [] | _ => [TRaw b] end
  | Match c alts => match c x with Some i => nth i (map (fun a => content a x) alts) [] | None => [] end
  | ForEach f body => match f x with Some items => flat_map (content body) items | None => [] end
  | FileInput => [TElem (bs "input") (set (Attr (bs "type")) (Some (bs "file")) (set (Property (bs "style.display")) (Some (bs "none")) none)) []]
  | _ => []
  end.

(* ---- what a specification must look like ---- *)

(* empties the element it is in *)
Definition empties (s : spec st) : bool := match s with InnerHtml _ | ForEach _ _ => true | _ => false end.
(* adds no nodes to the element it is in *)
Definition quiet (s : spec st) : bool :=
  match s with Attribute _ _ | AddIf _ _ | AddClassWhen _ _ | Listener _ | Noop => true | _ => false end.
(* may be repeated in an element *)
Definition repeatable (s : spec st) : bool :=
  match s with Element _ _ | TextNode _ | FileInput | Match _ _ | Listener _ | Noop => true | _ => false end.
(* only children without nodes come before one that empties the element *)
Fixpoint first_among (l : list (spec st)) : bool :=
  match l with
  | [] => true
  | s :: r => (if quiet s then true else forallb (fun c => negb (empties c)) r) && first_among r
  end.
(* a for_each is the only child with nodes *)
Definition is_each (s : spec st) : bool := match s with ForEach _ _ => true | _ => false end.
Fixpoint only_each (l : list (spec st)) : bool :=
  match l with
  | [] => true
  | s :: r => (if is_each s then forallb quiet r else if quiet s then true else forallb (fun c => negb (is_each c)) r) && only_each r
  end.

(* every match selects one of its alternatives; the compiler guarantees it *)
Definition in_range (i : option nat) (n : nat) : Prop := match i with Some i => i < n | None => True end.
(* an alternative of a match is one node *)
Definition one_node (s : spec st) (x : st) : Prop :=
  match s with
  | Element _ _ | FileInput => True
  | TextNode t => count t = 1
  | Match c _ => c x <> None
  | _ => False
  end.

(* can be rendered for the state [x] of the store *)
Fixpoint renders (s : spec st) (x : st) {struct s} : Prop :=
  match s with
  | Element _ l => first_among l = true /\ fold_right (fun c P => renders c x /\ P) True l
  | Attribute _ v => text_of x v <> None
  | Match c alts => in_range (c x) (length alts) /\ fold_right (fun a P => (renders a x /\ one_node a x) /\ P) True alts
  | ForEach f body => repeatable body = true
                      /\ match f x with Some items => Forall (renders body) items | None => True end
  | _ => True
  end.

(* ---- updates ---- *)

Definition key_of (s : spec st) : list key :=
  match s with Attribute k _ | AddIf k _ => [k] | AddClassWhen n _ => [Class n] | _ => [] end.

(* a single node that stays the same node when the store changes *)
Definition lasting (s : spec st) : Prop :=
  match s with Element _ _ | FileInput => True | TextNode t => count t = 1 | _ => False end.
(* the specification can be kept up to date *)
Fixpoint updatable (s : spec st) : Prop :=
  match s with
  | Element _ l => first_among l = true /\ only_each l = true /\ NoDup (flat_map key_of l) /\ fold_right (fun c P => updatable c /\ P) True l
  | Match _ alts => fold_right (fun a P => (updatable a /\ lasting a) /\ P) True alts
  | ForEach _ body => repeatable body = true
  | _ => True
  end.

(* an update to [x] is possible: all matches resolve, shown or not *)
Fixpoint updates (s : spec st) (x : st) {struct s} : Prop :=
  match s with
  | Element _ l => fold_right (fun c P => updates c x /\ P) True l
  | Attribute _ v => text_of x v <> None
  | Match c alts => (exists i, c x = Some i /\ i < length alts) /\ fold_right (fun a P => updates a x /\ P) True alts
  | ForEach f body => match f x with Some items => Forall (renders body) items | None => True end
  | _ => True
  end.

Fixpoint tresolves (t : tspec st) (x : st) : Prop :=
  match t with TConst _ => True | TPath f => f x <> None | TConcat l => fold_right (fun a P => tresolves a x /\ P) True l end.
(* the paths of what is shown resolve *)
Fixpoint resolves (s : spec st) (x : st) {struct s} : Prop :=
  match s with
  | Element _ l => fold_right (fun c P => resolves c x /\ P) True l
  | AddIf _ f => f x <> None
  | TextNode t => tresolves t x
  | Match c alts => match c x with Some i => nth i (map (fun a => resolves a x) alts) True | None => True end
  | _ => True
  end.
End Spec.
Arguments content {st} s x. Arguments texts {st} x t. Arguments count {st} t. Arguments slot {st} s x sl _. Arguments text_of {st} x v.
Arguments empties {st} s. Arguments quiet {st} s. Arguments repeatable {st} s. Arguments first_among {st} l. Arguments only_each {st} l.
Arguments is_each {st} s. Arguments one_node {st} s x. Arguments renders {st} s x. Arguments key_of {st} s.
Arguments lasting {st} s. Arguments updatable {st} s. Arguments updates {st} s x. Arguments tresolves {st} t x. Arguments resolves {st} s x.
