(* The types of printed values, and texts that no punctuation is in. *)
From Coq Require Import String.
From Verif Require Import Base PrnModel.
Open Scope N_scope.

(* constants and strings of Hana, and whether an optional is empty, are known from the type *)
Inductive type :=
| TLeaf | TSeq (l : list type) | TJust (t : type) | TNothing | TMap (l : list (type * type)) | TConst (t : list N) | TPair (a b : type) | TStr (s : list N) | TSet (l : list type).
Fixpoint type_of (v : val) : type :=
  match v with
  | Leaf _ => TLeaf
  | Seq l => TSeq (map type_of l)
  | Just v => TJust (type_of v)
  | Nothing => TNothing
  | Map l => TMap (map (fun p => (type_of (fst p), type_of (snd p))) l)
  | Const t => TConst t
  | Pair a b => TPair (type_of a) (type_of b)
  | Str s => TStr s
  | Set_ l => TSet (map type_of l)
  end.
(* comma, closing brackets, equals sign *)
Definition punctuation (c : N) : Prop := c = 44 \/ c = 41 \/ c = 125 \/ c = 61.
(* no leaf has punctuation in its text *)
Inductive plain : val -> Prop :=
| pl_leaf t : Forall (fun c => ~ punctuation c) t -> plain (Leaf t)
| pl_seq l : Forall plain l -> plain (Seq l)
| pl_just v : plain v -> plain (Just v)
| pl_nothing : plain Nothing
| pl_map l : Forall (fun p => plain (fst p) /\ plain (snd p)) l -> plain (Map l)
| pl_const t : plain (Const t)
| pl_pair a b : plain a -> plain b -> plain (Pair a b)
| pl_str s : plain (Str s)
| pl_set l : Forall plain l -> plain (Set_ l).

(* the grammar of what is printed, one comma and one space between the parts *)
Inductive Listed : list (list N) -> list N -> Prop :=
| L_none : Listed [] []
| L_one t : Listed [t] t
| L_more t l r : l <> [] -> Listed l r -> Listed (t :: l) (t ++ [44; 32] ++ r).
Inductive Shown : val -> list N -> Prop :=
| S_leaf t : Shown (Leaf t) t
| S_const t : Shown (Const t) t
| S_seq l ts r : Forall2 Shown l ts -> Listed ts r -> Shown (Seq l) ([40] ++ r ++ [41])
| S_set l ts r : Forall2 Shown l ts -> Listed ts r -> Shown (Set_ l) ([123] ++ r ++ [125])
| S_map l ts r : Forall2 (fun p t => exists a b, Shown (fst p) a /\ Shown (snd p) b /\ t = a ++ [32; 61; 62; 32] ++ b) l ts -> Listed ts r -> Shown (Map l) ([123] ++ r ++ [125])
| S_pair x y a b : Shown x a -> Shown y b -> Shown (Pair x y) ([40] ++ a ++ [44; 32] ++ b ++ [41])
| S_just x a : Shown x a -> Shown (Just x) ([106; 117; 115; 116; 40] ++ a ++ [41])
| S_nothing : Shown Nothing [110; 111; 116; 104; 105; 110; 103]
| S_str s t r : s = t ++ r -> ~ In 0 t -> (r = [] \/ hd 1 r = 0) -> Shown (Str s) ([34] ++ t ++ [34]).
