(* Model of /repo/example/pipes/hana_printable.hpp: what the pipes example writes about the messages it has no other words for.
   A value is a tree; what operator<< writes of a leaf is its text. *)
From Coq Require Import String.
From Verif Require Import Base.
Open Scope N_scope.

Inductive val :=
| Leaf (t : list N)                     (* what has an operator<<, 125-137 *)
| Seq (l : list val)                    (* hana::Sequence, 110-122 *)
| Just (v : val) | Nothing              (* hana::optional, 140-149 *)
| Map (l : list (val * val))            (* hana::map, 152-171 *)
| Const (t : list N)                    (* a Constant that holds something with an operator<<, 194-204 *)
| Pair (a b : val)                      (* hana::Product, 207-215 *)
| Str (s : list N)                      (* hana::string, 218-224 *)
| Set_ (l : list val).                  (* hana::set, 227-242 *)

(* hana::intersperse with ", ", and all together *)
Fixpoint joined (l : list (list N)) : list N :=
  match l with [] => [] | [x] => x | x :: r => x ++ bs ", " ++ joined r end.
(* std::string from a char const*: up to the first NUL *)
Fixpoint c_str (s : list N) : list N := match s with [] => [] | c :: r => if c =? 0 then [] else c :: c_str r end.

Fixpoint print (v : val) : list N :=
  match v with
  | Leaf t => t
  | Seq l => bs "(" ++ joined (map print l) ++ bs ")"
  | Just v => bs "just(" ++ print v ++ bs ")"
  | Nothing => bs "nothing"
  | Map l => bs "{" ++ joined (map (fun p => print (fst p) ++ bs " => " ++ print (snd p)) l) ++ bs "}"
  | Const t => t
  | Pair a b => bs "(" ++ print a ++ bs ", " ++ print b ++ bs ")"
  | Str s => [34] ++ c_str s ++ [34]
  | Set_ l => bs "{" ++ joined (map print l) ++ bs "}"
  end.
