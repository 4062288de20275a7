(* What C89 talks about. *)
From Verif Require Import Base JsonModel JsonSpec JsonProofs FrameModel FrameSpec PipModel.
Open Scope N_scope.

Section Spec.
Variable alts : list shape.
Variable term : nat.
Variable fails : value -> bool.
Variable integral_of : N -> option Z.
Variable double_of : Z -> N.
Variable parse : bytes -> option json.

(* the message a text stands for *)
Definition Means (t : bytes) (v : value) : Prop :=
  exists j, parse t = Some j /\ Reads integral_of double_of buffer_any (SVar (SEmpty :: alts)) j (VVar 0 VEmpty) v.

(* the calls of the action for a sequence of texts, and how it ends *)
Inductive Handles : list bytes -> list value -> list settlement -> Prop :=
| H_none : Handles [] [] []
| H_unresolved t ts v a r : Means t (VVar 0 v) -> Handles ts a r -> Handles (t :: ts) a r
| H_message t ts i v a r : Means t (VVar (S i) v) -> fails (VVar (S i) v) = false -> i <> term -> Handles ts a r ->
    Handles (t :: ts) (VVar (S i) v :: a) r
| H_terminate t v : Means t (VVar (S term) v) -> fails (VVar (S term) v) = false -> Handles [t] [VVar (S term) v] [Done (VVar (S term) v)]
| H_fails t i v : Means t (VVar (S i) v) -> fails (VVar (S i) v) = true -> Handles [t] [VVar (S i) v] [BadAction]
| H_bad t : (forall v, ~ Means t v) -> Handles [t] [] [BadText].

(* the messages up to and including the first of the type Terminate *)
Fixpoint until (ms : list (nat * value)) : list (nat * value) :=
  match ms with [] => [] | (i, v) :: r => (i, v) :: if Nat.eqb i term then [] else until r end.
Definition is_last (ms : list (nat * value)) : Prop := exists v, In (term, v) ms.
End Spec.

Definition alternative_of (m : nat * value) : value := VVar (S (fst m)) (snd m).
(* what was said, in order *)
Definition said (es : list event) : list (nat * value) := flat_map (fun e => match e with Say i v => [(i, v)] | _ => [] end) es.
Definition polite (es : list event) : Prop := forall t, ~ In (Raw t) es.
Definition before {A} (a b : list A) : Prop := exists r, b = a ++ r.
