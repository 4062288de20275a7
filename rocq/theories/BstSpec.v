(* How connecting and reading should go. *)
From Coq Require Import String.
From Verif Require Import Base BstModel.
Open Scope N_scope.

(* the host name, one of its addresses, the WebSocket *)
Inductive Succeeds (h service : bytes) : list completion -> list action -> Prop :=
| Succ a l : Succeeds h service [Looked (inr (a, l)); Dialled None; Shook None] [Lookup h service; Dial a; Shake h (bs "/"%string); Told None].
Inductive Fails (h service : bytes) : list completion -> list action -> Prop :=
| FailLook e : Fails h service [Looked (inl e)] [Lookup h service; Told (Some e)]
| FailDial a l e : Fails h service [Looked (inr (a, l)); Dialled (Some e)] [Lookup h service; Dial a; Told (Some e)]
| FailShake a l e : Fails h service [Looked (inr (a, l)); Dialled None; Shook (Some e)] [Lookup h service; Dial a; Shake h (bs "/"%string); Told (Some e)].
Definition told (l : list action) : list (option N) := flat_map (fun a => match a with Told r => [r] | _ => [] end) l.
Definition dialled (l : list action) : list address := flat_map (fun a => match a with Dial a => [a] | _ => [] end) l.
(* the texts whose writing succeeded *)
Inductive Written : list (bytes * option N) -> list bytes -> Prop :=
| W_nil : Written [] []
| W_ok t l w : Written l w -> Written ((t, None) :: l) (t :: w)
| W_err t e l w : Written l w -> Written ((t, Some e) :: l) w.
