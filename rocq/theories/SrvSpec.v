(* What clients of a server see of each other. *)
From Verif Require Import Base SrvModel.
Open Scope N_scope.

Section Spec.
Variable context : list msg -> msg -> list msg.
Variable meaning : list N -> option msg.      (* of a text that a client sends; None: nothing *)

(* the messages that a connection gets: those that are sent downstream while it is there *)
Fixpoint mine (c : N) (inside : bool) (g : list msg) (ls : list label) : list msg :=
  match ls with
  | [] => []
  | Connect c' :: r => mine c (inside || (c' =? c)) g r
  | PeerClose c' :: r => mine c (inside && negb (c' =? c)) g r
  | Downstream m :: r => (if inside then [m] else []) ++ mine c inside g r
  | Incoming c' text :: r => match meaning text with
                             | Some m => (if inside then context g m else []) ++ mine c inside (g ++ [m]) r
                             | None => mine c (inside && negb (c' =? c)) g r
                             end
  end.
Definition to (c : N) (log : list (N * JsbModel.jsv)) : list JsbModel.jsv := map snd (filter (fun x => fst x =? c) log).
(* what the context is given *)
Fixpoint meant (ls : list label) : list msg :=
  match ls with [] => [] | Incoming _ text :: r => match meaning text with Some m => m :: meant r | None => meant r end | _ :: r => meant r end.
End Spec.
