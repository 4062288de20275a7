(* What a program sees of its connection. *)
From Verif Require Import Base BwsModel.
Open Scope N_scope.

Section Spec.
Variable P : Type.
Variable decode : data -> option P.        (* the payload that a message carries *)
Variable frame : P -> data.                (* the message that carries a payload *)

(* a message that carries none is ignored; the error before the close is not passed on *)
Definition heard (e : event) : list (call P) :=
  match e with EOpen => [CReady] | EMessage d => match decode d with Some p => [CMessage p] | None => [] end | EClose _ => [CClose] | EError => [] end.
Definition all_heard (ls : list (label P)) : list (call P) := flat_map (fun l => match l with Fire e => heard e | _ => [] end) ls.

(* what is sent between the opening and the first sign of its end *)
Fixpoint frames (open : bool) (ls : list (label P)) : list data :=
  match ls with
  | [] => []
  | Fire EOpen :: r => frames true r
  | (Fire EError | Fire (EClose _) | SendClose) :: _ => []
  | Send p :: r => (if open then [frame p] else []) ++ frames open r
  | _ :: r => frames open r
  end.
(* what is sent before the first event and before a close; the messages that carry nothing *)
Fixpoint early (ls : list (label P)) : nat :=
  match ls with
  | [] => 0
  | (Fire _ | SendClose) :: _ => 0
  | Send p :: r => S (early r)
  | Destroy :: r => early r
  end.
Definition unread (ls : list (label P)) : nat :=
  length (filter (fun l => match l with Fire (EMessage d) => match decode d with Some _ => false | None => true end | _ => false end) ls).
(* the endpoint is there for all events but errors *)
Fixpoint kept (ls : list (label P)) : Prop :=
  match ls with [] => True | Destroy :: r => Forall (fun l => l = Fire EError) r | _ :: r => kept r end.
End Spec.

(* What a browser reports of a connection which the program does not close: perhaps the opening and then messages, perhaps errors, and
   nothing after the close.  An error is the end of the messages. *)
Definition ending (es : list event) : Prop := exists k, es = repeat EError k \/ exists code, es = repeat EError k ++ [EClose code].
Definition reported (es : list event) : Prop := exists t, ending t /\ (es = t \/ exists ds, es = EOpen :: map EMessage ds ++ t).
