(* What C110 talks about. *)
From Verif Require Import Base JsonModel FrameModel FrameSpec PipModel PipSpec ExmModel.
Open Scope N_scope.

(* nothing is waited for any more: io.run() returns *)
Definition ended (p : prog) : Prop := (exists a, srv p = Served a) /\ (exists b, cli p = Left b).
(* what can happen without the system failing *)
Definition failure (e : event) : Prop := e = AcceptDone false \/ e = Break.
Definition refusals (es : list event) : nat := length (filter (fun e => match e with ConnectDone false => true | _ => false end) es).
(* the texts of the messages are shorter than 4 GB *)
Definition short (text : nat -> value -> option bytes) (ms : list (nat * value)) : Prop := forall i v t, In (i, v) ms -> text i v = Some t -> small t.
