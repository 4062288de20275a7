(* What two connected endpoints should do, in terms of what their applications do and are told. *)
From Verif Require Import Base WsModel WsSpec EndpointModel DuoModel.
Open Scope N_scope.

Definition peer_of (sd : side) (x : peers) : peer := match sd with Client => fst x | Server => snd x end.
Definition other (sd : side) : side := match sd with Client => Server | Server => Client end.
Definition same_side (a b : side) : bool := match a, b with Client, Client | Server, Server => true | _, _ => false end.

(* the messages that the application of a side has passed to send_message *)
Definition sent (sd : side) (ms : list move) : list bytes :=
  flat_map (fun m => match m with App s (CallSend p) => if same_side sd s then [p] else [] | _ => [] end) ms.
(* the messages that the application of a side was given *)
Definition heard_in (o : list out) : list bytes := flat_map (fun x => match x with OHandler (HMessage m) => [m] | _ => [] end) o.
Definition heard (sd : side) (x : peers) : list bytes := heard_in (outs (peer_of sd x)).

Definition prefix {A} (a b : list A) : Prop := exists c, b = a ++ c.

(* messages whose length a frame header can say *)
Definition small (m : bytes) : Prop := N.of_nat (length m) < 2 ^ 63.
Definition smalls (ms : list move) : Prop := Forall small (sent Client ms) /\ Forall small (sent Server ms).
(* a message that fills its last frame is not ended (C07): it is put before the next one *)
Definition joined (l : list bytes) : list bytes := merged 125 [] l.
Definition good (m : bytes) : Prop := N.of_nat (length m) < 2 ^ 63 /\ (length m mod 125 <> 0 \/ length m = 0)%nat.
Definition goods (ms : list move) : Prop := Forall good (sent Client ms) /\ Forall good (sent Server ms).
(* what the request can carry (C22) *)
Definition fits (origin token : list N) : Prop :=
  ~ In 10 origin /\ (length origin <= 247)%nat /\ ~ In 10 token /\ ~ In 59 token /\ (length token <= 234)%nat.
Definition data_opcodes (op : side -> byte) : Prop := forall sd, op sd = 1 \/ op sd = 2.

(* nothing fails, nobody stops or closes *)
Definition calm (m : move) : bool :=
  match m with
  | App _ (WriteErr _ _) | App _ CallStop | App _ CallClose | ReadFail _ | ShakeWrite _ false | ShakeFail _ => false
  | _ => true
  end.
(* what happens without the applications: bytes arrive, operations complete *)
Definition internal (m : move) : bool :=
  match m with App _ (WriteOk _) | Arrive _ _ | Read _ | ShakeWrite _ true | ShakeRead _ _ => true | _ => false end.
Definition resting (op : side -> byte) (x : peers) : Prop := forall m y, internal m = true -> go op x m = Some y -> y = x.

(* such moves, each of which changes something *)
Inductive busy (op : side -> byte) : peers -> nat -> peers -> Prop :=
| busy_nil x : busy op x 0 x
| busy_cons x m y n z : internal m = true -> go op x m = Some y -> y <> x -> busy op y n z -> busy op x (S n) z.
