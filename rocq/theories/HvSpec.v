(* What is in a held value, in terms of what happened. *)
From Verif Require Import Base HvModel.
Open Scope nat_scope.

Definition held (l : list stage) (o : nat) (x : N) : Prop := nth_error l o = Some (Hold x).
(* what functions left in the value that stage o holds, in order *)
Definition left_in (o : nat) (h : list event) : list N :=
  flat_map (fun e => match e with
                     | Ran _ l => flat_map (fun p => match fst p with Ref p' => if Nat.eqb p' o then [snd (snd p)] else [] | Temp _ => [] end) l
                     | _ => []
                     end) h.
(* the function of stage i, run after h with arguments of these values, leaves these *)
Definition does (l : list stage) (i : nat) (h : list event) (before after : list N) : Prop :=
  exists out, length after = length before /\ (forall k, nth k after 0%N = if Nat.ltb k (length out) && Nat.ltb k (length before) then nth k out 0%N else nth k before 0%N) /\
  match nth_error l i with
  | Some (Fn f) => out = fst (f h before)
  | Some (Tap f) => out = f h before
  | Some (Prom f) => out = fst (f h before)
  | Some (Catch _ f) => out = f h before
  | _ => False
  end.
(* a stage that calls its resolver at most once *)
Definition Single (s : stage) : Prop := match s with Prom f => forall h a, length (snd (f h a)) <= 1 | _ => True end.
(* a stage that is done when it returns *)
Definition Prompt (s : stage) : Prop := match s with Prom f => forall h a k, ~ In (Later k) (snd (f h a)) | _ => True end.
(* a stage that calls its resolver exactly once *)
Definition Once (s : stage) : Prop := match s with Prom f => forall h a, length (snd (f h a)) = 1 | _ => True end.
(* what a stage gives to the next, or rejects for the handler that is next: references as they are, temporaries with what was left in them *)
Definition onward (p : arg * (N * N)) : arg := match fst p with Ref o => Ref o | Temp _ => Temp (snd (snd p)) end.
Definition handed (args : list (arg * (N * N))) (r : res) : arg := match r with Same k => nth k (map onward args) (Temp 0) | New x => Temp x end.
Definition catches (l : list stage) (i : nat) : Prop := exists t f, nth_error l i = Some (Catch t f).
Definition passes (l : list stage) (i : nat) (h : list event) (args : list (arg * (N * N))) (given : list arg) : Prop :=
  let before := map (fun p => fst (snd p)) args in
  match nth_error l i with
  | Some (Fn f) => ~ catches l (S i) /\ given = map (handed args) (snd (f h before))
  | Some (Tap _) => ~ catches l (S i) /\ given = map onward args
  | Some (Prom f) => exists k r, (In (Now k) (snd (f h before)) \/ In (Later k) (snd (f h before))) /\ given = map (handed args) r /\
                     (~ catches l (S i) /\ k = Resolve r \/ catches l (S i) /\ k = Reject r)
  | _ => False
  end.
