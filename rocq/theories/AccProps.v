(* C81: the loop that accepts connections. *)
From Coq Require Import String.
From Verif Require Import Base AccModel AccSpec AccProofs.
Open Scope N_scope.

(* When each client sends one request, nothing behind it, and does not stop in the middle: the connections are answered in the order in which they arrived, one that is opened is opened with exactly what its client sent,
   and an error is reported only for a client that ended without a word or whose whole request was not accepted.
   Partial: for other clients it does not hold, see the refutations below. *)
Theorem C81_own_request_partial : forall parse is_upgrade ls s, tidy parse ls -> run parse is_upgrade init ls = Some s ->
  (exists later, arrivals ls = map fst (results s) ++ later) /\
  (forall c r, In (c, Some r) (results s) -> sent c ls = r /\ request parse r /\ is_upgrade r = true) /\
  (forall c, In (c, None) (results s) -> (sent c ls = [] /\ In (End c) ls) \/ request parse (sent c ls)).
Proof.
  intros parse up ls s T R. destruct (all_good parse up ls s T R) as [GA _ _ _ GS GN]. split; [eexists; exact GA|]. split; [exact GS|exact GN].
Qed.
Print Assumptions C81_own_request_partial.

(* No client is passed over: when a client and all those ahead of it have done their part, the server alone can bring it to its result. *)
Theorem C81_served : forall parse is_upgrade ls s ahead c behind, tidy parse ls -> run parse is_upgrade init ls = Some s ->
  arrivals ls = ahead ++ c :: behind -> (forall d, In d (ahead ++ [c]) -> request parse (sent d ls) \/ (sent d ls = [] /\ In (End d) ls)) ->
  exists ls' s', forallb of_server ls' = true /\ run parse is_upgrade s ls' = Some s' /\ In c (map fst (results s')).
Proof.
  intros parse up ls s ahead c behind T R E H. destruct (all_good parse up ls s T R) as [GA _ _ _ _ _]. rewrite E in GA.
  destruct (in_dec N.eq_dec c (map fst (results s))) as [I|NI]; [exists [], s; auto|].
  assert (ND : NoDup (ahead ++ c :: behind)) by (rewrite <- E; apply T).
  (* what has a result is ahead of c *)
  assert (X : exists a2, ahead = map fst (results s) ++ a2 /\ a2 ++ c :: behind = current (at_ s) ++ backlog s).
  { clear -GA NI. revert ahead GA. induction (map fst (results s)) as [|x l IH]; intros ahead GA; [exists ahead; auto|]. destruct ahead as [|y ahead]; cbn in GA.
    - injection GA as -> _. exfalso. apply NI. now left.
    - injection GA as -> GA. destruct (IH (fun K => NI (or_intror K)) ahead GA) as (a2 & -> & Y). exists a2. auto. }
  destruct X as (a2 & -> & X).
  assert (RD : forall d, In d (a2 ++ [c]) -> ready parse d ls).
  { intros d Hd. apply H. rewrite <- app_assoc. apply in_or_app. now right. }
  assert (CR : forall d, In d (current (at_ s)) -> ready parse d ls).
  { intros d Hd. apply RD. destruct (at_ s) as [|e|e r]; cbn in Hd, X; [destruct Hd| |]; destruct Hd as [->|[]]; (destruct a2 as [|y a2]; cbn in X; injection X as -> _; now left). }
  destruct (to_waiting parse up ls s T R CR) as (l1 & s1 & F1 & R1 & A1 & B1 & M1).
  assert (Run1 : run parse up init (ls ++ l1) = Some s1) by (rewrite run_app, R; exact R1).
  assert (Y : In c (current (at_ s)) \/ exists a3, a2 ++ [c] = current (at_ s) ++ a3 /\ backlog s = a3 ++ behind /\ In c a3).
  { destruct (at_ s) as [|e|e r]; cbn in X |- *.
    - right. exists (a2 ++ [c]). split; [reflexivity|]. split; [rewrite <- X, <- app_assoc; reflexivity|apply in_or_app; right; now left].
    - destruct a2 as [|y a2]; cbn in X; injection X as -> X; [left; now left|]. right. exists (a2 ++ [c]). split; [reflexivity|]. split; [rewrite <- X, <- app_assoc; reflexivity|apply in_or_app; right; now left].
    - destruct a2 as [|y a2]; cbn in X; injection X as -> X; [left; now left|]. right. exists (a2 ++ [c]). split; [reflexivity|]. split; [rewrite <- X, <- app_assoc; reflexivity|apply in_or_app; right; now left]. }
  destruct Y as [Y|(a3 & Y1 & Y2 & Y3)].
  - exists l1, s1. split; [exact F1|]. split; [exact R1|]. rewrite M1. apply in_or_app. now right.
  - destruct (serve_backlog parse up a3 behind (ls ++ l1) s1 (tidy_server parse ls l1 F1 T) Run1 A1) as (l2 & s2 & F2 & R2 & _ & _ & M2).
    + congruence.
    + intros d Hd. destruct (RD d) as [Z|[Z1 Z2]]; [rewrite Y1; apply in_or_app; now right|left|right]; rewrite sent_app, (server_sent l1 d F1), app_nil_r; [exact Z|]. split; [exact Z1|apply in_or_app; now left].
    + exists (l1 ++ l2), s2. split; [rewrite forallb_app, F1; exact F2|]. split; [rewrite run_app, R1; exact R2|]. rewrite M2. apply in_or_app. now right.
Qed.
Print Assumptions C81_served.

(* "the server can always answer the others": false. From the moment a client that sent too little is read from, nobody gets a result until that client sends more or ends, whatever else happens. *)
Theorem C81_independent_refuted : forall parse is_upgrade s c, at_ s = Reading c -> parse (buffer s) = More -> inbox s c = [] -> ended s c = false ->
  forall ls s', run parse is_upgrade s ls = Some s' -> (forall l, In l ls -> (forall b, l <> Bytes c b) /\ l <> End c) -> results s' = results s.
Proof. intros parse up s c A P I E ls s' R H. exact (proj1 (blocked parse up c ls s s' R A P I E H)). Qed.
Print Assumptions C81_independent_refuted.

(* "a connection is opened with its own client's request": false. A client that sends two requests makes the server open the next connection with the second, though the next client said nothing. *)
Theorem C81_own_request_refuted : forall parse is_upgrade w1 w2 c1 c2, parse [] = More -> (forall x, parse (w1 ++ x) = Complete w1 x) -> (forall x, parse (w2 ++ x) = Complete w2 x) ->
  w1 <> [] -> is_upgrade w1 = true -> is_upgrade w2 = true -> c1 <> c2 ->
  exists ls s, run parse is_upgrade init ls = Some s /\ sent c2 ls = [] /\ results s = [(c1, Some w1); (c2, Some w2)].
Proof.
  intros parse up w1 w2 c1 c2 P0 P1 P2 NE U1 U2 NC.
  exists [Arrive c1; Arrive c2; Bytes c1 (w1 ++ w2); Accept; Receive (length (w1 ++ w2)); Parse; Upgrade true; Accept; Parse; Upgrade true]. eexists. split; [|split].
  - cbn [run]. unfold step at 1. cbn [init at_ backlog inbox ended buffer results app]. unfold step at 1. cbn [at_ backlog inbox ended buffer results app]. unfold step at 1. cbn [at_ backlog inbox ended buffer results app]. unfold step at 1. cbn [at_ backlog inbox ended buffer results app].
    unfold step at 1. cbn [at_ backlog inbox ended buffer results app]. rewrite P0, upd_same, Nat.leb_refl. assert (Nat.leb 1 (length (w1 ++ w2)) = true) as -> by (destruct w1; [congruence|reflexivity]). cbn [andb].
    unfold step at 1. cbn [at_ backlog inbox ended buffer results app]. rewrite firstn_all, P1.
    unfold step at 1. cbn [at_ backlog inbox ended buffer results app]. unfold step at 1. cbn [at_ backlog inbox ended buffer results app finished].
    unfold step at 1. cbn [at_ backlog inbox ended buffer results app]. rewrite <- (app_nil_r w2), P2 at 1.
    unfold step at 1. cbn [at_ backlog inbox ended buffer results app]. reflexivity.
  - cbn. destruct (N.eqb_spec c1 c2); [contradiction|reflexivity].
  - cbn. now rewrite U1, U2.
Qed.
Print Assumptions C81_own_request_refuted.

(* "a client that sends a request is served": false. One that stops in the middle leaves its piece in the buffer, and the next client's request is read as its continuation. *)
Theorem C81_good_request_refuted : forall parse is_upgrade p w rest c1 c2, parse [] = More -> parse p = More -> request parse w -> parse (p ++ w) = Invalid rest -> c1 <> c2 ->
  exists ls s, run parse is_upgrade init ls = Some s /\ sent c2 ls = w /\ results s = [(c1, None); (c2, None)].
Proof.
  intros parse up p w rest c1 c2 P0 P1 (W1 & W2 & W3) P2 NC.
  assert (NP : p <> []) by (intros ->; cbn in P2; rewrite <- (app_nil_r w), W2 in P2; discriminate).
  assert (L1 : Nat.leb 1 (length p) = true) by (destruct p; [congruence|reflexivity]). assert (L2 : Nat.leb 1 (length w) = true) by (destruct w; [congruence|reflexivity]).
  exists [Arrive c1; Bytes c1 p; End c1; Arrive c2; Bytes c2 w; Accept; Receive (length p); Fail; Accept; Receive (length w); Parse]. eexists. split; [|split].
  - cbn [run]. unfold step at 1. cbn [init at_ backlog inbox ended buffer results app]. unfold step at 1. cbn [at_ backlog inbox ended buffer results app]. unfold step at 1. cbn [at_ backlog inbox ended buffer results app]. unfold step at 1. cbn [at_ backlog inbox ended buffer results app].
    unfold step at 1. cbn [at_ backlog inbox ended buffer results app]. rewrite (upd_other c1 c2 true) by congruence.
    unfold step at 1. cbn [at_ backlog inbox ended buffer results app].
    unfold step at 1. cbn [at_ backlog inbox ended buffer results app]. rewrite P0, (upd_other c2 c1), !upd_same, Nat.leb_refl, L1 by congruence. cbn [andb].
    unfold step at 1. cbn [at_ backlog inbox ended buffer results app]. rewrite firstn_all, P1, !upd_same, skipn_all.
    unfold step at 1. cbn [at_ backlog inbox ended buffer results app finished].
    unfold step at 1. cbn [at_ backlog inbox ended buffer results app]. rewrite P1, (upd_other c1 c2), !upd_same, (upd_other c1 c2) by congruence. cbn [app]. rewrite Nat.leb_refl, L2. cbn [andb].
    unfold step at 1. cbn [at_ backlog inbox ended buffer results app]. rewrite firstn_all, P2. reflexivity.
  - cbn. rewrite N.eqb_refl. destruct (N.eqb_spec c1 c2); [contradiction|]. cbn. apply app_nil_r.
  - reflexivity.
Qed.
Print Assumptions C81_good_request_refuted.

(* Any clients at all: the results which the server can come to are exactly the answers to the clients that arrived first, in their order, each to the bytes
   which those before it have left in the buffer and then its own. *)
Theorem C81_exact : forall parse is_upgrade cl s0 rs, NoDup (arrivals cl) -> clients cl = cl -> run parse is_upgrade init cl = Some s0 ->
  ((exists ls s, clients ls = cl /\ run parse is_upgrade init ls = Some s /\ results s = rs) <->
   exists later left, arrivals cl = map fst rs ++ later /\ answers parse is_upgrade cl [] rs left).
Proof.
  intros parse up cl s0 rs ND Cl R0. split.
  - intros (ls & s & <- & R & <-). rewrite clients_arrivals in *. destruct (all_held parse up ls s ND R) as [GA _ _ (left & A & _)]. exists (current (at_ s) ++ backlog s), left. split; [exact GA|].
    apply (answers_more parse up ls (AccSpec.clients ls)); [exact A| |].
    + intros c. rewrite clients_sent. apply prefix_refl.
    + intros c H. rewrite clients_end, clients_sent. auto.
  - intros (later & left & Ar & A). destruct (all_held parse up cl s0 ND R0) as [GA GE GI _].
    assert (Fc : forallb (fun l => negb (of_server l)) cl = true) by (rewrite <- Cl; apply forallb_forall; intros x Hx; now apply filter_In in Hx).
    destruct (clients_run parse up cl init s0 Fc R0) as (E1 & E2 & E3). cbn in E1, E2, E3. rewrite E1, E3 in *. cbn in GA, GI.
    destruct (answers_reached parse up cl [] rs left A s0 later E1 E2) as (ks & s' & Fk & Rk & Er).
    + now rewrite <- GA.
    + now rewrite <- GA.
    + intros c _. apply GI; auto.
    + intros c. apply GE.
    + exists (cl ++ ks), s'. split; [|split; [rewrite run_app, R0; exact Rk|now rewrite Er, E3]].
      unfold AccSpec.clients in *. rewrite filter_app, Cl. replace (filter _ ks) with (@nil label); [apply app_nil_r|]. symmetry. clear -Fk. induction ks as [|k ks IH]; [reflexivity|]. cbn in *. apply andb_prop in Fk as [-> Fk]. cbn. auto.
Qed.
Print Assumptions C81_exact.

(* a parser for the examples: G, then anything but G, then a full stop *)
Fixpoint upto (w : list N) (acc : list N) : parsed :=
  match w with [] => More | b :: r => if b =? 46 then Complete (rev (b :: acc)) r else if b =? 71 then Invalid w else upto r (b :: acc) end.
Definition toy (w : list N) : parsed := match w with [] => More | b :: r => if b =? 71 then upto r [b] else Invalid r end.
Definition results_of (ls : list label) := option_map results (run toy (fun _ => true) init ls).
Example C81_ex :
  results_of [Arrive 1; Arrive 2; Bytes 2 (bs "Gb."); Bytes 1 (bs "Ga"); Accept; Receive 1; Receive 1; Bytes 1 (bs "."); Receive 1; Parse; Upgrade true; Accept; Receive 3; Parse; Upgrade true]
    = Some [(1, Some (bs "Ga.")); (2, Some (bs "Gb."))] /\
  (* two requests of one client *)
  results_of [Arrive 1; Arrive 2; Bytes 1 (bs "Ga.Gb."); Accept; Receive 6; Parse; Upgrade true; Accept; Parse; Upgrade true] = Some [(1, Some (bs "Ga.")); (2, Some (bs "Gb."))] /\
  (* a client that stops in the middle *)
  results_of [Arrive 1; Bytes 1 (bs "Ga"); End 1; Arrive 2; Bytes 2 (bs "Gb."); Accept; Receive 2; Fail; Accept; Receive 3; Parse] = Some [(1, None); (2, None)] /\
  (* a silent client: the second cannot be accepted *)
  results_of [Arrive 1; Arrive 2; Bytes 2 (bs "Gb."); Accept; Accept] = None.
Proof. vm_compute. repeat split. Qed.
(* the theorems' conditions can be met: Ga. is a request of this parser *)
Example C81_request_ex : request toy (bs "Ga.") /\ toy (bs "Ga" ++ bs "Gb.") = Invalid (bs "Gb.").
Proof.
  split; [|reflexivity]. split; [discriminate|]. split; [reflexivity|]. intros p (c & E) NE. destruct p as [|a [|b [|d [|e p]]]].
  - reflexivity.
  - injection E as <- _. reflexivity.
  - injection E as <- <- _. reflexivity.
  - injection E as <- <- <- _. now destruct NE.
  - discriminate.
Qed.

(* three clients: the first sends a request and the beginning of another one, the second ends it, the third stops in the middle *)
Example C81_exact_ex : let cl := [Arrive 1; Arrive 2; Arrive 3; Bytes 1 (bs "Ga.Gb"); Bytes 2 (bs "c."); Bytes 3 (bs "Gd"); End 3] in
  clients cl = cl /\ answers toy (fun _ => true) cl [] [(1, Some (bs "Ga.")); (2, Some (bs "Gbc.")); (3, None)] (bs "Gd") /\
  option_map results (run toy (fun _ => true) init (cl ++ [Accept; Receive 5; Parse; Upgrade true; Accept; Receive 2; Parse; Upgrade true; Accept; Receive 1; Receive 1; Fail])) =
    Some [(1, Some (bs "Ga.")); (2, Some (bs "Gbc.")); (3, None)].
Proof.
  intros cl. split; [reflexivity|]. split; [|vm_compute; reflexivity].
  assert (T : forall l b, toy l = More -> b <> [] -> took toy l b) by (intros l b H1 H2; rewrite <- (app_nil_r b); apply took_piece; auto; constructor).
  eapply (answers_request _ _ _ _ _ (bs "Ga.Gb")); [exists []; reflexivity|apply T; [reflexivity|discriminate]|reflexivity|right; split; reflexivity|].
  eapply (answers_request _ _ _ _ _ (bs "c.")); [exists []; reflexivity|apply T; [reflexivity|discriminate]|reflexivity|right; split; reflexivity|].
  apply (answers_ended _ _ _ []); [vm_compute; auto 10|apply T; [reflexivity|discriminate]|reflexivity|constructor].
Qed.
