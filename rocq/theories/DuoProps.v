(* C83: what two connected endpoints say to their applications is what the applications sent. *)
From Coq Require Import String.
From Verif Require Import Base WsModel HandshakeModel EndpointModel EndpointSpec DuoModel DuoSpec DuoProofs.
Open Scope N_scope.

(* Each application is given, in order and unchanged, a prefix of what the other one has sent, however the stream is cut,
   whichever operations fail and whatever the applications do in between. *)
Theorem C83_in_order_partial : forall op origin token ms x sd, data_opcodes op -> fits origin token ->
  play op (begun origin token) ms = Some x -> goods ms -> prefix (heard (other sd) x) (sent sd ms).
Proof.
  intros op origin token ms x sd H1 H2 H3 H4. rewrite <- (goods_joined ms sd H4). exact (in_order op H1 origin token H2 ms x sd H3 (goods_smalls ms H4)).
Qed.
Print Assumptions C83_in_order_partial.

(* without that condition the messages are those that were sent, each that fills its last frame put before the next one *)
Theorem C83_in_order_exact : forall op origin token ms x sd, data_opcodes op -> fits origin token ->
  play op (begun origin token) ms = Some x -> smalls ms -> prefix (heard (other sd) x) (joined (sent sd ms)).
Proof. intros op origin token ms x sd H1 H2 H3 H4. exact (in_order op H1 origin token H2 ms x sd H3 H4). Qed.
Print Assumptions C83_in_order_exact.

(* the moves of a handshake *)
Definition shake_hands : list move :=
  [ShakeWrite Client true; Arrive Server 300; ShakeRead Server (repeat 256%nat 10); ShakeWrite Server true; Arrive Client 300; ShakeRead Client []; App Client CallStart; App Server CallStart].
Definition texts (sd : side) : byte := op_text.
Definition from : list N := bs "example.org".
Definition key : list N := bs "t0ken".

Definition long : bytes := repeat 120 125.
(* without the condition on the lengths it is false: a message of 125 bytes is given together with the next one *)
Definition runs_on : list move :=
  shake_hands ++ [App Client (CallSend long); App Client (CallSend (bs "hi")); App Client (WriteOk 0); Arrive Server 300; Read Server; Read Server].
Theorem C83_in_order_refuted : ~ (forall op origin token ms x sd, data_opcodes op -> fits origin token ->
  play op (begun origin token) ms = Some x -> prefix (heard (other sd) x) (sent sd ms)).
Proof.
  intros H. assert (D : data_opcodes texts) by (intros sd; now left).
  assert (F : fits from key).
  { unfold fits, from, key. cbn. repeat split; try lia; intuition discriminate. }
  destruct (play texts (begun from key) runs_on) as [x|] eqn:E; [|vm_compute in E; discriminate].
  pose proof (H texts from key runs_on x Client D F E) as [rest K].
  assert (X : option_map (heard Server) (play texts (begun from key) runs_on) = Some [long ++ bs "hi"]) by (vm_compute; reflexivity).
  rewrite E in X. cbn [option_map] in X. injection X as X. cbn [other] in K. rewrite X in K. vm_compute in K. discriminate K.
Qed.
Print Assumptions C83_in_order_refuted.

Example C83_in_order_exact_ex : joined (sent Client runs_on) = [long ++ bs "hi"] /\
  option_map (heard Server) (play texts (begun from key) runs_on) = Some (joined (sent Client runs_on)).
Proof. split; vm_compute; reflexivity. Qed.

(* What the handshake tells: at most one thing, the server is told the token that the client was given, and neither side
   finds a bad request; nothing undefined happens unless a write fails. *)
Theorem C83_told : forall op origin token ms x sd, data_opcodes op -> fits origin token ->
  play op (begun origin token) ms = Some x -> smalls ms ->
  let p := peer_of sd x in
  (notes p = [] \/ notes p = [NError] \/ notes p = [NReady (match sd with Client => [] | Server => token end)])
  /\ ~ In (OHandler HBadRequest) (outs p)
  /\ (crashed (ep p) = true -> exists i r, In (App sd (WriteErr i r)) ms).
Proof.
  intros op origin token ms x sd H1 H2 H3 H4 p. destruct (play_inv op H1 origin token H2 ms x H3 H4) as (Wc & Ws & []). subst p. destruct sd; cbn [peer_of].
  - split; [|split; [exact v_xc|exact v_cc]]. rewrite v_nc. destruct (phase_ (fst x)); auto.
  - split; [|split; [exact v_xs|exact v_cs]]. rewrite v_ns. destruct (phase_ (snd x)); auto.
Qed.
Print Assumptions C83_told.

(* When nothing fails, nobody stops or closes, both applications have started and nothing is left to happen, everything was given. *)
Theorem C83_delivered : forall op origin token ms x, data_opcodes op -> fits origin token ->
  play op (begun origin token) ms = Some x -> smalls ms -> forallb calm ms = true -> resting op x ->
  notes (fst x) = [NReady []] /\ notes (snd x) = [NReady token]
  /\ ((forall sd, In (App sd CallStart) ms) -> heard Server x = joined (sent Client ms) /\ heard Client x = joined (sent Server ms))
  /\ (goods ms -> joined (sent Client ms) = sent Client ms /\ joined (sent Server ms) = sent Server ms).
Proof.
  intros op origin token ms x H1 H2 H3 H4 H5 H6. destruct (play_good op H1 origin token H2 ms x H3 H4 H5) as (Wc & Ws & G).
  pose proof (resting_at_rest op H1 origin token H2 _ _ _ _ G H6) as R. pose proof G as [V _ _ _ _ _]. destruct V.
  destruct (R Client) as [Rc _]. destruct (R Server) as [Rs _]. cbn [peer_of] in Rc, Rs. rewrite Rc in v_nc. rewrite Rs in v_ns.
  split; [exact v_nc|]. split; [exact v_ns|]. split; [|intros Hg; split; now apply goods_joined]. intros Hs. pose proof (rest_delivers op H1 origin token _ _ _ _ G R Hs) as D. split; [exact (D Client)|exact (D Server)].
Qed.
Print Assumptions C83_delivered.

(* And it always comes to that: whatever the order in which bytes arrive and operations complete, only so many of these things
   happen, and when none is left everything was given. *)
Theorem C83_settles : forall op origin token ms x, data_opcodes op -> fits origin token ->
  play op (begun origin token) ms = Some x -> smalls ms -> forallb calm ms = true ->
  (exists n, forall k y, busy op x k y -> (k <= n)%nat)
  /\ (exists k y, busy op x k y /\ resting op y)
  /\ (forall k y, busy op x k y -> resting op y -> (forall sd, In (App sd CallStart) ms) -> heard Server y = joined (sent Client ms) /\ heard Client y = joined (sent Server ms)).
Proof.
  intros op origin token ms x H1 H2 H3 H4 H5. destruct (play_good op H1 origin token H2 ms x H3 H4 H5) as (Wc & Ws & G).
  split; [|split].
  - exists (work op x). intros k y B. pose proof (busy_bound op H1 origin token H2 (work op x) x k y ms Wc Ws (le_n _) G B). lia.
  - exact (reaches_rest op H1 origin token H2 (work op x) ms x Wc Ws (le_n _) G).
  - intros k y B R Hs. destruct (busy_good op H1 origin token H2 _ _ _ _ _ _ G B) as (ms' & Wc' & Ws' & G' & HI).
    pose proof (resting_at_rest op H1 origin token H2 _ _ _ _ G' R) as A.
    assert (Hs' : forall sd, In (App sd CallStart) (ms ++ ms')) by (intros sd; apply in_or_app; left; apply Hs).
    pose proof (rest_delivers op H1 origin token _ _ _ _ G' A Hs') as D.
    assert (SS : forall sd, sent sd (ms ++ ms') = sent sd ms) by (intros sd; rewrite sent_app, (internal_sents sd ms' HI); apply app_nil_r).
    rewrite <- (SS Client), <- (SS Server). split; [exact (D Client)|exact (D Server)].
Qed.
Print Assumptions C83_settles.

Definition short (m : bytes) : bool := Nat.ltb (length m) 1000 && (negb (Nat.eqb (length m mod 125) 0) || Nat.eqb (length m) 0).
Lemma short_good l : forallb short l = true -> Forall good l.
Proof.
  intros H. apply Forall_forall. intros m Hm. rewrite forallb_forall in H. apply H in Hm. unfold short in Hm. apply andb_true_iff in Hm as [A B].
  apply Nat.ltb_lt in A. split; [change (2 ^ 63) with 9223372036854775808; lia|]. apply orb_true_iff in B as [B|B]; [left|right; now apply Nat.eqb_eq].
  apply negb_true_iff, Nat.eqb_neq in B. exact B.
Qed.

(* a conversation *)
Definition talk : list move :=
  [App Client (CallSend (bs "early"))] ++ shake_hands
  ++ [App Server (CallSend (bs "hello")); App Server (CallSend (repeat 97 300)); App Client (CallSend (bs ""));
      Arrive Server 3; App Client (WriteOk 0); Arrive Server 100; Read Server; Read Server; App Client (WriteOk 0);
      App Server (WriteOk 0); App Server (WriteOk 0); Arrive Client 40; Read Client; App Server (WriteOk 0); Arrive Client 400; Read Client; Read Client; Read Client; App Server (WriteOk 0)].
Example C83_ex : exists x, play texts (begun from key) talk = Some x /\ goods talk /\ forallb calm talk = true
  /\ heard Server x = [bs "early"; bs ""] /\ heard Client x = [bs "hello"; repeat 97 300] /\ notes (fst x) = [NReady []] /\ notes (snd x) = [NReady key].
Proof.
  destruct (play texts (begun from key) talk) as [x|] eqn:E; [|vm_compute in E; discriminate]. exists x. split; [reflexivity|].
  split; [split; apply short_good; vm_compute; reflexivity|].
  split; [reflexivity|].
  assert (K : option_map (fun x => (heard Server x, heard Client x, notes (fst x), notes (snd x))) (play texts (begun from key) talk)
     = Some ([bs "early"; bs ""], [bs "hello"; repeat 97 300], [NReady []], [NReady key])) by (vm_compute; reflexivity).
  rewrite E in K. cbn [option_map] in K. injection K as K1 K2 K3 K4. auto.
Qed.

(* The handlers of the handshake are called after stop(): they are not called through call_handler. *)
Theorem C83_silent_after_stop_refuted : ~ (forall op origin token ms1 ms2 x y sd, data_opcodes op -> fits origin token ->
  play op (begun origin token) (ms1 ++ [App sd CallStop]) = Some x -> play op x ms2 = Some y -> notes (peer_of sd y) = notes (peer_of sd x)).
Proof.
  intros H. assert (D : data_opcodes texts) by (intros sd; now left).
  assert (F : fits from key).
  { unfold fits, from, key. cbn. repeat split; try lia; intuition discriminate. }
  destruct (play texts (begun from key) ([] ++ [App Server CallStop])) as [x|] eqn:E; [|vm_compute in E; discriminate].
  destruct (play texts x (firstn 4 shake_hands)) as [y|] eqn:E2; [|vm_compute in E; injection E as <-; vm_compute in E2; discriminate].
  pose proof (H texts from key [] (firstn 4 shake_hands) x y Server D F E E2) as K.
  assert (X : option_map (fun y => notes (snd y)) (play texts (begun from key) ([App Server CallStop] ++ firstn 4 shake_hands)) = Some [NReady key]) by (vm_compute; reflexivity).
  rewrite play_app in X. cbn [app] in E. rewrite E, E2 in X. cbn [option_map] in X. injection X as X.
  vm_compute in E. injection E as <-. cbn [peer_of snd notes] in K. rewrite X in K. discriminate K.
Qed.
Print Assumptions C83_silent_after_stop_refuted.

(* What was sent before close() was called is not given: the close frame goes before the messages that are queued. *)
Definition hasty : list move :=
  shake_hands ++ [App Client (CallSend (bs "first")); App Client (CallSend (bs "second")); App Client CallClose; App Client (WriteOk 0); App Client (WriteOk 0);
                  Arrive Server 300; Read Server; Read Server; App Server (WriteOk 0); Arrive Client 300; Read Client].
Theorem C83_sent_before_close_refuted : ~ (forall op origin token ms1 ms2 x, data_opcodes op -> fits origin token ->
  play op (begun origin token) (ms1 ++ App Client CallClose :: ms2) = Some x -> goods (ms1 ++ App Client CallClose :: ms2) -> forallb calm (ms1 ++ ms2) = true ->
  (forall sd, In (App sd CallStart) ms1) -> (forall m y, internal m = true -> go op x m = Some y -> y = x) -> prefix (sent Client ms1) (heard Server x)).
Proof.
  intros H. assert (D : data_opcodes texts) by (intros sd; now left).
  assert (F : fits from key).
  { unfold fits, from, key. cbn. repeat split; try lia; intuition discriminate. }
  destruct (play texts (begun from key) (firstn 10 hasty ++ App Client CallClose :: skipn 11 hasty)) as [x|] eqn:E; [|vm_compute in E; discriminate].
  assert (K : prefix (sent Client (firstn 10 hasty)) (heard Server x)).
  { apply (H texts from key (firstn 10 hasty) (skipn 11 hasty) x D F E).
    - split; apply short_good; vm_compute; reflexivity.
    - reflexivity.
    - intros [|]; vm_compute; tauto.
    - vm_compute in E. injection E as <-. intros m y HI G.
      destruct m as [[|] l|[|] n|[|]|[|]|[|] b|[|] rs|[|]]; try discriminate HI; try (destruct l; try discriminate HI; destruct i; discriminate G); try (destruct b; discriminate); try discriminate G.
      + cbv in G. destruct n; injection G as <-; reflexivity.
      + cbv in G. destruct n; injection G as <-; reflexivity. }
  assert (X : option_map (heard Server) (play texts (begun from key) (firstn 10 hasty ++ App Client CallClose :: skipn 11 hasty)) = Some [bs "first"]) by (vm_compute; reflexivity).
  rewrite E in X. cbn [option_map] in X. injection X as X. destruct K as [rest K]. rewrite X in K. vm_compute in K. discriminate K.
Qed.
Print Assumptions C83_sent_before_close_refuted.
