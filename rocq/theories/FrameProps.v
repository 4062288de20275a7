(* C56: length-prefixed messages. *)
From Coq Require Import String.
From Verif Require Import Base FrameModel FrameSpec FrameProofs.
Open Scope N_scope.

(* the length in front of a message is read back, also when its top bit is set and the shift overflows an int *)
Theorem C56_length : forall n, n < 2 ^ 32 -> BigEndian (put_length n) n /\ get_length (put_length n) = n.
Proof.
  intros n H. split.
  - destruct (put_length_shape n) as (a & b & c & d & -> & Ha & Hb & Hc & Hd & E). rewrite (N.mod_small _ _ H) in E. rewrite <- E. constructor; assumption.
  - rewrite get_put. apply N.mod_small. exact H.
Qed.
(* and every four bytes are some length *)
Theorem C56_any_length : forall h n, BigEndian h n -> get_length h = n.
Proof. intros h n H. inversion H; subst. apply get_length_value; assumption. Qed.

(* however the bytes are cut up on the way and whenever the connection ends: what was delivered are the first messages, unchanged *)
Theorem C56_in_order : forall s, reaches s -> Forall small (written s) -> Prefix (delivered s) (written s).
Proof. intros s R F. destruct (inv_reaches s R F) as [_ (part & X & _ & E & _)]. exists X. exact E. Qed.

(* the bytes on the wire are the messages one after another *)
Theorem C56_wire : forall s w, reaches s -> Forall small (written s) -> Stream (written s) w -> Prefix (pushed s) w.
Proof.
  intros s w R F S. apply stream_iff in S; [|exact F]. subst w. destruct (inv_reaches s R F) as [_ (part & X & _ & E & HF & HU)].
  exists (rest (wbuf s)). rewrite HU, E, frames_app, HF, <- !app_assoc. reflexivity.
Qed.

(* while the connection is open, once nothing more happens by itself every message was delivered *)
Theorem C56_round_trip : forall s, reaches s -> Forall small (written s) -> quiet s -> closed s = false -> delivered s = written s.
Proof.
  intros s R F Q C. apply quiet_all; auto. { apply inv_reaches; assumption. }
  destruct (failed s) eqn:E; [|reflexivity]. exfalso. destruct R as [ls Ex].
  destruct (failed_closed ls init s Ex ltac:(discriminate) E) as (_ & _ & X). congruence.
Qed.

(* and that does not take forever *)
Theorem C56_terminates : forall s ls s', exec s ls = Some s' -> Forall internal ls -> (length ls <= measure s)%nat.
Proof.
  intros s ls. revert s. induction ls as [|l ls IH]; intros s s1 E F; cbn [exec length] in *; [lia|]. inversion F; subst.
  destruct (step s l) as [s2|] eqn:E1; [|discriminate]. apply IH in E; [|assumption]. pose proof (measure_step s l s2 ltac:(assumption) E1). lia.
Qed.

(* when the connection ends, the messages that had completely entered the network are delivered, and nothing else *)
Theorem C56_cut_off : forall s, reaches s -> Forall small (written s) -> failed s = true -> closed s = true /\ Complete (written s) (delivered s) (pushed s).
Proof.
  intros s R F E. pose proof (inv_reaches s R F) as I. destruct R as [ls Ex].
  destruct (failed_closed ls init s Ex ltac:(discriminate) E) as (A & B & C). split; [exact C|]. apply complete_at_end; assumption.
Qed.
Theorem C56_cut_off_notices : forall s, reaches s -> Forall small (written s) -> quiet s -> closed s = true -> failed s = true.
Proof.
  intros s R F Q C. destruct (failed s) eqn:E; [reflexivity|]. destruct (quiet_reader s (inv_reaches s R F) Q E) as [Hn Hlt].
  pose proof (Q ReadEof ltac:(discriminate) ltac:(discriminate)) as Q1. cbn [step] in Q1. rewrite Hn, C, E in Q1.
  replace (length (rbuf s) <? need (rphase s))%nat with true in Q1 by (symmetry; apply Nat.ltb_lt; exact Hlt). discriminate Q1.
Qed.

(* beyond 2^32 bytes the length is cut off and the receiver loses its place *)
Lemma long_header m : N.of_nat (length m) = 2 ^ 32 -> frame m = [0; 0; 0; 0] ++ m.
Proof. unfold frame. intros ->. reflexivity. Qed.
Theorem C56_long_message_refuted : exists s m, reaches s /\ written s = [m] /\ delivered s = [[]] /\ m <> [].
Proof.
  assert (exists m : list N, N.of_nat (length m) = 2 ^ 32) as [m Hm].
  { exists (repeat 0 (N.to_nat (2 ^ 32))). rewrite repeat_length. apply N2Nat.id. }
  exists (mk [m] (Some m) [0; 0; 0; 0] [] false ReadLength [] [[]] false), m. repeat split.
  - exists [Send m; Push 4; Pull 4; ReadDone; ReadDone]. cbn [exec step init wbuf written pushed net closed rphase rbuf delivered failed].
    rewrite (long_header m Hm). reflexivity.
  - intros ->. discriminate Hm.
Qed.
Print Assumptions C56_length.
Print Assumptions C56_any_length.
Print Assumptions C56_in_order.
Print Assumptions C56_wire.
Print Assumptions C56_round_trip.
Print Assumptions C56_terminates.
Print Assumptions C56_cut_off.
Print Assumptions C56_cut_off_notices.
Print Assumptions C56_long_message_refuted.

(* examples: two messages, one of them empty, in odd pieces *)
Example two_messages : option_map delivered (exec init
  [Send (bs "hi"); Push 3; Pull 2; Pull 1; Push 3; WriteDone; Send []; Push 1; Pull 1; ReadDone; Pull 2; ReadDone; Pull 1; Push 3; Pull 3; WriteDone; ReadDone; ReadDone])
  = Some [bs "hi"; []].
Proof. vm_compute. reflexivity. Qed.
Example cut_in_the_middle : option_map (fun s => (delivered s, failed s)) (exec init
  [Send (bs "a"); Push 5; WriteDone; Send (bs "bc"); Push 5; Close; Pull 4; ReadDone; Pull 1; ReadDone; Pull 4; ReadDone; Pull 1; ReadEof])
  = Some ([bs "a"], true).
Proof. vm_compute. reflexivity. Qed.
Example top_bit : get_length [255; 0; 0; 1] = 4278190081.
Proof. vm_compute. reflexivity. Qed.
