(* C12-C19, C61 for the endpoint: every list of labels is one interleaving of the application's calls, the reader's
   events and the completions of writes. *)
From Coq Require Import String.
From Verif Require Import Base WsModel EndpointModel EndpointSpec EndpointProofs.
Open Scope N_scope.

Ltac vmr := vm_compute; reflexivity.

Lemma exec_live op : forall ls s o, exec op init ls = Some (s, o) -> live ls -> started s = true /\ stopped s = false.
Proof.
  assert (G : forall ls s0 s o, exec op s0 ls = Some (s, o) -> stopped s0 = false -> ~ In CallStop ls ->
              stopped s = false /\ (started s0 = true \/ In CallStart ls -> started s = true)).
  { induction ls as [|l r IH]; intros s0 s o E Hs Hn.
    - injection E as <- <-. split; auto. intros [H|[]]. auto.
    - apply exec_cons in E as (s1 & o1 & o2 & E1 & E2 & ->). destruct (step_flags _ _ _ _ _ E1) as [F1 F2].
      assert (Hs1 : stopped s1 = false).
      { rewrite F2, Hs. destruct l; auto. exfalso. apply Hn. now left. }
      destruct (IH _ _ _ E2 Hs1) as [A B]; [intros H; apply Hn; now right|]. split; auto.
      intros [H|[->|H]]; apply B; auto; left; rewrite F1, ?H, ?Hs, ?orb_true_r; auto. }
  intros ls s o E [H1 H2]. destruct (G _ _ _ _ E eq_refl H2). auto.
Qed.

Lemma exec_idle op ls s o : exec op init ls = Some (s, o) -> idle ls o -> inflight s = [].
Proof.
  intros E H. pose proof (exec_writes _ _ _ _ _ _ I1_init E) as W. unfold idle in H. cbn in W.
  destruct (inflight s); auto. cbn in W. lia.
Qed.

(* C12 *)
Theorem C12_fifo : forall op ls s o, exec op init ls = Some (s, o) -> no_write_error ls ->
  exists rest, concat (map (chunks op) (accepted ls)) = data_writes o ++ rest.
Proof.
  intros op ls s o E Hn. destruct (exec_prefix op ls false [] [] init s o I1_init Hn) as (dn & w & A & B & C); auto.
  { exists [], []. cbn. auto. }
  cbn in A, B. rewrite A, B, map_app, concat_app.
  destruct C as [[_ ->]|[[_ ->]|(p & q & cs & _ & Eq & Ec)]]; rewrite ?app_nil_r; try (now eexists).
  rewrite Eq. cbn. rewrite Ec, <- !app_assoc. exists (cs ++ concat (map (chunks op) q)). now rewrite <- !app_assoc.
Qed.
Print Assumptions C12_fifo.

Example C12_ex : exists s o,
  exec op_text init [CallSend (bs "a"); CallSend (bs "b"); CallStart; CallSend (bs "c"); WriteOk 0; RxPing []; WriteOk 0] = Some (s, o)
  /\ data_writes o = [[129; 1; 97]; [129; 1; 98]; [129; 1; 99]].
Proof. do 2 eexists. split; vmr. Qed.

(* a message longer than a frame: its frames stay together *)
Example C12_ex_long : exists s o,
  exec op_text init [CallStart; CallSend (repeat 97 130); CallSend (bs "b"); WriteOk 0; WriteOk 0] = Some (s, o)
  /\ data_writes o = [1 :: 125 :: repeat 97 125; 128 :: 5 :: repeat 97 5; [129; 1; 98]].
Proof. do 2 eexists. split; vmr. Qed.

(* with a write error the front message is sent again: C12 needs its hypothesis *)
Example C12_error_resends : exists s o,
  exec op_text init [CallStart; CallSend (bs "a"); WriteErr 0 false; CallSend (bs "b")] = Some (s, o)
  /\ data_writes o = [[129; 1; 97]; [129; 1; 97]].
Proof. do 2 eexists. split; vmr. Qed.

(* C13 *)
Theorem C13_nothing_after_close : forall op ls s o, exec op init ls = Some (s, o) ->
  (forall a c b, o = a ++ OClose c :: b -> c = [136; 0] /\ filter is_write b = []) /\
  (count is_close_write o <= 1)%nat.
Proof.
  intros op ls s o E. pose proof (nothing_after_close _ _ _ _ _ _ I1_init E) as H.
  split.
  - intros a c b Ho. split.
    + eapply (close_chunk_only op ls _ _ _ E). rewrite Ho. apply in_or_app. right. now left.
    + specialize (H _ _ _ Ho). unfold count in H. now apply length_zero_iff_nil.
  - unfold count. clear E. induction o as [|x o IH]; [cbn; lia|]. cbn.
    destruct (is_close_write x) eqn:Ex.
    + destruct x; try discriminate. pose proof (H [] chunk o eq_refl) as H0. unfold count in H0.
      assert (G : forall os, length (filter is_write os) = 0%nat -> length (filter is_close_write os) = 0%nat).
      { induction os as [|y os IHo]; auto. cbn. destruct y; cbn; auto; discriminate. }
      cbn. rewrite G; auto.
    + apply IH. intros a c b ->. apply (H (x :: a) c b). reflexivity.
Qed.
Print Assumptions C13_nothing_after_close.

Example C13_ex : exists s o,
  exec op_text init [CallStart; CallSend (bs "a"); CallSend (bs "b"); CallClose; WriteOk 0; CallSend (bs "c"); WriteOk 0; CallClose] = Some (s, o)
  /\ o = [OData [129; 1; 97]; OClose [136; 0]].
Proof. do 2 eexists. split; vmr. Qed.

(* C14: at every moment the writes begun exceed the writes completed by at most one *)
Theorem C14_one_write_in_flight : forall op ls s o, exec op init ls = Some (s, o) ->
  (completions ls <= count is_write o <= S (completions ls))%nat.
Proof.
  intros op ls s o E. pose proof (exec_writes _ _ _ _ _ _ I1_init E) as W. pose proof (one_in_flight _ _ _ _ E). cbn in W. lia.
Qed.
Print Assumptions C14_one_write_in_flight.

Example C14_ex : exists s o,
  exec op_text init [CallStart; CallSend (bs "a"); CallSend (bs "b"); CallClose; RxClose] = Some (s, o)
  /\ count is_write o = 1%nat.
Proof. do 2 eexists. split; vmr. Qed.

(* C15: the handlers are silent, and if no write is outstanding when stop() is called no write ever begins *)
Theorem C15_stopped_is_silent_partial : forall op ls1 ls2 s1 o1 s2 o2,
  exec op init ls1 = Some (s1, o1) -> exec op s1 (CallStop :: ls2) = Some (s2, o2) ->
  filter is_handler o2 = [] /\ (idle ls1 o1 -> filter is_write o2 = []).
Proof.
  intros op ls1 ls2 s1 o1 s2 o2 E1 E2. apply exec_cons in E2 as (s3 & o3 & o4 & Es & E2 & ->).
  revert Es. unfold step. destruct (crashed s1); [discriminate|]. intros Es. injection Es as <- <-.
  destruct (exec_stopped op ls2 (set_stopped s1) s2 o4 eq_refl E2) as [A B]. cbn [app]. split.
  - now apply length_zero_iff_nil.
  - intros Hi. apply length_zero_iff_nil. apply B. cbn. eapply exec_idle; eauto.
Qed.
Print Assumptions C15_stopped_is_silent_partial.

Example C15_ex : exists s1 o1 s2 o2,
  exec op_text init [CallStart; CallSend (bs "a")] = Some (s1, o1) /\
  exec op_text s1 [CallStop; RxMessage (bs "x"); RxClose; WriteErr 0 true; CallSend (bs "z")] = Some (s2, o2) /\ o2 = [].
Proof. do 4 eexists. split; [vmr|]. split; vmr. Qed.

(* exactly: after stop() a write begins when the one before it ends well and something is left to write *)
Theorem C15_exact : forall op ls l s1 o1 s2 o2, exec op init ls = Some (s1, o1) -> In CallStop ls -> no_write_error ls -> step op s1 l = Some (s2, o2) ->
  (filter is_write o2 <> [] <-> (exists i, l = WriteOk i) /\ unwritten op ls o1).
Proof. intros op ls l s1 o1 s2 o2. apply writes_after_stop. Qed.
Print Assumptions C15_exact.

Example C15_exact_ex : exists s1 o1 s2 o2 s3 o3, let ls := [CallStart; CallSend (bs "a"); CallSend (bs "b"); CallStop] in
  exec op_text init ls = Some (s1, o1) /\ step op_text s1 (WriteOk 0) = Some (s2, o2) /\ o2 = [OData [129; 1; 98]] /\ unwritten op_text ls o1 /\
  step op_text s2 (WriteOk 0) = Some (s3, o3) /\ o3 = [] /\ ~ unwritten op_text (ls ++ [WriteOk 0]) (o1 ++ o2).
Proof.
  do 6 eexists. cbv zeta. split; [vmr|]. split; [vmr|]. split; [reflexivity|]. split.
  { split; [vmr|]. right. right. vm_compute. discriminate. }
  split; [vmr|]. split; [reflexivity|]. intros (_ & [H|[H|H]]).
  - repeat (destruct H as [H|H]; [discriminate|]). destruct H.
  - repeat (destruct H as [H|H]; [discriminate|]). destruct H.
  - apply H. vm_compute. reflexivity.
Qed.

(* "no new write begins after stop() returns" is false: a write that completes successfully lets the loop go on *)
Theorem C15_no_write_after_stop_refuted : ~ (forall ls1 ls2 s1 o1 s2 o2,
  exec op_text init ls1 = Some (s1, o1) -> exec op_text s1 (CallStop :: ls2) = Some (s2, o2) -> filter is_write o2 = []).
Proof.
  intros H.
  assert (E : exists s1 o1 s2 o2, exec op_text init [CallStart; CallSend (bs "a"); CallSend (bs "b")] = Some (s1, o1) /\
    exec op_text s1 [CallStop; WriteOk 0] = Some (s2, o2) /\ length (filter is_write o2) = 1%nat)
    by (do 4 eexists; split; [vmr|split; vmr]).
  destruct E as (s1 & o1 & s2 & o2 & E1 & E2 & E3). rewrite (H _ _ _ _ _ _ E1 E2) in E3. discriminate.
Qed.
Print Assumptions C15_no_write_after_stop_refuted.

(* C16: the handler may be called two and even three times *)
Theorem C16_close_once_refuted : ~ (forall ls s o, exec op_text init ls = Some (s, o) -> (count is_close_handler o <= 1)%nat).
Proof.
  intros H. assert (E : exists s o, exec op_text init [CallStart; CallClose; RxClose; WriteOk 0] = Some (s, o) /\ count is_close_handler o = 2%nat)
    by (do 2 eexists; split; vmr).
  destruct E as (s & o & E & E2). specialize (H _ _ _ E). lia.
Qed.
Print Assumptions C16_close_once_refuted.

Example C16_three : exists s o,
  exec op_text init [CallStart; CallSend (bs "a"); CallClose; RxClose; WriteErr 0 true; CallClose; WriteOk 0] = Some (s, o)
  /\ count is_close_handler o = 3%nat.
Proof. do 2 eexists. split; vmr. Qed.

(* proved: never more than three times; at most once when only the peer closes and no write fails; at most once when
   the peer does not close *)
Theorem C16_close_once_partial : forall op ls s o, exec op init ls = Some (s, o) ->
  (count is_close_handler o <= 3)%nat /\
  (~ In CallClose ls -> no_write_error ls -> (count is_close_handler o <= 1)%nat) /\
  (~ In RxClose ls -> (count is_close_handler o <= 1)%nat).
Proof.
  intros op ls s o E. split; [|split].
  - pose proof (exec_close_count _ _ _ _ _ _ I1_init E) as H. cbn in H. lia.
  - intros H1 H2. pose proof (exec_close_once_remote op ls false init s o I1_init) as H.
    assert (HR : remote_only init) by (intros H3; discriminate).
    assert (Hc : existsb is_call_close ls = false).
    { destruct (existsb is_call_close ls) eqn:Ex; auto. apply existsb_exists in Ex as (l & Hl & Hb).
      destruct l; try discriminate. contradiction. }
    specialize (H HR H2 Hc E). cbn in H. lia.
  - intros H1. pose proof (exec_close_once_local op ls false init s o I1_init eq_refl) as H.
    assert (Hc : existsb is_rx_close ls = false).
    { destruct (existsb is_rx_close ls) eqn:Ex; auto. apply existsb_exists in Ex as (l & Hl & Hb).
      destruct l; try discriminate. contradiction. }
    specialize (H Hc E). cbn in H. lia.
Qed.
Print Assumptions C16_close_once_partial.

Example C16_ex_remote : exists s o,
  exec op_text init [CallStart; CallSend (bs "a"); RxClose; WriteOk 0; WriteOk 0] = Some (s, o)
  /\ o = [OData [129; 1; 97]; OClose [136; 0]; OHandler HClose].
Proof. do 2 eexists. split; vmr. Qed.

(* exactly when the close is reported, by what has happened *)
Theorem C16_exact : forall op ls l s1 o1 s2 o2, exec op init ls = Some (s1, o1) -> step op s1 l = Some (s2, o2) ->
  count is_close_handler o2 = if reports_close ls o1 l then 1%nat else 0%nat.
Proof. intros op ls l s1 o1 s2 o2. apply close_reported. Qed.
Print Assumptions C16_exact.

Example C16_exact_ex : exists s1 o1 s2 o2,
  exec op_text init [CallStart; CallSend (bs "a"); CallClose; RxClose] = Some (s1, o1) /\ step op_text s1 (WriteErr 0 true) = Some (s2, o2) /\
  reports_close [CallStart; CallSend (bs "a")] [OData [129; 1; 97]] RxClose = false /\
  reports_close [CallStart; CallSend (bs "a"); CallClose] o1 RxClose = true /\
  reports_close [CallStart; CallSend (bs "a"); CallClose; RxClose] o1 (WriteErr 0 true) = true /\
  reports_close [CallStart; CallSend (bs "a"); CallClose; RxClose] o1 (WriteOk 0) = false /\
  count is_close_handler o1 = 1%nat /\ count is_close_handler o2 = 1%nat.
Proof. do 4 eexists. repeat split; vmr. Qed.

(* C17: no pong is ever written, in any execution *)
Theorem C17_no_pong_ever : forall op ls s o, op = op_text \/ op = op_binary ->
  exec op init ls = Some (s, o) -> filter is_pong_write o = [].
Proof.
  intros op ls s o Hop E. destruct (filter is_pong_write o) as [|x r] eqn:Ef; auto. exfalso.
  assert (Hx : In x o /\ is_pong_write x = true) by (apply filter_In; rewrite Ef; now left). destruct Hx as [Hi Hp].
  pose proof (exec_hdr op ls init s o (Forall_nil _) E) as Hd.
  destruct x as [c|c|h]; [| |discriminate].
  - assert (Hc : In c (data_writes o)).
    { unfold data_writes. apply in_flat_map. exists (OData c). split; [auto|now left]. }
    rewrite Forall_forall in Hd. apply Hd in Hc as (b & q & -> & Hb). cbn in Hp. apply N.eqb_eq in Hp.
    change 15 with (N.ones 4) in Hb. rewrite !N.land_ones in Hb. change (2 ^ 4) with 16 in Hb.
    destruct Hop; subst op; unfold op_text, op_binary in Hb; lia.
  - rewrite (close_chunk_only op ls _ _ _ E c Hi) in Hp. discriminate.
Qed.
Print Assumptions C17_no_pong_ever.

Theorem C17_ping_answered_refuted : ~ (forall ls1 p ls2 s o, live ls1 -> ~ In CallClose ls1 -> ~ In RxClose ls1 -> no_write_error (ls1 ++ RxPing p :: ls2) ->
  exec op_text init (ls1 ++ RxPing p :: ls2) = Some (s, o) -> idle (ls1 ++ RxPing p :: ls2) o ->
  exists c, In c o /\ is_pong_write c = true).
Proof.
  intros H. edestruct (H [CallStart] (bs "hi") [CallSend (bs "a"); WriteOk 0]) as (c & Hc & Hp); [| | | |vm_compute; reflexivity| |].
  - split; [now left|]. intros [H0|[]]. discriminate.
  - intros [H0|[]]. discriminate.
  - intros [H0|[]]. discriminate.
  - reflexivity.
  - reflexivity.
  - destruct Hc as [<-|[]]. discriminate.
Qed.
Print Assumptions C17_ping_answered_refuted.

(* C18: whenever the transport is idle everything accepted has been written, completely *)
Theorem C18_nothing_stranded : forall op ls s o, exec op init ls = Some (s, o) ->
  live ls -> no_write_error ls -> filter is_close_write o = [] -> idle ls o ->
  data_writes o = concat (map (chunks op) (accepted ls)).
Proof.
  intros op ls s o E Hl Hn Hc Hi. pose proof (exec_idle _ _ _ _ E Hi) as Hf.
  destruct (exec_live _ _ _ _ E Hl) as [H1 H2].
  destruct (exec_prefix op ls false [] [] init s o I1_init Hn) as (dn & w & A & B & C); auto.
  { exists [], []. cbn. auto. }
  assert (HD : drained (existsb is_close_write o) s).
  { apply (exec_drained op ls false init s o I1_init Hn); auto. intros H. discriminate. }
  destruct (HD H1 H2 Hf) as [Hx|Hq].
  - apply existsb_exists in Hx as (x & Hx1 & Hx2). assert (In x (filter is_close_write o)) by (now apply filter_In).
    rewrite Hc in *. contradiction.
  - cbn in A, B. rewrite A, B, Hq, app_nil_r.
    destruct C as [[_ ->]|[[_ ->]|(p & q & cs & H & _)]]; rewrite ?app_nil_r; auto. congruence.
Qed.
Print Assumptions C18_nothing_stranded.

Example C18_ex : exists s o, let ls := [CallSend (bs "a"); CallStart; CallSend (bs "b"); WriteOk 0; WriteOk 0; CallSend (bs "c"); WriteOk 0] in
  exec op_text init ls = Some (s, o) /\ live ls /\ no_write_error ls /\ filter is_close_write o = [] /\ idle ls o
  /\ length (data_writes o) = 3%nat.
Proof.
  do 2 eexists. split; [vmr|]. split; [|repeat split; reflexivity].
  split; [cbn; auto|]. cbn. intuition discriminate.
Qed.

(* C19: false when nothing was queued before start *)
Theorem C19_close_before_start_refuted : ~ (forall ls s o, exec op_text init ls = Some (s, o) -> In CallClose ls ->
  live ls -> no_write_error ls -> idle ls o -> exists c, In (OClose c) o).
Proof.
  intros H. edestruct (H [CallClose; CallStart]) as (c & Hc); [vmr|..].
  - now left.
  - split; [cbn; auto|]. cbn. intuition discriminate.
  - reflexivity.
  - reflexivity.
  - destruct Hc.
Qed.
Print Assumptions C19_close_before_start_refuted.

(* proved: the close frame is sent if any message was ever accepted, or some close request came after start *)
Theorem C19_close_sent_partial : forall op ls s o, exec op init ls = Some (s, o) -> In CallClose ls ->
  live ls -> no_write_error ls -> idle ls o ->
  accepted ls <> [] \/ (exists a b, ls = a ++ CallClose :: b /\ In CallStart a) ->
  exists c, In (OClose c) o.
Proof.
  intros op ls s o E Hc Hl Hn Hi Ht. pose proof (exec_idle _ _ _ _ E Hi) as Hf.
  destruct (exec_live _ _ _ _ E Hl) as [H1 H2].
  pose proof (exec_pending _ _ _ _ _ E (or_intror Hc)) as Hp.
  destruct (exec_19 op ls false false init s o I1_init Hn) as [_ HJ]; auto.
  { split; cbn; discriminate. }
  cbn [started stopped init orb] in HJ.
  assert (Htr : trig false false false ls = true).
  { destruct Ht as [Ht|(a & b & -> & Ha)]; [now apply trig_send|]. apply trig_close; auto.
    - apply existsb_exists. exists CallStart. auto.
    - destruct Hl as [_ Hl]. intros l Hla ->. apply Hl. apply in_or_app. auto. }
  specialize (HJ H1 H2 Htr Hp Hf). apply existsb_exists in HJ as (x & Hx & Hb). destruct x; try discriminate. eauto.
Qed.
Print Assumptions C19_close_sent_partial.

(* exactly *)
Theorem C19_exact : forall op ls s o, exec op init ls = Some (s, o) -> live ls -> no_write_error ls -> idle ls o ->
  ((exists c, In (OClose c) o) <-> close_due ls).
Proof.
  intros op ls s o E Hl Hn Hi. pose proof (exec_idle _ _ _ _ E Hi) as Hf. destruct (exec_live _ _ _ _ E Hl) as [H1 H2].
  assert (B : existsb is_close_write o = true <-> exists c, In (OClose c) o).
  { rewrite existsb_exists. split; [intros (x & Hx & Hb); destruct x; try discriminate; eauto|intros (c & Hc); now exists (OClose c)]. }
  rewrite <- B. split.
  - intros Hx. split.
    + apply (asked_pending _ _ _ _ E). destruct (exec_I1 _ _ _ _ _ _ I1_init E) as (HI & _). cbn [orb] in HI. now apply (i_cw _ _ HI) in Hx.
    + destruct (accepted ls) eqn:Ha; [right|left; discriminate].
      (* is there a close after start, or a peer's close before any? *)
      assert (D : (exists a b, ls = a ++ CallClose :: b /\ In CallStart a) \/ (forall a b, ls = a ++ CallClose :: b -> ~ In CallStart a)).
      { clear. induction ls as [|l r IH] using rev_ind; [right; intros [|? ?] b; discriminate|].
        destruct IH as [(a & b & -> & Ha)|IH]; [left; exists a, (b ++ [l]); rewrite <- app_assoc; auto|].
        destruct (is_call_close l) eqn:El.
        - destruct l; try discriminate. destruct (in_dec (fun x y : label => ltac:(repeat decide equality)) CallStart r) as [Hr|Hr].
          + left. exists r, []. auto.
          + right. intros a b Eab Ha. apply Hr. destruct (exists_last (l := CallClose :: b) ltac:(discriminate)) as (b' & x & Eb). rewrite Eb, app_assoc in Eab.
            apply app_inj_tail in Eab as [-> _]. apply in_or_app. auto.
        - right. intros a b Eab Ha. destruct b as [|x b] using rev_ind.
          + apply app_inj_tail in Eab as [_ ->]. discriminate.
          + clear IHb. rewrite app_comm_cons, app_assoc in Eab. apply app_inj_tail in Eab as [-> ->]. now apply (IH a b). }
      destruct D as [D|D]; [now left|right].
      assert (D2 : (exists a b, ls = a ++ RxClose :: b /\ ~ In CallClose a) \/ (forall a b, ls = a ++ RxClose :: b -> In CallClose a)).
      { clear. induction ls as [|l r IH]; [right; intros [|? ?] b; discriminate|].
        destruct (is_rx_close l) eqn:El; [destruct l; try discriminate; left; exists [], r; auto|].
        destruct (is_call_close l) eqn:Ec; [destruct l; try discriminate; right; intros [|x a] b Eab; [discriminate|]; injection Eab as <- _; now left|].
        destruct IH as [(a & b & -> & Ha)|IH].
        - left. exists (l :: a), b. split; [reflexivity|]. intros [->|H]; [discriminate|contradiction].
        - right. intros [|x a] b Eab; [injection Eab as -> _; discriminate|]. injection Eab as <- Eab. right. eapply IH; eauto. }
      destruct D2 as [D2|D2]; [exact D2|]. exfalso.
      pose proof (exec_asleep op ls [] init s o E eq_refl eq_refl eq_refl (fun H => False_ind _ (Bool.diff_false_true H)) (fun _ (H : In CallClose []) => H) Ha D D2) as W.
      apply existsb_exists in Hx as (x & Hx & Hb). assert (In x (filter is_write o)) by (apply filter_In; destruct x; try discriminate; auto). rewrite W in *. contradiction.
  - intros [Hask Ht]. pose proof (proj1 (asked_pending _ _ _ _ E) Hask) as Hp.
    destruct Ht as [Ht|[Ht|(a & b & Eab & Ha)]]; [| |exact (rx_close_due _ _ _ _ _ _ E Hn Eab Ha H1 H2 Hf)].
    all: destruct (exec_19 op ls false false init s o I1_init Hn) as [_ HJ]; auto; [split; cbn; discriminate|]; cbn [started stopped init orb] in HJ; apply HJ; auto.
    + now apply trig_send.
    + destruct Ht as (a & b & -> & Ha). apply trig_close; auto.
      * apply existsb_exists. exists CallStart. auto.
      * destruct Hl as [_ Hl]. intros l Hla ->. apply Hl. apply in_or_app. auto.
Qed.
Print Assumptions C19_exact.

(* in particular the peer's close is not answered if one was asked for before start *)
Example C19_exact_ex : exists s o s' o', let ls := [CallClose; CallStart; RxClose] in let ls' := [CallStart; RxClose; WriteOk 0] in
  exec op_text init ls = Some (s, o) /\ live ls /\ no_write_error ls /\ idle ls o /\ o = [OHandler HClose] /\ ~ close_due ls /\
  exec op_text init ls' = Some (s', o') /\ live ls' /\ no_write_error ls' /\ idle ls' o' /\ o' = [OClose [136; 0]; OHandler HClose] /\ close_due ls'.
Proof.
  do 4 eexists. cbv zeta. split; [vmr|]. split; [split; [cbn; auto|cbn; intuition discriminate]|]. split; [reflexivity|]. split; [reflexivity|].
  split; [reflexivity|]. split.
  { intros (_ & [H|[(a & b & H & Ha)|(a & b & H & Ha)]]).
    - now apply H.
    - destruct a as [|x [|y [|z [|w a]]]]; try discriminate. destruct Ha.
    - destruct a as [|x [|y [|z [|w a]]]]; try discriminate. injection H as <- <- _. apply Ha. now left. }
  split; [vmr|]. split; [split; [cbn; auto|cbn; intuition discriminate]|]. split; [reflexivity|]. split; [reflexivity|].
  split; [reflexivity|]. split; [right; cbn; auto|]. right. right. exists [CallStart], [WriteOk 0]. split; [reflexivity|]. intros [H|[]]. discriminate.
Qed.

Example C19_ex : exists s o, let ls := [CallClose; CallSend (bs "a"); CallStart; WriteOk 0] in
  exec op_text init ls = Some (s, o) /\ live ls /\ no_write_error ls /\ idle ls o /\ accepted ls <> [] /\ o = [OClose [136; 0]].
Proof.
  do 2 eexists. split; [vmr|]. split; [|repeat split; try reflexivity; discriminate].
  split; [cbn; auto|]. cbn. intuition discriminate.
Qed.

(* C61: the endpoint runs into undefined behaviour exactly when the write of the close frame fails *)
Theorem C61_close_write_failure_refuted : ~ (forall ls s o, exec op_text init ls = Some (s, o) -> crashed s = false).
Proof.
  intros H. assert (E : exists s o, exec op_text init [CallStart; CallClose; WriteErr 0 true] = Some (s, o) /\ crashed s = true)
    by (do 2 eexists; split; vmr).
  destruct E as (s & o & E & E2). specialize (H _ _ _ E). congruence.
Qed.
Print Assumptions C61_close_write_failure_refuted.

Theorem C61_only_close_write_failure_partial : forall op ls l s1 o1 s2 o2,
  exec op init ls = Some (s1, o1) -> step op s1 l = Some (s2, o2) ->
  (crashed s2 = true <-> (exists r, l = WriteErr 0 r) /\ ~ idle ls o1 /\ exists c, In (OClose c) o1).
Proof.
  intros op ls l s1 o1 s2 o2 E1 E2. destruct (exec_I1 _ _ _ _ _ _ I1_init E1) as [HI _].
  pose proof (exec_writes _ _ _ _ _ _ I1_init E1) as W. cbn in W.
  rewrite (step_crash _ _ _ _ _ _ HI E2). cbn [orb] in HI. split.
  - intros [Hf Hl]. split; [auto|]. split.
    + unfold idle. rewrite Hf in W. cbn in W. lia.
    + destruct (i_fl _ _ HI) as [H|[(cs & H & _)|[_ H]]]; try congruence.
      apply existsb_exists in H as (x & Hx & Hb). destruct x; try discriminate. eauto.
  - intros (Hl & Hi & (c & Hc)). split; [|auto].
    assert (Hcw : existsb is_close_write o1 = true) by (apply existsb_exists; exists (OClose c); auto).
    destruct (i_fl _ _ HI) as [H|[(cs & _ & H & _)|[H _]]]; auto; [|congruence].
    exfalso. apply Hi. unfold idle. rewrite H in W. cbn in W. lia.
Qed.
Print Assumptions C61_only_close_write_failure_partial.

Example C61_ex : exists s o, exec op_text init [CallStart; CallSend (bs "a"); WriteErr 0 false] = Some (s, o)
  /\ crashed s = false /\ o = [OData [129; 1; 97]; OHandler HError].
Proof. do 2 eexists. split; [vmr|]. split; vmr. Qed.
