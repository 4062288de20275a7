(* Proofs about the endpoint. *)
From Verif Require Import Base WsModel EndpointModel EndpointSpec.
Open Scope N_scope.

Lemma some_inj {A} (x y : A) : Some x = Some y -> x = y.
Proof. congruence. Qed.

Section P.
Variable op : N.

Lemma chunks_some p : exists c cs, send_message default_max_frame op p = Some (c :: cs).
Proof.
  unfold send_message.
  assert (G : forall fuel h q, (length q < fuel)%nat ->
            exists c cs, send_message_impl default_max_frame fuel h q = Some (c :: cs)).
  { induction fuel as [|fuel IH]; intros h q Hl; [lia|]. cbn [send_message_impl].
    destruct (Nat.ltb (length q) default_max_frame) eqn:E; [eauto|].
    apply Nat.ltb_ge in E.
    pose proof (firstn_skipn default_max_frame q) as Hfs.
    pose proof (skipn_length default_max_frame q) as Hsl.
    destruct (skipn default_max_frame q) as [|x r] eqn:Es; [eauto|].
    destruct (IH 0 (x :: r)) as (c & cs & E2).
    - rewrite Hsl. unfold default_max_frame in *. lia.
    - rewrite E2. eauto. }
  apply G. lia.
Qed.

Lemma chunks_eq p : exists c cs, send_message default_max_frame op p = Some (c :: cs) /\ chunks op p = c :: cs.
Proof. destruct (chunks_some p) as (c & cs & E). exists c, cs. unfold chunks. now rewrite E. Qed.

Definition close_chunk : bytes := [136; 0].
Lemma close_send : send_message default_max_frame op_close [] = Some [close_chunk].
Proof. reflexivity. Qed.

(* the structural invariant; [cw]: a close frame has been handed to the transport *)
Record I1 (cw : bool) (s : state) : Prop := {
  i_fl : inflight s = []
      \/ (exists cs, inflight s = [WData cs] /\ cw = false /\ queue s <> [] /\ running s = true)
      \/ (inflight s = [WClose] /\ cw = true);
  i_cw : cw = true -> running s = true /\ pending s = CClose;
  i_run : running s = true -> (inflight s <> [] \/ cw = true) /\ started s = true;
  i_rd : reader_on s = true -> started s = true }.

Lemma I1_init : I1 false init.
Proof. split; cbn; auto; try discriminate. Qed.

(* loop_turn is only entered with no outstanding write, running, no close written *)
Lemma loop_turn_ok s s' o :
  inflight s = [] -> running s = true -> started s = true ->
  loop_turn op s = (s', o) ->
  I1 (existsb is_close_write o) s' /\ count is_write o = length (inflight s')
  /\ crashed s' = crashed s /\ count is_handler o = 0%nat.
Proof.
  unfold loop_turn. intros Hf Hr Hs.
  destruct (is_close (pending s)) eqn:Hc.
  - rewrite close_send. intros E. injection E as <- <-. cbn.
    split; [|rewrite Hf; auto]. assert (pending s = CClose) by (destruct (pending s); try discriminate; auto).
    split; cbn; auto.
    + right. right. rewrite Hf. auto.
  - destruct (queue s) as [|p q] eqn:Eq.
    + intros E. injection E as <- <-. cbn. rewrite Hf. split; [|auto]. split; cbn; auto; try discriminate.
    + destruct (chunks_some p) as (c & cs & E1). rewrite E1. intros E. injection E as <- <-. cbn. rewrite Hf.
      split; [|auto]. split; cbn; auto; try discriminate.
      * right. left. exists cs. rewrite Hf, Eq. repeat split; auto; discriminate.
      * intros _. rewrite Hf. split; [left; discriminate|auto].
Qed.

Definition upd (s' s : state) := crashed s' = crashed s.

Lemma start_send_queue_ok cw s s' o :
  I1 cw s -> start_send_queue op s = (s', o) ->
  I1 (cw || existsb is_close_write o) s' /\ (cw = true -> o = []) /\ (count is_write o + length (inflight s) = length (inflight s'))%nat
  /\ crashed s' = crashed s /\ count is_handler o = 0%nat.
Proof.
  unfold start_send_queue. intros HI.
  destruct (running s || stopped s || negb (started s)) eqn:Eg.
  - intros E. injection E as <- <-. cbn. rewrite orb_false_r. auto.
  - apply orb_false_iff in Eg as [Eg E3]. apply orb_false_iff in Eg as [E1 E2].
    apply negb_false_iff in E3. intros E.
    assert (Hf : inflight s = []).
    { destruct (i_fl _ _ HI) as [H|[(cs & _ & _ & _ & H)|[_ H]]]; auto; [congruence|].
      apply (i_cw _ _ HI) in H as [H _]. congruence. }
    assert (Hcw : cw = false).
    { destruct cw; auto. destruct (i_cw _ _ HI eq_refl). congruence. }
    apply loop_turn_ok in E as (A & B & C & D); auto.
    subst cw. cbn in *. rewrite Hf. cbn. split; [exact A|]. repeat split; auto; try discriminate; lia.
Qed.

Lemma I1_more cw s q : I1 cw s -> I1 cw (set_queue s (queue s ++ [q])).
Proof.
  intros [A B C D]. split; cbn; auto.
  destruct A as [A|[(cs & A1 & A2 & A3 & A4)|A]]; auto. right. left. exists cs. repeat split; auto.
  destruct (queue s); discriminate.
Qed.

Lemma I1_pend cw s c : (cw = true -> c = CClose) -> I1 cw s -> I1 cw (set_pending s c).
Proof. intros Hc [A B C D]. split; cbn; auto. intros H. split; [apply B; auto|auto]. Qed.

Lemma I1_congr cw s s' :
  I1 cw s -> queue s' = queue s -> pending s' = pending s -> running s' = running s -> started s' = started s ->
  inflight s' = inflight s -> (reader_on s' = true -> reader_on s = true) -> I1 cw s'.
Proof.
  intros [A B C D] E1 E2 E3 E4 E5 E6. split; rewrite ?E1, ?E2, ?E3, ?E4, ?E5; auto.
Qed.

Lemma call_handler_ok s h : existsb is_close_write (call_handler s h) = false /\ count is_write (call_handler s h) = 0%nat.
Proof. unfold call_handler. destruct (stopped s); auto. Qed.

(* one step, any label *)
Lemma step_ok cw s l s' o :
  I1 cw s -> step op s l = Some (s', o) ->
  I1 (cw || existsb is_close_write o) s' /\ (cw = true -> count is_write o = 0%nat)
  /\ (count is_write o <= 1)%nat
  /\ (crashed s' = true -> exists i r, l = WriteErr i r).
Proof.
  unfold step. intros HI. destruct (crashed s) eqn:Hcr; [discriminate|].
  destruct l as [p| | | |p| |p| | | |i|i rs].
  - (* send *) unfold send_message_call. intros E. apply some_inj in E.
    apply (start_send_queue_ok cw) in E as (A & B & C & D & _); [|now apply I1_more].
    split; [exact A|]; repeat split; auto.
    + intros H. now rewrite (B H).
    + cbn in C. destruct (i_fl _ _ A) as [H|[(cs & H & _)|[H _]]]; rewrite H in C; cbn in C; lia.
    + rewrite D. cbn. congruence.
  - unfold send_close_call. intros E. apply some_inj in E.
    apply (start_send_queue_ok cw) in E as (A & B & C & D & _); [|now apply I1_pend].
    split; [exact A|]; repeat split; auto.
    + intros H. now rewrite (B H).
    + cbn in C. destruct (i_fl _ _ A) as [H|[(cs & H & _)|[H _]]]; rewrite H in C; cbn in C; lia.
    + rewrite D. cbn. congruence.
  - unfold start_messaging. intros E. apply some_inj in E.
    destruct (negb (started s) && negb (stopped s)) eqn:Eg.
    + apply andb_true_iff in Eg as [Es _]. apply negb_true_iff in Es.
      assert (HI1 : I1 cw (set_started s)).
      { destruct HI as [A B C D]. split; cbn; auto. intros H. destruct (C H). congruence. }
      cbn in E. destruct (queue s) eqn:Eq.
      * injection E as <- <-. cbn. rewrite orb_false_r. split; [exact HI1|]; repeat split; auto; cbn; congruence.
      * apply (start_send_queue_ok cw) in E as (A & B & C & D & _); [|auto].
        split; [exact A|]; repeat split; auto.
        -- intros H. now rewrite (B H).
        -- cbn in C. destruct (i_fl _ _ A) as [H|[(cs & H & _)|[H _]]]; rewrite H in C; cbn in C; lia.
        -- rewrite D. cbn. congruence.
    + injection E as <- <-. cbn. rewrite orb_false_r. split; [exact HI|]; repeat split; auto. congruence.
  - intros E. injection E as <- <-. cbn. rewrite orb_false_r.
    split; [|repeat split; auto; cbn; congruence]. eapply I1_congr; eauto.
  - unfold reader_label; cbv zeta. destruct (negb (reader_on s)); [discriminate|]. intros E. injection E as <- <-.
    destruct (call_handler_ok s (HMessage p)) as [H1 H2]. rewrite H1, H2, orb_false_r. split; [exact HI|]; repeat split; auto. congruence.
  - unfold reader_label; cbv zeta. destruct (negb (reader_on s)); [discriminate|]. intros E. apply some_inj in E.
    set (s1 := set_close_received (set_reader_off s)) in *.
    assert (HI1 : I1 cw s1) by (eapply I1_congr; eauto; cbn; discriminate).
    destruct (is_close (pending s1)).
    + injection E as <- <-. destruct (call_handler_ok s1 HClose) as [H1 H2]. rewrite H1, H2, orb_false_r.
      split; [exact HI1|]; repeat split; auto. cbn. congruence.
    + unfold send_close_call in E.
      apply (start_send_queue_ok cw) in E as (A & B & C & D & _); [|now apply I1_pend].
      split; [exact A|]; repeat split; auto.
      * intros H. now rewrite (B H).
      * cbn in C. destruct (i_fl _ _ A) as [H|[(cs & H & _)|[H _]]]; rewrite H in C; cbn in C; lia.
      * rewrite D. cbn. congruence.
  - unfold reader_label; cbv zeta. destruct (negb (reader_on s)); [discriminate|]. intros E. injection E as <- <-.
    cbn. rewrite orb_false_r. split; [|repeat split; auto; cbn; congruence].
    apply I1_pend; auto. intros H. apply (i_cw _ _ HI) in H as [_ ->]. reflexivity.
  - unfold reader_label; cbv zeta. destruct (negb (reader_on s)); [discriminate|]. intros E. injection E as <- <-.
    cbn. rewrite orb_false_r. split; [exact HI|]; repeat split; auto. congruence.
  - unfold reader_label; cbv zeta. destruct (negb (reader_on s)); [discriminate|]. intros E. injection E as <- <-.
    destruct (call_handler_ok (set_reader_off s) HBadRequest) as [H1 H2]. rewrite H1, H2, orb_false_r.
    split; [|repeat split; auto; cbn; congruence]. eapply I1_congr; eauto. cbn. discriminate.
  - unfold reader_label; cbv zeta. destruct (negb (reader_on s)); [discriminate|]. intros E. injection E as <- <-.
    destruct (call_handler_ok (set_reader_off s) HError) as [H1 H2]. rewrite H1, H2, orb_false_r.
    split; [|repeat split; auto; cbn; congruence]. eapply I1_congr; eauto. cbn. discriminate.
  - unfold write_ok. destruct (i_fl _ _ HI) as [H|[(cs & H & Hcw & Hq & Hr)|[H Hcw]]]; rewrite H.
    + destruct i; discriminate.
    + destruct i as [|i]; [|destruct i; discriminate]. cbn [nth_error remove_nth firstn skipn app].
      destruct (i_run _ _ HI Hr) as [_ Hst]. subst cw.
      destruct cs as [|c cs]; intros E; apply some_inj in E.
      * destruct (queue s) as [|p q] eqn:Eq; [congruence|]. cbn in E. rewrite Eq in E.
        apply loop_turn_ok in E as (A & B & C & _); auto.
        cbn. split; [exact A|]; repeat split; auto.
        -- discriminate.
        -- rewrite B. destruct (i_fl _ _ A) as [H1|[(cs & H1 & _)|[H1 _]]]; rewrite H1; cbn; lia.
        -- rewrite C. cbn. congruence.
      * injection E as <- <-. cbn. split; [|repeat split; auto; cbn; congruence].
        split; cbn; auto; try discriminate.
        -- right. left. exists cs. auto.
        -- intros _. split; [left; discriminate|auto].
    + destruct i as [|i]; [|destruct i; discriminate]. cbn [nth_error remove_nth firstn skipn app].
      intros E. injection E as <- <-.
      assert (HI1 : I1 cw (set_inflight s [])).
      { destruct HI as [A B C D]. split; cbn; auto. intros Hx. split; [auto|apply C; auto]. }
      cbn. set (o := if close_received s then _ else _).
      assert (Ho : existsb is_close_write o = false /\ count is_write o = 0%nat).
      { unfold o. destruct (close_received s); [|auto]. apply call_handler_ok. }
      destruct Ho as [Ho1 Ho2]. rewrite Ho1, Ho2, orb_false_r. split; [exact HI1|]; repeat split; auto. cbn. congruence.
  - unfold write_err. destruct (i_fl _ _ HI) as [H|[(cs & H & Hcw & Hq & Hr)|[H Hcw]]]; rewrite H.
    + destruct i; discriminate.
    + destruct i as [|i]; [|destruct i; discriminate]. cbn [nth_error remove_nth firstn skipn app].
      intros E. injection E as <- <-. subst cw.
      match goal with |- context [call_handler ?a ?b] => destruct (call_handler_ok a b) as [H1 H2]; rewrite H1, H2 end.
      cbn. split; [|repeat split; eauto; try discriminate].
      split; cbn; auto; try discriminate. apply HI.
    + destruct i as [|i]; [|destruct i; discriminate]. cbn [nth_error remove_nth firstn skipn app].
      intros E. injection E as <- <-. cbn. rewrite orb_false_r.
      split; [|repeat split; eauto].
      destruct HI as [A B C D]. split; cbn; auto. intros Hx. split; [auto|apply C; auto].
Qed.

(* ---- executions ---- *)
Lemma count_app f a b : count f (a ++ b) = (count f a + count f b)%nat.
Proof. unfold count. now rewrite filter_app, app_length. Qed.

Lemma exec_app s ls1 ls2 s2 o : exec op s (ls1 ++ ls2) = Some (s2, o) ->
  exists s1 o1 o2, exec op s ls1 = Some (s1, o1) /\ exec op s1 ls2 = Some (s2, o2) /\ o = o1 ++ o2.
Proof.
  revert s o. induction ls1 as [|l r IH]; intros s o E.
  - cbn in E. exists s, [], o. auto.
  - cbn in E |- *. destruct (step op s l) as [[s1 o1]|]; [|discriminate].
    destruct (exec op s1 (r ++ ls2)) as [[s3 o3]|] eqn:E3; [|discriminate].
    injection E as <- <-. destruct (IH _ _ E3) as (sa & oa & ob & Ea & Eb & ->).
    rewrite Ea. exists sa, (o1 ++ oa), ob. rewrite app_assoc. auto.
Qed.

Lemma exec_cons s l r s2 o : exec op s (l :: r) = Some (s2, o) ->
  exists s1 o1 o2, step op s l = Some (s1, o1) /\ exec op s1 r = Some (s2, o2) /\ o = o1 ++ o2.
Proof.
  cbn. destruct (step op s l) as [[s1 o1]|]; [|discriminate].
  destruct (exec op s1 r) as [[s3 o3]|] eqn:E3; [|discriminate].
  intros E. injection E as <- <-. exists s1, o1, o3. auto.
Qed.

(* invariants over executions, with a ghost part computed from labels and outputs *)
Lemma exec_invariant {G} (upd : G -> label -> list out -> G) (Inv : G -> state -> Prop) (okl : label -> Prop) :
  (forall g s l s' o, Inv g s -> okl l -> step op s l = Some (s', o) -> Inv (upd g l o) s') ->
  forall ls s s' o g, Forall okl ls -> Inv g s -> exec op s ls = Some (s', o) ->
  exists g', Inv g' s'.
Proof.
  intros Hs. induction ls as [|l r IH]; intros s s' o g Hok HI E.
  - injection E as <- <-. eauto.
  - apply exec_cons in E as (s1 & o1 & o2 & E1 & E2 & ->). inversion Hok as [|? ? Hl Hr]. subst.
    eapply IH; [exact Hr| |exact E2]. eapply Hs; eauto.
Qed.

Lemma exec_I1 : forall ls cw s s' o, I1 cw s -> exec op s ls = Some (s', o) ->
  I1 (cw || existsb is_close_write o) s' /\ (cw = true -> count is_write o = 0%nat).
Proof.
  induction ls as [|l r IH]; intros cw s s' o HI E.
  - injection E as <- <-. cbn. rewrite orb_false_r. auto.
  - apply exec_cons in E as (s1 & o1 & o2 & E1 & E2 & ->).
    destruct (step_ok _ _ _ _ _ HI E1) as (A & B & _).
    destruct (IH _ _ _ _ A E2) as (C & D).
    rewrite existsb_app, orb_assoc. split; [exact C|]. intros H. rewrite count_app, (B H).
    rewrite D; [auto|]. now rewrite H.
Qed.

(* C13 *)
Lemma step_close_last cw s l s' o a c b :
  I1 cw s -> step op s l = Some (s', o) -> o = a ++ OClose c :: b -> count is_write b = 0%nat.
Proof.
  intros HI E ->. destruct (step_ok _ _ _ _ _ HI E) as (_ & _ & H & _).
  rewrite count_app in H. unfold count in H at 2. cbn in H. unfold count in *. lia.
Qed.

Lemma nothing_after_close : forall ls cw s s' o, I1 cw s -> exec op s ls = Some (s', o) ->
  forall a c b, o = a ++ OClose c :: b -> count is_write b = 0%nat.
Proof.
  induction ls as [|l r IH]; intros cw s s' o HI E a c b Ho.
  - injection E as <- <-. destruct a; discriminate.
  - apply exec_cons in E as (s1 & o1 & o2 & E1 & E2 & E3). rewrite Ho in E3. clear Ho o.
    destruct (step_ok _ _ _ _ _ HI E1) as (A & _).
    symmetry in E3. revert E3. intros E3.
    assert (Hc : (exists b1, o1 = a ++ OClose c :: b1 /\ b = b1 ++ o2) \/ (exists a2, o2 = a2 ++ OClose c :: b /\ a = o1 ++ a2)).
    { clear -E3. revert a E3. induction o1 as [|x o1 IHo]; intros a E3.
      - right. exists a. auto.
      - destruct a as [|y a]; cbn in E3; injection E3 as -> E3.
        + left. exists o1. auto.
        + destruct (IHo _ E3) as [(b1 & H1 & H2)|(a2 & H1 & H2)]; subst; [left; exists b1|right; exists a2]; auto. }
    destruct Hc as [(b1 & H1 & ->)|(a2 & H1 & ->)].
    + rewrite count_app, (step_close_last _ _ _ _ _ _ _ _ HI E1 H1).
      destruct (exec_I1 _ _ _ _ _ A E2) as [_ D]. rewrite D; [auto|].
      rewrite H1, existsb_app. cbn. now rewrite !orb_true_r.
    + eapply IH; eauto.
Qed.

Lemma close_chunk_only : forall ls s s' o, exec op s ls = Some (s', o) -> forall c, In (OClose c) o -> c = close_chunk.
Proof.
  assert (G : forall s l s' o, step op s l = Some (s', o) -> forall c, In (OClose c) o -> c = close_chunk).
  { assert (GL : forall s s' o, loop_turn op s = (s', o) -> forall c, In (OClose c) o -> c = close_chunk).
    { intros s s' o. unfold loop_turn. rewrite close_send.
      destruct (is_close (pending s)); [|destruct (queue s) as [|p q]; [|destruct (chunks_some p) as (c1 & cs & ->)]];
        intros E; injection E as <- <-; intros c [H|[]] || intros c []; congruence. }
    assert (GS : forall s s' o, start_send_queue op s = (s', o) -> forall c, In (OClose c) o -> c = close_chunk).
    { intros s s' o. unfold start_send_queue. destruct (_ || _); [|apply GL]. intros E. injection E as <- <-. intros c []. }
    assert (GH : forall s h c, In (OClose c) (call_handler s h) -> c = close_chunk).
    { intros s h c. unfold call_handler. destruct (stopped s); cbn; intuition congruence. }
    intros s l s' o. unfold step. destruct (crashed s); [discriminate|].
    destruct l; unfold reader_label, write_ok, write_err, start_messaging; cbv zeta;
      try (destruct (negb (reader_on s)); [discriminate|]);
      try (destruct (nth_error _ _) as [[[|c0 cs]|]|]; [| | |discriminate]);
      intros E; apply some_inj in E;
      try (exact (GS _ _ _ E)); try (exact (GL _ _ _ E));
      try (destruct (negb (started s) && negb (stopped s)); [destruct (queue _); [|exact (GS _ _ _ E)]|]);
      try (destruct (is_close _); [|exact (GS _ _ _ E)]);
      injection E as <- <-; intros c Hc;
      try (destruct (close_received _)); try (exact (GH _ _ _ Hc)); cbn in Hc; intuition congruence. }
  induction ls as [|l r IH]; intros s s' o E c Hc.
  - injection E as <- <-. destruct Hc.
  - apply exec_cons in E as (s1 & o1 & o2 & E1 & E2 & ->). apply in_app_or in Hc as [Hc|Hc]; [exact (G _ _ _ _ E1 _ Hc)|exact (IH _ _ _ E2 _ Hc)].
Qed.

(* C14: book-keeping of writes *)

Lemma step_writes cw s l s' o : I1 cw s -> step op s l = Some (s', o) ->
  (count is_write o + length (inflight s) = length (inflight s') + (if completion l then 1 else 0))%nat.
Proof.
  intros HI. unfold step. destruct (crashed s) eqn:Hcr; [discriminate|].
  assert (GH : forall s h, count is_write (call_handler s h) = 0%nat) by (intros; apply call_handler_ok).
  destruct l as [p| | | |p| |p| | | |i|i rs]; unfold reader_label, start_messaging, send_message_call, send_close_call; cbv zeta;
    try (destruct (negb (reader_on s)); [discriminate|]).
  - intros E. apply some_inj in E. apply (start_send_queue_ok cw) in E as (_ & _ & C & _); [|now apply I1_more]. cbn in *. lia.
  - intros E. apply some_inj in E. apply (start_send_queue_ok cw) in E as (_ & _ & C & _); [|now apply I1_pend]. cbn in *. lia.
  - intros E. apply some_inj in E. destruct (negb (started s) && negb (stopped s)) eqn:Eg.
    + apply andb_true_iff in Eg as [Es _]. apply negb_true_iff in Es.
      destruct (queue _); [injection E as <- <-; cbn; lia|].
      apply (start_send_queue_ok cw) in E as (_ & _ & C & _); [cbn in *; lia|].
      destruct HI as [A B C D]. split; cbn; auto. intros H. destruct (C H). congruence.
    + injection E as <- <-. cbn. lia.
  - intros E. injection E as <- <-. cbn. lia.
  - intros E. injection E as <- <-. rewrite GH. cbn. lia.
  - intros E. apply some_inj in E. destruct (is_close _).
    + injection E as <- <-. rewrite GH. cbn. lia.
    + apply (start_send_queue_ok cw) in E as (_ & _ & C & _); [cbn in *; lia|].
      apply I1_pend; auto. eapply I1_congr; eauto. cbn. discriminate.
  - intros E. injection E as <- <-. cbn. lia.
  - intros E. injection E as <- <-. cbn. lia.
  - intros E. injection E as <- <-. rewrite GH. cbn. lia.
  - intros E. injection E as <- <-. rewrite GH. cbn. lia.
  - unfold write_ok. destruct (i_fl _ _ HI) as [H|[(cs & H & Hcw & Hq & Hr)|[H Hcw]]]; rewrite H.
    + destruct i; discriminate.
    + destruct i as [|i]; [|destruct i; discriminate]. cbn [nth_error remove_nth firstn skipn app].
      destruct (i_run _ _ HI Hr) as [_ Hst].
      destruct cs as [|c cs]; intros E; apply some_inj in E.
      * destruct (queue s) as [|p q] eqn:Eq; [congruence|]. cbn in E. rewrite Eq in E.
        apply loop_turn_ok in E as (A & B & C & _); auto.
      * injection E as <- <-. cbn. lia.
    + destruct i as [|i]; [|destruct i; discriminate]. cbn [nth_error remove_nth firstn skipn app].
      intros E. injection E as <- <-. cbn. destruct (close_received s); [rewrite GH|]; cbn; lia.
  - unfold write_err. destruct (i_fl _ _ HI) as [H|[(cs & H & Hcw & Hq & Hr)|[H Hcw]]]; rewrite H.
    + destruct i; discriminate.
    + destruct i as [|i]; [|destruct i; discriminate]. cbn [nth_error remove_nth firstn skipn app].
      intros E. injection E as <- <-. rewrite GH. cbn. lia.
    + destruct i as [|i]; [|destruct i; discriminate]. cbn [nth_error remove_nth firstn skipn app].
      intros E. injection E as <- <-. cbn. lia.
Qed.

Lemma exec_writes : forall ls cw s s' o, I1 cw s -> exec op s ls = Some (s', o) ->
  (count is_write o + length (inflight s) = length (inflight s') + completions ls)%nat.
Proof.
  induction ls as [|l r IH]; intros cw s s' o HI E.
  - injection E as <- <-. cbn. lia.
  - apply exec_cons in E as (s1 & o1 & o2 & E1 & E2 & ->).
    pose proof (step_writes _ _ _ _ _ HI E1). destruct (step_ok _ _ _ _ _ HI E1) as (A & _).
    specialize (IH _ _ _ _ A E2). rewrite count_app. unfold completions in *. cbn [filter].
    destruct (completion l); cbn; lia.
Qed.

Lemma one_in_flight ls s o : exec op init ls = Some (s, o) -> (length (inflight s) <= 1)%nat.
Proof.
  intros E. destruct (exec_I1 _ _ _ _ _ I1_init E) as [A _].
  destruct (i_fl _ _ A) as [H|[(cs & H & _)|[H _]]]; rewrite H; cbn; lia.
Qed.

(* ---- C12 ---- *)
Definition prefix_inv (acc : list bytes) (dw : list bytes) (s : state) : Prop :=
  exists dn w, acc = dn ++ queue s /\ dw = concat (map (chunks op) dn) ++ w /\
  ((inflight s = [] /\ w = []) \/ (inflight s = [WClose] /\ w = [])
   \/ exists p q cs, inflight s = [WData cs] /\ queue s = p :: q /\ chunks op p = w ++ cs).

Lemma data_writes_app a b : data_writes (a ++ b) = data_writes a ++ data_writes b.
Proof. unfold data_writes. apply flat_map_app. Qed.
Lemma accepted_app a b : accepted (a ++ b) = accepted a ++ accepted b.
Proof. unfold accepted. apply flat_map_app. Qed.

Lemma loop_turn_prefix acc dw s s' o dn :
  acc = dn ++ queue s -> dw = concat (map (chunks op) dn) -> inflight s = [] ->
  loop_turn op s = (s', o) -> prefix_inv acc (dw ++ data_writes o) s'.
Proof.
  unfold loop_turn. rewrite close_send. intros Ha Hd Hf.
  destruct (is_close (pending s)).
  - intros E. injection E as <- <-. exists dn, []. cbn. rewrite Hf, !app_nil_r. repeat split; auto.
  - destruct (queue s) as [|p q] eqn:Eq.
    + intros E. injection E as <- <-. exists dn, []. cbn. rewrite !app_nil_r, Hf, Eq. repeat split; auto.
    + destruct (chunks_eq p) as (c & cs & E1 & E2). rewrite E1.
      intros E. injection E as <- <-. exists dn, [c]. cbn. rewrite Hf, Eq, Hd. repeat split; auto.
      right. right. exists p, q, cs. auto.
Qed.

Lemma start_prefix acc dw s s' o :
  (running s = false -> inflight s = []) ->
  prefix_inv acc dw s -> start_send_queue op s = (s', o) -> prefix_inv acc (dw ++ data_writes o) s'.
Proof.
  unfold start_send_queue. intros Hr HP.
  destruct (running s || stopped s || negb (started s)) eqn:Eg.
  - intros E. injection E as <- <-. cbn. now rewrite app_nil_r.
  - apply orb_false_iff in Eg as [Eg _]. apply orb_false_iff in Eg as [E1 _].
    specialize (Hr E1). destruct HP as (dn & w & A & B & C).
    destruct C as [[_ ->]|[[H _]|(p & q & cs & H & _)]]; try congruence.
    rewrite app_nil_r in B. intros E. exact (loop_turn_prefix acc dw (set_running s true) _ _ dn A B Hr E).
Qed.

Lemma prefix_push acc dw s p : prefix_inv acc dw s -> prefix_inv (acc ++ [p]) dw (set_queue s (queue s ++ [p])).
Proof.
  intros (dn & w & A & B & C). exists dn, w. cbn. rewrite A, app_assoc. repeat split; auto.
  destruct C as [C|[C|(p0 & q & cs & C1 & C2 & C3)]]; auto. right. right. exists p0, (q ++ [p]), cs. rewrite C2. auto.
Qed.

Lemma prefix_congr acc dw s s' : prefix_inv acc dw s -> queue s' = queue s -> inflight s' = inflight s -> prefix_inv acc dw s'.
Proof. unfold prefix_inv. now intros H -> ->. Qed.

Lemma data_handler s h : data_writes (call_handler s h) = [].
Proof. unfold call_handler. now destruct (stopped s). Qed.

Lemma I1_idle cw s : I1 cw s -> running s = false -> inflight s = [].
Proof.
  intros HI Hr. destruct (i_fl _ _ HI) as [H|[(cs & _ & _ & _ & H)|[_ H]]]; auto; [congruence|].
  apply (i_cw _ _ HI) in H as [H _]. congruence.
Qed.

Lemma step_prefix cw acc dw s l s' o :
  I1 cw s -> is_write_error l = false -> prefix_inv acc dw s -> step op s l = Some (s', o) ->
  prefix_inv (acc ++ accepted [l]) (dw ++ data_writes o) s'.
Proof.
  intros HI Hne HP. pose proof (I1_idle _ _ HI) as Hid.
  unfold step. destruct (crashed s); [discriminate|].
  destruct l as [p| | | |p| |p| | | |i|i rs]; try discriminate;
    unfold reader_label, start_messaging, send_message_call, send_close_call; cbv zeta;
    try (destruct (negb (reader_on s)); [discriminate|]); cbn [accepted flat_map app]; rewrite ?app_nil_r.
  - intros E. apply some_inj in E. eapply start_prefix; [| |exact E]; auto. now apply prefix_push.
  - intros E. apply some_inj in E. eapply start_prefix; [| |exact E]; auto.
  - intros E. apply some_inj in E. destruct (negb (started s) && negb (stopped s)).
    + destruct (queue _) eqn:Eq.
      * injection E as <- <-. cbn. rewrite app_nil_r. auto.
      * eapply start_prefix; [| |exact E]; auto.
    + injection E as <- <-. cbn. now rewrite app_nil_r.
  - intros E. injection E as <- <-. cbn. rewrite app_nil_r. eapply prefix_congr; eauto.
  - intros E. injection E as <- <-. rewrite data_handler, app_nil_r. auto.
  - intros E. apply some_inj in E. destruct (is_close _).
    + injection E as <- <-. rewrite data_handler, app_nil_r. auto.
    + eapply start_prefix; [| |exact E]; auto.
  - intros E. injection E as <- <-. cbn. rewrite app_nil_r. eapply prefix_congr; eauto.
  - intros E. injection E as <- <-. cbn. rewrite app_nil_r. eapply prefix_congr; eauto.
  - intros E. injection E as <- <-. rewrite data_handler, app_nil_r. auto.
  - intros E. injection E as <- <-. rewrite data_handler, app_nil_r. auto.
  - unfold write_ok. destruct HP as (dn & w & A & B & C).
    destruct C as [[H ->]|[[H ->]|(p & q & cs & H & Eq & Ech)]]; rewrite H.
    + destruct i; discriminate.
    + destruct i as [|i]; [|destruct i; discriminate]. cbn [nth_error remove_nth firstn skipn app].
      intros E. injection E as <- <-. cbn.
      assert (Hd : data_writes (if close_received s then call_handler (set_inflight s []) HClose else []) = []).
      { destruct (close_received s); [apply data_handler|auto]. }
      rewrite Hd, app_nil_r. exists dn, []. cbn. auto.
    + destruct i as [|i]; [|destruct i; discriminate]. cbn [nth_error remove_nth firstn skipn app].
      destruct cs as [|c cs]; intros E; apply some_inj in E.
      * cbn in E. rewrite Eq in E. eapply (loop_turn_prefix _ _ _ _ _ (dn ++ [p])); [| | |exact E]; cbn; auto.
        -- rewrite A, Eq, <- app_assoc. auto.
        -- rewrite B, map_app, concat_app. cbn. rewrite Ech, !app_nil_r. auto.
      * injection E as <- <-. exists dn, (w ++ [c]). cbn. rewrite A, B, Eq, <- !app_assoc. repeat split; auto.
        right. right. exists p, q, cs. rewrite Ech, <- app_assoc. auto.
Qed.

Lemma exec_prefix : forall ls cw acc dw s s' o,
  I1 cw s -> no_write_error ls -> prefix_inv acc dw s -> exec op s ls = Some (s', o) ->
  prefix_inv (acc ++ accepted ls) (dw ++ data_writes o) s'.
Proof.
  induction ls as [|l r IH]; intros cw acc dw s s' o HI Hne HP E.
  - injection E as <- <-. cbn. now rewrite !app_nil_r.
  - unfold no_write_error in Hne. cbn in Hne. apply andb_true_iff in Hne as [Hl Hr]. apply negb_true_iff in Hl.
    apply exec_cons in E as (s1 & o1 & o2 & E1 & E2 & ->).
    destruct (step_ok _ _ _ _ _ HI E1) as (A & _).
    pose proof (step_prefix _ _ _ _ _ _ _ HI Hl HP E1) as HP1.
    specialize (IH _ _ _ _ _ _ A Hr HP1 E2).
    change (l :: r) with ([l] ++ r). rewrite accepted_app, data_writes_app, !app_assoc. exact IH.
Qed.

(* ---- C18 ---- *)
Definition drained (cw : bool) (s : state) : Prop :=
  started s = true -> stopped s = false -> inflight s = [] -> cw = true \/ queue s = [].

Lemma loop_turn_drained s s' o : inflight s = [] -> loop_turn op s = (s', o) -> drained (existsb is_close_write o) s'.
Proof.
  unfold loop_turn. rewrite close_send. intros Hf. destruct (is_close (pending s)).
  - intros E. injection E as <- <-. cbn. intros _ _ H. cbn in H. rewrite Hf in H. discriminate.
  - destruct (queue s) as [|p q] eqn:Eq.
    + intros E. injection E as <- <-. intros _ _ _. auto.
    + destruct (chunks_eq p) as (c & cs & E1 & E2). rewrite E1.
      intros E. injection E as <- <-. intros _ _ H. cbn in H. rewrite Hf in H. discriminate.
Qed.

Lemma start_drained cw s s' o : I1 cw s -> start_send_queue op s = (s', o) -> drained (cw || existsb is_close_write o) s'.
Proof.
  unfold start_send_queue. intros HI.
  destruct (running s || stopped s || negb (started s)) eqn:Eg.
  - intros E. injection E as <- <-. cbn. intros Hs Hst Hf. rewrite Hs, Hst in Eg.
    destruct (running s) eqn:Er; [|discriminate]. destruct (i_run _ _ HI Er) as [[H|H] _]; [congruence|].
    rewrite H. auto.
  - apply orb_false_iff in Eg as [Eg _]. apply orb_false_iff in Eg as [E1 _].
    intros E. apply loop_turn_drained in E; [|cbn; eapply I1_idle; eauto].
    intros H1 H2 H3. destruct (E H1 H2 H3) as [-> | ->]; [left; apply orb_true_r|auto].
Qed.

Lemma existsb_handler s h : existsb is_close_write (call_handler s h) = false.
Proof. apply call_handler_ok. Qed.

Lemma step_drained cw s l s' o :
  I1 cw s -> is_write_error l = false -> drained cw s -> step op s l = Some (s', o) ->
  drained (cw || existsb is_close_write o) s'.
Proof.
  intros HI Hne HP.
  unfold step. destruct (crashed s); [discriminate|].
  destruct l as [p| | | |p| |p| | | |i|i rs]; try discriminate;
    unfold reader_label, start_messaging, send_message_call, send_close_call; cbv zeta;
    try (destruct (negb (reader_on s)); [discriminate|]).
  - intros E. apply some_inj in E. eapply start_drained; [|exact E]. now apply I1_more.
  - intros E. apply some_inj in E. eapply start_drained; [|exact E]. now apply I1_pend.
  - intros E. apply some_inj in E. destruct (negb (started s) && negb (stopped s)) eqn:Eg.
    + destruct (queue _) eqn:Eq.
      * injection E as <- <-. intros _ _ _. auto.
      * eapply start_drained; [|exact E]. apply andb_true_iff in Eg as [Es _]. apply negb_true_iff in Es.
        destruct HI as [A B C D]. split; cbn; auto. intros H. destruct (C H). congruence.
    + injection E as <- <-. cbn. rewrite orb_false_r. auto.
  - intros E. injection E as <- <-. intros _ H. discriminate.
  - intros E. injection E as <- <-. rewrite existsb_handler, orb_false_r. auto.
  - intros E. apply some_inj in E. destruct (is_close _).
    + injection E as <- <-. rewrite existsb_handler, orb_false_r. auto.
    + eapply start_drained; [|exact E]. apply I1_pend; auto. eapply I1_congr; eauto. cbn. discriminate.
  - intros E. injection E as <- <-. cbn. rewrite orb_false_r. auto.
  - intros E. injection E as <- <-. cbn. rewrite orb_false_r. auto.
  - intros E. injection E as <- <-. rewrite existsb_handler, orb_false_r. auto.
  - intros E. injection E as <- <-. rewrite existsb_handler, orb_false_r. auto.
  - unfold write_ok. destruct (i_fl _ _ HI) as [H|[(cs & H & Hcw & Hq & Hr)|[H Hcw]]]; rewrite H.
    + destruct i; discriminate.
    + destruct i as [|i]; [|destruct i; discriminate]. cbn [nth_error remove_nth firstn skipn app].
      destruct cs as [|c cs]; intros E; apply some_inj in E.
      * destruct (queue s) as [|p q] eqn:Eq; [congruence|]. cbn in E. rewrite Eq in E.
        apply loop_turn_drained in E; auto. subst cw. exact E.
      * injection E as <- <-. intros _ _ Hx. discriminate.
    + intros _. intros _ _ _. rewrite Hcw. auto.
Qed.

Lemma exec_drained : forall ls cw s s' o,
  I1 cw s -> no_write_error ls -> drained cw s -> exec op s ls = Some (s', o) -> drained (cw || existsb is_close_write o) s'.
Proof.
  induction ls as [|l r IH]; intros cw s s' o HI Hne HP E.
  - injection E as <- <-. cbn. now rewrite orb_false_r.
  - unfold no_write_error in Hne. cbn in Hne. apply andb_true_iff in Hne as [Hl Hr]. apply negb_true_iff in Hl.
    apply exec_cons in E as (s1 & o1 & o2 & E1 & E2 & ->).
    destruct (step_ok _ _ _ _ _ HI E1) as (A & _).
    rewrite existsb_app, orb_assoc. eapply IH; eauto. eapply step_drained; eauto.
Qed.

(* ---- what the send loop leaves alone ---- *)
Lemma loop_turn_frame s s' o : loop_turn op s = (s', o) ->
  queue s' = queue s /\ pending s' = pending s /\ started s' = started s /\ stopped s' = stopped s /\ close_received s' = close_received s
  /\ reader_on s' = reader_on s /\ crashed s' = crashed s /\ count is_handler o = 0%nat /\ count is_close_handler o = 0%nat.
Proof.
  unfold loop_turn. rewrite close_send. destruct (is_close (pending s)).
  - intros E. injection E as <- <-. cbn. auto 10.
  - destruct (queue s) as [|p q] eqn:Eq.
    + intros E. injection E as <- <-. cbn. rewrite Eq. auto 10.
    + destruct (chunks_some p) as (c & cs & ->). intros E. injection E as <- <-. cbn. rewrite Eq. auto 10.
Qed.

Lemma ssq_frame s s' o : start_send_queue op s = (s', o) ->
  queue s' = queue s /\ pending s' = pending s /\ started s' = started s /\ stopped s' = stopped s /\ close_received s' = close_received s
  /\ reader_on s' = reader_on s /\ crashed s' = crashed s /\ count is_handler o = 0%nat /\ count is_close_handler o = 0%nat.
Proof.
  unfold start_send_queue. destruct (_ || _).
  - intros E. injection E as <- <-. cbn. auto 10.
  - intros E. now apply loop_turn_frame in E.
Qed.

(* after a close is pending the loop only ever starts the close frame *)
Lemma loop_turn_closing s s' o : pending s = CClose -> inflight s = [] -> loop_turn op s = (s', o) ->
  inflight s' = [WClose] /\ o = [OClose close_chunk].
Proof.
  unfold loop_turn. rewrite close_send. intros -> Hf E. cbn in E. injection E as <- <-. cbn. rewrite Hf. auto.
Qed.

(* ---- C15 ---- *)
Lemma step_stopped s l s' o : stopped s = true -> step op s l = Some (s', o) ->
  stopped s' = true /\ count is_handler o = 0%nat /\ (inflight s = [] -> inflight s' = [] /\ count is_write o = 0%nat).
Proof.
  intros Hs.
  assert (GH : forall s h, stopped s = true -> call_handler s h = []) by (intros ? ? H; unfold call_handler; now rewrite H).
  assert (GS : forall s s' o, stopped s = true -> start_send_queue op s = (s', o) -> s' = s /\ o = []).
  { intros t t' ot Ht. unfold start_send_queue. rewrite Ht, orb_true_r. cbn. intros E. injection E as <- <-. auto. }
  unfold step. destruct (crashed s); [discriminate|].
  destruct l as [p| | | |p| |p| | | |i|i rs]; unfold reader_label, start_messaging, send_message_call, send_close_call; cbv zeta;
    try (destruct (negb (reader_on s)); [discriminate|]).
  - intros E. apply some_inj, GS in E as [-> ->]; cbn; auto.
  - intros E. apply some_inj, GS in E as [-> ->]; cbn; auto.
  - rewrite Hs, andb_false_r. intros E. injection E as <- <-. cbn. auto.
  - intros E. injection E as <- <-. cbn. auto.
  - intros E. injection E as <- <-. rewrite GH; cbn; auto.
  - intros E. apply some_inj in E. destruct (is_close _).
    + injection E as <- <-. rewrite GH; cbn; auto.
    + apply GS in E as [-> ->]; cbn; auto.
  - intros E. injection E as <- <-. cbn. auto.
  - intros E. injection E as <- <-. cbn. auto.
  - intros E. injection E as <- <-. rewrite GH; cbn; auto.
  - intros E. injection E as <- <-. rewrite GH; cbn; auto.
  - unfold write_ok. destruct (nth_error (inflight s) i) as [w|] eqn:En; [|discriminate].
    assert (Hni : inflight s <> []) by (intros H; rewrite H in En; destruct i; discriminate).
    intros E. apply some_inj in E. destruct w as [[|c cs]|].
    + apply loop_turn_frame in E as (_ & _ & _ & H1 & _ & _ & _ & H2 & _).
      split; [|split; [auto|congruence]]. rewrite H1. destruct (queue _); auto.
    + injection E as <- <-. cbn. repeat split; auto; congruence.
    + injection E as <- <-. cbn. split; auto. split; [|congruence]. destruct (close_received s); [rewrite GH|]; auto.
  - unfold write_err. destruct (nth_error (inflight s) i) as [w|] eqn:En; [|discriminate].
    assert (Hni : inflight s <> []) by (intros H; rewrite H in En; destruct i; discriminate).
    intros E. apply some_inj in E. destruct w as [cs|]; injection E as <- <-.
    + cbn. split; auto. split; [|congruence]. rewrite GH; auto.
    + cbn. repeat split; auto; congruence.
Qed.

Lemma exec_stopped : forall ls s s' o, stopped s = true -> exec op s ls = Some (s', o) ->
  count is_handler o = 0%nat /\ (inflight s = [] -> count is_write o = 0%nat).
Proof.
  induction ls as [|l r IH]; intros s s' o Hs E.
  - injection E as <- <-. auto.
  - apply exec_cons in E as (s1 & o1 & o2 & E1 & E2 & ->).
    destruct (step_stopped _ _ _ _ Hs E1) as (A & B & C). destruct (IH _ _ _ A E2) as (D & F).
    rewrite !count_app. split; [lia|]. intros H. destruct (C H) as [C1 C2]. rewrite C2, (F C1). auto.
Qed.

(* ---- C16 ---- *)
Definition is_data_flight (s : state) : bool := match inflight s with [WData _] => true | _ => false end.
Definition b2n (b : bool) : nat := if b then 1%nat else 0%nat.
(* ways in which the close handler can still be called *)
Definition pot_rx (s : state) : nat := b2n (reader_on s || negb (started s)).
Definition pot_ack (cw : bool) (s : state) : nat := b2n (negb (cw && match inflight s with [] => true | _ => false end)).
Definition pot_err (s : state) : nat := b2n (negb (is_close (pending s)) || is_data_flight s).

Lemma count_call_handler s h : (count is_close_handler (call_handler s h) <= match h with HClose => 1 | _ => 0 end)%nat.
Proof. unfold call_handler. destruct (stopped s); [cbn; destruct h; cbn; lia|]. destruct h; cbn; lia. Qed.

(* which of the three ways a step uses *)
Inductive close_way := ViaRx | ViaAck | ViaErr.
Lemma is_close_eq c : is_close c = true -> c = CClose.
Proof. destruct c; auto; discriminate. Qed.

Ltac b2n_lia := unfold pot_rx, pot_ack, pot_err, is_data_flight, b2n in *; cbn in *;
  repeat match goal with |- context [if ?b then _ else _] => destruct b eqn:?; cbn in * end; try lia; try congruence.

Definition cw_of (o : list out) := existsb is_close_write o.

Lemma flight_shape cw s : I1 cw s -> inflight s = [] \/ (exists cs, inflight s = [WData cs]) \/ inflight s = [WClose].
Proof. intros HI. destruct (i_fl _ _ HI) as [H|[(cs & H & _)|[H _]]]; eauto. Qed.

Lemma ssq_pots cw s s' o : I1 cw s -> start_send_queue op s = (s', o) ->
  (pot_rx s' <= pot_rx s /\ pot_ack (cw || cw_of o) s' <= pot_ack cw s /\ pot_err s' <= pot_err s)%nat.
Proof.
  intros HI E. pose proof (ssq_frame _ _ _ E) as (F1 & F2 & F3 & F4 & F5 & F6 & _).
  unfold pot_rx. rewrite F3, F6. split; [lia|].
  unfold start_send_queue in E. destruct (running s || stopped s || negb (started s)) eqn:Eg.
  - injection E as <- <-. cbn. rewrite orb_false_r. lia.
  - apply orb_false_iff in Eg as [Eg _]. apply orb_false_iff in Eg as [Er _].
    pose proof (I1_idle _ _ HI Er) as Hf.
    assert (Hcw : cw = false).
    { destruct cw; auto. destruct (i_cw _ _ HI eq_refl). congruence. }
    subst cw. unfold pot_ack, pot_err. rewrite F2. cbn [andb negb b2n orb].
    split; [destruct (_ && _); cbn; lia|].
    destruct (is_close (pending s)) eqn:Ec; [|cbn; destruct (is_data_flight s'); cbn; lia].
    apply loop_turn_closing in E as [H _]; [|now apply is_close_eq|exact Hf].
    unfold is_data_flight. rewrite H. cbn. lia.
Qed.

Definition way (w : close_way) (l : label) : Prop :=
  match w with
  | ViaRx => l = RxClose
  | ViaAck => exists i, l = WriteOk i
  | ViaErr => exists i r, l = WriteErr i r
  end.

Lemma step_pots cw s l s' o : I1 cw s -> step op s l = Some (s', o) ->
  let cw' := cw || cw_of o in
  (pot_rx s' <= pot_rx s /\ pot_ack cw' s' <= pot_ack cw s /\ pot_err s' <= pot_err s)%nat /\
  (count is_close_handler o = 0%nat \/
   (count is_close_handler o = 1%nat /\
     ((l = RxClose /\ pending s = CClose /\ reader_on s = true /\ (pot_rx s' < pot_rx s)%nat)
   \/ ((exists i, l = WriteOk i) /\ close_received s = true /\ (pot_ack cw' s' < pot_ack cw s)%nat)
   \/ ((exists i r, l = WriteErr i r) /\ (pot_err s' < pot_err s)%nat)))).
Proof.
  intros HI. cbv zeta. unfold step. destruct (crashed s); [discriminate|].
  assert (GH : forall s h, cw_of (call_handler s h) = false) by (intros; apply call_handler_ok).
  assert (GC : forall s h, h <> HClose -> count is_close_handler (call_handler s h) = 0%nat).
  { intros t h Hh. pose proof (count_call_handler t h). destruct h; try lia. congruence. }
  destruct l as [p| | | |p| |p| | | |i|i rs]; unfold reader_label, start_messaging, send_message_call, send_close_call; cbv zeta;
    try (destruct (negb (reader_on s)) eqn:Erd; [discriminate|apply negb_false_iff in Erd]).
  - intros E. apply some_inj in E. pose proof (ssq_frame _ _ _ E) as F. apply ssq_pots with (cw := cw) in E; [|now apply I1_more].
    split; [|left; apply F]. cbn in E. exact E.
  - intros E. apply some_inj in E. pose proof (ssq_frame _ _ _ E) as F. apply ssq_pots with (cw := cw) in E; [|now apply I1_pend].
    split; [|left; apply F]. destruct E as (E1 & E2 & E3). split; [exact E1|]. split; [exact E2|].
    eapply Nat.le_trans; [exact E3|]. b2n_lia.
  - intros E. apply some_inj in E. destruct (negb (started s) && negb (stopped s)) eqn:Eg.
    + apply andb_true_iff in Eg as [Es _]. apply negb_true_iff in Es.
      assert (HI1 : I1 cw (set_started s)).
      { destruct HI as [A B C D]. split; cbn; auto. intros H. destruct (C H). congruence. }
      assert (Hx : (pot_rx (set_started s) <= pot_rx s)%nat) by (unfold pot_rx; cbn; rewrite Es, orb_true_r; cbn; lia).
      destruct (queue _) eqn:Eq.
      * injection E as <- <-. cbn [cw_of existsb]. rewrite orb_false_r. split; [|left; reflexivity].
        split; [exact Hx|]. split; apply Nat.le_refl.
      * pose proof (ssq_frame _ _ _ E) as F. apply ssq_pots with (cw := cw) in E; auto.
        split; [|left; apply F]. destruct E as (E1 & E2 & E3). split; [lia|]. split; [exact E2|exact E3].
    + injection E as <- <-. cbn. rewrite orb_false_r. auto.
  - intros E. injection E as <- <-. cbn [cw_of existsb]. rewrite orb_false_r. split; [|left; reflexivity].
    repeat split; apply Nat.le_refl.
  - intros E. injection E as <- <-. rewrite GH, orb_false_r. split; [auto|]. left. apply GC. discriminate.
  - intros E. apply some_inj in E. set (s1 := set_close_received (set_reader_off s)) in *.
    assert (Hst : started s = true) by (apply (i_rd _ _ HI Erd)).
    assert (Hx : (pot_rx s1 < pot_rx s)%nat) by (unfold pot_rx; cbn; rewrite Hst, Erd; cbn; lia).
    destruct (is_close (pending s1)) eqn:Ec.
    + injection E as <- <-. rewrite GH, orb_false_r. split; [split; [lia|]; split; apply Nat.le_refl|].
      pose proof (count_call_handler s1 HClose) as Hc. cbn in Hc.
      destruct (count is_close_handler (call_handler s1 HClose)) as [|[|k]]; [auto| |lia].
      right. split; auto. left. split; auto. split; [now apply is_close_eq|]. split; [auto|exact Hx].
    + pose proof (ssq_frame _ _ _ E) as F. apply ssq_pots with (cw := cw) in E.
      * split; [|left; apply F]. destruct E as (E1 & E2 & E3). split; [cbn in E1; unfold pot_rx in *; cbn in *; lia|]. split; [exact E2|].
        eapply Nat.le_trans; [exact E3|]. unfold pot_err. cbn. change (pending s1) with (pending s) in Ec. rewrite Ec.
        unfold is_data_flight. cbn. destruct (inflight s) as [|[]  []]; cbn; lia.
      * apply I1_pend; auto. eapply I1_congr; eauto; cbn; discriminate.
  - intros E. injection E as <- <-. cbn [cw_of existsb]. rewrite orb_false_r. split; [|left; reflexivity].
    split; [apply Nat.le_refl|]. split; [apply Nat.le_refl|]. unfold pot_err, is_data_flight. cbn.
    unfold to_pong. destruct (is_close (pending s)) eqn:Ec; cbn; [rewrite Ec|]; cbn; lia.
  - intros E. injection E as <- <-. cbn [cw_of existsb]. rewrite orb_false_r. auto.
  - intros E. injection E as <- <-. rewrite GH, orb_false_r. split; [|left; apply GC; discriminate].
    split; [|split; apply Nat.le_refl]. unfold pot_rx. cbn. destruct (reader_on s), (started s); cbn; lia.
  - intros E. injection E as <- <-. rewrite GH, orb_false_r. split; [|left; apply GC; discriminate].
    split; [|split; apply Nat.le_refl]. unfold pot_rx. cbn. destruct (reader_on s), (started s); cbn; lia.
  - unfold write_ok. destruct (i_fl _ _ HI) as [H|[(cs & H & Hcw & Hq & Hr)|[H Hcw]]]; rewrite H.
    + destruct i; discriminate.
    + destruct i as [|i]; [|destruct i; discriminate]. cbn [nth_error remove_nth firstn skipn app].
      subst cw. assert (Hp1 : pot_ack false s = 1%nat) by reflexivity.
      assert (Hp2 : pot_err s = 1%nat) by (unfold pot_err, is_data_flight; rewrite H, orb_true_r; reflexivity).
      destruct cs as [|c cs]; intros E; apply some_inj in E.
      * destruct (queue s) as [|p q] eqn:Eq; [congruence|]. cbn in E. rewrite Eq in E.
        pose proof (loop_turn_frame _ _ _ E) as (F1 & F2 & F3 & F4 & F5 & F6 & F7 & F8 & F9). cbn in F3, F6.
        split; [|left; exact F9]. rewrite Hp1, Hp2. unfold pot_rx. rewrite F3, F6.
        split; [lia|]. split; [unfold pot_ack|unfold pot_err]; destruct (negb _); cbn; try lia.
        destruct (is_data_flight s'); cbn; lia.
      * injection E as <- <-. split; [|left; reflexivity]. rewrite Hp1, Hp2.
        split; [apply Nat.le_refl|]. split; [unfold pot_ack|unfold pot_err]; destruct (negb _); cbn; lia.
    + destruct i as [|i]; [|destruct i; discriminate]. cbn [nth_error remove_nth firstn skipn app].
      intros E. injection E as <- <-. subst cw. cbn [orb].
      destruct (i_cw _ _ HI eq_refl) as [_ Hp].
      assert (Hq1 : pot_ack true s = 1%nat) by (unfold pot_ack; rewrite H; reflexivity).
      assert (Hq2 : pot_ack true (set_inflight s []) = 0%nat) by reflexivity.
      rewrite Hq1, Hq2. split.
      { split; [apply Nat.le_refl|]. split; [lia|]. unfold pot_err, is_data_flight. cbn. rewrite Hp, H. cbn. lia. }
      cbn. destruct (close_received s) eqn:Ecr; [|auto].
      pose proof (count_call_handler (set_inflight s []) HClose) as Hc. cbn in Hc.
      destruct (count is_close_handler (call_handler (set_inflight s []) HClose)) as [|[|k]]; [auto| |lia].
      right. split; auto. right. left. split; [eauto|]. split; [auto|lia].
  - unfold write_err. destruct (i_fl _ _ HI) as [H|[(cs & H & Hcw & Hq & Hr)|[H Hcw]]]; rewrite H.
    + destruct i; discriminate.
    + destruct i as [|i]; [|destruct i; discriminate]. cbn [nth_error remove_nth firstn skipn app].
      intros E. injection E as <- <-. subst cw. rewrite GH. cbn [orb].
      assert (Hp2 : pot_err s = 1%nat) by (unfold pot_err, is_data_flight; rewrite H, orb_true_r; reflexivity).
      rewrite Hp2. cbn [pending set_running set_inflight].
      set (s2 := set_running (set_inflight s []) false).
      split. { split; [apply Nat.le_refl|]. split; [apply Nat.le_refl|]. unfold pot_err. destruct (_ || _); cbn; lia. }
      destruct (is_close (pending s)) eqn:Ec; [|left; cbn; apply GC; discriminate].
      destruct rs; [|left; cbn; apply GC; discriminate]. cbn [andb].
      pose proof (count_call_handler s2 HClose) as Hc. cbn in Hc.
      destruct (count is_close_handler (call_handler s2 HClose)) as [|[|k]]; [auto| |lia].
      right. split; auto. right. right. split; [eauto|]. unfold pot_err, is_data_flight. cbn. rewrite Ec. cbn. lia.
    + destruct i as [|i]; [|destruct i; discriminate]. cbn [nth_error remove_nth firstn skipn app].
      intros E. injection E as <- <-. subst cw. cbn [orb].
      destruct (i_cw _ _ HI eq_refl) as [_ Hp].
      split; [|left; reflexivity]. split; [apply Nat.le_refl|]. unfold pot_ack, pot_err, is_data_flight. cbn. rewrite Hp, H. cbn. lia.
Qed.

Lemma exec_close_count : forall ls cw s s' o, I1 cw s -> exec op s ls = Some (s', o) ->
  (count is_close_handler o + pot_rx s' + pot_ack (cw || cw_of o) s' + pot_err s' <= pot_rx s + pot_ack cw s + pot_err s)%nat.
Proof.
  induction ls as [|l r IH]; intros cw s s' o HI E.
  - injection E as <- <-. cbn [cw_of existsb count filter length]. rewrite orb_false_r. cbn. lia.
  - apply exec_cons in E as (s1 & o1 & o2 & E1 & E2 & ->).
    destruct (step_ok _ _ _ _ _ HI E1) as (A & _). specialize (IH _ _ _ _ A E2).
    destruct (step_pots _ _ _ _ _ HI E1) as ((P1 & P2 & P3) & P). unfold cw_of in *.
    rewrite existsb_app, orb_assoc, count_app.
    destruct P as [P|(P & [(_ & _ & _ & Q)|[(_ & _ & Q)|(_ & Q)]])]; lia.
Qed.

(* no write error and the application never calls send_close: only the acknowledgement path *)
Definition remote_only (s : state) : Prop := pending s = CClose -> reader_on s = false /\ started s = true.

Lemma step_remote_only cw s l s' o : I1 cw s -> is_call_close l = false -> remote_only s -> step op s l = Some (s', o) -> remote_only s'.
Proof.
  intros HI Hc HR. unfold step. destruct (crashed s); [discriminate|].
  destruct l as [p| | | |p| |p| | | |i|i rs]; try discriminate; unfold reader_label, start_messaging, send_message_call, send_close_call; cbv zeta;
    try (destruct (negb (reader_on s)) eqn:Erd; [discriminate|apply negb_false_iff in Erd]).
  - intros E. apply some_inj, ssq_frame in E as (_ & F2 & F3 & _ & _ & F6 & _). unfold remote_only. rewrite F2, F3, F6. exact HR.
  - intros E. apply some_inj in E. destruct (negb (started s) && negb (stopped s)) eqn:Eg.
    + apply andb_true_iff in Eg as [Es _]. apply negb_true_iff in Es.
      assert (Hp : pending s <> CClose) by (intros Hp; destruct (HR Hp); congruence).
      destruct (queue _) eqn:Eq.
      * injection E as <- <-. intros H. cbn in H. congruence.
      * apply ssq_frame in E as (_ & F2 & _). intros H. rewrite F2 in H. cbn in H. congruence.
    + injection E as <- <-. auto.
  - intros E. injection E as <- <-. exact HR.
  - intros E. injection E as <- <-. exact HR.
  - intros E. apply some_inj in E. pose proof (i_rd _ _ HI Erd) as Hst. destruct (is_close _).
    + injection E as <- <-. intros _. cbn. auto.
    + apply ssq_frame in E as (_ & F2 & F3 & _ & _ & F6 & _). intros _. rewrite F3, F6. cbn. auto.
  - intros E. injection E as <- <-. unfold remote_only. cbn. intros H. apply HR. unfold to_pong in H.
    destruct (is_close (pending s)) eqn:Ec; [auto|discriminate].
  - intros E. injection E as <- <-. exact HR.
  - intros E. injection E as <- <-. intros H. cbn in *. destruct (HR H). auto.
  - intros E. injection E as <- <-. intros H. cbn in *. destruct (HR H). auto.
  - unfold write_ok. destruct (nth_error _ _) as [w|]; [|discriminate]. intros E. apply some_inj in E. destruct w as [[|c cs]|].
    + apply loop_turn_frame in E as (_ & F2 & F3 & _ & _ & F6 & _). unfold remote_only. rewrite F2, F3, F6.
      destruct (queue _); exact HR.
    + injection E as <- <-. exact HR.
    + injection E as <- <-. exact HR.
  - unfold write_err. destruct (nth_error _ _) as [w|]; [|discriminate]. intros E. apply some_inj in E.
    destruct w; injection E as <- <-; exact HR.
Qed.

Lemma exec_close_once_remote : forall ls cw s s' o, I1 cw s -> remote_only s ->
  no_write_error ls -> existsb is_call_close ls = false -> exec op s ls = Some (s', o) ->
  (count is_close_handler o + pot_ack (cw || cw_of o) s' <= pot_ack cw s)%nat.
Proof.
  induction ls as [|l r IH]; intros cw s s' o HI HR Hne Hnc E.
  - injection E as <- <-. cbn [cw_of existsb count filter length]. rewrite orb_false_r. cbn. lia.
  - unfold no_write_error in Hne. cbn in Hne, Hnc. apply andb_true_iff in Hne as [Hl Hr]. apply negb_true_iff in Hl.
    apply orb_false_iff in Hnc as [Hc1 Hc2].
    apply exec_cons in E as (s1 & o1 & o2 & E1 & E2 & ->).
    destruct (step_ok _ _ _ _ _ HI E1) as (A & _).
    pose proof (step_remote_only _ _ _ _ _ HI Hc1 HR E1) as HR1.
    specialize (IH _ _ _ _ A HR1 Hr Hc2 E2).
    destruct (step_pots _ _ _ _ _ HI E1) as ((P1 & P2 & P3) & P). unfold cw_of in *.
    rewrite existsb_app, orb_assoc, count_app.
    destruct P as [P|(P & [(_ & Q1 & Q2 & _)|[(_ & _ & Q)|((i & rr & ->) & Q)]])]; try lia.
    + destruct (HR Q1). congruence.
    + discriminate.
Qed.

(* the peer never closes: only the error path *)
Lemma step_close_received s l s' o : close_received s = false -> step op s l = Some (s', o) -> l = RxClose \/ close_received s' = false.
Proof.
  intros HR. unfold step. destruct (crashed s); [discriminate|].
  destruct l as [p| | | |p| |p| | | |i|i rs]; auto; unfold reader_label, start_messaging, send_message_call, send_close_call; cbv zeta;
    try (destruct (negb (reader_on s)) eqn:Erd; [discriminate|]); intros E; right.
  - apply some_inj, ssq_frame in E as (_ & _ & _ & _ & F & _). now rewrite F.
  - apply some_inj, ssq_frame in E as (_ & _ & _ & _ & F & _). now rewrite F.
  - apply some_inj in E. destruct (_ && _); [|injection E as <- <-; auto]. destruct (queue _); [injection E as <- <-; auto|].
    apply ssq_frame in E as (_ & _ & _ & _ & F & _). now rewrite F.
  - injection E as <- <-. auto.
  - injection E as <- <-. auto.
  - injection E as <- <-. auto.
  - injection E as <- <-. auto.
  - injection E as <- <-. auto.
  - injection E as <- <-. auto.
  - unfold write_ok in E. destruct (nth_error _ _) as [w|]; [|discriminate]. apply some_inj in E. destruct w as [[|c cs]|].
    + apply loop_turn_frame in E as (_ & _ & _ & _ & F & _). rewrite F. destruct (queue _); auto.
    + injection E as <- <-. auto.
    + injection E as <- <-. auto.
  - unfold write_err in E. destruct (nth_error _ _) as [w|]; [|discriminate]. apply some_inj in E.
    destruct w; injection E as <- <-; auto.
Qed.


Lemma exec_close_once_local : forall ls cw s s' o, I1 cw s -> close_received s = false ->
  existsb is_rx_close ls = false -> exec op s ls = Some (s', o) ->
  (count is_close_handler o + pot_err s' <= pot_err s)%nat.
Proof.
  induction ls as [|l r IH]; intros cw s s' o HI HR Hnc E.
  - injection E as <- <-. cbn. lia.
  - cbn in Hnc. apply orb_false_iff in Hnc as [Hc1 Hc2].
    apply exec_cons in E as (s1 & o1 & o2 & E1 & E2 & ->).
    destruct (step_ok _ _ _ _ _ HI E1) as (A & _).
    destruct (step_close_received _ _ _ _ HR E1) as [->|HR1]; [discriminate|].
    specialize (IH _ _ _ _ A HR1 Hc2 E2).
    destruct (step_pots _ _ _ _ _ HI E1) as ((P1 & P2 & P3) & P). rewrite count_app.
    destruct P as [P|(P & [(-> & _)|[(_ & Q & _)|(_ & Q)]])]; try lia; [discriminate|congruence].
Qed.

(* ---- C17: the header byte of everything written ---- *)
Definition hdr_ok (c : bytes) : Prop := exists b r, c = b :: r /\ (N.land b 15 = N.land op 15 \/ N.land b 15 = 0).

Lemma land_fin h : N.land (apply_fin_bit h) 15 = N.land h 15.
Proof. unfold apply_fin_bit. rewrite N.land_lor_distr_l. change (N.land 128 15) with 0. apply N.lor_0_r. Qed.

Lemma impl_hdr : forall fuel h q ws, N.land h 15 = N.land op 15 \/ N.land h 15 = 0 ->
  send_message_impl default_max_frame fuel h q = Some ws -> Forall hdr_ok ws.
Proof.
  induction fuel as [|fuel IH]; intros h q ws Hh E; [discriminate|]. cbn [send_message_impl] in E.
  destruct (Nat.ltb (length q) default_max_frame).
  - injection E as <-. constructor; [|constructor]. eexists _, _. split; [reflexivity|]. now rewrite land_fin.
  - destruct (skipn default_max_frame q) as [|x r].
    + injection E as <-. constructor; [|constructor]. eexists _, _. split; [reflexivity|]. auto.
    + destruct (send_message_impl default_max_frame fuel 0 (x :: r)) as [fs|] eqn:E2; [|discriminate].
      injection E as <-. constructor; [eexists _, _; split; [reflexivity|auto]|]. eapply IH; [|exact E2]. auto.
Qed.

Definition flight_hdr (s : state) : Prop := Forall (fun w => match w with WData cs => Forall hdr_ok cs | WClose => True end) (inflight s).

Lemma loop_turn_hdr s s' o : flight_hdr s -> loop_turn op s = (s', o) ->
  flight_hdr s' /\ Forall hdr_ok (data_writes o).
Proof.
  unfold loop_turn. rewrite close_send. intros Hf. destruct (is_close (pending s)).
  - intros E. injection E as <- <-. split; [|constructor]. apply Forall_app. split; [exact Hf|]. repeat constructor.
  - destruct (queue s) as [|p q].
    + intros E. injection E as <- <-. split; [exact Hf|constructor].
    + destruct (chunks_some p) as (c & cs & E1). pose proof E1 as E2. unfold send_message in E2. apply impl_hdr in E2; [|auto].
      rewrite E1. intros E. injection E as <- <-. inversion E2 as [|? ? H1 H2]. subst.
      split; [|cbn; auto]. apply Forall_app. split; [exact Hf|]. auto.
Qed.

Lemma ssq_hdr s s' o : flight_hdr s -> start_send_queue op s = (s', o) -> flight_hdr s' /\ Forall hdr_ok (data_writes o).
Proof.
  unfold start_send_queue. intros Hf. destruct (_ || _).
  - intros E. injection E as <- <-. split; [auto|constructor].
  - apply loop_turn_hdr. exact Hf.
Qed.

Lemma remove_hdr s i : flight_hdr s -> flight_hdr (set_inflight s (remove_nth i (inflight s))).
Proof.
  unfold flight_hdr. cbn. unfold remove_nth. intros H. rewrite Forall_forall in H |- *. intros w Hw. apply H.
  apply in_app_or in Hw as [Hw|Hw].
  - rewrite <- (firstn_skipn i). apply in_or_app. auto.
  - rewrite <- (firstn_skipn (S i)). apply in_or_app. auto.
Qed.

Lemma step_hdr s l s' o : flight_hdr s -> step op s l = Some (s', o) -> flight_hdr s' /\ Forall hdr_ok (data_writes o).
Proof.
  intros Hf. unfold step. destruct (crashed s); [discriminate|].
  destruct l as [p| | | |p| |p| | | |i|i rs]; unfold reader_label, start_messaging, send_message_call, send_close_call; cbv zeta;
    try (destruct (negb (reader_on s)) eqn:Erd; [discriminate|]).
  - intros E. apply some_inj, ssq_hdr in E; auto.
  - intros E. apply some_inj, ssq_hdr in E; auto.
  - intros E. apply some_inj in E. destruct (_ && _); [|injection E as <- <-; split; [auto|constructor]].
    destruct (queue _); [injection E as <- <-; split; [auto|constructor]|]. apply ssq_hdr in E; auto.
  - intros E. injection E as <- <-. split; [auto|constructor].
  - intros E. injection E as <- <-. rewrite data_handler. split; [auto|constructor].
  - intros E. apply some_inj in E. destruct (is_close _).
    + injection E as <- <-. rewrite data_handler. split; [auto|constructor].
    + apply ssq_hdr in E; auto.
  - intros E. injection E as <- <-. split; [auto|constructor].
  - intros E. injection E as <- <-. split; [auto|constructor].
  - intros E. injection E as <- <-. rewrite data_handler. split; [auto|constructor].
  - intros E. injection E as <- <-. rewrite data_handler. split; [auto|constructor].
  - unfold write_ok. destruct (nth_error (inflight s) i) as [w|] eqn:En; [|discriminate].
    pose proof (remove_hdr _ i Hf) as Hf1. intros E. apply some_inj in E.
    apply nth_error_In in En. unfold flight_hdr in Hf. rewrite Forall_forall in Hf. apply Hf in En.
    destruct w as [[|c cs]|].
    + apply loop_turn_hdr in E; auto. destruct (queue _); exact Hf1.
    + injection E as <- <-. inversion En as [|? ? H1 H2]. subst. split; [|cbn; auto].
      apply Forall_app. split; [exact Hf1|]. auto.
    + injection E as <- <-. split; [exact Hf1|]. cbn. destruct (close_received s); [rewrite data_handler|]; constructor.
  - unfold write_err. destruct (nth_error (inflight s) i) as [w|] eqn:En; [|discriminate].
    pose proof (remove_hdr _ i Hf) as Hf1. intros E. apply some_inj in E. destruct w; injection E as <- <-.
    + rewrite data_handler. split; [exact Hf1|constructor].
    + split; [exact Hf1|constructor].
Qed.

Lemma exec_hdr : forall ls s s' o, flight_hdr s -> exec op s ls = Some (s', o) -> Forall hdr_ok (data_writes o).
Proof.
  induction ls as [|l r IH]; intros s s' o Hf E.
  - injection E as <- <-. constructor.
  - apply exec_cons in E as (s1 & o1 & o2 & E1 & E2 & ->). destruct (step_hdr _ _ _ _ Hf E1) as [A B].
    rewrite data_writes_app. apply Forall_app. split; [auto|]. eapply IH; eauto.
Qed.

(* ---- C19 ---- *)
(* t: a message was accepted, or a close was requested after messaging had started *)
Definition triggered (t : bool) (s : state) (l : label) : bool :=
  t || match l with CallSend _ => true | CallClose => started s | _ => false end.

Lemma ssq_19 cw s s' o : I1 cw s -> start_send_queue op s = (s', o) ->
  started s' = true -> stopped s' = false -> pending s' = CClose -> inflight s' = [] -> cw || existsb is_close_write o = true.
Proof.
  intros HI E H1 H2 H3 H4. pose proof (ssq_frame _ _ _ E) as (F1 & F2 & F3 & F4 & _).
  unfold start_send_queue in E. rewrite F3 in H1. rewrite F4 in H2. rewrite F2 in H3.
  destruct (running s || stopped s || negb (started s)) eqn:Eg.
  - injection E as <- <-. rewrite H1, H2 in Eg. cbn in Eg. rewrite !orb_false_r in Eg.
    destruct (i_run _ _ HI Eg) as [[H|H] _]; [congruence|]. now rewrite H.
  - apply orb_false_iff in Eg as [Eg _]. apply orb_false_iff in Eg as [Er _].
    apply loop_turn_closing in E as [H _]; auto; [congruence|]. cbn. eapply I1_idle; eauto.
Qed.

Definition J19 (t cw : bool) (s : state) : Prop :=
  (started s = false -> t = true -> queue s <> []) /\
  (started s = true -> stopped s = false -> t = true -> pending s = CClose -> inflight s = [] -> cw = true).

Lemma ssq_J cw t s s' o : I1 cw s -> (started s = false -> t = true -> queue s <> []) -> start_send_queue op s = (s', o) ->
  J19 t (cw || existsb is_close_write o) s'.
Proof.
  intros HI Hq E. pose proof (ssq_frame _ _ _ E) as (F1 & F2 & F3 & F4 & _). split.
  - rewrite F1, F3. auto.
  - intros H1 H2 _ H3 H4. eapply ssq_19; eauto.
Qed.

Lemma J_same t cw s s' o : J19 t cw s -> queue s' = queue s -> pending s' = pending s -> started s' = started s ->
  (stopped s' = false -> stopped s = false) -> inflight s' = inflight s -> J19 t (cw || existsb is_close_write o) s'.
Proof.
  intros [A B] E1 E2 E3 E4 E5. split; rewrite ?E1, ?E2, ?E3, ?E5; auto.
  intros H1 H2 H3 H4 H5. rewrite B; auto.
Qed.

Lemma step_started s l s' o : step op s l = Some (s', o) -> started s = true -> started s' = true.
Proof.
  intros E Hs. revert E. unfold step. destruct (crashed s); [discriminate|].
  destruct l as [p| | | |p| |p| | | |i|i rs]; unfold reader_label, start_messaging, send_message_call, send_close_call; cbv zeta;
    try (destruct (negb (reader_on s)) eqn:Erd; [discriminate|]); intros E.
  - apply some_inj, ssq_frame in E as (_ & _ & F & _). now rewrite F.
  - apply some_inj, ssq_frame in E as (_ & _ & F & _). now rewrite F.
  - rewrite Hs in E. cbn in E. injection E as <- <-. auto.
  - injection E as <- <-. auto.
  - injection E as <- <-. auto.
  - apply some_inj in E. destruct (is_close _); [injection E as <- <-; auto|]. apply ssq_frame in E as (_ & _ & F & _). now rewrite F.
  - injection E as <- <-. auto.
  - injection E as <- <-. auto.
  - injection E as <- <-. auto.
  - injection E as <- <-. auto.
  - unfold write_ok in E. destruct (nth_error _ _) as [w|]; [|discriminate]. apply some_inj in E. destruct w as [[|c cs]|].
    + apply loop_turn_frame in E as (_ & _ & F & _). rewrite F. destruct (queue _); auto.
    + injection E as <- <-. auto.
    + injection E as <- <-. auto.
  - unfold write_err in E. destruct (nth_error _ _) as [w|]; [|discriminate]. apply some_inj in E.
    destruct w; injection E as <- <-; auto.
Qed.

Lemma step_19 cw t s l s' o :
  I1 cw s -> is_write_error l = false -> J19 t cw s -> step op s l = Some (s', o) ->
  J19 (triggered t s l) (cw || existsb is_close_write o) s'.
Proof.
  intros HI Hne HJ Est. pose proof (step_started _ _ _ _ Est) as Hmono. revert Est.
  unfold triggered. unfold step. destruct (crashed s); [discriminate|].
  destruct l as [p| | | |p| |p| | | |i|i rs]; try discriminate;
    unfold reader_label, start_messaging, send_message_call, send_close_call; cbv zeta; rewrite ?orb_false_r;
    try (destruct (negb (reader_on s)) eqn:Erd; [discriminate|apply negb_false_iff in Erd]).
  - intros E. apply some_inj in E. eapply ssq_J; [|  |exact E]; [now apply I1_more|]. intros _ _. cbn. destruct (queue s); discriminate.
  - intros E. apply some_inj in E. eapply ssq_J; [|  |exact E]; [now apply I1_pend|]. cbn. intros H H1. rewrite H, orb_false_r in H1.
    destruct HJ as [HJ _]. auto.
  - intros E. apply some_inj in E. destruct (negb (started s) && negb (stopped s)) eqn:Eg.
    + apply andb_true_iff in Eg as [Es _]. apply negb_true_iff in Es. destruct HJ as [HJ _]. cbn in E.
      destruct (queue s) eqn:Eq.
      * injection E as <- <-. split; cbn; [discriminate|]. intros _ _ Ht. specialize (HJ Es Ht). congruence.
      * eapply ssq_J; [| |exact E]; cbn; [|discriminate].
        destruct HI as [A B C D]. split; cbn; auto. intros H. destruct (C H). congruence.
    + injection E as <- <-. eapply J_same; eauto.
  - intros E. injection E as <- <-. eapply J_same; eauto; cbn; try reflexivity. discriminate.
  - intros E. injection E as <- <-. eapply J_same; eauto.
  - intros E. apply some_inj in E. destruct (is_close _).
    + injection E as <- <-. eapply J_same; eauto.
    + eapply ssq_J; [| |exact E].
      * apply I1_pend; auto. eapply I1_congr; eauto; cbn; discriminate.
      * cbn. apply HJ.
  - intros E. injection E as <- <-. destruct HJ as [A B]. split; [exact A|]. cbn. intros H1 H2 H3 H4 H5.
    unfold to_pong in H4. destruct (is_close (pending s)) eqn:Ec; [|discriminate]. rewrite B; auto.
  - intros E. injection E as <- <-. eapply J_same; eauto.
  - intros E. injection E as <- <-. eapply J_same; eauto.
  - intros E. injection E as <- <-. eapply J_same; eauto.
  - unfold write_ok. destruct (i_fl _ _ HI) as [H|[(cs & H & Hcw & Hq & Hr)|[H Hcw]]]; rewrite H.
    + destruct i; discriminate.
    + destruct i as [|i]; [|destruct i; discriminate]. cbn [nth_error remove_nth firstn skipn app].
      destruct (i_run _ _ HI Hr) as [_ Hst].
      destruct cs as [|c cs]; intros E; apply some_inj in E.
      * destruct (queue s) as [|p q] eqn:Eq; [congruence|]. cbn in E. rewrite Eq in E.
        pose proof (loop_turn_frame _ _ _ E) as (F1 & F2 & F3 & F4 & _). cbn in F1, F2, F3, F4.
        split; [rewrite F3; congruence|]. intros _ _ _ H4 H5. apply loop_turn_closing in E as [Hx _]; cbn; auto; congruence.
      * injection E as <- <-. split; cbn; [congruence|]. discriminate.
    + intros _. destruct (i_cw _ _ HI Hcw) as [Hr _]. destruct (i_run _ _ HI Hr) as [_ Hst].
      split; [rewrite (Hmono Hst); discriminate|]. intros; now rewrite Hcw.
Qed.

(* the ghost flag along an execution *)
Fixpoint trig (t : bool) (st : bool) (stp : bool) (ls : list label) : bool :=
  match ls with
  | [] => t
  | l :: r =>
      trig (t || match l with CallSend _ => true | CallClose => st | _ => false end)
           (st || match l with CallStart => negb stp | _ => false end)
           (stp || match l with CallStop => true | _ => false end) r
  end.

Lemma step_flags s l s' o : step op s l = Some (s', o) ->
  started s' = started s || (match l with CallStart => negb (stopped s) | _ => false end)
  /\ stopped s' = stopped s || match l with CallStop => true | _ => false end.
Proof.
  unfold step. destruct (crashed s); [discriminate|].
  destruct l as [p| | | |p| |p| | | |i|i rs]; unfold reader_label, start_messaging, send_message_call, send_close_call; cbv zeta;
    try (destruct (negb (reader_on s)) eqn:Erd; [discriminate|]); intros E; rewrite ?orb_false_r.
  - apply some_inj, ssq_frame in E as (_ & _ & F & G & _). now rewrite F, G.
  - apply some_inj, ssq_frame in E as (_ & _ & F & G & _). now rewrite F, G.
  - apply some_inj in E. destruct (started s) eqn:Es, (stopped s) eqn:Ep; cbn in E; try (injection E as <- <-; rewrite ?Es, ?Ep; auto; fail).
    destruct (queue s); [injection E as <- <-; cbn; auto|].
    apply ssq_frame in E as (_ & _ & F & G & _). rewrite F, G. cbn. auto.
  - injection E as <- <-. cbn. rewrite orb_true_r. auto.
  - injection E as <- <-. auto.
  - apply some_inj in E. destruct (is_close _); [injection E as <- <-; auto|]. apply ssq_frame in E as (_ & _ & F & G & _). now rewrite F, G.
  - injection E as <- <-. auto.
  - injection E as <- <-. auto.
  - injection E as <- <-. auto.
  - injection E as <- <-. auto.
  - unfold write_ok in E. destruct (nth_error _ _) as [w|]; [|discriminate]. apply some_inj in E. destruct w as [[|c cs]|].
    + apply loop_turn_frame in E as (_ & _ & F & G & _). rewrite F, G. destruct (queue _); auto.
    + injection E as <- <-. auto.
    + injection E as <- <-. auto.
  - unfold write_err in E. destruct (nth_error _ _) as [w|]; [|discriminate]. apply some_inj in E.
    destruct w; injection E as <- <-; auto.
Qed.

Lemma exec_19 : forall ls cw t s s' o,
  I1 cw s -> no_write_error ls -> J19 t cw s -> exec op s ls = Some (s', o) ->
  J19 (trig t (started s) (stopped s) ls) (cw || existsb is_close_write o) s'.
Proof.
  induction ls as [|l r IH]; intros cw t s s' o HI Hne HP E.
  - injection E as <- <-. cbn. now rewrite orb_false_r.
  - unfold no_write_error in Hne. cbn in Hne. apply andb_true_iff in Hne as [Hl Hr]. apply negb_true_iff in Hl.
    apply exec_cons in E as (s1 & o1 & o2 & E1 & E2 & ->).
    destruct (step_ok _ _ _ _ _ HI E1) as (A & _). destruct (step_flags _ _ _ _ E1) as [F1 F2].
    rewrite existsb_app, orb_assoc. cbn [trig]. rewrite <- F1, <- F2.
    eapply IH; eauto. eapply step_19; eauto.
Qed.

Lemma step_pending s l s' o : step op s l = Some (s', o) -> pending s = CClose \/ l = CallClose -> pending s' = CClose.
Proof.
  intros E Hs. revert E. unfold step. destruct (crashed s); [discriminate|].
  destruct l as [p| | | |p| |p| | | |i|i rs]; try (destruct Hs as [Hs|Hs]; [|discriminate]); unfold reader_label, start_messaging, send_message_call, send_close_call; cbv zeta;
    try (destruct (negb (reader_on s)) eqn:Erd; [discriminate|]); intros E.
  - apply some_inj, ssq_frame in E as (_ & F & _). now rewrite F.
  - apply some_inj, ssq_frame in E as (_ & F & _). now rewrite F.
  - apply some_inj in E. destruct (_ && _); [|injection E as <- <-; auto].
    destruct (queue _); [injection E as <- <-; auto|]. apply ssq_frame in E as (_ & F & _). now rewrite F.
  - injection E as <- <-. auto.
  - injection E as <- <-. auto.
  - apply some_inj in E. destruct (is_close _); [injection E as <- <-; auto|]. apply ssq_frame in E as (_ & F & _). now rewrite F.
  - injection E as <- <-. cbn. now rewrite Hs.
  - injection E as <- <-. auto.
  - injection E as <- <-. auto.
  - injection E as <- <-. auto.
  - unfold write_ok in E. destruct (nth_error _ _) as [w|]; [|discriminate]. apply some_inj in E. destruct w as [[|c cs]|].
    + apply loop_turn_frame in E as (_ & F & _). rewrite F. destruct (queue _); auto.
    + injection E as <- <-. auto.
    + injection E as <- <-. auto.
  - unfold write_err in E. destruct (nth_error _ _) as [w|]; [|discriminate]. apply some_inj in E.
    destruct w; injection E as <- <-; auto.
Qed.

Lemma exec_pending : forall ls s s' o, exec op s ls = Some (s', o) -> pending s = CClose \/ In CallClose ls -> pending s' = CClose.
Proof.
  induction ls as [|l r IH]; intros s s' o E H.
  - injection E as <- <-. destruct H as [H|[]]. auto.
  - apply exec_cons in E as (s1 & o1 & o2 & E1 & E2 & ->). eapply IH; [exact E2|].
    destruct H as [H|[H|H]]; [left|left|right]; auto; eapply step_pending; eauto.
Qed.

Lemma trig_true ls st stp : trig true st stp ls = true.
Proof. revert st stp. induction ls; cbn; auto. Qed.

Lemma trig_send ls t st stp : accepted ls <> [] -> trig t st stp ls = true.
Proof.
  revert t st stp. induction ls as [|l r IH]; intros t st stp H; [now destruct H|].
  cbn. destruct l; try (apply IH; exact H). rewrite orb_true_r. apply trig_true.
Qed.

Lemma trig_close ls1 ls2 : forall t st stp, existsb is_call_start ls1 = true -> stp = false ->
  (forall l, In l ls1 -> l <> CallStop) -> trig t st stp (ls1 ++ CallClose :: ls2) = true.
Proof.
  assert (G : forall ls t stp, (forall l, In l ls -> l <> CallStop) -> trig t true stp (ls ++ CallClose :: ls2) = true).
  { induction ls as [|l r IH]; intros t stp H; cbn; [rewrite orb_true_r; apply trig_true|].
    apply IH. intros x Hx. apply H. now right. }
  induction ls1 as [|l r IH]; intros t st stp H1 -> H2; [discriminate|].
  cbn in H1 |- *. assert (Hr : forall x, In x r -> x <> CallStop) by (intros; apply H2; now right).
  destruct l; cbn in H1; try (apply IH; auto; fail).
  - cbn. rewrite ?orb_true_r. apply G. auto.
  - exfalso. apply (H2 CallStop); [now left|reflexivity].
Qed.

Lemma stopped_mono ls s s' o : exec op s ls = Some (s', o) -> stopped s' = false -> forall l, In l ls -> l <> CallStop.
Proof.
  revert s o. induction ls as [|x r IH]; intros s o E H l [].
  - subst x. apply exec_cons in E as (s1 & o1 & o2 & E1 & E2 & ->). intros ->.
    destruct (step_flags _ _ _ _ E1) as [_ F]. rewrite orb_true_r in F.
    assert (G : forall ls s, stopped s = true -> forall o, exec op s ls = Some (s', o) -> stopped s' = true).
    { clear. induction ls as [|y ys IHy]; intros s Hs o E; [injection E as <- <-; auto|].
      apply exec_cons in E as (s1 & o1 & o2 & E1 & E2 & ->). eapply IHy; [|exact E2].
      destruct (step_flags _ _ _ _ E1) as [_ F]. now rewrite F, Hs. }
    rewrite (G _ _ F _ E2) in H. discriminate.
  - apply exec_cons in E as (s1 & o1 & o2 & E1 & E2 & ->). eapply IH; eauto.
Qed.

(* crash exactly when a close write fails *)
Lemma step_crash cw s l s' o : I1 cw s -> step op s l = Some (s', o) ->
  (crashed s' = true <-> inflight s = [WClose] /\ exists r, l = WriteErr 0 r).
Proof.
  intros HI E. destruct (step_ok _ _ _ _ _ HI E) as (_ & _ & _ & H). split.
  - intros Hc. destruct (H Hc) as (i & r & ->). revert E. unfold step. destruct (crashed s) eqn:Hcr; [discriminate|].
    unfold write_err. destruct (i_fl _ _ HI) as [Hf|[(cs & Hf & _)|[Hf _]]]; rewrite Hf.
    + destruct i; discriminate.
    + destruct i as [|i]; [|destruct i; discriminate]. cbn. intros E. injection E as <- <-. cbn in Hc. congruence.
    + destruct i as [|i]; [|destruct i; discriminate]. eauto.
  - intros [Hf [r ->]]. revert E. unfold step. destruct (crashed s); [discriminate|]. unfold write_err. rewrite Hf. cbn.
    intros E. injection E as <- <-. auto.
Qed.

(* ---- C16, exactly ---- *)
Lemma step_marks s l s' o : step op s l = Some (s', o) ->
  stopped s' = stopped s || is_call_stop l /\ close_received s' = close_received s || is_rx_close l /\
  is_close (pending s') = is_close (pending s) || (is_call_close l || is_rx_close l).
Proof.
  unfold step. destruct (crashed s); [discriminate|].
  destruct l as [p| | | |p| |p| | | |i|i rs]; unfold reader_label, start_messaging, send_message_call, send_close_call; cbv zeta; cbn [is_call_stop is_rx_close is_call_close];
    try (destruct (negb (reader_on s)) eqn:Erd; [discriminate|]); intros E; rewrite ?orb_false_r, ?orb_true_r; cbn [orb].
  - apply some_inj, ssq_frame in E as (_ & F1 & _ & F2 & F3 & _). now rewrite F1, F2, F3.
  - apply some_inj, ssq_frame in E as (_ & F1 & _ & F2 & F3 & _). now rewrite F1, F2, F3.
  - apply some_inj in E. destruct (_ && _); [|injection E as <- <-; auto]. destruct (queue _); [injection E as <- <-; auto|].
    apply ssq_frame in E as (_ & F1 & _ & F2 & F3 & _). now rewrite F1, F2, F3.
  - injection E as <- <-. auto.
  - injection E as <- <-. auto.
  - apply some_inj in E. destruct (is_close _) eqn:Ec.
    + injection E as <- <-. auto.
    + apply ssq_frame in E as (_ & F1 & _ & F2 & F3 & _). now rewrite F1, F2, F3.
  - injection E as <- <-. cbn. unfold to_pong. destruct (is_close (pending s)) eqn:Ec; auto.
  - injection E as <- <-. auto.
  - injection E as <- <-. auto.
  - injection E as <- <-. auto.
  - unfold write_ok in E. destruct (nth_error _ _) as [w|]; [|discriminate]. apply some_inj in E. destruct w as [[|c cs]|].
    + apply loop_turn_frame in E as (_ & F1 & _ & F2 & F3 & _). rewrite F1, F2, F3. destruct (queue _); auto.
    + injection E as <- <-. auto.
    + injection E as <- <-. auto.
  - unfold write_err in E. destruct (nth_error _ _) as [w|]; [|discriminate]. apply some_inj in E.
    destruct w; injection E as <- <-; auto.
Qed.
Lemma exec_marks : forall ls s s' o, exec op s ls = Some (s', o) ->
  stopped s' = stopped s || existsb is_call_stop ls /\ close_received s' = close_received s || existsb is_rx_close ls /\
  is_close (pending s') = is_close (pending s) || (existsb is_call_close ls || existsb is_rx_close ls).
Proof.
  induction ls as [|l r IH]; intros s s' o E.
  - injection E as <- <-. cbn. now rewrite !orb_false_r.
  - apply exec_cons in E as (s1 & o1 & o2 & E1 & E2 & ->). destruct (step_marks _ _ _ _ E1) as (A & B & C). destruct (IH _ _ _ E2) as (A' & B' & C').
    rewrite A', B', C', A, B, C. cbn [existsb]. rewrite <- !orb_assoc. split; [reflexivity|]. split; [reflexivity|].
    destruct (is_close (pending s)), (is_call_close l), (is_rx_close l), (existsb is_call_close r), (existsb is_rx_close r); reflexivity.
Qed.
Lemma handler_count s h : count is_close_handler (call_handler s h) = if negb (stopped s) then match h with HClose => 1%nat | _ => 0%nat end else 0%nat.
Proof. unfold call_handler. destruct (stopped s); [reflexivity|]. now destruct h. Qed.

(* after the peer's close nothing is read any more *)
Definition closed_off (s : state) : Prop := close_received s = true -> reader_on s = false /\ started s = true.
Lemma step_closed_off cw s l s' o : I1 cw s -> closed_off s -> step op s l = Some (s', o) -> closed_off s'.
Proof.
  intros HI HR. unfold step. destruct (crashed s); [discriminate|].
  destruct l as [p| | | |p| |p| | | |i|i rs]; unfold reader_label, start_messaging, send_message_call, send_close_call; cbv zeta;
    try (destruct (negb (reader_on s)) eqn:Erd; [discriminate|apply negb_false_iff in Erd]); intros E.
  - apply some_inj, ssq_frame in E as (_ & _ & F3 & _ & F5 & F6 & _). unfold closed_off. rewrite F3, F5, F6. exact HR.
  - apply some_inj, ssq_frame in E as (_ & _ & F3 & _ & F5 & F6 & _). unfold closed_off. rewrite F3, F5, F6. exact HR.
  - apply some_inj in E. destruct (negb (started s) && negb (stopped s)) eqn:Eg.
    + apply andb_true_iff in Eg as [Es _]. apply negb_true_iff in Es.
      assert (Hp : close_received s = false) by (destruct (close_received s) eqn:Hp; [destruct (HR Hp); congruence|reflexivity]).
      destruct (queue _) eqn:Eq.
      * injection E as <- <-. intros H. cbn in H. congruence.
      * apply ssq_frame in E as (_ & _ & _ & _ & F5 & _). intros H. rewrite F5 in H. cbn in H. congruence.
    + injection E as <- <-. auto.
  - injection E as <- <-. exact HR.
  - injection E as <- <-. exact HR.
  - apply some_inj in E. pose proof (i_rd _ _ HI Erd) as Hst. destruct (is_close _).
    + injection E as <- <-. intros _. cbn. auto.
    + apply ssq_frame in E as (_ & _ & F3 & _ & _ & F6 & _). intros _. rewrite F3, F6. cbn. auto.
  - injection E as <- <-. exact HR.
  - injection E as <- <-. exact HR.
  - injection E as <- <-. intros H. cbn in *. destruct (HR H). auto.
  - injection E as <- <-. intros H. cbn in *. destruct (HR H). auto.
  - unfold write_ok in E. destruct (nth_error _ _) as [w|]; [|discriminate]. apply some_inj in E. destruct w as [[|c cs]|].
    + apply loop_turn_frame in E as (_ & _ & F3 & _ & F5 & F6 & _). unfold closed_off. rewrite F3, F5, F6.
      destruct (queue _); exact HR.
    + injection E as <- <-. exact HR.
    + injection E as <- <-. exact HR.
  - unfold write_err in E. destruct (nth_error _ _) as [w|]; [|discriminate]. apply some_inj in E.
    destruct w; injection E as <- <-; exact HR.
Qed.
Lemma exec_closed_off : forall ls cw s s' o, I1 cw s -> closed_off s -> exec op s ls = Some (s', o) -> closed_off s'.
Proof.
  induction ls as [|l r IH]; intros cw s s' o HI HR E; [injection E as <- <-; auto|].
  apply exec_cons in E as (s1 & o1 & o2 & E1 & E2 & ->). destruct (step_ok _ _ _ _ _ HI E1) as (A & _).
  exact (IH _ _ _ _ A (step_closed_off _ _ _ _ _ HI HR E1) E2).
Qed.

Lemma close_reported ls l s1 o1 s2 o2 : exec op init ls = Some (s1, o1) -> step op s1 l = Some (s2, o2) ->
  count is_close_handler o2 = if reports_close ls o1 l then 1%nat else 0%nat.
Proof.
  intros E1 E. destruct (exec_marks _ _ _ _ E1) as (A & B & C). cbn in A, B, C.
  destruct (exec_I1 _ _ _ _ _ I1_init E1) as (HI & _). cbn [orb] in HI.
  unfold reports_close. rewrite <- A, <- C, <- B. revert E. unfold step. destruct (crashed s1); [discriminate|].
  destruct l as [p| | | |p| |p| | | |i|i rs]; unfold reader_label, start_messaging, send_message_call, send_close_call; cbv zeta;
    try (destruct (negb (reader_on s1)) eqn:Erd; [discriminate|]); intros E; rewrite ?andb_false_r.
  - apply some_inj, ssq_frame in E. tauto.
  - apply some_inj, ssq_frame in E. tauto.
  - apply some_inj in E. destruct (_ && _); [|injection E as <- <-; auto]. destruct (queue _); [injection E as <- <-; auto|].
    apply ssq_frame in E. tauto.
  - injection E as <- <-. auto.
  - injection E as <- <-. rewrite handler_count; cbn; rewrite ?andb_false_r; now destruct (stopped s1).
  - apply some_inj in E. cbn [set_close_received set_reader_off pending] in E.
    (* the reader is on, so the peer has not closed before *)
    assert (R : close_received s1 = false).
    { destruct (close_received s1) eqn:Er; [|reflexivity].
      destruct (exec_closed_off _ _ _ _ _ I1_init (fun H => False_ind _ (Bool.diff_false_true H)) E1 Er) as [F _]. apply negb_false_iff in Erd. congruence. }
    rewrite C in E. rewrite B in R. rewrite R, orb_false_r in E. destruct (existsb is_call_close ls).
    + injection E as <- <-. rewrite handler_count. cbn. now destruct (stopped s1).
    + apply ssq_frame in E. rewrite andb_false_r. tauto.
  - injection E as <- <-. auto.
  - injection E as <- <-. auto.
  - injection E as <- <-. rewrite handler_count; cbn; rewrite ?andb_false_r; now destruct (stopped s1).
  - injection E as <- <-. rewrite handler_count; cbn; rewrite ?andb_false_r; now destruct (stopped s1).
  - unfold write_ok in E. destruct (nth_error _ _) as [w|] eqn:En; [|discriminate]. apply some_inj in E.
    destruct (i_fl _ _ HI) as [F|[(cs & F & F2 & _)|(F & F2)]]; rewrite F in En; (destruct i as [|i]; [|try (destruct i); discriminate]); try discriminate; injection En as <-; rewrite F2.
    + rewrite !andb_false_r. destruct cs as [|c cs].
      * apply loop_turn_frame in E. tauto.
      * injection E as <- <-. reflexivity.
    + injection E as <- <-. cbn. destruct (close_received s1); [|now rewrite !andb_false_r]. rewrite handler_count. cbn. now destruct (stopped s1).
  - unfold write_err in E. destruct (nth_error _ _) as [w|] eqn:En; [|discriminate]. apply some_inj in E.
    destruct (i_fl _ _ HI) as [F|[(cs & F & F2 & _)|(F & F2)]]; rewrite F in En; (destruct i as [|i]; [|try (destruct i); discriminate]); try discriminate; injection En as <-; rewrite F2.
    + injection E as <- <-. rewrite handler_count. cbn. destruct rs; rewrite ?andb_false_r, ?andb_true_r; [|now destruct (negb _)].
      destruct (is_close (pending s1)), (stopped s1); reflexivity.
    + injection E as <- <-. destruct rs; rewrite ?andb_false_r; reflexivity.
Qed.

(* ---- C19, exactly ---- *)
Lemma in_bool (f : label -> bool) x ls : (forall l, f l = true <-> l = x) -> existsb f ls = true <-> In x ls.
Proof.
  intros H. rewrite existsb_exists. split.
  - intros (l & Hl & E). apply H in E. now subst l.
  - intros Hx. exists x. split; [exact Hx|]. now apply H.
Qed.
Lemma in_close ls : existsb is_call_close ls = true <-> In CallClose ls.
Proof. apply in_bool. intros l. destruct l; cbn; split; congruence. Qed.
Lemma in_rx ls : existsb is_rx_close ls = true <-> In RxClose ls.
Proof. apply in_bool. intros l. destruct l; cbn; split; congruence. Qed.
Lemma in_stop ls : existsb is_call_stop ls = true <-> In CallStop ls.
Proof. apply in_bool. intros l. destruct l; cbn; split; congruence. Qed.
Lemma asked_pending ls s o : exec op init ls = Some (s, o) -> (In CallClose ls \/ In RxClose ls) <-> pending s = CClose.
Proof.
  intros E. destruct (exec_marks _ _ _ _ E) as (_ & _ & C). cbn in C. rewrite <- in_close, <- in_rx, <- orb_true_iff, <- C.
  destruct (pending s); cbn; split; congruence.
Qed.

Lemma exec_app_inv a : forall b s s' o, exec op s (a ++ b) = Some (s', o) ->
  exists s1 o1 o2, exec op s a = Some (s1, o1) /\ exec op s1 b = Some (s', o2) /\ o = o1 ++ o2.
Proof.
  induction a as [|l r IH]; intros b s s' o E.
  - exists s, [], o. auto.
  - cbn [app] in E. apply exec_cons in E as (s1 & o1 & o2 & E1 & E2 & ->). destruct (IH _ _ _ _ E2) as (s2 & o3 & o4 & E3 & E4 & ->).
    exists s2, (o1 ++ o3), o4. split; [|split; [exact E4|apply app_assoc]]. cbn [exec]. rewrite E1, E3. reflexivity.
Qed.

(* nothing makes it look: nothing is ever written *)
Lemma exec_asleep : forall ls pre s s' o, exec op s ls = Some (s', o) ->
  queue s = [] -> inflight s = [] -> running s = false ->
  (started s = true -> In CallStart pre) -> (is_close (pending s) = false -> ~ In CallClose pre) ->
  accepted ls = [] ->
  (forall a b, ls = a ++ CallClose :: b -> ~ In CallStart (pre ++ a)) -> (forall a b, ls = a ++ RxClose :: b -> In CallClose (pre ++ a)) ->
  filter is_write o = [].
Proof.
  induction ls as [|l r IH]; intros pre s s' o E Hq Hf Hr Hst Hp Ha H1 H2; [now injection E as <- <-|].
  apply exec_cons in E as (s1 & o1 & o2 & E1 & E2 & ->).
  assert (Ha2 : accepted r = []) by (destruct l; try exact Ha; discriminate).
  assert (K : queue s1 = [] /\ inflight s1 = [] /\ running s1 = false /\ (started s1 = true -> In CallStart (pre ++ [l])) /\
    (is_close (pending s1) = false -> ~ In CallClose (pre ++ [l])) /\ filter is_write o1 = []).
  { assert (W : forall h, filter is_write (call_handler s h) = []) by (intros h; unfold call_handler; now destruct (stopped s)).
    assert (S0 : started s = true -> In CallStart (pre ++ [l])) by (intros H; apply in_or_app; auto).
    assert (P0 : l <> CallClose -> is_close (pending s) = false -> ~ In CallClose (pre ++ [l])).
    { intros Hl H Hi. apply in_app_or in Hi as [Hi|[Hi|[]]]; [now apply (Hp H)|congruence]. }
    revert E1. unfold step. destruct (crashed s); [discriminate|].
    destruct l as [p| | | |p| |p| | | |i|i rs]; try (specialize (P0 ltac:(discriminate))); unfold reader_label, start_messaging, send_close_call; cbv zeta;
      try (destruct (negb (reader_on s)) eqn:Erd; [discriminate|]); intros E; try discriminate.
    - (* CallClose *) apply some_inj in E. unfold start_send_queue in E. cbn [running stopped started set_pending] in E.
      assert (Hs : started s = false).
      { destruct (started s); [|reflexivity]. exfalso. apply (H1 [] r eq_refl). rewrite app_nil_r. auto. }
      rewrite Hs in E. rewrite orb_true_r in E. injection E as <- <-. cbn [queue inflight running started pending set_pending is_close filter].
      repeat split; auto; discriminate.
    - (* CallStart *) apply some_inj in E. destruct (_ && _).
      + cbn [queue set_started] in E. rewrite Hq in E. injection E as <- <-. cbn. repeat split; auto. intros _. apply in_or_app. right. now left.
      + injection E as <- <-. repeat split; auto.
    - injection E as <- <-. repeat split; auto.
    - injection E as <- <-. repeat split; auto.
    - (* RxClose *) apply some_inj in E. cbn [pending set_close_received set_reader_off] in E.
      assert (Hc : is_close (pending s) = true).
      { destruct (is_close (pending s)) eqn:Ec; [reflexivity|]. exfalso. apply (Hp eq_refl). specialize (H2 [] r eq_refl). now rewrite app_nil_r in H2. }
      rewrite Hc in E. injection E as <- <-. cbn. rewrite Hc. repeat split; auto; try discriminate.
      unfold call_handler. cbn. destruct (stopped s); reflexivity.
    - injection E as <- <-. cbn. unfold to_pong. repeat split; auto. destruct (is_close (pending s)) eqn:Ec; [intros H; cbn in H; congruence|auto].
    - injection E as <- <-. repeat split; auto.
    - injection E as <- <-. cbn. repeat split; auto. unfold call_handler. cbn. destruct (stopped s); reflexivity.
    - injection E as <- <-. cbn. repeat split; auto. unfold call_handler. cbn. destruct (stopped s); reflexivity.
    - unfold write_ok in E. rewrite Hf in E. destruct i; discriminate.
    - unfold write_err in E. rewrite Hf in E. destruct i; discriminate. }
  destruct K as (K1 & K2 & K3 & K4 & K5 & K6). rewrite filter_app, K6. cbn [app].
  apply (IH (pre ++ [l]) _ _ _ E2 K1 K2 K3 K4 K5 Ha2).
  - intros a b ->. rewrite <- app_assoc. exact (H1 (l :: a) b eq_refl).
  - intros a b ->. rewrite <- app_assoc. exact (H2 (l :: a) b eq_refl).
Qed.

Lemma no_write_error_app a b : no_write_error (a ++ b) -> no_write_error a /\ no_write_error b.
Proof. unfold no_write_error. rewrite forallb_app. apply andb_true_iff. Qed.
Lemma rx_close_due ls a b s o : exec op init ls = Some (s, o) -> no_write_error ls -> ls = a ++ RxClose :: b -> ~ In CallClose a ->
  started s = true -> stopped s = false -> inflight s = [] -> existsb is_close_write o = true.
Proof.
  intros E Hn -> Ha H1 H2 Hf. destruct (exec_app_inv _ _ _ _ _ E) as (s1 & o1 & o2 & E1 & E2 & ->).
  apply exec_cons in E2 as (s2 & o3 & o4 & E3 & E4 & ->).
  destruct (no_write_error_app _ _ Hn) as [_ Hn2]. change (RxClose :: b) with ([RxClose] ++ b) in Hn2. destruct (no_write_error_app _ _ Hn2) as [_ Hn3].
  destruct (exec_I1 _ _ _ _ _ I1_init E1) as (HI1 & _). cbn [orb] in HI1. destruct (step_ok _ _ _ _ _ HI1 E3) as (HI2 & _).
  destruct (exec_marks _ _ _ _ E1) as (_ & B & C). cbn in B, C.
  assert (Er : reader_on s1 = true /\ crashed s1 = false).
  { revert E3. unfold step. destruct (crashed s1); [discriminate|]. unfold reader_label. cbv zeta. destruct (reader_on s1); [auto|discriminate]. }
  destruct Er as [Er Ecr].
  assert (Hb : existsb is_rx_close a = false).
  { rewrite <- B. destruct (close_received s1) eqn:Ex; [|reflexivity].
    destruct (exec_closed_off _ _ _ _ _ I1_init (fun H => False_ind _ (Bool.diff_false_true H)) E1 Ex) as [F _]. congruence. }
  assert (Hc : existsb is_call_close a = false) by (destruct (existsb is_call_close a) eqn:Ex; [apply in_close in Ex; contradiction|reflexivity]).
  rewrite Hb, Hc in C. cbn [orb] in C.
  assert (J : J19 true (existsb is_close_write o1 || existsb is_close_write o3) s2).
  { revert E3. unfold step. rewrite Ecr. unfold reader_label. cbv zeta. rewrite Er. cbn [negb]. intros E3. apply some_inj in E3.
    cbn [pending set_close_received set_reader_off] in E3. rewrite C in E3. unfold send_close_call in E3. eapply ssq_J; [| |exact E3].
    - apply I1_pend; auto. eapply I1_congr; eauto; cbn; discriminate.
    - cbn. rewrite (i_rd _ _ HI1 Er). discriminate. }
  destruct (exec_19 _ _ _ _ _ _ HI2 Hn3 J E4) as [_ K]. rewrite trig_true in K. rewrite !existsb_app, orb_assoc. apply K; auto.
  apply (asked_pending _ _ _ E). right. apply in_or_app. right. now left.
Qed.

(* ---- C15, exactly ---- *)
Lemma chunks_nonempty p : chunks op p <> [].
Proof. destruct (chunks_eq p) as (c & cs & _ & ->). discriminate. Qed.
Lemma no_close_write o : filter is_close_write o = [] <-> existsb is_close_write o = false.
Proof.
  induction o as [|x o IH]; cbn; [tauto|]. destruct (is_close_write x); cbn; [split; discriminate|exact IH].
Qed.

Lemma writes_after_stop ls l s1 o1 s2 o2 : exec op init ls = Some (s1, o1) -> In CallStop ls -> no_write_error ls -> step op s1 l = Some (s2, o2) ->
  (filter is_write o2 <> [] <-> (exists i, l = WriteOk i) /\ unwritten op ls o1).
Proof.
  intros E1 Hs Hn E. destruct (exec_marks _ _ _ _ E1) as (A & _ & _). cbn in A. rewrite (proj2 (in_stop ls) Hs) in A.
  destruct (exec_I1 _ _ _ _ _ I1_init E1) as (HI & _). cbn [orb] in HI.
  destruct (exec_prefix ls false [] [] init s1 o1 I1_init Hn) as (dn & w & P1 & P2 & P3); [exists [], []; cbn; auto|exact E1|]. cbn [app] in P1, P2.
  pose proof (asked_pending _ _ _ E1) as Hp.
  assert (Q : forall h, filter is_write (call_handler s1 h) = []) by (intros h; unfold call_handler; now rewrite A).
  assert (Z : forall s s' o, stopped s = true -> start_send_queue op s = (s', o) -> filter is_write o = []).
  { intros s s' o Hss. unfold start_send_queue. rewrite Hss, orb_true_r. cbn. intros Ez. now injection Ez as <- <-. }
  revert E. unfold step. destruct (crashed s1); [discriminate|].
  destruct l as [p| | | |p| |p| | | |i|i rs]; unfold reader_label, start_messaging, send_message_call, send_close_call; cbv zeta;
    try (destruct (negb (reader_on s1)) eqn:Erd; [discriminate|]); intros E;
    try (split; [intros H; exfalso; apply H; clear H|intros ((i0 & Hi) & _); discriminate]).
  - apply some_inj in E. eapply Z; [|exact E]. exact A.
  - apply some_inj in E. eapply Z; [|exact E]. exact A.
  - apply some_inj in E. rewrite A, andb_false_r in E. now injection E as <- <-.
  - now injection E as <- <-.
  - injection E as <- <-. apply Q.
  - apply some_inj in E. destruct (is_close _).
    + injection E as <- <-. unfold call_handler. cbn. now rewrite A.
    + eapply Z; [|exact E]. exact A.
  - now injection E as <- <-.
  - now injection E as <- <-.
  - injection E as <- <-. apply Q.
  - injection E as <- <-. apply Q.
  - (* WriteOk *)
    split.
    + intros Hw. split; [eauto|]. revert E. unfold write_ok. destruct (i_fl _ _ HI) as [F|[(cs & F & F2 & _)|(F & F2)]]; rewrite F.
      * destruct i; discriminate.
      * destruct i as [|i]; [|destruct i; discriminate]. cbn [nth_error remove_nth firstn skipn app]. intros E. apply some_inj in E.
        destruct P3 as [[P3 _]|[[P3 _]|(p & q & cs' & P3 & P4 & P5)]]; [congruence|congruence|]. rewrite F in P3. injection P3 as <-.
        split; [now apply no_close_write|]. destruct (is_close (pending s1)) eqn:Ec.
        { assert (Hc : pending s1 = CClose) by (destruct (pending s1); try discriminate; reflexivity). apply Hp in Hc. tauto. }
        right. right. rewrite P1, P2, P4, map_app, concat_app. cbn [map concat]. rewrite P5. intros Heq. apply app_inv_head in Heq.
        rewrite <- app_assoc in Heq. rewrite <- (app_nil_r w) in Heq at 1. apply app_inv_head in Heq. symmetry in Heq. apply app_eq_nil in Heq as [-> Heq].
        destruct q as [|p' q]; [|cbn in Heq; apply app_eq_nil in Heq as [Heq _]; now apply chunks_nonempty in Heq].
        cbn [queue set_inflight] in E. rewrite P4 in E. unfold loop_turn in E. cbn [pending set_queue queue set_inflight] in E. rewrite Ec in E.
        injection E as <- <-. now apply Hw.
      * destruct i as [|i]; [|destruct i; discriminate]. cbn. intros E. apply some_inj in E. injection E as <- <-. exfalso. apply Hw.
        destruct (close_received s1); [|reflexivity]. unfold call_handler. cbn. now rewrite A.
    + intros (_ & Hc & Hr). apply no_close_write in Hc. revert E. unfold write_ok.
      destruct (i_fl _ _ HI) as [F|[(cs & F & F2 & _)|(F & F2)]]; rewrite F; [destruct i; discriminate| |congruence].
      destruct i as [|i]; [|destruct i; discriminate]. cbn [nth_error remove_nth firstn skipn app]. intros E. apply some_inj in E.
      destruct P3 as [[P3 _]|[[P3 _]|(p & q & cs' & P3 & P4 & P5)]]; [congruence|congruence|]. rewrite F in P3. injection P3 as <-.
      destruct cs as [|c cs]; [|injection E as <- <-; discriminate].
      cbn [queue set_inflight] in E. rewrite P4 in E. unfold loop_turn in E. cbn [pending set_queue queue set_inflight] in E.
      destruct (is_close (pending s1)) eqn:Ec; [rewrite close_send in E; injection E as <- <-; discriminate|].
      destruct q as [|p' q].
      * exfalso. assert (Hd : data_writes o1 <> concat (map (chunks op) (accepted ls))).
        { destruct Hr as [Hr|[Hr|Hr]]; [| |exact Hr]; assert (Hx : pending s1 = CClose) by (apply Hp; tauto); rewrite Hx in Ec; discriminate. }
        apply Hd. rewrite P1, P2, P4, map_app, concat_app. cbn [map concat]. rewrite P5. now rewrite !app_nil_r.
      * destruct (chunks_eq p') as (c & cs & E2 & _). rewrite E2 in E. injection E as <- <-. discriminate.
  - unfold write_err in E. destruct (nth_error _ _) as [w0|]; [|discriminate]. apply some_inj in E. destruct w0; injection E as <- <-; [|reflexivity].
    unfold call_handler. cbn. now rewrite A.
Qed.
End P.
