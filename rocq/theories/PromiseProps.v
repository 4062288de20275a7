(* C37-C39: promise pipelines. *)
From Verif Require Import Base PromiseModel PromiseSpec PromiseProofs.
Open Scope nat_scope.

(* C37: if every promise uses its resolver at most once, then however callbacks are scheduled, running a pipeline does what
   its stages do one after another.  It stops within one call per stage.  Storage is released when and only when the
   pipeline resolved or terminated, and is never used afterwards. *)
Theorem C37_pipeline : forall p a ls o, Forall (uses_at_most 1) (stages p) -> run Async p a ls = Some o ->
  forall h r, seq (stages p) [] (Resolve a) = (h, r) ->
  length ls <= S (length (stages p)) /\
  match o with
  | UseAfterFree _ => False
  | Aborted h' => h' = h /\ r = Died
  | Running c =>
      (exists d, hist c ++ d = h ++ end_events r) /\
      (quiet c -> hist c = h ++ end_events r /\ r <> Died /\ (alive c = false <-> (exists b, r = Resolved b) \/ r = Terminated)) /\
      (~ quiet c -> alive c = true /\ exists lb o', step Async (promise_join p []) c lb = Some o')
  end.
Proof.
  intros p a ls o HU E h r ES. apply run_inv in E; [|apply calm_async; auto; discriminate].
  destruct o as [c|h'|h']; cbn in E.
  - pose proof (inv_progress _ _ _ _ _ E) as PR. rewrite join_stages, app_nil_r.
    destruct E as (k & h0 & b & Hp & Hk & H). specialize (Hk ltac:(discriminate)). subst k. apply passes_0 in Hp as [-> ->]. rewrite ES in H. cbn [fst snd] in H.
    destruct H as [(Ha & i & t & Hi & En & HX & HT & Eq)|(Q & Eh & Hd & _ & Ea & Hn)].
    + split; [lia|]. split; [|split].
      * destruct (seq_extends (skipn i (stages p)) (hist c) t) as [d Ed]. rewrite Eq in Ed. cbn in Ed. exists (d ++ end_events r). now rewrite app_assoc, <- Ed.
      * intros [Q1 Q2]. destruct HT as [[H1 H2]|(H1 & H2 & _)]; congruence.
      * intros Q. destruct PR as [PR|PR]; [contradiction|]. auto.
    + split; [lia|]. split; [exists []; now rewrite app_nil_r|]. split; [|contradiction].
      intros _. split; [auto|]. split; [auto|]. rewrite Ea. destruct r; try congruence; cbn; split; try discriminate; eauto; intros [[b Eb]|Eb]; discriminate.
  - contradiction.
  - destruct E as (k & h0 & b & Hp & Hk & H & Hn). specialize (Hk ltac:(discriminate)). subst k. apply passes_0 in Hp as [-> ->]. rewrite ES in H.
    injection H as -> ->. split; [lia|auto].
Qed.

(* exactly once: at every moment the stages that acted are some of the pipeline's, in order and each at most once, and the
   pipeline has ended at most once; when nothing is left to happen it has ended exactly once, with its last event *)
Theorem C37_exactly_once : forall p a ls c, Forall (uses_at_most 1) (stages p) -> run Async p a ls = Some (Running c) ->
  subseq (names (hist c)) (map sname (stages p)) /\ length (filter is_end (hist c)) <= 1 /\
  (Forall (uses_at_least 1) (stages p) -> quiet c ->
     exists h e, hist c = h ++ [e] /\ is_end e = true /\ existsb is_end h = false).
Proof.
  intros p a ls c HU E. destruct (seq (stages p) [] (Resolve a)) as [h r] eqn:ES.
  pose proof (C37_pipeline p a ls _ HU E h r ES) as (_ & [d Hd] & HQ & _).
  destruct (seq_names (stages p) [] (Resolve a)) as (d0 & Ed & HS & HE & _). rewrite ES in Ed. cbn in Ed. subst d0.
  assert (HN : names (h ++ end_events r) = names h) by (rewrite names_app; destruct r; cbn; apply app_nil_r).
  split; [|split].
  - apply subseq_app_l with (b := names d). rewrite <- names_app, Hd, HN. exact HS.
  - assert (L : length (filter is_end (hist c ++ d)) <= 1).
    { rewrite Hd, filter_app, (filter_end_none h HE). destruct r; cbn; lia. }
    rewrite filter_app, app_length in L. lia.
  - intros HL Q. destruct (HQ Q) as (Eh & Hdied & _).
    assert (Hh : r <> Hung). { pose proof (seq_not_hung (stages p) [] (Resolve a) HL) as X. now rewrite ES in X. }
    destruct r as [b|b| | |]; try congruence; eexists h, _; (split; [exact Eh|auto]).
Qed.

(* run_sync: the same, for promises that use their resolver before they return; nothing is left over *)
Theorem C37_sync : forall p a ls o, Forall (uses_at_most 1) (stages p) ->
  (forall n f, In (Prom n f) (stages p) -> forall h x, later_calls (f h x) = []) ->
  run Sync p a ls = Some o ->
  forall h r, seq (stages p) [] (Resolve a) = (h, r) ->
  length ls <= S (length (stages p)) /\
  match o with
  | UseAfterFree _ => False
  | Aborted h' => h' = h /\ r = Died
  | Running c => (quiet c -> hist c = h ++ end_events r /\ r <> Died /\ alive c = false) /\
                 (~ quiet c -> exists o', step Sync (promise_join p []) c Tick = Some o')
  end.
Proof.
  intros p a ls o HU HN E h r ES. apply run_inv in E; [|apply calm_sync; auto].
  destruct o as [c|h'|h']; cbn in E.
  - destruct E as (k & h0 & b & Hp & Hk & H). specialize (Hk ltac:(discriminate)). subst k. apply passes_0 in Hp as [-> ->]. rewrite ES in H. cbn [fst snd] in H.
    destruct H as [(Ha & i & t & Hi & En & HX & HT & Eq)|(Q & Eh & Hd & _ & Ea & Hn)].
    + split; [lia|]. destruct HT as [[H1 H2]|(_ & _ & X)]; [|congruence]. split.
      * intros [Q1 _]. congruence.
      * intros _. unfold step. rewrite H1. eauto.
    + split; [lia|]. split; [auto|contradiction].
  - contradiction.
  - destruct E as (k & h0 & b & Hp & Hk & H & Hn). specialize (Hk ltac:(discriminate)). subst k. apply passes_0 in Hp as [-> ->]. rewrite ES in H.
    injection H as -> ->. split; [lia|auto].
Qed.

(* both contracts are needed: a promise that uses its resolver twice makes run_async use freed storage, and a promise that
   keeps its resolver for later makes run_sync do so *)
Theorem C37_contracts_needed :
  (exists p a ls h, run Async p a ls = Some (UseAfterFree h)) /\
  (exists p a ls h, Forall (uses_at_most 1) (stages p) /\ run Sync p a ls = Some (UseAfterFree h)).
Proof.
  split.
  - exists (Stage (Prom 1 (fun _ _ => [Now (Resolve []); Now (Resolve [])]))), [], [Tick; Tick; Tick]. eexists. reflexivity.
  - exists (Stage (Prom 1 (fun _ _ => [Later (Resolve [])]))), [], [Tick; Fire 0]. eexists. split; [|reflexivity]. repeat constructor.
Qed.

(* C38: a rejection e reaching the stages pre ++ Catch n iv f :: post, where no catch of pre takes e, is given to the catch:
   nothing runs in between, and after the handler the pipeline terminates *)
Theorem C38_first_catch : forall q pre n iv f post a ls c h e,
  let p := Pipe [q; Pipe (map Stage pre); Stage (Catch n iv f); Pipe (map Stage post)] in
  Forall (uses_at_most 1) (stages p) -> run Async p a ls = Some (Running c) -> quiet c ->
  seq (stages q) [] (Resolve a) = (h, Rejected e) ->
  existsb (accepts e) pre = false -> iv (types e) = true ->
  hist c = h ++ [Caught n e; EndTerminate] /\ alive c = false.
Proof.
  intros q pre n iv f post a ls c h e p HU E Q Hq Hpre Hiv.
  assert (FM : forall l, flat_map stages (map Stage l) = l) by (induction l as [|x l IH]; cbn; [auto|now rewrite IH]).
  assert (ES : exists r, seq (stages p) [] (Resolve a) = (h ++ [Caught n e], r) /\ (r = Terminated \/ r = Died)).
  { cbn. rewrite !FM, app_nil_r, seq_app, Hq, seq_app, seq_reject_skip by auto. cbn. rewrite Hiv. destruct (f h e); eauto. }
  destruct ES as (r & ES & Hr). pose proof (C37_pipeline p a ls _ HU E _ _ ES) as (_ & _ & HQ & _). destruct (HQ Q) as (Eh & Hd & Ha).
  destruct Hr as [-> | ->]; [|congruence]. rewrite Eh, <- app_assoc. split; auto. apply Ha. auto.
Qed.

(* a rejection no catch takes goes past every stage to the end (where it does not compile) *)
Theorem C38_unhandled : forall q rest a ls c h e,
  let p := Pipe [q; Pipe (map Stage rest)] in
  Forall (uses_at_most 1) (stages p) -> run Async p a ls = Some (Running c) -> quiet c ->
  seq (stages q) [] (Resolve a) = (h, Rejected e) ->
  existsb (accepts e) rest = false -> hist c = h ++ [EndReject e].
Proof.
  intros q rest a ls c h e p HU E Q Hq Hr.
  assert (FM : forall l, flat_map stages (map Stage l) = l) by (induction l as [|x l IH]; cbn; [auto|now rewrite IH]).
  assert (ES : seq (stages p) [] (Resolve a) = (h, Rejected e)).
  { cbn. rewrite !FM, app_nil_r, seq_app, Hq. now apply seq_reject_skip. }
  pose proof (C37_pipeline p a ls _ HU E _ _ ES) as (_ & _ & HQ & _). destruct (HQ Q) as (Eh & _). exact Eh.
Qed.

(* a pipeline that resolves does exactly what it would do with all its catches taken out *)
Theorem C38_catches_bypassed : forall p a ls ls' c c' b,
  Forall (uses_at_most 1) (stages p) ->
  run Async p a ls = Some (Running c) -> In (EndResolve b) (hist c) ->
  run Async (Pipe (map Stage (filter (fun s => negb (is_catch s)) (stages p)))) a ls' = Some (Running c') -> quiet c' ->
  hist c' = hist c.
Proof.
  intros p a ls ls' c c' b HU E Hin E' Q'.
  destruct (seq (stages p) [] (Resolve a)) as [h r] eqn:ES.
  pose proof (C37_pipeline p a ls _ HU E h r ES) as (_ & [d Hd] & HQ & HNQ).
  destruct (seq_names (stages p) [] (Resolve a)) as (d0 & Ed & _ & HE & _). rewrite ES in Ed. cbn in Ed. subst d0.
  assert (NH : ~ In (EndResolve b) h). { intros X. assert (existsb is_end h = true) by (apply existsb_exists; eauto). congruence. }
  assert (In (EndResolve b) (h ++ end_events r)) as X by (rewrite <- Hd; apply in_app_iff; auto).
  apply in_app_iff in X as [X|X]; [contradiction|]. destruct r as [b'|b'| | |]; cbn in X; try contradiction; destruct X as [X|X]; try contradiction; try discriminate.
  injection X as ->.
  assert (Q : hist c = h ++ [EndResolve b]).
  { cbn in Hd. apply in_split in Hin as (x & y & Hxy). rewrite Hxy in Hd.
    assert (L : y ++ d = []).
    { destruct (y ++ d) as [|z w] eqn:Y; auto. exfalso. apply NH. rewrite <- app_assoc in Hd. cbn in Hd. rewrite Y in Hd.
      destruct (@exists_last _ (z :: w) ltac:(discriminate)) as (w' & z' & Ew). rewrite Ew in Hd.
      change (x ++ EndResolve b :: w' ++ [z']) with (x ++ (EndResolve b :: w') ++ [z']) in Hd. rewrite app_assoc in Hd.
      apply app_inj_tail in Hd as [Hd _]. rewrite <- Hd. apply in_app_iff. right. now left. }
    apply app_eq_nil in L as [-> ->]. rewrite Hxy. now rewrite app_nil_r in Hd. }
  set (l' := filter (fun s => negb (is_catch s)) (stages p)) in *.
  assert (FM : stages (Pipe (map Stage l')) = l') by (cbn; clear; induction l' as [|x l IH]; cbn; [auto|now rewrite IH]).
  assert (HU' : Forall (uses_at_most 1) (stages (Pipe (map Stage l')))).
  { rewrite FM. apply Forall_forall. intros s Hs. apply filter_In in Hs as [Hs _]. eapply Forall_forall; eauto. }
  assert (ES' : seq (stages (Pipe (map Stage l'))) [] (Resolve a) = (h, Resolved b)) by (rewrite FM; now apply seq_without_catches).
  pose proof (C37_pipeline _ a ls' _ HU' E' _ _ ES') as (_ & _ & HQ' & _). destruct (HQ' Q') as (Eh & _). now rewrite Eh, Q.
Qed.

(* how a pipe is grouped makes no difference: in particular a catch of an inner pipe also handles rejections of the stages
   before that pipe, although promise_join_nested_t (fwd/detail/promise_join.hpp:40-72, unused) was written to prevent it *)
Theorem C38_nesting_is_flat : forall m p a ls, run m p a ls = run m (Pipe (map Stage (stages p))) a ls.
Proof.
  intros. unfold run. rewrite !join_stages. f_equal. f_equal. cbn. induction (stages p) as [|x l IH]; cbn; [auto|now rewrite <- IH].
Qed.

Theorem C38_inner_catch_separate_refuted :
  ~ (forall s n iv f a ls c, uses_at_most 1 s -> run Async (Pipe [Stage s; Pipe [Stage (Catch n iv f)]]) a ls = Some (Running c) ->
     forall e, ~ In (Caught n e) (hist c)).
Proof.
  intros H. refine (H (Try 1 (fun _ _ => Throw [])) 2 (fun _ => true) (fun _ _ => Ret []) [] [Tick; Tick; Tick] _ I eq_refl [] _). cbn. auto.
Qed.

(* C39: a loop is its passes one after another; each pass is what the stages do in turn, starts only when the one before
   has resolved, and gets what that one resolved.  One call is outstanding at a time.  The loop ends when a pass is
   terminated or its rejection is caught; then its storage is released and nothing happens any more. *)
Theorem C39_loop : forall p a ls o, Forall (uses_at_most 1) (stages p) -> run Loop p a ls = Some o ->
  match o with
  | UseAfterFree _ => False
  | Aborted h' => exists k h b, passes (stages p) a k h b /\ seq (stages p) h (Resolve b) = (h', Died)
  | Running c => exists k h b h' r, passes (stages p) a k h b /\ seq (stages p) h (Resolve b) = (h', r) /\
      k * S (length (stages p)) <= length ls <= S k * S (length (stages p)) /\
      length (stack c) + length (pool c) <= 1 /\
      ((alive c = true /\ (exists d1 d2, hist c = h ++ d1 /\ hist c ++ d2 = h') /\
        exists lb o', step Loop (promise_join p []) c lb = Some o') \/
       (hist c = h' ++ end_events r /\ (forall x, r <> Resolved x) /\ r <> Died /\ (alive c = false <-> r = Terminated) /\
        forall lb, step Loop (promise_join p []) c lb = None))
  end.
Proof.
  intros p a ls o HU E. pose proof E as E'. apply run_inv in E; [|apply calm_async; auto; discriminate].
  destruct o as [c|h'|h']; cbn in E.
  - pose proof (inv_progress _ _ _ _ _ E) as PR. rewrite join_stages, app_nil_r.
    destruct E as (k & h & b & Hp & _ & H). destruct (seq (stages p) h (Resolve b)) as [h' r] eqn:ES. cbn [fst snd] in H.
    exists k, h, b, h', r. split; [auto|]. split; [auto|].
    destruct H as [(Ha & i & t & Hi & En & HX & HT & Eq)|(Q & Eh & Hd & Hl & Ea & Hn)].
    + split; [cbn [Nat.mul]; lia|]. split; [destruct HT as [[-> ->]|(-> & -> & _)]; cbn; lia|]. left. split; [auto|]. split.
      * destruct HX as [d1 Hd1]. destruct (seq_extends (skipn i (stages p)) (hist c) t) as [d2 Ed]. rewrite Eq in Ed. eauto.
      * destruct PR as [[Q1 Q2]|PR]; auto. destruct HT as [[H1 H2]|(H1 & H2 & _)]; congruence.
    + split; [|split].
      * exact Hn.
      * destruct Q as [-> ->]. cbn. lia.
      * right. split; [auto|]. split; [auto|]. split; [auto|]. split; [|intros; now apply quiet_stuck]. rewrite Ea. destruct r; try congruence; cbn; split; auto; try discriminate. exfalso. now apply (Hl eq_refl a0).
  - contradiction.
  - destruct E as (k & h & b & Hp & _ & H & _). eauto 10.
Qed.

(* the loop runs on as long as its passes resolve: however many times that is, there is a run in which it does.  (A pass of a
   plain function; with no callback in between every pass is made deeper in the same call stack, which is not bounded.) *)
Theorem C39_call_stack_bounded_refuted :
  ~ (exists D, forall p a ls c, Forall (uses_at_most 1) (stages p) -> run Loop p a ls = Some (Running c) -> depth c <= D).
Proof.
  intros [D H].
  assert (G : forall n h d, exists h', exec Loop [Fn 1 (fun _ x => Ret x)] (Running (mk_cfg [(0, Resolve [])] [] true h d)) (repeat Tick (2 * n))
     = Some (Running (mk_cfg [(0, Resolve [])] [] true h' (d + 2 * n)))).
  { induction n as [|n IH]; intros h d.
    - exists h. cbn. now rewrite Nat.add_0_r.
    - replace (2 * S n) with (S (S (2 * n))) by lia. destruct (IH ((h ++ [Ran 1 []]) ++ [Restart []]) (S (S d))) as [h' E].
      exists h'. refine (eq_trans E _). do 3 f_equal. lia. }
  destruct (G (S D) [] 0) as [h' E]. specialize (H (Stage (Fn 1 (fun _ x => Ret x))) [] _ _ ltac:(repeat constructor) E). cbn -[Nat.mul] in H. lia.
Qed.

(* ---- examples ---- *)
(* 5 -> 5+1 -> (callback) 12 -> tap -> end, with a catch that does nothing *)
Definition add1 (_ : list event) (a : args) : fres := match a with [(t, v)] => Ret [(t, (v + 1)%N)] | _ => Throw [(9, 0%N)] end.
Definition dbl (_ : list event) (a : args) : list act := match a with [(t, v)] => [Later (Resolve [(t, (v * 2)%N)])] | _ => [Now (Reject [(7, 1%N)])] end.
Definition ignore (_ : list event) (_ : args) : fres := Ret [].
Definition ex_pipe : pipe := Pipe [Stage (Fn 1 add1); Pipe [Stage (Prom 2 dbl); Stage (Catch 3 (fun _ => true) ignore)]; Stage (Tap 4 ignore)].

Example C37_ex : Forall (uses_at_most 1) (stages ex_pipe) /\ Forall (uses_at_least 1) (stages ex_pipe) /\
  run Async ex_pipe [(0, 5%N)] [Tick; Tick; Fire 0; Tick; Tick] =
    Some (Running (mk_cfg [] [] false [Ran 1 [(0, 5%N)]; Ran 2 [(0, 6%N)]; Ran 4 [(0, 12%N)]; EndResolve [(0, 12%N)]] 3)) /\
  seq (stages ex_pipe) [] (Resolve [(0, 5%N)]) = ([Ran 1 [(0, 5%N)]; Ran 2 [(0, 6%N)]; Ran 4 [(0, 12%N)]], Resolved [(0, 12%N)]).
Proof.
  split; [|split; [|split; reflexivity]]; cbn; repeat apply Forall_cons; try apply Forall_nil; try exact I; intros h a; unfold dbl; destruct a as [|[t v] [|]]; cbn; lia.
Qed.

(* two arguments: the plain function is fine with them only inside try_; the second catch takes the exception *)
Definition ex_catch : pipe :=
  Pipe [Stage (Try 1 add1); Stage (Fn 2 add1); Stage (Catch 3 (fun t => match t with [7] => true | _ => false end) ignore);
        Stage (Tap 4 ignore); Stage (Catch 5 (fun t => match t with [9] => true | _ => false end) ignore); Stage (Fn 6 add1)].
Example C38_ex :
  run Async ex_catch [(0, 1%N); (0, 2%N)] [Tick; Tick; Tick; Tick; Tick; Tick; Tick] =
    Some (Running (mk_cfg [] [] false [Ran 1 [(0, 1%N); (0, 2%N)]; Caught 5 [(9, 0%N)]; EndTerminate] 7)) /\
  run Async ex_catch [(0, 1%N)] [Tick; Tick; Tick; Tick; Tick; Tick; Tick] =
    Some (Running (mk_cfg [] [] false [Ran 1 [(0, 1%N)]; Ran 2 [(0, 2%N)]; Ran 4 [(0, 3%N)]; Ran 6 [(0, 3%N)]; EndResolve [(0, 4%N)]] 7)).
Proof. split; vm_compute; reflexivity. Qed.

(* a loop that counts to three, a callback each time, and then rejects *)
Definition upto3 (_ : list event) (a : args) : list act :=
  match a with [(t, v)] => if (v <? 3)%N then [Later (Resolve [(t, (v + 1)%N)])] else [Now (Reject [(7, v)])] | _ => [] end.
Definition ex_loop : pipe := Pipe [Stage (Prom 1 upto3); Stage (Catch 2 (fun _ => true) ignore)].
Example C39_ex :
  run Loop ex_loop [(0, 1%N)] [Tick; Fire 0; Tick; Tick; Fire 0; Tick; Tick; Tick; Tick] =
    Some (Running (mk_cfg [] [] false [Ran 1 [(0, 1%N)]; Restart [(0, 2%N)]; Ran 1 [(0, 2%N)]; Restart [(0, 3%N)]; Ran 1 [(0, 3%N)];
                                       Caught 2 [(7, 3%N)]; EndTerminate] 5)).
Proof. vm_compute. reflexivity. Qed.

Print Assumptions C37_pipeline.
Print Assumptions C37_exactly_once.
Print Assumptions C37_sync.
Print Assumptions C37_contracts_needed.
Print Assumptions C38_first_catch.
Print Assumptions C38_unhandled.
Print Assumptions C38_catches_bypassed.
Print Assumptions C38_nesting_is_flat.
Print Assumptions C38_inner_catch_separate_refuted.
Print Assumptions C39_loop.
Print Assumptions C39_call_stack_bounded_refuted.
