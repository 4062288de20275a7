(* C68: events reach the listeners that are there, and no others. *)
From Verif Require Import Base EvModel EvSpec EvProofs.
Open Scope N_scope.

(* Whatever the handlers do, even to listeners that the event has yet to reach and to their own: the function of a destroyed
   listener is never called *)
Theorem C68_never_called_dead : forall l c, reaches (starts l) c -> c <> DeadCall.
Proof. intros l c R E. pose proof (reaches_good _ _ R inv_init) as G. rewrite E in G. exact G. Qed.

(* when handlers only look at their event, what happens is determined by the program: see history *)
Theorem C68_exactly_the_listeners : forall l, Forall quiet_effect l ->
  exists s, reaches (starts l) (Run s []) /\ rev (trace s) = history l 0 [].
Proof.
  intros l Q. assert (K : forall l s, Forall quiet_effect l -> inv s -> (forall o, In o (objects s) -> quiet (l_handler o)) ->
    exists s', reaches (Run s [Effects l]) (Run s' []) /\ rev (trace s') = rev (trace s) ++ history l (next s) (objects s)).
  { clear. induction l as [|e l IH]; intros s Q H HQ.
    - exists s. split; [eapply reach_step; [reflexivity|apply reach_refl]|]. cbn. now rewrite app_nil_r.
    - inversion Q as [|? ? Qe Ql]; subst. destruct e as [el name h|f|el name ev].
      + destruct (IH (listen el name h s) Ql (inv_listen el name h s H)) as (s' & R & T).
        { intros o Ho. cbn in Ho. apply in_app_iff in Ho. destruct Ho as [Ho|[<-|[]]]; [auto|exact Qe]. }
        exists s'. split; [eapply reach_step; [reflexivity|exact R]|]. rewrite T. reflexivity.
      + destruct (IH (drop f s) Ql (inv_drop f s H)) as (s' & R & T).
        { intros o Ho. apply HQ. now apply drop_objects in Ho. }
        exists s'. split; [eapply reach_step; [reflexivity|exact R]|]. rewrite T, drop_trace. cbn [history]. f_equal. unfold drop.
        destruct (find_object f s) as [o|] eqn:E; [reflexivity|]. f_equal. unfold find_object in E. clear -E. induction (objects s) as [|x os IH]; [reflexivity|].
        cbn in *. destruct (l_fn x =? f); [discriminate|]. cbn. now rewrite <- IH.
      + destruct (quiet_dispatch el name ev (filter (listens el name) (objects s)) s (data s) (trace s) [Effects l] H HQ) as (d' & R).
        { intros o Ho. now apply filter_In in Ho. }
        destruct (IH (with_trace s d' (rev (flat_map (notes ev) (filter (listens el name) (objects s))) ++ trace s)) Ql) as (s' & R' & T'); [|exact HQ|].
        { eapply inv_same; eauto. }
        exists s'. split.
        * eapply reach_step; [reflexivity|]. rewrite (functions_dom _ _ _ H). eapply reaches_trans; [|exact R']. replace s with (with_trace s (data s) (trace s)) at 1 by now destruct s. exact R.
        * rewrite T'. cbn [history with_trace trace objects next]. rewrite rev_app_distr, rev_involutive, <- app_assoc. reflexivity. }
  destruct (K l init Q inv_init) as (s & R & T); [intros o []|]. exists s. auto.
Qed.

(* handlers that look at their event only before they send their message: nothing destroyed is used, and each sees the event
   it was called with, whatever the messages cause *)
Theorem C68_looks_first_partial : forall l c, looks_first_all l -> reaches (starts l) c ->
  match c with Run s _ => sees_own_event (trace s) | _ => False end.
Proof.
  intros l c L R. assert (T : tidy (starts l)).
  { split; [exact inv_init|]. split; [intros o ev []|]. split; [cbn; constructor; auto|exact I]. }
  pose proof (reaches_tidy _ _ R T) as G. destruct c; cbn in G; tauto.
Qed.

(* Whatever the handlers do: who looks sees the event that its listener was called with last *)
Theorem C68_sees_latest : forall l s k t1 f e t2, reaches (starts l) (Run s k) -> trace s = t1 ++ Saw f e :: t2 -> last_called f t2 = Some e.
Proof. intros l s k t1 f e t2 R E. exact (k_saw _ _ (kept_starts _ _ _ R) _ _ _ _ E). Qed.

(* and what was destroyed is used exactly by a handler that goes on when its own listener is gone *)
Theorem C68_exact : forall l s k, reaches (starts l) (Run s k) ->
  (step (Run s k) = Some DeadUse <-> exists f u r k', k = Handler f (u :: r) :: k' /\ ~ alive f s).
Proof.
  intros l s k R. pose proof (kept_starts _ _ _ R) as K. split.
  - intros H. destruct k as [|t k]; [discriminate|]. destruct t as [[|[el name h|f|el name ev] q]|el name [|f fs] ev|f [|[|q] r]]; cbn [step] in H; try discriminate.
    + destruct (existsb _ (dom s)); [|discriminate]. destruct (find_object f s); discriminate.
    + exists f, Look, r, k. split; auto. intros A. rewrite (k_data _ _ K f A) in H. destruct (k_task _ _ K f (Look :: r)) as [e E]; [left; auto|]. rewrite E in H. discriminate.
    + exists f, (Send q), r, k. split; auto. intros A. apply find_alive in A. destruct (find_object f s); congruence.
  - intros (f & u & r & k' & -> & A). cbn [step]. destruct u as [|q].
    + destruct (seen f s) as [e|] eqn:E; [|reflexivity]. exfalso. apply A. unfold seen in E. destruct (find _ (data s)) as [d|] eqn:Ed; [|discriminate].
      apply find_some in Ed as [D1 D2]. apply N.eqb_eq in D2. rewrite <- D2. exact (k_bound _ _ K d D1).
    + destruct (find_object f s) as [o|] eqn:E; [|reflexivity]. exfalso. apply A, find_alive. congruence.
Qed.

(* the full statements, for every handler, are false.  A handler that sends a message by which its own listener is destroyed
   and then looks at its event uses freed memory; so does one that sends twice *)
Theorem C68_use_after_own_drop_refuted : exists l, reaches (starts l) DeadUse.
Proof.
  exists [Listen 1 1 (fun _ => [Send [Drop 0]; Look]); Fire 1 1 7].
  do 20 (eapply reach_step; [vm_compute; reflexivity|] || idtac). apply reach_refl.
Qed.
Theorem C68_second_send_refuted : exists l, reaches (starts l) DeadUse.
Proof.
  exists [Listen 1 1 (fun _ => [Send [Drop 0]; Send []]); Fire 1 1 7].
  do 20 (eapply reach_step; [vm_compute; reflexivity|] || idtac). apply reach_refl.
Qed.
(* and a handler whose message causes the same event again sees the second event afterwards *)
Theorem C68_event_overwritten_refuted : exists l s k, reaches (starts l) (Run s k) /\ trace s = [Saw 0 8; Called 0 8; Called 0 7].
Proof.
  exists [Listen 1 1 (fun ev => if ev =? 7 then [Send [Fire 1 1 8]; Look] else []); Fire 1 1 7]. eexists _, _. split.
  - do 20 (eapply reach_step; [vm_compute; reflexivity|] || idtac). apply reach_refl.
  - reflexivity.
Qed.

(* ---- example: two listeners, one is destroyed by the other while the event is on its way to it ---- *)
Example C68_ex : exists s, reaches (starts [Listen 1 1 (fun _ => [Look; Send [Drop 1; Listen 1 1 (fun _ => [])]]); Listen 1 1 (fun _ => [Look]);
                                            Listen 1 2 (fun _ => []); Fire 1 1 7; Fire 1 1 8]) (Run s []) /\
  rev (trace s) = [Called 0 7; Saw 0 7; Called 0 8; Saw 0 8; Called 3 8].
Proof. eexists. split; [|shelve]. do 100 (eapply reach_step; [vm_compute; reflexivity|] || idtac). apply reach_refl. Unshelve. vm_compute. reflexivity. Qed.
Example C68_ex_history : history [Listen 1 1 (fun _ => [Look]); Listen 1 2 (fun _ => []); Fire 1 1 5; Drop 0; Fire 1 1 6; Fire 1 2 6] 0 []
  = [Called 0 5; Saw 0 5; Called 1 6].
Proof. reflexivity. Qed.
Print Assumptions C68_never_called_dead.
Print Assumptions C68_exactly_the_listeners.
Print Assumptions C68_looks_first_partial.
Print Assumptions C68_use_after_own_drop_refuted.
Print Assumptions C68_second_send_refuted.
Print Assumptions C68_event_overwritten_refuted.
Print Assumptions C68_sees_latest.
Print Assumptions C68_exact.
