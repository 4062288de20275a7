(* C94 replicas agree when everything has arrived; C95 a client keeps showing its own changes. *)
From Verif Require Import Base DeltaModel DeltaSpec DeltaProofs OptModel OptSpec OptProofs.
Open Scope nat_scope.

Section Props.
Context {V : Type} (eqb : V -> V -> bool).
Hypothesis eqb_spec : forall x y, eqb x y = true <-> x = y.
Variables (n : nat) (e : list V) (ls : list (label V)) (s : net V).
Hypothesis Run : exec eqb n (start e) ls = Some s.

(* C94: the root has what the changes make of the entity, in the order in which it got them *)
Theorem C94_root : history (map snd (order s)) e (root s).
Proof. rewrite (order_root eqb n e ls s Run). apply (history_ov eqb eqb_spec). Qed.

(* C94: a client that has no change of its own under way shows what the root had at the message which it handled last *)
Theorem C94_prefix i : Confirmed_all ls s i -> history (firstn (length (order s) - length (inbox (clients s i))) (map snd (order s))) e (view s i).
Proof. apply (view_prefix eqb eqb_spec n e ls s i Run). Qed.

(* C94: when nothing is under way all clients show what the root has, whatever the identifiers of the messages were *)
Theorem C94_rest i : outbox (clients s i) = [] -> inbox (clients s i) = [] -> view s i = root s.
Proof.
  intros Ho Hi. assert (C : Confirmed_all ls s i) by (split; [exact Ho|rewrite Hi; auto]).
  pose proof (C94_prefix i C) as H. rewrite Hi in H. cbn [length] in H. rewrite Nat.sub_0_r in H.
  rewrite firstn_all2 in H by (rewrite map_length; apply le_n). exact (history_unique eqb eqb_spec _ _ _ _ H C94_root).
Qed.

(* C94: if the users change nothing more, then after a bounded number of steps nothing is under way *)
Theorem C94_settles : exists bound, forall more s', exec eqb n s more = Some s' -> existsb is_change more = false ->
  length more <= bound /\ (At_rest n s' \/ exists l s2, is_change l = false /\ step eqb n s' l = Some s2) /\ (length more = bound -> At_rest n s').
Proof.
  exists (load n s). intros more s' E H. pose proof (load_exec eqb n e ls s more s' Run E H) as L. split; [lia|]. split; [apply busy_step|].
  intros Hl. destruct (busy_step eqb n s') as [X|(l & s2 & Hc & E2)]; [exact X|]. exfalso.
  assert (E3 : exec eqb n s (more ++ [l]) = Some s2) by (rewrite exec_app, E; cbn; rewrite E2; reflexivity).
  assert (H3 : existsb is_change (more ++ [l]) = false) by (rewrite existsb_app, H; cbn; rewrite Hc; reflexivity).
  pose proof (load_exec eqb n e ls s (more ++ [l]) s2 Run E3 H3) as L3. rewrite app_length in L3. cbn in L3. lia.
Qed.

(* C94: an own change is shown at once, and by no one else *)
Theorem C94_at_once i u d s' : step eqb n s (Change i u d) = Some s' -> overwrites d (view s i) (view s' i) /\ forall j, j <> i -> view s' j = view s j.
Proof.
  cbn -[Nat.ltb]. destruct (_ && _); [|discriminate]. intros E. injection E as <-. unfold view. cbn [clients]. split.
  - rewrite set_same. cbn. unfold apply_local_delta. destruct (apply_delta eqb d (value (shown (clients s i)))) as [v r] eqn:E. cbn.
    replace v with (fst (apply_delta eqb d (value (shown (clients s i))))) by now rewrite E. apply (ov_overwrites eqb eqb_spec).
  - intros j Hj. rewrite (set_other _ _ _ _ Hj). reflexivity.
Qed.

Lemma uid_once (l : list (label V)) i j u d d' : NoDup (uids l) -> In (Change i u d) l -> In (Change j u d') l -> i = j.
Proof.
  assert (U : forall (l : list (label V)) i u d, In (Change i u d) l -> In u (uids l)) by (intros l' i' u' d0 H; apply in_flat_map; eexists; split; [exact H|left; reflexivity]).
  induction l as [|x l IH]; intros Nd H1 H2; [destruct H1|]. destruct H1 as [->|H1], H2 as [H2|H2].
  - congruence.
  - cbn in Nd. inversion Nd; subst. exfalso. eauto.
  - subst x. cbn in Nd. inversion Nd; subst. exfalso. eauto.
  - apply IH; auto. destruct x; auto. cbn in Nd. inversion Nd; assumption.
Qed.

(* C95: a member that only one client writes has there, at every moment, the value which that client wrote last, if no identifier is
   used twice.  Full statement: as long as a change of a client is not confirmed it is shown there, see below. *)
Theorem C95_kept_partial i x : NoDup (uids ls) -> Only_writer i x ls -> x < length e -> member (view s i) x = last_written x (member e x) (made_by i ls).
Proof.
  intros Nd Hw Hx. apply (k_val e i x (fun u => existsb (N.eqb u) (map fst (made_by i ls)))).
  apply (keeps_reach eqb eqb_spec n e i x _ Hx ls s Run Nd); [|exact Hw].
  intros j u d H. rewrite existsb_in, in_map_iff. split.
  - intros ((u', d') & Eu & Hm). cbn in Eu. subst u'. apply made_change in Hm. eapply uid_once; eauto.
  - intros ->. exists (u, d). split; [reflexivity|]. apply made_change. exact H.
Qed.

(* C95, at every moment and whatever the identifiers were: a client shows all changes which it has seen up to the last moment at which
   all its changes were confirmed, and after it every change but the confirmations of its own ones, in the order in which it saw them *)
Theorem C95_exact i : (exists before since ds, story i (order s) ls = before ++ since /\ last_rest before since /\ shows before since ds) /\
  forall before since ds, story i (order s) ls = before ++ since -> last_rest before since -> shows before since ds ->
    history (changes_of before ++ ds) e (view s i).
Proof.
  destruct (story_run eqb eqb_spec n e ls s i Run) as (E & Hr & Ha). unfold view. rewrite E. set (ops := story i (order s) ls) in *.
  destruct (shown_exactly eqb eqb_spec e ops Hr Ha) as (b & c & ds & Eo & L & S & Ev). split; [exists b, c, ds; auto|].
  intros b' c' ds' E' L' S'. rewrite Eo in E'. destruct (last_rest_unique b c b' c' L L' E') as [<- <-]. rewrite (shows_unique b c _ _ S' S), Ev.
  apply (history_ov eqb eqb_spec).
Qed.
End Props.
Print Assumptions C94_root.
Print Assumptions C94_prefix.
Print Assumptions C94_rest.
Print Assumptions C94_settles.
Print Assumptions C94_at_once.
Print Assumptions C95_kept_partial.
Print Assumptions C95_exact.

(* two clients change the same member and others at the same time *)
Definition both : list (label nat) := [Change 0 1%N [Some 1; None]; Change 1 2%N [Some 2; Some 5]; Serve 1; Serve 0; Change 0 3%N [None; Some 6]; Deliver 1; Deliver 1; Deliver 0; Deliver 0].
Example C94_ex : exists s, exec Nat.eqb 2 (start [0; 0]) both = Some s /\ root s = [1; 5] /\ view s 1 = [1; 5] /\ outbox (clients s 1) = [] /\ inbox (clients s 1) = [] /\
  outbox (clients s 0) = [(3%N, [None; Some 6])] /\ exists s', exec Nat.eqb 2 s [Serve 0; Deliver 1; Deliver 0] = Some s' /\ root s' = [1; 6] /\ view s' 0 = [1; 6] /\ view s' 1 = [1; 6].
Proof. eexists. split; [vm_compute; reflexivity|]. do 5 (split; [vm_compute; reflexivity|]). eexists. split; [vm_compute; reflexivity|]. vm_compute. auto. Qed.
(* the program of test/nbdl/core/local_version.cpp:37-89 with a root that answers *)
Example C95_kept_ex : exists s, exec Nat.eqb 1 (start [0]) [Change 0 1%N [Some 1]; Change 0 2%N [Some 2]; Serve 0; Deliver 0; Change 0 3%N [Some 3]; Serve 0; Deliver 0] = Some s /\
  view s 0 = [3] /\ root s = [2] /\ last_written 0 (Some 0) (made_by 0 [Change 0 1%N [Some 1]; Change 0 2%N [Some 2]; Serve 0; Deliver 0; Change 0 3%N [Some 3]; Serve 0; Deliver 0]) = Some 3.
Proof. eexists. split; [vm_compute; reflexivity|]. vm_compute. auto. Qed.

(* A change of another client which the root has first hides an own change that is not confirmed, until that is: 1, then 2, then 1 *)
Theorem C95_shown_refuted : ~ forall n (e : list nat) ls s i u d x w, exec Nat.eqb n (start e) ls = Some s -> NoDup (uids ls) ->
  In (u, d) (outbox (clients s i)) -> made_by i ls = [(u, d)] -> written d x = Some w -> member (view s i) x = Some w.
Proof.
  intros H. set (ls := [Change 0 1%N [Some 1]; Change 1 2%N [Some 2]; Serve 1; Deliver 0]).
  assert (E : exists s, exec Nat.eqb 2 (start [0]) ls = Some s /\ outbox (clients s 0) = [(1%N, [Some 1])] /\ member (view s 0) 0 = Some 2) by (eexists; split; [vm_compute; reflexivity|]; split; vm_compute; reflexivity).
  destruct E as (s & E & Eo & Ev). assert (X : member (view s 0) 0 = Some 1); [|congruence].
  apply (H 2 [0] ls s 0 1%N [Some 1] 0 1 E); try reflexivity.
  - cbn. constructor; [intros [X|[]]; discriminate|constructor; [intros []|constructor]].
  - rewrite Eo. left. reflexivity.
Qed.
Print Assumptions C95_shown_refuted.
Example C95_shown_ex : exists s s' s2, exec Nat.eqb 2 (start [0]) [Change 0 1%N [Some 1]] = Some s /\ view s 0 = [1] /\
  exec Nat.eqb 2 s [Change 1 2%N [Some 2]; Serve 1; Deliver 0] = Some s' /\ view s' 0 = [2] /\ exec Nat.eqb 2 s' [Serve 0; Deliver 0] = Some s2 /\ view s2 0 = [1].
Proof. eexists. eexists. eexists. split; [vm_compute; reflexivity|]. split; [vm_compute; reflexivity|]. split; [vm_compute; reflexivity|]. split; [vm_compute; reflexivity|]. split; [vm_compute; reflexivity|]. vm_compute. reflexivity. Qed.

(* If an identifier is used twice, a client which is alone goes back to its earlier change for a while *)
Theorem C95_identifiers_refuted : ~ forall n (e : list nat) ls s i x, exec Nat.eqb n (start e) ls = Some s -> Only_writer i x ls -> x < length e ->
  member (view s i) x = last_written x (member e x) (made_by i ls).
Proof.
  intros H. set (ls := [Change 0 7%N [Some 1]; Change 0 7%N [Some 2]; Serve 0; Serve 0; Deliver 0]).
  assert (E : exists s, exec Nat.eqb 1 (start [0]) ls = Some s /\ member (view s 0) 0 = Some 1) by (eexists; split; [vm_compute; reflexivity|]; vm_compute; reflexivity).
  destruct E as (s & E & Ev). assert (X : member (view s 0) 0 = Some 2); [|congruence].
  rewrite (H 1 [0] ls s 0 0 E); [reflexivity| |cbn; lia].
  intros j u d Hin Hj. cbn in Hin. repeat (destruct Hin as [Hin|Hin]; [try discriminate; injection Hin; intros; congruence|]). destruct Hin.
Qed.
Print Assumptions C95_identifiers_refuted.

(* the run of C95_shown_ex: what client 0 has seen, before and after its change is confirmed *)
Example C95_exact_ex : let ls := [Change 0 1%N [Some 1]; Change 1 2%N [Some 2]; Serve 1; Deliver 0] in
  exists s s', exec Nat.eqb 2 (start [0]) ls = Some s /\ story 0 (order s) ls = [Local 1%N [Some 1]; Confirmed 2%N [Some 2]] /\ view s 0 = [2] /\
    last_rest [] (story 0 (order s) ls) /\ shows [] (story 0 (order s) ls) [[Some 1]; [Some 2]] /\
    exec Nat.eqb 2 s [Serve 0; Deliver 0] = Some s' /\ changes_of (story 0 (order s') (ls ++ [Serve 0; Deliver 0])) = [[Some 1]; [Some 2]; [Some 1]] /\ view s' 0 = [1].
Proof.
  intros ls. eexists. eexists. split; [vm_compute; reflexivity|]. split; [reflexivity|]. split; [reflexivity|]. cbn [order].
  change (story 0 [(2%N, [Some 2])] ls) with [Local 1%N [Some 1]; Confirmed 2%N [Some 2]]. split; [|split; [|split; [vm_compute; reflexivity|split; reflexivity]]].
  - split; [left; reflexivity|]. intros a b E Ha H. assert (U : local_uids (run Nat.eqb (make_store [0]) ([] ++ a)) = []).
    { apply (no_outstanding Nat.eqb). destruct H as [H|(a' & u & d & H & _ & H')]; [contradiction|]. cbn in H |- *. exact H'. }
    destruct a as [|x a]; [congruence|]. injection E as <- E. destruct a as [|x a]; [discriminate|]. injection E as <- E. destruct a as [|x a]; discriminate.
  - apply shows_made, shows_foreign; [|constructor]. rewrite <- (uids_outstanding Nat.eqb [0]). vm_compute. intuition discriminate.
Qed.
