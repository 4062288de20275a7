(* C78: a connection in the browser tells its promises what happens to the socket. *)
From Verif Require Import Base BclModel BclSpec BclProofs BclxProofs.
Open Scope nat_scope.

(* however the endpoint and the socket behave, if reads are started one after another and the state is kept while it connects or reads,
   no callback is called after its life, and the promises are told what the connection does *)
Theorem C78_told_partial : forall ls c, exec ls c -> disciplined Connecting ls = true ->
  exists s rest, c = Run s /\ told Connecting ls = rev (out s) ++ rest /\ (stack s = [] -> rest = []).
Proof.
  intros ls c E D. destruct (exec_inv ls c E D) as (s & -> & V). destruct V as [p A Q|p e os A Q O|o p e A B|p e A Q].
  - exists s, []. now rewrite app_nil_r.
  - exists s, (tells p (Fire e)). split; [reflexivity|]. split; [reflexivity|]. rewrite A. discriminate.
  - exists s, []. now rewrite app_nil_r.
  - exists s, []. now rewrite app_nil_r.
Qed.
Print Assumptions C78_told_partial.

(* what was begun comes to an end *)
Definition weight (k : list frame) : nat := list_sum (map (fun f => match f with Dispatch _ os => S (2 * length os) | Body _ => 1 end) k).
Lemma weight_cons f k : weight (f :: k) = (match f with Dispatch _ os => S (2 * length os) | Body _ => 1 end) + weight k. Proof. reflexivity. Qed.
Lemma tick_less s s' : step s Tick = Some (Run s') -> weight (stack s') < weight (stack s).
Proof.
  unfold step. destruct (stack s) as [|[e [|o os]|o] k] eqn:E; intros H; try discriminate.
  - injection H as <-. cbn [with_stack stack]. rewrite ?weight_cons; cbn [length]; lia.
  - assert (X : forall x, Run (with_stack (Dispatch e os :: k) s) = Run x -> weight (stack x) < weight (Dispatch e (o :: os) :: k)).
    { intros x Y. injection Y as <-. cbn [with_stack stack]. rewrite ?weight_cons; cbn [length]; lia. }
    destruct (listening e o s && _); [|apply X; congruence]. destruct (reaction o e s) as [[cb x]|]; [|apply X; congruence].
    destruct (is o cb); [|discriminate]. injection H as <-. cbn [with_stack stack]. rewrite ?weight_cons; cbn [length]; lia.
  - injection H as <-. cbn [with_stack stack]. rewrite ?weight_cons; cbn [length]; lia.
Qed.
Theorem C78_settles : forall ls s, exec ls (Run s) -> disciplined Connecting ls = true ->
  exists k s', exec (ls ++ repeat Tick k) (Run s') /\ stack s' = [] /\ rev (out s') = told Connecting ls.
Proof.
  intros ls s. remember (weight (stack s)) as w eqn:W. revert ls s W. induction w as [w IH] using (well_founded_induction lt_wf). intros ls s W E D.
  destruct (stack s) as [|f k] eqn:S.
  - exists 0, s. cbn [repeat]. rewrite app_nil_r. split; [exact E|]. split; [exact S|]. destruct (C78_told_partial ls (Run s) E D) as (s1 & rest & X & T & R). injection X as <-. rewrite (R S), app_nil_r in T. now rewrite T.
  - destruct (step s Tick) as [c|] eqn:St.
    + pose proof (ex_snoc ls Tick s c E St) as E1. assert (D1 : disciplined Connecting (ls ++ [Tick]) = true) by (rewrite disciplined_snoc, D; destruct (phase_of Connecting ls); reflexivity).
      destruct (C78_told_partial _ _ E1 D1) as (s1 & rest & -> & _). pose proof (tick_less s s1 St) as Lt. rewrite S in Lt.
      destruct (IH (weight (stack s1)) ltac:(subst w; exact Lt) (ls ++ [Tick]) s1 eq_refl E1 D1) as (k' & s' & E' & S' & T').
      exists (Datatypes.S k'), s'. cbn [repeat]. rewrite <- app_assoc in E'. split; [exact E'|]. split; [exact S'|]. rewrite T', told_snoc. replace (tells (phase_of Connecting ls) Tick) with (@nil (owner * outcome)) by (destruct (phase_of Connecting ls); reflexivity). apply app_nil_r.
    + exfalso. unfold step in St. rewrite S in St. destruct f as [e [|o os]|o]; try discriminate.
Qed.
Print Assumptions C78_settles.

(* no promise is told anything twice *)
Lemma told_owners ls : forall p, match p with
  | Connecting => forall n, In (Read n) (map fst (told p ls)) -> True
  | Idle n | Reading n => forall o, In o (map fst (told p ls)) -> exists k, o = Read k /\ n <= k
  | Ended | Gone => told p ls = []
  end.
Proof.
  induction ls as [|l ls IH]; intros p.
  - destruct p; cbn; auto; contradiction.
  - destruct p as [|n|n| |]; cbn [told].
    + auto.
    + intros o H. assert (G : tells (Idle n) l = []) by (destruct l as [[| | |[m|]]| | |]; reflexivity). rewrite G in H. cbn [app] in H. destruct l as [e| | |]; cbn [after] in H.
      * apply (IH (Idle n) o H).
      * apply (IH (Idle n) o H).
      * apply (IH (Reading n) o H).
      * specialize (IH Gone). cbn in IH. rewrite IH in H. contradiction.
    + intros o H. rewrite map_app in H. apply in_app_iff in H as [H|H].
      * destruct l as [[| | |[m|]]| | |]; cbn in H; try contradiction; destruct H as [<-|[]]; eauto.
      * destruct l as [[| | |[m|]]| | |]; cbn [after] in H; try exact (IH (Reading n) o H); try (specialize (IH Ended); cbn in IH; rewrite IH in H; contradiction).
        destruct (IH (Idle (S n)) o H) as (k & -> & Hk). exists k. split; [reflexivity|lia].
    + assert (G : tells Ended l = []) by (destruct l as [[| | |[m|]]| | |]; reflexivity). rewrite G. destruct l; cbn [after app]; try exact (IH Ended); exact (IH Gone).
    + assert (G : tells Gone l = []) by (destruct l as [[| | |[m|]]| | |]; reflexivity). rewrite G. destruct l; exact (IH Gone).
Qed.
Theorem C78_once : forall ls, NoDup (map fst (told Connecting ls)).
Proof.
  intros ls. generalize Connecting as p. induction ls as [|l ls IH]; intros p; cbn [told]; [constructor|]. rewrite map_app.
  assert (G : tells p l = [] \/ exists x, tells p l = [x]) by (destruct p, l as [[| | |[m|]]| | |]; cbn; eauto). destruct G as [G|(x & G)]; rewrite G; cbn [map app]; [apply IH|].
  constructor; [|apply IH]. intros H.
  destruct p as [|n|n| |], l as [[| | |[m|]]| | |]; cbn in G; try discriminate; injection G as <-; cbn [after fst] in H; try (pose proof (told_owners ls Ended) as N; cbn in N; rewrite N in H; contradiction).
  - destruct (told_owners ls (Idle 0) _ H) as (k & X & _). discriminate.
  - destruct (told_owners ls (Idle (S n)) _ H) as (k & X & L). injection X as <-. lia.
Qed.
Print Assumptions C78_once.

(* while there is always a read for the next message, the messages are those of the socket *)
Theorem C78_messages_partial : forall ls, disciplined (Idle 0) ls = true -> attentive (Idle 0) ls -> messages (told Connecting (Fire EOpen :: ls)) = sent ls.
Proof.
  intros ls D A. cbn [told tells after messages flat_map snd app]. change (messages (told (Idle 0) ls) = sent ls). revert D A.
  assert (E : forall ls, told Ended ls = []) by (intros l; exact (told_owners l Ended)).
  assert (G : forall p, (exists n, p = Idle n) \/ (exists n, p = Reading n) -> disciplined p ls = true -> attentive p ls -> messages (told p ls) = sent ls); [|apply G; eauto].
  induction ls as [|l ls IH]; intros p P D A; [reflexivity|]. cbn [told disciplined attentive] in *. apply andb_prop in D as [D1 D]. destruct A as [A1 A].
  unfold messages in *. rewrite flat_map_app. destruct P as [[n ->]|[n ->]].
  - destruct l as [[| | |[m|]]| | |]; cbn [allowed after tells flat_map app sent] in *; try contradiction; try (apply IH; eauto).
  - destruct l as [[| | |[m|]]| | |]; cbn [allowed after tells flat_map snd app sent] in *; try discriminate; try (apply IH; eauto).
    + now rewrite E.
    + now rewrite E.
    + cbn. f_equal. apply IH; eauto.
Qed.
Print Assumptions C78_messages_partial.

Fixpoint exec_from (s : st) (ls : list label) : option config :=
  match ls with [] => Some (Run s) | l :: r => match step s l with Some (Run s') => exec_from s' r | Some Bad => match r with [] => Some Bad | _ => None end | None => None end end.
Lemma exec_from_ok ls : forall s pre c, exec pre (Run s) -> exec_from s ls = Some c -> exec (pre ++ ls) c.
Proof.
  induction ls as [|l ls IH]; intros s pre c E H; cbn in H.
  - injection H as <-. now rewrite app_nil_r.
  - destruct (step s l) as [[s'|]|] eqn:St; [|destruct ls; [injection H as <-; eapply ex_snoc; eauto|discriminate]|discriminate].
    replace (pre ++ l :: ls) with ((pre ++ [l]) ++ ls) by now rewrite <- app_assoc. apply (IH s'); [eapply ex_snoc; eauto|exact H].
Qed.

(* a message that comes between two reads is lost *)
Theorem C78_lost_refuted : exists ls s, exec (Fire EOpen :: ls) (Run s) /\ disciplined Connecting (Fire EOpen :: ls) = true /\ stack s = [] /\
  sent ls = [7%N; 8%N] /\ messages (rev (out s)) = [8%N].
Proof.
  exists [Tick; Tick; Tick; Fire (EMessage (Some 7%N)); Tick; Start; Fire (EMessage (Some 8%N)); Tick; Tick; Tick]. eexists.
  split; [apply (exec_from_ok _ init [] _ ex_nil); vm_compute; reflexivity|]. repeat split; vm_compute; reflexivity.
Qed.
Print Assumptions C78_lost_refuted.

(* a read that starts after the socket was closed is not told: nothing more happens to the socket *)
Theorem C78_closed_refuted : exists ls s, exec ls (Run s) /\ disciplined Connecting ls = true /\ In (Fire EClose) ls /\ stack s = [] /\ phase_of Connecting ls = Reading 0 /\
  rev (out s) = [(Init, Ready)] /\ step s Tick = None.
Proof.
  exists [Fire EOpen; Tick; Tick; Tick; Fire EClose; Tick; Tick; Start]. eexists.
  split; [apply (exec_from_ok _ init [] _ ex_nil); vm_compute; reflexivity|]. repeat split; try (vm_compute; reflexivity). vm_compute. tauto.
Qed.
Print Assumptions C78_closed_refuted.

(* a state that is destroyed while it reads (or connects) leaves its listeners at the socket *)
Theorem C78_destroyed_refuted : exec [Fire EOpen; Tick; Start; Tick; Tick; Destroy; Fire (EMessage (Some 7%N)); Tick] Bad /\ exec [Destroy; Fire EClose; Tick] Bad.
Proof. split; apply (exec_from_ok _ init [] _ ex_nil); vm_compute; reflexivity. Qed.
Print Assumptions C78_destroyed_refuted.

(* C78: a state that was destroyed can neither read nor be destroyed again, whatever happens in between *)
Lemma gone_dead ls c : exec ls c -> forall s, c = Run s -> In Destroy ls -> alive s = false.
Proof.
  induction 1 as [|ls l s0 c H IH St]; intros s Q I; [contradiction|subst c]. specialize (IH s0 eq_refl). apply in_app_iff in I.
  assert (K : In Destroy ls -> alive s0 = false) by auto. clear IH.
  destruct l as [e| | |]; cbn in St.
  - destruct I as [I|[I|[]]]; [|discriminate]. destruct (stack s0); [|discriminate]. injection St as <-. cbn. auto.
  - destruct I as [I|[I|[]]]; [|discriminate]. specialize (K I). destruct (stack s0) as [|[e [|o os]|o] k]; try discriminate; try (injection St as <-; exact K).
    match type of St with context [if ?b then _ else _] => destruct b end; [|injection St as <-; exact K]. destruct (reaction o e s0) as [[cb x]|]; [|injection St as <-; exact K]. destruct (is o cb); [|discriminate]. injection St as <-. exact K.
  - destruct I as [I|[I|[]]]; [|discriminate]. destruct (in_cpp s0); [|discriminate]. rewrite (K I) in St. discriminate.
  - destruct (in_cpp s0); [|discriminate]. destruct (alive s0); [|discriminate]. injection St as <-. reflexivity.
Qed.
Theorem C78_gone : forall ls s l c, exec ls (Run s) -> In Destroy ls -> l = Start \/ l = Destroy -> step s l = Some c -> c = Bad.
Proof.
  intros ls s l c E I L St. pose proof (gone_dead ls _ E s eq_refl I) as A. destruct L as [-> | ->]; cbn in St; destruct (in_cpp s); try discriminate; rewrite A in St; congruence.
Qed.
Print Assumptions C78_gone.
Example C78_gone_ex : exec [Fire EOpen; Tick; Destroy; Tick; Tick; Start] Bad /\ exists s, exec [Destroy] (Run s) /\ step s Destroy = Some Bad.
Proof.
  split; [apply (exec_from_ok _ init [] _ ex_nil); vm_compute; reflexivity|]. eexists. split; [apply (exec_from_ok _ init [] _ ex_nil); vm_compute; reflexivity|reflexivity].
Qed.

(* each read is started by the resolver of the one before; a message that is not JSON in between *)
Example C78_ex : let ls := [Fire EOpen; Tick; Start; Tick; Tick; Fire (EMessage (Some 7%N)); Tick; Start; Tick; Tick; Fire (EMessage None); Tick; Tick;
    Fire (EMessage (Some 8%N)); Tick; Start; Tick; Tick; Fire EError; Tick; Tick; Destroy; Tick; Tick; Fire EClose; Tick; Tick] in
  disciplined Connecting ls = true /\ exists s, exec ls (Run s) /\ stack s = [] /\ rev (out s) = [(Init, Ready); (Read 0, Got 7%N); (Read 1, Got 8%N); (Read 2, Failed EError)].
Proof.
  intros ls. split; [vm_compute; reflexivity|]. eexists. split; [apply (exec_from_ok _ init [] _ ex_nil); vm_compute; reflexivity|]. split; vm_compute; reflexivity.
Qed.

(* C78: whatever the endpoint does.  Who waits is told when an event comes that it wants, unless the state is gone or a later read was
   started: then the behaviour is undefined, and it is in no other case than that and the use of a state that is gone. *)
Theorem C78_exact : forall ls c, exec ls c ->
  match c with
  | Bad => judge connecting ls = None
  | Run s => match judge connecting ls with
             | Some v => stack s = [] -> rev (out s) = heard v
             | None => stack s <> []
             end
  end.
Proof.
  intros ls c E. pose proof (exec_meets ls c E) as M. destruct c as [s|]; [|exact M].
  destruct M as [v w K J L W H|v w e os K L W H P J|v w o e os K J L I W H R X|v w e os K J L W H X].
  - rewrite J. intros _. apply H.
  - destruct (judge connecting ls); rewrite K; discriminate.
  - rewrite J, K. discriminate.
  - rewrite J, K. discriminate.
Qed.
Print Assumptions C78_exact.
(* what was begun comes to an end for every endpoint, and to this one *)
Theorem C78_ends : forall ls s, exec ls (Run s) ->
  exists k, match judge connecting ls with
            | Some v => exists s', exec (ls ++ repeat Tick k) (Run s') /\ stack s' = [] /\ rev (out s') = heard v
            | None => exec (ls ++ repeat Tick k) Bad
            end.
Proof.
  intros ls s. remember (weight (stack s)) as w eqn:W. revert ls s W. induction w as [w IH] using (well_founded_induction lt_wf). intros ls s W E.
  pose proof (C78_exact ls _ E) as X. cbn in X. destruct (stack s) as [|f k] eqn:S.
  - exists 0. cbn [repeat]. rewrite app_nil_r. destruct (judge connecting ls) as [v|]; [exists s; auto|congruence].
  - destruct (step s Tick) as [c|] eqn:St.
    + pose proof (ex_snoc ls Tick s c E St) as E1. assert (J : judge connecting (ls ++ [Tick]) = judge connecting ls) by (rewrite judge_snoc; destruct (judge connecting ls); reflexivity).
      destruct c as [s1|].
      * pose proof (tick_less s s1 St) as Lt. rewrite S in Lt. destruct (IH (weight (stack s1)) ltac:(subst w; exact Lt) (ls ++ [Tick]) s1 eq_refl E1) as (k' & Q).
        exists (Datatypes.S k'). rewrite J, <- app_assoc in Q. exact Q.
      * exists 1. pose proof (C78_exact _ _ E1) as B. cbn in B. rewrite J in B. rewrite B. exact E1.
    + exfalso. unfold step in St. rewrite S in St. destruct f as [e [|o os]|o]; try discriminate.
Qed.
Print Assumptions C78_ends.
(* C78: two reads at a time.  The first to listen is the older one, whose callback was destroyed: every message is undefined behaviour then. *)
Lemma judge_sorted ls : forall v, Sorted.StronglySorted below (waiting v) /\ (forall o, In o (waiting v) -> rank o <= started v) ->
  forall v', judge v ls = Some v' -> Sorted.StronglySorted below (waiting v') /\ (forall o, In o (waiting v') -> rank o <= started v').
Proof.
  induction ls as [|l ls IH]; intros v [S B] v' J; cbn in J; [injection J as <-; auto|]. destruct (judge1 v l) as [v1|] eqn:J1; [|discriminate]. apply (IH v1); [|exact J]. clear IH J.
  destruct l as [e| | |]; cbn in J1.
  - destruct (find (wants e) (waiting v)) as [o|]; [|injection J1 as <-; auto]. destruct (tellable v e o); [|discriminate]. injection J1 as <-. cbn. split.
    + clear B. induction S as [|a l S IH F]; cbn; [constructor|]. destruct (owner_dec o a); [exact IH|]. constructor; [exact IH|]. rewrite Forall_forall in *. intros x I. apply in_remove in I as [I _]. auto.
    + intros x I. apply in_remove in I as [I _]. auto.
  - injection J1 as <-. auto.
  - destruct (gone v); [discriminate|]. injection J1 as <-. cbn. split.
    + clear - S B. induction S as [|a l S IH F]; cbn; [repeat constructor|]. constructor; [apply IH; intros; apply B; right; assumption|]. apply Forall_app. split; [exact F|]. constructor; [|constructor].
      unfold below. cbn. pose proof (B a (or_introl eq_refl)). lia.
    + intros o I. apply in_app_iff in I as [I|[<-|[]]]; [apply B in I; lia|reflexivity].
  - destruct (gone v); [discriminate|]. injection J1 as <-. auto.
Qed.
Theorem C78_two_reads_refuted : forall ls v n b r e, judge connecting ls = Some v -> waiting v = Read n :: b :: r -> wants e (Read n) = true ->
  judge connecting (ls ++ [Fire e]) = None.
Proof.
  intros ls v n b r e J W We. destruct (judge_sorted ls connecting) with (v' := v) as [S B]; [cbn; split; [repeat constructor|intros o [<-|[]]; cbn; lia]|exact J|].
  rewrite W in S. inversion S as [|? ? _ F]. subst. inversion F as [|? ? Lt _]. subst. pose proof (B b ltac:(rewrite W; right; left; reflexivity)) as Bb. unfold below in Lt. cbn in Lt.
  rewrite judge_snoc, J. cbn [judge1]. rewrite W. cbn [find]. rewrite We. unfold tellable, newest.
  destruct e as [| | |[x|]]; try discriminate; destruct (started v) as [|k]; try lia; destruct (owner_dec (Read n) (Read k)) as [Q|Q]; try (injection Q as ->; lia); now rewrite Bool.andb_false_r.
Qed.
Print Assumptions C78_two_reads_refuted.
Example C78_exact_ex : option_map heard (judge connecting [Start; Fire EOpen; Tick; Tick; Tick; Fire (EMessage (Some 5%N)); Tick; Tick; Start; Tick; Tick]) = Some [(Init, Ready); (Read 0, Got 5%N)] /\
  judge connecting [Start; Fire EClose] = None /\ judge connecting [Fire EOpen; Tick; Start; Start; Tick; Tick; Fire (EMessage (Some 5%N))] = None /\
  (exists v, judge connecting [Fire EOpen; Tick; Start; Start; Tick; Tick] = Some v /\ waiting v = [Read 0; Read 1] /\ started v = 2) /\
  exec [Fire EOpen; Tick; Start; Start; Tick; Tick; Fire (EMessage (Some 5%N)); Tick] Bad.
Proof.
  split; [reflexivity|]. split; [reflexivity|]. split; [reflexivity|]. split; [eexists; split; [reflexivity|split; reflexivity]|].
  apply (exec_from_ok _ init [] _ ex_nil); vm_compute; reflexivity.
Qed.
