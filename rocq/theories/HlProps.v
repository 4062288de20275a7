(* C90, C91: objects which live in a pipeline (hold_lazy). *)
From Verif Require Import Base HlModel HlSpec HlProofs.
Open Scope nat_scope.

(* every run of a pipeline from its start that is free of undefined behaviour *)
Section Runs.
Variables (m : mode) (l : list stage) (ls : list label) (c : cfg).
Hypothesis Run : exec m l (Running start) ls = Some (Running c).

(* An object is destroyed at most once, and was made before *)
Theorem C90_once : forall a i o b, hist c = a ++ Died i o :: b -> In (Born i o) a /\ ~ In (Died i o) a /\ ~ In (Died i o) b.
Proof.
  intros a i o b E. destruct (reach_inv _ _ _ _ Run) as [h HI]. destruct (alive c) eqn:Ha.
  - destruct (i_alive _ _ _ HI Ha) as [Eh _]. exfalso. apply (i_immortal _ _ _ HI (Died i o)); [|exact I]. rewrite <- Eh, E. apply in_or_app. right. left. reflexivity.
  - destruct (i_dead _ _ _ HI Ha) as [Eh _]. rewrite Eh in E. apply app_split in E as [(r & E & _)|(r & -> & E)].
    + exfalso. apply (i_immortal _ _ _ HI (Died i o)); [|exact I]. rewrite E. apply in_or_app. right. left. reflexivity.
    + assert (Hm : ~ In (Died i o) h) by (intros H; exact (i_immortal _ _ _ HI _ H I)).
      apply app_split in E as [(r2 & E & ->)|(r2 & -> & E)].
      * destruct (deaths_once _ _ _ _ _ _ E) as [N1 N2].
        assert (Hd : In (Died i o) (deaths (length l) (last_of h))) by (rewrite E; apply in_or_app; right; left; reflexivity).
        apply in_deaths in Hd as [_ Hd]. apply last_of_spec in Hd as (x & y & Ex & _). split; [|split].
        -- apply in_or_app. left. rewrite Ex. apply in_or_app. right. left. reflexivity.
        -- intros H. apply in_app_or in H as [H|H]; [exact (Hm H)|exact (N1 H)].
        -- intros H. apply in_app_or in H as [H|[H|[]]]; [exact (N2 H)|discriminate].
      * destruct r2 as [|x [|y r2]]; discriminate.
Qed.

(* Objects live as long as the pipeline, which is destroyed once *)
Theorem C90_lifetime : (forall i o, In (Died i o) (hist c) -> In Freed (hist c)) /\ (In Freed (hist c) <-> alive c = false) /\ ~ Before (hist c) Freed Freed.
Proof.
  destruct (reach_inv _ _ _ _ Run) as [h HI]. destruct (alive c) eqn:Ha.
  - destruct (i_alive _ _ _ HI Ha) as [-> _]. pose proof (i_immortal _ _ _ HI) as N. split; [|split].
    + intros i o H. destruct (N _ H I).
    + split; [|discriminate]. intros H. destruct (N _ H I).
    + intros (x & y & z & E). apply (N Freed); [|exact I]. rewrite E. apply in_or_app. right. left. reflexivity.
  - destruct (i_dead _ _ _ HI Ha) as [-> _]. pose proof (i_immortal _ _ _ HI) as N.
    assert (F : In Freed (h ++ deaths (length l) (last_of h) ++ [Freed])) by (apply in_or_app; right; apply in_or_app; right; left; reflexivity).
    split; [intros; exact F|]. split; [split; [reflexivity|intros _; exact F]|].
    intros (x & y & z & E). rewrite app_assoc in E. apply app_split in E as [(r & E & _)|(r & E1 & E2)].
    + assert (K : In Freed (h ++ deaths (length l) (last_of h))) by (rewrite E; apply in_or_app; right; left; reflexivity).
      apply in_app_or in K as [K|K]; [exact (N _ K I)|]. apply deaths_died in K as (i & o & K). discriminate.
    + destruct r as [|? [|? r]]; try discriminate. destruct y; discriminate.
Qed.

(* When the pipeline is destroyed, exactly those objects are not destroyed which another object took the place of *)
Theorem C90_left : alive c = false -> forall i o, In (Born i o) (hist c) -> (In (Died i o) (hist c) <-> ~ Displaced (hist c) i o).
Proof.
  intros Ha i o Hb. destruct (reach_inv _ _ _ _ Run) as [h HI]. destruct (i_dead _ _ _ HI Ha) as [Eh _]. rewrite Eh in *.
  assert (Hbh : forall p, In (Born i p) (h ++ deaths (length l) (last_of h) ++ [Freed]) -> In (Born i p) h).
  { intros p H. apply in_app_or in H as [H|H]; [exact H|]. apply in_app_or in H as [H|[H|[]]]; [|discriminate]. apply deaths_died in H as (x & y & H). discriminate. }
  pose proof (Hbh o Hb) as Hb'. destruct (last_of_some _ _ _ Hb') as [p Ep].
  destruct (last_of_spec _ _ _ Ep) as (x & y & Ex & Hn).
  split.
  - intros Hd. assert (Eo : last_of h i = Some o).
    { apply in_app_or in Hd as [Hd|Hd]; [destruct (i_immortal _ _ _ HI _ Hd I)|]. apply in_app_or in Hd as [Hd|[Hd|[]]]; [|discriminate]. apply in_deaths in Hd as [_ Hd]. exact Hd. }
    rewrite Ep in Eo. injection Eo as ->. intros (o' & u & v & w & E).
    assert (E' : exists w', h = u ++ Born i o :: v ++ Born i o' :: w').
    { change (Born i o :: v ++ Born i o' :: w) with ([Born i o] ++ v ++ Born i o' :: w) in E. rewrite !app_assoc in E. rewrite <- app_assoc in E.
      apply app_split in E as [(r & E & _)|(r & _ & E)]; [exists r; rewrite E, <- !app_assoc; reflexivity|].
      exfalso. assert (K : In (Born i o') (deaths (length l) (last_of h) ++ [Freed])) by (rewrite E; apply in_or_app; right; left; reflexivity).
      apply in_app_or in K as [K|[K|[]]]; [|discriminate]. apply deaths_died in K as (x' & y' & K). discriminate. }
    destruct E' as (w' & E'). pose proof (born_once _ _ _ _ i _ _ (i_serial _ _ _ HI) E') as [N1 N2].
    rewrite Ex in E'. assert (Hx : x = u).
    { apply app_split in E' as [(r & E1 & E2)|(r & E1 & E2)].
      - exfalso. subst x. pose proof (born_once _ _ _ _ i _ _ (i_serial _ _ _ HI) Ex) as [M1 M2]. apply M1. apply in_or_app. right. left. reflexivity.
      - destruct r as [|e r]; [rewrite app_nil_r in E1; symmetry; exact E1|]. injection E2 as <- E2. exfalso. apply N1. rewrite E1. apply in_or_app. right. left. reflexivity. }
    subst u. apply app_inv_head in E'. injection E' as E'. apply (Hn o'). rewrite E'. apply in_or_app. right. left. reflexivity.
  - intros Hd. apply in_or_app. right. apply in_or_app. left. apply in_deaths. split; [exact (i_range _ _ _ HI _ _ Hb')|].
    destruct (Nat.eq_dec p o) as [->|Hne]; [exact Ep|]. exfalso. apply Hd. exists p.
    assert (Hox : In (Born i o) x).
    { rewrite Ex in Hb'. apply in_app_or in Hb' as [H|[H|H]]; [exact H|congruence|destruct (Hn _ H)]. }
    apply in_split in Hox as (x1 & x2 & ->). exists x1, x2, (y ++ deaths (length l) (last_of h) ++ [Freed]).
    rewrite Ex at 1. rewrite <- !app_assoc. reflexivity.
Qed.

(* Every object is destroyed with the pipeline, if no stage was called twice *)
Theorem C90_destroyed_partial : (forall i, ~ Before (hist c) (Ran i) (Ran i)) -> alive c = false -> forall i o, In (Born i o) (hist c) -> In (Died i o) (hist c).
Proof.
  intros Hr Ha i o Hb. apply C90_left; [exact Ha|exact Hb|]. intros (o' & HB). apply before_born_at in HB. apply (Hr i). apply ran_at_before.
  pose proof (count_exec _ _ _ _ _ count_start Run i). lia.
Qed.

(* ... which is so in a pipeline that does not begin anew, if each stage calls its resolver at most once *)
Theorem C90_single_partial : m <> Loop -> Forall Single l -> alive c = false -> forall i o, In (Born i o) (hist c) -> In (Died i o) (hist c).
Proof. intros Hm Hs. apply C90_destroyed_partial. exact (proj2 (proj2 (token_exec _ _ Hm Hs _ _ _ token_start Run))). Qed.

(* The objects of later stages, which may refer to those of earlier ones, are destroyed first *)
Theorem C90_order : forall i o j p, Before (hist c) (Died i o) (Died j p) -> j < i.
Proof.
  intros i o j p (x & y & z & E). destruct (reach_inv _ _ _ _ Run) as [h HI]. destruct (alive c) eqn:Ha.
  - destruct (i_alive _ _ _ HI Ha) as [Eh _]. exfalso. apply (i_immortal _ _ _ HI (Died i o)); [|exact I]. rewrite <- Eh, E. apply in_or_app. right. left. reflexivity.
  - destruct (i_dead _ _ _ HI Ha) as [Eh _]. rewrite Eh in E. apply app_split in E as [(r & E & _)|(r & _ & E)].
    + exfalso. apply (i_immortal _ _ _ HI (Died i o)); [|exact I]. rewrite E. apply in_or_app. right. left. reflexivity.
    + apply app_split in E as [(r2 & E & E2)|(r2 & -> & E)].
      * apply (deaths_order _ _ _ _ _ _ j p E). symmetry in E2. apply app_split in E2 as [(r3 & -> & _)|(r3 & _ & E3)]; [apply in_or_app; right; left; reflexivity|].
        destruct r3 as [|? [|? r3]]; discriminate.
      * destruct r2 as [|? [|? r2]]; try discriminate.
Qed.

(* If a stage never resolves, none of the later stages is called; whatever it rejects with is not for them, even when it is caught *)
Theorem C90_unresolved : forall i s, nth_error l i = Some s -> s <> Catch -> (forall h, ~ In (Now Resolve) (plan s h) /\ ~ In (Later Resolve) (plan s h)) ->
  forall j, i < j -> ~ In (Ran j) (hist c).
Proof.
  intros i s E Hs Hr. assert (Hi : i < length l) by (apply nth_error_Some; congruence).
  apply (s_ran m i (fun k => k <> Resolve)).
  apply (stopped_exec m l i (fun k => k <> Resolve)) with (6 := stopped_start m l i (fun k => k <> Resolve) Hi (fun _ _ _ _ _ _ _ H => H)) (7 := Run).
  - exact Hi.
  - intros X. apply X. reflexivity.
  - intros _. discriminate.
  - intros s' E'. rewrite E in E'. injection E' as <-. split; [exact Hs|]. intros h k [H|H] ->; [exact (proj1 (Hr h) H)|exact (proj2 (Hr h) H)].
  - intros j s' h k _ _ _ H. exact H.
Qed.

(* If a stage only rejects, nothing catches it and nothing terminates before it, the pipeline of run_async and run_async_loop is never
   destroyed, nor is any object in it *)
Theorem C90_rejected : m <> Sync -> ~ In Catch l ->
  forall i s, nth_error l i = Some s -> (forall h k, In (Now k) (plan s h) \/ In (Later k) (plan s h) -> k = Reject) ->
  (forall j s' h, j < i -> nth_error l j = Some s' -> ~ In (Now Terminate) (plan s' h) /\ ~ In (Later Terminate) (plan s' h)) ->
  alive c = true.
Proof.
  intros Hm Hc i s E Hs Ht. assert (Hi : i < length l) by (apply nth_error_Some; congruence).
  assert (Hq : forall j s' h k, j < i -> nth_error l j = Some s' -> In (Now k) (plan s' h) \/ In (Later k) (plan s' h) -> k <> Resolve -> k = Reject).
  { intros j s' h k Hj Ej Hk Hn. destruct k; [destruct (Hn eq_refl)|reflexivity|]. destruct (Ht j s' h Hj Ej) as [N1 N2]. destruct Hk as [Hk|Hk]; [destruct (N1 Hk)|destruct (N2 Hk)]. }
  apply (s_alive m i (fun k => k = Reject)); [|discriminate|exact Hm].
  apply (stopped_exec m l i (fun k => k = Reject)) with (6 := stopped_start m l i (fun k => k = Reject) Hi Hq) (7 := Run).
  - exact Hi.
  - discriminate.
  - intros H. destruct (Hc H).
  - intros s' E'. rewrite E in E'. injection E' as <-. split; [|exact Hs]. intros ->. apply Hc. eapply nth_error_In, E.
  - exact Hq.
Qed.

(* The pipeline of run_sync lives exactly as long as the call *)
Theorem C90_sync : m = Sync -> (alive c = false <-> stack c = []).
Proof. intros ->. apply k_alive. eapply incall_exec; [apply incall_start|exact Run]. Qed.
End Runs.

(* No run ends in undefined behaviour, if each stage calls its resolver at most once, the functions leave it to the object that they
   make to do so, and (with run_sync) no other stage calls it later *)
Theorem C90_defined_partial : forall m l ls o, Forall Single l -> Forall Patient l -> (m = Sync -> Forall Prompt l) ->
  exec m l (Running start) ls = Some o -> exists c, o = Running c.
Proof. intros m l ls o H1 H2 H3 E. eapply calm_exec; eauto using inv_start, calm_start. Qed.

(* a stage that makes an object which will resolve once *)
Definition timer : stage := Lazy (fun _ => [Later Resolve]).
(* the program of test/nbdl/core/hold_lazy.cpp:50-66 *)
Definition pass_on : stage := Ord (fun _ => [Now Resolve]).
Definition test : list stage := [pass_on; timer; pass_on].

Example C90_ex : exists c, exec Async test (Running start) [Tick; Tick; Tick; Fire 0; Tick; Tick] = Some (Running c) /\
  hist c = [Ran 0; Ran 1; Born 1 0; Ran 2; Died 1 0; Freed] /\ stack c = [].
Proof. vm_compute. eexists. split; [reflexivity|]. split; reflexivity. Qed.

Example C90_order_ex : exists c, exec Async [timer; timer] (Running start) [Tick; Tick; Fire 0; Tick; Tick; Fire 0; Tick] = Some (Running c) /\
  hist c = [Ran 0; Born 0 0; Ran 1; Born 1 1; Died 1 1; Died 0 0; Freed].
Proof. vm_compute. eexists. split; reflexivity. Qed.

(* a rejected stage between two objects, with and without a stage that catches *)
Example C90_rejected_ex : exists c c', exec Async [timer; Ord (fun _ => [Now Reject]); pass_on] (Running start) [Tick; Tick; Fire 0; Tick; Tick; Tick] = Some (Running c) /\
  hist c = [Ran 0; Born 0 0; Ran 1] /\ stack c = [] /\ pool c = [] /\ alive c = true /\
  exec Async [timer; Ord (fun _ => [Now Reject]); Catch; pass_on] (Running start) [Tick; Tick; Fire 0; Tick; Tick; Tick; Tick] = Some (Running c') /\
  hist c' = [Ran 0; Born 0 0; Ran 1; Died 0 0; Freed].
Proof. vm_compute. eexists. eexists. split; [reflexivity|]. split; [reflexivity|]. split; [reflexivity|]. split; [reflexivity|]. split; [reflexivity|]. split; reflexivity. Qed.
Example C90_sync_ex : exists c c', exec Sync [pass_on; Lazy (fun _ => [Now Resolve])] (Running start) [Tick; Tick; Tick] = Some (Running c) /\ hist c = [Ran 0; Ran 1] /\ stack c = [Made 1 []] /\
  exec Sync [pass_on; Lazy (fun _ => [Now Resolve])] (Running start) [Tick; Tick; Tick; Tick] = Some (Running c') /\ hist c' = [Ran 0; Ran 1; Born 1 0; Died 1 0; Freed].
Proof. vm_compute. eexists. eexists. split; [reflexivity|]. split; [reflexivity|]. split; [reflexivity|]. split; reflexivity. Qed.

(* In a pipeline that begins anew the object of the pass before is never destroyed *)
Definition until_second (h : list event) : list act := if existsb (fun e => match e with Restart => true | _ => false end) h then [Now Terminate] else [Now Resolve].
Theorem C90_destroyed_refuted : ~ forall m l ls c, Forall Single l -> Forall Patient l -> exec m l (Running start) ls = Some (Running c) -> alive c = false ->
  forall i o, In (Born i o) (hist c) -> In (Died i o) (hist c).
Proof.
  intros H.
  assert (E : exists c, exec Loop [timer; Ord until_second] (Running start) [Tick; Tick; Fire 0; Tick; Tick; Tick; Tick; Fire 0; Tick; Tick] = Some (Running c) /\
    alive c = false /\ hist c = [Ran 0; Born 0 0; Ran 1; Restart; Ran 0; Born 0 1; Ran 1; Died 0 1; Freed]).
  { vm_compute. eexists. split; [reflexivity|]. split; reflexivity. }
  destruct E as (c & E & Ea & Eh).
  assert (X : In (Died 0 0) (hist c)).
  { apply (H _ _ _ _) with (3 := E); [| |exact Ea|rewrite Eh; cbn; tauto].
    - constructor; [|constructor; [|constructor]]; intros h; [apply le_n|]. cbn. unfold until_second. destruct (existsb _ h); apply le_n.
    - constructor; [|constructor; [exact I|constructor]]. intros h k [X|[]]. discriminate. }
  rewrite Eh in X. cbn in X. repeat (destruct X as [X|X]; [discriminate|]). exact X.
Qed.

(* A function which resolves at once: the pipeline is gone before the object can be put in it *)
Theorem C90_at_once_refuted : ~ forall l ls o, Forall Single l -> exec Async l (Running start) ls = Some o -> exists c, o = Running c.
Proof.
  intros H. assert (X : exists c, UseAfterFree = Running c); [|destruct X; discriminate].
  apply (H [Lazy (fun _ => [Now Resolve])] [Tick; Tick; Tick]); [|reflexivity]. constructor; [|constructor]. intros h. apply le_n.
Qed.
(* An object which resolves again after another one took its place *)
Theorem C90_replaced_refuted : ~ forall l ls o, Forall Patient l -> exec Loop l (Running start) ls = Some o -> exists c, o = Running c.
Proof.
  intros H. assert (X : exists c, Replaced = Running c); [|destruct X; discriminate].
  apply (H [Lazy (fun _ => [Later Resolve; Later Resolve])] [Tick; Tick; Fire 0; Tick; Tick; Tick; Fire 0]); [|reflexivity]. constructor; [|constructor].
  intros h k [X|[X|[]]]; discriminate.
Qed.
(* and one that another took the place of is not destroyed with the pipeline: it can go on to use it when it is no more *)
Theorem C90_leaked_refuted : ~ forall l ls o, Forall Patient l -> exec Loop l (Running start) ls = Some o -> o <> UseAfterFree.
Proof.
  intros H. apply (H [Lazy (fun h => if existsb (fun e => match e with Born _ _ => true | _ => false end) h then [Later Terminate] else [Later Resolve; Later Resolve])]
    [Tick; Tick; Fire 0; Tick; Tick; Tick; Fire 1; Tick; Fire 0] UseAfterFree); [|reflexivity|reflexivity].
  constructor; [|constructor]. intros h k. destruct (existsb _ h); cbn; intuition discriminate.
Qed.
Print Assumptions C90_leaked_refuted.
(* The object is destroyed before the member function with which it resolves has returned: in the program of the test *)
Theorem C90_busy_refuted : ~ forall l ls c i o, Forall Single l -> Forall Patient l -> exec Async l (Running start) ls = Some (Running c) -> Busy c i o -> ~ In (Died i o) (hist c).
Proof.
  intros H. eapply (H test [Tick; Tick; Tick; Fire 0; Tick] _ 1 0); [| |vm_compute; reflexivity| |].
  - repeat (apply Forall_cons; [intros h; apply le_n|]). apply Forall_nil.
  - apply Forall_cons; [exact I|]. apply Forall_cons; [intros h k [X|[]]; discriminate|]. apply Forall_cons; [exact I|apply Forall_nil].
  - left. reflexivity.
  - cbn. tauto.
Qed.

(* ---- C91: running a pipeline again ---- *)

(* What a pipeline given as an lvalue does when it is run for the (k+1)-th time *)
Theorem C91_functions : forall F (moved : F -> F) n p k, k < n ->
  nth_error (runs F moved n p) k = Some (map (fun x : bool * F => if fst x then (true, Nat.iter k moved (snd x)) else x) (functions p)).
Proof. intros F moved n p k. apply runs_spec. Qed.

(* It does the same each time, if it has no stage that makes an object *)
Theorem C91_again_partial : forall F (moved : F -> F) n p, (forall f, ~ In (true, f) (functions p)) -> runs F moved n p = repeat (functions p) n.
Proof.
  intros F moved n p Hn. apply nth_ext with (d := functions p) (d' := functions p).
  - rewrite repeat_length. apply runs_length.
  - intros k Hk. rewrite runs_length in Hk. rewrite nth_repeat.
    apply nth_error_nth. rewrite C91_functions by exact Hk. f_equal. rewrite <- map_id. apply map_ext_in. intros [[] f] Hf; [destruct (Hn f Hf)|reflexivity].
Qed.

(* a function that has a value with it, which is gone once it is moved from *)
Theorem C91_again_refuted : ~ forall F (moved : F -> F) n p, runs F moved n p = repeat (functions p) n.
Proof. intros H. specialize (H nat (fun _ => 0) 2 (Pipe [One 1; Held 42])). vm_compute in H. discriminate. Qed.

Example C91_ex : runs nat (fun _ => 0) 3 (Pipe [One 1; Pipe [One 2; Held 42]; One 3]) =
  [[(false, 1); (false, 2); (true, 42); (false, 3)]; [(false, 1); (false, 2); (true, 0); (false, 3)]; [(false, 1); (false, 2); (true, 0); (false, 3)]].
Proof. reflexivity. Qed.

Print Assumptions C90_once.
Print Assumptions C90_lifetime.
Print Assumptions C90_left.
Print Assumptions C90_destroyed_partial.
Print Assumptions C90_single_partial.
Print Assumptions C90_order.
Print Assumptions C90_unresolved.
Print Assumptions C90_rejected.
Print Assumptions C90_sync.
Print Assumptions C90_defined_partial.
Print Assumptions C90_destroyed_refuted.
Print Assumptions C90_at_once_refuted.
Print Assumptions C90_replaced_refuted.
Print Assumptions C90_busy_refuted.
Print Assumptions C91_functions.
Print Assumptions C91_again_partial.
Print Assumptions C91_again_refuted.
