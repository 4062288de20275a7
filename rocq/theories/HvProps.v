(* C111: a value held in a pipeline is one object that every pass sees. *)
From Coq Require Import Lia.
From Verif Require Import Base HvModel HvSpec HvProofs.
Open Scope nat_scope.

(* A function that is given a reference to a held value finds in it what the last function that was given one left there, in whatever
   pass of the pipeline that was, and the value of the beginning if there was none. *)
Theorem C111_one_object : forall m l a ls c h1 i args h2 o x y,
  exec m l (Running (start l a)) ls = Some (Running c) -> hist c = h1 ++ Ran i args :: h2 -> In (Ref o, (x, y)) args ->
  exists v, held l o v /\ x = last (left_in o h1) v.
Proof. intros m l a ls c h1 i args h2 o x y E H I. destruct (ok_hist l c (exec_ok m l a ls c E) _ _ _ H) as [K _]. eauto. Qed.
Print Assumptions C111_one_object.

(* What is left in the arguments is what the function did with the values that it was given. *)
Theorem C111_left : forall m l a ls c h1 i args h2,
  exec m l (Running (start l a)) ls = Some (Running c) -> hist c = h1 ++ Ran i args :: h2 ->
  does l i h1 (map (fun p => fst (snd p)) args) (map (fun p => snd (snd p)) args).
Proof. intros m l a ls c h1 i args h2 E H. destruct (ok_hist l c (exec_ok m l a ls c E) _ _ _ H) as (_ & K & _). exact K. Qed.
Print Assumptions C111_left.

(* The stage behind one that holds a value, unless it is a handler of rejections, is given a reference to that value and nothing else, whatever came to the holding stage. *)
Theorem C111_given : forall m l a ls c i v args,
  exec m l (Running (start l a)) ls = Some (Running c) -> held l i v -> ~ catches l (S i) -> In (Ran (S i) args) (hist c) -> map fst args = [Ref i].
Proof.
  intros m l a ls c i v args E Hv NC H. apply in_split in H as (h1 & h2 & H).
  destruct (ok_hist l c (exec_ok m l a ls c E) _ _ _ H) as (_ & _ & K & _). destruct (K i v eq_refl Hv); [contradiction|auto].
Qed.
Print Assumptions C111_given.

(* A stage is given what the stage before it passed on: references as they are and temporaries with what was left in them. *)
Theorem C111_passed : forall m l a ls c h1 i args1 args2 h2,
  Forall Single l -> (m = Sync -> Forall Prompt l) -> exec m l (Running (start l a)) ls = Some (Running c) ->
  hist c = h1 ++ Ran i args1 :: Ran (S i) args2 :: h2 -> passes l i h1 args1 (map fst args2).
Proof. intros m l a ls c h1 i args1 args2 h2 F FP E H. destruct (exec_linked m l a ls c F FP E) as [_ K]. eauto. Qed.
Print Assumptions C111_passed.

Theorem C111_temporary : forall m l a ls c i args z x y,
  exec m l (Running (start l a)) ls = Some (Running c) -> In (Ran i args) (hist c) -> In (Temp z, (x, y)) args -> x = z.
Proof.
  intros m l a ls c i args z x y E H I. apply in_split in H as (h1 & h2 & H).
  destruct (ok_hist l c (exec_ok m l a ls c E) _ _ _ H) as (_ & _ & _ & _ & K). eauto.
Qed.
Print Assumptions C111_temporary.

(* Nothing happens in a pipeline after its memory is freed, and that is where the danger is: the next call is undefined behaviour
   exactly if the memory was freed before. *)
Theorem C111_exact : forall m l a ls c lb o,
  exec m l (Running (start l a)) ls = Some (Running c) -> step m l c lb = Some o -> (o = UseAfterFree <-> In Freed (hist c)).
Proof.
  intros m l a ls c lb o E S. pose proof (ok_alive l c (exec_ok m l a ls c E)) as A.
  assert (K : forall d t, alive d = alive c -> deliver m l d t = o -> (o = UseAfterFree <-> In Freed (hist c))).
  { intros d t Hd <-. unfold deliver. rewrite Hd, <- A. destruct (alive c); split; congruence. }
  destruct lb as [|n]; cbn in S; destruct (stack c) as [|t r]; try discriminate.
  - injection S as S. eapply K; [|exact S]; reflexivity.
  - destruct (nth_error (pool c) n) as [t|]; [|discriminate]. injection S as S. eapply K; [|exact S]; reflexivity.
Qed.
Print Assumptions C111_exact.

Theorem C111_freed_last : forall m l a ls c h1 h2,
  exec m l (Running (start l a)) ls = Some (Running c) -> hist c = h1 ++ Freed :: h2 -> h2 = [].
Proof.
  intros m l a ls c h1 h2 E H. destruct h2 as [|e h2]; auto. exfalso.
  assert (H' : hist c = (h1 ++ [Freed]) ++ e :: h2) by (rewrite <- app_assoc; exact H).
  pose proof (ok_hist l c (exec_ok m l a ls c E) _ _ _ H') as K.
  assert (F : In Freed (h1 ++ [Freed])) by (apply in_app_iff; right; left; auto).
  destruct e; cbn in K; apply K; exact F.
Qed.
Print Assumptions C111_freed_last.

(* The property: held values can always be used.  It holds if every stage calls its resolver at most once, and for run_sync if every
   stage is done when it returns.  See C111_twice_refuted and C111_sync_refuted for the rest. *)
Theorem C111_defined_partial : forall m l a ls o,
  Forall Single l -> (m = Sync -> Forall Prompt l) -> exec m l (Running (start l a)) ls = Some o -> o <> UseAfterFree.
Proof.
  intros m l a ls o F FP E. destruct (exec_safe m l ls (start l a) o F FP) as (c & -> & _); [|exact E|discriminate].
  split; cbn; auto.
Qed.
Print Assumptions C111_defined_partial.

(* The full statement: forall m l a ls o, exec m l (Running (start l a)) ls = Some o -> o <> UseAfterFree. *)
Definition twice : stage := Prom (fun _ _ => ([], [Now (Resolve []); Now (Resolve [])])).
Definition bump : stage := Fn (fun _ a => (map N.succ a, [Same 0])).
Theorem C111_twice_refuted : exists l a ls, exec Async l (Running (start l a)) ls = Some UseAfterFree.
Proof. exists [twice; Hold 5; bump], [], [Tick; Tick; Tick; Tick; Tick]. reflexivity. Qed.
Print Assumptions C111_twice_refuted.
Theorem C111_sync_refuted : exists l a ls, Forall Single l /\ exec Sync l (Running (start l a)) ls = Some UseAfterFree.
Proof.
  exists [Prom (fun _ _ => ([], [Later (Resolve [])])); Hold 5; bump], [], [Tick; Fire 0]. split; [|reflexivity].
  repeat constructor.
Qed.
Print Assumptions C111_sync_refuted.

(* run_async: if every stage calls its resolver once, the memory is freed exactly when no call is left. *)
Theorem C111_released : forall l a ls c,
  Forall Once l -> exec Async l (Running (start l a)) ls = Some (Running c) -> (stack c = [] /\ pool c = [] <-> In Freed (hist c)).
Proof.
  intros l a ls c F E. pose proof (ok_alive l c (exec_ok Async l a ls c E)) as A.
  pose proof (exec_inv Async l (counted) (step_counted Async l eq_refl F) ls (start l a) c eq_refl E) as K.
  unfold counted, calls in K. rewrite <- A. destruct (alive c).
  - split; [|discriminate]. intros [E1 E2]. rewrite E1, E2 in K. discriminate.
  - split; auto. intros _. destruct (stack c), (pool c); cbn in K; auto; lia.
Qed.
Print Assumptions C111_released.

(* run_async_loop: only termination frees the memory, so a pipeline whose stages only ever resolve never frees it. *)
Theorem C111_loop_keeps : forall l a ls c,
  (forall f, In (Prom f) l -> forall h x k, In (Now k) (snd (f h x)) \/ In (Later k) (snd (f h x)) -> exists r, k = Resolve r) ->
  exec Loop l (Running (start l a)) ls = Some (Running c) -> ~ In Freed (hist c).
Proof.
  intros l a ls c NT E. rewrite <- (ok_alive l c (exec_ok Loop l a ls c E)).
  set (goes := fun t : task => exists g, snd t = Go g).
  set (P := fun c => alive c = true /\ Forall goes (stack c) /\ Forall goes (pool c)).
  enough (K : P c) by (destruct K as [-> _]; discriminate).
  eapply (exec_inv Loop l P); [|split; [|split]|exact E]; cbn; auto; [|repeat constructor; cbn; eexists; reflexivity].
  assert (ND : forall f, nth_error l f = None \/ exists s, nth_error l f = Some s /\ In s l).
  { intros f. destruct (nth_error l f) eqn:En; auto. right. eexists; split; [reflexivity|]. eapply nth_error_In; eauto. }
  assert (CS : forall d t, P d -> goes t -> P (call_stage Loop l d (fst t) (snd t))).
  { intros d [i g] PD [args Hg]. cbn in *. subst g. pose proof PD as (D1 & D2 & D3). unfold call_stage.
    assert (CC : forall after acts, (forall x k, In (Now k) (acts x) \/ In (Later k) (acts x) -> exists r, k = Resolve r) -> P (called d i args after acts)).
    { intros after acts HA. split; [exact D1|]. cbn. split; apply Forall_app; split; auto; apply Forall_forall; intros t Ht;
        apply in_map_iff in Ht as (k & <- & Hk); apply in_flat_map in Hk as (x & Hx & Hk); destruct x as [y|y]; cbn in Hk; try contradiction;
        destruct Hk as [<-|[]]; (edestruct HA as [r ->]; [eauto|]); eexists; reflexivity. }
    assert (PU : forall t, goes t -> P (push d t)) by (intros t Ht; split; [exact D1|]; split; [constructor; auto|exact D3]).
    destruct (ND i) as [->|(s & -> & Is)].
    - split; [exact D1|]. split; [|exact D3]. constructor; [eexists; reflexivity|exact D2].
    - destruct s as [v|f|f|f|takes f].
      + apply PU. eexists; reflexivity.
      + destruct (f (hist d) (map (seen (mem d)) args)). apply CC. intros x k [[[= <-]|[]]|[[=]|[]]]; eauto.
      + apply CC. intros x k [[[= <-]|[]]|[[=]|[]]]; eauto.
      + specialize (NT f Is (hist d) (map (seen (mem d)) args)). destruct (f (hist d) (map (seen (mem d)) args)). cbn in NT. apply CC. auto.
      + apply PU. eexists; reflexivity. }
  intros d lb d' PD S. pose proof PD as (D1 & D2 & D3). destruct lb as [|n]; cbn in S; destruct (stack d) as [|t r] eqn:Es; try discriminate.
  - injection S as S. unfold deliver in S. cbn in S. rewrite D1 in S. injection S as <-. inversion D2; subst. apply CS; auto. repeat split; auto.
  - destruct (nth_error (pool d) n) as [t|] eqn:En; [|discriminate]. injection S as S. unfold deliver in S. cbn in S. rewrite D1 in S. injection S as <-.
    rewrite Forall_forall in D3. apply CS; [|apply D3; eapply nth_error_In; eauto]. split; [reflexivity|]. split; [constructor|].
    apply Forall_forall. intros x Hx. apply D3. eapply in_remove; eauto.
Qed.
Print Assumptions C111_loop_keeps.

(* A counter: three passes of a loop, the argument of the loop is ignored *)
Definition count3 : stage := Prom (fun h a => ([], if N.eqb (hd 0%N a) 3 then [Now Terminate] else [Later (Resolve [New 77])])).
Example C111_counts_ex :
  match exec Loop [Hold 0; bump; count3] (Running (start [Hold 0; bump; count3] [9%N]))
        [Tick; Tick; Tick; Fire 0; Tick; Tick; Tick; Fire 0; Tick; Tick; Tick; Tick] with
  | Some (Running c) => hist c = [Ran 1 [(Ref 0, (0, 1))]; Ran 2 [(Ref 0, (1, 1))]; Restart;
                                  Ran 1 [(Ref 0, (1, 2))]; Ran 2 [(Ref 0, (2, 2))]; Restart;
                                  Ran 1 [(Ref 0, (2, 3))]; Ran 2 [(Ref 0, (3, 3))]; Freed]%N
  | _ => False
  end.
Proof. vm_compute. reflexivity. Qed.

(* the same in run_sync: every run starts with the value of the beginning, and a result that is returned by value is no reference *)
Definition copy : stage := Fn (fun _ a => (map N.succ a, [New (hd 0%N a)])).
Example C111_copy_ex : forall a,
  match exec Sync [Hold 4; copy; bump] (Running (start [Hold 4; copy; bump] a)) [Tick; Tick; Tick; Tick] with
  | Some (Running c) => hist c = [Ran 1 [(Ref 0, (4, 5))]; Ran 2 [(Temp 4, (4, 5))]; Freed]%N /\ mem c 0 = 5%N
  | _ => False
  end.
Proof. intros a. vm_compute. split; reflexivity. Qed.
(* tap passes on what it was given, a temporary with what was left in it *)
Example C111_tap_ex :
  match exec Async [Tap (fun _ a => map N.succ a); bump] (Running (start [Tap (fun _ a => map N.succ a); bump] [7%N])) [Tick; Tick; Tick] with
  | Some (Running c) => hist c = [Ran 0 [(Temp 7, (7, 8))]; Ran 1 [(Temp 8, (8, 9))]; Freed]%N
  | _ => False
  end.
Proof. vm_compute. reflexivity. Qed.
(* a held value is rejected by reference, and the handler finds what was left in it; then the pipeline ends *)
Definition refuse : stage := Prom (fun _ a => (map N.succ a, [Later (Reject [Same 0])])).
Example C111_catch_ex :
  match exec Loop [Hold 4; refuse; bump; Catch (fun _ => true) (fun _ a => map N.succ a)]
          (Running (start [Hold 4; refuse; bump; Catch (fun _ => true) (fun _ a => map N.succ a)] [])) [Tick; Tick; Fire 0; Tick; Tick] with
  | Some (Running c) => hist c = [Ran 1 [(Ref 0, (4, 5))]; Ran 3 [(Ref 0, (5, 6))]; Freed]%N
  | _ => False
  end.
Proof. vm_compute. reflexivity. Qed.
