From Coq Require Import Lia.
From Verif Require Import Base HvModel HvSpec.
Open Scope nat_scope.

Local Arguments left_in : simpl never.
Section P.
Context (m : mode) (l : list stage).

Definition task_ok (t : task) : Prop :=
  match snd t with
  | Stop => True
  | Err a => forall o, In (Ref o) a -> exists x, held l o x
  | Go a => (forall o, In (Ref o) a -> exists x, held l o x) /\ (forall i x, fst t = S i -> held l i x -> a = [Ref i])
  end.
Definition event_ok (h1 : list event) (e : event) : Prop :=
  match e with
  | Ran i args =>
      (forall o x y, In (Ref o, (x, y)) args -> exists v, held l o v /\ x = last (left_in o h1) v) /\
      does l i h1 (map (fun p => fst (snd p)) args) (map (fun p => snd (snd p)) args) /\
      (forall j v, i = S j -> held l j v -> catches l i \/ map fst args = [Ref j]) /\
      ~ In Freed h1 /\
      (forall z x y, In (Temp z, (x, y)) args -> x = z)
  | _ => ~ In Freed h1
  end.
Record ok (c : cfg) : Prop := mk_ok {
  ok_mem : forall o, mem c o = last (left_in o (hist c)) (initial l o);
  ok_hist : forall h1 e h2, hist c = h1 ++ e :: h2 -> event_ok h1 e;
  ok_stack : Forall task_ok (stack c);
  ok_pool : Forall task_ok (pool c);
  ok_alive : alive c = false <-> In Freed (hist c)
}.

Lemma left_in_app : forall o h1 h2, left_in o (h1 ++ h2) = left_in o h1 ++ left_in o h2.
Proof. intros. unfold left_in. apply flat_map_app. Qed.

Lemma last_cons : forall A (b : list A) x d, last (x :: b) d = last b x.
Proof. induction b as [|y b IH]; intros x d; [reflexivity|]. change (last (x :: y :: b) d) with (last (y :: b) d). rewrite !IH. reflexivity. Qed.
Lemma last_app : forall A (a b : list A) d, last (a ++ b) d = last b (last a d).
Proof. induction a as [|x a IH]; intros b d; [reflexivity|]. cbn [app]. rewrite !last_cons. apply IH. Qed.

Lemma leaves_length : forall b a, length (leaves b a) = length b.
Proof. induction b; intros [|]; cbn; auto. Qed.
Lemma leaves_nth : forall b a k, nth k (leaves b a) 0%N = if Nat.ltb k (length a) && Nat.ltb k (length b) then nth k a 0%N else nth k b 0%N.
Proof.
  induction b as [|x b IH]; intros [|y a] k.
  - destruct k; reflexivity.
  - cbn [leaves length]. rewrite andb_comm. destruct k; reflexivity.
  - destruct k; reflexivity.
  - destruct k as [|k]; [reflexivity|]. cbn [leaves nth length]. rewrite IH. reflexivity.
Qed.

Lemma store_all_last : forall a b xs mm o, length b = length a -> length xs = length a ->
  store_all mm a xs o = last (left_in o [Ran 0 (combine a (combine b xs))]) (mm o).
Proof.
  induction a as [|x a IH]; intros [|b0 b] [|x0 xs] mm o H1 H2; try discriminate; [reflexivity|].
  cbn [store_all combine]. injection H1 as H1. injection H2 as H2. rewrite (IH b xs) by auto. unfold left_in. cbn [flat_map fst snd].
  rewrite !app_nil_r. rewrite last_app. f_equal. destruct x as [p|v]; cbn [store]; [|reflexivity].
  rewrite (Nat.eqb_sym o p). destruct (Nat.eqb p o); reflexivity.
Qed.

Lemma combine_fst : forall A B (a : list A) (b : list B), length b = length a -> map fst (combine a b) = a.
Proof. induction a; intros [|] H; try discriminate; cbn; auto. injection H as H. rewrite IHa; auto. Qed.
Lemma combine_snd : forall A B (a : list A) (b : list B), length b = length a -> map snd (combine a b) = b.
Proof. induction a; intros [|] H; try discriminate; cbn; auto. injection H as H. rewrite IHa; auto. Qed.

Lemma in_now_all : forall a xs o, In (Ref o) (now_all a xs) -> In (Ref o) a.
Proof.
  induction a as [|x a IH]; intros [|y xs] o H; try contradiction. cbn in H. destruct H as [H|H].
  - left. destruct x; cbn in H; congruence.
  - right. eauto.
Qed.
Lemma in_pick : forall a r o, pick a r = Ref o -> In (Ref o) a.
Proof.
  intros a [k|x] o H; cbn in H; [|discriminate]. destruct (Nat.lt_ge_cases k (length a)).
  - rewrite <- H. apply nth_In; auto.
  - rewrite nth_overflow in H by auto. discriminate.
Qed.
Lemma goal_ok : forall i a k, (forall o, In (Ref o) a -> exists x, held l o x) -> (forall x, ~ held l i x) -> task_ok (S i, goal_of a k).
Proof.
  intros i a [rs|rs|] Ha Hi; cbn; [| |exact I]; unfold task_ok; cbn.
  2:{ intros o Ho. apply in_map_iff in Ho as (r & Hr & _). apply Ha. eapply in_pick; eauto. }
  split.
  - intros o Ho. apply in_map_iff in Ho as (r & Hr & _). apply Ha. eapply in_pick; eauto.
  - intros j x Hj Hx. injection Hj as ->. exfalso. eapply Hi; eauto.
Qed.

Lemma hist_snoc : forall h e, (forall h1 e' h2, h = h1 ++ e' :: h2 -> event_ok h1 e') -> event_ok h e ->
  forall h1 e' h2, h ++ [e] = h1 ++ e' :: h2 -> event_ok h1 e'.
Proof.
  intros h e Hh He h1 e' h2 E. destruct (@exists_last _ (e' :: h2)) as (r & z & Ez); [discriminate|].
  rewrite Ez, app_assoc in E. apply app_inj_tail in E as [E1 ->]. destruct r as [|q r].
  - cbn in Ez. injection Ez as -> _. rewrite app_nil_r in E1. subst; auto.
  - cbn in Ez. injection Ez as -> _. subst. eapply Hh; eauto.
Qed.
Lemma freed_snoc : forall h e, e <> Freed -> (In Freed (h ++ [e]) <-> In Freed h).
Proof. intros. rewrite in_app_iff. cbn. intuition congruence. Qed.

Lemma called_ok : forall c i a after acts, ok c -> alive c = true -> (forall o, In (Ref o) a -> exists x, held l o x) -> (forall j x, i = S j -> held l j x -> catches l i \/ a = [Ref j]) -> (forall x, ~ held l i x) ->
  does l i (hist c) (map (seen (mem c)) a) (leaves (map (seen (mem c)) a) after) -> ok (called c i a after acts).
Proof.
  intros c i a after acts [Om Oh Os Op Oa] Al Ha Hi Hn Hd. unfold called.
  set (before := map (seen (mem c)) a) in *. set (xs := leaves before after) in *.
  assert (Lb : length before = length a) by (unfold before; apply map_length).
  assert (Lx : length xs = length a) by (unfold xs; rewrite leaves_length; auto).
  assert (Lc : length (combine before xs) = length a) by (rewrite combine_length; lia).
  assert (Hg : forall k, task_ok (S i, goal_of (now_all a xs) k)).
  { intros k. apply goal_ok; auto. intros o Ho. apply Ha. eapply in_now_all; eauto. }
  constructor; cbn [mem hist stack pool alive].
  - intros o. rewrite left_in_app, last_app, <- Om. rewrite (store_all_last a before xs) by auto. reflexivity.
  - apply hist_snoc; auto. cbn. repeat split.
    + intros o x y Hin.
      assert (Hx : exists k, nth_error a k = Some (Ref o) /\ nth_error before k = Some x).
      { apply In_nth_error in Hin as [k Hk]. exists k. split.
        - rewrite <- (combine_fst _ _ a (combine before xs)) by auto. rewrite nth_error_map, Hk. reflexivity.
        - rewrite <- (combine_fst _ _ before xs) by lia. rewrite nth_error_map.
          rewrite <- (combine_snd _ _ a (combine before xs)) by auto. rewrite nth_error_map, Hk. reflexivity. }
      destruct Hx as (k & K1 & K2). unfold before in K2. rewrite nth_error_map, K1 in K2. cbn in K2. injection K2 as <-.
      destruct (Ha o) as [v Hv]; [eapply nth_error_In; eauto|]. exists v. split; auto. rewrite Om. unfold initial. rewrite Hv. reflexivity.
    + replace (map (fun p => fst (snd p)) (combine a (combine before xs))) with before.
      2:{ rewrite <- map_map with (f := snd) (g := fst). rewrite combine_snd by auto. rewrite combine_fst by lia. reflexivity. }
      replace (map (fun p => snd (snd p)) (combine a (combine before xs))) with xs.
      2:{ rewrite <- map_map with (f := snd) (g := snd). rewrite combine_snd by auto. rewrite combine_snd by lia. reflexivity. }
      exact Hd.
    + intros j v -> Hj. rewrite combine_fst by auto. exact (Hi j v eq_refl Hj).
    + rewrite <- Oa. congruence.
    + intros z x y Hin. apply In_nth_error in Hin as [k Hk].
      assert (K1 : nth_error a k = Some (Temp z)).
      { rewrite <- (combine_fst _ _ a (combine before xs)) by auto. rewrite nth_error_map, Hk. reflexivity. }
      assert (K2 : nth_error before k = Some x).
      { rewrite <- (combine_fst _ _ before xs) by lia. rewrite nth_error_map.
        rewrite <- (combine_snd _ _ a (combine before xs)) by auto. rewrite nth_error_map, Hk. reflexivity. }
      unfold before in K2. rewrite nth_error_map, K1 in K2. cbn in K2. congruence.
  - apply Forall_app. split; auto. apply Forall_forall. intros t Ht. apply in_map_iff in Ht as (k & <- & _). apply Hg.
  - apply Forall_app. split; auto. apply Forall_forall. intros t Ht. apply in_map_iff in Ht as (k & <- & _). apply Hg.
  - rewrite freed_snoc by discriminate. exact Oa.
Qed.

Lemma free_ok : forall c, ok c -> alive c = true -> ok (free c).
Proof.
  intros c [Om Oh Os Op Oa] Al. constructor; cbn; auto.
  - intros o. rewrite left_in_app. change (left_in o [_]) with (@nil N). rewrite app_nil_r. auto.
  - apply hist_snoc; auto. cbn. rewrite <- Oa. congruence.
  - rewrite in_app_iff. cbn. intuition.
Qed.

Lemma call_stage_ok : forall c i g, ok c -> alive c = true -> task_ok (i, g) -> ok (call_stage m l c i g).
Proof.
  intros c i g O Al T. pose proof O as [Om Oh Os Op Oa]. unfold call_stage.
  assert (PU : forall t, task_ok t -> ok (push c t)) by (intros t Ht; constructor; cbn; auto).
  destruct (nth_error l i) as [s|] eqn:E.
  - destruct g as [a|a|].
    3:{ destruct s; apply PU; exact I. }
    2:{ destruct s as [x|f|f|f|takes f]; try (apply PU; exact T). destruct (takes a); [|apply PU; exact T]. apply called_ok; auto.
        - intros j x _ _. left. unfold catches. eauto.
        - intros x Hx. unfold held in Hx. congruence.
        - eexists. rewrite E, leaves_length. repeat split. intros; apply leaves_nth. }
    destruct T as [T1 T2]. cbn in T2.
    assert (T3 : forall j x, i = S j -> held l j x -> catches l i \/ a = [Ref j]) by (intros j x Hj Hx; right; eauto).
    destruct s as [x|f|f|f|takes f].
    + apply PU. unfold task_ok; cbn. split.
      * intros o [[= <-]|[]]. exists x. exact E.
      * intros j y [= ->] _. reflexivity.
    + destruct (f (hist c) (map (seen (mem c)) a)) as [after r] eqn:Ef. apply called_ok; auto.
      * intros x Hx. unfold held in Hx. congruence.
      * exists after. rewrite E, Ef, leaves_length. repeat split. intros; apply leaves_nth.
    + apply called_ok; auto.
      * intros x Hx. unfold held in Hx. congruence.
      * eexists. rewrite E, leaves_length. repeat split. intros; apply leaves_nth.
    + destruct (f (hist c) (map (seen (mem c)) a)) as [after r] eqn:Ef. apply called_ok; auto.
      * intros x Hx. unfold held in Hx. congruence.
      * exists after. rewrite E, Ef, leaves_length. repeat split. intros; apply leaves_nth.
    + apply PU. split; [exact T1|]. intros j x Hj Hx. cbn in Hj. injection Hj as <-. unfold held in Hx. congruence.
  - unfold end_call. destruct m, g as [a|a|]; auto using free_ok.
    constructor; cbn; auto.
    + intros o. rewrite left_in_app. change (left_in o [_]) with (@nil N). rewrite app_nil_r. auto.
    + apply hist_snoc; auto. cbn. rewrite <- Oa. congruence.
    + constructor; auto. destruct T as [T1 T2]. split; auto. intros; discriminate.
    + rewrite freed_snoc by discriminate. auto.
Qed.

Lemma settle_ok : forall c, ok c -> ok (settle m c).
Proof. intros c O. unfold settle. destruct m; auto. destruct (stack c) eqn:E; auto. destruct (alive c) eqn:Al; auto using free_ok. Qed.

Lemma in_remove : forall A n (s : list A) x, In x (remove_nth n s) -> In x s.
Proof.
  intros A n s x H. unfold remove_nth in H. apply in_app_iff in H. rewrite <- (firstn_skipn n s), in_app_iff. destruct H as [H|H]; auto. right.
  assert (E : skipn (S n) s = skipn 1 (skipn n s)) by (clear; revert s; induction n as [|n IH]; intros [|y s]; cbn; auto; apply (IH s)).
  rewrite E in H. destruct (skipn n s); cbn in H; [contradiction|right; auto].
Qed.

Lemma step_ok : forall c lb c', ok c -> step m l c lb = Some (Running c') -> ok c'.
Proof.
  intros c lb c' O H. pose proof O as [Om Oh Os Op Oa]. destruct lb as [|n]; cbn in H; destruct (stack c) as [|t r] eqn:Es; try discriminate.
  - injection H as H. unfold deliver in H. cbn [alive] in H. destruct (alive c) eqn:Al; [|discriminate]. injection H as <-. inversion Os as [|? ? T R]; subst.
    apply settle_ok, call_stage_ok; [|reflexivity|destruct t; exact T]. constructor; cbn; auto.
  - destruct (nth_error (pool c) n) as [t|] eqn:En; [|discriminate]. injection H as H. unfold deliver in H. cbn [alive] in H.
    destruct (alive c) eqn:Al; [|discriminate]. injection H as <-. assert (T : task_ok t) by (rewrite Forall_forall in Op; apply Op; eapply nth_error_In; eauto).
    apply settle_ok, call_stage_ok; [|reflexivity|destruct t; exact T]. constructor; cbn; auto.
    rewrite Forall_forall in *. intros x Hx. apply Op. eapply in_remove; eauto.
Qed.

Lemma start_ok : forall a, ok (start l a).
Proof.
  intros a. constructor; cbn; auto.
  - intros [|? ?] ? ? H; discriminate.
  - constructor; auto. split; [|intros; discriminate]. intros o Ho. apply in_map_iff in Ho as (? & ? & _). discriminate.
  - intuition discriminate.
Qed.

Lemma exec_inv : forall (P : cfg -> Prop), (forall c lb c', P c -> step m l c lb = Some (Running c') -> P c') ->
  forall ls c c', P c -> exec m l (Running c) ls = Some (Running c') -> P c'.
Proof.
  intros P HP. induction ls as [|lb ls IH]; cbn; intros c c' H E.
  - injection E as <-. auto.
  - destruct (step m l c lb) as [[d|]|] eqn:Es; try discriminate; eauto. destruct ls; cbn in E; discriminate.
Qed.
Lemma exec_ok : forall a ls c, exec m l (Running (start l a)) ls = Some (Running c) -> ok c.
Proof. intros. eapply (exec_inv ok step_ok); eauto. apply start_ok. Qed.

(* one call at a time *)
Definition calls (c : cfg) : nat := length (stack c) + length (pool c).
Lemma acts_length : forall acts, length (now_calls acts) + length (later_calls acts) = length acts.
Proof. unfold now_calls, later_calls. induction acts as [|[k|k] r IH]; cbn; auto; lia. Qed.
Lemma called_calls : forall c i a after acts, calls (called c i a after acts) = calls c + length (acts (now_all a (leaves (map (seen (mem c)) a) after))).
Proof.
  intros. unfold called, calls. cbv zeta. cbn [stack pool]. rewrite !app_length, !map_length.
  set (k := acts _). pose proof (acts_length k). unfold task in *. lia.
Qed.
Lemma called_alive : forall c i a after acts, alive (called c i a after acts) = alive c.
Proof. reflexivity. Qed.

Lemma remove_length : forall A n (s : list A) x, nth_error s n = Some x -> length s = S (length (remove_nth n s)).
Proof.
  intros A n s x H. unfold remove_nth. rewrite app_length, firstn_length, skipn_length.
  assert (n < length s) by (apply nth_error_Some; congruence). lia.
Qed.

(* what a step does to the number of calls in flight: [c] is the configuration without the call that is made *)
Lemma call_stage_calls : forall c i g, Forall Single l -> alive c = true ->
  calls (call_stage m l c i g) + (if alive (call_stage m l c i g) then 0 else 1) <= calls c + 1.
Proof.
  intros c i g F Al. unfold call_stage. destruct (nth_error l i) as [s|] eqn:E.
  - assert (Hs : Single s) by (rewrite Forall_forall in F; apply F; eapply nth_error_In; eauto).
    destruct g as [a|a|]; [|destruct s as [x|f|f|f|takes f]; try (unfold calls; cbn; rewrite Al; lia)|destruct s; unfold calls; cbn; rewrite Al; lia].
    2:{ destruct (takes a); [rewrite called_calls, called_alive, Al; cbn; lia|unfold calls; cbn; rewrite Al; lia]. }
    destruct s as [x|f|f|f|takes f].
    + unfold calls; cbn; rewrite Al; lia.
    + destruct (f (hist c) (map (seen (mem c)) a)) as [after r]. rewrite called_calls, called_alive, Al. cbn. lia.
    + rewrite called_calls, called_alive, Al. cbn. lia.
    + specialize (Hs (hist c) (map (seen (mem c)) a)). destruct (f (hist c) (map (seen (mem c)) a)) as [after r]. cbn in Hs.
      rewrite called_calls, called_alive, Al. cbn. lia.
    + unfold calls; cbn; rewrite Al; lia.
  - unfold end_call. destruct m, g; unfold calls; cbn; try rewrite Al; lia.
Qed.
Lemma call_stage_once : forall c i g, m = Async -> Forall Once l -> alive c = true ->
  calls (call_stage m l c i g) + (if alive (call_stage m l c i g) then 0 else 1) = calls c + 1.
Proof.
  intros c i g Hm F Al. unfold call_stage. destruct (nth_error l i) as [s|] eqn:E.
  - assert (Hs : Once s) by (rewrite Forall_forall in F; apply F; eapply nth_error_In; eauto).
    destruct g as [a|a|]; [|destruct s as [x|f|f|f|takes f]; try (unfold calls; cbn; rewrite Al; lia)|destruct s; unfold calls; cbn; rewrite Al; lia].
    2:{ destruct (takes a); [rewrite called_calls, called_alive, Al; cbn; lia|unfold calls; cbn; rewrite Al; lia]. }
    destruct s as [x|f|f|f|takes f].
    + unfold calls; cbn; rewrite Al; lia.
    + destruct (f (hist c) (map (seen (mem c)) a)) as [after r]. rewrite called_calls, called_alive, Al. cbn. lia.
    + rewrite called_calls, called_alive, Al. cbn. lia.
    + specialize (Hs (hist c) (map (seen (mem c)) a)). destruct (f (hist c) (map (seen (mem c)) a)) as [after r]. cbn in Hs.
      rewrite called_calls, called_alive, Al. cbn. lia.
    + unfold calls; cbn; rewrite Al; lia.
  - unfold end_call. rewrite Hm. unfold calls; cbn. lia.
Qed.
Lemma call_stage_pool : forall c i g, Forall Prompt l -> pool c = [] -> pool (call_stage m l c i g) = [].
Proof.
  intros c i g F Hp. unfold call_stage. destruct (nth_error l i) as [s|] eqn:E.
  - assert (Hs : Prompt s) by (rewrite Forall_forall in F; apply F; eapply nth_error_In; eauto).
    destruct g as [a|a|]; [|destruct s as [x|f|f|f|takes f]; try exact Hp|destruct s; exact Hp].
    2:{ destruct (takes a); [|exact Hp]. cbn. rewrite Hp. reflexivity. }
    destruct s as [x|f|f|f|takes f]; [exact Hp| | | |exact Hp].
    + destruct (f (hist c) (map (seen (mem c)) a)) as [after r]. cbn. rewrite Hp. reflexivity.
    + cbn. rewrite Hp. reflexivity.
    + specialize (Hs (hist c) (map (seen (mem c)) a)). destruct (f (hist c) (map (seen (mem c)) a)) as [after r]. cbn in Hs.
      cbn. rewrite Hp. cbn. fold (later_calls r). replace (later_calls r) with (@nil call); [reflexivity|]. clear -Hs. symmetry. induction r as [|[k|k] r IH]; cbn; auto.
      * apply IH. intros k' H. apply (Hs k'). right; auto.
      * exfalso. apply (Hs k). left; auto.
  - unfold end_call. destruct m, g; auto.
Qed.

Definition safe (c : cfg) : Prop := calls c + (if alive c then 0 else 1) <= 1 /\ (m = Sync -> pool c = []).
Lemma settle_safe : forall c, safe c -> safe (settle m c).
Proof.
  intros c S. pose proof S as [S1 S2]. unfold settle. destruct m eqn:Em; try exact S. destruct (stack c) eqn:E; [|exact S].
  destruct (alive c) eqn:Al; [|exact S]. split; cbn; [|intros _; exact (S2 eq_refl)]. specialize (S2 eq_refl). unfold calls in *. cbn. rewrite E, S2. cbn. lia.
Qed.
Lemma step_safe : forall c lb o, Forall Single l -> (m = Sync -> Forall Prompt l) -> safe c -> step m l c lb = Some o -> exists c', o = Running c' /\ safe c'.
Proof.
  intros c lb o F FP [S1 S2] H. unfold calls in S1.
  assert (K : forall d t, calls d = 0 -> alive d = alive c -> pool d = [] -> alive c = true -> deliver m l d t = o -> exists c', o = Running c' /\ safe c').
  { intros d t Hd1 Hd2 Hp Al Hd. unfold deliver in Hd. rewrite Hd2, Al in Hd. eexists. split; [symmetry; exact Hd|]. apply settle_safe. split.
    - pose proof (call_stage_calls d (fst t) (snd t) F ltac:(congruence)). lia.
    - intros Hm. apply call_stage_pool; auto. }
  assert (Al : alive c = true \/ (stack c = [] /\ pool c = [])).
  { destruct (alive c); auto. right. destruct (stack c), (pool c); cbn in S1; auto; lia. }
  destruct Al as [Al|[E1 E2]].
  - rewrite Al in S1. destruct lb as [|n]; cbn in H; destruct (stack c) as [|t r] eqn:Es; try discriminate.
    + injection H as H. cbn in S1. destruct r; [|cbn in S1; lia]. destruct (pool c); [|cbn in S1; lia]. eapply K; [..|exact H]; auto.
    + destruct (nth_error (pool c) n) as [t|] eqn:En; [|discriminate]. injection H as H. pose proof (remove_length _ _ _ _ En) as R. cbn in S1.
      assert (R0 : remove_nth n (pool c) = []) by (destruct (remove_nth n (pool c)); auto; cbn in R; lia).
      eapply K; [..|exact H]; cbn; auto. unfold calls; cbn. rewrite R0. reflexivity.
  - destruct lb as [|n]; cbn in H; rewrite E1 in H; [discriminate|]. rewrite E2 in H. destruct n; discriminate.
Qed.
Lemma exec_safe : forall ls c o, Forall Single l -> (m = Sync -> Forall Prompt l) -> safe c -> exec m l (Running c) ls = Some o -> exists c', o = Running c' /\ safe c'.
Proof.
  induction ls as [|lb ls IH]; cbn; intros c o F FP S E.
  - injection E as <-. eauto.
  - destruct (step m l c lb) as [d|] eqn:Es; [|discriminate]. destruct (step_safe _ _ _ F FP S Es) as (c' & -> & S'). eauto.
Qed.

(* what the next stage is given *)
Lemma now_all_onward : forall a b xs, length b = length a -> length xs = length a -> now_all a xs = map onward (combine a (combine b xs)).
Proof.
  induction a as [|x a IH]; intros [|b0 b] [|x0 xs] H1 H2; try discriminate; [reflexivity|]. injection H1 as H1. injection H2 as H2.
  cbn. rewrite (IH b xs) by auto. reflexivity.
Qed.
Definition linked (c : cfg) : Prop :=
  (forall h i args, hist c = h ++ [Ran i args] -> forall t, In t (stack c ++ pool c) -> i < fst t /\ (fst t = S i -> forall g, (snd t = Go g /\ ~ catches l (S i) \/ snd t = Err g /\ catches l (S i)) -> passes l i h args g)) /\
  (forall h1 i args1 args2 h2, hist c = h1 ++ Ran i args1 :: Ran (S i) args2 :: h2 -> passes l i h1 args1 (map fst args2)).

Lemma snoc2 : forall (h : list event) e h1 e1 e2 h2, h ++ [e] = h1 ++ e1 :: e2 :: h2 -> (h2 = [] /\ e = e2 /\ h = h1 ++ [e1]) \/ exists h3, h = h1 ++ e1 :: e2 :: h3.
Proof.
  intros h e h1 e1 e2 h2 E. destruct h2 as [|x h2 _] using rev_ind.
  - left. change (h1 ++ [e1; e2]) with (h1 ++ [e1] ++ [e2]) in E. rewrite app_assoc in E. apply app_inj_tail in E as [-> ->]. auto.
  - right. exists h2. change (h1 ++ e1 :: e2 :: h2 ++ [x]) with (h1 ++ (e1 :: e2 :: h2) ++ [x]) in E. rewrite app_assoc in E. apply app_inj_tail in E as [-> _]. auto.
Qed.

Lemma linked_event : forall d c e, linked d -> hist c = hist d ++ [e] -> (forall i args, e <> Ran i args) -> linked c.
Proof.
  intros d c e [L1 L2] H Hne. split.
  - intros h i args E. rewrite H in E. apply app_inj_tail in E as [_ E]. exfalso. eapply Hne; eauto.
  - intros h1 i args1 args2 h2 E. rewrite H in E. apply snoc2 in E as [(_ & E & _)|[h3 E]]; [exfalso; eapply Hne; eauto|eauto].
Qed.

Lemma called_linked : forall c d i a after acts, linked c -> hist d = hist c -> mem d = mem c -> stack d = [] -> pool d = [] ->
  (exists g, In (i, g) (stack c ++ pool c) /\ (g = Go a /\ ~ catches l i \/ g = Err a /\ catches l i)) ->
  (forall g, (exists k, In k (acts (now_all a (leaves (map (seen (mem c)) a) after))) /\ match k with Now k | Later k =>
       goal_of (now_all a (leaves (map (seen (mem c)) a) after)) k = Go g /\ ~ catches l (S i) \/ goal_of (now_all a (leaves (map (seen (mem c)) a) after)) k = Err g /\ catches l (S i) end) ->
     passes l i (hist c) (combine a (combine (map (seen (mem c)) a) (leaves (map (seen (mem c)) a) after))) g) ->
  linked (called d i a after acts).
Proof.
  intros c d i a after acts [L1 L2] Hh Hm Hs Hp (g0 & Ht & Hg0) Hk. unfold called. rewrite Hh, Hm, Hs, Hp. cbv zeta. split; cbn [hist stack pool].
  - intros h j args E t Hin. apply app_inj_tail in E as [<- E]. injection E as <- <-. rewrite app_nil_r in Hin. cbn [app] in Hin.
    assert (K : exists k, fst t = S i /\ snd t = goal_of (now_all a (leaves (map (seen (mem c)) a) after)) k /\
                (In (Now k) (acts (now_all a (leaves (map (seen (mem c)) a) after))) \/ In (Later k) (acts (now_all a (leaves (map (seen (mem c)) a) after))))).
    { apply in_app_iff in Hin as [Hin|Hin]; apply in_map_iff in Hin as (k & <- & Hin); exists k; cbn; (split; [reflexivity|]); (split; [reflexivity|]);
        apply in_flat_map in Hin as ([y|y] & Hy & Hin); cbn in Hin; try contradiction; destruct Hin as [<-|[]]; auto. }
    destruct K as (k & K1 & K2 & K3). split; [lia|]. intros _ g Hg. apply Hk. rewrite K2 in Hg. destruct K3 as [K3|K3]; [exists (Now k)|exists (Later k)]; auto.
  - intros h1 j args1 args2 h2 E. apply snoc2 in E as [(_ & E & Eh)|[h3 E]]; [|eauto]. injection E as -> <-.
    destruct (L1 _ _ _ Eh _ Ht) as [_ P]. rewrite combine_fst; [apply P; [reflexivity|exact Hg0]|]. rewrite combine_length, leaves_length, map_length. lia.
Qed.

Lemma call_stage_linked : forall c d i g, linked c -> hist d = hist c -> mem d = mem c -> stack d = [] -> pool d = [] -> In (i, g) (stack c ++ pool c) ->
  linked (call_stage m l d i g).
Proof.
  intros c d i g L Hh Hm Hs Hp Ht. unfold call_stage.
  assert (PU : forall g', (forall h j args, hist c = h ++ [Ran j args] -> j < S i /\ (S i = S j -> False)) -> linked (push d (S i, g'))).
  { intros g' HJ. destruct L as [L1 L2]. split; cbn; rewrite Hh; auto. rewrite Hs, Hp. intros h j args E t [<-|[]]. destruct (HJ _ _ _ E) as [J1 J2].
    split; [exact J1|]. intros J3. exfalso. auto. }
  assert (HJ : forall h j args, hist c = h ++ [Ran j args] -> j < S i /\ (S i = S j -> False)).
  { intros h j args E. destruct L as [L1 _]. destruct (L1 _ _ _ E _ Ht) as [J _]. cbn in J. split; lia. }
  destruct (nth_error l i) as [s|] eqn:E.
  - destruct g as [a|a|].
    3:{ destruct s; apply PU; exact HJ. }
    2:{ destruct s as [x|f|f|f|takes f]; try (apply PU; exact HJ). destruct (takes a); [|apply PU; exact HJ].
        rewrite Hh, Hm. apply (called_linked c); auto.
        - exists (Err a). split; [exact Ht|]. right. split; auto. unfold catches; eauto.
        - intros g (k & [<-|[]] & [[Hg _]|[Hg _]]); cbn in Hg; discriminate. }
    assert (HT : (forall t f, nth_error l i <> Some (Catch t f)) -> exists g, In (i, g) (stack c ++ pool c) /\ (g = Go a /\ ~ catches l i \/ g = Err a /\ catches l i)).
    { intros Hc. exists (Go a). split; [exact Ht|]. left. split; auto. intros (t & f & Hf). exact (Hc t f Hf). }
    assert (Lb : length (map (seen (mem c)) a) = length a) by apply map_length.
    assert (LX : forall after, length (leaves (map (seen (mem c)) a) after) = length a) by (intros; rewrite leaves_length; exact Lb).
    assert (LC : forall after, length (combine (map (seen (mem c)) a) (leaves (map (seen (mem c)) a) after)) = length a).
    { intros. rewrite combine_length, LX. lia. }
    assert (BF : forall after, map (fun p => fst (snd p)) (combine a (combine (map (seen (mem c)) a) (leaves (map (seen (mem c)) a) after))) = map (seen (mem c)) a).
    { intros. rewrite <- map_map with (f := snd) (g := fst). rewrite combine_snd by apply LC. rewrite combine_fst; auto. rewrite LX; auto. }
    assert (PK : forall after rs, map (pick (now_all a (leaves (map (seen (mem c)) a) after))) rs
              = map (handed (combine a (combine (map (seen (mem c)) a) (leaves (map (seen (mem c)) a) after)))) rs).
    { intros. apply map_ext. intros [k|x]; cbn; [|reflexivity]. rewrite <- (now_all_onward a (map (seen (mem c)) a)); auto. }
    destruct s as [x|f|f|f|takes f].
    + apply PU; exact HJ.
    + rewrite Hh, Hm. destruct (f (hist c) (map (seen (mem c)) a)) as [after r] eqn:Ef. apply (called_linked c); auto; [apply HT; intros; congruence|].
      intros g (k & [<-|[]] & [[Hg Hc]|[Hg _]]); cbn in Hg; [|discriminate]. injection Hg as <-. unfold passes. rewrite E, BF, Ef, PK. auto.
    + rewrite Hh, Hm. apply (called_linked c); auto; [apply HT; intros; congruence|]. intros g (k & [<-|[]] & [[Hg Hc]|[Hg _]]); cbn in Hg; [|discriminate]. injection Hg as <-. unfold passes. rewrite E. split; [exact Hc|].
      rewrite <- (now_all_onward a (map (seen (mem c)) a)) by auto. clear. generalize (now_all a (leaves (map (seen (mem c)) a) (f (hist c) (map (seen (mem c)) a)))).
      intros q. rewrite map_map. cbn [pick]. induction q as [|y q IH]; [reflexivity|]. cbn. f_equal. rewrite <- seq_shift, map_map. exact IH.
    + rewrite Hh, Hm. destruct (f (hist c) (map (seen (mem c)) a)) as [after r] eqn:Ef. apply (called_linked c); auto.
      1:{ apply HT; intros; congruence. }
      intros g (k & Hin & Hg). unfold passes. rewrite E, BF, Ef. cbn [snd].
      assert (Q : exists q r, (k = Now q \/ k = Later q) /\ g = map (handed (combine a (combine (map (seen (mem c)) a) (leaves (map (seen (mem c)) a) after)))) r /\
                  (~ catches l (S i) /\ q = Resolve r \/ catches l (S i) /\ q = Reject r)).
      { destruct k as [[rs|rs|]|[rs|rs|]]; cbn in Hg; destruct Hg as [[Hg Hc]|[Hg Hc]]; try discriminate; injection Hg as <-; (eexists; exists rs); (split; [eauto|]); rewrite PK; auto. }
      destruct Q as (q & r' & Q1 & Q2 & Q3). exists q, r'. split; [destruct Q1 as [-> | ->]; auto|auto].
    + apply PU; exact HJ.
  - unfold end_call. destruct m, g as [a|a|]; try (eapply linked_event; [exact L|cbn; rewrite Hh; reflexivity|intros; discriminate]);
      (destruct L as [L1 L2]; split; rewrite Hh; [|exact L2]; rewrite Hs, Hp; intros ? ? ? ? ? []).
Qed.

Lemma settle_linked : forall c, linked c -> linked (settle m c).
Proof.
  intros c L. unfold settle. destruct m; auto. destruct (stack c) eqn:E; auto. destruct (alive c) eqn:Al; auto.
  eapply linked_event; [exact L|reflexivity|intros; discriminate].
Qed.
Lemma step_linked : forall c lb c', safe c -> linked c -> step m l c lb = Some (Running c') -> linked c'.
Proof.
  intros c lb c' [S1 _] L H. unfold calls in S1. destruct lb as [|n]; cbn in H; destruct (stack c) as [|[i g] r] eqn:Es; try discriminate.
  - injection H as H. unfold deliver in H. cbn in H, S1. destruct (alive c); [|discriminate]. injection H as <-. apply settle_linked.
    destruct r; [|cbn in S1; lia]. destruct (pool c) eqn:Ep; [|cbn in S1; lia]. apply (call_stage_linked c); auto. rewrite Es. left; auto.
  - destruct (nth_error (pool c) n) as [[i g]|] eqn:En; [|discriminate]. injection H as H. unfold deliver in H. cbn in H, S1.
    destruct (alive c); [|discriminate]. injection H as <-. apply settle_linked. pose proof (remove_length _ _ _ _ En).
    apply (call_stage_linked c); auto; cbn.
    + destruct (remove_nth n (pool c)); auto. cbn in *; lia.
    + rewrite Es. cbn. eapply nth_error_In; eauto.
Qed.
Lemma exec_linked : forall a ls c, Forall Single l -> (m = Sync -> Forall Prompt l) -> exec m l (Running (start l a)) ls = Some (Running c) -> linked c.
Proof.
  intros a ls c F FP E. eapply (exec_inv (fun c => safe c /\ linked c)); [| |exact E].
  - intros d lb d' [S L] St. split; [|eapply step_linked; eauto]. destruct (step_safe _ _ _ F FP S St) as (x & [= <-] & Sx). exact Sx.
  - split; [split; cbn; auto|]. split; cbn; [intros [|? ?] ? ? H; discriminate|intros [|? ?] ? ? ? ? H; discriminate].
Qed.

Definition counted (c : cfg) : Prop := calls c + (if alive c then 0 else 1) = 1.
Lemma step_counted : m = Async -> Forall Once l -> forall c lb c', counted c -> step m l c lb = Some (Running c') -> counted c'.
Proof.
  intros Hm F c lb c' S H. unfold counted in *. unfold calls in S.
  assert (Hset : forall d, settle m d = d) by (intros; unfold settle; rewrite Hm; reflexivity).
  destruct lb as [|n]; cbn in H; destruct (stack c) as [|t r] eqn:Es; try discriminate.
  - injection H as H. unfold deliver in H. cbn [alive] in H. destruct (alive c) eqn:Al; [|discriminate]. injection H as <-. rewrite Hset.
    rewrite call_stage_once; auto. unfold calls; cbn in *. lia.
  - destruct (nth_error (pool c) n) as [t|] eqn:En; [|discriminate]. injection H as H. unfold deliver in H. cbn [alive] in H.
    destruct (alive c) eqn:Al; [|discriminate]. injection H as <-. rewrite Hset. rewrite call_stage_once; auto. unfold calls; cbn.
    pose proof (remove_length _ _ _ _ En). cbn in *. lia.
Qed.
End P.
