From Verif Require Import Base StoreModel LifeModel LifeSpec.
From Coq Require Import Permutation.
Open Scope nat_scope.

Section Life.
Variable S : Type.
Variable apply : S -> msg -> S * bool.
Variable static_false : msg -> bool.
Variable look : S -> path -> outcome.
Variable foreign : S -> msg -> S * list path.
Variable fresh : nat -> S.
Variable A : Type.
Variable X : Type.
Variable sh : shape A X.
Variable count : nat.

Notation step := (step S apply static_false look foreign fresh A X sh count).
Notation exec := (exec S apply static_false look foreign fresh A X sh count).
Notation push := (push S apply static_false look A X sh count).
Notation task := (task A X).
Notation event := (event X).
Notation machine := (machine S A X).
Notation todo := (todo S A X).
Notation log := (log S A X).
Notation ub := (ub S A X).
Notation stores := (stores S A X).
Notation state := (state S A X).
Notation actor i := (actor A X sh i).
Notation to_consumers := (to_consumers A X sh count).
Notation to_state_consumers := (to_state_consumers A X sh count).
Notation life := (life S A X sh count).

Definition pushes (m : msg) (ts : list task) (e : list event) : Prop := exists st st1, push st m = (st1, ts, e).

(* what a step does to the list of tasks and to the log *)
Inductive gives : task -> list task -> list event -> Prop :=
| g_construct i a : gives (Construct i a) [Run i (snd (construct A X (actor i) a))] [Constructed i a]
| g_stores : gives MakeStores [] [StoresMade]
| g_initp i : gives (InitProducer i) [Run i (init_producer A X (actor i))] [InitedProducer i]
| g_initc i : gives (InitConsumer i) [Run i (init_consumer A X (actor i))] [InitedConsumer i]
| g_outside m ts e : pushes m ts e -> gives (Outside m) ts e
| g_ret i : gives (Run i Ret) [] []
| g_get i k a : gives (Run i (Get k)) [Run i (k a)] []
| g_set i a k : gives (Run i (Set_ a k)) [Run i k] []
| g_push i m k ts e : pushes m ts e -> gives (Run i (Push m k)) (ts ++ [Run i k]) e
| g_look i p k o : gives (Run i (Look p k)) [Run i (k o)] []
| g_read i p k ts e s : look s p = TriggerRead -> pushes (make_upstream_read 0%N (PPath p) None) ts e ->
                        gives (Run i (Look p k)) (ts ++ [Run i (k Unresolved)]) e
| g_up i m : gives (ToProducer i m) [Run i (on_up A X (actor i) m)] [GotUp i m]
| g_down i m : gives (ToConsumer i m) [Run i (on_down A X (actor i) m)] [GotDown i m]
| g_note i p : gives (ToState i p) [Run i (on_notify A X (actor i) p)] [Notified i p]
| g_foreign l m ps : gives (Foreign l m) (flat_map to_state_consumers ps) []
| g_drop : gives DropStores [] [StoresDropped]
| g_destruct i : gives (Destruct i) [Run i (destruct_ A X (actor i)); Free i] [Destructed i]
| g_free i : gives (Free i) [] [].

Definition moves (s s' : machine) : Prop :=
  s' = s \/ (ub s' = true /\ log s' = log s /\ todo s' = todo s) \/
  exists t r ts e, todo s = t :: r /\ todo s' = ts ++ r /\ log s' = log s ++ e /\ ub s' = false /\ gives t ts e.

Lemma step_moves : forall s, moves s (step s).
Proof.
  intros s. unfold LifeModel.step.
  destruct (ub s) eqn:U; [left; reflexivity|].
  destruct (todo s) as [|t r] eqn:T; [left; reflexivity|].
  assert (UB : forall x : machine, log x = log s -> todo x = todo s -> moves s (undefined S A X x)).
  { intros x H H1. right; left. repeat split; auto. }
  assert (GO : forall (x : machine) ts e, log x = log s -> ub x = false -> gives t ts e ->
               moves s (next S A X x (ts ++ r) e)).
  { intros x ts e H H1 G. right; right. exists t, r, ts, e. cbn.
    split; [exact T|]. split; [reflexivity|]. rewrite H. split; [reflexivity|]. split; [exact H1|exact G]. }
  assert (CALL : forall i p ts e, gives t (Run i p :: ts) e ->
                 moves s (call S A X s i p (ts ++ r) e)).
  { intros i p ts e G. unfold call. destruct (state s i); [|apply UB; reflexivity].
    apply (GO s (Run i p :: ts) e); auto. }
  assert (PUSH : forall m ts1 , (forall ts e, pushes m ts e -> gives t (ts ++ ts1) e) ->
                 moves s (push_then S apply static_false look A X sh count s m (ts1 ++ r))).
  { intros m ts1 G. unfold push_then. destruct (stores s) as [st|]; [|apply UB; reflexivity].
    destruct (push st m) as [[st1 ts] e] eqn:P. rewrite app_assoc. apply GO; auto. apply G.
    exists st, st1. exact P. }
  destruct t as [i a| |i|i|m|i p|i m|i m|i p|l m| |i|i].
  - destruct (construct A X (actor i) a) as [x body] eqn:C.
    apply (GO (with_state S A X s i (Some x)) [Run i body] [Constructed i a]); auto.
    replace body with (snd (construct A X (actor i) a)) by (rewrite C; reflexivity). constructor.
  - apply (GO (with_stores S A X s (Some fresh)) [] [StoresMade]); auto. constructor.
  - apply (CALL i _ []). constructor.
  - apply (CALL i _ []). constructor.
  - apply (PUSH m []). intros. rewrite app_nil_r. constructor. auto.
  - unfold run_prog. destruct p as [|k|a k|m k|p k].
    + apply (GO s [] []); auto. constructor.
    + destruct (state s i) as [a|]; [|apply UB; reflexivity].
      apply (GO s [Run i (k a)] []); auto. constructor.
    + apply (GO (with_state S A X s i (Some a)) [Run i k] []); auto. constructor.
    + apply (PUSH m [Run i k]). intros. constructor. auto.
    + unfold look_then. destruct (stores s) as [st|] eqn:ST; [|apply UB; reflexivity].
      destruct (look (st (ptype p)) p) eqn:L.
      * apply (PUSH _ [Run i (k Unresolved)]). intros. eapply g_read; eauto.
      * apply (GO s [Run i (k Unresolved)] []); auto. constructor.
      * apply (GO s [Run i (k (Resolved v))] []); auto. constructor.
  - apply (CALL i _ []). constructor.
  - apply (CALL i _ []). constructor.
  - apply (CALL i _ []). constructor.
  - destruct (stores s) as [st|]; [|apply UB; reflexivity].
    destruct (foreign (st l) m) as [s1 ps]. apply GO; auto. constructor.
  - apply (GO (with_stores S A X s None) [] [StoresDropped]); auto. constructor.
  - apply (CALL i _ [Free i]). constructor.
  - apply (GO (with_state S A X s i None) [] []); auto. constructor.
Qed.

(* an invariant of every execution *)
Lemma exec_ind : forall (P : machine -> Prop),
  (forall s s', moves s s' -> P s -> P s') -> forall n s, P s -> P (exec n s).
Proof.
  intros P H. induction n as [|n IH]; intros s B; cbn; auto. apply IH. eapply H; [apply step_moves|exact B].
Qed.

Definition is_note (t : task) : Prop := match t with ToState _ _ => True | _ => False end.
Definition is_foreign (t : task) : Prop := match t with Foreign _ _ => True | _ => False end.

Lemma notes_all : forall p, Forall is_note (to_state_consumers p).
Proof. intros p. unfold to_state_consumers, LifeModel.to_state_consumers. apply Forall_forall. intros t H. apply in_map_iff in H as (i & <- & _). exact I. Qed.

Lemma pushes_shape : forall m ts e, pushes m ts e ->
  exists notes mids others, ts = notes ++ mids ++ others /\ Forall is_note notes /\ Forall is_foreign others /\
    ((exists d, mids = to_consumers d /\ (e = [Accepted d] \/ e = [Answered d])) \/
     ((mids = [] \/ mids = [ToProducer (producer_of A X sh (path_type m)) m]) /\ e = [])).
Proof.
  intros m ts e (st & st1 & P). unfold LifeModel.push in P.
  assert (O : Forall is_foreign (map (fun l => @Foreign A X l m) (listeners_of A X sh (path_type m)))).
  { apply Forall_forall. intros t H. apply in_map_iff in H as (i & <- & _). exact I. }
  destruct (path_of m) as [p|].
  - destruct (is_upstream m && is_read m).
    + destruct (look _ p).
      * injection P as <- <- <-. exists [], [ToProducer (producer_of A X sh (path_type m)) m], (map (fun l => Foreign l m) (listeners_of A X sh (path_type m))).
        repeat split; auto.
      * injection P as <- <- <-. exists [], [], (map (fun l => Foreign l m) (listeners_of A X sh (path_type m))).
        repeat split; auto.
      * destruct (to_downstream_read m v) as [d|]; injection P as <- <- <-.
        -- exists [], (to_consumers d), (map (fun l => Foreign l m) (listeners_of A X sh (path_type m))).
           repeat split; auto. left. exists d. auto.
        -- exists [], [], (map (fun l => Foreign l m) (listeners_of A X sh (path_type m))). repeat split; auto.
    + destruct (if static_false m then (st (path_type m), false) else apply (st (path_type m)) m) as [s1 c].
      assert (O1 : Forall is_note (if c then to_state_consumers p else [])) by (destruct c; [apply notes_all|constructor]).
      destruct (is_upstream m); injection P as <- <- <-.
      * exists (if c then to_state_consumers p else []), [ToProducer (producer_of A X sh (path_type m)) m], (map (fun l => Foreign l m) (listeners_of A X sh (path_type m))).
        repeat split; auto.
      * exists (if c then to_state_consumers p else []), (to_consumers m), (map (fun l => Foreign l m) (listeners_of A X sh (path_type m))).
        repeat split; auto. left. exists m. auto.
  - injection P as <- <- <-. destruct (is_upstream m).
    + exists [], [ToProducer (producer_of A X sh (path_type m)) m], []. repeat split; auto.
    + exists [], [], []. repeat split; auto.
Qed.

(* ---- the order of the life ---- *)
Definition will (t : task) : list event :=
  match t with
  | Construct i a => [Constructed i a]
  | MakeStores => [StoresMade]
  | InitProducer i => [InitedProducer i]
  | InitConsumer i => [InitedConsumer i]
  | DropStores => [StoresDropped]
  | Destruct i => [Destructed i]
  | _ => []
  end.

Definition inner (t : task) : Prop :=
  match t with Run _ _ | ToProducer _ _ | ToConsumer _ _ | ToState _ _ | Foreign _ _ | Free _ => True | _ => False end.

Lemma pushes_inner : forall m ts e, pushes m ts e -> Forall inner ts.
Proof.
  intros m ts e H. destruct (pushes_shape _ _ _ H) as (a & b & c & -> & H1 & H2 & H3).
  apply Forall_app. split; [|apply Forall_app; split].
  - eapply Forall_impl; [|exact H1]. intros []; cbn; auto.
  - destruct H3 as [(d & -> & _)|[[->| ->] _]]; try (repeat constructor; fail).
    unfold LifeModel.to_consumers. apply Forall_forall. intros t H4. apply in_map_iff in H4 as (i & <- & _). exact I.
  - eapply Forall_impl; [|exact H2]. intros []; cbn; auto.
Qed.

Lemma gives_inner : forall t ts e, gives t ts e -> Forall inner ts.
Proof.
  intros t ts e G. destruct G; try (repeat constructor; fail).
  - eapply pushes_inner; eauto.
  - apply Forall_app. split; [eapply pushes_inner; eauto|repeat constructor].
  - apply Forall_app. split; [eapply pushes_inner; eauto|repeat constructor].
  - apply Forall_forall. intros t H. apply in_flat_map in H as (p & _ & H).
    unfold LifeModel.to_state_consumers in H. apply in_map_iff in H as (i & <- & _). exact I.
Qed.

Lemma will_inner : forall ts, Forall inner ts -> flat_map will ts = [].
Proof. induction 1 as [|t ts H _ IH]; auto. destruct t; cbn in *; auto; contradiction. Qed.

Lemma pushes_events : forall m ts e, pushes m ts e -> e = [] \/ exists d, e = [Accepted d] \/ e = [Answered d].
Proof.
  intros m ts e H. destruct (pushes_shape _ _ _ H) as (a & b & c & _ & _ & _ & [(d & _ & H1)|[_ ->]]); eauto.
Qed.

Lemma gives_will : forall t ts e, gives t ts e -> filter lifecycle e = will t.
Proof.
  intros t ts e G. destruct G; try reflexivity; cbn.
  - destruct (pushes_events _ _ _ H) as [->|[d [->| ->]]]; reflexivity.
  - destruct (pushes_events _ _ _ H) as [->|[d [->| ->]]]; reflexivity.
  - destruct (pushes_events _ _ _ H0) as [->|[d [->| ->]]]; reflexivity.
Qed.

Definition on_course (full : list event) (s : machine) : Prop :=
  filter lifecycle (log s) ++ flat_map will (todo s) = full.

Lemma on_course_step : forall full s s', moves s s' -> on_course full s -> on_course full s'.
Proof.
  unfold on_course. intros full s s' [->|[(_ & L & T)|(t & r & ts & e & T & T' & L & _ & G)]] H; auto.
  - rewrite L, T. exact H.
  - rewrite T', L, filter_app, flat_map_app, (will_inner ts) by (eapply gives_inner; eauto).
    rewrite (gives_will _ _ _ G). rewrite T in H. cbn in H. rewrite <- app_assoc. exact H.
Qed.

Lemma flat_map_map : forall (B C D : Type) (f : B -> list C) (g : D -> B) l,
  flat_map f (map g l) = flat_map (fun x => f (g x)) l.
Proof. intros. induction l as [|x l IH]; cbn; [reflexivity|]. rewrite IH. reflexivity. Qed.
Lemma flat_map_one : forall (B C : Type) (f : B -> C) l, flat_map (fun x => [f x]) l = map f l.
Proof. intros. induction l as [|x l IH]; cbn; [reflexivity|]. rewrite IH. reflexivity. Qed.

Lemma life_course : forall args ms, length args = count ->
  on_course (whole_life args (filter (fun i => producer A X (actor i)) (seq 0 count))
                             (filter (fun i => consumer A X (actor i)) (seq 0 count))) (life args ms).
Proof.
  intros args ms E. unfold on_course, life, LifeModel.life, build, inits, tear_down, whole_life. cbn.
  rewrite !flat_map_app. cbn. rewrite !flat_map_app. cbn. rewrite !flat_map_map. cbn.
  rewrite E. rewrite <- !app_assoc. cbn.
  rewrite (flat_map_one _ _ (fun x => @Constructed X (fst x) (snd x))).
  rewrite (flat_map_one _ _ (@InitedProducer X)), (flat_map_one _ _ (@InitedConsumer X)).
  rewrite (flat_map_one _ _ (@Destructed X)).
  replace (flat_map (fun _ : msg => @nil event) ms) with (@nil event) by (clear; induction ms; auto).
  rewrite <- !app_assoc. reflexivity.
Qed.

(* ---- initialisation before messages ---- *)
Section Calm.
(* the initialisations that matter *)
Variable due : task -> bool.

Definition calm_task (t : task) : Prop :=
  match t with
  | Construct i a => quiet (snd (construct A X (actor i) a))
  | MakeStores => True
  | InitProducer i => quiet (init_producer A X (actor i))
  | InitConsumer i => quiet (init_consumer A X (actor i))
  | Run _ p => quiet p
  | _ => False
  end.

Fixpoint calm (l : list task) : Prop :=
  match l with
  | [] => True
  | t :: r => existsb due l = false \/ (calm_task t /\ calm r)
  end.

Lemma calm_none : forall l, existsb due l = false -> calm l.
Proof. intros [|t r] H; cbn; auto. Qed.
Lemma calm_tail : forall t r, calm (t :: r) -> calm r.
Proof.
  intros t r [H|[_ H]]; auto. apply calm_none. cbn in H. apply orb_false_iff in H. tauto.
Qed.

Hypothesis due_inner : forall t, inner t -> due t = false.
Lemma due_inners : forall ts r, Forall inner ts -> existsb due (ts ++ r) = existsb due r.
Proof. induction 1 as [|t ts H _ IH]; cbn; auto. rewrite (due_inner t H), IH. reflexivity. Qed.

Lemma calm_gives : forall t ts e r, gives t ts e -> calm (t :: r) -> calm (ts ++ r).
Proof.
  intros t ts e r G C. pose proof (calm_tail _ _ C) as R.
  destruct C as [H|[H _]].
  - apply calm_none. rewrite due_inners by (eapply gives_inner; eauto). cbn in H. apply orb_false_iff in H. tauto.
  - destruct G; cbn in *; auto; try contradiction.
Qed.

(* the calls which the due tasks will make *)
Definition done_before (full : list event) (l : list event) : Prop :=
  forall t e, due t = true -> In e (will t) -> In e full -> In e l.

Definition orderly (full : list event) (s : machine) : Prop :=
  on_course full s /\
  (forall l1 x l2, log s = l1 ++ x :: l2 -> delivery x = true -> done_before full l1) /\
  ((calm (todo s) /\ forall x, In x (log s) -> delivery x = false) \/ done_before full (log s)).

Hypothesis due_will : forall t e t', due t = true -> In e (will t) -> In e (will t') -> due t' = true.
Hypothesis due_life : forall t e, due t = true -> In e (will t) -> lifecycle e = true.

Lemma all_done : forall full s, on_course full s -> existsb due (todo s) = false -> done_before full (log s).
Proof.
  intros full s C H t e D W F. unfold on_course in C. rewrite <- C in F. apply in_app_iff in F as [F|F].
  - apply filter_In in F. tauto.
  - apply in_flat_map in F as (t' & I & W').
    assert (D' : due t' = true) by (eapply due_will; eauto).
    assert (existsb due (todo s) = true) by (apply existsb_exists; eauto). congruence.
Qed.

Lemma done_more : forall full l l', done_before full l -> done_before full (l ++ l').
Proof. intros full l l' H t e D W F. apply in_app_iff. left. eapply H; eauto. Qed.

Lemma split_snoc : forall (E : Type) (l l1 l2 : list E) x e,
  l ++ e = l1 ++ x :: l2 -> (exists l3, l = l1 ++ x :: l3) \/ exists e1 e2, e = e1 ++ x :: e2 /\ l1 = l ++ e1.
Proof.
  intros E. induction l as [|y l IH]; intros l1 l2 x e H.
  - right. exists l1, l2. auto.
  - destruct l1 as [|z l1]; cbn in H.
    + injection H as -> H. left. exists l. reflexivity.
    + injection H as -> H. apply IH in H as [(l3 & ->)|(e1 & e2 & -> & ->)].
      * left. exists l3. reflexivity.
      * right. exists e1, e2. split; reflexivity.
Qed.

Lemma gives_delivery : forall t ts e x, gives t ts e -> In x e -> delivery x = true ->
  e = [x] /\ match t with ToProducer _ _ | ToConsumer _ _ | ToState _ _ => True | _ => False end.
Proof.
  intros t ts e x G I D.
  assert (P : forall m ts e, pushes m ts e -> In x e -> False).
  { intros m ts0 e0 H I0. destruct (pushes_events _ _ _ H) as [->|[d [->| ->]]]; [destruct I0| |]; destruct I0 as [<-|[]]; discriminate. }
  destruct G; cbn in I; try contradiction;
    try (destruct I as [<-|[]]; cbn in D; first [discriminate | split; [reflexivity|exact Logic.I]]);
    exfalso; eapply P; eauto.
Qed.

Lemma orderly_step : forall full s s', moves s s' -> orderly full s -> orderly full s'.
Proof.
  intros full s s' M (C & O & R). pose proof (on_course_step full s s' M C) as C'.
  destruct M as [->|[(_ & L & T)|(t & r & ts & e & T & T' & L & _ & G)]].
  - split; auto.
  - split; auto. rewrite L, T. split; auto.
  - assert (K : forall x, In x e -> delivery x = true -> done_before full (log s)).
    { intros x I D. destruct R as [[R _]|R]; auto.
      destruct (gives_delivery _ _ _ _ G I D) as [_ W]. rewrite T in R. destruct R as [R|[R _]].
      - apply all_done; auto. rewrite T. exact R.
      - destruct t; cbn in *; contradiction. }
    split; auto. split.
    + intros l1 x l2 E D. rewrite L in E. apply split_snoc in E as [(l3 & E)|(e1 & e2 & -> & ->)].
      * eapply O; eauto.
      * apply done_more. eapply K; [|exact D]. apply in_app_iff. right. left. reflexivity.
    + destruct R as [[R Q]|R].
      * destruct (existsb delivery e) eqn:De.
        -- right. apply existsb_exists in De as (x & I & D). rewrite L. apply done_more. eapply K; eauto.
        -- left. rewrite T', L. split; [rewrite T in R; eapply calm_gives; eauto|].
           intros x I. apply in_app_iff in I as [I|I]; auto.
           destruct (delivery x) eqn:D; auto.
           assert (existsb delivery e = true) by (apply existsb_exists; eauto). congruence.
      * right. rewrite L. apply done_more. exact R.
Qed.
End Calm.

(* ---- every consumer gets every message ---- *)
Definition waiting (i : nat) (l : list task) : list msg :=
  flat_map (fun t => match t with ToConsumer j m => if Nat.eqb j i then [m] else [] | _ => [] end) l.

Lemma waiting_app : forall i l r, waiting i (l ++ r) = waiting i l ++ waiting i r.
Proof. intros. apply flat_map_app. Qed.
Lemma waiting_note : forall i l, Forall is_note l -> waiting i l = [].
Proof. induction 1 as [|t l H _ IH]; auto. destruct t; cbn in *; auto; contradiction. Qed.
Lemma waiting_foreign : forall i l, Forall is_foreign l -> waiting i l = [].
Proof. induction 1 as [|t l H _ IH]; auto. destruct t; cbn in *; auto; contradiction. Qed.

Lemma waiting_consumers : forall i d, i < count -> consumer A X (actor i) = true -> waiting i (to_consumers d) = [d].
Proof.
  intros i d L C. unfold LifeModel.to_consumers, waiting. rewrite flat_map_map. cbn.
  assert (H : forall l, NoDup l -> flat_map (fun j => if Nat.eqb j i then [d] else [])
                (filter (fun j => consumer A X (actor j)) l) = if in_dec Nat.eq_dec i l then [d] else []).
  { induction l as [|j l IH]; intros N; [reflexivity|]. inversion N as [|? ? N1 N2]; subst.
    cbn [filter]. destruct (Nat.eqb j i) eqn:E.
    - apply Nat.eqb_eq in E. subst j. rewrite C. cbn [flat_map]. rewrite Nat.eqb_refl, (IH N2).
      destruct (in_dec Nat.eq_dec i l); [contradiction|]. destruct (in_dec Nat.eq_dec i (i :: l)) as [_|H]; [reflexivity|].
      exfalso. apply H. left. reflexivity.
    - assert (J : (if in_dec Nat.eq_dec i (j :: l) then [d] else []) = if in_dec Nat.eq_dec i l then [d] else []).
      { apply Nat.eqb_neq in E. destruct (in_dec Nat.eq_dec i l) as [H|H], (in_dec Nat.eq_dec i (j :: l)) as [H1|H1]; auto.
        - exfalso. apply H1. right. exact H.
        - destruct H1; [congruence|contradiction]. }
      rewrite J, <- (IH N2). destruct (consumer A X (actor j)); cbn [flat_map]; [rewrite E|]; reflexivity. }
  rewrite H by apply seq_NoDup. destruct (in_dec Nat.eq_dec i (seq 0 count)) as [_|N]; [reflexivity|].
  exfalso. apply N. apply in_seq. lia.
Qed.

Lemma pushes_waiting : forall i m ts e, i < count -> consumer A X (actor i) = true -> pushes m ts e ->
  waiting i ts = accepted e.
Proof.
  intros i m ts e L C P. destruct (pushes_shape _ _ _ P) as (a & b & c & -> & H1 & H2 & H3).
  rewrite !waiting_app, (waiting_note i a H1), (waiting_foreign i c H2), app_nil_r. cbn [app].
  destruct H3 as [(d & -> & [->| ->])|[[->| ->] ->]]; try reflexivity; apply waiting_consumers; auto.
Qed.

Lemma waiting_notes_of : forall i ps, waiting i (flat_map to_state_consumers ps) = [].
Proof.
  intros i. induction ps as [|p ps IH]; cbn [flat_map]; auto. rewrite waiting_app, IH, waiting_note by apply notes_all. reflexivity.
Qed.

(* a step either hands over a message or takes new ones *)
Lemma gives_waiting : forall i t ts e r, i < count -> consumer A X (actor i) = true -> gives t ts e ->
  (waiting i (t :: r) = heard i e ++ waiting i (ts ++ r) /\ accepted e = []) \/
  (heard i e = [] /\ waiting i (ts ++ r) = accepted e ++ waiting i (t :: r)).
Proof.
  intros i t ts e r L C G.
  assert (P : forall m ts e ts1, pushes m ts e -> waiting i ts1 = [] -> waiting i [t] = [] ->
    (waiting i (t :: r) = heard i e ++ waiting i ((ts ++ ts1) ++ r) /\ accepted e = []) \/
    (heard i e = [] /\ waiting i ((ts ++ ts1) ++ r) = accepted e ++ waiting i (t :: r))).
  { intros m ts0 e0 ts1 H H1 H2. right. split.
    - destruct (pushes_events _ _ _ H) as [->|[d [->| ->]]]; reflexivity.
    - rewrite !waiting_app, H1, (pushes_waiting i m ts0 e0 L C H), app_nil_r.
      change (t :: r) with ([t] ++ r). rewrite waiting_app, H2. reflexivity. }
  destruct G; try (left; split; reflexivity).
  - rewrite <- (app_nil_r ts). eapply P; eauto.
  - eapply P; eauto.
  - eapply P; eauto.
  - left. cbn. destruct (Nat.eqb i0 i); split; reflexivity.
  - left. rewrite waiting_app, waiting_notes_of. split; reflexivity.
Qed.

Lemma heard_app : forall i (l r : list event), heard i (l ++ r) = heard i l ++ heard i r.
Proof. intros. apply flat_map_app. Qed.
Lemma accepted_app : forall (l r : list event), accepted (l ++ r) = accepted l ++ accepted r.
Proof. intros. apply flat_map_app. Qed.

Definition balanced (i : nat) (s : machine) : Prop :=
  Permutation (heard i (log s) ++ waiting i (todo s)) (accepted (log s)).

Lemma balanced_step : forall i, i < count -> consumer A X (actor i) = true ->
  forall s s', moves s s' -> balanced i s -> balanced i s'.
Proof.
  unfold balanced. intros i L C s s' [->|[(_ & Lg & T)|(t & r & ts & e & T & T' & Lg & _ & G)]] B; auto.
  - rewrite Lg, T. exact B.
  - rewrite T', Lg, heard_app, accepted_app. rewrite T in B.
    destruct (gives_waiting i t ts e r L C G) as [[W E]|[E W]].
    + rewrite E, app_nil_r, <- app_assoc, <- W. exact B.
    + rewrite E, W, app_nil_r. rewrite (Permutation_app_comm (accepted e)), app_assoc.
      apply Permutation_app_tail. exact B.
Qed.

(* ---- and in the same order ---- *)
Section Tame.
Hypothesis tame_down : forall i m, tame (on_down A X (actor i) m).
Hypothesis tame_notify : forall i p, tame (on_notify A X (actor i) p).
Hypothesis no_trigger : forall s p, look s p <> TriggerRead.

Definition tells (t : task) : bool := match t with ToConsumer _ _ => true | _ => false end.
Definition tame_task (t : task) : Prop :=
  match t with Run _ p => tame p | ToConsumer _ _ | ToState _ _ | Foreign _ _ => True | _ => False end.
Fixpoint tidy (l : list task) : Prop :=
  match l with
  | [] => True
  | t :: r => existsb tells l = false \/ (tame_task t /\ tidy r)
  end.

Lemma tidy_none : forall l, existsb tells l = false -> tidy l.
Proof. intros [|t r] H; cbn; auto. Qed.
Lemma tidy_tail : forall t r, tidy (t :: r) -> tidy r.
Proof. intros t r [H|[_ H]]; auto. apply tidy_none. cbn in H. apply orb_false_iff in H. tauto. Qed.
Lemma tidy_app : forall l r, Forall tame_task l -> tidy r -> tidy (l ++ r).
Proof. induction 1 as [|t l H _ IH]; cbn; auto. Qed.

Lemma none_waiting : forall i l, existsb tells l = false -> waiting i l = [].
Proof.
  induction l as [|t l IH]; intros H; auto. cbn in H. apply orb_false_iff in H as [H1 H2].
  change (t :: l) with ([t] ++ l). rewrite waiting_app, (IH H2), app_nil_r. destruct t; try reflexivity. discriminate.
Qed.

Lemma pushes_tidy : forall m ts e r, pushes m ts e -> existsb tells r = false -> tidy (ts ++ r).
Proof.
  intros m ts e r P N. destruct (pushes_shape _ _ _ P) as (a & b & c & -> & H1 & H2 & H3).
  rewrite <- app_assoc. apply tidy_app; [eapply Forall_impl; [|exact H1]; intros []; cbn; auto; contradiction|].
  rewrite <- app_assoc.
  assert (Nc : existsb tells (c ++ r) = false).
  { rewrite existsb_app, N, orb_false_r. clear - H2. induction H2 as [|t l H _ IH]; auto. destruct t; cbn in *; auto; contradiction. }
  destruct H3 as [(d & -> & _)|[[->| ->] _]].
  - apply tidy_app; [|apply tidy_none; exact Nc].
    unfold LifeModel.to_consumers. apply Forall_forall. intros t H4. apply in_map_iff in H4 as (i & <- & _). exact I.
  - apply tidy_none. exact Nc.
  - apply tidy_none. exact Nc.
Qed.

Lemma tidy_gives : forall t ts e r, gives t ts e -> tidy (t :: r) ->
  tidy (ts ++ r) /\ (accepted e <> [] -> existsb tells r = false).
Proof.
  intros t ts e r G T. pose proof (tidy_tail _ _ T) as R.
  assert (P : forall m ts e k, pushes m ts e -> ~ tame_task t -> tells k = false ->
     tidy ((ts ++ [k]) ++ r) /\ (accepted e <> [] -> existsb tells r = false)).
  { intros m ts0 e0 k H H1 H2. destruct T as [T|[T _]]; [|contradiction].
    cbn in T. apply orb_false_iff in T as [_ T]. split; [|auto].
    rewrite <- app_assoc. eapply pushes_tidy; eauto. cbn. rewrite H2, T. reflexivity. }
  assert (Q : forall k, (tame_task t -> tame_task k) -> tells k = false -> tidy (k :: r)).
  { intros k H1 H2. destruct T as [T|[T _]]; cbn; auto.
    left. cbn in T. apply orb_false_iff in T as [_ T]. rewrite H2, T. reflexivity. }
  destruct G; cbn [app];
    try (split; [first [exact R | apply Q; [cbn; solve [tauto | auto]|reflexivity]] | intros B; exfalso; apply B; reflexivity]).
  - destruct T as [T|[[] _]]. cbn in T. split; [eapply pushes_tidy; eauto|auto].
  - eapply P; eauto.
  - destruct (no_trigger _ _ H).
  - split; [|intros B; exfalso; apply B; reflexivity].
    apply tidy_app; auto. apply Forall_forall. intros t I. apply in_flat_map in I as (p & _ & I).
    pose proof (notes_all p) as F. rewrite Forall_forall in F. specialize (F _ I). destruct t; cbn in *; auto; contradiction.
  - split; [|intros B; exfalso; apply B; reflexivity].
    destruct T as [T|[[] _]]. cbn in T. cbn. left. exact T.
Qed.

Definition in_order (i : nat) (s : machine) : Prop :=
  heard i (log s) ++ waiting i (todo s) = accepted (log s) /\ tidy (todo s).

Lemma in_order_step : forall i, i < count -> consumer A X (actor i) = true ->
  forall s s', moves s s' -> in_order i s -> in_order i s'.
Proof.
  unfold in_order. intros i L C s s' [->|[(_ & Lg & T)|(t & r & ts & e & T & T' & Lg & _ & G)]] [B D]; auto.
  - rewrite Lg, T. auto.
  - rewrite T', Lg, heard_app, accepted_app. rewrite T in B, D.
    destruct (tidy_gives _ _ _ _ G D) as [D1 D2]. split; [|exact D1].
    destruct (gives_waiting i t ts e r L C G) as [[W E]|[E W]].
    + rewrite E, app_nil_r, <- app_assoc, <- W. exact B.
    + rewrite E, W, app_nil_r. destruct (accepted e) as [|d a] eqn:Ae.
      * rewrite app_nil_r. exact B.
      * assert (N : waiting i r = []) by (apply none_waiting; apply D2; discriminate).
        assert (W1 : waiting i (t :: r) = waiting i [t]).
        { change (t :: r) with ([t] ++ r). rewrite waiting_app, N, app_nil_r. reflexivity. }
        assert (W2 : waiting i [t] = []).
        { destruct G; try reflexivity; try discriminate. }
        rewrite W1, W2 in *. rewrite app_nil_r in *. rewrite B. reflexivity.
Qed.
End Tame.

(* ---- the stores exist when they are used ---- *)
Definition construct_of (x : nat * option X) : task := Construct (fst x) (snd x).
Definition alive (s : machine) (i : nat) : Prop := state s i <> None.

Definition middle (t : task) : Prop :=
  match t with
  | InitProducer i | InitConsumer i | Run i _ | ToProducer i _ | ToConsumer i _ | ToState i _ => i < count
  | Foreign _ _ | Outside _ => True
  | _ => False
  end.

Definition harmless (x : nat * option X) : Prop :=
  let (a, body) := construct A X (actor (fst x)) (snd x) in ~ uses a body.

Notation tear_down := (tear_down A X count).

Inductive phase (s : machine) : Prop :=
| p_begin cs mid : todo s = map construct_of cs ++ MakeStores :: mid ++ tear_down ->
    Forall middle mid -> Forall harmless cs -> (forall j, j < count -> alive s j \/ In j (map fst cs)) -> phase s
| p_constructor i p a cs mid : todo s = Run i p :: map construct_of cs ++ MakeStores :: mid ++ tear_down ->
    state s i = Some a -> ~ uses a p ->
    Forall middle mid -> Forall harmless cs -> (forall j, j < count -> alive s j \/ In j (map fst cs)) -> phase s
| p_middle mid : todo s = mid ++ tear_down -> Forall middle mid -> stores s <> None ->
    (forall j, j < count -> alive s j) -> phase s
| p_end ds : todo s = map Destruct ds -> stores s = None -> NoDup ds -> (forall j, In j ds -> alive s j) -> phase s
| p_destructor i p a ds : todo s = Run i p :: Free i :: map Destruct ds -> stores s = None -> state s i = Some a -> ~ uses a p -> ~ In i ds ->
    NoDup ds -> (forall j, In j ds -> alive s j) -> phase s
| p_free i ds : todo s = Free i :: map Destruct ds -> stores s = None -> ~ In i ds ->
    NoDup ds -> (forall j, In j ds -> alive s j) -> phase s.

Section Safe.
Hypothesis producers : forall t, producer_of A X sh t < count.
Lemma note_middle : forall p, Forall middle (to_state_consumers p).
Proof.
  intros p. unfold LifeModel.to_state_consumers. apply Forall_forall. intros t H.
  apply in_map_iff in H as (i & <- & H). apply filter_In in H as [H _]. apply in_seq in H. cbn. lia.
Qed.

Lemma notes_middle : forall ps, Forall middle (flat_map to_state_consumers ps).
Proof.
  induction ps as [|p ps IH]; cbn [flat_map]; [constructor|]. apply Forall_app. split; [apply note_middle|exact IH].
Qed.

Lemma pushes_middle : forall m ts e, pushes m ts e -> Forall middle ts.
Proof.
  intros m ts e (st & st1 & P). unfold LifeModel.push in P.
  assert (O : Forall middle (map (fun l => @Foreign A X l m) (listeners_of A X sh (path_type m)))).
  { apply Forall_forall. intros t H. apply in_map_iff in H as (i & <- & _). exact I. }
  assert (C : forall d, Forall middle (to_consumers d)).
  { intros d. unfold LifeModel.to_consumers. apply Forall_forall. intros t H.
    apply in_map_iff in H as (i & <- & H). apply filter_In in H as [H _]. apply in_seq in H. cbn. lia. }
  assert (U : middle (ToProducer (producer_of A X sh (path_type m)) m)) by apply producers.
  assert (N : forall (c : bool) p, Forall middle (if c then to_state_consumers p else [])).
  { intros [] p; [apply note_middle|constructor]. }
  destruct (path_of m) as [p|].
  - destruct (is_upstream m && is_read m).
    + destruct (look _ p); [| |destruct (to_downstream_read m v)]; injection P as <- <- <-; auto.
      apply Forall_app. auto.
    + destruct (if static_false m then (st (path_type m), false) else apply (st (path_type m)) m) as [s1 c].
      destruct (is_upstream m); injection P as <- <- <-; repeat (apply Forall_app; split); auto.
  - injection P as <- <- <-. destruct (is_upstream m); auto.
Qed.

Lemma push_then_phase : forall s m mid, ub s = false -> stores s <> None -> Forall middle mid ->
  (forall j, j < count -> alive s j) ->
  let s' := push_then S apply static_false look A X sh count s m (mid ++ tear_down) in ub s' = false /\ phase s'.
Proof.
  intros s m mid U St F Al. unfold push_then. destruct (stores s) as [st|]; [|congruence].
  destruct (push st m) as [[st1 ts] e] eqn:P. cbv zeta. split; [exact U|].
  apply (p_middle _ (ts ++ mid)); cbn.
  - rewrite app_assoc. reflexivity.
  - apply Forall_app. split; auto. eapply pushes_middle. exists st, st1. exact P.
  - discriminate.
  - exact Al.
Qed.

Lemma alive_set : forall s i a j, alive s j -> upd A (state s) i (Some a) j <> None.
Proof. intros s i a j H. unfold upd. destruct (Nat.eqb j i); [discriminate|exact H]. Qed.

Lemma middle_step : forall s t mid, ub s = false -> todo s = t :: mid ++ tear_down -> stores s <> None ->
  middle t -> Forall middle mid -> (forall j, j < count -> alive s j) -> ub (step s) = false /\ phase (step s).
Proof.
  intros s t mid U T St Mt F Al. unfold LifeModel.step. rewrite U, T.
  assert (CALL : forall i p e, i < count -> let s' := call S A X s i p (mid ++ tear_down) e in ub s' = false /\ phase s').
  { intros i p e H. unfold call. pose proof (Al i H) as Ai. unfold alive in Ai.
    destruct (state s i) as [a|]; [|congruence]. cbv zeta. split; [exact U|].
    apply (p_middle _ (Run i p :: mid)); auto. }
  destruct t as [i a| |i|i|m|i p|i m|i m|i p|l m| |i|i]; cbn in Mt; try contradiction; try (apply CALL; exact Mt).
  - apply push_then_phase; auto.
  - unfold run_prog. destruct p as [|k|a k|m k|p k].
    + split; [exact U|]. apply (p_middle _ mid); auto.
    + pose proof (Al i Mt) as Ai. unfold alive in Ai. destruct (state s i) as [a|]; [|congruence].
      split; [exact U|]. apply (p_middle _ (Run i (k a) :: mid)); auto.
    + split; [exact U|]. apply (p_middle _ (Run i k :: mid)); auto.
      intros j H. cbn. apply alive_set. auto.
    + apply (push_then_phase s m (Run i k :: mid)); auto.
    + unfold look_then. destruct (stores s) as [st|] eqn:Es; [|congruence].
      destruct (look (st (ptype p)) p).
      * apply (push_then_phase s _ (Run i (k Unresolved) :: mid)); auto. rewrite Es. discriminate.
      * split; [exact U|]. apply (p_middle _ (Run i (k Unresolved) :: mid)); auto. cbn. rewrite Es. discriminate.
      * split; [exact U|]. apply (p_middle _ (Run i (k (Resolved v)) :: mid)); auto. cbn. rewrite Es. discriminate.
  - destruct (stores s) as [st|] eqn:Es; [|congruence]. destruct (foreign (st l) m) as [s1 ps].
    split; [exact U|]. apply (p_middle _ (flat_map to_state_consumers ps ++ mid)); cbn.
    + rewrite app_assoc. reflexivity.
    + apply Forall_app. split; auto. apply notes_middle.
    + discriminate.
    + exact Al.
Qed.

Definition good_destructor (s : machine) : Prop :=
  forall i a r, todo s = Destruct i :: r -> state s i = Some a -> ~ uses a (destruct_ A X (actor i)).
Lemma phase_step : forall s, ub s = false -> phase s -> good_destructor s -> ub (step s) = false /\ phase (step s).
Proof.
  intros s U P GD. destruct P as [cs mid T F H Al|i p a cs mid T St N F H Al|mid T F St Al|ds T No N Al|i p a ds T No Ai Q I N Al|i ds T No I N Al].
  - destruct cs as [|[i a] cs]; cbn in T.
    + unfold LifeModel.step. rewrite U, T. split; [exact U|]. apply (p_middle _ mid); cbn; auto; [discriminate|].
      intros j L. destruct (Al j L) as [B|[]]; exact B.
    + change (construct_of (i, a)) with (@Construct A X i a) in T.
      unfold LifeModel.step. rewrite U, T. inversion H as [|? ? H1 H2]; subst. unfold harmless in H1. cbn in H1.
      destruct (construct A X (actor i) a) as [x body] eqn:C.
      split; [exact U|]. apply (p_constructor _ i body x cs mid); cbn; auto.
      * unfold upd. rewrite Nat.eqb_refl. reflexivity.
      * intros j L. destruct (Al j L) as [B|[B|B]].
        -- left. unfold alive. cbn. apply alive_set. exact B.
        -- left. cbn in B. subst j. unfold alive. cbn. unfold upd. rewrite Nat.eqb_refl. discriminate.
        -- right. exact B.
  - unfold LifeModel.step. rewrite U, T. unfold run_prog. destruct p as [|k|a' k|m k|p k]; cbn in N; try tauto.
    + split; [exact U|]. apply (p_begin _ cs mid); auto.
    + rewrite St. split; [exact U|]. apply (p_constructor _ i (k a) a cs mid); auto.
    + split; [exact U|]. apply (p_constructor _ i k a' cs mid); cbn; auto.
      * unfold upd. rewrite Nat.eqb_refl. reflexivity.
      * intros j L. destruct (Al j L) as [B|B]; auto. left. unfold alive. cbn. apply alive_set. exact B.
  - destruct mid as [|t mid].
    + cbn in T. unfold LifeModel.step. rewrite U, T. split; [exact U|].
      apply (p_end _ (rev (seq 0 count))); cbn; auto.
      * apply NoDup_rev. apply seq_NoDup.
      * intros j I. apply in_rev in I. apply in_seq in I. apply Al. lia.
    + inversion F as [|? ? F1 F2]; subst. eapply middle_step; eauto.
  - destruct ds as [|i ds]; cbn in T.
    + unfold LifeModel.step. rewrite U, T. split; [exact U|]. apply (p_end _ []); auto.
    + unfold LifeModel.step. rewrite U, T. unfold call. pose proof (Al i (or_introl eq_refl)) as Ai. unfold alive in Ai.
      inversion N as [|? ? N1 N2]; subst.
      destruct (state s i) as [a|] eqn:E; [|congruence]. split; [exact U|].
      apply (p_destructor _ i (destruct_ A X (actor i)) a ds); cbn; auto.
      * exact (GD _ _ _ T E).
      * intros j Ij. apply Al. right. exact Ij.
  - unfold LifeModel.step. rewrite U, T. unfold run_prog. destruct p as [|k|a' k|m k|p k]; cbn in Q; try tauto.
    + split; [exact U|]. apply (p_free _ i ds); auto.
    + rewrite Ai. split; [exact U|]. apply (p_destructor _ i (k a) a ds); cbn; auto.
    + split; [exact U|]. apply (p_destructor _ i k a' ds); cbn; auto.
      * unfold upd. rewrite Nat.eqb_refl. reflexivity.
      * intros j Ij. unfold alive. cbn. apply alive_set. apply Al. exact Ij.
  - unfold LifeModel.step. rewrite U, T. split; [exact U|]. apply (p_end _ ds); cbn; auto.
    intros j Ij. unfold alive. cbn. unfold upd. destruct (Nat.eqb j i) eqn:E; [|apply Al; exact Ij].
    apply Nat.eqb_eq in E. congruence.
Qed.

Lemma phase_exec : forall n s, ub s = false -> phase s -> (forall k, k < n -> good_destructor (exec k s)) -> ub (exec n s) = false /\ phase (exec n s).
Proof.
  induction n as [|n IH]; intros s U P G; cbn; auto. destruct (phase_step s U P (G 0 (Nat.lt_0_succ n))). apply IH; auto.
  intros k L. apply (G (Datatypes.S k)). lia.
Qed.

Lemma phase_life : forall args ms, length args = count ->
  Forall harmless (combine (seq 0 count) args) -> phase (life args ms).
Proof.
  intros args ms E H.
  apply (p_begin _ (combine (seq 0 count) args) (inits A X sh count ++ map Outside ms)); auto.
  - unfold life, LifeModel.life, build. cbn. rewrite <- !app_assoc. reflexivity.
  - apply Forall_app. split; [apply Forall_app; split|]; apply Forall_forall; intros t I; apply in_map_iff in I as (i & <- & I); cbn; auto.
    + apply filter_In in I as [I _]. apply in_seq in I. lia.
    + apply filter_In in I as [I _]. apply in_seq in I. lia.
  - intros j L. right.
    assert (G : forall (l : list nat) (r : list (option X)), length r = length l -> map fst (combine l r) = l).
    { induction l as [|x l IH]; intros [|y r] Lr; cbn in *; try discriminate; auto. rewrite IH by lia. reflexivity. }
    rewrite G by (rewrite seq_length; exact E). apply in_seq. lia.
Qed.
End Safe.

(* a constructor that uses the handle *)
Lemma run_constructor : forall p i a (s : machine) r, ub s = false -> todo s = Run i p :: r -> state s i = Some a ->
  ~ uses a p -> exists n, stores (exec n s) = stores s /\ todo (exec n s) = r /\ ub (exec n s) = false.
Proof.
  induction p as [|k IH|a' k IH|m k IH|p k IH]; intros i a s r U T St N; cbn in N; try tauto.
  - exists 1. cbn [LifeModel.exec].
    assert (E : step s = next S A X s r []) by (unfold LifeModel.step; rewrite U, T; reflexivity).
    rewrite E. cbn. auto.
  - assert (E : step s = next S A X s (Run i (k a) :: r) []) by (unfold LifeModel.step; rewrite U, T; cbn; rewrite St; reflexivity).
    destruct (IH a i a (step s) r) as (n & E1 & E2 & E3); try (rewrite E; cbn; auto; fail); auto.
    exists (Datatypes.S n). cbn [LifeModel.exec]. rewrite E1, E2, E3, E. auto.
  - assert (E : step s = next S A X (with_state S A X s i (Some a')) (Run i k :: r) [])
      by (unfold LifeModel.step; rewrite U, T; reflexivity).
    destruct (IH i a' (step s) r) as (n & E1 & E2 & E3); try (rewrite E; cbn; auto; fail); auto.
    { rewrite E. cbn. unfold upd. rewrite Nat.eqb_refl. reflexivity. }
    exists (Datatypes.S n). cbn [LifeModel.exec]. rewrite E1, E2, E3, E. auto.
Qed.

Lemma run_bad : forall p i a (s : machine) r, ub s = false -> stores s = None -> todo s = Run i p :: r -> state s i = Some a ->
  uses a p -> exists n, ub (exec n s) = true.
Proof.
  induction p as [|k IH|a' k IH|m k IH|p k IH]; intros i a s r U No T St N; cbn in N; try tauto.
  - assert (E : step s = next S A X s (Run i (k a) :: r) []) by (unfold LifeModel.step; rewrite U, T; cbn; rewrite St; reflexivity).
    destruct (IH a i a (step s) r) as (n & E1); try (rewrite E; cbn; auto; fail); auto.
    exists (Datatypes.S n). exact E1.
  - assert (E : step s = next S A X (with_state S A X s i (Some a')) (Run i k :: r) [])
      by (unfold LifeModel.step; rewrite U, T; reflexivity).
    destruct (IH i a' (step s) r) as (n & E1); try (rewrite E; cbn; auto; fail); auto.
    { rewrite E. cbn. unfold upd. rewrite Nat.eqb_refl. reflexivity. }
    exists (Datatypes.S n). exact E1.
  - exists 1. cbn. unfold LifeModel.step. rewrite U, T. cbn. unfold push_then. rewrite No. reflexivity.
  - exists 1. cbn. unfold LifeModel.step. rewrite U, T. cbn. unfold look_then. rewrite No. reflexivity.
Qed.

Lemma exec_add : forall n m s, exec (n + m) s = exec m (exec n s).
Proof. induction n as [|n IH]; intros m s; cbn; auto. Qed.

Lemma uses_dec : forall (p : prog A) a, uses a p \/ ~ uses a p.
Proof. induction p as [|k IH|a' k IH|m k IH|p k IH]; intros a; cbn; auto. Qed.

Lemma harmless_dec : forall x, harmless x \/ ~ harmless x.
Proof.
  intros x. unfold harmless. destruct (construct A X (actor (fst x)) (snd x)) as [a body].
  destruct (uses_dec body a) as [H|H]; tauto.
Qed.

Lemma bad_constructor : forall cs (s : machine) r, ub s = false -> stores s = None -> todo s = map construct_of cs ++ r ->
  Exists (fun x => ~ harmless x) cs -> exists n, ub (exec n s) = true.
Proof.
  induction cs as [|[i x] cs IH]; intros s r U No T E; [inversion E|].
  cbn in T. change (construct_of (i, x)) with (@Construct A X i x) in T.
  destruct (construct A X (actor i) x) as [a body] eqn:C.
  assert (E1 : step s = next S A X (with_state S A X s i (Some a)) (Run i body :: map construct_of cs ++ r) [Constructed i x])
    by (unfold LifeModel.step; rewrite U, T, C; reflexivity).
  assert (Si : state (step s) i = Some a) by (rewrite E1; cbn; unfold upd; rewrite Nat.eqb_refl; reflexivity).
  destruct (uses_dec body a) as [H|H].
  - destruct (run_bad body i a (step s) (map construct_of cs ++ r)) as (n & B); auto; try (rewrite E1; cbn; auto; fail).
    exists (Datatypes.S n). exact B.
  - destruct (run_constructor body i a (step s) (map construct_of cs ++ r)) as (n & B1 & B2 & B3); auto; try (rewrite E1; cbn; auto; fail).
    assert (E2 : Exists (fun x => ~ harmless x) cs).
    { inversion E as [? ? D|? ? D]; subst; auto. exfalso. apply D. unfold harmless. cbn. rewrite C. exact H. }
    destruct (IH (exec n (step s)) r) as (n2 & D); auto; try (rewrite B1, E1; cbn; auto; fail).
    exists (Datatypes.S (n + n2)). cbn. rewrite exec_add. exact D.
Qed.

(* a destructor that uses the handle *)
Lemma bad_destructor : forall (s : machine) i a r, ub s = false -> phase s -> todo s = Destruct i :: r -> state s i = Some a ->
  uses a (destruct_ A X (actor i)) -> exists n, ub (exec n s) = true.
Proof.
  intros s i a r U P T St N.
  assert (No : stores s = None).
  { destruct P as [cs mid T' _ _ _|i' p a' cs mid T' _ _ _ _ _|mid T' F _ _|ds T' No _ _|i' p a' ds T' _ _ _ _ _ _|i' ds T' No _ _ _]; auto; rewrite T in T'; try discriminate.
    - destruct cs; discriminate.
    - destruct mid as [|t mid]; [discriminate|]. injection T' as <- _. inversion F; contradiction. }
  assert (E : step s = next S A X s (Run i (destruct_ A X (actor i)) :: Free i :: r) [Destructed i]).
  { unfold LifeModel.step. rewrite U, T. cbn. unfold call. rewrite St. reflexivity. }
  destruct (run_bad (destruct_ A X (actor i)) i a (step s) (Free i :: r)) as (n & B); try (rewrite E; cbn; auto; fail); auto.
  exists (Datatypes.S n). exact B.
Qed.

(* ---- what the stores have ---- *)
Section Stores.
(* what is seen of a store, and what messages do to that *)
Variable V : Type.
Variable obs : S -> V.
Variable change : V -> msg -> V.
Hypothesis on_upstream : forall s m, is_upstream m = true -> obs (fst (apply s m)) = obs s.
Hypothesis on_downstream : forall s m, is_upstream m = false -> path_of m <> None -> static_false m = false ->
  obs (fst (apply s m)) = change (obs s) m.
Hypothesis on_foreign : forall s m, obs (fst (foreign s m)) = obs s.
(* with or without the context's own answers to reads *)
Variable all : bool.
Definition told (l : list event) : list msg := if all then accepted l else applied l.
Hypothesis on_answer : all = true -> forall s m p v d, is_upstream m = true -> is_read m = true -> path_of m = Some p ->
  look (fst (apply s m)) p = Resolved v -> to_downstream_read m v = Some d -> change (obs s) d = obs s.

Definition folded (t : nat) (l : list msg) : V :=
  fold_left change (filter (fun m => Nat.eqb (path_type m) t && negb (static_false m)) l) (obs (fresh t)).

Lemma folded_snoc : forall t l m, folded t (l ++ [m]) =
  if Nat.eqb (path_type m) t && negb (static_false m) then change (folded t l) m else folded t l.
Proof.
  intros t l m. unfold folded. rewrite filter_app, fold_left_app. cbn [filter].
  destruct (Nat.eqb (path_type m) t && negb (static_false m)); reflexivity.
Qed.

Lemma put_same : forall (st : nat -> S) t s x, obs s = obs (st t) -> obs (put S st t s x) = obs (st x).
Proof. intros st t s x E. unfold put. destruct (Nat.eqb x t) eqn:Q; auto. apply Nat.eqb_eq in Q. subst. exact E. Qed.

Lemma answer_type : forall m v d, to_downstream_read m v = Some d -> path_type d = path_type m.
Proof.
  intros m v d H. unfold to_downstream_read in H. destruct (mkind m); try discriminate.
  destruct (get_path m) as [[[p|t r]| | | | |]|] eqn:E; try discriminate; injection H as <-; unfold path_type; rewrite E; reflexivity.
Qed.

Local Arguments applied X l : simpl never.
Local Arguments accepted X l : simpl never.
Local Arguments told l : simpl never.
Lemma told_nil : told [] = [].
Proof. unfold told. destruct all; reflexivity. Qed.
Lemma told_accepted : forall m, told [Accepted m] = [m].
Proof. unfold told. destruct all; reflexivity. Qed.

Lemma told_other : forall e : event, match e with Accepted _ | Answered _ => False | _ => True end -> told [e] = [].
Proof. intros e H. unfold told. destruct e; try contradiction; destruct all; reflexivity. Qed.

Lemma push_folds : forall st m st1 ts e l, push st m = (st1, ts, e) -> (forall t, obs (st t) = folded t l) ->
  forall t, obs (st1 t) = folded t (l ++ told e).
Proof.
  intros st m st1 ts e l P H t. unfold LifeModel.push in P. destruct (path_of m) as [p|] eqn:Ep.
  - destruct (is_upstream m && is_read m) eqn:Er.
    + apply andb_true_iff in Er as [Eu Er]. set (s1 := fst (apply (st (path_type m)) m)) in *.
      assert (G : obs (put S st (path_type m) s1 t) = folded t l) by (rewrite put_same; [apply H|apply on_upstream; exact Eu]).
      assert (G0 : obs (put S st (path_type m) s1 t) = folded t (l ++ told [])) by (rewrite told_nil, app_nil_r; exact G).
      destruct (look _ p) eqn:El; [| |destruct (to_downstream_read m v) as [d|] eqn:Ed]; injection P as <- <- <-; try exact G0.
      rewrite G. unfold told in *. destruct all; [|cbn; unfold applied; cbn; rewrite app_nil_r; reflexivity].
      cbn. unfold accepted. cbn. rewrite folded_snoc, (answer_type _ _ _ Ed).
      destruct (Nat.eqb (path_type m) t && negb (static_false d)) eqn:Q; auto.
      apply andb_true_iff in Q as [Q _]. apply Nat.eqb_eq in Q. subst t. rewrite <- H. symmetry.
      unfold put in El. rewrite Nat.eqb_refl in El.
      exact (on_answer eq_refl _ _ _ _ _ Eu Er Ep El Ed).
    + destruct (if static_false m then (st (path_type m), false) else apply (st (path_type m)) m) as [s1 c] eqn:Ea.
      destruct (is_upstream m) eqn:Eu; injection P as <- <- <-.
      * rewrite told_nil, app_nil_r, <- H. apply put_same.
        destruct (static_false m); [congruence|]. rewrite <- (on_upstream (st (path_type m)) m Eu), Ea. reflexivity.
      * rewrite told_accepted, folded_snoc. unfold put. rewrite (Nat.eqb_sym t). destruct (Nat.eqb (path_type m) t) eqn:E; cbn; [|apply H].
        apply Nat.eqb_eq in E. subst t. rewrite <- H.
        destruct (static_false m) eqn:Es; cbn; [congruence|]. rewrite <- on_downstream by congruence. rewrite Ea. reflexivity.
  - injection P as <- <- <-. rewrite told_nil, app_nil_r. apply H.
Qed.

Lemma told_app : forall (l r : list event), told (l ++ r) = told l ++ told r.
Proof. intros. unfold told. destruct all; apply flat_map_app. Qed.

(* before the stores are made nothing was applied; so they are not made a second time *)
Definition follows (s : machine) : Prop :=
  match stores s with
  | Some st => (forall t, obs (st t) = folded t (told (log s))) /\ ~ In MakeStores (todo s)
  | None => In MakeStores (todo s) -> told (log s) = []
  end /\ (length (filter (fun t => match t with MakeStores => true | _ => false end) (todo s)) <= 1).

Definition made (t : task) : bool := match t with MakeStores => true | _ => false end.

Lemma made_in : forall l : list task, In MakeStores l -> 1 <= length (filter made l).
Proof.
  induction l as [|t l IH]; intros H; [destruct H|]. cbn. destruct H as [->|H]; cbn; [lia|].
  specialize (IH H). destruct (made t); cbn; lia.
Qed.
Lemma made_inner : forall l : list task, Forall inner l -> filter made l = [].
Proof. induction 1 as [|t l H _ IH]; auto. destruct t; cbn in *; auto; contradiction. Qed.
Lemma made_none : forall l : list task, Forall inner l -> ~ In MakeStores l.
Proof. intros l H I. rewrite Forall_forall in H. exact (H _ I). Qed.

Lemma follows_step : forall s, follows s -> follows (step s).
Proof.
  intros s [F C]. pose proof (step_moves s) as M.
  assert (C' : length (filter made (todo (step s))) <= 1).
  { destruct M as [->|[(_ & _ & ->)|(t & r & ts & e & T & -> & _ & _ & G)]]; auto.
    rewrite filter_app, made_inner by (eapply gives_inner; eauto). cbn.
    change (length (filter made (todo s)) <= 1) in C. rewrite T in C. cbn in C. destruct (made t); cbn in C; lia. }
  split; [|exact C'].
  unfold LifeModel.step in *. destruct (ub s) eqn:U; [exact F|].
  destruct (todo s) as [|t r] eqn:T; [rewrite T in *; exact F|].
  change (length (filter made (t :: r)) <= 1) in C.
  assert (SAME : forall (s' : machine), stores s' = stores s -> told (log s') = told (log s) ->
     (In MakeStores (todo s') -> In MakeStores (t :: r)) ->
     match stores s' with
     | Some st => (forall t, obs (st t) = folded t (told (log s'))) /\ ~ In MakeStores (todo s')
     | None => In MakeStores (todo s') -> told (log s') = []
     end).
  { intros s' E1 E2 E3. rewrite E1, E2. destruct (stores s) as [st|]; [split; tauto|auto]. }
  assert (UB : match stores s with
     | Some st => (forall t, obs (st t) = folded t (told (log s))) /\ ~ In MakeStores (todo s)
     | None => In MakeStores (todo s) -> told (log s) = []
     end) by (rewrite T; exact F).
  assert (CALL : forall i p e, told e = [] -> forall ts, ~ In MakeStores ts -> let s' := call S A X s i p (ts ++ r) e in
     match stores s' with
     | Some st => (forall t, obs (st t) = folded t (told (log s'))) /\ ~ In MakeStores (todo s')
     | None => In MakeStores (todo s') -> told (log s') = []
     end).
  { intros i p e E ts N. unfold call. destruct (state s i); [|exact UB]. apply SAME; cbn; auto.
    - rewrite told_app, E, app_nil_r. reflexivity.
    - intros [B|B]; [discriminate|]. apply in_app_iff in B as [B|B]; [contradiction|auto]. }
  assert (PUSH : forall m ts, ~ In MakeStores ts -> let s' := push_then S apply static_false look A X sh count s m (ts ++ r) in
     match stores s' with
     | Some st => (forall t, obs (st t) = folded t (told (log s'))) /\ ~ In MakeStores (todo s')
     | None => In MakeStores (todo s') -> told (log s') = []
     end).
  { intros m ts N. unfold push_then. destruct (stores s) as [st|] eqn:Es; [|cbn; rewrite Es; exact UB].
    destruct (push st m) as [[st1 ts1] e] eqn:P. cbn. destruct F as [F1 F2]. split.
    - intros x. rewrite told_app. eapply push_folds; eauto.
    - intros B. apply in_app_iff in B as [B|B].
      + eapply made_none; [|exact B]. eapply pushes_inner. exists st, st1. exact P.
      + apply in_app_iff in B as [B|B]; [contradiction|]. apply F2. right. exact B. }
  destruct t as [i a| |i|i|m|i p|i m|i m|i p|l m| |i|i].
  - destruct (construct A X (actor i) a) as [x body]. apply SAME; cbn; auto.
    + rewrite told_app, (told_other (Constructed i a) Logic.I), app_nil_r. reflexivity.
    + intros [B|B]; [discriminate|auto].
  - cbn in C. assert (Nr : ~ In MakeStores r) by (intros B; apply made_in in B; lia).
    assert (E : told (log s) = []).
    { destruct (stores s); [destruct F as [_ F]; exfalso; apply F; left; reflexivity|]. apply F. left. reflexivity. }
    cbn. rewrite told_app, E, (told_other StoresMade Logic.I). split; [reflexivity|exact Nr].
  - apply (CALL _ _ [InitedProducer i] (told_other (InitedProducer i) Logic.I) []). auto.
  - apply (CALL _ _ [InitedConsumer i] (told_other (InitedConsumer i) Logic.I) []). auto.
  - apply (PUSH m []). auto.
  - unfold run_prog. destruct p as [|k|a k|m k|p k].
    + apply SAME; cbn; auto. rewrite app_nil_r. reflexivity.
    + destruct (state s i); [|exact UB]. apply SAME; cbn; auto; [rewrite app_nil_r; reflexivity|].
      intros [B|B]; [discriminate|auto].
    + apply SAME; cbn; auto; [rewrite app_nil_r; reflexivity|]. intros [B|B]; [discriminate|auto].
    + apply (PUSH m [Run i k]). intros [B|[]]; discriminate.
    + unfold look_then. destruct (stores s) as [st|] eqn:Es; [|cbn; rewrite Es; exact UB].
      destruct (look (st (ptype p)) p).
      * apply (PUSH _ [Run i (k Unresolved)]). intros [B|[]]; discriminate.
      * specialize (SAME (next S A X s (Run i (k Unresolved) :: r) [])). cbn in SAME. rewrite Es in SAME. cbn. rewrite Es.
        apply SAME; auto; [rewrite app_nil_r; reflexivity|]. intros [B|B]; [discriminate|auto].
      * specialize (SAME (next S A X s (Run i (k (Resolved v)) :: r) [])). cbn in SAME. rewrite Es in SAME. cbn. rewrite Es.
        apply SAME; auto; [rewrite app_nil_r; reflexivity|]. intros [B|B]; [discriminate|auto].
  - apply (CALL _ _ [GotUp i m] (told_other (GotUp i m) Logic.I) []). auto.
  - apply (CALL _ _ [GotDown i m] (told_other (GotDown i m) Logic.I) []). auto.
  - apply (CALL _ _ [Notified i p] (told_other (Notified i p) Logic.I) []). auto.
  - destruct (stores s) as [st|] eqn:Es; [|cbn; rewrite Es; exact UB].
    destruct (foreign (st l) m) as [s1 ps] eqn:Ef. cbn. destruct F as [F1 F2]. split.
    + intros x. rewrite app_nil_r. pose proof (on_foreign (st l) m) as E. rewrite Ef in E. cbn in E.
      rewrite put_same by exact E. apply F1.
    + intros B. apply in_app_iff in B as [B|B]; [|apply F2; right; exact B].
      apply in_flat_map in B as (p & _ & B). pose proof (notes_all p) as Q. rewrite Forall_forall in Q. exact (Q _ B).
  - cbn. intros B. rewrite told_app, (told_other StoresDropped Logic.I), app_nil_r.
    destruct (stores s); [destruct F as [_ F]; exfalso; apply F; right; exact B|]. apply F. right. exact B.
  - apply (CALL _ _ [Destructed i] (told_other (Destructed i) Logic.I) [Free i]). intros [B|[]]; discriminate.
  - apply SAME; cbn; auto. rewrite app_nil_r. reflexivity.
Qed.

Lemma life_follows : forall args ms, follows (life args ms).
Proof.
  intros args ms. split; [intros _; exact told_nil|]. unfold LifeModel.life, build, inits, LifeModel.tear_down. cbn.
  change (fun t : task => match t with MakeStores => true | _ => false end) with made.
  rewrite !filter_app. cbn. rewrite !filter_app. cbn.
  assert (E : forall (B : Type) (g : B -> task) l, (forall x, made (g x) = false) -> filter made (map g l) = []).
  { intros B g l H. induction l as [|x l IH]; cbn; auto. rewrite H. exact IH. }
  rewrite !E by reflexivity. cbn. lia.
Qed.
End Stores.

(* ---- the stores are there before anything is delivered ---- *)
Definition delivers (t : task) : Prop := match t with ToProducer _ _ | ToConsumer _ _ | ToState _ _ => True | _ => False end.

Definition ready (s : machine) : Prop :=
  (stores s = None /\ Forall (fun t => ~ delivers t) (todo s) /\ Forall (fun e => delivery e = false) (log s)) \/
  (In StoresMade (log s) /\ only_after StoresMade delivery (log s)).

Lemma ready_step : forall s, ready s -> ready (step s).
Proof.
  intros s [(N & T & L)|[I O]].
  - unfold LifeModel.step. destruct (ub s); [left; auto|]. destruct (todo s) as [|t r] eqn:E; [left; rewrite E; auto|].
    inversion T as [|? ? T1 T2]; subst.
    assert (CALL : forall i p e ts, delivery e = false -> Forall (fun t => ~ delivers t) ts -> ready (call S A X s i p (ts ++ r) [e])).
    { intros i p e ts De Hs. unfold call. left. destruct (state s i); cbn; [|rewrite E; auto]. repeat split; auto.
      - constructor; [intros []|]. apply Forall_app; auto.
      - apply Forall_app; auto. }
    assert (PUSH : forall m l, ready (push_then S apply static_false look A X sh count s m l)).
    { intros m l. unfold push_then. rewrite N. left. cbn. rewrite E. auto. }
    destruct t as [i a| |i|i|m|i p|i m|i m|i p|l m| |i|i]; try (exfalso; apply T1; exact Logic.I).
    + destruct (construct A X (actor i) a) as [x body]. left. cbn. repeat split; auto.
      apply Forall_app. auto.
    + right. cbn. split; [apply in_app_iff; right; left; reflexivity|].
      intros l1 x l2 Q D. exfalso. rewrite Forall_forall in L.
      assert (In x (log s ++ [StoresMade])) as X1 by (rewrite Q; apply in_app_iff; right; left; reflexivity).
      apply in_app_iff in X1 as [X1|[<-|[]]]; [rewrite (L _ X1) in D|]; discriminate.
    + apply (CALL i _ _ []); auto.
    + apply (CALL i _ _ []); auto.
    + apply PUSH.
    + unfold run_prog. destruct p as [|k|a k|m k|p k].
      * left. cbn. rewrite app_nil_r. auto.
      * left. destruct (state s i); cbn; [rewrite app_nil_r|rewrite E]; auto.
      * left. cbn. rewrite app_nil_r. auto.
      * apply PUSH.
      * unfold look_then. rewrite N. left. cbn. rewrite E. auto.
    + rewrite N. left. cbn. rewrite E. auto.
    + left. cbn. repeat split; auto. apply Forall_app. auto.
    + apply (CALL i _ _ [Free i]); auto.
    + left. cbn. rewrite app_nil_r. auto.
  - right. destruct (step_moves s) as [->|[(_ & -> & _)|(t & r & ts & e & _ & _ & -> & _ & _)]]; auto.
    split; [apply in_app_iff; auto|]. intros l1 x l2 Q D.
    destruct (split_snoc _ _ _ _ _ _ Q) as [(l3 & Q1)|(e1 & e2 & _ & ->)]; [eapply O; eauto|apply in_app_iff; auto].
Qed.

Lemma life_ready : forall args ms, ready (life args ms).
Proof.
  intros args ms. left. cbn. repeat split; auto. unfold build, inits, LifeModel.tear_down.
  rewrite !Forall_app. repeat (split || constructor || rewrite Forall_app); try (intros []);
    apply Forall_forall; intros t H; apply in_map_iff in H as (x & <- & _); intros [].
Qed.
End Life.
