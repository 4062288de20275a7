From Verif Require Import Base StoreModel AgrSpec.
From Verif Require LifeModel LifeSpec LifeProofs.
Open Scope nat_scope.

Section Agree.
Variable S : Type.
Variable apply : S -> msg -> S * bool.
Variable static_false : msg -> bool.
Variable look : S -> path -> outcome.
Variable foreign : S -> msg -> S * list path.
Variable fresh : nat -> S.
Variable P : Type.
Variable X : Type.
Variable react : P -> msg -> P * list msg.
Variable start : option X -> P.
Variable sh : shape.
Notation count := (length (actors sh)).
Hypothesis producers_there : forall t, producer_of sh t < count.
Hypothesis answers_down : forall p m d, In d (snd (react p m)) -> is_upstream d = false.

Notation psh := (plain_shape P X react start sh).
Notation lstep := (LifeModel.step S apply static_false look foreign fresh P X psh count).
Notation lexec := (LifeModel.exec S apply static_false look foreign fresh P X psh count).
Notation machine := (LifeModel.machine S P X).
Notation todo := (LifeModel.todo S P X).
Notation log := (LifeModel.log S P X).
Notation ub := (LifeModel.ub S P X).
Notation lstores := (LifeModel.stores S P X).
Notation lstate := (LifeModel.state S P X).
Notation ctx := (StoreModel.state S P).
Notation no_actor := {| consumer := false; state_consumer := false |}.

Definition sim (s : machine) (st : ctx) : Prop :=
  ub s = false /\ (exists f, lstores s = Some f /\ forall t, f t = stores st t) /\ (forall i, i < count -> lstate s i = Some (producers st i)).
Definition goes (s : machine) (r : list (LifeModel.task P X)) (st' : ctx) (evs : list (event S)) : Prop :=
  exists n, sim (lexec n s) st' /\ todo (lexec n s) = r /\
    filter LifeSpec.delivery (log (lexec n s)) = filter LifeSpec.delivery (log s) ++ map (call_of X) evs.

Lemma goes_refl s r st : sim s st -> todo s = r -> goes s r st [].
Proof. intros H1 H2. exists 0. cbn. rewrite app_nil_r. auto. Qed.
Lemma goes_step s r st evs : goes (lstep s) r st evs -> filter LifeSpec.delivery (log (lstep s)) = filter LifeSpec.delivery (log s) -> goes s r st evs.
Proof. intros (n & A & B & C) E. exists (Datatypes.S n). cbn [LifeModel.exec]. rewrite C, E. auto. Qed.
Lemma goes_call s r st e evs : goes (lstep s) r st evs -> filter LifeSpec.delivery (log (lstep s)) = filter LifeSpec.delivery (log s) ++ [call_of X e] -> goes s r st (e :: evs).
Proof. intros (n & A & B & C) E. exists (Datatypes.S n). cbn [LifeModel.exec]. rewrite C, E. rewrite <- app_assoc. auto. Qed.
Lemma goes_trans s r st e1 r' st' e2 : goes s r st e1 -> (forall s', sim s' st -> todo s' = r -> goes s' r' st' e2) -> goes s r' st' (e1 ++ e2).
Proof.
  intros (n & A & B & C) H. destruct (H _ A B) as (m & A' & B' & C'). exists (n + m). rewrite LifeProofs.exec_add, C', C, map_app, app_assoc. auto.
Qed.
Lemma step_eq s t r : ub s = false -> todo s = t :: r -> lstep s =
  match t with
  | LifeModel.Construct i a => let (x, body) := LifeModel.construct P X (LifeModel.actor P X psh i) a in
                       LifeModel.next S P X (LifeModel.with_state S P X s i (Some x)) (LifeModel.Run i body :: r) [LifeModel.Constructed i a]
  | LifeModel.MakeStores => LifeModel.next S P X (LifeModel.with_stores S P X s (Some fresh)) r [LifeModel.StoresMade]
  | LifeModel.InitProducer i => LifeModel.call S P X s i (LifeModel.init_producer P X (LifeModel.actor P X psh i)) r [LifeModel.InitedProducer i]
  | LifeModel.InitConsumer i => LifeModel.call S P X s i (LifeModel.init_consumer P X (LifeModel.actor P X psh i)) r [LifeModel.InitedConsumer i]
  | LifeModel.Outside m => LifeModel.push_then S apply static_false look P X psh count s m r
  | LifeModel.Run i p => LifeModel.run_prog S apply static_false look P X psh count s i p r
  | LifeModel.ToProducer i m => LifeModel.call S P X s i (LifeModel.on_up P X (LifeModel.actor P X psh i) m) r [LifeModel.GotUp i m]
  | LifeModel.ToConsumer i m => LifeModel.call S P X s i (LifeModel.on_down P X (LifeModel.actor P X psh i) m) r [LifeModel.GotDown i m]
  | LifeModel.ToState i p => LifeModel.call S P X s i (LifeModel.on_notify P X (LifeModel.actor P X psh i) p) r [LifeModel.Notified i p]
  | LifeModel.Foreign l m => match lstores s with
                     | None => LifeModel.undefined S P X s
                     | Some st => let (s1, ps) := foreign (st l) m in
                                  LifeModel.next S P X (LifeModel.with_stores S P X s (Some (LifeModel.put S st l s1))) (flat_map (LifeModel.to_state_consumers P X psh count) ps ++ r) []
                     end
  | LifeModel.DropStores => LifeModel.next S P X (LifeModel.with_stores S P X s None) r [LifeModel.StoresDropped]
  | LifeModel.Destruct i => LifeModel.call S P X s i (LifeModel.destruct_ P X (LifeModel.actor P X psh i)) (LifeModel.Free i :: r) [LifeModel.Destructed i]
  | LifeModel.Free i => LifeModel.next S P X (LifeModel.with_state S P X s i None) r []
  end.
Proof. intros U T. unfold LifeModel.step. now rewrite U, T. Qed.

(* calls of functions that do nothing *)
Lemma consumers_go m st : forall is s r, sim s st -> Forall (fun i => i < count) is -> todo s = map (fun i => LifeModel.ToConsumer i m) is ++ r ->
  goes s r st (map (fun i => ToConsumer i m (stores st)) is).
Proof.
  induction is as [|i is IH]; intros s r H F T; [now apply goes_refl|]. inversion F as [|? ? F1 F2]; subst.
  destruct H as (U & Hs & Hp). cbn [map]. eapply goes_call.
  - rewrite (step_eq _ _ _ U T). unfold LifeModel.call. rewrite (Hp i F1). cbn. eapply goes_step.
    + erewrite step_eq; [|exact U|reflexivity]. cbn. apply IH; [split; [exact U|split; [exact Hs|exact Hp]]|exact F2|reflexivity].
    + erewrite step_eq; [|exact U|reflexivity]. cbn. now rewrite app_nil_r.
  - rewrite (step_eq _ _ _ U T). unfold LifeModel.call. rewrite (Hp i F1). cbn. now rewrite filter_app.
Qed.
Lemma notes_go p st : forall is s r, sim s st -> Forall (fun i => i < count) is -> todo s = map (fun i => LifeModel.ToState i p) is ++ r ->
  goes s r st (map (fun i => Notify i p (stores st)) is).
Proof.
  induction is as [|i is IH]; intros s r H F T; [now apply goes_refl|]. inversion F as [|? ? F1 F2]; subst.
  destruct H as (U & Hs & Hp). cbn [map]. eapply goes_call.
  - rewrite (step_eq _ _ _ U T). unfold LifeModel.call. rewrite (Hp i F1). cbn. eapply goes_step.
    + erewrite step_eq; [|exact U|reflexivity]. cbn. apply IH; [split; [exact U|split; [exact Hs|exact Hp]]|exact F2|reflexivity].
    + erewrite step_eq; [|exact U|reflexivity]. cbn. now rewrite app_nil_r.
  - rewrite (step_eq _ _ _ U T). unfold LifeModel.call. rewrite (Hp i F1). cbn. now rewrite filter_app.
Qed.

(* for_each as a list of indices *)
Lemma for_each_indices (f : actor -> bool) (g : nat -> event S) : forall l k,
  for_each S k l (fun i a => if f a then [g i] else []) = map g (filter (fun i => f (nth (i - k) l no_actor)) (seq k (length l))).
Proof.
  induction l as [|a l IH]; intros k; [reflexivity|]. cbn [for_each length seq filter]. rewrite Nat.sub_diag. cbn [nth].
  rewrite Nat.add_1_r, IH.
  assert (Q : filter (fun i => f (nth (i - Datatypes.S k) l no_actor)) (seq (Datatypes.S k) (length l)) =
              filter (fun i => f (nth (i - k) (a :: l) no_actor)) (seq (Datatypes.S k) (length l))).
  { apply filter_ext_in. intros i Hi. apply in_seq in Hi. replace (i - k) with (Datatypes.S (i - Datatypes.S k)) by lia. reflexivity. }
  rewrite Q. now destruct (f a).
Qed.
Lemma below (f : nat -> bool) : Forall (fun i => i < count) (filter f (seq 0 count)).
Proof. apply Forall_forall. intros i Hi. apply filter_In in Hi as [Hi _]. apply in_seq in Hi. lia. Qed.
Lemma down_go m st s r : sim s st -> todo s = LifeModel.to_consumers P X psh count m ++ r -> goes s r st (propagate_downstream S P sh st m).
Proof.
  intros H T. unfold propagate_downstream. rewrite for_each_indices. apply consumers_go; [exact H|apply below|]. rewrite T. unfold LifeModel.to_consumers. f_equal. f_equal.
  apply filter_ext. intros i. rewrite Nat.sub_0_r. reflexivity.
Qed.
Lemma note_go p st s r : sim s st -> todo s = LifeModel.to_state_consumers P X psh count p ++ r -> goes s r st (notify_state_consumers S P sh st p).
Proof.
  intros H T. unfold notify_state_consumers. rewrite for_each_indices. apply notes_go; [exact H|apply below|]. rewrite T. unfold LifeModel.to_state_consumers. f_equal. f_equal.
  apply filter_ext. intros i. rewrite Nat.sub_0_r. reflexivity.
Qed.
Lemma note_all_go st : forall ps s r, sim s st -> todo s = flat_map (LifeModel.to_state_consumers P X psh count) ps ++ r ->
  goes s r st (flat_map (notify_state_consumers S P sh st) ps).
Proof.
  induction ps as [|p ps IH]; intros s r H T; [now apply goes_refl|]. cbn [flat_map] in T |- *. rewrite <- app_assoc in T.
  eapply goes_trans; [apply note_go; eauto|]. intros s' H' T'. now apply IH.
Qed.
Lemma listeners_go m : forall ls st s r, sim s st -> todo s = map (fun l => LifeModel.Foreign l m) ls ++ r ->
  goes s r (fst (tell_listeners S foreign P sh st m ls)) (snd (tell_listeners S foreign P sh st m ls)).
Proof.
  induction ls as [|t ls IH]; intros st s r H T; [now apply goes_refl|].
  destruct H as (U & (f & Hf & Hs) & Hp). cbn [tell_listeners]. destruct (foreign (stores st t) m) as [s1 ps] eqn:Ef.
  destruct (tell_listeners _ _ _ _ _ m ls) as [st2 e2] eqn:E2. cbn [fst snd].
  assert (E : lstep s = LifeModel.next S P X (LifeModel.with_stores S P X s (Some (LifeModel.put S f t s1))) (flat_map (LifeModel.to_state_consumers P X psh count) ps ++ map (fun l => LifeModel.Foreign l m) ls ++ r) []).
  { rewrite (step_eq _ _ _ U T), Hf, Hs, Ef. reflexivity. }
  apply goes_step; [|rewrite E; cbn; now rewrite app_nil_r]. rewrite E.
  eapply goes_trans.
  - apply (note_all_go (set_store S P st t s1)).
    + split; [exact U|]. split; [|exact Hp]. exists (LifeModel.put S f t s1). split; [reflexivity|]. intros x. unfold LifeModel.put. cbn. destruct (Nat.eqb x t); auto.
    + reflexivity.
  - intros s' H' T'. specialize (IH _ _ _ H' T'). rewrite E2 in IH. exact IH.
Qed.

(* a store after a message *)
Lemma put_sim s st t v f : sim s st -> lstores s = Some f -> (forall x, f x = stores st x) ->
  forall r e, sim (LifeModel.next S P X (LifeModel.with_stores S P X s (Some (LifeModel.put S f t v))) r e) (set_store S P st t v).
Proof.
  intros (U & _ & Hp) _ Hs r e. split; [exact U|]. split; [|exact Hp]. exists (LifeModel.put S f t v). split; [reflexivity|].
  intros x. unfold LifeModel.put. cbn. destruct (Nat.eqb x t); auto.
Qed.
Lemma same_sim s st t f : sim s st -> lstores s = Some f -> (forall x, f x = stores st x) ->
  forall r e, sim (LifeModel.next S P X (LifeModel.with_stores S P X s (Some (LifeModel.put S f t (f t)))) r e) st.
Proof.
  intros (U & _ & Hp) _ Hs r e. split; [exact U|]. split; [|exact Hp]. exists (LifeModel.put S f t (f t)). split; [reflexivity|].
  intros x. unfold LifeModel.put. destruct (Nat.eqb x t) eqn:E; auto. apply Nat.eqb_eq in E. now subst.
Qed.

(* what is done with a message for the consumers *)
Lemma push_down_go m st s r : sim s st -> is_upstream m = false ->
  goes (LifeModel.push_then S apply static_false look P X psh count s m r) r (fst (push_down S apply static_false foreign P sh st m)) (snd (push_down S apply static_false foreign P sh st m)) /\
  filter LifeSpec.delivery (log (LifeModel.push_then S apply static_false look P X psh count s m r)) = filter LifeSpec.delivery (log s).
Proof.
  intros H Hu. pose proof H as (U & (f & Hf & Hs) & Hp). unfold LifeModel.push_then. rewrite Hf. unfold LifeModel.push, push_down.
  destruct (path_of m) as [p|] eqn:Ep.
  - rewrite Hu. cbn [andb]. unfold apply_and_notify. destruct (static_false m) eqn:Es.
    + cbn [app]. destruct (tell_listeners _ _ _ _ _ _ _) as [st2 e3] eqn:E3. cbn [fst snd]. split; [|cbn; rewrite filter_app; cbn; now rewrite app_nil_r].
      eapply goes_trans.
      * apply (down_go m st); [apply same_sim; auto|]. cbn. rewrite <- app_assoc. reflexivity.
      * intros s' H' T'. pose proof (listeners_go _ _ _ _ _ H' T') as Q. change (LifeModel.listeners_of P X psh) with (listeners_of sh) in Q. now rewrite E3 in Q.
    + rewrite Hs. destruct (apply (stores st (path_type m)) m) as [s1 c] eqn:Ea.
      destruct (tell_listeners _ _ _ _ _ _ _) as [st2 e3] eqn:E3. cbn [fst snd]. split; [|cbn; rewrite filter_app; cbn; now rewrite app_nil_r].
      eapply goes_trans.
      * destruct c.
        -- apply note_go; [apply put_sim; auto|]. cbn. rewrite <- app_assoc. reflexivity.
        -- apply goes_refl; [apply put_sim; auto|]. cbn. reflexivity.
      * intros s' H' T'. eapply goes_trans; [apply (down_go m); [exact H'|]|].
        -- rewrite T'. rewrite <- app_assoc. reflexivity.
        -- intros s'' H'' T''. pose proof (listeners_go _ _ _ _ _ H'' T'') as Q. change (LifeModel.listeners_of P X psh) with (listeners_of sh) in Q. now rewrite E3 in Q.
  - rewrite Hu. cbn. split; [|now rewrite app_nil_r]. apply goes_refl; [|reflexivity]. split; [exact U|]. split; [|exact Hp]. now exists f.
Qed.

(* answers of a producer *)
Lemma answers_go i : forall ms st s r, sim s st -> (forall d, In d ms -> is_upstream d = false) -> todo s = LifeModel.Run i (say P ms) :: r ->
  goes s r (fst (push_all_down S apply static_false foreign P sh st ms)) (snd (push_all_down S apply static_false foreign P sh st ms)).
Proof.
  induction ms as [|m ms IH]; intros st s r H D T; pose proof H as (U & _ & _).
  - cbn in T. apply goes_step; rewrite (step_eq _ _ _ U T); cbn; [|now rewrite app_nil_r]. now apply goes_refl.
  - cbn [push_all_down]. destruct (push_down_go m st s (LifeModel.Run i (say P ms) :: r) H (D m (or_introl eq_refl))) as [G Lg].
    destruct (push_down _ _ _ _ _ _ st m) as [st1 e1]. destruct (push_all_down _ _ _ _ _ _ st1 ms) as [st2 e2] eqn:E2. cbn [fst snd] in *.
    apply goes_step; rewrite (step_eq _ _ _ U T); [|exact Lg].
    eapply goes_trans; [exact G|]. intros s' H' T'. specialize (IH _ _ _ H' (fun d Hd => D d (or_intror Hd)) T'). now rewrite E2 in IH.
Qed.
Lemma up_go m st s r : sim s st -> todo s = LifeModel.ToProducer (producer_of sh (path_type m)) m :: r ->
  goes s r (fst (propagate_upstream S apply static_false foreign P react sh st m)) (snd (propagate_upstream S apply static_false foreign P react sh st m)).
Proof.
  intros H T. pose proof H as (U & Hs & Hp). unfold propagate_upstream. set (i := producer_of sh (path_type m)) in *.
  assert (Li : i < count) by apply producers_there. destruct (react (producers st i) m) as [p1 an] eqn:Er.
  destruct (push_all_down _ _ _ _ _ _ _ an) as [st1 e1] eqn:E1. cbn [fst snd].
  apply goes_call; rewrite (step_eq _ _ _ U T); unfold LifeModel.call; rewrite (Hp i Li); [|cbn; now rewrite filter_app].
  apply goes_step; (erewrite step_eq; [|exact U|reflexivity]); cbn; rewrite (Hp i Li); [|cbn; now rewrite app_nil_r].
  rewrite Er. cbn [fst snd].
  apply goes_step; (erewrite step_eq; [|exact U|reflexivity]); cbn; [|now rewrite app_nil_r].
  match goal with |- goes ?s0 _ _ _ => assert (Q := answers_go i an (set_producer S P st i p1) s0 r) end.
  rewrite E1 in Q. cbn [fst snd] in Q. apply Q; [|intros d Hd; apply (answers_down (producers st i) m); now rewrite Er|reflexivity].
  split; [exact U|]. split; [exact Hs|]. intros j Lj. cbn. unfold LifeModel.upd. destruct (Nat.eqb j i); [reflexivity|now apply Hp].
Qed.

Lemma push_go m st s r : sim s st ->
  goes (LifeModel.push_then S apply static_false look P X psh count s m r) r (fst (push S apply static_false look foreign P react sh st m)) (snd (push S apply static_false look foreign P react sh st m)) /\
  filter LifeSpec.delivery (log (LifeModel.push_then S apply static_false look P X psh count s m r)) = filter LifeSpec.delivery (log s).
Proof.
  intros H. unfold push. destruct (is_upstream m) eqn:Hu; [|now apply push_down_go].
  pose proof H as (U & (f & Hf & Hs) & Hp). unfold LifeModel.push_then. rewrite Hf. unfold LifeModel.push, push_up.
  destruct (path_of m) as [p|] eqn:Ep.
  - rewrite Hu. cbn [andb]. destruct (is_read m).
    + unfold push_read. assert (PUT : forall g t v, LifeModel.put S g t v t = v) by (intros g t v; unfold LifeModel.put; now rewrite Nat.eqb_refl). rewrite PUT.
      change (stores (set_store S P st (path_type m) (fst (apply (stores st (path_type m)) m))) (path_type m))
        with (if Nat.eqb (path_type m) (path_type m) then fst (apply (stores st (path_type m)) m) else stores st (path_type m)). rewrite Nat.eqb_refl, Hs.
      destruct (look _ p) as [| |v].
      * destruct (propagate_upstream _ _ _ _ _ _ _ _ m) as [st1 e1] eqn:E1. destruct (tell_listeners _ _ _ _ _ _ _) as [st2 e2] eqn:E2. cbn [fst snd].
        split; [|cbn; now rewrite app_nil_r]. eapply goes_trans.
        -- match goal with |- goes ?s0 ?r0 _ _ => assert (Q := up_go m (set_store S P st (path_type m) (fst (apply (stores st (path_type m)) m))) s0) end.
           rewrite E1 in Q. cbn [fst snd] in Q. apply Q; [apply put_sim; auto|reflexivity].
        -- intros s' H' T'. pose proof (listeners_go _ _ _ _ _ H' T') as Q. change (LifeModel.listeners_of P X psh) with (listeners_of sh) in Q. now rewrite E2 in Q.
      * destruct (tell_listeners _ _ _ _ _ _ _) as [st2 e2] eqn:E2. cbn [fst snd app].
        split; [|cbn; now rewrite app_nil_r].
        match goal with |- goes ?s0 ?r0 _ _ => assert (Q := listeners_go m (listeners_of sh (path_type m)) (set_store S P st (path_type m) (fst (apply (stores st (path_type m)) m))) s0 r) end.
        rewrite E2 in Q. apply Q; [apply put_sim; auto|reflexivity].
      * destruct (to_downstream_read m v) as [d|].
        -- destruct (tell_listeners _ _ _ _ _ _ _) as [st2 e2] eqn:E2. cbn [fst snd]. split; [|cbn; rewrite filter_app; cbn; now rewrite app_nil_r].
           eapply goes_trans; [apply down_go; [apply put_sim; auto|cbn; rewrite <- app_assoc; reflexivity]|].
           intros s' H' T'. pose proof (listeners_go _ _ _ _ _ H' T') as Q. change (LifeModel.listeners_of P X psh) with (listeners_of sh) in Q. now rewrite E2 in Q.
        -- destruct (tell_listeners _ _ _ _ _ _ _) as [st2 e2] eqn:E2. cbn [fst snd app].
           split; [|cbn; now rewrite app_nil_r].
           match goal with |- goes ?s0 ?r0 _ _ => assert (Q := listeners_go m (listeners_of sh (path_type m)) (set_store S P st (path_type m) (fst (apply (stores st (path_type m)) m))) s0 r) end.
           rewrite E2 in Q. apply Q; [apply put_sim; auto|reflexivity].
    + unfold apply_and_notify. destruct (static_false m) eqn:Es.
      * destruct (propagate_upstream _ _ _ _ _ _ _ st m) as [st1 e1] eqn:E1. destruct (tell_listeners _ _ _ _ _ _ _) as [st2 e2] eqn:E2. cbn [fst snd app].
        split; [|cbn; now rewrite app_nil_r]. eapply goes_trans.
        -- match goal with |- goes ?s0 ?r0 _ _ => assert (Q := up_go m st s0) end. rewrite E1 in Q. cbn [fst snd] in Q. apply Q; [apply same_sim; auto|reflexivity].
        -- intros s' H' T'. pose proof (listeners_go _ _ _ _ _ H' T') as Q. change (LifeModel.listeners_of P X psh) with (listeners_of sh) in Q. now rewrite E2 in Q.
      * rewrite Hs. destruct (apply (stores st (path_type m)) m) as [s1 c] eqn:Ea.
        destruct (propagate_upstream _ _ _ _ _ _ _ (set_store S P st (path_type m) s1) m) as [st1 e1] eqn:E1. destruct (tell_listeners _ _ _ _ _ _ _) as [st2 e2] eqn:E2. cbn [fst snd].
        split; [|cbn; now rewrite app_nil_r]. rewrite <- (app_assoc (if c then notify_state_consumers S P sh (set_store S P st (path_type m) s1) p else []) e1 e2). eapply goes_trans.
        -- destruct c.
           ++ apply note_go; [apply put_sim; auto|]. cbn. rewrite <- app_assoc. reflexivity.
           ++ apply goes_refl; [apply put_sim; auto|]. cbn. reflexivity.
        -- intros s' H' T'. eapply goes_trans.
           ++ assert (Q := up_go m (set_store S P st (path_type m) s1) s'). rewrite E1 in Q. cbn [fst snd] in Q. apply Q; [exact H'|]. rewrite T'. reflexivity.
           ++ intros s'' H'' T''. pose proof (listeners_go _ _ _ _ _ H'' T'') as Q. change (LifeModel.listeners_of P X psh) with (listeners_of sh) in Q. now rewrite E2 in Q.
  - rewrite Hu. cbn [fst snd]. split; [|cbn; now rewrite app_nil_r]. apply up_go; [|reflexivity]. split; [exact U|]. split; [|exact Hp]. now exists f.
Qed.
Lemma outside_go : forall ms st s r, sim s st -> todo s = map LifeModel.Outside ms ++ r ->
  goes s r (fst (run S apply static_false look foreign P react sh st (map Push ms))) (snd (run S apply static_false look foreign P react sh st (map Push ms))).
Proof.
  induction ms as [|m ms IH]; intros st s r H T; [now apply goes_refl|]. pose proof H as (U & _).
  cbn [map run]. destruct (push_go m st s (map LifeModel.Outside ms ++ r) H) as [G Lg].
  destruct (push _ _ _ _ _ _ _ _ st m) as [st1 e1]. destruct (run _ _ _ _ _ _ _ _ st1 _) as [st2 e2] eqn:E2. cbn [fst snd] in *.
  apply goes_step; rewrite (step_eq _ _ _ U T); [|exact Lg].
  eapply goes_trans; [exact G|]. intros s' H' T'. specialize (IH _ _ _ H' T'). now rewrite E2 in IH.
Qed.

(* construction, initialisation and destruction of such actors *)
Definition argument (args : list (option X)) (i : nat) : P := start (nth i args None).
Lemma builds : forall args k s r, ub s = false -> todo s = map (fun x => LifeModel.Construct (fst x) (snd x)) (combine (seq k (length args)) args) ++ r ->
  exists n, ub (lexec n s) = false /\ todo (lexec n s) = r /\ filter LifeSpec.delivery (log (lexec n s)) = filter LifeSpec.delivery (log s) /\
    forall i, lstate (lexec n s) i = if (k <=? i) && (i <? k + length args) then Some (start (nth (i - k) args None)) else lstate s i.
Proof.
  induction args as [|a args IH]; intros k s r U T.
  - exists 0. cbn [LifeModel.exec length]. repeat split; auto. intros i. destruct (Nat.leb_spec k i) as [A|A], (Nat.ltb_spec i (k + 0)) as [B|B]; cbn [andb]; try reflexivity. exfalso. lia.
  - assert (E1 := step_eq _ _ _ U T). cbn in E1.
    assert (E2 : lstep (lstep s) = LifeModel.next S P X (LifeModel.next S P X (LifeModel.with_state S P X s k (Some (start a))) (LifeModel.Run k LifeModel.Ret :: map (fun x => LifeModel.Construct (fst x) (snd x)) (combine (seq (Datatypes.S k) (length args)) args) ++ r) [LifeModel.Constructed k a])
       (map (fun x => LifeModel.Construct (fst x) (snd x)) (combine (seq (Datatypes.S k) (length args)) args) ++ r) []).
    { rewrite E1. erewrite step_eq; [|exact U|reflexivity]. reflexivity. }
    destruct (IH (Datatypes.S k) (lstep (lstep s)) r) as (n & A & B & C & D); [rewrite E2; exact U|rewrite E2; reflexivity|].
    exists (Datatypes.S (Datatypes.S n)). cbn [LifeModel.exec]. split; [exact A|]. split; [exact B|]. split.
    + rewrite C, E2. cbn. now rewrite !filter_app, app_nil_r, app_nil_r.
    + intros i. rewrite D, E2. cbn [LifeModel.next LifeModel.state LifeModel.with_state length]. unfold LifeModel.upd.
      destruct (Nat.leb_spec (Datatypes.S k) i), (Nat.ltb_spec i (Datatypes.S k + length args)), (Nat.leb_spec k i), (Nat.ltb_spec i (k + Datatypes.S (length args))), (Nat.eqb_spec i k);
        cbn [andb]; subst; try lia; try reflexivity.
      * replace (i - k) with (Datatypes.S (i - Datatypes.S k)) by lia. reflexivity.
      * now rewrite Nat.sub_diag.
Qed.
Definition lazy_task (t : LifeModel.task P X) : Prop := match t with LifeModel.InitProducer i | LifeModel.InitConsumer i => i < count | _ => False end.
Lemma inits_go st : forall ts s r, sim s st -> Forall lazy_task ts -> todo s = ts ++ r -> goes s r st [].
Proof.
  induction ts as [|t ts IH]; intros s r H F T; [now apply goes_refl|]. inversion F as [|? ? F1 F2]; subst. pose proof H as (U & Hs & Hp).
  assert (Q : exists e, LifeSpec.delivery e = false /\ exists i, lstep s = LifeModel.next S P X s (LifeModel.Run i LifeModel.Ret :: ts ++ r) [e]).
  { destruct t; cbn in F1; try contradiction; eexists; (split; [|exists i; rewrite (step_eq _ _ _ U T); unfold LifeModel.call; rewrite (Hp i F1); reflexivity]); reflexivity. }
  destruct Q as (e & De & i & E). apply goes_step; rewrite E; [|cbn; rewrite filter_app; cbn; rewrite De; now rewrite app_nil_r].
  apply goes_step; (erewrite step_eq; [|exact U|reflexivity]); cbn; [|now rewrite app_nil_r]. apply IH; auto.
Qed.
Lemma ends : forall ds s, ub s = false -> NoDup ds -> (forall i, In i ds -> lstate s i <> None) -> todo s = map LifeModel.Destruct ds ->
  exists n, ub (lexec n s) = false /\ todo (lexec n s) = [] /\ filter LifeSpec.delivery (log (lexec n s)) = filter LifeSpec.delivery (log s).
Proof.
  induction ds as [|i ds IH]; intros s U N Al T; [exists 0; auto|]. inversion N as [|? ? N1 N2]; subst.
  destruct (lstate s i) as [p|] eqn:E; [|exfalso; now apply (Al i (or_introl eq_refl))].
  set (s3 := lstep (lstep (lstep s))).
  assert (E3 : ub s3 = false /\ todo s3 = map LifeModel.Destruct ds /\ filter LifeSpec.delivery (log s3) = filter LifeSpec.delivery (log s) /\ forall j, j <> i -> lstate s3 j = lstate s j).
  { assert (E1 : lstep s = LifeModel.next S P X s (LifeModel.Run i LifeModel.Ret :: LifeModel.Free i :: map LifeModel.Destruct ds) [LifeModel.Destructed i])
      by (rewrite (step_eq _ _ _ U T); unfold LifeModel.call; rewrite E; reflexivity).
    assert (E2 : lstep (lstep s) = LifeModel.next S P X (lstep s) (LifeModel.Free i :: map LifeModel.Destruct ds) [])
      by (rewrite E1; erewrite step_eq; [|exact U|reflexivity]; reflexivity).
    unfold s3. rewrite E2. erewrite step_eq; [|rewrite E1; exact U|reflexivity]. rewrite E1. cbn.
    split; [exact U|]. split; [reflexivity|]. split; [now rewrite !filter_app, !app_nil_r|]. intros j Hj. unfold LifeModel.upd. destruct (Nat.eqb_spec j i); [contradiction|reflexivity]. }
  destruct E3 as (A & B & C & D). destruct (IH s3) as (n & A' & B' & C'); auto.
  - intros j Hj. rewrite D; [apply Al; now right|]. intros ->. contradiction.
  - exists (Datatypes.S (Datatypes.S (Datatypes.S n))). cbn [LifeModel.exec]. fold s3. rewrite C', C. auto.
Qed.

Lemma whole args ms : length args = count ->
  let st := {| stores := fresh; producers := argument args |} in
  exists n, let s := lexec n (LifeModel.life S P X psh count args ms) in
    ub s = false /\ todo s = [] /\ filter LifeSpec.delivery (log s) = map (call_of X) (snd (run S apply static_false look foreign P react sh st (map Push ms))).
Proof.
  intros La st.
  destruct (builds args 0 (LifeModel.life S P X psh count args ms) (LifeModel.MakeStores :: LifeModel.inits P X psh count ++ map LifeModel.Outside ms ++ LifeModel.tear_down P X count)) as (n1 & A1 & B1 & C1 & D1); [reflexivity| |].
  { cbn. unfold LifeModel.build. rewrite La, <- app_assoc. reflexivity. }
  set (s1 := lexec n1 _) in *. set (s2 := lstep s1).
  assert (E2 : s2 = LifeModel.next S P X (LifeModel.with_stores S P X s1 (Some fresh)) (LifeModel.inits P X psh count ++ map LifeModel.Outside ms ++ LifeModel.tear_down P X count) [LifeModel.StoresMade]) by (unfold s2; now rewrite (step_eq _ _ _ A1 B1)).
  assert (H2 : sim s2 st).
  { rewrite E2. split; [exact A1|]. split; [exists fresh; auto|]. intros i Li. cbn [LifeModel.next LifeModel.with_stores LifeModel.state]. rewrite D1, La, Nat.sub_0_r.
    cbn [Nat.leb andb Nat.add]. destruct (Nat.ltb_spec i count); [reflexivity|lia]. }
  assert (G : goes s2 (LifeModel.tear_down P X count) (fst (run S apply static_false look foreign P react sh st (map Push ms))) ([] ++ snd (run S apply static_false look foreign P react sh st (map Push ms)))).
  { eapply goes_trans.
    - apply (inits_go st (LifeModel.inits P X psh count)); [exact H2| |rewrite E2; reflexivity].
      unfold LifeModel.inits. apply Forall_app. split; apply Forall_forall; intros t Ht; apply in_map_iff in Ht as (i & <- & Hi); apply filter_In in Hi as [Hi _]; apply in_seq in Hi; cbn; lia.
    - intros s' H' T'. now apply outside_go. }
  destruct G as (n3 & (U3 & H3 & P3) & T3 & L3). set (s3 := lexec n3 s2) in *.
  assert (E4 := step_eq _ _ _ U3 T3). cbn in E4.
  destruct (ends (rev (seq 0 count)) (lstep s3)) as (n5 & A5 & B5 & C5).
  - rewrite E4. exact U3.
  - apply NoDup_rev, seq_NoDup.
  - intros i Hi. apply in_rev in Hi. rewrite E4. cbn. apply in_seq in Hi. rewrite P3 by lia. discriminate.
  - rewrite E4. reflexivity.
  - exists (n1 + (1 + (n3 + (1 + n5)))). cbv zeta. rewrite !LifeProofs.exec_add. fold s1. change (lexec 1 s1) with s2. fold s3. change (lexec 1 s3) with (lstep s3).
    split; [exact A5|]. split; [exact B5|]. rewrite C5, E4. cbn [LifeModel.next LifeModel.log LifeModel.with_stores]. rewrite filter_app. cbn [filter LifeSpec.delivery]. rewrite app_nil_r, L3, E2. cbn [LifeModel.next LifeModel.log LifeModel.with_stores app].
    rewrite filter_app. cbn [filter LifeSpec.delivery]. rewrite app_nil_r, C1. reflexivity.
Qed.

(* an actor matches a path of the context *)
Lemma look_go i p k st s r : sim s st -> todo s = LifeModel.Run i (LifeModel.Look p k) :: r ->
  let '(st', e, o) := context_match S apply static_false look foreign P react sh st p in goes s (LifeModel.Run i (k o) :: r) st' e.
Proof.
  intros H T. pose proof H as (U & (f & Hf & Hs) & Hp). pose proof (step_eq s _ _ U T) as E. cbn in E. unfold LifeModel.look_then in E. rewrite Hf, Hs in E.
  unfold context_match. destruct (look (stores st (ptype p)) p) as [| |v].
  - destruct (push S apply static_false look foreign P react sh st (make_upstream_read 0 (PPath p) None)) as [st1 e1] eqn:E1.
    destruct (push_go (make_upstream_read 0 (PPath p) None) st s (LifeModel.Run i (k Unresolved) :: r) H) as (G & L). rewrite E1 in G. cbn [fst snd] in G.
    apply goes_step; rewrite E; assumption.
  - apply goes_step; [|rewrite E; cbn; now rewrite app_nil_r]. apply goes_refl; rewrite E; [|reflexivity].
    split; [exact U|]. split; [exists f; auto|exact Hp].
  - apply goes_step; [|rewrite E; cbn; now rewrite app_nil_r]. apply goes_refl; rewrite E; [|reflexivity].
    split; [exact U|]. split; [exists f; auto|exact Hp].
Qed.
End Agree.
