From Verif Require Import Base StoreModel StoreSpec.
Open Scope N_scope.

Lemma path_eqb_spec a b : path_eqb a b = true <-> a = b.
Proof.
  destruct a as [t k], b as [t' k']. unfold path_eqb. cbn. rewrite andb_true_iff, Nat.eqb_eq.
  destruct (bytes_eqb_spec k k'); split; intros H; try (destruct H; congruence); injection H; auto; congruence.
Qed.
Lemma path_eqb_refl a : path_eqb a a = true.
Proof. now apply path_eqb_spec. Qed.
Lemma path_eqb_neq a b : path_eqb a b = false <-> a <> b.
Proof. rewrite <- not_true_iff_false, path_eqb_spec. tauto. Qed.
Lemma path_eqb_sym a b : path_eqb a b = path_eqb b a.
Proof.
  destruct (path_eqb a b) eqn:E.
  - apply path_eqb_spec in E. subst. symmetry. apply path_eqb_refl.
  - apply path_eqb_neq in E. symmetry. apply path_eqb_neq. congruence.
Qed.

(* ---- tables ---- *)
Lemma find_erase s p q : find (erase s p) q = if path_eqb q p then None else find s q.
Proof.
  induction s as [|[r v] s IH]; cbn.
  - now destruct (path_eqb q p).
  - fold (erase s p). destruct (path_eqb p r) eqn:E; cbn.
    + apply path_eqb_spec in E. subst r. rewrite IH. destruct (path_eqb q p) eqn:E2; auto.
    + rewrite IH. destruct (path_eqb q r) eqn:E2; auto. apply path_eqb_spec in E2. subst r.
      rewrite path_eqb_sym, E. auto.
Qed.
Lemma find_assign s p v q : find (assign s p v) q = if path_eqb q p then Some v else find s q.
Proof. unfold assign. cbn. rewrite find_erase. now destruct (path_eqb q p). Qed.

(* ---- C32 ---- *)
Definition map_run (h : list msg) : table := fold_left (fun s m => fst (map_apply s m)) h [].

Definition to_slot (e : entry) : option slot :=
  match e with Absent => None | Pending => Some SUnresolved | Present v => Some (SValue v) end.

Lemma existsb_snoc {A} (f : A -> bool) l x : existsb f (l ++ [x]) = existsb f l || f x.
Proof. rewrite existsb_app. cbn. now rewrite orb_false_r. Qed.

Lemma since_snoc p h m : since_delete p (h ++ [m]) = if deletes p m then [] else since_delete p h ++ [m].
Proof.
  induction h as [|x h IH]; cbn.
  - now destruct (deletes p m).
  - rewrite existsb_snoc, IH. destruct (deletes p m); [now rewrite orb_true_r|]. rewrite orb_false_r.
    destruct (existsb (deletes p) h); auto. now destruct (deletes p x).
Qed.

Lemma writes_app p a b : writes p (a ++ b) = writes p a ++ writes p b.
Proof. apply flat_map_app. Qed.
Lemma answers_app p a b : answers p (a ++ b) = answers p a ++ answers p b.
Proof. apply flat_map_app. Qed.
Lemma requested_snoc p a m : requested p (a ++ [m]) = requested p a || (about p m && match mkind m with UpRead => true | _ => false end).
Proof. unfold requested. now rewrite existsb_snoc. Qed.

(* one message more *)
Definition entry_next (e : entry) (m : msg) : entry :=
  match mkind m with
  | DownDelete => Absent
  | DownCreate | DownUpdate => Present (payload_of m)
  | DownRead => match e with Present v => e | _ => Present (payload_of m) end
  | UpRead => match e with Absent => Pending | _ => e end
  | _ => e
  end.

Lemma entry_snoc p h m : entry_of p (h ++ [m]) = if about p m then entry_next (entry_of p h) m else entry_of p h.
Proof.
  unfold entry_of. rewrite since_snoc. unfold deletes. destruct (about p m) eqn:Ea; cbn [andb].
  - unfold entry_next. destruct (mkind m) eqn:Ek; try reflexivity;
    rewrite writes_app, answers_app, requested_snoc; unfold writes at 2; unfold answers at 2; cbn; rewrite Ea, Ek; cbn;
    rewrite ?app_nil_r, ?rev_app_distr; cbn; rewrite ?orb_false_r, ?orb_true_r; try reflexivity;
    destruct (rev (writes p (since_delete p h))); auto; destruct (answers p (since_delete p h)); auto;
    destruct (requested p (since_delete p h)); auto.
  - rewrite writes_app, answers_app, requested_snoc. unfold writes at 2. unfold answers at 2. cbn. rewrite Ea. cbn.
    now rewrite ?app_nil_r, ?orb_false_r.
Qed.

Lemma map_find h p : find (map_run h) p = to_slot (entry_of p h).
Proof.
  induction h as [|m h IH] using rev_ind; [reflexivity|].
  unfold map_run in *. rewrite fold_left_app. cbn [fold_left]. rewrite entry_snoc.
  set (s := fold_left (fun s m => fst (map_apply s m)) h []) in *.
  unfold about. unfold map_apply. destruct (path_of m) as [q|] eqn:Ep; [|exact IH].
  destruct (path_eqb p q) eqn:E.
  - apply path_eqb_spec in E. subst q. unfold entry_next. destruct (mkind m); cbn [fst]; auto.
    + rewrite IH. destruct (entry_of p h); cbn; rewrite ?find_assign, ?path_eqb_refl, ?IH; auto.
    + now rewrite find_assign, path_eqb_refl.
    + unfold index. rewrite IH. destruct (entry_of p h) eqn:Ee; cbn; rewrite ?find_assign, ?path_eqb_refl, ?IH; auto.
    + now rewrite find_assign, path_eqb_refl.
    + now rewrite find_erase, path_eqb_refl.
  - destruct (mkind m); cbn [fst]; auto.
    + destruct (find s q); auto. now rewrite find_assign, E.
    + now rewrite find_assign, E.
    + unfold index. destruct (find s q) as [[|v]|]; cbn [fst]; rewrite ?find_assign, ?E; auto.
    + now rewrite find_assign, E.
    + now rewrite find_erase, E.
Qed.

Lemma map_flag h m : snd (map_apply (map_run h) m) = changes h m.
Proof.
  unfold map_apply, changes. destruct (path_of m) as [p|]; auto. destruct (mkind m); auto.
  unfold index. rewrite map_find. destruct (entry_of p h); reflexivity.
Qed.

Lemma entry_proper h p : Forall proper h -> entry_of p h <> Present NotInSet.
Proof.
  induction h as [|m h IH] using rev_ind; [discriminate|]. intros H. apply Forall_app in H as [H1 H2].
  inversion H2 as [|? ? Hm _]. subst. specialize (IH H1). rewrite entry_snoc. destruct (about p m); auto.
  unfold entry_next, proper in *. destruct (mkind m); auto; try discriminate; try congruence;
  destruct (entry_of p h); auto; try discriminate; congruence.
Qed.

(* ---- context ---- *)
Lemma for_each_map {S} (f : actor -> bool) (g : nat -> event S) l : forall i,
  for_each S i l (fun i a => if f a then [g i] else []) =
  map g (filter (fun k => match nth_error l (k - i) with Some a => f a | None => false end) (seq i (length l))).
Proof.
  induction l as [|a l IH]; intros i; [reflexivity|].
  cbn [for_each length seq filter]. rewrite Nat.sub_diag. cbn [nth_error].
  replace (filter (fun k => match nth_error (a :: l) (k - i) with Some a0 => f a0 | None => false end) (seq (Datatypes.S i) (length l)))
    with (filter (fun k => match nth_error l (k - (i + 1)) with Some a0 => f a0 | None => false end) (seq (i + 1) (length l))).
  - rewrite IH. now destruct (f a).
  - replace (Datatypes.S i) with (i + 1)%nat by lia. apply filter_ext_in. intros k Hk. apply in_seq in Hk.
    replace (k - i)%nat with (Datatypes.S (k - (i + 1))) by lia. reflexivity.
Qed.

Lemma for_each_indices {S} (f : actor -> bool) (g : nat -> event S) l :
  for_each S 0 l (fun i a => if f a then [g i] else []) = map g (indices f l).
Proof.
  rewrite for_each_map. f_equal. apply filter_ext. intros k. now rewrite Nat.sub_0_r.
Qed.

Section C.
Context {S : Type} (apply : S -> msg -> S * bool) (static_false : msg -> bool) (look : S -> path -> outcome)
  (foreign : S -> msg -> S * list path) {P : Type} (react : P -> msg -> P * list msg) (sh : shape).
Notation tell_listeners := (tell_listeners S foreign P sh).
Notation notify := (notify_state_consumers S P sh).
Notation prop_down := (propagate_downstream S P sh).
Notation push_down := (push_down S apply static_false foreign P sh).
Notation push_all_down := (push_all_down S apply static_false foreign P sh).
Notation push_up := (push_up S apply static_false look foreign P react sh).
Notation prop_up := (propagate_upstream S apply static_false foreign P react sh).
Notation set_store := (set_store S P).

Lemma notify_indices st p : notify st p = map (fun i => Notify i p (stores st)) (indices state_consumer (actors sh)).
Proof. apply for_each_indices. Qed.
Lemma down_indices st m : prop_down st m = map (fun i => ToConsumer i m (stores st)) (indices consumer (actors sh)).
Proof. apply for_each_indices. Qed.

(* every event of a listener phase is a notification of a path some listener store reported *)
Lemma tell_notes m ls : forall st st' e, tell_listeners st m ls = (st', e) ->
  forall ev, In ev e -> exists i p x t s, ev = Notify i p x /\ In t ls /\ In p (snd (foreign s m)).
Proof.
  induction ls as [|t ls IH]; intros st st' e E ev Hi; cbn in E.
  - injection E as <- <-. destruct Hi.
  - destruct (foreign (stores st t) m) as [s1 ps] eqn:Ef.
    destruct (tell_listeners (set_store st t s1) m ls) as [st2 e2] eqn:Et. injection E as <- <-.
    apply in_app_or in Hi as [Hi|Hi].
    + apply in_flat_map in Hi as (p & Hp & Hn). rewrite notify_indices in Hn. apply in_map_iff in Hn as (i & <- & _).
      exists i, p, (stores (set_store st t s1)), t, (stores st t). rewrite Ef. cbn. auto.
    + destruct (IH _ _ _ Et _ Hi) as (i & p & x & t' & s & -> & Ht & Hp). exists i, p, x, t', s. cbn. auto.
Qed.

Lemma tell_no_send m ls st st' e : tell_listeners st m ls = (st', e) -> filter is_send e = [].
Proof.
  intros E. destruct (filter is_send e) as [|x r] eqn:Ef; auto. exfalso.
  assert (Hx : In x e /\ is_send x = true) by (apply filter_In; rewrite Ef; now left). destruct Hx as [Hx Hs].
  destruct (tell_notes _ _ _ _ _ E _ Hx) as (i & p & y & t & s & -> & _). discriminate.
Qed.

Lemma push_down_none st m st' e : push_down st m = (st', e) -> existsb is_to_producer e = false.
Proof.
  unfold StoreModel.push_down. destruct (path_of m) as [p|]; [|intros E; injection E as <- <-; reflexivity].
  destruct (apply_and_notify _ _ _ _ _ _ _ _) as [st1 e1] eqn:E1.
  destruct (tell_listeners st1 m (listeners_of sh (path_type m))) as [st2 e2] eqn:E2. intros E. injection E as <- <-.
  rewrite !existsb_app. apply orb_false_iff. split; [|apply orb_false_iff; split].
  - unfold apply_and_notify in E1. destruct (static_false m); [injection E1 as <- <-; auto|].
    destruct (apply _ _) as [s1 c]. injection E1 as <- <-. destruct c; auto. rewrite notify_indices.
    induction (indices _ _); auto.
  - rewrite down_indices. induction (indices _ _); auto.
  - destruct (existsb is_to_producer e2) eqn:Ex; auto. apply existsb_exists in Ex as (x & Hx & Hb).
    destruct (tell_notes _ _ _ _ _ E2 _ Hx) as (i & q & y & t & s & -> & _). discriminate.
Qed.
Lemma push_all_down_none ms : forall st st' e, push_all_down st ms = (st', e) -> existsb is_to_producer e = false.
Proof.
  induction ms as [|m ms IH]; intros st st' e; cbn; [intros E; injection E as <- <-; auto|].
  destruct (push_down st m) as [st1 e1] eqn:E1. destruct (push_all_down st1 ms) as [st2 e2] eqn:E2.
  intros E. injection E as <- <-. rewrite existsb_app, (push_down_none _ _ _ _ E1), (IH _ _ _ E2). auto.
Qed.

Lemma no_send_notes st p : filter is_send (notify st p) = [].
Proof. rewrite notify_indices. induction (indices _ _); auto. Qed.
Lemma all_send_down st m : filter is_send (prop_down st m) = prop_down st m.
Proof. rewrite down_indices. induction (indices consumer (actors sh)) as [|x l IH]; cbn; auto. cbn in IH. now rewrite IH. Qed.
End C.

(* ---- the map store under the context ---- *)
Definition no_foreign (s : table) (m : msg) : table * list path := (s, []).

Section M.
Context {P : Type} (react : P -> msg -> P * list msg) (sh : shape).
Notation tell := (tell_listeners table no_foreign P sh).
Notation push_down := (push_down table map_apply map_static_false no_foreign P sh).
Notation push_all_down := (push_all_down table map_apply map_static_false no_foreign P sh).
Notation prop_up := (propagate_upstream table map_apply map_static_false no_foreign P react sh).
Notation push_up := (push_up table map_apply map_static_false map_match no_foreign P react sh).
Notation push := (push table map_apply map_static_false map_match no_foreign P react sh).
Notation run := (run table map_apply map_static_false map_match no_foreign P react sh).

Lemma tell_none m ls : forall st, exists st', tell st m ls = (st', []) /\ producers st' = producers st /\ (forall t, stores st' t = stores st t).
Proof.
  induction ls as [|t ls IH]; intros st; cbn; [eauto|].
  destruct (IH (set_store table P st t (stores st t))) as (st' & -> & H1 & H2). exists st'. split; [reflexivity|]. split; [exact H1|].
  intros x. rewrite H2. cbn. destruct (Nat.eqb x t) eqn:E; auto. apply Nat.eqb_eq in E. now subst.
Qed.

(* the reads of a context over map stores never reach a producer *)
Lemma no_read_down st m st' e : push_down st m = (st', e) -> existsb is_read_to_producer e = false.
Proof.
  unfold StoreModel.push_down. destruct (path_of m) as [p|]; [|intros E; injection E as <- <-; reflexivity].
  destruct (apply_and_notify _ _ _ _ _ _ _ _) as [st1 e1] eqn:E1.
  destruct (tell_none m (listeners_of sh (path_type m)) st1) as (st2 & -> & _). intros E. injection E as <- <-.
  rewrite !existsb_app. cbn. rewrite orb_false_r. apply orb_false_iff. split.
  - unfold apply_and_notify in E1. destruct (map_static_false m); [injection E1 as <- <-; auto|].
    destruct (map_apply _ _) as [s1 c]. injection E1 as <- <-. destruct c; auto. rewrite notify_indices.
    induction (indices _ _); auto.
  - rewrite down_indices. induction (indices _ _); auto.
Qed.
Lemma no_read_all ms : forall st st' e, push_all_down st ms = (st', e) -> existsb is_read_to_producer e = false.
Proof.
  induction ms as [|m ms IH]; intros st st' e; cbn; [intros E; injection E as <- <-; auto|].
  destruct (push_down st m) as [st1 e1] eqn:E1. destruct (push_all_down st1 ms) as [st2 e2] eqn:E2.
  intros E. injection E as <- <-. rewrite existsb_app, (no_read_down _ _ _ _ E1), (IH _ _ _ E2). auto.
Qed.
Lemma no_read_up st m st' e : prop_up st m = (st', e) -> is_read m = false -> existsb is_read_to_producer e = false.
Proof.
  unfold propagate_upstream. destruct (react _ _) as [p1 an]. destruct (push_all_down _ _) as [st1 e1] eqn:E1.
  intros E Hr. injection E as <- <-. cbn. rewrite Hr. eapply no_read_all; eauto.
Qed.

(* after applying an upstream read the path is known *)
Lemma read_known s m p : path_of m = Some p -> mkind m = UpRead -> find (fst (map_apply s m)) p <> None.
Proof.
  intros Hp Hk. unfold map_apply. rewrite Hp, Hk. cbn. destruct (find s p) eqn:E; [congruence|].
  rewrite find_assign, path_eqb_refl. discriminate.
Qed.

Lemma push_read_outcome (st : state table P) m p : path_of m = Some p -> mkind m = UpRead ->
  map_match (fst (map_apply (stores st (path_type m)) m)) p =
  match find (stores st (path_type m)) p with
  | Some (SValue v) => Resolved v | _ => Unresolved
  end.
Proof.
  intros Hp Hk. unfold map_apply, map_match. rewrite Hp, Hk. cbn [fst]. destruct (find (stores st (path_type m)) p) as [[|v]|] eqn:E; rewrite ?E; auto.
  now rewrite find_assign, path_eqb_refl.
Qed.

Lemma set_store_same (st : state table P) t s : stores (set_store table P st t s) t = s.
Proof. cbn. now rewrite Nat.eqb_refl. Qed.

Lemma no_read_push st m st' e : push st m = (st', e) -> (is_upstream m && is_read m = true -> path_of m <> None) ->
  existsb is_read_to_producer e = false.
Proof.
  unfold StoreModel.push. destruct (is_upstream m) eqn:Eu; [|intros E _; eapply no_read_down; eauto].
  unfold StoreModel.push_up. intros E Hc. destruct (path_of m) as [p|] eqn:Ep.
  - destruct (is_read m) eqn:Er.
    + assert (Hk : mkind m = UpRead) by (unfold is_upstream, is_read in *; destruct (mkind m); congruence).
      unfold push_read in E. rewrite set_store_same, (push_read_outcome _ _ _ Ep Hk) in E.
      destruct (find (stores st (path_type m)) p) as [[|v]|].
      * destruct (tell_none m (listeners_of sh (path_type m)) (set_store table P st (path_type m) (fst (map_apply (stores st (path_type m)) m)))) as (st2 & E2 & _).
        rewrite E2 in E. injection E as <- <-. reflexivity.
      * unfold to_downstream_read in E. rewrite Hk in E.
        destruct (tell_none m (listeners_of sh (path_type m)) (set_store table P st (path_type m) (fst (map_apply (stores st (path_type m)) m)))) as (st2 & E2 & _).
        rewrite E2 in E. injection E as <- <-. rewrite existsb_app. cbn. rewrite orb_false_r, down_indices. induction (indices _ _); auto.
      * destruct (tell_none m (listeners_of sh (path_type m)) (set_store table P st (path_type m) (fst (map_apply (stores st (path_type m)) m)))) as (st2 & E2 & _).
        rewrite E2 in E. injection E as <- <-. reflexivity.
    + unfold apply_and_notify in E. rewrite (Eu : map_static_false m = true) in E. cbv beta iota in E. destruct (prop_up st m) as [st1 e1] eqn:E1. cbv beta iota in E.
      destruct (tell_none m (listeners_of sh (path_type m)) st1) as (st2 & E2 & _). rewrite E2 in E. injection E as <- <-.
      cbn. rewrite existsb_app. cbn. rewrite orb_false_r. eapply no_read_up; eauto.
  - eapply no_read_up; eauto. destruct (is_read m) eqn:Er; auto. exfalso. now apply Hc.
Qed.

Lemma run_app a : forall st b, run st (a ++ b) =
  let (st1, e1) := run st a in let (st2, e2) := run st1 b in (st2, e1 ++ e2).
Proof.
  induction a as [|c a IH]; intros st b; cbn.
  - now destruct (run st b).
  - destruct c as [m|p].
    + destruct (push st m) as [st1 e1]. rewrite IH. destruct (run st1 a) as [st2 e2]. destruct (run st2 b) as [st3 e3]. now rewrite app_assoc.
    + destruct (context_match _ _ _ _ _ _ _ _ _ _) as [[st1 e1] o]. rewrite IH. destruct (run st1 a) as [st2 e2]. destruct (run st2 b) as [st3 e3]. now rewrite app_assoc.
Qed.

(* a downstream message under the context: the store, the events *)
Lemma push_down_map st m p : path_of m = Some p -> is_upstream m = false ->
  exists st' e, push_down st m = (st', e) /\ producers st' = producers st /\
    (forall t, stores st' t = if Nat.eqb t (path_type m) then fst (map_apply (stores st t) m) else stores st t) /\
    exists x, filter is_send e = map (fun i => ToConsumer i m x) (indices consumer (actors sh)) /\
      (forall t, x t = stores st' t).
Proof.
  intros Hp Hu. unfold StoreModel.push_down. rewrite Hp. unfold apply_and_notify. rewrite (Hu : map_static_false m = false).
  destruct (map_apply (stores st (path_type m)) m) as [s1 c] eqn:Em.
  set (st1 := set_store table P st (path_type m) s1).
  destruct (tell_none m (listeners_of sh (path_type m)) st1) as (st2 & E2 & H1 & H2). rewrite E2.
  eexists st2, _. split; [reflexivity|]. split; [rewrite H1; auto|]. split.
  - intros t. rewrite H2. cbn. destruct (Nat.eqb t (path_type m)) eqn:E; auto. apply Nat.eqb_eq in E. subst t. now rewrite Em.
  - exists (stores st1). split; [|intros t; now rewrite H2].
    rewrite app_nil_r, filter_app.
    replace (filter is_send (if c then notify_state_consumers table P sh st1 p else [])) with (@nil (event table)).
    + cbn [app]. rewrite all_send_down, down_indices. reflexivity.
    + destruct c; auto. now rewrite no_send_notes.
Qed.
End M.
