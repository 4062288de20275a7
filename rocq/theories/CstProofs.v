(* Proofs for C87. *)
From Verif Require Import Base StoreModel StoreSpec StoreProofs CstModel CstSpec.

Lemma told_app i a b : told i (a ++ b) = told i a ++ told i b.
Proof. apply flat_map_app. Qed.
Lemma noted_app k t a b : noted k t (a ++ b) = noted k t a ++ noted k t b.
Proof. apply flat_map_app. Qed.
Lemma updates_app t a b : updates t (a ++ b) = updates t a ++ updates t b.
Proof. apply flat_map_app. Qed.
Lemma holds_app act s a b : holds act s (a ++ b) = holds act (holds act s a) b.
Proof. destruct s; [reflexivity|]. cbn. unfold carried. now rewrite fold_left_app. Qed.
Lemma holds_nil act s : holds act s [] = s.
Proof. now destruct s. Qed.
Lemma notable_holds act s a b : notable (holds act s a) b = notable s b.
Proof. now destruct s. Qed.
Lemma notable_app s a b : notable s (a ++ b) = notable s a ++ notable s b.
Proof. destruct s; [reflexivity|]. apply map_app. Qed.

Lemma index_of f l i a : nth_error l i = Some a -> f a = true -> In i (indices f l).
Proof.
  intros H1 H2. unfold indices. apply filter_In. rewrite H1. split; auto.
  apply in_seq. split; [lia|]. cbn. apply nth_error_Some. congruence.
Qed.
Lemma index_nodup f l : NoDup (indices f l).
Proof. apply NoDup_filter, seq_NoDup. Qed.

Lemma told_map i m x l : NoDup l -> In i l -> told i (map (fun j => ToConsumer j m x) l) = [m].
Proof.
  intros H. assert (A : forall l, ~ In i l -> told i (map (fun j => ToConsumer j m x) l) = []).
  { clear. induction l as [|j l IH]; intros N; auto. cbn. fold (told i (map (fun j => ToConsumer j m x) l)).
    rewrite IH by (intros ?; apply N; now right). destruct (Nat.eqb_spec j i); auto. subst. exfalso. apply N. now left. }
  induction H as [|j l N D IH]; intros Hi; [destruct Hi|]. cbn. fold (told i (map (fun j => ToConsumer j m x) l)).
  destruct (Nat.eqb_spec j i) as [->|E]; [now rewrite A|]. apply IH. destruct Hi; congruence.
Qed.
Lemma told_notes i p x l : told i (map (fun j => Notify j p x) l) = [].
Proof. induction l; auto. Qed.
Lemma noted_tells k t m x l : noted k t (map (fun j => ToConsumer j m x) l) = [].
Proof. induction l; auto. Qed.
Lemma noted_map k t p x l : NoDup l -> In k l -> noted k t (map (fun j => Notify j p x) l) = if Nat.eqb (ptype p) t then [p] else [].
Proof.
  intros H. assert (A : forall l, ~ In k l -> noted k t (map (fun j => Notify j p x) l) = []).
  { clear. induction l as [|j l IH]; intros N; auto. cbn. fold (noted k t (map (fun j => Notify j p x) l)).
    rewrite IH by (intros ?; apply N; now right). destruct (Nat.eqb_spec j k); auto. subst. exfalso. apply N. now left. }
  induction H as [|j l N D IH]; intros Hi; [destruct Hi|]. cbn. fold (noted k t (map (fun j => Notify j p x) l)).
  destruct (Nat.eqb_spec j k) as [->|E]; cbn [andb].
  - rewrite A by auto. now destruct (Nat.eqb (ptype p) t).
  - apply IH. destruct Hi; congruence.
Qed.

Section Cst.
Context (act : payload -> outcome -> outcome) {P : Type} (react : P -> msg -> P * list msg) (sh : shape).
Notation tell := (tell_listeners cstore cst_foreign P sh).
Notation push_down := (push_down cstore (cst_apply act) cst_static_false cst_foreign P sh).
Notation push_all_down := (push_all_down cstore (cst_apply act) cst_static_false cst_foreign P sh).
Notation prop_up := (propagate_upstream cstore (cst_apply act) cst_static_false cst_foreign P react sh).
Notation push := (cst_push act P react sh).
Notation run := (cst_run act P react sh).

Lemma tell_none m ls : forall st, exists st', tell st m ls = (st', []) /\ producers st' = producers st /\ (forall t, stores st' t = stores st t).
Proof.
  induction ls as [|t ls IH]; intros st; cbn; [eauto|].
  destruct (IH (set_store cstore P st t (stores st t))) as (st' & -> & H1 & H2). exists st'. split; [reflexivity|]. split; [exact H1|].
  intros x. rewrite H2. cbn. destruct (Nat.eqb x t) eqn:E; auto. apply Nat.eqb_eq in E. now subst.
Qed.

Lemma path_type_path m p : path_of m = Some p -> path_type m = ptype p.
Proof. unfold path_of, path_type. destruct (get_path m) as [[[|]| | | | |]|]; intros E; try discriminate. now injection E as ->. Qed.

Lemma down_shape st m st' e : push_down st m = (st', e) ->
  match path_of m with
  | None => st' = st /\ e = []
  | Some p => exists x, (forall t, x t = holds act (stores st t) (update_of t m)) /\ (forall t, stores st' t = x t) /\ producers st' = producers st /\
      e = (match mkind m, stores st (ptype p) with DownUpdate, Held _ => map (fun k => Notify k p x) (indices state_consumer (actors sh)) | _, _ => [] end) ++
          map (fun i => ToConsumer i m x) (indices consumer (actors sh))
  end.
Proof.
  unfold StoreModel.push_down. destruct (path_of m) as [p|] eqn:Ep; [|intros E; now injection E as <- <-].
  assert (Ht := path_type_path _ _ Ep).
  assert (A : exists st1, apply_and_notify cstore (cst_apply act) cst_static_false P sh st m p = (st1,
      match mkind m, stores st (ptype p) with DownUpdate, Held _ => map (fun k => Notify k p (stores st1)) (indices state_consumer (actors sh)) | _, _ => [] end) /\
      (forall t, stores st1 t = holds act (stores st t) (update_of t m)) /\ producers st1 = producers st).
  { unfold apply_and_notify, cst_static_false. destruct (mkind m) eqn:K;
    try (exists st; split; [reflexivity|]; split; [|reflexivity]; intros t; unfold update_of; rewrite K; now rewrite holds_nil).
    rewrite Ht. unfold cst_apply. rewrite K. destruct (stores st (ptype p)) as [|v] eqn:Es.
    - eexists. split; [reflexivity|]. split; [|reflexivity]. intros t. cbn [set_store stores]. unfold update_of. rewrite K, Ep.
      rewrite (Nat.eqb_sym (ptype p) t). destruct (Nat.eqb_spec t (ptype p)) as [->|]; [now rewrite Es|]. now rewrite holds_nil.
    - eexists. split; [now rewrite notify_indices|]. split; [|reflexivity]. intros t. cbn [set_store stores]. unfold update_of. rewrite K, Ep.
      rewrite (Nat.eqb_sym (ptype p) t). destruct (Nat.eqb_spec t (ptype p)) as [->|]; [now rewrite Es|]. now rewrite holds_nil. }
  destruct A as (st1 & -> & A1 & A2). rewrite down_indices.
  destruct (tell_none m (listeners_of sh (path_type m)) st1) as (st2 & -> & B1 & B2).
  intros E. injection E as <- <-. exists (stores st1). rewrite app_nil_r. repeat split; auto. now rewrite B1.
Qed.

Section Seen.
Variables (i k t : nat).
Hypothesis Hi : hears sh i.

Definition Tr (s : cstore) (e : list (event cstore)) (s' : cstore) : Prop :=
  s' = holds act s (updates t (told i e)) /\
  (forall e1 m x e2, e = e1 ++ ToConsumer i m x :: e2 -> x t = holds act s (updates t (told i e1 ++ [m]))) /\
  (watches sh k -> noted k t e = notable s (updates t (told i e))).

Lemma Tr_nil s : Tr s [] s.
Proof.
  split; [now rewrite holds_nil|]. split; [|now destruct s]. intros e1 m x e2 E. destruct e1; discriminate.
Qed.
Lemma Tr_app s a s1 b s2 : Tr s a s1 -> Tr s1 b s2 -> Tr s (a ++ b) s2.
Proof.
  intros (A1 & A2 & A3) (B1 & B2 & B3). subst s1. split; [|split].
  - now rewrite told_app, updates_app, holds_app.
  - intros e1 m x e2 E. destruct (app_eq_app _ _ _ _ E) as (l & [(E1 & E2)|(E1 & E2)]).
    + destruct l as [|y l].
      * cbn in E2. rewrite app_nil_r in E1. subst e1. specialize (B2 [] m x e2 (eq_sym E2)). cbn in B2.
        rewrite updates_app, (holds_app act s (updates t (told i a))). exact B2.
      * cbn in E2. injection E2 as <- _. exact (A2 _ _ _ _ E1).
    + subst e1. rewrite told_app, <- app_assoc, updates_app, (holds_app act s (updates t (told i a))). exact (B2 _ _ _ _ E2).
  - intros W. rewrite noted_app, (A3 W), (B3 W), told_app, updates_app, notable_app. f_equal. apply notable_holds.
Qed.
Lemma Tr_producer s j m x : Tr s [ToProducer j m x] s.
Proof.
  split; [now rewrite holds_nil|]. split; [|now destruct s]. intros e1 m' x' e2 E. destruct e1 as [|y e1]; [discriminate|].
  cbn in E. injection E as _ E. destruct e1; discriminate.
Qed.
Lemma Hi' : In i (indices consumer (actors sh)).
Proof. destruct Hi as (a & A & B). eapply index_of; eauto. Qed.
Lemma Hk' : watches sh k -> In k (indices state_consumer (actors sh)).
Proof. intros (a & A & B). eapply index_of; eauto. Qed.

Lemma tells_split m' x' l e1 m x e2 : NoDup l -> map (fun j => ToConsumer j m' x') l = e1 ++ ToConsumer i m x :: e2 ->
  m = m' /\ x = x' /\ told i e1 = [].
Proof.
  intros D E. assert (H : In (ToConsumer i m x) (map (fun j => ToConsumer j m' x') l)) by (rewrite E; apply in_elt).
  apply in_map_iff in H as (j & H & Hj). injection H as -> -> ->. split; auto. split; auto.
  assert (A : told i (map (fun j => ToConsumer j m x) l) = [m]) by (apply told_map; auto).
  rewrite E, told_app in A. cbn in A. rewrite Nat.eqb_refl in A. destruct (told i e1); auto.
  cbn in A. injection A as _ A. destruct l0; discriminate.
Qed.

Lemma Tr_tells s m x : x t = s -> update_of t m = [] -> Tr s (map (fun j => ToConsumer j m x) (indices consumer (actors sh))) s.
Proof.
  intros Hx Hu. split; [|split].
  - rewrite told_map by (auto using index_nodup, Hi'). cbn. now rewrite Hu, holds_nil.
  - intros e1 m' x' e2 E. apply tells_split in E as (-> & -> & ->); [|apply index_nodup]. cbn. now rewrite Hu, holds_nil.
  - intros _. rewrite told_map by (auto using index_nodup, Hi'). rewrite noted_tells. cbn. rewrite Hu. now destruct s.
Qed.

Lemma Tr_down st m st' e : push_down st m = (st', e) -> Tr (stores st t) e (stores st' t).
Proof.
  intros E. apply down_shape in E. destruct (path_of m) as [p|] eqn:Ep; [|destruct E as [-> ->]; apply Tr_nil].
  destruct E as (x & A & B & _ & ->).
  set (N := match mkind m, stores st (ptype p) with DownUpdate, Held _ => map (fun k => Notify k p x) (indices state_consumer (actors sh)) | _, _ => [] end).
  assert (N1 : told i N = []) by (unfold N; destruct (mkind m), (stores st (ptype p)); auto; apply told_notes).
  assert (N2 : watches sh k -> noted k t N = notable (stores st t) (update_of t m)).
  { intros W. unfold N, update_of. rewrite Ep. destruct (mkind m); try (now destruct (stores st t)).
    destruct (stores st (ptype p)) as [|v] eqn:Es.
    - destruct (Nat.eqb_spec (ptype p) t) as [<-|]; [now rewrite Es|now destruct (stores st t)].
    - rewrite noted_map by (auto using index_nodup, Hk'). destruct (Nat.eqb_spec (ptype p) t) as [<-|]; [now rewrite Es|now destruct (stores st t)]. }
  assert (N3 : forall j y z, ~ In (ToConsumer j y z) N).
  { intros j y z. unfold N. destruct (mkind m), (stores st (ptype p)); auto. intros H. apply in_map_iff in H as (? & H & _). discriminate. }
  assert (T : told i (N ++ map (fun i => ToConsumer i m x) (indices consumer (actors sh))) = [m]).
  { rewrite told_app, N1, told_map; auto using index_nodup, Hi'. }
  split; [|split].
  - rewrite T, B, A. unfold updates. cbn [flat_map]. now rewrite app_nil_r.
  - intros e1 m' x' e2 E. destruct (app_eq_app _ _ _ _ E) as (l & [(E1 & E2)|(E1 & E2)]).
    + destruct l as [|y l].
      * cbn in E2. symmetry in E2. apply (tells_split _ _ _ []) in E2 as (-> & -> & _); [|apply index_nodup].
        rewrite app_nil_r in E1. subst e1. rewrite N1. cbn [app updates flat_map]. now rewrite app_nil_r, A.
      * cbn in E2. injection E2 as <- _. exfalso. apply (N3 i m' x'). rewrite E1. apply in_elt.
    + apply tells_split in E2 as (-> & -> & E2); [|apply index_nodup]. rewrite E1, told_app, N1, E2.
      cbn [app updates flat_map]. now rewrite app_nil_r, A.
  - intros W. rewrite T, noted_app, (N2 W), noted_tells, app_nil_r. unfold updates. cbn [flat_map]. now rewrite app_nil_r.
Qed.

Lemma Tr_all ms : forall st st' e, push_all_down st ms = (st', e) -> Tr (stores st t) e (stores st' t).
Proof.
  induction ms as [|m ms IH]; intros st st' e; cbn; [intros E; injection E as <- <-; apply Tr_nil|].
  destruct (push_down st m) as [st1 e1] eqn:E1. destruct (push_all_down st1 ms) as [st2 e2] eqn:E2. intros E. injection E as <- <-.
  eapply Tr_app; [eapply Tr_down; eauto|eapply IH; eauto].
Qed.
Lemma Tr_up st m st' e : prop_up st m = (st', e) -> Tr (stores st t) e (stores st' t).
Proof.
  unfold propagate_upstream. destruct (react _ m) as [p1 an]. destruct (push_all_down _ an) as [st1 e1] eqn:E1.
  intros E. injection E as <- <-. apply Tr_all in E1. exact (Tr_app _ _ _ _ _ (Tr_producer _ _ _ _) E1).
Qed.

Lemma read_store st m : mkind m = UpRead ->
  forall x, stores (set_store cstore P st (path_type m) (fst (cst_apply act (stores st (path_type m)) m))) x = stores st x.
Proof.
  intros K x. cbn. destruct (Nat.eqb_spec x (path_type m)) as [->|]; auto. unfold cst_apply. rewrite K. now destruct (stores st (path_type m)).
Qed.
Lemma up_read m : is_upstream m = true -> is_read m = true -> mkind m = UpRead.
Proof. unfold is_upstream, is_read. now destruct (mkind m). Qed.

Lemma Tr_push st m st' e : push st m = (st', e) -> Tr (stores st t) e (stores st' t).
Proof.
  unfold cst_push, StoreModel.push. destruct (is_upstream m) eqn:U; [|apply Tr_down].
  unfold push_up. destruct (path_of m) as [p|] eqn:Ep; [|apply Tr_up]. destruct (is_read m) eqn:R.
  - assert (K := up_read _ U R). unfold push_read.
    set (st1 := set_store cstore P st (path_type m) (fst (cst_apply act (stores st (path_type m)) m))).
    assert (H : forall x, stores st1 x = stores st x) by (apply read_store; auto). clearbody st1.
    assert (G : forall st2 e2, Tr (stores st1 t) e2 (stores st2 t) ->
      (let (st3, e3) := tell st2 m (listeners_of sh (path_type m)) in (st3, e2 ++ e3)) = (st', e) -> Tr (stores st t) e (stores st' t)).
    { intros st2 e2 T. destruct (tell_none m (listeners_of sh (path_type m)) st2) as (st3 & -> & _ & H3).
      intros E. injection E as <- <-. now rewrite app_nil_r, H3, <- H. }
    destruct (cst_look _ p) as [| |v].
    1: { destruct (prop_up st1 m) as [st2 e2] eqn:E2. apply G. eapply Tr_up; eauto. }
    1: apply G, Tr_nil.
    unfold to_downstream_read. rewrite K. apply G. rewrite down_indices. apply Tr_tells; auto.
  - assert (A : apply_and_notify cstore (cst_apply act) cst_static_false P sh st m p = (st, [])).
    { unfold apply_and_notify, cst_static_false. unfold is_upstream in U. now destruct (mkind m). }
    rewrite A. destruct (prop_up st m) as [st2 e2] eqn:E2.
    destruct (tell_none m (listeners_of sh (path_type m)) st2) as (st3 & -> & _ & H3).
    intros E. injection E as <- <-. cbn [app]. rewrite app_nil_r, H3. eapply Tr_up; eauto.
Qed.

Lemma Tr_run cs : forall st st' e, run st cs = (st', e) -> Tr (stores st t) e (stores st' t).
Proof.
  unfold cst_run. induction cs as [|c cs IH]; intros st st' e; cbn [StoreModel.run]; [intros E; injection E as <- <-; apply Tr_nil|].
  destruct c as [m|p].
  - destruct (StoreModel.push _ _ _ _ _ _ _ _ st m) as [st1 e1] eqn:E1. destruct (StoreModel.run _ _ _ _ _ _ _ _ st1 cs) as [st2 e2] eqn:E2.
    intros E. injection E as <- <-. eapply Tr_app; [eapply Tr_push; exact E1|eapply IH; exact E2].
  - unfold context_match. destruct (cst_look _ p).
    1: destruct (StoreModel.push _ _ _ _ _ _ _ _ st _) as [st1 e1] eqn:E1.
    all: destruct (StoreModel.run _ _ _ _ _ _ _ _ _ cs) as [st2 e2] eqn:E2; intros E; injection E as <- <-.
    + eapply Tr_app; [eapply Tr_push; exact E1|eapply IH; exact E2].
    + eapply IH; exact E2.
    + eapply IH; exact E2.
Qed.
End Seen.
End Cst.
