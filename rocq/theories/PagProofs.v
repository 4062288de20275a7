From Verif Require Import Base UiModel UiSpec UiProps StoreModel StoreSpec StoreProofs NetModel NetSpec NetProofs PagModel PagSpec.

Lemma last_any {A} (x : A) l d d' : last (x :: l) d = last (x :: l) d'.
Proof. revert x. induction l as [|y l IH]; intros x; auto. cbn in *. apply IH. Qed.
Lemma last_app {A} (a b : list A) d : last (a ++ b) d = last b (last a d).
Proof.
  revert d. induction a as [|x a IH]; intros d; auto. destruct a as [|y a].
  - destruct b as [|z b]; auto. cbn [app]. change (last (x :: z :: b) d) with (last (z :: b) d). apply last_any.
  - exact (IH d).
Qed.
Lemma last_map {A B} (f : A -> B) l d : last (map f l) (f d) = f (last l d).
Proof. induction l as [|x [|y l] IH]; auto. Qed.
Lemma noted_app ren a b : noted ren (a ++ b) = noted ren a ++ noted ren b.
Proof. unfold noted. now rewrite flat_map_app. Qed.
Lemma payload_shown st p : payload_in (reads st p) = shown st p.
Proof. reflexivity. Qed.

Section One.
Context {P : Type} (react : P -> msg -> P * list msg) (sh : shape) (ren : nat).
Hypothesis is_ren : exists a, nth_error (actors sh) ren = Some a /\ state_consumer a = true.
Notation push_down := (push_down table map_apply map_static_false no_foreign P sh).
Notation push_all_down := (push_all_down table map_apply map_static_false no_foreign P sh).
Notation prop_up := (propagate_upstream table map_apply map_static_false no_foreign P react sh).
Notation push := (push table map_apply map_static_false map_match no_foreign P react sh).
Notation run := (StoreModel.run table map_apply map_static_false map_match no_foreign P react sh).

Lemma noted_notify (st : state table P) p : exists k, noted ren (notify_state_consumers table P sh st p) = repeat (stores st) (S k).
Proof.
  rewrite notify_indices.
  assert (I : In ren (indices state_consumer (actors sh))).
  { destruct is_ren as (a & H1 & H2). unfold indices. apply filter_In. rewrite H1. split; auto. apply in_seq. split; [lia|]. cbn. apply nth_error_Some. congruence. }
  assert (G : forall l, exists k, noted ren (map (fun i => Notify i p (stores st)) l) = repeat (stores st) k).
  { induction l as [|i l (k & E)]; [now exists 0%nat|]. cbn. fold (noted ren (map (fun i => Notify i p (stores st)) l)). rewrite E.
    destruct (Nat.eqb i ren); [now exists (S k)|now exists k]. }
  apply in_split in I as (a & b & ->). rewrite map_app, noted_app. cbn. rewrite Nat.eqb_refl.
  fold (noted ren (map (fun i => Notify i p (stores st)) b)). destruct (G a) as (k & ->), (G b) as (k' & ->).
  exists (k + k')%nat. cbn. rewrite (repeat_app _ k k'). change (repeat (stores st) k ++ [stores st] ++ repeat (stores st) k' = stores st :: repeat (stores st) k ++ repeat (stores st) k').
  rewrite app_assoc. rewrite <- repeat_cons. reflexivity.
Qed.
Lemma last_repeat {A} (x : A) k d : last (repeat x (S k)) d = x.
Proof. induction k; auto. Qed.
Lemma noted_down (st : state table P) m : noted ren (propagate_downstream table P sh st m) = [].
Proof. rewrite down_indices. induction (indices _ _); auto. Qed.

(* what was noted last is what is there, as far as the values go *)
Definition follows (st : state table P) (e : list (StoreModel.event table)) (st' : state table P) : Prop :=
  forall p, val (last (noted ren e) (stores st) (ptype p)) p = vals st' p.

Lemma follows_app st e st1 e1 st2 : follows st e st1 -> follows st1 e1 st2 -> follows st (e ++ e1) st2.
Proof.
  intros A B p. rewrite noted_app, last_app. specialize (B p). destruct (noted ren e1) as [|x l] eqn:E.
  - cbn in *. rewrite A. exact B.
  - rewrite <- B. erewrite last_any. reflexivity.
Qed.
Lemma follows_none st e st' : noted ren e = [] -> (forall p, vals st' p = vals st p) -> follows st e st'.
Proof. intros E V p. rewrite E. cbn. now rewrite V. Qed.

Lemma down_follows st m st' e : push_down st m = (st', e) -> is_upstream m = false -> follows st e st'.
Proof.
  intros E U. unfold StoreModel.push_down in E. destruct (path_of m) as [q|] eqn:Hq.
  2:{ injection E as <- <-. now apply follows_none. }
  destruct (apply_and_notify _ _ _ _ _ _ _ _) as [st1 e1] eqn:E1.
  destruct (tell_vals sh m (listeners_of sh (path_type m)) st1) as (st2 & E2 & _ & V). rewrite E2 in E. injection E as <- <-.
  rewrite app_nil_r. eapply follows_app; [|apply follows_none; [apply noted_down|exact V]].
  unfold apply_and_notify in E1. rewrite (U : map_static_false m = false) in E1.
  destruct (map_apply (stores st (path_type m)) m) as [s1 ch] eqn:Em. injection E1 as <- <-. destruct ch.
  - intros p. destruct (noted_notify (set_store table P st (path_type m) s1) q) as (k & ->). rewrite last_repeat. reflexivity.
  - apply follows_none; auto. intros p. replace s1 with (fst (map_apply (stores st (path_type m)) m)) by now rewrite Em.
    rewrite set_vals. destruct (Nat.eqb_spec (ptype p) (path_type m)) as [T|]; auto. unfold vals. rewrite T, Em. cbn [fst].
    revert Em. unfold map_apply. rewrite Hq. destruct (mkind m); try (intros X; injection X as <-; auto; discriminate); try discriminate.
    + destruct (find _ q) eqn:F; intros X; injection X as <-; auto. unfold val. rewrite find_assign. destruct (path_eqb p q) eqn:Epq; auto.
      apply path_eqb_spec in Epq. subst q. now rewrite F.
    + unfold index. destruct (find _ q) as [[|v]|] eqn:F; intros X; injection X as <-; auto; discriminate.
Qed.
Lemma all_follows ms : forall st st' e, push_all_down st ms = (st', e) -> Forall (fun m => is_upstream m = false) ms -> follows st e st'.
Proof.
  induction ms as [|m ms IH]; intros st st' e E F; cbn in E; [injection E as <- <-; now apply follows_none|].
  destruct (push_down st m) as [st1 e1] eqn:E1. destruct (push_all_down st1 ms) as [st2 e2] eqn:E2. injection E as <- <-.
  inversion F; subst. eapply follows_app; [eapply down_follows; eauto|eapply IH; eauto].
Qed.
Hypothesis answers_down : forall q m d, In d (snd (react q m)) -> is_upstream d = false.
Lemma up_follows st m st' e : prop_up st m = (st', e) -> follows st e st'.
Proof.
  unfold propagate_upstream. destruct (react _ _) as [p1 an] eqn:R. destruct (push_all_down _ _) as [st1 e1] eqn:E1.
  intros E. injection E as <- <-. assert (F : Forall (fun m => is_upstream m = false) an).
  { apply Forall_forall. intros d D. apply (answers_down (producers st (producer_of sh (path_type m))) m). now rewrite R. }
  exact (all_follows _ _ _ _ E1 F).
Qed.
Lemma push_follows st m st' e : push st m = (st', e) -> follows st e st'.
Proof.
  unfold StoreModel.push. destruct (is_upstream m) eqn:U; [|intros E; eapply down_follows; eauto].
  unfold StoreModel.push_up. destruct (path_of m) as [q|] eqn:Hq; [|apply up_follows].
  destruct (is_read m) eqn:R.
  - assert (K : mkind m = UpRead) by (unfold is_upstream, is_read in *; destruct (mkind m); congruence).
    unfold push_read. rewrite set_store_same, (push_read_outcome _ _ _ Hq K). intros E.
    set (st1 := set_store table P st (path_type m) (fst (map_apply (stores st (path_type m)) m))) in *.
    assert (V1 : forall p, vals st1 p = vals st p) by (intros p; unfold st1; rewrite apply_vals; now apply vstep_up).
    destruct (tell_vals sh m (listeners_of sh (path_type m)) st1) as (st2 & E2 & _ & V2).
    destruct (find (stores st (path_type m)) q) as [[|v]|].
    + rewrite E2 in E. injection E as <- <-. apply follows_none; auto. intros p. now rewrite V2.
    + unfold to_downstream_read in E. rewrite K, E2 in E. injection E as <- <-. rewrite app_nil_r. apply follows_none; [apply noted_down|].
      intros p. now rewrite V2.
    + rewrite E2 in E. injection E as <- <-. apply follows_none; auto. intros p. now rewrite V2.
  - unfold apply_and_notify. rewrite (U : map_static_false m = true). destruct (prop_up st m) as [st1 e1] eqn:E1. cbv beta iota.
    destruct (tell_vals sh m (listeners_of sh (path_type m)) st1) as (st2 & E2 & _ & V). rewrite E2. intros E. injection E as <- <-.
    eapply follows_app; [exact (up_follows _ _ _ _ E1)|now apply follows_none].
Qed.
Lemma run_follows cs : forall st st' e, run st cs = (st', e) -> follows st e st'.
Proof.
  induction cs as [|[m|p] cs IH]; intros st st' e E; cbn in E.
  - injection E as <- <-. now apply follows_none.
  - destruct (push st m) as [st1 e1] eqn:E1. destruct (run st1 cs) as [st2 e2] eqn:E2. injection E as <- <-.
    eapply follows_app; [eapply push_follows; eauto|eapply IH; eauto].
  - assert (M : exists o, context_match table map_apply map_static_false map_match no_foreign P react sh st p = (st, [], o)).
    { unfold context_match, map_match. destruct (find _ _) as [[|v]|]; eauto. }
    destruct M as (o & M). rewrite M in E. destruct (run st cs) as [st2 e2] eqn:E2. injection E as <- <-. eapply IH; eauto.
Qed.
End One.

(* ---- a page ---- *)
Lemma page_shows {st} (see : (path -> outcome) -> st) s h el notes final :
  sees_payloads see -> always_shown see s -> place s h el ->
  (forall p, shown (last notes (fun _ => [])) p = shown final p) ->
  exists h' r', page_after see s h el notes = Fine (h', r') /\ shows_in h el s (see (reads final)) h'.
Proof.
  intros Sp (U & A) (n & En & Bk & Em & Sn) F.
  assert (L : see (reads final) = last (map (fun x => see (reads x)) notes) (see (reads (fun _ => [])))).
  { rewrite (last_map (fun x => see (reads x))). apply Sp. intros p. rewrite !payload_shown. symmetry. apply F. }
  destruct (C65_last_state_partial st s (see (reads (fun _ => []))) (map (fun x => see (reads x)) notes) h el n U) as (h0 & r0 & h' & r' & n' & new & B1 & B2 & B3 & B4 & B5 & B6 & B7 & B8 & B9); auto; try apply A.
  - apply Forall_forall. intros x I. apply in_map_iff in I as (y & <- & _). apply A.
  - intros _. rewrite (last_map (fun x => see (reads x))). apply A.
  - exists h', r'. split.
    + unfold page_after. rewrite B1. rewrite map_map in B2. exact B2.
    + rewrite L. exists n, n', new. auto 9.
Qed.

(* ---- the network ---- *)
Section Net.
Context {text : Type} (up_text : nat -> msg -> text) (up_read : text -> incoming) (down_text : msg -> text) (down_read : nat -> text -> incoming)
  {P : Type} (react : P -> msg -> P * list msg) (ssh : shape) (srv : nat) (csh : shape) (cli ren : nat).
Hypothesis is_ren : exists a, nth_error (actors csh) ren = Some a /\ state_consumer a = true.
Notation step := (NetModel.step text up_text up_read down_text down_read P react ssh srv csh cli).
Notation run := (NetModel.run text up_text up_read down_text down_read P react ssh srv csh cli).
Notation net := (NetModel.net text P).
Notation noted_in := (noted_in down_read csh ren).
Notation noted_at := (noted_at up_text up_read down_text down_read react ssh srv csh cli ren).

Definition stores_at (n : net) (i : nat) : nat -> table :=
  match nth_error (members _ _ n) i with Some c => stores (view _ c) | None => fun _ => [] end.

Lemma client_follows i c m : exists st', view _ (client_does text up_text csh cli i m c) = st' /\
  follows ren (view _ c) (snd (client_push csh (view _ c) m)) st'.
Proof.
  unfold client_does. destruct (client_push csh (view _ c) m) as [st' e] eqn:E. exists st'. split; [reflexivity|].
  cbn [snd]. eapply push_follows; [exact is_ren| |exact E]. intros q x d [].
Qed.
Lemma hear_view f c : view _ (hear text down_text f c) = view _ c.
Proof. unfold hear. now destruct (at_server _ c). Qed.

Lemma step_noted n l n' i : step n l = Some n' ->
  forall p, val (last (noted_in n i l) (stores_at n i) (ptype p)) p = val (stores_at n' i (ptype p)) p.
Proof.
  intros E p. unfold stores_at. destruct (nth_error (members _ _ n') i) as [c'|] eqn:H'.
  2:{ destruct (nth_error (members _ _ n) i) eqn:H.
      - pose proof (step_length up_text up_read down_text down_read react ssh srv csh cli (fun _ => False) (fun _ => False) n l n' E). apply nth_error_None in H'.
        assert (i < length (members text P n))%nat by (apply nth_error_Some; congruence). lia.
      - unfold PagModel.noted_in. now rewrite H. }
  destruct (step_members up_text up_read down_text down_read react ssh srv csh cli (fun _ => False) (fun _ => False) n l n' E i c' H') as [(c & H & M)|(-> & -> & ->)].
  2:{ unfold PagModel.noted_in. assert (X : nth_error (members _ _ n) (length (members _ _ n)) = None) by now apply nth_error_None. now rewrite X. }
  rewrite H. unfold PagModel.noted_in. rewrite H.
  destruct M; cbn [last]; rewrite ?hear_view, ?Nat.eqb_refl; try reflexivity.
  - assert (X : forall j, target l = Some j -> Nat.eqb j i = false) by (intros j Y; apply Nat.eqb_neq; congruence).
    destruct l; cbn in X |- *; rewrite ?(X _ eq_refl); reflexivity.
  - destruct (client_follows i c m) as (st' & -> & F). apply F.
  - rewrite H0, H1. destruct (client_follows i (with_got _ m (with_inbox _ r c)) m) as (st' & -> & F). apply F.
  - rewrite H0, H1. reflexivity.
  - rewrite H0, H1. reflexivity.
  - rewrite H0, H1. reflexivity.
Qed.

Lemma run_noted ls : forall n n' i, run n ls = Some n' ->
  forall p, val (last (noted_at n i ls) (stores_at n i) (ptype p)) p = val (stores_at n' i (ptype p)) p.
Proof.
  induction ls as [|l ls IH]; intros n n' i E p; cbn in E; [now injection E as <-|].
  cbn [PagModel.noted_at]. destruct (step n l) as [n1|] eqn:S; [|discriminate]. specialize (IH _ _ i E p). pose proof (step_noted _ _ _ i S p) as F.
  rewrite last_app. destruct (noted_at n1 i ls) as [|x r] eqn:Q; [cbn in *; congruence|].
  rewrite <- IH. erewrite last_any. reflexivity.
Qed.

(* a registered member stays, and does not have to be registered again *)
Lemma run_known i ls : forall n n' c, run n ls = Some n' -> nth_error (members _ _ n) i = Some c -> at_server _ c <> Coming ->
  exists c', nth_error (members _ _ n') i = Some c' /\ at_server _ c' <> Coming.
Proof.
  induction ls as [|l ls IH]; intros n n' c E H A; cbn in E; [injection E as <-; eauto|].
  destruct (step n l) as [n1|] eqn:S; [|discriminate].
  pose proof (step_length up_text up_read down_text down_read react ssh srv csh cli (fun _ => False) (fun _ => False) n l n1 S) as L.
  assert (X : (i < length (members text P n))%nat) by (apply nth_error_Some; congruence).
  destruct (nth_error (members _ _ n1) i) as [c1|] eqn:H1; [|apply nth_error_None in H1; lia].
  destruct (step_members up_text up_read down_text down_read react ssh srv csh cli (fun _ => False) (fun _ => False) n l n1 S i c1 H1) as [(y & Y & M)|(_ & -> & _)]; [|lia].
  rewrite H in Y. injection Y as <-. eapply IH; eauto. eapply moves_since; eauto.
Qed.
Lemma register_known i l1 l2 n0 n : run n0 (l1 ++ Register _ i :: l2) = Some n ->
  exists n1 c, run n0 l1 = Some n1 /\ nth_error (members _ _ n) i = Some c /\ at_server _ c <> Coming.
Proof.
  rewrite (run_app up_text up_read down_text down_read react ssh srv csh cli). destruct (run n0 l1) as [n1|]; [|discriminate]. cbn [NetModel.run].
  destruct (step n1 (Register _ i)) as [n2|] eqn:S; [|discriminate]. intros E.
  cbn in S. destruct (nth_error (members _ _ n1) i) as [c1|] eqn:H1; [|discriminate]. destruct (at_server _ c1) eqn:A; try discriminate.
  destruct (crashed _ _ n1); [discriminate|]. injection S as <-.
  destruct (run_known i l2 _ _ (with_link _ Known (length (told _ _ n1)) c1) E) as (c & C1 & C2); [|discriminate|eauto].
  cbn. rewrite nth_set_at, Nat.eqb_refl, H1. reflexivity.
Qed.
End Net.
