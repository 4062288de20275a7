From Verif Require Import Base StoreModel StoreSpec StoreProofs NetModel NetSpec.

Lemma ignores_no : ignores = no_foreign.
Proof. reflexivity. Qed.

(* ---- values ---- *)
Definition val (s : table) (p : path) : option payload := match find s p with Some (SValue v) => Some v | _ => None end.
Definition pres (e : entry) : option payload := match e with Present v => Some v | _ => None end.
Definition vstep (p : path) (x : option payload) (m : msg) : option payload :=
  if about p m then
    match mkind m with
    | DownDelete => None
    | DownCreate | DownUpdate => Some (payload_of m)
    | DownRead => match x with None => Some (payload_of m) | _ => x end
    | _ => x
    end
  else x.

Lemma shown_val st p : shown st p = visible (val (st (ptype p)) p).
Proof. unfold shown, val, map_match. destruct (find _ _) as [[|v]|]; reflexivity. Qed.

Lemma val_apply s m p : val (fst (map_apply s m)) p = vstep p (val s p) m.
Proof.
  unfold vstep, about, map_apply, val. destruct (path_of m) as [q|]; [|reflexivity].
  destruct (path_eqb p q) eqn:E.
  - apply path_eqb_spec in E. subst q. destruct (mkind m); cbn [fst]; auto.
    + destruct (find s p) as [[|v]|] eqn:F; rewrite ?F, ?find_assign, ?path_eqb_refl; auto.
    + now rewrite find_assign, path_eqb_refl.
    + unfold index. destruct (find s p) as [[|v]|] eqn:F; cbn [fst]; rewrite ?F, ?find_assign, ?path_eqb_refl; auto.
    + now rewrite find_assign, path_eqb_refl.
    + now rewrite find_erase, path_eqb_refl.
  - destruct (mkind m); cbn [fst]; auto.
    + destruct (find s q); auto. now rewrite find_assign, E.
    + now rewrite find_assign, E.
    + unfold index. destruct (find s q) as [[|v]|]; cbn [fst]; rewrite ?find_assign, ?E; auto.
    + now rewrite find_assign, E.
    + now rewrite find_erase, E.
Qed.

Lemma entry_val p h m : pres (entry_of p (h ++ [m])) = vstep p (pres (entry_of p h)) m.
Proof.
  rewrite entry_snoc. unfold vstep. destruct (about p m); auto. unfold entry_next. destruct (mkind m); auto; destruct (entry_of p h); auto.
Qed.
Lemma entry_vals p l : forall h, pres (entry_of p (h ++ l)) = fold_left (vstep p) l (pres (entry_of p h)).
Proof.
  induction l as [|m l IH]; intros h; cbn; [now rewrite app_nil_r|].
  rewrite <- entry_val, <- IH, <- app_assoc. reflexivity.
Qed.

Lemma vstep_none p x m : path_of m = None -> vstep p x m = x.
Proof. intros H. unfold vstep, about. now rewrite H. Qed.
Lemma vstep_up p x m : is_upstream m = true -> vstep p x m = x.
Proof. unfold vstep, is_upstream. destruct (about p m); auto. destruct (mkind m); auto; discriminate. Qed.

(* ---- one context ---- *)
Definition cons_at (i : nat) (e : list (event table)) : list msg :=
  flat_map (fun x => match x with ToConsumer j m _ => if Nat.eqb j i then [m] else [] | _ => [] end) e.
Definition prods_at (i : nat) (e : list (event table)) : list msg :=
  flat_map (fun x => match x with ToProducer j m _ => if Nat.eqb j i then [m] else [] | _ => [] end) e.

Lemma cons_app i a b : cons_at i (a ++ b) = cons_at i a ++ cons_at i b.
Proof. apply flat_map_app. Qed.
Lemma prods_app i a b : prods_at i (a ++ b) = prods_at i a ++ prods_at i b.
Proof. apply flat_map_app. Qed.
Lemma prods_none i e : existsb is_to_producer e = false -> prods_at i e = [].
Proof.
  induction e as [|x e IH]; auto. cbn. intros H. apply orb_false_iff in H as [H1 H2]. fold (prods_at i e). rewrite (IH H2).
  destruct x; auto. discriminate.
Qed.

Lemma cons_of_map i m x l : NoDup l -> cons_at i (map (fun j => ToConsumer j m x) l) = if in_dec Nat.eq_dec i l then [m] else [].
Proof.
  induction l as [|j l IH]; intros H; [reflexivity|]. inversion H as [|? ? Hn Hd]. subst. cbn [map cons_at flat_map].
  fold (cons_at i (map (fun j => ToConsumer j m x) l)). rewrite (IH Hd).
  destruct (Nat.eqb j i) eqn:E.
  - apply Nat.eqb_eq in E. subst j. destruct (in_dec Nat.eq_dec i (i :: l)) as [|N]; [|exfalso; apply N; now left].
    destruct (in_dec Nat.eq_dec i l); [contradiction|]. reflexivity.
  - apply Nat.eqb_neq in E. destruct (in_dec Nat.eq_dec i l), (in_dec Nat.eq_dec i (j :: l)) as [y|y]; auto.
    + exfalso. apply y. now right.
    + destruct y; [congruence|contradiction].
Qed.

Lemma cons_notes i (sh : shape) {P} (st : state table P) p : cons_at i (notify_state_consumers table P sh st p) = [].
Proof. rewrite notify_indices. induction (indices _ _); auto. Qed.
Lemma prods_notes i (sh : shape) {P} (st : state table P) p : prods_at i (notify_state_consumers table P sh st p) = [].
Proof. rewrite notify_indices. induction (indices _ _); auto. Qed.
Lemma prods_down i (sh : shape) {P} (st : state table P) m : prods_at i (propagate_downstream table P sh st m) = [].
Proof. rewrite down_indices. induction (indices _ _); auto. Qed.

Section One.
Context {P : Type} (react : P -> msg -> P * list msg) (sh : shape) (i : nat).
Hypothesis is_consumer : exists a, nth_error (actors sh) i = Some a /\ consumer a = true.
Notation push_down := (push_down table map_apply map_static_false no_foreign P sh).
Notation push_all_down := (push_all_down table map_apply map_static_false no_foreign P sh).
Notation prop_up := (propagate_upstream table map_apply map_static_false no_foreign P react sh).
Notation push := (push table map_apply map_static_false map_match no_foreign P react sh).

Lemma index_in : In i (indices consumer (actors sh)).
Proof.
  destruct is_consumer as (a & H1 & H2). unfold indices. apply filter_In. rewrite H1. split; auto.
  apply in_seq. split; [lia|]. cbn. apply nth_error_Some. congruence.
Qed.
Lemma cons_down (st : state table P) m : cons_at i (propagate_downstream table P sh st m) = [m].
Proof.
  rewrite down_indices, cons_of_map.
  - destruct (in_dec _ _ _) as [|N]; auto. exfalso. apply N, index_in.
  - apply NoDup_filter, seq_NoDup.
Qed.

Definition vals (st : state table P) (p : path) : option payload := val (stores st (ptype p)) p.

Lemma about_type p m : about p m = true -> path_type m = ptype p.
Proof.
  unfold about, path_type, path_of. destruct (get_path m) as [[[q|]| | | | |]|]; try discriminate.
  intros H. apply path_eqb_spec in H. now subst.
Qed.

Lemma set_vals st t s p : vals (set_store table P st t s) p = if Nat.eqb (ptype p) t then val s p else vals st p.
Proof. unfold vals. cbn. now destruct (Nat.eqb (ptype p) t). Qed.

Lemma apply_vals st m p :
  vals (set_store table P st (path_type m) (fst (map_apply (stores st (path_type m)) m))) p = vstep p (vals st p) m.
Proof.
  rewrite set_vals. destruct (Nat.eqb (ptype p) (path_type m)) eqn:E.
  - apply Nat.eqb_eq in E. rewrite val_apply. unfold vals. now rewrite E.
  - unfold vstep. destruct (about p m) eqn:A; auto. apply about_type in A. rewrite A, Nat.eqb_refl in E. discriminate.
Qed.

Lemma tell_vals m ls st : exists st', tell_listeners table no_foreign P sh st m ls = (st', []) /\ producers st' = producers st /\ forall p, vals st' p = vals st p.
Proof.
  destruct (tell_none sh m ls st) as (st' & H1 & H2 & H3). exists st'. repeat split; auto. intros p. unfold vals. now rewrite H3.
Qed.

Lemma push_down_vals st m st' e : push_down st m = (st', e) ->
  (forall p, vals st' p = vstep p (vals st p) m) /\
  cons_at i e = match path_of m with Some _ => [m] | None => [] end /\ forall j, prods_at j e = [].
Proof.
  intros E. pose proof (push_down_none _ _ _ _ _ _ _ _ E) as N. unfold StoreModel.push_down in E.
  destruct (path_of m) as [q|] eqn:Hq.
  2:{ injection E as <- <-. repeat split; auto. intros p. now rewrite vstep_none. }
  destruct (apply_and_notify _ _ _ _ _ _ _ _) as [st1 e1] eqn:E1.
  destruct (tell_vals m (listeners_of sh (path_type m)) st1) as (st2 & E2 & _ & V). rewrite E2 in E. injection E as <- <-.
  split; [|split; [|intros j; now apply prods_none]].
  - intros p. rewrite V. unfold apply_and_notify in E1. destruct (map_static_false m) eqn:S.
    + injection E1 as <- <-. now rewrite vstep_up.
    + destruct (map_apply (stores st (path_type m)) m) as [s1 ch] eqn:Em. injection E1 as <- <-.
      rewrite <- apply_vals, Em. reflexivity.
  - rewrite !cons_app, cons_down. replace (cons_at i e1) with (@nil msg); [reflexivity|].
    unfold apply_and_notify in E1. destruct (map_static_false m); [injection E1 as <- <-; reflexivity|].
    destruct (map_apply _ _) as [s1 ch]. injection E1 as <- <-. destruct ch; auto. now rewrite cons_notes.
Qed.

Lemma push_all_vals ms : forall st st' e, push_all_down st ms = (st', e) ->
  (forall p, vals st' p = fold_left (vstep p) (cons_at i e) (vals st p)) /\
  (forall d, In d (cons_at i e) -> In d ms) /\ forall j, prods_at j e = [].
Proof.
  induction ms as [|m ms IH]; intros st st' e; cbn; [intros E; injection E as <- <-; auto|].
  destruct (push_down st m) as [st1 e1] eqn:E1. destruct (push_all_down st1 ms) as [st2 e2] eqn:E2.
  intros E. injection E as <- <-. destruct (push_down_vals _ _ _ _ E1) as (A1 & A2 & A3). destruct (IH _ _ _ E2) as (B1 & B2 & B3).
  split; [|split].
  - intros p. rewrite B1, A1, cons_app, fold_left_app, A2. destruct (path_of m) eqn:Hp; cbn; auto. now rewrite vstep_none.
  - intros d. rewrite cons_app, in_app_iff, A2. intros [H|H]; auto. destruct (path_of m); [|destruct H]. destruct H as [<-|[]]. now left.
  - intros j. now rewrite prods_app, A3, B3.
Qed.

Lemma prop_up_vals st m st' e : prop_up st m = (st', e) ->
  (forall p, vals st' p = fold_left (vstep p) (cons_at i e) (vals st p)) /\
  (forall d, In d (cons_at i e) -> In d (snd (react (producers st (producer_of sh (path_type m))) m))) /\
  (forall j, prods_at j e = if Nat.eqb (producer_of sh (path_type m)) j then [m] else []).
Proof.
  unfold propagate_upstream. destruct (react _ _) as [p1 an]. destruct (push_all_down _ _) as [st1 e1] eqn:E1.
  intros E. injection E as <- <-. destruct (push_all_vals _ _ _ _ E1) as (A & B & C). split; [|split].
  - intros p. rewrite A. reflexivity.
  - exact B.
  - intros j. cbn. fold (prods_at j e1). rewrite C, app_nil_r. reflexivity.
Qed.

Definition up_prods (m : msg) : list msg := match mkind m, path_of m with UpRead, Some _ => [] | _, _ => [m] end.

Lemma push_vals st m st' e : push st m = (st', e) ->
  (forall p, vals st' p = fold_left (vstep p) (cons_at i e) (vals st p)) /\
  (forall d, In d (cons_at i e) -> is_upstream d = false \/ exists p x, In d (snd (react p x))) /\
  (is_upstream m = true -> forall j, prods_at j e = if Nat.eqb (producer_of sh (path_type m)) j then up_prods m else []) /\
  (is_upstream m = false -> (forall j, prods_at j e = []) /\ forall p, vals st' p = vstep p (vals st p) m).
Proof.
  unfold StoreModel.push. destruct (is_upstream m) eqn:U.
  2:{ intros E. destruct (push_down_vals _ _ _ _ E) as (A & B & C). split; [|split; [|split; [discriminate|auto]]].
      - intros p. rewrite A, B. destruct (path_of m) eqn:Hp; auto. now rewrite vstep_none.
      - intros d. rewrite B. destruct (path_of m); [|intros []]. intros [<-|[]]. now left. }
  unfold StoreModel.push_up, up_prods. destruct (path_of m) as [q|] eqn:Hq.
  2:{ intros E. destruct (prop_up_vals _ _ _ _ E) as (A & B & C). split; [auto|split; [|split; [|discriminate]]].
      - intros d H. right. eexists _, _. apply B, H.
      - intros _ j. rewrite C. now destruct (mkind m). }
  destruct (is_read m) eqn:R.
  - assert (K : mkind m = UpRead) by (unfold is_upstream, is_read in *; destruct (mkind m); congruence).
    unfold push_read. rewrite set_store_same, (push_read_outcome _ _ _ Hq K). rewrite K. intros E.
    set (st1 := set_store table P st (path_type m) (fst (map_apply (stores st (path_type m)) m))) in *.
    assert (V1 : forall p, vals st1 p = vals st p) by (intros p; unfold st1; rewrite apply_vals; now apply vstep_up).
    destruct (tell_vals m (listeners_of sh (path_type m)) st1) as (st2 & E2 & _ & V2).
    destruct (find (stores st (path_type m)) q) as [[|v]|] eqn:F.
    + rewrite E2 in E. injection E as <- <-. split; [intros p; rewrite V2; apply V1|]. split; [intros d []|]. split; [|discriminate].
      intros _ j. cbn. now destruct (Nat.eqb _ _).
    + unfold to_downstream_read in E. rewrite K, E2 in E. injection E as <- <-.
      set (d := mk_msg DownRead (mtype m) [or_none (get_path m); uid_or_none m; FPayload v]) in *.
      rewrite app_nil_r. split; [|split; [|split; [|discriminate]]].
      * intros p. rewrite cons_down, V2, V1. cbn. unfold vstep. destruct (about p d) eqn:A; auto. cbn.
        assert (Q : path_of d = Some q).
        { rewrite <- Hq. unfold path_of, d. unfold get_path at 1, at_c at 1. cbn [storage nth_error]. now destruct (get_path m) as [[]|]. }
        unfold about in A. rewrite Q in A. apply path_eqb_spec in A. subst q. unfold vals, val.
        assert (T : path_type m = ptype p) by (apply about_type; unfold about; rewrite Hq; apply path_eqb_refl).
        rewrite <- T, F. reflexivity.
      * intros x. rewrite cons_down. intros [<-|[]]. now left.
      * intros _ j. rewrite prods_down. now destruct (Nat.eqb _ _).
    + rewrite E2 in E. injection E as <- <-. split; [intros p; rewrite V2; apply V1|]. split; [intros d []|]. split; [|discriminate].
      intros _ j. cbn. now destruct (Nat.eqb _ _).
  - unfold apply_and_notify. rewrite (U : map_static_false m = true). destruct (prop_up st m) as [st1 e1] eqn:E1. cbv beta iota.
    destruct (tell_vals m (listeners_of sh (path_type m)) st1) as (st2 & E2 & _ & V). rewrite E2. intros E. injection E as <- <-.
    destruct (prop_up_vals _ _ _ _ E1) as (A & B & C). rewrite app_nil_r. cbn [app].
    split; [intros p; now rewrite V, A|]. split; [|split; [|discriminate]].
    + intros d H. right. eexists _, _. apply B, H.
    + intros _ j. rewrite C. assert (mkind m <> UpRead) by (unfold is_read in R; destruct (mkind m); congruence). destruct (mkind m); congruence.
Qed.
End One.

(* a context whose producers answer nothing *)
Section Quiet.
Context (sh : shape).
Notation push := (push table map_apply map_static_false map_match no_foreign unit (fun u _ => (u, [])) sh).

Lemma quiet_up st m st' e : push st m = (st', e) -> is_upstream m = true ->
  (forall p, vals st' p = vals st p) /\ forall j, prods_at j e = if Nat.eqb (producer_of sh (path_type m)) j then up_prods m else [].
Proof.
  unfold StoreModel.push. intros E U. rewrite U in E. unfold StoreModel.push_up, up_prods in *.
  assert (PU : forall st1, exists st2, propagate_upstream table map_apply map_static_false no_foreign unit (fun u _ => (u, [])) sh st1 m =
      (st2, [ToProducer (producer_of sh (path_type m)) m (stores st1)]) /\ forall p, vals st2 p = vals st1 p).
  { intros st1. unfold propagate_upstream. cbn. eexists. split; [reflexivity|]. reflexivity. }
  destruct (path_of m) as [q|] eqn:Hq.
  2:{ destruct (PU st) as (st2 & E2 & V). rewrite E2 in E. injection E as <- <-. split; auto. intros j. cbn. rewrite app_nil_r. now destruct (mkind m). }
  destruct (is_read m) eqn:R.
  - assert (K : mkind m = UpRead) by (unfold is_upstream, is_read in *; destruct (mkind m); congruence).
    unfold push_read in E. rewrite set_store_same, (push_read_outcome _ _ _ Hq K) in E. rewrite K.
    set (st1 := set_store table unit st (path_type m) (fst (map_apply (stores st (path_type m)) m))) in *.
    assert (V1 : forall p, vals st1 p = vals st p) by (intros p; unfold st1; rewrite apply_vals; now apply vstep_up).
    destruct (tell_vals sh m (listeners_of sh (path_type m)) st1) as (st2 & E2 & _ & V2).
    destruct (find (stores st (path_type m)) q) as [[|v]|] eqn:F.
    + rewrite E2 in E. injection E as <- <-. split; [intros p; rewrite V2; apply V1|]. intros j. cbn. now destruct (Nat.eqb _ _).
    + unfold to_downstream_read in E. rewrite K, E2 in E. injection E as <- <-.
      split; [intros p; rewrite V2; apply V1|]. intros j. rewrite app_nil_r, prods_down. now destruct (Nat.eqb _ _).
    + rewrite E2 in E. injection E as <- <-. split; [intros p; rewrite V2; apply V1|]. intros j. cbn. now destruct (Nat.eqb _ _).
  - unfold apply_and_notify in E. rewrite (U : map_static_false m = true) in E. destruct (PU st) as (st1 & E1 & V1). rewrite E1 in E. cbv beta iota in E.
    destruct (tell_vals sh m (listeners_of sh (path_type m)) st1) as (st2 & E2 & _ & V). rewrite E2 in E. injection E as <- <-.
    split; [intros p; now rewrite V, V1|]. intros j. cbn. rewrite app_nil_r.
    assert (mkind m <> UpRead) by (unfold is_read in R; destruct (mkind m); congruence). destruct (mkind m); congruence.
Qed.

Lemma quiet_down st m st' e : push st m = (st', e) -> is_upstream m = false ->
  (forall p, vals st' p = vstep p (vals st p) m) /\ forall j, prods_at j e = [].
Proof.
  unfold StoreModel.push. intros E U. rewrite U in E.
  split; [|intros j; eapply prods_none, push_down_none, E].
  intros p. unfold StoreModel.push_down in E. destruct (path_of m) as [q|] eqn:Hq.
  2:{ injection E as <- <-. now rewrite vstep_none. }
  destruct (apply_and_notify _ _ _ _ _ _ _ _) as [st1 e1] eqn:E1.
  destruct (tell_vals sh m (listeners_of sh (path_type m)) st1) as (st2 & E2 & _ & V). rewrite E2 in E. injection E as <- <-.
  rewrite V. unfold apply_and_notify in E1. rewrite (U : map_static_false m = false) in E1.
  destruct (map_apply (stores st (path_type m)) m) as [s1 ch] eqn:Em. injection E1 as <- <-. rewrite <- apply_vals, Em. reflexivity.
Qed.
End Quiet.

(* ---- the network ---- *)
Lemma nth_set_at {A} (l : list A) : forall i x j,
  nth_error (set_at l i x) j = if Nat.eqb i j then match nth_error l j with Some _ => Some x | None => None end else nth_error l j.
Proof.
  induction l as [|y l IH]; intros i x j; cbn.
  - destruct (Nat.eqb i j); now destruct j.
  - destruct i, j; cbn; auto.
Qed.
Lemma length_set_at {A} (l : list A) : forall i x, length (set_at l i x) = length l.
Proof. induction l; intros [|i] x; cbn; auto. Qed.

Definition map_some {A B} (f : A -> option B) (l : list A) : list B := flat_map (fun x => match f x with Some y => [y] | None => [] end) l.
Section Net.
Context {text : Type} (up_text : nat -> msg -> text) (up_read : text -> incoming) (down_text : msg -> text) (down_read : nat -> text -> incoming)
  {P : Type} (react : P -> msg -> P * list msg) (ssh : shape) (srv : nat) (csh : shape) (cli : nat).
Hypothesis up_codec : forall i m, is_upstream m = true -> up_read (up_text i m) = Message m.
(* what is read of the messages that survive the way down; on the text of any other the reader throws *)
Variable arrives : nat -> msg -> option msg.
Hypothesis down_codec : forall i m, is_upstream m = false -> down_read i (down_text m) = match arrives i m with Some m' => Message m' | None => Thrown end.
Hypothesis arrives_down : forall i m m', is_upstream m = false -> arrives i m = Some m' -> is_upstream m' = false.
Hypothesis answers_down : forall q m d, In d (snd (react q m)) -> is_upstream d = false.
Hypothesis srv_consumer : exists a, nth_error (actors ssh) srv = Some a /\ consumer a = true.
Notation client := (NetModel.client text).
Notation net := (NetModel.net text P).
Notation step := (NetModel.step text up_text up_read down_text down_read P react ssh srv csh cli).
Notation run := (NetModel.run text up_text up_read down_text down_read P react ssh srv csh cli).
Notation client_does := (NetModel.client_does text up_text csh cli).
Notation hub_does := (NetModel.hub_does text down_text P react ssh srv).
Notation hear := (NetModel.hear text down_text).

(* the way down *)
Definition DInv (i : nat) (t : list msg) (c : client) : Prop :=
  ruined _ c = false /\ (since _ c <= length t)%nat /\ (at_server _ c = Coming -> inbox _ c = [] /\ got _ c = [] /\ since _ c = 0%nat) /\
  exists rest later, inbox _ c = map down_text rest /\ (exists heard, got _ c = map_some (arrives i) heard /\ heard ++ rest ++ later = skipn (since _ c) t) /\
    (at_server _ c = Known -> later = []).
(* the way up *)
Definition UInv (s : list (option nat * msg)) (i : nat) (c : client) : Prop :=
  exists rest later, outbox _ c = map (up_text i) rest /\ by_client i s ++ rest ++ later = asked _ c /\ (alive _ c = true -> later = []) /\ Forall (fun m => is_upstream m = true) rest.
Definition VInv (c : client) : Prop := forall p, vals (view _ c) p = pres (entry_of p (got _ c)).

Variables (uok vok : nat -> Prop).
Record PreInv (s : list (option nat * msg)) (n : net) : Prop := {
  inv_down : Forall (fun m => is_upstream m = false) (told _ _ n);
  inv_hub : forall p, vals (hub _ _ n) p = pres (entry_of p (told _ _ n));
  inv_served : forall i, (length (members _ _ n) <= i)%nat -> by_client i s = [];
  inv_d : forall i c, nth_error (members _ _ n) i = Some c -> DInv i (told _ _ n) c;
  inv_u : forall i c, nth_error (members _ _ n) i = Some c -> uok i -> UInv s i c;
  inv_v : forall i c, nth_error (members _ _ n) i = Some c -> vok i -> VInv c }.
Definition Inv (n : net) : Prop := PreInv (served _ _ n) n.

Lemma map_some_all {A} (l : list A) : map_some (fun x => Some x) l = l.
Proof. unfold map_some. induction l; cbn; congruence. Qed.
Lemma map_some_app {A B} (f : A -> option B) l k : map_some f (l ++ k) = map_some f l ++ map_some f k.
Proof. unfold map_some. now rewrite flat_map_app. Qed.
Lemma skipn_grow {A} (l f : list A) n : (n <= length l)%nat -> skipn n (l ++ f) = skipn n l ++ f.
Proof. clear up_codec arrives_down down_codec arrives. intros H. rewrite skipn_app. replace (n - length l)%nat with 0%nat by lia. reflexivity. Qed.

Lemma hear_d i t f c : DInv i t c -> DInv i (t ++ f) (hear f c).
Proof. clear up_codec arrives_down down_codec.
  intros (D1 & D2 & D3 & rest & later & D4 & (heard & D0 & D5) & D6). unfold NetModel.hear. destruct (at_server _ c) eqn:A.
  - split; [auto|]. split; [rewrite app_length; lia|]. split; [auto|]. exists rest, (later ++ f). split; auto. split; [|congruence].
    exists heard. split; auto. rewrite skipn_grow by auto. rewrite <- D5, !app_assoc. reflexivity.
  - split; [auto|]. cbn. split; [rewrite app_length; lia|]. split; [congruence|]. exists (rest ++ f), []. split; [now rewrite map_app, D4|].
    split; auto. exists heard. split; auto. rewrite skipn_grow by auto. rewrite <- D5, (D6 eq_refl), !app_nil_r, app_assoc. reflexivity.
  - split; [auto|]. split; [rewrite app_length; lia|]. split; [congruence|]. exists rest, (later ++ f). split; auto. split; [|congruence].
    exists heard. split; auto. rewrite skipn_grow by auto. rewrite <- D5, !app_assoc. reflexivity.
Qed.
Lemma hear_u s i f c : UInv s i c -> UInv s i (hear f c).
Proof. unfold UInv, NetModel.hear. now destruct (at_server _ c). Qed.
Lemma hear_v f c : VInv c -> VInv (hear f c).
Proof. unfold VInv, NetModel.hear. now destruct (at_server _ c). Qed.

Lemma by_snoc i s who m : by_client i (s ++ [(who, m)]) = by_client i s ++ match who with Some j => if Nat.eqb i j then [m] else [] | None => [] end.
Proof. unfold by_client. rewrite flat_map_app. cbn. now rewrite app_nil_r. Qed.

Lemma hub_told n who m : exists f st, hub_does who m n =
    {| hub := st; crashed := crashed _ _ n; told := told _ _ n ++ f; served := served _ _ n ++ [(who, m)]; members := map (hear f) (members _ _ n) |} /\
    (forall p, vals st p = fold_left (vstep p) f (vals (hub _ _ n) p)) /\ Forall (fun d => is_upstream d = false) f.
Proof.
  unfold NetModel.hub_does, hub_push. change ignores with no_foreign.
  destruct (push _ _ _ _ _ _ _ _ _ _) as [st e] eqn:E. destruct (push_vals react ssh srv srv_consumer _ _ _ _ E) as (A & B & _).
  exists (for_server srv e), st. split; [reflexivity|]. split; [exact A|].
  apply Forall_forall. intros d Hd. destruct (B d Hd) as [H|(q & x & H)]; auto. eapply answers_down; eauto.
Qed.

Lemma inv_hub_does n who m : PreInv (served _ _ n ++ [(who, m)]) n -> Inv (hub_does who m n).
Proof.
  intros I. destruct (hub_told n who m) as (f & st & -> & A & B). constructor; cbn.
  - apply Forall_app. split; [apply I|auto].
  - intros p. now rewrite A, entry_vals, (inv_hub _ _ I).
  - rewrite map_length. exact (inv_served _ _ I).
  - intros i c. rewrite nth_error_map. destruct (nth_error _ i) as [c0|] eqn:E; [|discriminate]. intros H. injection H as <-.
    apply hear_d. eapply inv_d; eauto.
  - intros i c. rewrite nth_error_map. destruct (nth_error _ i) as [c0|] eqn:E; [|discriminate]. intros H U. injection H as <-.
    apply hear_u. eapply inv_u; eauto.
  - intros i c. rewrite nth_error_map. destruct (nth_error _ i) as [c0|] eqn:E; [|discriminate]. intros H U. injection H as <-.
    apply hear_v. eapply inv_v; eauto.
Qed.

Lemma inv_member n i c c' s' : Inv n -> nth_error (members _ _ n) i = Some c ->
  (forall j, j <> i -> by_client j s' = by_client j (served _ _ n)) ->
  DInv i (told _ _ n) c' -> (uok i -> UInv s' i c') -> (vok i -> VInv c') -> PreInv s' (with_member _ _ n i c').
Proof. clear up_codec arrives_down down_codec.
  intros I Hc Hs Hd Hu Hv.
  assert (L : (i < length (members _ _ n))%nat) by (apply nth_error_Some; congruence).
  constructor; cbn.
  - apply I.
  - apply I.
  - rewrite length_set_at. intros j H. rewrite Hs by lia. now apply (inv_served _ _ I).
  - intros j x. rewrite nth_set_at. destruct (Nat.eqb i j) eqn:E; [|apply (inv_d _ _ I)].
    apply Nat.eqb_eq in E. subst j. rewrite Hc. intros H. now injection H as <-.
  - intros j x. rewrite nth_set_at. destruct (Nat.eqb i j) eqn:E.
    + apply Nat.eqb_eq in E. subst j. rewrite Hc. intros H U. injection H as <-. auto.
    + apply Nat.eqb_neq in E. intros H U. unfold UInv. rewrite Hs by auto. exact (inv_u _ _ I _ _ H U).
  - intros j x. rewrite nth_set_at. destruct (Nat.eqb i j) eqn:E.
    + apply Nat.eqb_eq in E. subst j. rewrite Hc. intros H U. injection H as <-. auto.
    + intros H U. exact (inv_v _ _ I _ _ H U).
Qed.

Lemma inv_same n i c c' : Inv n -> nth_error (members _ _ n) i = Some c ->
  DInv i (told _ _ n) c' -> (uok i -> UInv (served _ _ n) i c') -> (vok i -> VInv c') -> Inv (with_member _ _ n i c').
Proof. intros I Hc. apply (inv_member n i c c' _ I Hc). auto. Qed.

(* the client's context *)
Lemma does_up i m c : is_upstream m = true -> exists st ms, client_does i m c = send _ up_text i c st ms /\
  (forall p, vals st p = vals (view _ c) p) /\ ms = (if Nat.eqb (producer_of csh (path_type m)) cli then up_prods m else []).
Proof.
  intros U. unfold NetModel.client_does, client_push. change ignores with no_foreign.
  destruct (push _ _ _ _ _ _ _ _ _ _) as [st e] eqn:E. destruct (quiet_up csh _ _ _ _ E U) as (A & B).
  exists st, (for_client cli e). split; [reflexivity|]. split; [auto|apply B].
Qed.
Lemma does_down i m c : is_upstream m = false -> exists st, client_does i m c = send _ up_text i c st [] /\
  (forall p, vals st p = vstep p (vals (view _ c) p) m).
Proof.
  intros U. unfold NetModel.client_does, client_push. change ignores with no_foreign.
  destruct (push _ _ _ _ _ _ _ _ _ _) as [st e] eqn:E. destruct (quiet_down csh _ _ _ _ E U) as (A & B).
  exists st. split; auto. replace (for_client cli e) with (prods_at cli e) by reflexivity. now rewrite B.
Qed.
Lemma up_prods_up m : is_upstream m = true -> Forall (fun x => is_upstream x = true) (up_prods m).
Proof. intros U. unfold up_prods. destruct (mkind m); try (constructor; auto); destruct (path_of m); constructor; auto. Qed.

Lemma send_d i t c st ms : DInv i t c -> DInv i t (send _ up_text i c st ms).
Proof. exact (fun H => H). Qed.
Lemma send_u s i c st ms : UInv s i c -> Forall (fun m => is_upstream m = true) ms -> UInv s i (send _ up_text i c st ms).
Proof.
  intros (rest & later & A & B & C & D) F. unfold UInv, send. cbn. destruct (alive _ c) eqn:E.
  - exists (rest ++ ms), []. split; [now rewrite map_app, A|]. split; [rewrite <- B, (C eq_refl), !app_nil_r, app_assoc; auto|].
    split; auto. apply Forall_app; auto.
  - exists rest, (later ++ ms). split; auto. split; [rewrite <- B, !app_assoc; auto|]. split; [discriminate|auto].
Qed.

Lemma does_d i t m c : DInv i t c -> DInv i t (client_does i m c).
Proof. intros H. unfold NetModel.client_does. destruct (client_push _ _ _) as [st e]. now apply send_d. Qed.
Lemma does_u s i m c : UInv s i c -> UInv s i (client_does i m c).
Proof.
  intros H. destruct (is_upstream m) eqn:U.
  - destruct (does_up i m c U) as (st & ms & -> & _ & ->). apply send_u; auto. destruct (Nat.eqb _ _); [now apply up_prods_up|constructor].
  - destruct (does_down i m c U) as (st & -> & _). apply send_u; auto.
Qed.

Definition fine (l : label text) : Prop :=
  match l with
  | Inject _ i _ => ~ uok i
  | Ask _ i m => vok i -> is_upstream m = true
  | _ => True
  end.

Lemma inv_step n l n' : Inv n -> step n l = Some n' -> fine l -> Inv n'.
Proof.
  intros I E F. destruct l as [|i|i m|m|i|i|i t|i|i]; cbn -[client_does] in E.
  - injection E as <-. constructor; cbn; try apply I.
    + rewrite app_length. intros i H. apply (inv_served _ _ I). lia.
    + intros i c H. destruct (Nat.ltb_spec i (length (members _ _ n))).
      * rewrite nth_error_app1 in H by auto. exact (inv_d _ _ I _ _ H).
      * rewrite nth_error_app2 in H by auto. destruct (i - _)%nat as [|[|k]]; cbn in H; try discriminate. injection H as <-.
        split; auto. cbn. split; [lia|]. split; auto. exists [], (told _ _ n). split; auto. split; [exists []; auto|discriminate].
    + intros i c H U. destruct (Nat.ltb_spec i (length (members _ _ n))).
      * rewrite nth_error_app1 in H by auto. exact (inv_u _ _ I _ _ H U).
      * rewrite nth_error_app2 in H by auto. destruct (i - _)%nat as [|[|k]] eqn:Ek; cbn in H; try discriminate. injection H as <-.
        exists [], []. rewrite (inv_served _ _ I) by auto. cbn. auto.
    + intros i c H U. destruct (Nat.ltb_spec i (length (members _ _ n))).
      * rewrite nth_error_app1 in H by auto. exact (inv_v _ _ I _ _ H U).
      * rewrite nth_error_app2 in H by auto. destruct (i - _)%nat as [|[|k]] eqn:Ek; cbn in H; try discriminate. injection H as <-.
        intros p. reflexivity.
  - destruct (nth_error _ i) as [c|] eqn:Hc; [|discriminate]. destruct (at_server _ c) eqn:A; try discriminate.
    destruct (crashed _ _ n); [discriminate|]. injection E as <-.
    destruct (inv_d _ _ I _ _ Hc) as (D1 & D2 & D3 & rest & later & D4 & D5 & D6). destruct (D3 A) as (D7 & D8 & D9).
    apply (inv_same n i c); auto; [|intros U; exact (inv_u _ _ I _ _ Hc U)|intros U; exact (inv_v _ _ I _ _ Hc U)].
    split; auto. cbn. split; [lia|]. split; [discriminate|]. exists [], []. rewrite D7, D8. split; auto. split; auto.
    exists []. split; [reflexivity|]. rewrite skipn_all. reflexivity.
  - destruct (nth_error _ i) as [c|] eqn:Hc; [|discriminate]. destruct (ruined _ c); [discriminate|]. injection E as <-.
    apply (inv_same n i c); auto.
    + apply does_d. exact (inv_d _ _ I _ _ Hc).
    + intros U. apply does_u. exact (inv_u _ _ I _ _ Hc U).
    + intros U. destruct (does_up i m c (F U)) as (st & ms & -> & V & _). intros p. cbn. rewrite V. exact (inv_v _ _ I _ _ Hc U p).
  - destruct (crashed _ _ n); [discriminate|]. injection E as <-. apply inv_hub_does. destruct I as [I1 I2 I3 I4 I5 I6].
    assert (B : forall i, by_client i (served _ _ n ++ [(None, m)]) = by_client i (served _ _ n)) by (intros i; rewrite by_snoc; apply app_nil_r).
    constructor; auto.
    + intros i H. rewrite B. auto.
    + intros i c H U. unfold UInv. rewrite B. exact (I5 _ _ H U).
  - destruct (nth_error _ i) as [c|] eqn:Hc; [|discriminate]. destruct (crashed _ _ n) eqn:Ec; [discriminate|].
    destruct (at_server _ c) eqn:A; try discriminate. destruct (outbox _ c) as [|t r] eqn:O; [discriminate|].
    destruct (up_read t) as [m| | |] eqn:R.
    + injection E as <-. apply inv_hub_does. apply (inv_member n i c); auto.
      * intros j H. cbn [served with_member]. rewrite by_snoc. destruct (Nat.eqb j i) eqn:Ej; [apply Nat.eqb_eq in Ej; congruence|apply app_nil_r].
      * exact (inv_d _ _ I _ _ Hc).
      * intros U. destruct (inv_u _ _ I _ _ Hc U) as (rest & later & U1 & U2 & U3 & U4). rewrite O in U1.
        destruct rest as [|m0 rest]; [discriminate|]. injection U1 as -> ->. inversion U4 as [|? ? U5 U6]. subst.
        rewrite up_codec in R by auto. injection R as <-. exists rest, later. split; auto. split; [|auto].
        cbn [served with_member asked with_outbox]. rewrite by_snoc, Nat.eqb_refl, <- U2, <- app_assoc. reflexivity.
      * intros U. exact (inv_v _ _ I _ _ Hc U).
    + injection E as <-. destruct (inv_d _ _ I _ _ Hc) as (D1 & D2 & D3 & rest & later & D4 & D5 & D6).
      apply (inv_same n i c); auto; [| |intros U; exact (inv_v _ _ I _ _ Hc U)].
      * split; auto. cbn. split; auto. split; [discriminate|]. exists rest, later. repeat split; auto; discriminate.
      * intros U. destruct (inv_u _ _ I _ _ Hc U) as (rest' & later' & U1 & U2 & U3 & U4). rewrite O in U1.
        destruct rest' as [|m0 rest']; [discriminate|]. injection U1 as -> ->. inversion U4 as [|? ? U5 U6]. subst.
        rewrite up_codec in R by auto. discriminate.
    + injection E as <-. assert (X : Inv (with_member _ _ n i (with_outbox _ r c))).
      { apply (inv_same n i c); auto; [exact (inv_d _ _ I _ _ Hc)| |intros U; exact (inv_v _ _ I _ _ Hc U)].
        intros U. destruct (inv_u _ _ I _ _ Hc U) as (rest' & later' & U1 & U2 & U3 & U4). rewrite O in U1.
        destruct rest' as [|m0 rest']; [discriminate|]. injection U1 as -> ->. inversion U4 as [|? ? U5 U6]. subst.
        rewrite up_codec in R by auto. discriminate. }
      destruct X. constructor; auto.
    + injection E as <-. assert (X : Inv (with_member _ _ n i (with_outbox _ r c))).
      { apply (inv_same n i c); auto; [exact (inv_d _ _ I _ _ Hc)| |intros U; exact (inv_v _ _ I _ _ Hc U)].
        intros U. destruct (inv_u _ _ I _ _ Hc U) as (rest' & later' & U1 & U2 & U3 & U4). rewrite O in U1.
        destruct rest' as [|m0 rest']; [discriminate|]. injection U1 as -> ->. inversion U4 as [|? ? U5 U6]. subst.
        rewrite up_codec in R by auto. discriminate. }
      destruct X. constructor; auto.
  - destruct (nth_error _ i) as [c|] eqn:Hc; [|discriminate]. destruct (alive _ c) eqn:A; [|discriminate].
    destruct (inbox _ c) as [|t r] eqn:O; [discriminate|].
    destruct (inv_d _ _ I _ _ Hc) as (D1 & D2 & D3 & rest & later & D4 & (heard & D0 & D5) & D6). rewrite O in D4.
    destruct rest as [|m rest]; [discriminate|]. injection D4 as -> ->.
    assert (Hm : is_upstream m = false).
    { pose proof (inv_down _ _ I) as T. rewrite Forall_forall in T. apply T.
      rewrite <- (firstn_skipn (since _ c) (told _ _ n)), <- D5. apply in_or_app. right. apply in_or_app. right. now left. }
    assert (Hh : forall l, (heard ++ [m]) ++ rest ++ later = l <-> heard ++ (m :: rest) ++ later = l) by (intros l; now rewrite <- app_assoc).
    rewrite down_codec in E by auto. destruct (arrives i m) as [m'|] eqn:Ar; injection E as <-; apply (inv_same n i c); auto.
    + apply does_d. split; auto. cbn. split; auto. split; [intros H; destruct (D3 H) as (H1 & _); congruence|].
      exists rest, later. split; auto. split; auto. exists (heard ++ [m]). split; [rewrite map_some_app, D0; cbn; now rewrite Ar|]. now apply Hh.
    + intros U. apply does_u. exact (inv_u _ _ I _ _ Hc U).
    + intros U. destruct (does_down i m' (with_got _ m' (with_inbox _ (map down_text rest) c)) (arrives_down _ _ _ Hm Ar)) as (st & -> & V). intros p. cbn. rewrite V. cbn.
      rewrite entry_val. f_equal. exact (inv_v _ _ I _ _ Hc U p).
    + split; auto. cbn. split; auto. split; [intros H; destruct (D3 H) as (H1 & _); congruence|].
      exists rest, later. split; auto. split; auto. exists (heard ++ [m]). split; [rewrite map_some_app, D0; cbn; rewrite Ar; symmetry; apply app_nil_r|]. now apply Hh.
    + intros U. exact (inv_u _ _ I _ _ Hc U).
    + intros U. exact (inv_v _ _ I _ _ Hc U).
  - destruct (nth_error _ i) as [c|] eqn:Hc; [|discriminate]. injection E as <-.
    apply (inv_same n i c); auto; [exact (inv_d _ _ I _ _ Hc)| |intros U; exact (inv_v _ _ I _ _ Hc U)].
    intros U. now destruct (F U).
  - destruct (nth_error _ i) as [c|] eqn:Hc; [|discriminate].
    destruct (inv_d _ _ I _ _ Hc) as (D1 & D2 & D3 & rest & later & D4 & D5 & D6).
    assert (X : Inv (with_member _ _ n i (with_link _ Gone (since _ c) c))).
    { apply (inv_same n i c); auto; [|intros U; exact (inv_u _ _ I _ _ Hc U)|intros U; exact (inv_v _ _ I _ _ Hc U)].
      split; auto. cbn. split; auto. split; [discriminate|]. exists rest, later. repeat split; auto; discriminate. }
    destruct (at_server _ c); try discriminate; (destruct (crashed _ _ n); [discriminate|]); injection E as <-; exact X.
  - destruct (nth_error _ i) as [c|] eqn:Hc; [|discriminate]. destruct (alive _ c) eqn:A; [|discriminate]. injection E as <-.
    apply (inv_same n i c); auto; [exact (inv_d _ _ I _ _ Hc)| |intros U; exact (inv_v _ _ I _ _ Hc U)].
    intros U. destruct (inv_u _ _ I _ _ Hc U) as (rest' & later' & U1 & U2 & U3 & U4). exists rest', later'. cbn. repeat split; auto; discriminate.
Qed.

Lemma inv_run ls : forall n n', Inv n -> run n ls = Some n' -> Forall fine ls -> Inv n'.
Proof.
  induction ls as [|l ls IH]; intros n n' I E F; cbn in E; [now injection E as <-|].
  inversion F as [|? ? F1 F2]. subst. destruct (step n l) as [n1|] eqn:S; [|discriminate].
  apply (IH n1 n'); auto. exact (inv_step n l n1 I S F1).
Qed.

Lemma inv_start st : (forall t, stores st t = []) -> Inv (start text P st).
Proof.
  intros H. constructor; cbn; auto.
  - intros p. unfold vals, val. now rewrite H.
  - intros [|i] c; discriminate.
  - intros [|i] c; discriminate.
  - intros [|i] c; discriminate.
Qed.

Lemma run_app a : forall n b, run n (a ++ b) = match run n a with Some n1 => run n1 b | None => None end.
Proof. induction a as [|l a IH]; intros n b; cbn; auto. destruct (step n l); auto. Qed.

(* the member changed by a label *)
Definition target (l : label text) : option nat :=
  match l with
  | Register _ i | Ask _ i _ | Serve _ i | Deliver _ i | Inject _ i _ | DropServer _ i | DropClient _ i => Some i
  | _ => None
  end.

Lemma hub_shape n who m : exists f st, hub_does who m n =
    {| hub := st; crashed := crashed _ _ n; told := told _ _ n ++ f; served := served _ _ n ++ [(who, m)]; members := map (hear f) (members _ _ n) |} /\
    st = fst (hub_push P react ssh (hub _ _ n) m).
Proof.
  unfold NetModel.hub_does. destruct (hub_push _ _ _ _ _) as [st e]. exists (for_server srv e), st. auto.
Qed.

Lemma step_grows n l n' : step n l = Some n' -> exists f, told _ _ n' = told _ _ n ++ f.
Proof.
  intros E. destruct l as [|i|i m|m|i|i|i t|i|i]; cbn -[client_does] in E.
  - injection E as <-. exists []. symmetry. apply app_nil_r.
  - destruct (nth_error _ i) as [c|]; [|discriminate]. destruct (at_server _ c); try discriminate. destruct (crashed _ _ n); [discriminate|].
    injection E as <-. exists []. symmetry. apply app_nil_r.
  - destruct (nth_error _ i) as [c|]; [|discriminate]. destruct (ruined _ c); [discriminate|]. injection E as <-. exists []. symmetry. apply app_nil_r.
  - destruct (crashed _ _ n); [discriminate|]. injection E as <-. destruct (hub_shape n None m) as (f & st & -> & _). exists f. reflexivity.
  - destruct (nth_error _ i) as [c|]; [|discriminate]. destruct (crashed _ _ n); [discriminate|]. destruct (at_server _ c); try discriminate.
    destruct (outbox _ c) as [|t r]; [discriminate|]. destruct (up_read t) as [m| | |]; injection E as <-.
    + destruct (hub_shape (with_member _ _ n i (with_outbox _ r c)) (Some i) m) as (f & st & -> & _). exists f. reflexivity.
    + exists []. symmetry. apply app_nil_r.
    + exists []. symmetry. apply app_nil_r.
    + exists []. symmetry. apply app_nil_r.
  - destruct (nth_error _ i) as [c|]; [|discriminate]. destruct (alive _ c); [|discriminate]. destruct (inbox _ c) as [|t r]; [discriminate|].
    destruct (down_read i t); injection E as <-; exists []; symmetry; apply app_nil_r.
  - destruct (nth_error _ i) as [c|]; [|discriminate]. injection E as <-. exists []. symmetry. apply app_nil_r.
  - destruct (nth_error _ i) as [c|]; [|discriminate]. destruct (at_server _ c); try discriminate; (destruct (crashed _ _ n); [discriminate|]); injection E as <-; exists []; symmetry; apply app_nil_r.
  - destruct (nth_error _ i) as [c|]; [|discriminate]. destruct (alive _ c); [|discriminate]. injection E as <-. exists []. symmetry. apply app_nil_r.
Qed.
Lemma run_grows ls : forall n n', run n ls = Some n' -> exists f, told _ _ n' = told _ _ n ++ f.
Proof.
  induction ls as [|l ls IH]; intros n n' E; cbn in E; [injection E as <-; exists []; symmetry; apply app_nil_r|].
  destruct (step n l) as [n1|] eqn:S; [|discriminate]. destruct (step_grows _ _ _ S) as (f & F). destruct (IH _ _ E) as (g & G).
  exists (f ++ g). now rewrite G, F, app_assoc.
Qed.

(* how one member changes *)
Inductive moves (n : net) : label text -> nat -> client -> client -> Prop :=
| moves_other l i f c : target l <> Some i -> moves n l i c (hear f c)
| moves_register i c : at_server _ c = Coming -> moves n (Register _ i) i c (with_link _ Known (length (told _ _ n)) c)
| moves_ask i m c : moves n (Ask _ i m) i c (client_does i m c)
| moves_serve i t r m f c : outbox _ c = t :: r -> up_read t = Message m -> at_server _ c = Known -> moves n (Serve _ i) i c (hear f (with_outbox _ r c))
| moves_refuse i t r c : outbox _ c = t :: r -> up_read t = Refused -> moves n (Serve _ i) i c (with_link _ Gone (since _ c) (with_outbox _ r c))
| moves_crash i t r c : outbox _ c = t :: r -> (up_read t = Twice \/ up_read t = Thrown) -> moves n (Serve _ i) i c (with_outbox _ r c)
| moves_deliver i t r m c : inbox _ c = t :: r -> down_read i t = Message m -> alive _ c = true -> moves n (Deliver _ i) i c (client_does i m (with_got _ m (with_inbox _ r c)))
| moves_hang i t r c : inbox _ c = t :: r -> down_read i t = Refused -> moves n (Deliver _ i) i c (hang_up _ (with_inbox _ r c))
| moves_ruin i t r c : inbox _ c = t :: r -> down_read i t = Twice -> moves n (Deliver _ i) i c (ruin _ (with_inbox _ r c))
| moves_throw i t r c : inbox _ c = t :: r -> down_read i t = Thrown -> moves n (Deliver _ i) i c (with_inbox _ r c)
| moves_inject i t c : moves n (Inject _ i t) i c (with_outbox _ (outbox _ c ++ [t]) c)
| moves_drop_s i c : moves n (DropServer _ i) i c (with_link _ Gone (since _ c) c)
| moves_drop_c i c : moves n (DropClient _ i) i c (hang_up _ c).

Lemma hear_nil c : hear [] c = c.
Proof. unfold NetModel.hear. destruct c as [v a r l o b k g s]. cbn. destruct l; auto. now rewrite app_nil_r. Qed.

Lemma moves_with n l i c c' : nth_error (members _ _ n) i = Some c -> target l = Some i -> moves n l i c c' ->
  forall j x, nth_error (members _ _ (with_member _ _ n i c')) j = Some x ->
  exists y, nth_error (members _ _ n) j = Some y /\ moves n l j y x.
Proof.
  intros Hc T M j x. cbn. rewrite nth_set_at. destruct (Nat.eqb i j) eqn:E.
  - apply Nat.eqb_eq in E. subst j. rewrite Hc. intros H. injection H as <-. eauto.
  - apply Nat.eqb_neq in E. intros H. exists x. split; auto. rewrite <- (hear_nil x) at 2. apply moves_other. rewrite T. congruence.
Qed.

(* every member after a step comes from a member before it, or is new *)
Lemma step_members n l n' : step n l = Some n' -> forall j x, nth_error (members _ _ n') j = Some x ->
  (exists y, nth_error (members _ _ n) j = Some y /\ moves n l j y x) \/
  (l = Connect _ /\ j = length (members _ _ n) /\ x = new_client _).
Proof. clear up_codec arrives_down down_codec arrives.
  intros E. destruct l as [|i|i m|m|i|i|i t|i|i]; cbn -[client_does] in E.
  - injection E as <-. intros j x H. cbn in H. destruct (Nat.ltb_spec j (length (members _ _ n))).
    + rewrite nth_error_app1 in H by auto. left. exists x. split; auto. rewrite <- (hear_nil x) at 2. apply moves_other. discriminate.
    + rewrite nth_error_app2 in H by auto. destruct (j - _)%nat as [|[|k]] eqn:Ek; cbn in H; try discriminate. injection H as <-.
      right. split; auto. split; auto. lia.
  - destruct (nth_error _ i) as [c|] eqn:Hc; [|discriminate]. destruct (at_server _ c) eqn:A; try discriminate. destruct (crashed _ _ n); [discriminate|].
    injection E as <-. intros j x H. left. eapply moves_with; eauto. now constructor.
  - destruct (nth_error _ i) as [c|] eqn:Hc; [|discriminate]. destruct (ruined _ c); [discriminate|]. injection E as <-.
    intros j x H. left. eapply moves_with; eauto. now constructor.
  - destruct (crashed _ _ n); [discriminate|]. injection E as <-. destruct (hub_shape n None m) as (f & st & -> & _). cbn. intros j x.
    rewrite nth_error_map. destruct (nth_error _ j) as [c|]; [|discriminate]. intros H. injection H as <-. left. exists c. split; auto.
    apply moves_other. discriminate.
  - destruct (nth_error _ i) as [c|] eqn:Hc; [|discriminate]. destruct (crashed _ _ n); [discriminate|]. destruct (at_server _ c) eqn:A; try discriminate.
    destruct (outbox _ c) as [|t r] eqn:O; [discriminate|]. destruct (up_read t) as [m| | |] eqn:R; injection E as <-.
    + destruct (hub_shape (with_member _ _ n i (with_outbox _ r c)) (Some i) m) as (f & st & -> & _). cbn. intros j x.
      rewrite nth_error_map, nth_set_at. destruct (Nat.eqb i j) eqn:E.
      * apply Nat.eqb_eq in E. subst j. rewrite Hc. intros H. injection H as <-. left. exists c. split; auto. eapply moves_serve; eauto.
      * apply Nat.eqb_neq in E. destruct (nth_error _ j) as [y|]; [|discriminate]. intros H. injection H as <-. left. exists y. split; auto.
        apply moves_other. cbn. congruence.
    + intros j x H. left. exact (moves_with n (Serve _ i) i c _ Hc eq_refl (moves_refuse _ _ _ _ _ O R) j x H).
    + intros j x H. left. exact (moves_with n (Serve _ i) i c _ Hc eq_refl (moves_crash _ _ _ _ _ O (or_introl R)) j x H).
    + intros j x H. left. exact (moves_with n (Serve _ i) i c _ Hc eq_refl (moves_crash _ _ _ _ _ O (or_intror R)) j x H).
  - destruct (nth_error _ i) as [c|] eqn:Hc; [|discriminate]. destruct (alive _ c) eqn:A; [|discriminate]. destruct (inbox _ c) as [|t r] eqn:O; [discriminate|].
    destruct (down_read i t) as [m| | |] eqn:R; injection E as <-; intros j x H; left; (eapply (moves_with n (Deliver _ i) i c); eauto).
    + eapply moves_deliver; eauto.
    + eapply moves_hang; eauto.
    + eapply moves_ruin; eauto.
    + eapply moves_throw; eauto.
  - destruct (nth_error _ i) as [c|] eqn:Hc; [|discriminate]. injection E as <-. intros j x H. left. eapply moves_with; eauto. now constructor.
  - destruct (nth_error _ i) as [c|] eqn:Hc; [|discriminate].
    assert (X : Some (with_member _ _ n i (with_link _ Gone (since _ c) c)) = Some n').
    { destruct (at_server _ c); try discriminate; (destruct (crashed _ _ n); [discriminate|]); exact E. }
    injection X as <-. intros j x H. left. eapply moves_with; eauto. now constructor.
  - destruct (nth_error _ i) as [c|] eqn:Hc; [|discriminate]. destruct (alive _ c); [|discriminate]. injection E as <-.
    intros j x H. left. eapply moves_with; eauto. now constructor.
Qed.

Lemma step_length n l n' : step n l = Some n' -> (length (members _ _ n) <= length (members _ _ n'))%nat.
Proof. clear up_codec arrives_down down_codec arrives.
  intros E. destruct l as [|i|i m|m|i|i|i t|i|i]; cbn -[client_does] in E.
  - injection E as <-. cbn. rewrite app_length. lia.
  - destruct (nth_error _ i) as [c|]; [|discriminate]. destruct (at_server _ c); try discriminate. destruct (crashed _ _ n); [discriminate|].
    injection E as <-. cbn. now rewrite length_set_at.
  - destruct (nth_error _ i) as [c|]; [|discriminate]. destruct (ruined _ c); [discriminate|]. injection E as <-. cbn. now rewrite length_set_at.
  - destruct (crashed _ _ n); [discriminate|]. injection E as <-. destruct (hub_shape n None m) as (f & st & -> & _). cbn. now rewrite map_length.
  - destruct (nth_error _ i) as [c|]; [|discriminate]. destruct (crashed _ _ n); [discriminate|]. destruct (at_server _ c); try discriminate.
    destruct (outbox _ c) as [|t r]; [discriminate|]. destruct (up_read t) as [m| | |]; injection E as <-.
    + destruct (hub_shape (with_member _ _ n i (with_outbox _ r c)) (Some i) m) as (f & st & -> & _). cbn. now rewrite map_length, length_set_at.
    + cbn. now rewrite length_set_at.
    + cbn. now rewrite length_set_at.
    + cbn. now rewrite length_set_at.
  - destruct (nth_error _ i) as [c|]; [|discriminate]. destruct (alive _ c); [|discriminate]. destruct (inbox _ c) as [|t r]; [discriminate|].
    destruct (down_read i t); injection E as <-; cbn -[client_does]; now rewrite length_set_at.
  - destruct (nth_error _ i) as [c|]; [|discriminate]. injection E as <-. cbn. now rewrite length_set_at.
  - destruct (nth_error _ i) as [c|]; [|discriminate]. destruct (at_server _ c); try discriminate; (destruct (crashed _ _ n); [discriminate|]); injection E as <-; cbn; now rewrite length_set_at.
  - destruct (nth_error _ i) as [c|]; [|discriminate]. destruct (alive _ c); [|discriminate]. injection E as <-. cbn. now rewrite length_set_at.
Qed.

(* a registered connection stays registered since then *)
Lemma moves_since n l i c c' : moves n l i c c' -> at_server _ c <> Coming -> since _ c' = since _ c /\ at_server _ c' <> Coming.
Proof.
  intros M H. destruct M; cbn; auto; try (split; [reflexivity|discriminate]).
  - unfold NetModel.hear. destruct (at_server _ c) eqn:A; cbn; auto. rewrite A. split; [auto|discriminate].
  - contradiction.
  - unfold NetModel.client_does. destruct (client_push _ _ _). cbn. auto.
  - unfold NetModel.hear. cbn. rewrite H2. cbn. split; [auto|congruence].
  - unfold NetModel.client_does. destruct (client_push _ _ _). cbn. auto.
Qed.
Lemma run_since i ls : forall n n' c', run n ls = Some n' -> nth_error (members _ _ n') i = Some c' ->
  forall c, nth_error (members _ _ n) i = Some c -> at_server _ c <> Coming -> since _ c' = since _ c.
Proof. clear up_codec arrives_down down_codec arrives.
  induction ls as [|l ls IH]; intros n n' c' E H c Hc A; cbn in E; [injection E as <-; congruence|].
  destruct (step n l) as [n1|] eqn:S; [|discriminate].
  destruct (nth_error (members _ _ n1) i) as [c1|] eqn:H1.
  - destruct (step_members _ _ _ S _ _ H1) as [(y & Y & M)|(_ & -> & _)].
    + rewrite Hc in Y. injection Y as <-. destruct (moves_since _ _ _ _ _ M A) as (M1 & M2).
      rewrite <- M1. eapply IH; eauto.
    + assert (nth_error (members _ _ n) (length (members _ _ n)) <> None) as X by congruence. apply nth_error_Some in X. lia.
  - assert (nth_error (members _ _ n) i <> None) as X by congruence. apply nth_error_Some in X. apply nth_error_None in H1.
    pose proof (step_length _ _ _ S). lia.
Qed.

Lemma register_since i l1 l2 n0 n c : run n0 (l1 ++ Register _ i :: l2) = Some n -> nth_error (members _ _ n) i = Some c ->
  exists n1 news, run n0 l1 = Some n1 /\ told _ _ n = told _ _ n1 ++ news /\ since _ c = length (told _ _ n1).
Proof. clear up_codec arrives_down down_codec arrives.
  intros E H. rewrite run_app in E. destruct (run n0 l1) as [n1|]; [|discriminate]. cbn [NetModel.run] in E.
  destruct (step n1 (Register _ i)) as [n2|] eqn:S; [|discriminate]. exists n1.
  destruct (run_grows _ _ _ E) as (f & F). destruct (step_grows _ _ _ S) as (g & G). exists (g ++ f). split; auto. split; [now rewrite F, G, app_assoc|].
  cbn in S. destruct (nth_error (members _ _ n1) i) as [c1|] eqn:H1; [|discriminate]. destruct (at_server _ c1) eqn:A; try discriminate.
  destruct (crashed _ _ n1); [discriminate|]. injection S as <-.
  rewrite (run_since i l2 _ _ _ E H (with_link _ Known (length (told _ _ n1)) c1)); auto; [|discriminate].
  cbn. rewrite nth_set_at, Nat.eqb_refl, H1. reflexivity.
Qed.

(* ---- what is asked ---- *)
Definition asked_at (n : net) (i : nat) : list msg := match nth_error (members _ _ n) i with Some c => asked _ c | None => [] end.

Lemma hear_asked f c : asked _ (hear f c) = asked _ c.
Proof. unfold NetModel.hear. now destruct (at_server _ c). Qed.

Lemma up_filter m : is_upstream m = true -> up_prods m = filter goes_up [m].
Proof. intros U. unfold up_prods, goes_up. cbn. rewrite U. cbn. destruct (mkind m); auto. now destruct (path_of m). Qed.

Lemma deliver_down n i c t r : Inv n -> nth_error (members _ _ n) i = Some c -> inbox _ c = t :: r ->
  exists m, t = down_text m /\ is_upstream m = false.
Proof.
  intros I Hc O. destruct (inv_d _ _ I _ _ Hc) as (_ & _ & _ & rest & later & D4 & (heard & _ & D5) & _). rewrite O in D4.
  destruct rest as [|m rest]; [discriminate|]. injection D4 as -> ->. exists m. split; auto.
  pose proof (inv_down _ _ I) as T. rewrite Forall_forall in T. apply T.
  rewrite <- (firstn_skipn (since _ c) (told _ _ n)), <- D5. apply in_or_app. right. apply in_or_app. right. now left.
Qed.

Lemma moves_asked n l i c c' : (forall t, producer_of csh t = cli) -> Inv n -> nth_error (members _ _ n) i = Some c ->
  (forall m, l = Ask _ i m -> is_upstream m = true) ->
  moves n l i c c' -> asked _ c' = asked _ c ++ filter goes_up (pushed_at i [l]).
Proof.
  intros HP I Hc HU M. destruct M; cbn -[client_does]; rewrite ?app_nil_r; auto.
  - rewrite hear_asked. replace (filter goes_up _) with (@nil msg); [now rewrite app_nil_r|].
    destruct l; cbn; auto. destruct (Nat.eqb i i0) eqn:E; auto. apply Nat.eqb_eq in E. subst. now cbn in H.
  - rewrite Nat.eqb_refl. destruct (does_up i m c (HU m eq_refl)) as (st & ms & -> & _ & ->). cbn -[filter]. rewrite HP, Nat.eqb_refl.
    now rewrite up_filter by now apply HU.
  - now rewrite hear_asked.
  - destruct (deliver_down _ _ _ _ _ I Hc H) as (m' & -> & D). rewrite (down_codec _ _ D) in H0. destruct (arrives i m') as [x|] eqn:Ar; [|discriminate]. injection H0 as <-.
    destruct (does_down i x (with_got _ x (with_inbox _ r c)) (arrives_down _ _ _ D Ar)) as (st & -> & _). cbn. now rewrite app_nil_r.
Qed.

Lemma pushed_cons i (l : label text) ls : pushed_at i (l :: ls) = pushed_at i [l] ++ pushed_at i ls.
Proof. unfold pushed_at. cbn. now rewrite app_nil_r. Qed.
Lemma step_target n l n' i : step n l = Some n' -> target l = Some i -> nth_error (members _ _ n) i <> None.
Proof. intros E T. destruct l; cbn in T; try discriminate; injection T as ->; cbn -[client_does] in E; destruct (nth_error _ i); congruence. Qed.

Lemma run_asked ls : (forall t, producer_of csh t = cli) -> forall n n' i c', Inv n -> run n ls = Some n' -> Forall fine ls ->
  (forall m, In (Ask _ i m) ls -> is_upstream m = true) ->
  nth_error (members _ _ n') i = Some c' -> asked _ c' = asked_at n i ++ filter goes_up (pushed_at i ls).
Proof.
  intros HP. induction ls as [|l ls IH]; intros n n' i c' I E F HU H; cbn [NetModel.run] in E.
  - injection E as <-. unfold asked_at. rewrite H. cbn. now rewrite app_nil_r.
  - inversion F as [|? ? F1 F2]. subst. destruct (step n l) as [n1|] eqn:S; [|discriminate].
    rewrite (IH n1 n' i c') ; auto; [|exact (inv_step n l n1 I S F1)|intros m Hm; apply HU; now right].
    rewrite pushed_cons, filter_app, app_assoc. f_equal. unfold asked_at.
    destruct (nth_error (members _ _ n1) i) as [c1|] eqn:H1.
    + destruct (step_members _ _ _ S _ _ H1) as [(y & Y & M)|(-> & -> & ->)].
      * rewrite Y. eapply moves_asked; eauto. intros m ->. apply HU. now left.
      * replace (nth_error (members _ _ n) (length (members _ _ n))) with (@None client); [reflexivity|]. symmetry. now apply nth_error_None.
    + assert (N0 : nth_error (members _ _ n) i = None).
      { apply nth_error_None. apply nth_error_None in H1. pose proof (step_length _ _ _ S). lia. }
      rewrite N0. destruct l; auto. cbn. destruct (Nat.eqb i i0) eqn:Ei; auto. apply Nat.eqb_eq in Ei. subst i0.
      exfalso. exact (step_target _ _ _ i S eq_refl N0).
Qed.

(* ---- the server's context sees the messages served, in order ---- *)
Notation hub_run := (StoreModel.run table map_apply map_static_false map_match no_foreign P react ssh).
Lemma step_hub st0 n l n' : step n l = Some n' ->
  hub _ _ n = fst (hub_run st0 (map Push (map snd (served _ _ n)))) ->
  hub _ _ n' = fst (hub_run st0 (map Push (map snd (served _ _ n')))).
Proof.
  intros E H.
  assert (K : forall x who m, hub _ _ x = hub _ _ n -> served _ _ x = served _ _ n ->
    hub _ _ (hub_does who m x) = fst (hub_run st0 (map Push (map snd (served _ _ (hub_does who m x)))))).
  { intros x who m X1 X2. destruct (hub_shape x who m) as (f & st & -> & ->). cbn [hub served]. rewrite X1, X2, !map_app, StoreProofs.run_app.
    destruct (hub_run st0 (map Push (map snd (served _ _ n)))) as [sta ea]. cbn [fst] in H. rewrite H. cbn. unfold hub_push.
    change ignores with no_foreign. now destruct (push _ _ _ _ _ _ _ _ _ _). }
  destruct l as [|i|i m|m|i|i|i t|i|i]; cbn -[client_does hub_does] in E.
  - injection E as <-. exact H.
  - destruct (nth_error _ i) as [c|]; [|discriminate]. destruct (at_server _ c); try discriminate. destruct (crashed _ _ n); [discriminate|].
    injection E as <-. exact H.
  - destruct (nth_error _ i) as [c|]; [|discriminate]. destruct (ruined _ c); [discriminate|]. injection E as <-. exact H.
  - destruct (crashed _ _ n); [discriminate|]. injection E as <-. now apply K.
  - destruct (nth_error _ i) as [c|]; [|discriminate]. destruct (crashed _ _ n); [discriminate|]. destruct (at_server _ c); try discriminate.
    destruct (outbox _ c) as [|t r]; [discriminate|]. destruct (up_read t) as [m| | |]; injection E as <-; [now apply K|exact H..].
  - destruct (nth_error _ i) as [c|]; [|discriminate]. destruct (alive _ c); [|discriminate]. destruct (inbox _ c) as [|t r]; [discriminate|].
    destruct (down_read i t); injection E as <-; exact H.
  - destruct (nth_error _ i) as [c|]; [|discriminate]. injection E as <-. exact H.
  - destruct (nth_error _ i) as [c|]; [|discriminate]. destruct (at_server _ c); try discriminate; (destruct (crashed _ _ n); [discriminate|]); injection E as <-; exact H.
  - destruct (nth_error _ i) as [c|]; [|discriminate]. destruct (alive _ c); [|discriminate]. injection E as <-. exact H.
Qed.
Lemma run_hub st0 ls : forall n n', run n ls = Some n' ->
  hub _ _ n = fst (hub_run st0 (map Push (map snd (served _ _ n)))) ->
  hub _ _ n' = fst (hub_run st0 (map Push (map snd (served _ _ n')))).
Proof.
  induction ls as [|l ls IH]; intros n n' E H; cbn in E; [now injection E as <-|].
  destruct (step n l) as [n1|] eqn:S; [|discriminate]. eapply IH; eauto. eapply step_hub; eauto.
Qed.

(* ---- moves of the network alone come to an end ---- *)
Definition sent (n : net) : nat := fold_right Nat.add 0%nat (map (fun c => length (outbox _ c)) (members _ _ n)).
Definition due (n : net) : nat := fold_right Nat.add 0%nat (map (fun c => length (inbox _ c)) (members _ _ n)).

Lemma sum_set (f : client -> nat) l : forall i c c', nth_error l i = Some c ->
  (fold_right Nat.add 0 (map f (set_at l i c')) + f c = fold_right Nat.add 0 (map f l) + f c')%nat.
Proof. clear - cli uok vok.
  induction l as [|y l IH]; intros [|i] c c' H; cbn in *; try discriminate.
  - injection H as <-. lia.
  - specialize (IH _ _ c' H). lia.
Qed.
Lemma sum_hear f l : fold_right Nat.add 0%nat (map (fun c => length (outbox _ c)) (map (hear f) l)) = fold_right Nat.add 0%nat (map (fun c => length (outbox _ c)) l).
Proof. induction l as [|c l IH]; cbn; auto. rewrite IH. f_equal. unfold NetModel.hear. now destruct (at_server _ c). Qed.

Lemma internal_less n l n' : Inv n -> internal l -> step n l = Some n' ->
  (sent n' < sent n)%nat \/ (sent n' = sent n /\ due n' < due n)%nat.
Proof.
  intros I L E. destruct l as [|i|i m|m|i|i|i t|i|i]; try destruct L; cbn -[client_does] in E.
  - destruct (nth_error _ i) as [c|] eqn:Hc; [|discriminate]. destruct (crashed _ _ n); [discriminate|]. destruct (at_server _ c) eqn:A; try discriminate.
    destruct (outbox _ c) as [|t r] eqn:O; [discriminate|]. left.
    pose proof (sum_set (fun c => length (outbox _ c)) (members _ _ n) i c (with_outbox _ r c) Hc) as X.
    pose proof (sum_set (fun c => length (outbox _ c)) (members _ _ n) i c (with_link _ Gone (since _ c) (with_outbox _ r c)) Hc) as Y.
    cbn in X, Y. rewrite O in X, Y. cbn in X, Y. unfold sent. destruct (up_read t) as [m| | |]; injection E as <-.
    + destruct (hub_shape (with_member _ _ n i (with_outbox _ r c)) (Some i) m) as (f & st & -> & _). cbn. rewrite sum_hear. lia.
    + cbn. lia.
    + cbn. lia.
    + cbn. lia.
  - destruct (nth_error _ i) as [c|] eqn:Hc; [|discriminate]. destruct (alive _ c) eqn:A; [|discriminate].
    destruct (inbox _ c) as [|t r] eqn:O; [discriminate|]. destruct (deliver_down _ _ _ _ _ I Hc O) as (m & -> & D). rewrite (down_codec _ _ D) in E. right.
    assert (G : exists c', n' = with_member _ _ n i c' /\ outbox _ c' = outbox _ c /\ inbox _ c' = r).
    { destruct (arrives i m) as [x|] eqn:Ar; injection E as <-; [|eexists; split; [reflexivity|split; reflexivity]].
      destruct (does_down i x (with_got _ x (with_inbox _ r c)) (arrives_down _ _ _ D Ar)) as (st & -> & _). eexists. split; [reflexivity|].
      split; [unfold send; cbn; destruct (alive _ c); auto; apply app_nil_r|reflexivity]. }
    destruct G as (c' & -> & Z & Z').
    pose proof (sum_set (fun c => length (outbox _ c)) (members _ _ n) i c c' Hc) as X.
    pose proof (sum_set (fun c => length (inbox _ c)) (members _ _ n) i c c' Hc) as Y.
    cbv beta in X, Y. rewrite Z in X. rewrite O, Z' in Y. cbn [length] in Y.
    unfold sent, due. cbn [members with_member]. lia.
Qed.

Definition after (b a : net) : Prop := exists l, internal l /\ step a l = Some b.

Lemma internal_fine l : internal l -> fine l.
Proof. destruct l; cbn; tauto. Qed.

Lemma internal_ends n : Inv n -> Acc after n.
Proof.
  remember (sent n) as a eqn:Ea. remember (due n) as b eqn:Eb. revert n b Ea Eb.
  induction a as [a IHa] using (well_founded_induction Wf_nat.lt_wf). intros n b. revert n.
  induction b as [b IHb] using (well_founded_induction Wf_nat.lt_wf). intros n Ea Eb I.
  constructor. intros n' (l & L & S). pose proof (inv_step _ _ _ I S (internal_fine _ L)) as I'.
  destruct (internal_less _ _ _ I L S) as [H|[H1 H2]].
  - apply (IHa (sent n')) with (b := due n'); auto. lia.
  - apply (IHb (due n')); auto; lia.
Qed.

(* a network which does not move by itself has nothing under way between running ends *)
Definition stuck (n : net) : Prop := forall l n', internal l -> step n l <> Some n'.

Lemma stuck_rest n : stuck n -> crashed _ _ n = false -> forall i c, nth_error (members _ _ n) i = Some c ->
  alive _ c = true -> at_server _ c = Known -> at_rest c.
Proof.
  intros S C i c Hc A K. split; auto. split; auto. split.
  - destruct (outbox _ c) as [|t r] eqn:O; auto. exfalso.
    destruct (step n (Serve _ i)) as [n'|] eqn:E; [exact (S (Serve _ i) n' Logic.I E)|].
    cbn in E. rewrite Hc, C, K, O in E. destruct (up_read t); discriminate.
  - destruct (inbox _ c) as [|t r] eqn:O; auto. exfalso.
    destruct (step n (Deliver _ i)) as [n'|] eqn:E; [exact (S (Deliver _ i) n' Logic.I E)|].
    cbn in E. rewrite Hc, A, O in E. destruct (down_read i t); discriminate.
Qed.

(* some move, or none *)
Lemma move_or_stuck n : (exists l n', internal l /\ step n l = Some n') \/ stuck n.
Proof. clear up_codec arrives_down down_codec arrives.
  assert (K : forall k, (exists l n', internal l /\ step n l = Some n') \/ forall i, (i < k)%nat -> step n (Serve _ i) = None /\ step n (Deliver _ i) = None).
  { induction k as [|k IH]; [right; intros i H; lia|]. destruct IH as [IH|IH]; auto.
    destruct (step n (Serve _ k)) as [n1|] eqn:E1; [left; exists (Serve _ k), n1; cbn; auto|].
    destruct (step n (Deliver _ k)) as [n1|] eqn:E2; [left; exists (Deliver _ k), n1; cbn; auto|].
    right. intros i H. destruct (Nat.eq_dec i k) as [->|N]; auto. apply IH. lia. }
  destruct (K (length (members _ _ n))) as [H|H]; auto. right. intros l n' L E.
  assert (T : exists i, target l = Some i /\ (l = Serve _ i \/ l = Deliver _ i)) by (destruct l; try destruct L; cbn; eauto).
  destruct T as (i & T & Q). pose proof (step_target _ _ _ _ E T) as X. apply nth_error_Some in X. destruct (H i X). destruct Q; subst; congruence.
Qed.

Lemma settle n : Inv n -> exists ls n', Forall internal ls /\ run n ls = Some n' /\ stuck n'.
Proof.
  intros I. pose proof (internal_ends n I) as A. revert I. induction A as [n _ IH]. intros I.
  destruct (move_or_stuck n) as [(l & n1 & L & S)|S].
  - destruct (IH n1) as (ls & n' & H1 & H2 & H3); [exists l; auto|exact (inv_step _ _ _ I S (internal_fine _ L))|].
    exists (l :: ls), n'. split; [constructor; auto|]. cbn [NetModel.run]. rewrite S. auto.
  - exists [], n. auto.
Qed.

(* ---- nobody hangs up by themselves ---- *)
Lemma step_health n l n' : (forall i, uok i) -> Inv n -> step n l = Some n' -> fine l -> crashed _ _ n = false -> crashed _ _ n' = false.
Proof.
  intros HU I E F C. destruct l as [|i|i m|m|i|i|i t|i|i]; cbn -[client_does] in E.
  - injection E as <-. exact C.
  - destruct (nth_error _ i) as [c|]; [|discriminate]. destruct (at_server _ c); try discriminate. rewrite C in E.
    injection E as <-. exact C.
  - destruct (nth_error _ i) as [c|]; [|discriminate]. destruct (ruined _ c); [discriminate|]. injection E as <-. exact C.
  - rewrite C in E. injection E as <-. destruct (hub_shape n None m) as (f & st & -> & _). exact C.
  - destruct (nth_error _ i) as [c|] eqn:Hc; [|discriminate]. rewrite C in E. destruct (at_server _ c); try discriminate.
    destruct (outbox _ c) as [|t r] eqn:O; [discriminate|].
    destruct (inv_u _ _ I _ _ Hc (HU i)) as (rest & later & U1 & _ & _ & U4). rewrite O in U1. destruct rest as [|m0 rest]; [discriminate|].
    injection U1 as -> ->. inversion U4 as [|? ? U5 U6]. subst. rewrite up_codec in E by auto. injection E as <-.
    destruct (hub_shape (with_member _ _ n i (with_outbox _ (map (up_text i) rest) c)) (Some i) m0) as (f & st & -> & _). exact C.
  - destruct (nth_error _ i) as [c|]; [|discriminate]. destruct (alive _ c); [|discriminate]. destruct (inbox _ c) as [|t r]; [discriminate|].
    destruct (down_read i t); injection E as <-; exact C.
  - destruct (nth_error _ i) as [c|]; [|discriminate]. injection E as <-. exact C.
  - destruct (nth_error _ i) as [c|]; [|discriminate]. destruct (at_server _ c); try discriminate; rewrite C in E; injection E as <-; exact C.
  - destruct (nth_error _ i) as [c|]; [|discriminate]. destruct (alive _ c); [|discriminate]. injection E as <-. exact C.
Qed.
Lemma run_health ls : (forall i, uok i) -> forall n n', Inv n -> run n ls = Some n' -> Forall fine ls -> crashed _ _ n = false -> crashed _ _ n' = false.
Proof.
  intros HU. induction ls as [|l ls IH]; intros n n' I E F C; cbn [NetModel.run] in E; [now injection E as <-|].
  inversion F as [|? ? F1 F2]. subst. destruct (step n l) as [n1|] eqn:S; [|discriminate].
  apply (IH n1 n'); auto; [exact (inv_step n l n1 I S F1)|]. eapply step_health; eauto.
Qed.

Definition up (c : client) : Prop := alive _ c = true /\ at_server _ c <> Gone.
Lemma moves_up n l i c c' : uok i -> Inv n -> nth_error (members _ _ n) i = Some c -> moves n l i c c' ->
  l <> DropServer _ i -> l <> DropClient _ i -> up c -> up c'.
Proof.
  intros U I Hc M H1 H2 (A & B). destruct M; cbn -[client_does]; try contradiction; try (split; auto; fail).
  - unfold NetModel.hear. destruct (at_server _ c) eqn:E; [|split; cbn|]; try split; auto; congruence.
  - split; cbn; [auto|discriminate].
  - unfold NetModel.client_does. destruct (client_push _ _ _). split; auto.
  - unfold NetModel.hear. cbn. rewrite H3. split; cbn; auto; congruence.
  - exfalso. destruct (inv_u _ _ I _ _ Hc U) as (rest & later & U1 & _ & _ & U4). rewrite H in U1. destruct rest as [|m0 rest]; [discriminate|].
    injection U1 as -> ->. inversion U4 as [|? ? U5 U6]. subst. rewrite up_codec in H0 by auto. discriminate.
  - unfold NetModel.client_does. destruct (client_push _ _ _). split; auto.
  - exfalso. destruct (deliver_down _ _ _ _ _ I Hc H) as (m' & -> & D). rewrite (down_codec _ _ D) in H0. destruct (arrives i m'); discriminate.
  - exfalso. destruct (deliver_down _ _ _ _ _ I Hc H) as (m' & -> & D). rewrite (down_codec _ _ D) in H0. destruct (arrives i m'); discriminate.
Qed.
Lemma run_up ls i : uok i -> forall n n' c', Inv n -> run n ls = Some n' -> Forall fine ls -> ~ In (DropServer _ i) ls -> ~ In (DropClient _ i) ls ->
  (forall c, nth_error (members _ _ n) i = Some c -> up c) -> nth_error (members _ _ n') i = Some c' -> up c'.
Proof.
  intros U. induction ls as [|l ls IH]; intros n n' c' I E F D1 D2 C H; cbn [NetModel.run] in E; [injection E as <-; auto|].
  inversion F as [|? ? F1 F2]. subst. destruct (step n l) as [n1|] eqn:S; [|discriminate].
  apply (IH n1 n'); auto; [exact (inv_step n l n1 I S F1)|intros X; apply D1; now right|intros X; apply D2; now right|].
  intros c1 H1. destruct (step_members _ _ _ S _ _ H1) as [(y & Y & M)|(_ & _ & ->)].
  - eapply moves_up; eauto; intros ->; [apply D1|apply D2]; now left.
  - split; [reflexivity|discriminate].
Qed.

Lemma step_core n l n' : step n l = Some n' ->
  (served _ _ n' = served _ _ n /\ told _ _ n' = told _ _ n /\ hub _ _ n' = hub _ _ n) \/
  exists who m, served _ _ n' = served _ _ n ++ [(who, m)] /\ told _ _ n' = told _ _ n ++ for_server srv (snd (hub_push P react ssh (hub _ _ n) m)).
Proof.
  assert (K : forall x who m, hub _ _ x = hub _ _ n -> served _ _ x = served _ _ n -> told _ _ x = told _ _ n ->
    served _ _ (hub_does who m x) = served _ _ n ++ [(who, m)] /\ told _ _ (hub_does who m x) = told _ _ n ++ for_server srv (snd (hub_push P react ssh (hub _ _ n) m))).
  { intros x who m X1 X2 X3. unfold NetModel.hub_does. rewrite X1. destruct (hub_push _ _ _ _ _) as [st e]. cbn. now rewrite X2, X3. }
  intros E. destruct l as [|i|i m|m|i|i|i t|i|i]; cbn -[client_does hub_does] in E.
  - injection E as <-. now left.
  - destruct (nth_error _ i) as [c|]; [|discriminate]. destruct (at_server _ c); try discriminate. destruct (crashed _ _ n); [discriminate|].
    injection E as <-. now left.
  - destruct (nth_error _ i) as [c|]; [|discriminate]. destruct (ruined _ c); [discriminate|]. injection E as <-. now left.
  - destruct (crashed _ _ n); [discriminate|]. injection E as <-. right. exists None, m. now apply K.
  - destruct (nth_error _ i) as [c|]; [|discriminate]. destruct (crashed _ _ n); [discriminate|]. destruct (at_server _ c); try discriminate.
    destruct (outbox _ c) as [|t r]; [discriminate|]. destruct (up_read t) as [m| | |]; injection E as <-; [|now left..].
    right. exists (Some i), m. now apply K.
  - destruct (nth_error _ i) as [c|]; [|discriminate]. destruct (alive _ c); [|discriminate]. destruct (inbox _ c) as [|t r]; [discriminate|].
    destruct (down_read i t); injection E as <-; now left.
  - destruct (nth_error _ i) as [c|]; [|discriminate]. injection E as <-. now left.
  - destruct (nth_error _ i) as [c|]; [|discriminate]. destruct (at_server _ c); try discriminate; (destruct (crashed _ _ n); [discriminate|]); injection E as <-; now left.
  - destruct (nth_error _ i) as [c|]; [|discriminate]. destruct (alive _ c); [|discriminate]. injection E as <-. now left.
Qed.

(* a relation between what is served and what is told *)
Lemma run_told (R : msg -> msg -> Prop) ls : (forall st m, request m -> exists d, for_server srv (snd (hub_push P react ssh st m)) = [d] /\ R m d) ->
  forall n n', run n ls = Some n' -> Forall request (map snd (served _ _ n')) -> Forall2 R (map snd (served _ _ n)) (told _ _ n) ->
  Forall2 R (map snd (served _ _ n')) (told _ _ n').
Proof.
  intros HR. induction ls as [|l ls IH]; intros n n' E Q F; cbn [NetModel.run] in E; [now injection E as <-|].
  destruct (step n l) as [n1|] eqn:S; [|discriminate]. apply (IH n1 n'); auto.
  assert (G : exists s, served _ _ n' = served _ _ n1 ++ s).
  { clear -E. revert n1 E. induction ls as [|l ls IH]; intros n1 E; cbn [NetModel.run] in E.
    - injection E as <-. exists []. symmetry. apply app_nil_r.
    - destruct (step n1 l) as [n2|] eqn:S; [|discriminate]. destruct (IH _ E) as (s & ->).
      destruct (step_core _ _ _ S) as [(-> & _)|(who & m & -> & _)]; [eauto|]. eexists. rewrite <- app_assoc. reflexivity. }
  destruct G as (s & G). rewrite G, map_app in Q. apply Forall_app in Q as [Q _].
  destruct (step_core _ _ _ S) as [(-> & -> & _)|(who & m & A & B)]; auto.
  rewrite A, map_app in *. cbn in *. apply Forall_app in Q as [_ Q]. inversion Q as [|? ? Qm _]. subst.
  destruct (HR (hub _ _ n) m Qm) as (d & D1 & D2). rewrite B, D1. apply Forall2_app; auto.
Qed.
End Net.

(* ---- echo_producer ---- *)
Lemma echo_down modulus q m d : In d (snd (echo_react modulus q m)) -> is_upstream d = false.
Proof.
  unfold echo_react, to_downstream_with_key, to_downstream. destruct (requires_key m).
  - destruct (mkind m); try (cbn; tauto). destruct (get_path m) as [[[|]| | | | |]|]; cbn; try tauto. intros [<-|[]]. reflexivity.
  - destruct (mkind m); cbn; try tauto; intros [<-|[]]; reflexivity.
Qed.

Lemma cons_send i e : cons_at i e = cons_at i (filter is_send e).
Proof. induction e as [|x e IH]; cbn; auto. unfold cons_at in IH. rewrite IH. now destruct x. Qed.
