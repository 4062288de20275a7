(* C87: stores that hold one value (context_store) or nothing (null_store) in a context. *)
From Verif Require Import Base StoreModel StoreSpec StoreProofs CstModel CstSpec CstProofs.

Section Props.
Context (act : payload -> outcome -> outcome) {P : Type} (react : P -> msg -> P * list msg) (sh : shape).

(* For every context (whatever its actors, producers and listeners), every sequence of calls and every consumer: what
   the store of a path type holds at the end is what the downstream updates told to that consumer make of what it held
   at the beginning, in the order told.  Nothing else changes it. *)
Theorem C87_value : forall i t st cs st' e, hears sh i -> cst_run act P react sh st cs = (st', e) ->
  forall v, stores st t = Held v -> stores st' t = Held (carried act v (updates t (told i e))).
Proof.
  intros i t st cs st' e Hi E v Hv. destruct (Tr_run act react sh i 0%nat t Hi cs st st' e E) as (A & _). rewrite A, Hv. reflexivity.
Qed.

(* When a consumer is told a message the store has it already, and no later one. *)
Theorem C87_moment : forall i t st cs st' e, hears sh i -> cst_run act P react sh st cs = (st', e) ->
  forall v, stores st t = Held v -> forall e1 m x e2, e = e1 ++ ToConsumer i m x :: e2 ->
  x t = Held (carried act v (updates t (told i e1 ++ [m]))).
Proof.
  intros i t st cs st' e Hi E v Hv e1 m x e2 He. destruct (Tr_run act react sh i 0%nat t Hi cs st st' e E) as (_ & A & _).
  rewrite (A _ _ _ _ He), Hv. reflexivity.
Qed.

(* A state consumer is notified of the paths of the updates which a consumer is told: each once, in that order, and of
   no other path of that type. *)
Theorem C87_notified : forall i k t st cs st' e, hears sh i -> watches sh k -> cst_run act P react sh st cs = (st', e) ->
  forall v, stores st t = Held v -> noted k t e = map fst (updates t (told i e)).
Proof.
  intros i k t st cs st' e Hi Hk E v Hv. destruct (Tr_run act react sh i k t Hi cs st st' e E) as (_ & _ & A).
  rewrite (A Hk), Hv. reflexivity.
Qed.

(* A read of a value which is there is answered with it, whatever the keys; no producer hears of it. *)
Theorem C87_read : forall st m p v st' e, mkind m = UpRead -> path_of m = Some p ->
  stores st (ptype p) = Held (Resolved v) -> cst_push act P react sh st m = (st', e) ->
  (forall t, stores st' t = stores st t) /\ producers st' = producers st /\
  exists d x, mkind d = DownRead /\ path_of d = Some p /\ payload_of d = v /\ get_uid d = get_uid m /\
    (forall t, x t = stores st t) /\ e = map (fun i => ToConsumer i d x) (indices consumer (actors sh)).
Proof.
  intros st m p v st' e K Hp Hs. unfold cst_push, push, is_upstream, push_up, is_read. rewrite K, Hp.
  unfold push_read. assert (H := fun x => read_store act (P := P) st m K x).
  set (st1 := set_store cstore P st (path_type m) (fst (cst_apply act (stores st (path_type m)) m))) in *.
  assert (Hq : producers st1 = producers st) by reflexivity. clearbody st1.
  rewrite H, (path_type_path _ _ Hp), Hs. cbn [cst_look]. unfold to_downstream_read. rewrite K.
  destruct (tell_none sh m (listeners_of sh (ptype p)) st1) as (st3 & -> & H2 & H3). rewrite app_nil_r, down_indices.
  intros E. injection E as <- <-. refine (conj (fun t => eq_trans (H3 t) (H t)) (conj (eq_trans H2 Hq) _)).
  exists (mk_msg DownRead (mtype m) [or_none (get_path m); uid_or_none m; FPayload v]), (stores st1). refine (conj eq_refl (conj _ (conj eq_refl (conj _ (conj H eq_refl))))).
  - unfold path_of, get_path, at_c in *. cbn in *. destruct (storage m) as [|f l]; [discriminate|exact Hp].
  - unfold get_uid, uid_or_none, get_uid, optional_at, at_c. cbn. destruct (storage m) as [|f [|[] l]]; reflexivity.
Qed.

(* Values which never are trigger_read: no read ever reaches a producer.  (A read has a path.) *)
Theorem C87_quiet : (forall a v, act a v <> TriggerRead) -> forall cs st st' e,
  (forall m, In (Push m) cs -> path_of m = None -> is_read m = false) -> (forall t, stores st t <> Held TriggerRead) -> cst_run act P react sh st cs = (st', e) ->
  existsb is_read_to_producer e = false /\ forall t, stores st' t <> Held TriggerRead.
Proof.
  intros Ha.
  assert (D : forall st m st' e, (forall t, stores st t <> Held TriggerRead) ->
    push_down cstore (cst_apply act) cst_static_false cst_foreign P sh st m = (st', e) ->
    existsb is_read_to_producer e = false /\ forall t, stores st' t <> Held TriggerRead).
  { intros st m st' e H E. assert (N := push_down_none _ _ _ _ _ _ _ _ E). split.
    - destruct (existsb is_read_to_producer e) eqn:X; auto. apply existsb_exists in X as (y & Y1 & Y2).
      assert (existsb is_to_producer e = true) by (apply existsb_exists; exists y; split; auto; now destruct y). congruence.
    - apply down_shape in E. destruct (path_of m) as [p|]; [|destruct E as [-> _]; exact H].
      destruct E as (x & A & B & _). intros t. rewrite B, A. specialize (H t). unfold update_of.
      destruct (mkind m); try (now rewrite holds_nil).
      destruct (path_of m) as [q|]; [|now rewrite holds_nil]. destruct (Nat.eqb (ptype q) t); [|now rewrite holds_nil].
      destruct (stores st t) as [|v]; [discriminate|]. cbn. intros C. injection C as C. now apply (Ha (payload_of m) v). }
  assert (A : forall ms st st' e, (forall t, stores st t <> Held TriggerRead) ->
    push_all_down cstore (cst_apply act) cst_static_false cst_foreign P sh st ms = (st', e) ->
    existsb is_read_to_producer e = false /\ forall t, stores st' t <> Held TriggerRead).
  { induction ms as [|m ms IH]; intros st st' e H; cbn; [intros E; injection E as <- <-; auto|].
    destruct (push_down _ _ _ _ _ _ st m) as [st1 e1] eqn:E1. destruct (push_all_down _ _ _ _ _ _ st1 ms) as [st2 e2] eqn:E2.
    intros E. injection E as <- <-. destruct (D _ _ _ _ H E1) as [A1 A2]. destruct (IH _ _ _ A2 E2) as [B1 B2].
    rewrite existsb_app, A1, B1. auto. }
  assert (U : forall st m st' e, is_read m = false -> (forall t, stores st t <> Held TriggerRead) ->
    propagate_upstream cstore (cst_apply act) cst_static_false cst_foreign P react sh st m = (st', e) ->
    existsb is_read_to_producer e = false /\ forall t, stores st' t <> Held TriggerRead).
  { intros st m st' e R H. unfold propagate_upstream. destruct (react _ m) as [p1 an].
    destruct (push_all_down _ _ _ _ _ _ _ an) as [st1 e1] eqn:E1. intros E. injection E as <- <-.
    destruct (A _ _ _ _ (H : forall t, stores (set_producer cstore P st (producer_of sh (path_type m)) p1) t <> Held TriggerRead) E1) as [A1 A2].
    cbn. rewrite R, A1. auto. }
  assert (Pu : forall st m st' e, (path_of m = None -> is_read m = false) -> (forall t, stores st t <> Held TriggerRead) -> cst_push act P react sh st m = (st', e) ->
    existsb is_read_to_producer e = false /\ forall t, stores st' t <> Held TriggerRead).
  { intros st m st' e Hn H. unfold cst_push, push. destruct (is_upstream m) eqn:Um; [|apply D; auto].
    unfold push_up. destruct (path_of m) as [p|] eqn:Ep; [|apply U; auto].
    destruct (is_read m) eqn:R.
    - assert (K := up_read _ Um R). unfold push_read.
      assert (G := fun x => read_store act (P := P) st m K x).
      set (st1 := set_store cstore P st (path_type m) (fst (cst_apply act (stores st (path_type m)) m))) in *. clearbody st1.
      assert (W : forall e2, existsb is_read_to_producer e2 = false ->
        (let (st3, e3) := tell_listeners cstore cst_foreign P sh st1 m (listeners_of sh (path_type m)) in (st3, e2 ++ e3)) = (st', e) ->
        existsb is_read_to_producer e = false /\ forall t, stores st' t <> Held TriggerRead).
      { intros e2 T. destruct (tell_none sh m (listeners_of sh (path_type m)) st1) as (st3 & -> & _ & H3).
        intros E. injection E as <- <-. rewrite app_nil_r. split; auto. intros t. rewrite H3, G. apply H. }
      rewrite G. specialize (H (path_type m)) as H'. destruct (stores st (path_type m)) as [|[| |v]]; cbn [cst_look].
      + now apply W.
      + now destruct H'.
      + now apply W.
      + unfold to_downstream_read. rewrite K. apply W. rewrite down_indices. induction (indices consumer (actors sh)); auto.
    - assert (An : apply_and_notify cstore (cst_apply act) cst_static_false P sh st m p = (st, [])).
      { unfold apply_and_notify, cst_static_false. unfold is_upstream in Um. now destruct (mkind m). }
      rewrite An. destruct (propagate_upstream _ _ _ _ _ _ _ st m) as [st2 e2] eqn:E2.
      destruct (tell_none sh m (listeners_of sh (path_type m)) st2) as (st3 & -> & _ & H3).
      intros E. injection E as <- <-. cbn [app]. rewrite app_nil_r. destruct (U _ _ _ _ R H E2) as [U1 U2]. split; auto.
      intros t. rewrite H3. apply U2. }
  unfold cst_run. induction cs as [|c cs IH]; intros st st' e Hm H; cbn [run]; [intros E; injection E as <- <-; auto|].
  assert (Hm' : forall m, In (Push m) cs -> path_of m = None -> is_read m = false) by (intros m Hi; apply Hm; now right).
  destruct c as [m|p].
  - destruct (push _ _ _ _ _ _ _ _ st m) as [st1 e1] eqn:E1. destruct (run _ _ _ _ _ _ _ _ st1 cs) as [st2 e2] eqn:E2.
    intros E. injection E as <- <-. destruct (Pu st m st1 e1 (Hm m (or_introl eq_refl)) H E1) as [A1 A2].
    destruct (IH _ _ _ Hm' A2 E2) as [B1 B2]. rewrite existsb_app, A1, B1. auto.
  - unfold context_match. assert (H' := H (ptype p)).
    destruct (stores st (ptype p)) as [|[| |v]]; cbn [cst_look]; try (now destruct H');
    destruct (run _ _ _ _ _ _ _ _ st cs) as [st2 e2] eqn:E2; intros E; injection E as <- <-; exact (IH _ _ _ Hm' H E2).
Qed.

(* A path type with nothing stored: it stays so, whatever is called; nobody is notified of a path of it. *)
Theorem C87_nothing : forall i t st cs st' e, hears sh i -> cst_run act P react sh st cs = (st', e) ->
  stores st t = Null -> stores st' t = Null /\ forall k, watches sh k -> noted k t e = [].
Proof.
  intros i t st cs st' e Hi E Hs. split.
  - destruct (Tr_run act react sh i 0%nat t Hi cs st st' e E) as (A & _). now rewrite A, Hs.
  - intros k Hk. destruct (Tr_run act react sh i k t Hi cs st st' e E) as (_ & _ & A). now rewrite (A Hk), Hs.
Qed.

(* Every downstream message is told to every consumer once, whatever the store does with it ... *)
Theorem C87_down : forall i st m p st' e, hears sh i -> is_upstream m = false -> path_of m = Some p ->
  cst_push act P react sh st m = (st', e) -> told i e = [m].
Proof.
  intros i st m p st' e (a & Ha & Hc) U Hp. unfold cst_push, push. rewrite U. intros E. apply down_shape in E. rewrite Hp in E.
  destruct E as (x & _ & _ & _ & ->). rewrite told_app, told_map by (eauto using index_nodup, index_of).
  destruct (mkind m), (stores st (ptype p)); auto. now rewrite told_notes.
Qed.
(* ... and every upstream message which is not a read goes to the producer of its path type before anything else
   happens, with the stores as they were; what follows is what pushing the producer's answers does. *)
Theorem C87_up : forall st m st' e, is_upstream m = true -> is_read m = false -> cst_push act P react sh st m = (st', e) ->
  forall p1 an, react (producers st (producer_of sh (path_type m))) m = (p1, an) -> (forall d, In d an -> is_upstream d = false) ->
  exists st1 e1, e = ToProducer (producer_of sh (path_type m)) m (stores st) :: e1 /\
    cst_run act P react sh (set_producer cstore P st (producer_of sh (path_type m)) p1) (map Push an) = (st1, e1) /\
    (forall t, stores st' t = stores st1 t) /\ producers st' = producers st1.
Proof.
  intros st m st' e U R E p1 an Er Hd.
  assert (A : forall ds st, (forall d, In d ds -> is_upstream d = false) ->
    cst_run act P react sh st (map Push ds) = push_all_down cstore (cst_apply act) cst_static_false cst_foreign P sh st ds).
  { unfold cst_run. clear. induction ds as [|d ds IH]; intros st H; [reflexivity|]. cbn [map run push_all_down]. unfold push.
    rewrite (H d) by now left. destruct (push_down _ _ _ _ _ _ st d) as [st1 e1]. rewrite IH; [reflexivity|]. intros x Hx. apply H. now right. }
  rewrite (A _ _ Hd). unfold cst_push, push in E. rewrite U in E. unfold push_up, propagate_upstream in E. rewrite Er in E.
  assert (An : forall p, apply_and_notify cstore (cst_apply act) cst_static_false P sh st m p = (st, [])).
  { intros p. unfold apply_and_notify, cst_static_false. unfold is_upstream in U. now destruct (mkind m). }
  destruct (path_of m) as [p|] eqn:Ep.
  - rewrite R, An, Er in E. destruct (push_all_down _ _ _ _ _ _ _ an) as [st2 e2] eqn:E2. exists st2, e2.
    destruct (tell_none sh m (listeners_of sh (path_type m)) st2) as (st3 & E3 & B1 & B2). rewrite E3 in E.
    cbn [app] in E. rewrite app_nil_r in E. injection E as <- <-. auto.
  - destruct (push_all_down _ _ _ _ _ _ _ an) as [st2 e2] eqn:E2. exists st2, e2. injection E as <- <-. auto.
Qed.

(* apply_message on a store itself: it reports a change exactly when a store that holds a value is given a downstream update,
   and changes nothing otherwise *)
Theorem C87_apply : forall s m, (snd (cst_apply act s m) = true <-> s <> Null /\ mkind m = DownUpdate) /\
  (snd (cst_apply act s m) = false -> fst (cst_apply act s m) = s).
Proof.
  intros s m. unfold cst_apply. destruct s as [|v]; cbn; [split; [split; [discriminate|intros [H _]; destruct (H eq_refl)]|reflexivity]|].
  destruct (mkind m); cbn; (split; [split|]); try discriminate; try reflexivity; try (intros [_ H]; discriminate H).
  intros _. split; [discriminate|reflexivity].
Qed.
End Props.

(* ---- C88: does the store show what consumers have been told? ---- *)
(* updates are the only messages, and a value is replaced by them: then it does *)
Theorem C88_assigned_partial : forall P (react : P -> msg -> P * list msg) sh i t st cs st' e p v us, hears sh i ->
  cst_run assign P react sh st cs = (st', e) -> stores st t <> Null -> updates t (told i e) = us ++ [(p, v)] ->
  stores st' t = Held (Resolved v).
Proof.
  intros P react sh i t st cs st' e p v us Hi E Hs Hu. destruct (stores st t) as [|v0] eqn:H0; [now destruct Hs|].
  rewrite (C87_value assign react sh i t st cs st' e Hi E v0 H0), Hu. unfold carried. now rewrite fold_left_app.
Qed.
(* a value that only arrives as the answer to a read is never stored: what is unresolved stays unresolved *)
Theorem C88_unanswered_partial : forall act P (react : P -> msg -> P * list msg) sh i t st cs st' e, hears sh i ->
  cst_run act P react sh st cs = (st', e) -> stores st t = Held Unresolved -> updates t (told i e) = [] ->
  stores st' t = Held Unresolved /\ forall p, ptype p = t -> cst_match act P react sh st' p = (st', [], Unresolved).
Proof.
  intros act P react sh i t st cs st' e Hi E Hs Hu. assert (H : stores st' t = Held Unresolved).
  { now rewrite (C87_value act react sh i t st cs st' e Hi E _ Hs), Hu. }
  split; auto. intros p <-. unfold cst_match, context_match. rewrite H. reflexivity.
Qed.

(* an echoing producer, one consumer which also is a state consumer; paths of type 0 *)
Definition one : shape := {| actors := [{| consumer := true; state_consumer := true |}]; producer_of := fun _ => 0%nat; listeners_of := fun _ => [] |}.
Definition holding (v : outcome) : state cstore counters := {| stores := fun _ => Held v; producers := fun _ _ => 0 |}.
Definition k1 := mk_path 0 [1].
Definition k2 := mk_path 0 [2].

(* what a message leaves at its path *)
Definition left_by (m : msg) : option payload :=
  match mkind m with DownCreate | DownRead | DownUpdate => Some (payload_of m) | _ => None end.
Definition shown (o : outcome) : option payload := match o with Resolved v => Some v | _ => None end.
Definition concerns (p : path) (m : msg) : bool := match path_of m with Some q => path_eqb p q | None => false end.
(* The full claim: after pushing messages of the kinds ks the context shows at every path what the last message about
   it that its consumers were told leaves there. *)
Definition shows (ks : list kind) : Prop := forall v ms st' e p m,
  (forall m, In m ms -> In (mkind m) ks) ->
  cst_run assign counters (echo_react 256) one (holding v) (map Push ms) = (st', e) ->
  List.find (concerns p) (rev (told 0 e)) = Some m ->
  shown (snd (cst_match assign counters (echo_react 256) one st' p)) = left_by m.
(* what is deleted remains *)
Theorem C88_deleted_refuted : ~ shows [UpUpdate; UpDelete].
Proof.
  intros H. specialize (H Unresolved [make_upstream_update 0 (PPath k1) None (Entity 7); make_upstream_delete 0 (PPath k1) None]).
  refine (_ (H _ _ k1 _ _ eq_refl eq_refl)).
  - vm_compute. discriminate.
  - intros m [<-|[<-|[]]]; cbn; auto.
Qed.
(* what is created is not there *)
Theorem C88_created_refuted : ~ shows [UpCreate].
Proof.
  intros H. specialize (H Unresolved [make_upstream_create 0 (PPath k1) None (Entity 7) None]).
  refine (_ (H _ _ k1 _ _ eq_refl eq_refl)).
  - vm_compute. discriminate.
  - intros m [<-|[]]; cbn; auto.
Qed.
(* nor is the answer to a read *)
Theorem C88_answered_refuted : ~ shows [UpRead; DownRead].
Proof.
  intros H. specialize (H Unresolved [make_upstream_read 0 (PPath k1) None; make_downstream_read 0 (PPath k1) None (Entity 7)]).
  refine (_ (H _ _ k1 _ _ eq_refl eq_refl)).
  - vm_compute. discriminate.
  - intros m [<-|[<-|[]]]; cbn; auto.
Qed.
(* updates alone: paths that differ in their keys overwrite each other; only the path of the update is notified *)
Theorem C88_keys_refuted : ~ shows [UpUpdate].
Proof.
  intros H. specialize (H Unresolved [make_upstream_update 0 (PPath k1) None (Entity 7); make_upstream_update 0 (PPath k2) None (Entity 8)]).
  refine (_ (H _ _ k1 _ _ eq_refl eq_refl)).
  - vm_compute. discriminate.
  - intros m [<-|[<-|[]]]; cbn; auto.
Qed.
Theorem C88_unnotified_refuted : ~ (forall v ms st' e p,
  cst_run assign counters (echo_react 256) one (holding v) (map Push ms) = (st', e) -> ~ In p (noted 0 (ptype p) e) ->
  snd (cst_match assign counters (echo_react 256) one st' p) = v).
Proof.
  intros H. specialize (H Unresolved [make_upstream_update 0 (PPath k1) None (Entity 7)] _ _ k2 eq_refl).
  refine (_ (H _)).
  - vm_compute. discriminate.
  - vm_compute. intros [E|[]]. discriminate.
Qed.

Print Assumptions C87_value.
Print Assumptions C87_moment.
Print Assumptions C87_notified.
Print Assumptions C87_read.
Print Assumptions C87_quiet.
Print Assumptions C87_nothing.
Print Assumptions C87_down.
Print Assumptions C87_up.
Print Assumptions C87_apply.
Print Assumptions C88_assigned_partial.
Print Assumptions C88_unanswered_partial.
Print Assumptions C88_deleted_refuted.
Print Assumptions C88_created_refuted.
Print Assumptions C88_answered_refuted.
Print Assumptions C88_keys_refuted.
Print Assumptions C88_unnotified_refuted.

(* payloads which are called with the value: they add to it *)
Definition add (a : payload) (v : outcome) : outcome :=
  match a, v with Entity x, Resolved (Entity y) => Resolved (Entity (x + y)) | _, _ => v end.
Example C87_ex : let r := cst_run add counters (echo_react 256) one (holding (Resolved (Entity 1)))
      [Push (make_upstream_update 0 (PPath k1) None (Entity 7)); Push (make_upstream_delete 0 (PPath k1) None);
       Push (make_upstream_read 0 (PPath k2) (Some 3)); Push (make_downstream_update 0 (PPath k2) None (Entity 30) None)] in
  stores (fst r) 0%nat = Held (Resolved (Entity 38)) /\ updates 0 (told 0 (snd r)) = [(k1, Entity 7); (k2, Entity 30)] /\
  map mkind (told 0 (snd r)) = [DownUpdate; DownDelete; DownRead; DownUpdate] /\ noted 0 0 (snd r) = [k1; k2] /\
  map payload_of (told 0 (snd r)) = [Entity 7; NotFound; Entity 8; Entity 30] /\ hears one 0 /\ watches one 0.
Proof. vm_compute. repeat split; eexists; split; reflexivity. Qed.
Example C87_null_ex : let r := cst_run add counters (echo_react 256) one {| stores := fun _ => Null; producers := fun _ _ => 0 |}
      [Push (make_upstream_update 0 (PPath k1) None (Entity 7)); Push (make_upstream_create 0 (PCreate 0 []) None (Entity 9) None)] in
  map mkind (told 0 (snd r)) = [DownUpdate; DownCreate] /\ noted 0 0 (snd r) = [] /\ length (snd r) = 4%nat /\
  map path_of (told 0 (snd r)) = [Some k1; Some k1].
Proof. vm_compute. auto. Qed.
Example C88_ex : let r := cst_run assign counters (echo_react 256) one (holding Unresolved)
      [Push (make_upstream_read 0 (PPath k1) None); Push (make_downstream_read 0 (PPath k1) None (Entity 7)); Match k1] in
  told 0 (snd r) = [make_downstream_read 0 (PPath k1) None (Entity 7)] /\ stores (fst r) 0%nat = Held Unresolved /\ length (snd r) = 1%nat.
Proof. vm_compute. auto. Qed.
