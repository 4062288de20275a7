(* C32-C36: messages, the map store, the context and the echoing producer. *)
From Verif Require Import Base StoreModel StoreSpec StoreProofs.
Open Scope N_scope.

(* C36 *)
Theorem C36_accessors : forall ty p u v pr c,
  let uc := make_upstream_create ty p u v pr in let ur := make_upstream_read ty p u in
  let uu := make_upstream_update ty p u v in let ud := make_upstream_delete ty p u in
  let dc := make_downstream_create ty p u v c in let dr := make_downstream_read ty p u v in
  let du := make_downstream_update ty p u v c in let dd := make_downstream_delete ty p u c in
  (forall m, In m [uc; ur; uu; ud; dc; dr; du; dd] ->
     get_path m = Some (FPath p) /\ get_uid m = option_map FUid u) /\
  (forall m, In m [uc; uu; dc; dr; du] -> get_payload m = Some (FPayload v)) /\
  (forall m, In m [dc; du; dd] -> is_confirmed m = FConfirmed (match c with Some b => b | None => false end)) /\
  (forall m, In m [uc; ur; uu; ud] -> is_upstream m = true) /\ (forall m, In m [dc; dr; du; dd] -> is_upstream m = false) /\
  (forall m, In m [uc; ur; uu; ud; dc; dr; du; dd] -> is_read m = true <-> m = ur \/ m = dr).
Proof.
  intros ty p u v pr c uc ur uu ud dc dr du dd.
  assert (A : forall (Q : msg -> Prop) l, Forall Q l -> forall m, In m l -> Q m) by (intros Q l HF; now apply Forall_forall).
  split; [|split; [|split; [|split; [|split]]]]; apply A; repeat constructor; try (destruct u; reflexivity); try (destruct c; reflexivity);
    cbn; auto; try discriminate; intros [H|H]; discriminate.
Qed.

(* the upstream messages *)
Definition upstream (m : msg) : Prop := exists ty p u v pr,
  m = make_upstream_create ty p u v pr \/ m = make_upstream_read ty p u \/ m = make_upstream_update ty p u v \/ m = make_upstream_delete ty p u.

Theorem C36_conversions : forall m, upstream m ->
  (forall c d, to_downstream m c = Some d ->
     is_upstream d = false /\ is_read d = false /\ get_path d = get_path m /\ get_uid d = get_uid m /\ get_payload d = get_payload m /\
     is_confirmed d = FConfirmed (match c with Some b => b | None => false end)) /\
  (to_downstream m None = None <-> is_read m = true \/ requires_key m = true) /\
  (forall k c, requires_key m = true -> exists t parent d, get_path m = Some (FPath (PCreate t parent)) /\
     to_downstream_with_key m k c = Some d /\ is_upstream d = false /\
     get_path d = Some (FPath (PPath (mk_path t (parent ++ [k])))) /\ get_uid d = get_uid m /\ get_payload d = get_payload m) /\
  (forall v, is_read m = true -> exists d, to_downstream_read m v = Some d /\ is_upstream d = false /\ is_read d = true /\
     get_path d = get_path m /\ get_uid d = get_uid m /\ get_payload d = Some (FPayload v)).
Proof.
  intros m (ty & p & u & v & pr & [-> | [-> | [-> | ->]]]); unfold requires_key; cbn; (split; [|split; [|split]]).
  - destruct p; cbn; intros c d H; [|discriminate]. injection H as <-. destruct u, c; cbn; auto 10.
  - destruct p; cbn; split; intros H; auto; try discriminate. destruct H; discriminate.
  - intros k c H. destruct p as [q|t parent]; [discriminate|]. exists t, parent. eexists. split; [auto|]. split; [reflexivity|]. destruct u; cbn; auto.
  - discriminate.
  - intros c d H. discriminate.
  - split; auto.
  - discriminate.
  - intros w _. eexists. split; [reflexivity|]. destruct u; cbn; auto.
  - intros c d H. injection H as <-. destruct u, c; cbn; auto 10.
  - split; [discriminate|]. intros [H|H]; discriminate.
  - discriminate.
  - discriminate.
  - intros c d H. injection H as <-. destruct u, c; cbn; auto 10.
  - split; [discriminate|]. intros [H|H]; discriminate.
  - discriminate.
  - discriminate.
Qed.

(* but the private payload of an upstream create cannot be read: the accessor returns the uid *)
Theorem C36_private_payload_refuted :
  ~ (forall ty p u v x, get_private_payload (make_upstream_create ty p u v (Some x)) = Some (FPrivate x)) /\
  (forall ty p u v pr, get_private_payload (make_upstream_create ty p u v pr) = get_uid (make_upstream_create ty p u v pr)).
Proof. split; [|reflexivity]. intros H. specialize (H 0 (PCreate 0 []) (Some 7) (Entity 1) 9). discriminate. Qed.

(* although it is not lost: two upstream creates that differ in the private payload, or in anything else they were made of, are
   different messages *)
Theorem C36_holds : forall ty p u v pr ty' p' u' v' pr',
  make_upstream_create ty p u v pr = make_upstream_create ty' p' u' v' pr' <-> (ty, p, u, v, pr) = (ty', p', u', v', pr').
Proof.
  intros ty p u v pr ty' p' u' v' pr'. split; [|congruence]. unfold make_upstream_create, uid_field, private_field.
  destruct u, u', pr, pr'; intros H; congruence.
Qed.

(* C32 *)
Theorem C32_map_store : forall h p,
  Forall proper h ->
  seen (map_match (fold_left (fun s m => fst (map_apply s m)) h []) p) = entry_of p h.
Proof.
  intros h p Hp. unfold map_match. pose proof (map_find h p) as Hf. unfold map_run in Hf. rewrite Hf. pose proof (entry_proper h p Hp) as Hn.
  destruct (entry_of p h) as [| |v]; auto. cbn. destruct v; auto. congruence.
Qed.

Theorem C32_reports_change : forall h m,
  snd (map_apply (fold_left (fun s m => fst (map_apply s m)) h []) m) = changes h m.
Proof. intros h m. apply map_flag. Qed.

(* C33 *)
Section Props33.
Context {P : Type} (react : P -> msg -> P * list msg) (sh : shape).

(* no read ever reaches a producer, whatever the calls and whatever the stores already contain *)
Theorem C33_never_forwarded : forall cs (st : state table P),
  (forall m, In (Push m) cs -> is_upstream m && is_read m = true -> path_of m <> None) ->
  existsb is_read_to_producer (snd (run table map_apply map_static_false map_match no_foreign P react sh st cs)) = false.
Proof.
  induction cs as [|[m|p] cs IH]; intros st H; cbn; auto.
  - destruct (push _ _ _ _ _ _ _ _ _ _) as [st1 e1] eqn:E1. specialize (IH st1).
    destruct (run table map_apply map_static_false map_match no_foreign P react sh st1 cs) as [st2 e2]. cbn.
    rewrite existsb_app. rewrite (no_read_push react sh _ _ _ _ E1); [|apply H; now left]. cbn. apply IH. intros m' Hm. apply H. now right.
  - unfold context_match. destruct (map_match (stores st (ptype p)) p) eqn:Em;
    [unfold map_match in Em; destruct (find (stores st (ptype p)) p) as [[|v]|]; discriminate|..];
    specialize (IH st); destruct (run table map_apply map_static_false map_match no_foreign P react sh st cs) as [st2 e2]; cbn; apply IH; intros m' Hm; apply H; now right.
Qed.

(* the rest of C33: a pending path sends nothing, a known one is answered from the store to every consumer, and a path
   not yet in the store becomes pending *)
Theorem C33_reads_partial : forall (st : state table P) ty p u,
  let m := make_upstream_read ty (PPath p) u in find (stores st (ptype p)) p <> Some (SValue NotInSet) ->
  let (st', e) := push table map_apply map_static_false map_match no_foreign P react sh st m in
  (forall t, t <> ptype p -> stores st' t = stores st t) /\
  match map_match (stores st (ptype p)) p with
  | Resolved NotInSet => map_match (stores st' (ptype p)) p = Unresolved /\ e = []
  | Resolved v => map_match (stores st' (ptype p)) p = Resolved v /\
      exists x, e = map (fun i => ToConsumer i (make_downstream_read ty (PPath p) u v) x) (indices consumer (actors sh))
  | _ => map_match (stores st' (ptype p)) p = Unresolved /\ e = []
  end.
Proof.
  intros st ty p u m Hns. unfold push. cbn [is_upstream mkind m make_upstream_read]. unfold push_up. cbn [path_of get_path at_c nth_error storage m make_upstream_read is_read mkind].
  unfold push_read.
  set (st1 := set_store table P st (path_type m) (fst (map_apply (stores st (path_type m)) m))).
  assert (H1 : stores st1 (path_type m) = fst (map_apply (stores st (path_type m)) m)) by apply set_store_same.
  rewrite H1. rewrite (push_read_outcome st m p eq_refl eq_refl). change (path_type m) with (ptype p) in *.
  pose proof (push_read_outcome st m p eq_refl eq_refl) as H2. change (path_type m) with (ptype p) in H2. rewrite <- H1 in H2.
  destruct (tell_none sh m (listeners_of sh (ptype p)) st1) as (st2 & E2 & _ & Hs).
  assert (Ho : forall t, t <> ptype p -> stores st2 t = stores st t).
  { intros t Ht. rewrite Hs. cbn. apply Nat.eqb_neq in Ht. change (path_type m) with (ptype p). now rewrite Ht. }
  replace (map_match (stores st (ptype p)) p) with (match find (stores st (ptype p)) p with
    Some SUnresolved => Unresolved | Some (SValue v) => Resolved v | None => Resolved NotInSet end) by reflexivity.
  destruct (find (stores st (ptype p)) p) as [[|v]|] eqn:Ef.
  - rewrite E2. split; [exact Ho|]. rewrite Hs, H2. auto.
  - cbn [to_downstream_read mkind m make_upstream_read]. rewrite E2. split; [exact Ho|].
    destruct v as [n| |]; [| |congruence]; rewrite Hs, H2; (split; [reflexivity|]);
    rewrite app_nil_r, down_indices; exists (stores st1); destruct u; reflexivity.
  - rewrite E2. split; [exact Ho|]. rewrite Hs, H2. auto.
Qed.
End Props33.

(* "forwarded exactly once" cannot be had from any store for which asking twice is the same as asking once: if the
   first read reaches the producer so does the second *)
Theorem C33_once_impossible : forall S apply static_false look foreign P react sh (st : state S P) ty p u,
  let m := make_upstream_read ty (PPath p) u in
  (forall s, fst (apply (fst (apply s m)) m) = fst (apply s m)) ->
  (forall q x, snd (react q x) = []) -> listeners_of sh (ptype p) = [] ->
  forall st1 e1 st2 e2,
  push S apply static_false look foreign P react sh st m = (st1, e1) ->
  push S apply static_false look foreign P react sh st1 m = (st2, e2) ->
  existsb is_read_to_producer e1 = true -> existsb is_read_to_producer e2 = true.
Proof.
  intros S apply static_false look foreign P react sh st ty p u m Hi Hr Hl st1 e1 st2 e2.
  unfold push, push_up, push_read. cbn -[set_store tell_listeners propagate_downstream propagate_upstream].
  assert (G : forall st0 : state S P, stores (set_store S P st0 (ptype p) (fst (apply (stores st0 (ptype p)) m))) (ptype p) = fst (apply (stores st0 (ptype p)) m))
    by (intros; cbn; now rewrite Nat.eqb_refl).
  change (path_type (mk_msg UpRead ty [FPath (PPath p); uid_field u])) with (ptype p). rewrite !Hl. cbn [tell_listeners].
  change (mk_msg UpRead ty [FPath (PPath p); uid_field u]) with m. rewrite !G.
  destruct (look (fst (apply (stores st (ptype p)) m)) p) eqn:Elook.
  - unfold propagate_upstream at 1. change (path_type m) with (ptype p).
    destruct (react _ m) as [p1 an] eqn:Er. pose proof (Hr _ _ : snd (react (producers (set_store S P st (ptype p) (fst (apply (stores st (ptype p)) m))) (producer_of sh (ptype p))) m) = []) as Ha.
    rewrite Er in Ha. cbn in Ha. subst an. cbn [push_all_down app].
    intros E1. injection E1 as <- <-. intros E2 _.
    assert (Hst : stores (set_producer S P (set_store S P st (ptype p) (fst (apply (stores st (ptype p)) m))) (producer_of sh (ptype p)) p1) (ptype p) = fst (apply (stores st (ptype p)) m)) by apply G.
    rewrite Hst in E2. rewrite Hi, Elook in E2. unfold propagate_upstream in E2.
    clear Er. destruct (react _ m) as [p2 an2]. match type of E2 with context [push_all_down ?a ?b ?c ?d ?e ?f ?g ?h] => destruct (push_all_down a b c d e f g h) as [st3 e3] end.
    injection E2 as <- <-. reflexivity.
  - intros E1. injection E1 as <- <-. discriminate.
  - intros E1. injection E1 as <- <-. rewrite app_nil_r, down_indices. intros _ H. exfalso. revert H. induction (indices _ _); auto; discriminate.
Qed.

Definition C33_full : Prop := forall P (react : P -> msg -> P * list msg) sh (st : state table P) ty p u,
  map_match (stores st (ptype p)) p = Resolved NotInSet ->
  existsb is_read_to_producer (snd (push table map_apply map_static_false map_match no_foreign P react sh st (make_upstream_read ty (PPath p) u))) = true.

Theorem C33_forwarded_refuted : ~ C33_full.
Proof.
  intros H. specialize (H unit (fun p _ => (p, [])) {| actors := []; producer_of := fun _ => 0%nat; listeners_of := fun _ => [] |}
    {| stores := fun _ => []; producers := fun _ => tt |} 0 (mk_path 0 [5]) None eq_refl). discriminate.
Qed.

(* C34: for every store and every shape *)
Section Props34.
Context {S : Type} (apply : S -> msg -> S * bool) (static_false : msg -> bool) (look : S -> path -> outcome)
  (foreign : S -> msg -> S * list path) {P : Type} (react : P -> msg -> P * list msg) (sh : shape).

(* what push does to the store of the message's path type, and whether that counts as a change *)
Definition store_after (st : state S P) (m : msg) (t : nat) : S :=
  if static_false m then stores st t else if Nat.eqb t (path_type m) then fst (apply (stores st t) m) else stores st t.
Definition changed (st : state S P) (m : msg) : bool :=
  negb (static_false m) && snd (apply (stores st (path_type m)) m).

(* events of the listener phase: notifications of paths reported by listening stores *)
Definition from_listeners (m : msg) (e : list (event S)) : Prop :=
  forall ev, In ev e -> exists i p x t s, ev = Notify i p x /\ In t (listeners_of sh (path_type m)) /\ In p (snd (foreign s m)).

(* [nested]: what happens when the producer itself pushes messages while it handles this one *)
Definition nested_of (m : msg) (q : P) (e : list (event S)) : Prop :=
  existsb is_to_producer e = false /\ (snd (react q m) = [] -> e = []).

Theorem C34_routing : forall st m p st' ev, path_of m = Some p ->
  is_upstream m && is_read m = false ->
  push S apply static_false look foreign P react sh st m = (st', ev) ->
  exists (x : nat -> S) rest nested,
    (forall t, x t = store_after st m t) /\ from_listeners m rest /\
    nested_of m (producers st (producer_of sh (path_type m))) nested /\
    ev = (if changed st m then map (fun i => Notify i p x) (indices state_consumer (actors sh)) else []) ++
         (if is_upstream m then ToProducer (producer_of sh (path_type m)) m x :: nested
          else map (fun i => ToConsumer i m x) (indices consumer (actors sh))) ++ rest.
Proof.
  intros st m p st' ev Hp Hr E. unfold push in E.
  assert (HA : exists st1, apply_and_notify S apply static_false P sh st m p =
      (st1, if changed st m then map (fun i => Notify i p (stores st1)) (indices state_consumer (actors sh)) else []) /\
      producers st1 = producers st /\
      forall t, stores st1 t = store_after st m t).
  { unfold apply_and_notify, changed, store_after. destruct (static_false m); cbn [negb andb]; [eauto|].
    destruct (apply (stores st (path_type m)) m) as [s1 c] eqn:Ea. cbn [snd]. eexists. split; [rewrite notify_indices; reflexivity|].
    split; [reflexivity|].
    intros t. cbn. destruct (Nat.eqb t (path_type m)) eqn:Et; auto. apply Nat.eqb_eq in Et. subst. now rewrite Ea. }
  destruct HA as (st1 & HA & HP & Hst). destruct (is_upstream m) eqn:Eu.
  - unfold push_up in E. rewrite Hp in E. cbn [andb] in Hr. rewrite Hr, HA in E. unfold propagate_upstream in E. rewrite HP in E.
    destruct (react (producers st (producer_of sh (path_type m))) m) as [p1 an] eqn:Er.
    destruct (push_all_down _ _ _ _ _ _ _ _) as [st3 e3] eqn:E3.
    destruct (tell_listeners _ _ _ _ _ _ _) as [st2 e2] eqn:Et. injection E as <- <-.
    exists (stores st1), e2, e3. split; [exact Hst|]. split; [intros e He; exact (tell_notes _ _ _ _ _ _ _ Et e He)|]. split.
    + split; [eapply push_all_down_none; eauto|]. rewrite Er. cbn. intros ->. cbn in E3. now injection E3 as <- <-.
    + now rewrite <- app_assoc.
  - unfold push_down in E. rewrite Hp, HA in E. destruct (tell_listeners _ _ _ _ _ _ _) as [st2 e2] eqn:Et. injection E as <- <-.
    exists (stores st1), e2, []. split; [exact Hst|]. split; [intros e He; exact (tell_notes _ _ _ _ _ _ _ Et e He)|]. split; [split; auto|].
    now rewrite down_indices.
Qed.

(* a create whose key is still to be chosen goes to the producer and nowhere else; no store is touched *)
Theorem C34_create_routing : forall st m st' ev, path_of m = None -> is_upstream m = true ->
  push S apply static_false look foreign P react sh st m = (st', ev) ->
  exists nested, ev = ToProducer (producer_of sh (path_type m)) m (stores st) :: nested /\
    nested_of m (producers st (producer_of sh (path_type m))) nested /\
    (snd (react (producers st (producer_of sh (path_type m))) m) = [] -> stores st' = stores st).
Proof.
  intros st m st' ev Hp Hu E. unfold push in E. rewrite Hu in E. unfold push_up in E. rewrite Hp in E. unfold propagate_upstream in E.
  destruct (react (producers st (producer_of sh (path_type m))) m) as [p1 an] eqn:Er.
  destruct (push_all_down _ _ _ _ _ _ _ _) as [st3 e3] eqn:E3. injection E as <- <-.
  exists e3. split; [reflexivity|]. unfold nested_of. rewrite Er. cbn. split; [split; [eapply push_all_down_none; eauto|]|];
  intros ->; cbn in E3; now injection E3 as <- <-.
Qed.
End Props34.

(* C35 *)
Section Props35.
Variable sh : shape.
Variable modulus : N.
Notation push_e := (push table map_apply map_static_false map_match no_foreign counters (echo_react modulus) sh).
Notation run_e := (run table map_apply map_static_false map_match no_foreign counters (echo_react modulus) sh).

Definition next_key (c : counters) (m : msg) : N := (c (mtype m) + 1) mod modulus.
Definition answer (c : counters) (m : msg) : option msg :=
  if requires_key m then to_downstream_with_key m (next_key c m) None else to_downstream m None.

(* the message the producer answers with *)
Lemma echo_react_answer : forall c m, request m -> exists d p,
  answer c m = Some d /\ snd (echo_react modulus c m) = [d] /\ path_of d = Some p /\ is_upstream d = false /\
  path_type d = path_type m /\ ptype p = path_type m /\
  (forall t, fst (echo_react modulus c m) t = if requires_key m && N.eqb t (mtype m) then next_key c m else c t).
Proof.
  intros c m H. unfold answer, echo_react. destruct H; cbn; do 2 eexists; (split; [reflexivity|]); repeat split; auto.
Qed.

Lemma NoDup_app_single {A} (l : list A) x : NoDup l -> ~ In x l -> NoDup (l ++ [x]).
Proof. intros H Hn. apply NoDup_Add with (a := x) (l := l) (l' := l ++ [x]); [|now split]. rewrite <- (app_nil_r l) at 1. apply Add_app. Qed.
Lemma NoDup_app_single_inv {A} (l : list A) x : NoDup (l ++ [x]) -> NoDup l /\ ~ In x l.
Proof. intros H. apply NoDup_remove in H. now rewrite app_nil_r in H. Qed.
Lemma executed_nodup reqs created T : executed reqs created T -> NoDup created.
Proof. induction 1; auto; [constructor|now apply NoDup_app_single]. Qed.

Lemma echo_step : forall m (st : state table counters), request m -> exists d p st' e,
  answer (producers st (producer_of sh (path_type m))) m = Some d /\
  path_of d = Some p /\ is_upstream d = false /\ path_type d = path_type m /\ ptype p = path_type m /\
  push_e st m = (st', e) /\
  (forall t, stores st' t = if Nat.eqb t (path_type m) then fst (map_apply (stores st t) d) else stores st t) /\
  (forall i t, producers st' i t = if Nat.eqb i (producer_of sh (path_type m)) && (requires_key m && N.eqb t (mtype m))
                                   then next_key (producers st i) m else producers st i t) /\
  exists x, filter is_send e = ToProducer (producer_of sh (path_type m)) m (stores st) :: map (fun i => ToConsumer i d x) (indices consumer (actors sh)) /\
    (forall t, x t = stores st' t).
Proof.
  intros m st H. set (i := producer_of sh (path_type m)).
  destruct (echo_react_answer (producers st i) m H) as (d & p & A1 & A2 & A3 & A4 & A5 & A6 & A7).
  exists d, p.
  assert (U : exists st1 e1, propagate_upstream table map_apply map_static_false no_foreign counters (echo_react modulus) sh st m = (st1, e1) /\
    (forall t, stores st1 t = if Nat.eqb t (path_type m) then fst (map_apply (stores st t) d) else stores st t) /\
    (forall j t, producers st1 j t = if Nat.eqb j i && (requires_key m && N.eqb t (mtype m)) then next_key (producers st j) m else producers st j t) /\
    exists x, filter is_send e1 = ToProducer i m (stores st) :: map (fun i => ToConsumer i d x) (indices consumer (actors sh)) /\ (forall t, x t = stores st1 t)).
  { unfold propagate_upstream. fold i. destruct (echo_react modulus (producers st i) m) as [c1 an] eqn:Er. cbn [snd fst] in A2, A7. subst an.
    cbn [push_all_down].
    destruct (push_down_map sh (set_producer table counters st i c1) d p A3 A4) as (st2 & e2 & E2 & P2 & S2 & x & X1 & X2).
    rewrite E2. do 2 eexists. split; [reflexivity|]. split; [|split].
    - intros t. rewrite S2. cbn. now rewrite A5.
    - intros j t. rewrite P2. cbn. destruct (Nat.eqb j i) eqn:Ej; auto. apply Nat.eqb_eq in Ej. subst j. apply A7.
    - exists x. cbn. rewrite app_nil_r, X1. auto. }
  destruct U as (st1 & e1 & U & S1 & P1 & x & X1 & X2).
  assert (T : exists st2 e2, push_e st m = (st2, e2) /\ producers st2 = producers st1 /\ (forall t, stores st2 t = stores st1 t) /\ filter is_send e2 = filter is_send e1).
  { unfold push. destruct H; cbn [is_upstream mkind make_upstream_create make_upstream_update make_upstream_delete].
    - unfold push_up. cbn [path_of get_path at_c nth_error storage make_upstream_create]. rewrite U. eauto 10.
    - unfold push_up. cbn [path_of get_path at_c nth_error storage make_upstream_update is_read mkind]. unfold apply_and_notify.
      change (map_static_false (make_upstream_update ty (PPath q) u v)) with true. cbv iota. rewrite U.
      destruct (tell_none sh (make_upstream_update ty (PPath q) u v) (listeners_of sh (path_type (make_upstream_update ty (PPath q) u v))) st1) as (st2 & E2 & Q1 & Q2).
      rewrite E2. do 2 eexists. split; [reflexivity|]. split; [auto|]. split; [auto|]. now rewrite app_nil_r.
    - unfold push_up. cbn [path_of get_path at_c nth_error storage make_upstream_delete is_read mkind]. unfold apply_and_notify.
      change (map_static_false (make_upstream_delete ty (PPath q) u)) with true. cbv iota. rewrite U.
      destruct (tell_none sh (make_upstream_delete ty (PPath q) u) (listeners_of sh (path_type (make_upstream_delete ty (PPath q) u))) st1) as (st2 & E2 & Q1 & Q2).
      rewrite E2. do 2 eexists. split; [reflexivity|]. split; [auto|]. split; [auto|]. now rewrite app_nil_r. }
  destruct T as (st2 & e2 & T1 & T2 & T3 & T4). exists st2, e2.
  repeat (split; [solve [auto]|]). split; [intros t; rewrite T3; apply S1|]. split; [intros j t; rewrite T2; apply P1|].
  exists x. rewrite T4. split; auto. intros t. now rewrite T3.
Qed.

(* every request reaches its producer and is answered to every consumer by one message: a create at the key chosen,
   everything else with path, uid and payload unchanged *)
Theorem C35_reflects : forall m (st : state table counters), request m ->
  exists d x x', 
    filter is_send (snd (push_e st m)) =
      ToProducer (producer_of sh (path_type m)) m x :: map (fun i => ToConsumer i d x') (indices consumer (actors sh)) /\
    is_upstream d = false /\ get_uid d = get_uid m /\ get_payload d = get_payload m /\
    (requires_key m = false -> get_path d = get_path m) /\
    (requires_key m = true -> exists t parent k, get_path m = Some (FPath (PCreate t parent)) /\
       k = next_key (producers st (producer_of sh (path_type m))) m /\ get_path d = Some (FPath (PPath (mk_path t (parent ++ [k]))))).
Proof.
  intros m st H. destruct (echo_step m st H) as (d & p & st' & e & A1 & A2 & A3 & A4 & A5 & A6 & A7 & A8 & x & A9 & _).
  exists d, (stores st), x. rewrite A6. split; [exact A9|]. split; [exact A3|]. unfold answer in A1.
  destruct H; cbn in A1; injection A1 as <-; destruct u; cbn; repeat split; auto; try discriminate; do 3 eexists; repeat split; reflexivity.
Qed.

(* C35, the table: when all creates of a path type are messages of one C++ type and the keys do not run out *)
Theorem C35_table_partial : forall (reqs : list msg) (ty : nat -> N) (st0 : state table counters),
  Forall request reqs -> (forall m, In m reqs -> requires_key m = true -> mtype m = ty (path_type m)) ->
  (forall t, stores st0 t = []) -> (forall i t, producers st0 i t + N.of_nat (length reqs) < modulus) ->
  exists created T, executed reqs created T /\
    forall p, find (stores (fst (run_e st0 (map Push reqs))) (ptype p)) p = option_map SValue (T p).
Proof.
  intros reqs ty st0 HR HT HE HM.
  assert (G : exists created T, executed reqs created T /\
    (forall p, find (stores (fst (run_e st0 (map Push reqs))) (ptype p)) p = option_map SValue (T p)) /\
    (forall i t, producers (fst (run_e st0 (map Push reqs))) i t <= producers st0 i t + N.of_nat (length reqs)) /\
    (forall q, In q created -> exists parent k, keys q = parent ++ [k] /\ k <= producers (fst (run_e st0 (map Push reqs))) (producer_of sh (ptype q)) (ty (ptype q)))).
  2: { destruct G as (cr & T & H1 & H2 & _). eauto. }
  induction reqs as [|m reqs IH] using rev_ind.
  { exists [], (fun _ => None). cbn. split; [constructor|]. split; [intros p; now rewrite HE|]. split; [intros; lia|]. intros q []. }
  apply Forall_app in HR as [HR1 HR2]. inversion HR2 as [|? ? Hm _]. subst.
  destruct IH as (cr & T & I1 & I2 & I3 & I4); auto.
  { intros m' Hm' Hk. apply HT; auto. apply in_or_app. now left. }
  { intros i t. specialize (HM i t). rewrite app_length in HM. cbn in HM. lia. }
  rewrite map_app. rewrite run_app. destruct (run_e st0 (map Push reqs)) as [st e] eqn:Er. cbn [fst] in *.
  destruct (echo_step m st Hm) as (d & p & st' & e' & A1 & A2 & A3 & A4 & A5 & A6 & A7 & A8 & _).
  cbn [map run]. rewrite A6. cbn [fst].
  assert (Hlen : N.of_nat (length (reqs ++ [m])) = N.of_nat (length reqs) + 1) by (rewrite app_length; cbn; lia).
  assert (Hkey : forall i, next_key (producers st i) m = producers st i (mtype m) + 1).
  { intros i. unfold next_key. apply N.mod_small. specialize (HM i (mtype m)). specialize (I3 i (mtype m)). lia. }
  assert (HP : forall i t, producers st' i t <= producers st0 i t + N.of_nat (length (reqs ++ [m]))).
  { intros i t. rewrite A8, Hlen. specialize (I3 i t). destruct (_ && _) eqn:Eb; [|lia].
    apply andb_prop in Eb as [_ Eb]. apply andb_prop in Eb as [_ Eb]. apply N.eqb_eq in Eb. subst t. rewrite Hkey. lia. }
  assert (HPm : forall i t, producers st i t <= producers st' i t).
  { intros i t. rewrite A8. destruct (_ && _) eqn:Eb; [|lia].
    apply andb_prop in Eb as [_ Eb]. apply andb_prop in Eb as [_ Eb]. apply N.eqb_eq in Eb. subst t. rewrite Hkey. lia. }
  assert (HS : forall q v', (forall q2, find (fst (map_apply (stores st (ptype q)) d)) q2 = option_map SValue (upd T q v' q2) \/ ptype q2 <> ptype q) ->
     ptype q = path_type m -> forall q2, find (stores st' (ptype q2)) q2 = option_map SValue (upd T q v' q2)).
  { intros q v' Hq Hqt q2. rewrite A7. destruct (Nat.eqb (ptype q2) (path_type m)) eqn:Eq.
    - apply Nat.eqb_eq in Eq. destruct (Hq q2) as [Hx|Hx]; [|congruence]. rewrite Eq, <- Hqt. exact Hx.
    - unfold upd. destruct (path_eqb q2 q) eqn:E2; [|apply I2]. apply path_eqb_spec in E2. subst q2. apply Nat.eqb_neq in Eq. congruence. }
  destruct Hm as [ty0 t parent u v pr|ty0 q u v|ty0 q u].
  - (* create *)
    set (i := producer_of sh t) in *. set (m := make_upstream_create ty0 (PCreate t parent) u v pr) in *.
    set (k := next_key (producers st i) m) in *.
    assert (Hty : ty0 = ty t) by (apply (HT m); [apply in_or_app; right; now left|reflexivity]).
    assert (Hf : ~ In (mk_path t (parent ++ [k])) cr).
    { intros Hin. destruct (I4 _ Hin) as (par & k' & Hk1 & Hk2). cbn in Hk1, Hk2. fold i in Hk2.
      apply app_inj_tail in Hk1 as [_ Hk1]. subst k'. unfold k in Hk2. rewrite Hkey in Hk2. cbn in Hk2. rewrite Hty in Hk2. lia. }
    exists (cr ++ [mk_path t (parent ++ [k])]), (upd T (mk_path t (parent ++ [k])) (Some v)).
    split; [now apply executed_create|]. split; [|split; [exact HP|]].
    + apply HS; [|reflexivity]. intros q2. cbn [ptype]. destruct (Nat.eq_dec (ptype q2) t) as [Et|Et]; [left|now right].
      unfold answer in A1. cbn in A1. injection A1 as <-. unfold map_apply. cbn [path_of get_path at_c nth_error storage mkind fst].
      fold i m k. rewrite find_assign. unfold upd. destruct (path_eqb q2 (mk_path t (parent ++ [k]))); [reflexivity|]. rewrite <- Et. apply I2.
    + intros q Hq. apply in_app_or in Hq as [Hq|[<-|[]]].
      * destruct (I4 q Hq) as (par & k' & Hk1 & Hk2). exists par, k'. split; auto. specialize (HPm (producer_of sh (ptype q)) (ty (ptype q))). lia.
      * exists parent, k. split; auto. cbn [ptype]. fold i. rewrite A8. cbn [m path_type get_path at_c nth_error storage make_upstream_create].
        fold i. rewrite Nat.eqb_refl. change (requires_key m) with true. change (mtype m) with ty0. rewrite Hty, N.eqb_refl. cbn. fold k. lia.
  - exists cr, (upd T q (Some v)). split; [now apply executed_update|]. split; [|split; [exact HP|]].
    + apply HS; [|reflexivity]. intros q2. destruct (Nat.eq_dec (ptype q2) (ptype q)) as [Et|Et]; [left|now right].
      unfold answer in A1. cbn in A1. injection A1 as <-. unfold map_apply. cbn [path_of get_path at_c nth_error storage mkind fst].
      rewrite find_assign. unfold upd. destruct (path_eqb q2 q); [reflexivity|]. rewrite <- Et. apply I2.
    + intros q2 Hq. destruct (I4 q2 Hq) as (par & k' & Hk1 & Hk2). exists par, k'. split; auto. specialize (HPm (producer_of sh (ptype q2)) (ty (ptype q2))). lia.
  - exists cr, (upd T q None). split; [now apply executed_delete|]. split; [|split; [exact HP|]].
    + apply HS; [|reflexivity]. intros q2. destruct (Nat.eq_dec (ptype q2) (ptype q)) as [Et|Et]; [left|now right].
      unfold answer in A1. cbn in A1. injection A1 as <-. unfold map_apply. cbn [path_of get_path at_c nth_error storage mkind fst].
      rewrite find_erase. unfold upd. destruct (path_eqb q2 q); [reflexivity|]. rewrite <- Et. apply I2.
    + intros q2 Hq. destruct (I4 q2 Hq) as (par & k' & Hk1 & Hk2). exists par, k'. split; auto. specialize (HPm (producer_of sh (ptype q2)) (ty (ptype q2))). lia.
Qed.

(* Exactly, for all requests: the n-th create of a C++ type gets n as its key, whatever the creates of other types got *)
Theorem C35_exact : forall (reqs : list msg) (st0 : state table counters), modulus <> 0 ->
  Forall request reqs -> (forall t, stores st0 t = []) -> (forall i t, producers st0 i t = 0) ->
  exists created T, numbered (producer_of sh) modulus reqs created T /\
    forall p, find (stores (fst (run_e st0 (map Push reqs))) (ptype p)) p = option_map SValue (T p).
Proof.
  intros reqs st0 M0 HR HE HZ.
  assert (CA : forall ty i h m, creates_like (producer_of sh) ty i (h ++ [m]) = creates_like (producer_of sh) ty i h + creates_like (producer_of sh) ty i [m]).
  { intros ty i h m. induction h as [|x h IH]; [reflexivity|]. cbn [creates_like app] in *. rewrite IH. lia. }
  assert (G : exists created T, numbered (producer_of sh) modulus reqs created T /\
    (forall p, find (stores (fst (run_e st0 (map Push reqs))) (ptype p)) p = option_map SValue (T p)) /\
    (forall i t, producers (fst (run_e st0 (map Push reqs))) i t = creates_like (producer_of sh) t i reqs mod modulus)).
  2: { destruct G as (cr & T & H1 & H2 & _). eauto. }
  induction reqs as [|m reqs IH] using rev_ind.
  { exists [], (fun _ => None). cbn. split; [constructor|]. split; [intros p; now rewrite HE|]. intros i t. rewrite HZ. symmetry. now apply N.mod_0_l. }
  apply Forall_app in HR as [HR1 HR2]. inversion HR2 as [|? ? Hm _]. subst.
  destruct IH as (cr & T & I1 & I2 & I3); auto.
  rewrite map_app. rewrite run_app. destruct (run_e st0 (map Push reqs)) as [st e] eqn:Er. cbn [fst] in *.
  destruct (echo_step m st Hm) as (d & p & st' & e' & A1 & A2 & A3 & A4 & A5 & A6 & A7 & A8 & _).
  cbn [map run]. rewrite A6. cbn [fst].
  assert (Hkey : forall i, next_key (producers st i) m = (creates_like (producer_of sh) (mtype m) i reqs + 1) mod modulus).
  { intros i. unfold next_key. rewrite I3. now rewrite N.add_mod_idemp_l. }
  assert (HP : forall i t, producers st' i t = creates_like (producer_of sh) t i (reqs ++ [m]) mod modulus).
  { intros i t. rewrite A8, CA, (Nat.eqb_sym i), (N.eqb_sym t). clear - I3 Hkey Hm. destruct Hm as [ty0 t0 parent u v pr|ty0 q u v|ty0 q u].
    - set (m := make_upstream_create ty0 (PCreate t0 parent) u v pr) in *. cbn [creates_like mkind mtype storage m make_upstream_create]. change (requires_key m) with true. change (path_type m) with t0. change (mtype m) with ty0 in *. cbn [andb].
      rewrite (andb_comm (Nat.eqb _ _)). destruct (ty0 =? t) eqn:Et; cbn [andb]; [|now rewrite I3, !N.add_0_r]. apply N.eqb_eq in Et as <-.
      destruct (Nat.eqb (producer_of sh t0) i); [now rewrite Hkey, N.add_0_r|now rewrite I3, !N.add_0_r].
    - cbn. rewrite andb_false_r, I3. now rewrite !N.add_0_r.
    - cbn. rewrite andb_false_r, I3. now rewrite !N.add_0_r. }
  assert (HS : forall q v', (forall q2, find (fst (map_apply (stores st (ptype q)) d)) q2 = option_map SValue (upd T q v' q2) \/ ptype q2 <> ptype q) ->
     ptype q = path_type m -> forall q2, find (stores st' (ptype q2)) q2 = option_map SValue (upd T q v' q2)).
  { intros q v' Hq Hqt q2. rewrite A7. destruct (Nat.eqb (ptype q2) (path_type m)) eqn:Eq.
    - apply Nat.eqb_eq in Eq. destruct (Hq q2) as [Hx|Hx]; [|congruence]. rewrite Eq, <- Hqt. exact Hx.
    - unfold upd. destruct (path_eqb q2 q) eqn:E2; [|apply I2]. apply path_eqb_spec in E2. subst q2. apply Nat.eqb_neq in Eq. congruence. }
  destruct Hm as [ty0 t parent u v pr|ty0 q u v|ty0 q u].
  - set (i := producer_of sh t) in *. set (m := make_upstream_create ty0 (PCreate t parent) u v pr) in *.
    set (k := next_key (producers st i) m) in *.
    exists (cr ++ [mk_path t (parent ++ [k])]), (upd T (mk_path t (parent ++ [k])) (Some v)).
    split; [now apply numbered_create; [|apply Hkey]|]. split; [|exact HP].
    apply HS; [|reflexivity]. intros q2. cbn [ptype]. destruct (Nat.eq_dec (ptype q2) t) as [Et|Et]; [left|now right].
    unfold answer in A1. cbn in A1. injection A1 as <-. unfold map_apply. cbn [path_of get_path at_c nth_error storage mkind fst].
    fold i m k. rewrite find_assign. unfold upd. destruct (path_eqb q2 (mk_path t (parent ++ [k]))); [reflexivity|]. rewrite <- Et. apply I2.
  - exists cr, (upd T q (Some v)). split; [now apply numbered_update|]. split; [|exact HP].
    apply HS; [|reflexivity]. intros q2. destruct (Nat.eq_dec (ptype q2) (ptype q)) as [Et|Et]; [left|now right].
    unfold answer in A1. cbn in A1. injection A1 as <-. unfold map_apply. cbn [path_of get_path at_c nth_error storage mkind fst].
    rewrite find_assign. unfold upd. destruct (path_eqb q2 q); [reflexivity|]. rewrite <- Et. apply I2.
  - exists cr, (upd T q None). split; [now apply numbered_delete|]. split; [|exact HP].
    apply HS; [|reflexivity]. intros q2. destruct (Nat.eq_dec (ptype q2) (ptype q)) as [Et|Et]; [left|now right].
    unfold answer in A1. cbn in A1. injection A1 as <-. unfold map_apply. cbn [path_of get_path at_c nth_error storage mkind fst].
    rewrite find_erase. unfold upd. destruct (path_eqb q2 q); [reflexivity|]. rewrite <- Et. apply I2.
Qed.
(* so the requests are executed as they should be if, and only if, these keys make different paths *)
Theorem C35_fresh_iff : forall producer reqs created T, numbered producer modulus reqs created T -> (executed reqs created T <-> NoDup created).
Proof.
  intros producer reqs created T H. split; [apply executed_nodup|].
  induction H as [|h ks T ty t parent u v pr k H IH E|h ks T ty q u v H IH|h ks T ty q u H IH]; intros X.
  - constructor.
  - apply NoDup_app_single_inv in X as [X1 X2]. apply executed_create; [now apply IH|exact X2].
  - now apply executed_update, IH.
  - now apply executed_delete, IH.
Qed.
End Props35.

(* C35 is false in general: creates of the same path type with and without a private payload are different C++ types,
   with counters of their own, so the second overwrites the first *)
Definition one_echo : shape :=
  {| actors := [{| consumer := false; state_consumer := false |}; {| consumer := true; state_consumer := true |}];
     producer_of := fun _ => 0%nat; listeners_of := fun _ => [] |}.
Definition fresh_state : state table counters := {| stores := fun _ => []; producers := fun _ _ => 0 |}.
Definition echo_run (modulus : N) (reqs : list msg) :=
  run table map_apply map_static_false map_match no_foreign counters (echo_react modulus) one_echo fresh_state (map Push reqs).

Definition C35_full : Prop := forall reqs, Forall request reqs -> N.of_nat (length reqs) < 2 ^ 32 ->
  exists created T, executed reqs created T /\
    forall p, find (stores (fst (echo_run (2 ^ 32) reqs)) (ptype p)) p = option_map SValue (T p).

Definition two_creates : list msg :=
  [make_upstream_create 1 (PCreate 0 []) None (Entity 10) None; make_upstream_create 2 (PCreate 0 []) None (Entity 20) (Some 5)].

Theorem C35_fresh_keys_refuted : ~ C35_full.
Proof.
  intros H. destruct (H two_creates) as (cr & T & He & Hf).
  - repeat constructor.
  - vm_compute. reflexivity.
  - assert (Hall : forall p, T p = Some (Entity 10) -> False).
    { intros p Hp. specialize (Hf p). rewrite Hp in Hf. cbn [option_map] in Hf.
      assert (Hx : forall t, stores (fst (echo_run (2 ^ 32) two_creates)) t = if Nat.eqb t 0 then [(mk_path 0 [1], SValue (Entity 20))] else [])
        by (intros [|t]; reflexivity).
      rewrite Hx in Hf. destruct (Nat.eqb (ptype p) 0); cbn in Hf; [destruct (path_eqb p _)|]; congruence. }
    remember two_creates as reqs eqn:Er.
    inversion He as [E1|h ks T0 ty t parent u v pr k He0 Hn E1|h ks T0 ty q u v He0 E1|h ks T0 ty q u He0 E1]; subst; try discriminate;
    change two_creates with ([make_upstream_create 1 (PCreate 0 []) None (Entity 10) None] ++ [make_upstream_create 2 (PCreate 0 []) None (Entity 20) (Some 5)]) in E1;
    apply app_inj_tail in E1 as [-> E1]; try discriminate.
    unfold make_upstream_create in E1. injection E1 as ? ? ? ? ? ?. subst ty t parent v.
    remember [make_upstream_create 1 (PCreate 0 []) None (Entity 10) None] as r1 eqn:Er1.
    inversion He0 as [E1|h ks' T1 ty t parent u' v pr' k' He1 Hn1 E1|h ks' T1 ty q u' v He1 E1|h ks' T1 ty q u' He1 E1]; subst; try discriminate;
    apply (app_inj_tail h [] _ _) in E1 as [-> E1]; try discriminate.
    unfold make_upstream_create in E1. injection E1 as ? ? ? ? ? ?. subst ty t parent v.
    apply (Hall (mk_path 0 [k'])). unfold upd. cbn [app].
    destruct (path_eqb (mk_path 0 [k']) (mk_path 0 [k])) eqn:Ek.
    + exfalso. apply path_eqb_spec in Ek. apply Hn. cbn [app]. rewrite <- Ek. apply in_or_app. right. now left.
    + now rewrite path_eqb_refl.
Qed.

Print Assumptions C36_accessors.
Print Assumptions C36_conversions.
Print Assumptions C36_private_payload_refuted.
Print Assumptions C36_holds.
Print Assumptions C32_map_store.
Print Assumptions C32_reports_change.
Print Assumptions C33_never_forwarded.
Print Assumptions C33_reads_partial.
Print Assumptions C33_once_impossible.
Print Assumptions C33_forwarded_refuted.
Print Assumptions C34_routing.
Print Assumptions C34_create_routing.
Print Assumptions C35_reflects.
Print Assumptions C35_table_partial.
Print Assumptions C35_exact.
Print Assumptions C35_fresh_iff.
Print Assumptions C35_fresh_keys_refuted.

Definition k5 := mk_path 0 [5].
Example C32_ex : let h := [make_upstream_read 0 (PPath k5) None; make_downstream_read 0 (PPath k5) None (Entity 1);
    make_downstream_read 0 (PPath k5) None (Entity 2); make_downstream_create 0 (PPath (mk_path 0 [6])) None (Entity 3) None] in
  map_match (fold_left (fun s m => fst (map_apply s m)) h []) k5 = Resolved (Entity 1) /\ entry_of k5 h = Present (Entity 1) /\ entry_of k5 (h ++ [make_downstream_delete 0 (PPath k5) None None]) = Absent /\ entry_of k5 (firstn 1 h) = Pending /\ changes (firstn 1 h) (nth 1 h (nth 0 h (mk_msg UpRead 0 []))) = true.
Proof. vm_compute. auto. Qed.
(* the answer to a read the context sent nowhere *)
Example C33_ex : snd (echo_run 256 [make_upstream_read 0 (PPath k5) None; make_upstream_read 0 (PPath k5) None]) = [] /\ length (snd (echo_run 256 [make_upstream_update 0 (PPath k5) None (Entity 4); make_upstream_read 0 (PPath k5) None])) = 4%nat.
Proof. vm_compute. auto. Qed.
Definition strip {S} (e : event S) : N * nat * msg + nat * path :=
  match e with ToProducer i m _ => inl (0, i, m) | ToConsumer i m _ => inl (1, i, m) | Notify i p _ => inr (i, p) end.
Example C34_ex : let sink := fun (p : unit) (_ : msg) => (p, @nil msg) in
  let sh := {| actors := [{| consumer := true; state_consumer := true |}; {| consumer := false; state_consumer := true |}; {| consumer := true; state_consumer := false |}];
               producer_of := fun _ => 1%nat; listeners_of := fun t => [1%nat] |} in
  let m := make_downstream_update 0 (PPath k5) None (Entity 1) None in
  map strip (snd (push table map_apply map_static_false map_match (fun s m => (s, [mk_path 1 []])) unit sink sh {| stores := fun _ => []; producers := fun _ => tt |} m))
  = [inr (0%nat, k5); inr (1%nat, k5); inl (1, 0%nat, m); inl (1, 2%nat, m); inr (0%nat, mk_path 1 []); inr (1%nat, mk_path 1 [])].
Proof. vm_compute. reflexivity. Qed.
Example C35_ex : stores (fst (echo_run 256 [make_upstream_create 1 (PCreate 0 [7]) None (Entity 10) None; make_upstream_create 1 (PCreate 0 [7]) None (Entity 20) None;
    make_upstream_delete 1 (PPath (mk_path 0 [7; 1])) None; make_upstream_update 1 (PPath (mk_path 0 [7; 2])) None (Entity 21)])) 0%nat
  = [(mk_path 0 [7; 2], SValue (Entity 21))].
Proof. vm_compute. reflexivity. Qed.
(* the key type runs out: with 256 keys the 257th create has the key of the first *)
(* the two creates of the counterexample are both given 1 *)
Example C35_exact_ex : numbered (fun _ => 0%nat) (2 ^ 32) two_creates [mk_path 0 [1]; mk_path 0 [1]] (upd (upd (fun _ => None) (mk_path 0 [1]) (Some (Entity 10))) (mk_path 0 [1]) (Some (Entity 20))).
Proof. apply (numbered_create _ _ [_] [mk_path 0 [1]] _ 2 0 [] None (Entity 20) (Some 5) 1); [|reflexivity]. apply (numbered_create _ _ [] [] _ 1 0 [] None (Entity 10) None 1); [constructor|reflexivity]. Qed.
Example C35_wraps : map fst (stores (fst (echo_run 256 (repeat (make_upstream_create 1 (PCreate 0 []) None (Entity 10) None) 257))) 0%nat)
  = map (fun i => mk_path 0 [N.of_nat i]) (1%nat :: 0%nat :: rev (seq 2 254)).
Proof. vm_compute. reflexivity. Qed.
Example C36_ex : to_downstream_with_key (make_upstream_create 1 (PCreate 3 [7; 8]) (Some 4) (Entity 10) None) 9 (Some true)
  = Some (make_downstream_create 1 (PPath (mk_path 3 [7; 8; 9])) (Some 4) (Entity 10) (Some true)).
Proof. reflexivity. Qed.
