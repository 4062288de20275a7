(* C84: contexts connected by nbdl::app::server and nbdl::app::client *)
From Verif Require Import Base StoreModel StoreSpec StoreProofs StoreProps NetModel NetSpec NetProofs.

Section Props84.
Context {text : Type} (up_text : nat -> msg -> text) (up_read : text -> incoming) (down_text : msg -> text) (down_read : nat -> text -> incoming)
  {P : Type} (react : P -> msg -> P * list msg) (ssh : shape) (srv : nat) (csh : shape) (cli : nat).
(* what one side writes the other side reads (C64); producers answer with downstream messages; nbdl::app::server is a
   consumer *)
Hypothesis up_codec : forall i m, is_upstream m = true -> up_read (up_text i m) = Message m.
Hypothesis down_codec : forall i m, is_upstream m = false -> down_read i (down_text m) = Message m.
Hypothesis answers_down : forall q m d, In d (snd (react q m)) -> is_upstream d = false.
Hypothesis srv_consumer : exists a, nth_error (actors ssh) srv = Some a /\ consumer a = true.
Notation step := (NetModel.step text up_text up_read down_text down_read P react ssh srv csh cli).
Notation run := (NetModel.run text up_text up_read down_text down_read P react ssh srv csh cli).
Notation start := (NetModel.start text P).
Variable st0 : state table P.
Hypothesis empty : forall t, stores st0 t = [].

Let survives (i : nat) (m m' : msg) (H : is_upstream m = false) (E : Some m = Some m') : is_upstream m' = false := eq_ind m (fun x => is_upstream x = false) H m' (f_equal (fun o => match o with Some x => x | None => m end) E).
Let inv (uok vok : nat -> Prop) := inv_run up_text up_read down_text down_read react ssh srv csh cli up_codec (fun _ m => Some m) down_codec survives answers_down srv_consumer uok vok.

Lemma inv_of uok vok ls n : run (start st0) ls = Some n -> Forall (fine (text := text) uok vok) ls ->
  Inv up_text down_text (fun _ m => Some m) uok vok n.
Proof. intros E F. eapply inv; eauto. now apply inv_start. Qed.
Lemma fine_none ls : Forall (fine (text := text) (fun _ => False) (fun _ => False)) ls.
Proof. apply Forall_forall. intros [] _; cbn; auto; contradiction. Qed.

(* C84: whatever fails and whatever is written to the connections, client i has been pushed a prefix of the messages
   that the server's context gave to its consumers since the connection of client i was registered: each once and in
   order; all of them when nothing is under way *)
Theorem C84_history : forall l1 i l2 n c,
  run (start st0) (l1 ++ Register _ i :: l2) = Some n -> nth_error (members _ _ n) i = Some c ->
  exists n1 news, run (start st0) l1 = Some n1 /\ told _ _ n = told _ _ n1 ++ news /\
    prefix (got _ c) news /\ (at_rest c -> got _ c = news).
Proof.
  intros l1 i l2 n c E H. destruct (register_since _ _ _ _ _ _ _ _ _ (fun _ => False) (fun _ => False) i l1 l2 _ _ _ E H) as (n1 & news & A & B & C).
  exists n1, news. split; auto. split; auto.
  destruct (inv_d _ _ _ _ _ _ _ (inv_of _ _ _ _ E (fine_none _)) _ _ H) as (_ & _ & _ & rest & later & D4 & (heard & D0 & D5) & D6).
  rewrite map_some_all in D0. subst heard.
  rewrite C, B, skipn_app, skipn_all, Nat.sub_diag in D5. cbn in D5. split; [exists (rest ++ later); auto|].
  intros (_ & R1 & _ & R2). rewrite R2 in D4. destruct rest; [|discriminate]. rewrite (D6 R1) in D5. cbn in D5. now rewrite app_nil_r in D5.
Qed.

(* what is shown in the server's context and in a client's context at any time *)
Theorem C84_shows : forall ls n p, run (start st0) ls = Some n ->
  shown (stores (hub _ _ n)) p = value_after (told _ _ n) p /\
  forall i c, nth_error (members _ _ n) i = Some c -> (forall m, In (Ask _ i m) ls -> is_upstream m = true) ->
    shown (stores (view _ c)) p = value_after (got _ c) p.
Proof.
  intros ls n p E. rewrite shown_val. split.
  - pose proof (inv_hub _ _ _ _ _ _ _ (inv_of _ _ _ _ E (fine_none _)) p) as H. unfold vals in H. rewrite H. reflexivity.
  - intros i c H U. rewrite shown_val.
    assert (F : Forall (fine (text := text) (fun _ => False) (fun j => j = i)) ls).
    { apply Forall_forall. intros l L. destruct l; cbn; auto. intros ->. now apply U. }
    pose proof (inv_v _ _ _ _ _ _ _ (inv_of _ _ _ _ E F) _ _ H eq_refl p) as V. unfold vals in V. rewrite V. reflexivity.
Qed.

(* a client registered before anything was told shows what the server shows, once nothing is under way *)
Theorem C84_agree_partial : forall l1 i l2 n1 n c p,
  run (start st0) l1 = Some n1 -> told _ _ n1 = [] ->
  run (start st0) (l1 ++ Register _ i :: l2) = Some n -> nth_error (members _ _ n) i = Some c ->
  (forall m, In (Ask _ i m) (l1 ++ Register _ i :: l2) -> is_upstream m = true) -> at_rest c ->
  shown (stores (view _ c)) p = shown (stores (hub _ _ n)) p.
Proof.
  intros l1 i l2 n1 n c p E1 T E H U R. destruct (C84_shows _ _ p E) as (A & B). rewrite A, (B i c H U).
  destruct (C84_history _ _ _ _ _ E H) as (n1' & news & E1' & N & _ & G). rewrite E1 in E1'. injection E1' as <-.
  rewrite T in N. cbn in N. now rewrite (G R), N.
Qed.

(* the requests of client i reach the server's context in order and each once, whatever happens to the other
   connections, as long as nobody else writes to this one; all of them when nothing is under way.  Reads of a path do
   not leave the client. *)
Theorem C84_requests : forall ls n i c, (forall t, producer_of csh t = cli) ->
  run (start st0) ls = Some n -> nth_error (members _ _ n) i = Some c ->
  (forall t, ~ In (Inject _ i t) ls) -> (forall m, In (Ask _ i m) ls -> is_upstream m = true) ->
  prefix (by_client i (served _ _ n)) (filter goes_up (pushed_at i ls)) /\
  (at_rest c -> by_client i (served _ _ n) = filter goes_up (pushed_at i ls)).
Proof.
  intros ls n i c HP E H J U.
  assert (F : Forall (fine (text := text) (fun j => j = i) (fun j => j = i)) ls).
  { apply Forall_forall. intros l L. destruct l; cbn; auto; intros ->; [now apply U|exact (J _ L)]. }
  pose proof (inv_of _ _ _ _ E F) as I.
  assert (A : asked _ c = filter goes_up (pushed_at i ls)).
  { rewrite (run_asked up_text up_read down_text down_read react ssh srv csh cli up_codec (fun _ m => Some m) down_codec survives answers_down srv_consumer
       (fun j => j = i) (fun j => j = i) ls HP (start st0) n i c); auto; [|now apply inv_start].
    unfold asked_at. cbn. now destruct i. }
  destruct (inv_u _ _ _ _ _ _ _ I _ _ H eq_refl) as (rest & later & U1 & U2 & U3 & _). rewrite <- A, <- U2. split; [exists (rest ++ later); auto|].
  intros (R1 & _ & R2 & _). rewrite R2 in U1. destruct rest; [|discriminate]. rewrite (U3 R1). cbn. now rewrite app_nil_r.
Qed.

(* after the applications have stopped only finitely many messages are handled, in every order in which that may
   happen; then nothing is under way between two ends that run *)
Theorem C84_settles : forall ls n, run (start st0) ls = Some n ->
  Acc (fun b a => exists l, internal l /\ step a l = Some b) n /\
  exists ls' n', Forall internal ls' /\ run n ls' = Some n' /\
    (crashed _ _ n' = false -> forall i c, nth_error (members _ _ n') i = Some c -> alive _ c = true -> at_server _ c = Known -> at_rest c).
Proof.
  intros ls n E. pose proof (inv_of _ _ _ _ E (fine_none _)) as I. split.
  - exact (internal_ends up_text up_read down_text down_read react ssh srv csh cli up_codec (fun _ m => Some m) down_codec survives answers_down srv_consumer _ _ n I).
  - destruct (settle up_text up_read down_text down_read react ssh srv csh cli up_codec (fun _ m => Some m) down_codec survives answers_down srv_consumer _ _ n I) as (ls' & n' & A & B & C).
    exists ls', n'. split; auto. split; auto. intros D i c H1 H2 H3.
    exact (stuck_rest up_text up_read down_text down_read react ssh srv csh cli n' C D i c H1 H2 H3).
Qed.

(* as long as only clients write to the connections the server runs, and no connection ends but by a failure *)
Theorem C84_healthy : forall ls n, run (start st0) ls = Some n -> (forall i t, ~ In (Inject _ i t) ls) ->
  crashed _ _ n = false /\
  forall i c, nth_error (members _ _ n) i = Some c -> ruined _ c = false /\
    (~ In (DropServer _ i) ls -> ~ In (DropClient _ i) ls -> alive _ c = true /\ at_server _ c <> Gone).
Proof.
  intros ls n E J.
  assert (F : Forall (fine (text := text) (fun _ => True) (fun _ => False)) ls).
  { apply Forall_forall. intros l L. destruct l; cbn; auto; try contradiction. intros _. exact (J _ _ L). }
  pose proof (inv_of _ _ _ _ E F) as I. split.
  - exact (run_health up_text up_read down_text down_read react ssh srv csh cli up_codec (fun _ m => Some m) down_codec survives answers_down srv_consumer (fun _ => True) (fun _ => False)
      ls (fun _ => Logic.I) (start st0) n (inv_start _ _ _ _ _ _ empty) E F eq_refl).
  - intros i c H. split; [exact (proj1 (inv_d _ _ _ _ _ _ _ I _ _ H))|]. intros D1 D2.
    refine (run_up up_text up_read down_text down_read react ssh srv csh cli up_codec (fun _ m => Some m) down_codec survives answers_down srv_consumer (fun _ => True) (fun _ => False)
      ls i Logic.I (start st0) n c (inv_start _ _ _ _ _ _ empty) E F D1 D2 _ H).
    intros x. cbn. destruct i; discriminate.
Qed.
End Props84.

(* with echo_producer in the server's context *)
Section Echo84.
Context {text : Type} (up_text : nat -> msg -> text) (up_read : text -> incoming) (down_text : msg -> text) (down_read : nat -> text -> incoming)
  (modulus : N) (ssh : shape) (srv : nat) (csh : shape) (cli : nat).
Hypothesis up_codec : forall i m, is_upstream m = true -> up_read (up_text i m) = Message m.
Hypothesis down_codec : forall i m, is_upstream m = false -> down_read i (down_text m) = Message m.
Hypothesis srv_consumer : exists a, nth_error (actors ssh) srv = Some a /\ consumer a = true.
Notation run := (NetModel.run text up_text up_read down_text down_read counters (echo_react modulus) ssh srv csh cli).
Notation start := (NetModel.start text counters).
Variable st0 : state table counters.
Hypothesis empty : forall t, stores st0 t = [].

(* one message is told for each request served, in their order: the request made a downstream message *)
Theorem C84_replies : forall ls n, run (start st0) ls = Some n -> Forall request (map snd (served _ _ n)) ->
  Forall2 reply (map snd (served _ _ n)) (told _ _ n).
Proof.
  intros ls n E Q. eapply run_told; [|exact E|exact Q|constructor].
  intros st m R. destruct (echo_step ssh modulus m st R) as (d & p & st' & e & A1 & _ & _ & _ & _ & A6 & _ & _ & x & A9 & _).
  exists d. unfold hub_push. change ignores with no_foreign. rewrite A6. cbn [snd]. split.
  - change (for_server srv e) with (cons_at srv e). rewrite cons_send, A9. cbn [cons_at flat_map app]. fold (cons_at srv (map (fun i => ToConsumer i d x) (indices consumer (actors ssh)))).
    rewrite cons_of_map by apply NoDup_filter, seq_NoDup. destruct (in_dec _ _ _) as [|N]; auto. exfalso. apply N. now apply index_in.
  - unfold answer in A1. destruct R; cbn in A1; injection A1 as <-; destruct u; constructor || apply (reply_create _ _ _ None) || apply (reply_update _ _ None) || apply (reply_delete _ _ None) || idtac.
Qed.

(* the contexts hold the result of executing all requests of all clients in the order in which the server's context got
   them (by C84_requests an order which keeps the order of each client): the server at any time, a client registered
   before anything was told when nothing is under way *)
Theorem C84_executed_partial : forall ls n (ty : nat -> N), run (start st0) ls = Some n -> Forall request (map snd (served _ _ n)) ->
  (forall m, In m (map snd (served _ _ n)) -> requires_key m = true -> mtype m = ty (path_type m)) ->
  (forall i t, producers st0 i t + N.of_nat (length (served _ _ n)) < modulus)%N ->
  exists created T, executed (map snd (served _ _ n)) created T /\
    (forall p, shown (stores (hub _ _ n)) p = visible (T p)) /\
    forall l1 i l2 n1 c, ls = l1 ++ Register _ i :: l2 -> run (start st0) l1 = Some n1 -> told _ _ n1 = [] ->
      nth_error (members _ _ n) i = Some c -> (forall m, In (Ask _ i m) ls -> is_upstream m = true) -> at_rest c ->
      forall p, shown (stores (view _ c)) p = visible (T p).
Proof.
  intros ls n ty E Q T M.
  destruct (C35_table_partial ssh modulus (map snd (served _ _ n)) ty st0 Q T empty) as (cr & Tb & X1 & X2); [now rewrite map_length|].
  exists cr, Tb. split; auto.
  assert (H : hub _ _ n = fst (StoreModel.run table map_apply map_static_false map_match no_foreign counters (echo_react modulus) ssh st0 (map Push (map snd (served _ _ n))))).
  { eapply run_hub; [exact E|reflexivity]. }
  assert (S : forall p, shown (stores (hub _ _ n)) p = visible (Tb p)).
  { intros p. rewrite shown_val. unfold val. rewrite H, X2. now destruct (Tb p). }
  split; auto. intros l1 i l2 n1 c -> E1 T1 Hc U R p. rewrite <- S.
  eapply C84_agree_partial; eauto. intros q m d. apply echo_down.
Qed.
End Echo84.

(* ---- what is not so ---- *)
(* a text is a message, or something which a deserializer refuses or trips over *)
Definition wire := (msg + bool)%type.
Definition wire_read (t : wire) : incoming := match t with inl m => Message m | inr true => Refused | inr false => Twice end.
Definition hub_shape_ex : shape := {| actors := [{| consumer := false; state_consumer := false |}; {| consumer := true; state_consumer := false |}];
  producer_of := fun _ => 0%nat; listeners_of := fun _ => [] |}.
Definition client_shape_ex : shape := {| actors := [{| consumer := false; state_consumer := false |}];
  producer_of := fun _ => 0%nat; listeners_of := fun _ => [] |}.
Definition hub0 : state table counters := {| stores := fun _ => []; producers := fun _ _ => 0%N |}.
Definition run_ex := NetModel.run wire (fun _ => inl) wire_read inl (fun _ => wire_read) counters (echo_react 256) hub_shape_ex 1 client_shape_ex 0 (start wire counters hub0).
Definition key5 := mk_path 0 [5%N].
Definition key1 := mk_path 0 [1%N].

(* agreement of every client at rest *)
Definition C84_full : Prop := forall ls n i c p, run_ex ls = Some n -> nth_error (members _ _ n) i = Some c ->
  (forall m, In (Ask _ i m) ls -> is_upstream m = true) -> at_rest c -> shown (stores (view _ c)) p = shown (stores (hub _ _ n)) p.

(* a client that comes later does not learn what is there, even when it asks: the read stays in its own context *)
Definition late : list (label wire) :=
  [Connect _; Register _ 0; Ask _ 0 (make_upstream_update 0 (PPath key5) None (Entity 7)); Serve _ 0; Deliver _ 0;
   Connect _; Register _ 1; Ask _ 1 (make_upstream_read 0 (PPath key5) None)]%nat.
Definition end_of (ls : list (label wire)) : net wire counters := match run_ex ls with Some n => n | None => start wire counters hub0 end.
Definition member_of (ls : list (label wire)) (i : nat) : client wire := nth i (members _ _ (end_of ls)) (new_client _).
Lemma ends ls : run_ex ls <> None -> run_ex ls = Some (end_of ls).
Proof. unfold end_of. destruct (run_ex ls); congruence. Qed.
Lemma member_in ls i : (i < length (members _ _ (end_of ls)))%nat -> nth_error (members _ _ (end_of ls)) i = Some (member_of ls i).
Proof. intros H. now apply nth_error_nth'. Qed.

Theorem C84_late_refuted : ~ C84_full.
Proof.
  intros H. assert (A : shown (stores (view _ (member_of late 1))) key5 = shown (stores (hub _ _ (end_of late))) key5).
  { apply (H late (end_of late) 1%nat (member_of late 1)).
    - apply ends. vm_compute. discriminate.
    - apply member_in. vm_compute. constructor.
    - intros m M. repeat (destruct M as [M|M]; [first [discriminate M|injection M as <-; reflexivity]|]). destruct M.
    - vm_compute. auto. }
  vm_compute in A. discriminate A.
Qed.

(* a request made when the connection is gone is dropped: the application is not told and there is no reconnecting *)
Definition C84_requests_full : Prop := forall ls n i c, run_ex ls = Some n -> nth_error (members _ _ n) i = Some c ->
  (forall j t, ~ In (Inject _ j t) ls) -> outbox _ c = [] -> by_client i (served _ _ n) = pushed_at i ls.
Definition cut : list (label wire) :=
  [Connect _; Register _ 0; DropClient _ 0; Ask _ 0 (make_upstream_update 0 (PPath key5) None (Entity 7))]%nat.
Theorem C84_lost_refuted : ~ C84_requests_full.
Proof.
  intros H. assert (A : by_client 0 (served _ _ (end_of cut)) = pushed_at 0 cut).
  { apply (H cut (end_of cut) 0%nat (member_of cut 0)).
    - apply ends. vm_compute. discriminate.
    - apply member_in. vm_compute. constructor.
    - intros j t M. repeat (destruct M as [M|M]; [discriminate M|]). destruct M.
    - vm_compute. auto. }
  vm_compute in A. discriminate A.
Qed.

(* whoever can connect can bring the server to undefined behaviour, with one text on which its deserializer resolves and
   then rejects (C57: there are such texts) *)
Theorem C84_garbage_refuted : forall text (up_text : nat -> msg -> text) up_read down_text down_read P react ssh srv csh cli (st0 : state table P) t,
  up_read t = Twice -> exists n,
    NetModel.run text up_text up_read down_text down_read P react ssh srv csh cli (start text P st0) [Connect _; Register _ 0; Inject _ 0 t; Serve _ 0]%nat = Some n /\
    crashed _ _ n = true.
Proof. intros. cbn. rewrite H. eexists. split; reflexivity. Qed.

(* a client which reads a text on which its own deserializer resolves and then rejects, as another server could send it, is in undefined
   behaviour as well: nothing is claimed of it afterwards, it is asked nothing and reads nothing *)
Theorem C84_ruined : forall text (up_text : nat -> msg -> text) up_read down_text down_read P react ssh srv csh cli (n : net text P) i c t r,
  nth_error (members _ _ n) i = Some c -> alive _ c = true -> inbox _ c = t :: r -> down_read i t = Twice ->
  exists n', NetModel.step text up_text up_read down_text down_read P react ssh srv csh cli n (Deliver _ i) = Some n' /\
    (hub _ _ n', crashed _ _ n', told _ _ n', served _ _ n') = (hub _ _ n, crashed _ _ n, told _ _ n, served _ _ n) /\
    (forall j, j <> i -> nth_error (members _ _ n') j = nth_error (members _ _ n) j) /\
    forall ls n2, NetModel.run text up_text up_read down_text down_read P react ssh srv csh cli n' ls = Some n2 ->
      (forall m, ~ In (Ask _ i m) ls) /\ ~ In (Deliver _ i) ls.
Proof.
  intros text up_text up_read down_text down_read P react ssh srv csh cli n i c t r Hc A I D.
  eexists. split; [cbn; rewrite Hc, A, I, D; reflexivity|]. split; [reflexivity|]. split.
  { intros j Hj. cbn. rewrite nth_set_at. destruct (Nat.eqb_spec i j); congruence. }
  assert (G : forall ls n1 n2 c1, nth_error (members _ _ n1) i = Some c1 -> alive _ c1 = false -> ruined _ c1 = true ->
    NetModel.run text up_text up_read down_text down_read P react ssh srv csh cli n1 ls = Some n2 -> (forall m, ~ In (Ask _ i m) ls) /\ ~ In (Deliver _ i) ls).
  { clear. induction ls as [|l ls IH]; intros n1 n2 c1 H1 A R E; [split; intros; intros []|]. cbn [NetModel.run] in E.
    destruct (NetModel.step _ _ _ _ _ _ _ _ _ _ _ n1 l) as [n3|] eqn:St; [|discriminate E].
    assert (S3 : (exists c3, nth_error (members _ _ n3) i = Some c3 /\ alive _ c3 = false /\ ruined _ c3 = true) /\ (forall m, l <> Ask _ i m) /\ l <> Deliver _ i).
    { assert (Hm : forall j c4 c', nth_error (members _ _ n1) j = Some c4 -> (alive _ c4 = false -> alive _ c' = false) -> (ruined _ c4 = true -> ruined _ c' = true) ->
        exists c3, nth_error (set_at (members _ _ n1) j c') i = Some c3 /\ alive _ c3 = false /\ ruined _ c3 = true).
      { intros j c4 c' H4 Ha Hr. rewrite nth_set_at. destruct (Nat.eqb_spec j i) as [->|_]; [|eauto]. rewrite H1 in *. injection H4 as <-. exists c'. auto. }
      assert (Hh : forall ms l1 c3, nth_error l1 i = Some c3 -> alive _ c3 = false -> ruined _ c3 = true ->
        exists c4, nth_error (map (hear _ down_text ms) l1) i = Some c4 /\ alive _ c4 = false /\ ruined _ c4 = true).
      { intros ms l1 c3 H3 A3 R3. rewrite nth_error_map, H3. eexists. split; [reflexivity|]. unfold hear. destruct (at_server _ c3); auto. }
      destruct l as [|j|j m|m|j|j|j t|j|j]; cbn in St.
      - injection St as <-. cbn. split; [|split; discriminate]. exists c1. rewrite nth_error_app1 by (apply nth_error_Some; congruence). auto.
      - destruct (nth_error _ j) as [c4|] eqn:Hj; [|discriminate St]. split; [|split; discriminate]. destruct (at_server _ c4); try discriminate St.
        destruct (crashed _ _ n1); [discriminate St|]. injection St as <-. cbn. eapply Hm; eauto.
      - destruct (nth_error _ j) as [c4|] eqn:Hj; [|discriminate St]. destruct (ruined _ c4) eqn:R4; [discriminate St|]. injection St as <-. split; [|split; [|discriminate]].
        + cbn. eapply Hm; eauto; unfold client_does; destruct (client_push _ _ _) as [st e]; cbn; congruence.
        + intros m0 [= -> _]. congruence.
      - destruct (crashed _ _ n1); [discriminate St|]. injection St as <-. split; [|split; discriminate]. unfold hub_does. destruct (hub_push _ _ _ _ _) as [st e]. cbn. eapply Hh; eauto.
      - destruct (nth_error _ j) as [c4|] eqn:Hj; [|discriminate St]. split; [|split; discriminate]. destruct (crashed _ _ n1); [discriminate St|]. destruct (at_server _ c4); try discriminate St.
        destruct (outbox _ c4) as [|t r]; [discriminate St|]. destruct (up_read t); injection St as <-.
        + unfold hub_does. destruct (hub_push _ _ _ _ _) as [st e]. cbn. destruct (Hm j c4 (with_outbox _ r c4) Hj) as (c5 & H5 & A5 & R5); auto. eapply Hh; eauto.
        + cbn. eapply Hm; eauto.
        + cbn. eapply Hm; eauto.
        + cbn. eapply Hm; eauto.
      - destruct (nth_error _ j) as [c4|] eqn:Hj; [|discriminate St]. destruct (alive _ c4) eqn:A4; [|discriminate St]. assert (j <> i) by (intros ->; congruence).
        split; [|split; [discriminate|congruence]]. destruct (inbox _ c4) as [|t r]; [discriminate St|].
        destruct (down_read j t); injection St as <-; cbn; rewrite nth_set_at; destruct (Nat.eqb_spec j i); try congruence; eauto.
      - destruct (nth_error _ j) as [c4|] eqn:Hj; [|discriminate St]. split; [|split; discriminate]. injection St as <-. cbn. eapply Hm; eauto.
      - destruct (nth_error _ j) as [c4|] eqn:Hj; [|discriminate St]. split; [|split; discriminate].
        destruct (at_server _ c4); try discriminate St; (destruct (crashed _ _ n1); [discriminate St|]; injection St as <-; cbn; eapply Hm; eauto).
      - destruct (nth_error _ j) as [c4|] eqn:Hj; [|discriminate St]. split; [|split; discriminate]. destruct (alive _ c4); [|discriminate St]. injection St as <-. cbn. eapply Hm; eauto. }
    destruct S3 as ((c3 & H3 & A3 & R3) & N1 & N2). destruct (IH n3 n2 c3 H3 A3 R3 E) as (K1 & K2). split; [intros m [X|X]|intros [X|X]]; subst; try congruence; eapply K1; eauto. }
  intros ls n2. apply (G ls _ n2 (ruin _ (with_inbox _ r c))); [|reflexivity|reflexivity].
  cbn. rewrite nth_set_at, Nat.eqb_refl, Hc. reflexivity.
Qed.
Print Assumptions C84_history.
Print Assumptions C84_shows.
Print Assumptions C84_agree_partial.
Print Assumptions C84_requests.
Print Assumptions C84_settles.
Print Assumptions C84_healthy.
Print Assumptions C84_replies.
Print Assumptions C84_executed_partial.
Print Assumptions C84_late_refuted.
Print Assumptions C84_lost_refuted.
Print Assumptions C84_garbage_refuted.
Print Assumptions C84_ruined.

(* two clients from the start; both ask, one create gets the key 1; the replies reach both *)
Definition two : list (label wire) :=
  [Connect _; Connect _; Register _ 1; Register _ 0;
   Ask _ 0 (make_upstream_create 0 (PCreate 0 []) None (Entity 3) None); Ask _ 1 (make_upstream_update 0 (PPath key5) None (Entity 7));
   Ask _ 0 (make_upstream_update 0 (PPath key5) None (Entity 8)); Serve _ 1; Serve _ 0; Deliver _ 0; Serve _ 0;
   Deliver _ 0; Deliver _ 0; Deliver _ 1; Deliver _ 1; Deliver _ 1]%nat.
Example C84_ex : match run_ex two with
  | Some n => map (fun c => (shown (stores (view _ c)) key1, shown (stores (view _ c)) key5, inbox _ c, outbox _ c)) (members _ _ n)
                = [(Some (Entity 3), Some (Entity 8), [], []); (Some (Entity 3), Some (Entity 8), [], [])] /\
              map fst (served _ _ n) = [Some 1%nat; Some 0%nat; Some 0%nat] /\ shown (stores (hub _ _ n)) key5 = Some (Entity 8) /\
              length (told _ _ n) = 3%nat
  | None => False
  end.
Proof. vm_compute. repeat split. Qed.
(* before everything is delivered the contexts differ *)
Example C84_behind : match run_ex (firstn 12 two) with
  | Some n => map (fun c => shown (stores (view _ c)) key5) (members _ _ n) = [Some (Entity 7); None] /\ shown (stores (hub _ _ n)) key5 = Some (Entity 8)
  | None => False
  end.
Proof. vm_compute. repeat split. Qed.
(* a connection dropped at the server: the client keeps a prefix *)
Example C84_drop_ex : match run_ex (firstn 10 two ++ [DropServer _ 0; Tell _ (make_upstream_delete 0 (PPath key5) None); Deliver _ 0]%nat) with
  | Some n => map (fun c => (length (got _ c), length (outbox _ c), length (inbox _ c))) (members _ _ n) = [(2, 1, 0); (0, 0, 3)]%nat /\ length (told _ _ n) = 3%nat
  | None => False
  end.
Proof. vm_compute. repeat split. Qed.
Example C84_late_ex : match run_ex late with
  | Some n => map (fun c => (map_match (stores (view _ c) 0%nat) key5, inbox _ c, outbox _ c)) (members _ _ n) =
      [(Resolved (Entity 7), [], []); (Unresolved, [], [])]
  | None => False
  end.
Proof. vm_compute. repeat split. Qed.
(* garbage which is merely refused ends the connection *)
Example C84_refused_ex : match run_ex [Connect _; Register _ 0; Inject _ 0 (inr true); Serve _ 0; Tell _ (make_upstream_delete 0 (PPath key5) None)]%nat with
  | Some n => crashed _ _ n = false /\ map (fun c => (at_server _ c, inbox _ c)) (members _ _ n) = [(Gone, [])]
  | None => False
  end.
Proof. vm_compute. repeat split. Qed.
(* a server whose texts this client cannot read *)
Definition rogue (ls : list (label wire)) : bool :=
  match NetModel.run wire (fun _ => inl) wire_read (fun _ => inr false) (fun _ => wire_read) counters (echo_react 256) hub_shape_ex 1 client_shape_ex 0 (start wire counters hub0) ls with Some _ => true | None => false end.
Example C84_ruined_ex : let ls := [Connect _; Register _ 0; Ask _ 0 (make_upstream_update 0 (PPath key5) None (Entity 7)); Serve _ 0; Deliver _ 0]%nat in
  (rogue ls, rogue (ls ++ [Ask _ 0%nat (make_upstream_update 0 (PPath key5) None (Entity 7))]), rogue (ls ++ [Deliver _ 0%nat]), rogue (ls ++ [DropServer _ 0%nat])) = (true, false, false, true).
Proof. vm_compute. reflexivity. Qed.
