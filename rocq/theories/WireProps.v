(* C100: messages as JSON texts.  C101: contexts connected by JSON texts. *)
From Verif Require Import Base StoreModel StoreSpec StoreProofs StoreProps NetModel NetSpec NetProofs NetProps.
From Verif Require Import Base64Model JsonModel JsonSpec AppModel WireModel WireSpec WireProofs WirexProofs.
From Verif Require PipProps.
Open Scope N_scope.
Notation toy := PipProps.toy.
Notation untoy_all := PipProps.untoy_all.

(* C100: a message whose parts survive arrives as itself *)
Theorem C100_message_partial : forall box unbox api sys integral_of double_of print parse m,
  prints print parse -> one_type api -> numbered api -> carried box unbox api m ->
  read_text unbox api sys integral_of double_of parse (text_of box api sys print m) = NetModel.Message m.
Proof. intros. now apply text_read. Qed.

(* C100: exactly those.  A message whose parts stand for values, each number for one value, arrives as itself if and only if JSON carries
   each of its parts. *)
Theorem C100_exact : forall box unbox api sys integral_of double_of print parse m t,
  prints print parse -> one_type api -> numbered api -> In t api -> decent t -> meant box unbox t m ->
  (read_text unbox api sys integral_of double_of parse (text_of box api sys print m) = NetModel.Message m <-> carried box unbox api m).
Proof. intros. split; [eapply text_arrives; eauto|now apply text_read]. Qed.
Example C100_exact_ex :
  let t := MType UpUpdate 3 0 false [] [EPayload (CEntity SString)] in
  let box (_ : shape) n := VString (if n =? 0 then [0] else [65]) in
  let unbox (_ : shape) v := match v with VString [0] => 0 | VString [65] => 1 | _ => 2 end in
  let m n := mk_msg UpUpdate 3 [FPath (PPath (mk_path 0 [])); FPayload (Entity n)] in
  one_type [t] /\ numbered [t] /\ decent t /\ meant box unbox t (m 0) /\ meant box unbox t (m 1) /\ ~ carried box unbox [t] (m 0) /\ carried box unbox [t] (m 1).
Proof.
  intros t box unbox m.
  assert (St : forall n, n = 0 \/ n = 1 -> stands box unbox SString n).
  { intros n D. split; [exact I|]. split; [exact I|]. intros v Hv. destruct v as [| |x| | | | |]; try contradiction. unfold box, unbox. destruct D as [-> | ->]; cbn; (split; [|intros E; injection E as ->; reflexivity]);
      destruct x as [|[|p] [|]]; try discriminate; try reflexivity; do 7 (destruct p as [p|p|]; try discriminate; try reflexivity). }
  assert (Mt : forall n, n = 0 \/ n = 1 -> meant box unbox t (m n)).
  { intros n D. split; [reflexivity|]. split; [reflexivity|]. exists (PPath (mk_path 0 [])), [FPayload (Entity n)]. split; [reflexivity|]. split; [repeat split; constructor|]. constructor; [exact (St n D)|constructor]. }
  split; [intros a b ? [<-|[]] [<-|[]]; reflexivity|]. split; [unfold numbered; cbn; lia|]. split; [repeat constructor|]. split; [apply Mt; auto|]. split; [apply Mt; auto|]. split.
  - intros (a & [<-|[]] & _ & _ & p & fs & S & _ & F). injection S as <- <-. inversion F as [|? ? ? ? G _]. destruct G as [G _]. cbn in G. apply G. left. reflexivity.
  - exists t. split; [left; reflexivity|]. split; [reflexivity|]. split; [reflexivity|]. exists (PPath (mk_path 0 [])), [FPayload (Entity 1)]. split; [reflexivity|]. split; [repeat split; constructor|].
    constructor; [|constructor]. split; [cbn; intros [X|[]]; discriminate|reflexivity].
Qed.

(* whatever text comes, what is read of it is a message of one of the types *)
Theorem C100_typed : forall unbox api sys integral_of double_of parse t m,
  read_text unbox api sys integral_of double_of parse t = NetModel.Message m -> exists ty, In ty api /\ of_type ty m.
Proof. intros. eapply text_typed; eauto. Qed.

Section Props101.
Variable box : shape -> N -> value.
Variable unbox : shape -> value -> N.
Variables up_api down_api : list message_type.
Variable sys : shape.
Variable integral_of : N -> option Z.
Variable double_of : Z -> N.
Variable print : json -> bytes.
Variable parse : bytes -> option json.
Hypothesis Hprint : prints print parse.
Hypothesis up_ok : one_type up_api /\ numbered up_api.
Hypothesis down_ok : one_type down_api /\ numbered down_api.
Variables (ssh csh : StoreModel.shape) (srv cli : nat).
Hypothesis srv_consumer : exists a, nth_error (actors ssh) srv = Some a /\ consumer a = true.
Let up_text (_ : nat) := text_of box up_api sys print.
Let up_read := read_text unbox up_api sys integral_of double_of parse.
Let down_text := text_of box down_api sys print.
Let down_read (_ : nat) := read_text unbox down_api sys integral_of double_of parse.

Lemma carried_faithful {P} (n : net bytes P) : all_carried box unbox up_api down_api n -> faithful up_text up_read down_text down_read (fun _ m => Some m) n.
Proof.
  intros (A & B) i c Hi. split.
  - eapply Forall_impl; [|exact A]. intros m C. unfold down_read, down_text. now apply text_read.
  - eapply Forall_impl; [|exact (B i c Hi)]. intros m C. unfold up_read, up_text. now apply text_read.
Qed.

Section Any.
Context {P : Type} (react : P -> msg -> P * list msg).
Hypothesis answers_down : forall q m d, In d (snd (react q m)) -> is_upstream d = false.
Notation run := (NetModel.run bytes up_text up_read down_text down_read P react ssh srv csh cli).
Notation start := (NetModel.start bytes P).
Notation say := (fun i m => inl (i, m)).
Notation tell := (fun m => inl (0%nat, m)).
Notation irun := (NetModel.run (nat * msg + bytes) say (ideal_read up_read) tell (lossy_read (fun _ m => Some m) down_read) P react ssh srv csh cli).
Variable st0 : state table P.
Hypothesis empty : forall t, stores st0 t = [].
Let sim ls n E C := sim up_text up_read down_text down_read react ssh srv csh cli (fun _ m => Some m) st0 ls n E (carried_faithful n C).
Let u (i : nat) (m : msg) (_ : is_upstream m = true) : ideal_read up_read (inl (i, m)) = NetModel.Message m := eq_refl.
Let d (i : nat) (m : msg) (_ : is_upstream m = false) : lossy_read (fun _ m => Some m) down_read i (inl (0%nat, m)) = NetModel.Message m := eq_refl.

(* C101: as C84, with JSON texts between the contexts, as long as every message said is one that JSON carries *)
Theorem C101_history_partial : forall l1 i l2 n c,
  run (start st0) (l1 ++ Register _ i :: l2) = Some n -> all_carried box unbox up_api down_api n -> nth_error (members _ _ n) i = Some c ->
  exists n1 news, run (start st0) l1 = Some n1 /\ told _ _ n = told _ _ n1 ++ news /\
    prefix (got _ c) news /\ (at_rest c -> got _ c = news).
Proof.
  intros l1 i l2 n c E C H. destruct (sim _ _ E C) as (n' & E' & <-). destruct (pn_nth _ _ _ _ _ H) as (x & X & <-).
  rewrite map_app in E'. cbn [map il] in E'.
  destruct (C84_history say (ideal_read up_read) tell (lossy_read (fun _ m => Some m) down_read) react ssh srv csh cli u d answers_down srv_consumer st0 empty _ _ _ _ _ E' X) as (n1' & news & A & B & G & R).
  assert (Q : exists n1, run (start st0) l1 = Some n1).
  { rewrite run_app in E. destruct (run (start st0) l1) as [n1|]; [eauto|discriminate]. }
  destruct Q as (n1 & Q). exists n1, news. split; auto.
  assert (F1 : faithful up_text up_read down_text down_read (fun _ m => Some m) n1).
  { rewrite run_app, Q in E. eapply faithful_run; [exact E|]. now apply carried_faithful. }
  destruct (WireProofs.sim up_text up_read down_text down_read react ssh srv csh cli (fun _ m => Some m) st0 l1 n1 Q F1) as (n1x & A' & <-).
  assert (n1x = n1') as -> by congruence. split; auto. split; auto. intros Z. apply R. now apply pc_rest in Z.
Qed.

Theorem C101_shows_partial : forall ls n p, run (start st0) ls = Some n -> all_carried box unbox up_api down_api n ->
  shown (stores (hub _ _ n)) p = value_after (told _ _ n) p /\
  forall i c, nth_error (members _ _ n) i = Some c -> (forall m, In (Ask _ i m) ls -> is_upstream m = true) ->
    shown (stores (view _ c)) p = value_after (got _ c) p.
Proof.
  intros ls n p E C. destruct (sim _ _ E C) as (n' & E' & <-).
  destruct (C84_shows say (ideal_read up_read) tell (lossy_read (fun _ m => Some m) down_read) react ssh srv csh cli u d answers_down srv_consumer st0 empty _ _ p E') as (A & B).
  split; [exact A|]. intros i c H U. destruct (pn_nth _ _ _ _ _ H) as (x & X & <-). apply (B i x X). intros m M. apply U. now apply in_ask.
Qed.

Theorem C101_agree_partial : forall l1 i l2 n1 n c p,
  run (start st0) l1 = Some n1 -> told _ _ n1 = [] ->
  run (start st0) (l1 ++ Register _ i :: l2) = Some n -> all_carried box unbox up_api down_api n -> nth_error (members _ _ n) i = Some c ->
  (forall m, In (Ask _ i m) (l1 ++ Register _ i :: l2) -> is_upstream m = true) -> at_rest c ->
  shown (stores (view _ c)) p = shown (stores (hub _ _ n)) p.
Proof.
  intros l1 i l2 n1 n c p E1 T E C H U R. destruct (C101_shows_partial _ _ p E C) as (A & B). rewrite A, (B i c H U).
  destruct (C101_history_partial _ _ _ _ _ E C H) as (n1' & news & E1' & N & _ & G). rewrite E1 in E1'. injection E1' as <-.
  rewrite T in N. cbn in N. now rewrite (G R), N.
Qed.

Theorem C101_requests_partial : forall ls n i c, (forall t, producer_of csh t = cli) ->
  run (start st0) ls = Some n -> all_carried box unbox up_api down_api n -> nth_error (members _ _ n) i = Some c ->
  (forall t, ~ In (Inject _ i t) ls) -> (forall m, In (Ask _ i m) ls -> is_upstream m = true) ->
  prefix (by_client i (served _ _ n)) (filter goes_up (pushed_at i ls)) /\
  (at_rest c -> by_client i (served _ _ n) = filter goes_up (pushed_at i ls)).
Proof.
  intros ls n i c HP E C H J U. destruct (sim _ _ E C) as (n' & E' & <-). destruct (pn_nth _ _ _ _ _ H) as (x & X & <-).
  destruct (C84_requests say (ideal_read up_read) tell (lossy_read (fun _ m => Some m) down_read) react ssh srv csh cli u d answers_down srv_consumer st0 empty _ _ _ _ HP E' X) as (A & B).
  - intros t M. destruct (in_inject _ _ _ M) as (t' & M'). exact (J _ M').
  - intros m M. apply U. now apply in_ask.
  - rewrite pushed_il in A, B. split; [exact A|]. intros R. apply B. now apply pc_rest in R.
Qed.

Theorem C101_healthy_partial : forall ls n, run (start st0) ls = Some n -> all_carried box unbox up_api down_api n -> (forall i t, ~ In (Inject _ i t) ls) ->
  crashed _ _ n = false /\
  forall i c, nth_error (members _ _ n) i = Some c -> ruined _ c = false /\
    (~ In (DropServer _ i) ls -> ~ In (DropClient _ i) ls -> alive _ c = true /\ at_server _ c <> Gone).
Proof.
  intros ls n E C J. destruct (sim _ _ E C) as (n' & E' & <-).
  destruct (C84_healthy say (ideal_read up_read) tell (lossy_read (fun _ m => Some m) down_read) react ssh srv csh cli u d answers_down srv_consumer st0 empty _ _ E') as (A & B).
  - intros i t M. destruct (in_inject _ _ _ M) as (t' & M'). exact (J _ _ M').
  - split; [exact A|]. intros i c H. destruct (pn_nth _ _ _ _ _ H) as (x & X & <-). destruct (B i x X) as (B1 & B2). split; [exact B1|].
    intros D1 D2. apply B2; intros M; [apply D1; now apply in_drop_server|apply D2; now apply in_drop_client].
Qed.

(* it comes to rest whatever the messages are, carried or not, if those of the server's API are downstream messages *)
Theorem C101_settles : (forall t, In t down_api -> is_upstream (mk_msg (t_kind t) 0 []) = false) ->
  forall n : net bytes P,
  Acc (fun b a => exists l, internal l /\ NetModel.step bytes up_text up_read down_text down_read P react ssh srv csh cli a l = Some b) n /\
  exists ls' n', Forall internal ls' /\ run n ls' = Some n' /\
    (crashed _ _ n' = false -> forall i c, nth_error (members _ _ n') i = Some c -> alive _ c = true -> at_server _ c = Known -> at_rest c).
Proof.
  intros D n.
  assert (R : forall i t m, down_read i t = NetModel.Message m -> is_upstream m = false).
  { intros i t m E. destruct (read_kind _ _ _ _ _ _ _ _ E) as (ty & H & K). specialize (D ty H). unfold is_upstream in *. cbn [mkind] in D. now rewrite K. }
  split; [exact (moves_end up_text up_read down_text down_read react ssh srv csh cli R n)|].
  destruct (moves_settle up_text up_read down_text down_read react ssh srv csh cli R n) as (ls' & n' & A & B & C).
  exists ls', n'. split; auto. split; auto. intros Cr i c H1 H2 H3. exact (stuck_rest up_text up_read down_text down_read react ssh srv csh cli n' C Cr i c H1 H2 H3).
Qed.
End Any.

Section Echo.
Variable modulus : N.
Notation run := (NetModel.run bytes up_text up_read down_text down_read counters (echo_react modulus) ssh srv csh cli).
Notation start := (NetModel.start bytes counters).
Variable st0 : state table counters.
Hypothesis empty : forall t, stores st0 t = [].

(* with echo_producer in the server's context *)
Theorem C101_executed_partial : forall ls n (ty : nat -> N), run (start st0) ls = Some n -> all_carried box unbox up_api down_api n ->
  Forall request (map snd (served _ _ n)) ->
  (forall m, In m (map snd (served _ _ n)) -> requires_key m = true -> mtype m = ty (path_type m)) ->
  (forall i t, producers st0 i t + N.of_nat (length (served _ _ n)) < modulus) ->
  exists created T, executed (map snd (served _ _ n)) created T /\
    (forall p, shown (stores (hub _ _ n)) p = visible (T p)) /\
    forall l1 i l2 n1 c, ls = l1 ++ Register _ i :: l2 -> run (start st0) l1 = Some n1 -> told _ _ n1 = [] ->
      nth_error (members _ _ n) i = Some c -> (forall m, In (Ask _ i m) ls -> is_upstream m = true) -> at_rest c ->
      forall p, shown (stores (view _ c)) p = visible (T p).
Proof.
  intros ls n ty E C Q T M.
  destruct (sim up_text up_read down_text down_read (echo_react modulus) ssh srv csh cli (fun _ m => Some m) st0 ls n E (carried_faithful n C)) as (n' & E' & Pn).
  destruct (C84_executed_partial (fun i m => inl (i, m)) (ideal_read up_read) (fun m => inl (0%nat, m)) (lossy_read (fun _ m => Some m) down_read) modulus ssh srv csh cli (fun i m _ => eq_refl) (fun i m _ => eq_refl) srv_consumer
    st0 empty _ n' ty E') as (cr & Tb & A & B & _); [now rewrite <- Pn in Q|now rewrite <- Pn in T|now rewrite <- Pn in M|].
  exists cr, Tb. split; [now rewrite <- Pn|]. split; [now rewrite <- Pn|].
  intros l1 i l2 n1 c -> E1 T1 Hc U R p.
  rewrite (C101_agree_partial (echo_react modulus) (echo_down modulus) st0 empty l1 i l2 n1 n c p E1 T1 E C Hc U R), <- Pn. apply B.
Qed.
End Echo.
End Props101.

(* ---- what is not so ---- *)
(* an API with lists of ints and strings under int keys *)
Definition box_ex (s : shape) (n : N) : value :=
  match s with
  | SInt => VInt (Z.of_N n)
  | SString => VString (if n =? 1 then [97; 0; 98] else [97])
  | SCont _ => VCont (repeat (VInt 7) (N.to_nat n))
  | _ => VEmpty
  end.
Definition unbox_ex (s : shape) (v : value) : N :=
  match v with VInt z => Z.to_N z | VString x => if (1 <? length x)%nat then 1 else 0 | VCont l => N.of_nat (length l) | _ => 0 end.
Definition T (k : kind) (id : N) (create : bool) (ks : list shape) (rest : list element) : message_type := MType k id (N.to_nat id) create ks rest.
Definition lists : element := EPayload (CEntity (SCont SInt)).
Definition strings : element := EPayload (CEntity SString).
Definition up_ex : list message_type :=
  [T UpCreate 0 true [] [ENoImpl; lists; ENoImpl]; T UpUpdate 0 false [SInt] [ENoImpl; lists]; T UpDelete 0 false [SInt] [ENoImpl];
   T UpUpdate 1 false [SInt; SInt] [ENoImpl; strings]].
Definition down_ex : list message_type :=
  [T DownCreate 0 false [SInt] [ENoImpl; lists; ENoImpl]; T DownUpdate 0 false [SInt] [ENoImpl; lists; ENoImpl]; T DownDelete 0 false [SInt] [ENoImpl; ENoImpl];
   T DownUpdate 1 false [SInt; SInt] [ENoImpl; strings; ENoImpl]].

Lemma same_id api : NoDup (map (fun t => (t_kind t, t_id t)) api) -> one_type api.
Proof.
  intros D t t' m H H' (A & B & _) (A' & B' & _). assert (E : (t_kind t, t_id t) = (t_kind t', t_id t')) by congruence. clear A B A' B'.
  induction api as [|a api IH]; [destruct H|]. inversion D as [|? ? D1 D2]. subst.
  destruct H as [->|H], H' as [->|H']; auto.
  - exfalso. apply D1. rewrite E. exact (in_map (fun t => (t_kind t, t_id t)) _ _ H').
  - exfalso. apply D1. rewrite <- E. exact (in_map (fun t => (t_kind t, t_id t)) _ _ H).
Qed.
Ltac no_dup := repeat (constructor; [cbn; intuition discriminate|]); constructor.
Lemma up_ex_ok : one_type up_ex /\ numbered up_ex.
Proof. split; [apply same_id; no_dup|unfold numbered; cbn; lia]. Qed.
Lemma down_ex_ok : one_type down_ex /\ numbered down_ex.
Proof. split; [apply same_id; no_dup|unfold numbered; cbn; lia]. Qed.

(* Full claim of C100: every message of a type of the API, whose parts have the types it says, arrives as itself.  False: *)
Definition empty_list : msg := make_upstream_update 0 (PPath (mk_path 0 [5])) None (Entity 0).
Definition with_nul : msg := make_upstream_update 1 (PPath (mk_path 1 [5; 6])) None (Entity 1).
(* an update with an empty container is taken for a parse error, and the deserializer resolves twice (C57); *)
Theorem C100_empty_refuted : exists t v, In t up_ex /\ of_type t empty_list /\ value_of box_ex t empty_list = Some v /\ has_shape (type_shape t) v /\ forall sys print parse io d, prints print parse ->
  read_text unbox_ex up_ex sys io d parse (text_of box_ex up_ex sys print empty_list) = Twice.
Proof.
  exists (T UpUpdate 0 false [SInt] [ENoImpl; lists]), (VSeq [VSeq [VInt 5]; VEmpty; VCont []]). split; [cbn; auto|]. split; [|split; [reflexivity|split; [cbn; auto|]]].
  - repeat split. exists (PPath (mk_path 0 [5])), [NoImpl; FPayload (Entity 0)]. repeat split. repeat constructor.
  - intros sys print parse io d H.
    assert (E : exists j, text_of box_ex up_ex sys print empty_list = print j /\ read io d (message_variant sys (shapes up_ex)) j (default (message_variant sys (shapes up_ex))) = Ok None).
    { exists (JArray [JInt 3; JArray [JInt 5; JNull]]). vm_compute. auto. }
    destruct E as (j & -> & R). unfold read_text, deserialize, from_string. rewrite H, R. reflexivity.
Qed.
(* an update with a string with a NUL arrives as another *)
Theorem C100_nul_refuted : exists t v m', In t up_ex /\ of_type t with_nul /\ value_of box_ex t with_nul = Some v /\ has_shape (type_shape t) v /\ m' <> with_nul /\ forall sys print parse io d, prints print parse ->
  read_text unbox_ex up_ex sys io d parse (text_of box_ex up_ex sys print with_nul) = NetModel.Message m'.
Proof.
  exists (T UpUpdate 1 false [SInt; SInt] [ENoImpl; strings]), (VSeq [VSeq [VInt 5; VInt 6]; VEmpty; VString [97; 0; 98]]), (make_upstream_update 1 (PPath (mk_path 1 [5; 6])) None (Entity 0)).
  split; [cbn; auto|]. split; [|split; [reflexivity|split; [cbn; auto|split; [discriminate|]]]].
  - repeat split. exists (PPath (mk_path 1 [5; 6])), [NoImpl; FPayload (Entity 1)]. repeat split. repeat constructor.
  - intros sys print parse io d H.
    assert (E : exists j v, text_of box_ex up_ex sys print with_nul = print j /\ read io d (message_variant sys (shapes up_ex)) j (default (message_variant sys (shapes up_ex))) = Ok (Some (VVar 5 v)) /\
      message_of unbox_ex (T UpUpdate 1 false [SInt; SInt] [ENoImpl; strings]) v = Some (make_upstream_update 1 (PPath (mk_path 1 [5; 6])) None (Entity 0))).
    { exists (JArray [JInt 5; JArray [JArray [JInt 5; JInt 6]; JString [97; 0; 98]]]), (VSeq [VSeq [VInt 5; VInt 6]; VEmpty; VString [97]]). vm_compute. auto. }
    destruct E as (j & v & -> & R & M). unfold read_text, deserialize, from_string. rewrite H, R. cbn [bind match_message]. cbn [up_ex nth_error]. now rewrite M.
Qed.

Section NetEx.
Variables (sys : shape) (print : json -> bytes) (parse : bytes -> option json).
Definition wire_run := NetModel.run bytes (fun _ => text_of box_ex up_ex sys print) (read_text unbox_ex up_ex sys (fun _ => None) (fun _ => 0) parse)
  (text_of box_ex down_ex sys print) (fun _ => read_text unbox_ex down_ex sys (fun _ => None) (fun _ => 0) parse)
  counters (echo_react 256) hub_shape_ex 1 client_shape_ex 0 (NetModel.start bytes counters hub0).
End NetEx.

(* Full claim of C101: as long as the applications push messages of the API and only nbdl::app writes to the connections, the
   server runs.  False: a client's update with an empty list is undefined behaviour in the server. *)
Theorem C101_crash_refuted : forall sys print parse, prints print parse -> exists n,
  wire_run sys print parse [Connect _; Register _ 0; Ask _ 0 empty_list; Serve _ 0]%nat = Some n /\ crashed _ _ n = true.
Proof.
  intros sys print parse H. unfold wire_run. destruct C100_empty_refuted as (t & v & _ & _ & _ & _ & R). specialize (R sys print parse (fun _ => None) (fun _ => 0) H).
  cbn -[text_of read_text]. fold empty_list. rewrite R. eexists. split; reflexivity.
Qed.
(* nor does the server's context get what was asked *)
Theorem C101_changed_refuted : forall sys print parse, prints print parse -> exists n,
  wire_run sys print parse [Connect _; Register _ 0; Ask _ 0 with_nul; Serve _ 0]%nat = Some n /\
  by_client 0 (served _ _ n) <> [with_nul] /\ length (by_client 0 (served _ _ n)) = 1%nat.
Proof.
  intros sys print parse H. unfold wire_run. destruct C100_nul_refuted as (t & v & m' & _ & _ & _ & _ & D & R). specialize (R sys print parse (fun _ => None) (fun _ => 0) H).
  cbn -[text_of read_text hub_does]. fold with_nul. rewrite R. eexists. split; [reflexivity|]. unfold hub_does. destruct (hub_push _ _ _ _ _). cbn. split; congruence.
Qed.

Print Assumptions C100_exact.
Print Assumptions C100_message_partial.
Print Assumptions C100_typed.
Print Assumptions C100_empty_refuted.
Print Assumptions C100_nul_refuted.
Print Assumptions C101_history_partial.
Print Assumptions C101_shows_partial.
Print Assumptions C101_agree_partial.
Print Assumptions C101_requests_partial.
Print Assumptions C101_healthy_partial.
Print Assumptions C101_executed_partial.
Print Assumptions C101_settles.
Print Assumptions C101_crash_refuted.
Print Assumptions C101_changed_refuted.

(* messages that are carried *)
Definition update5 : msg := make_upstream_update 0 (PPath (mk_path 0 [5])) None (Entity 3).
Definition create_one : msg := make_upstream_create 0 (PCreate 0 []) None (Entity 2) None.
Lemma travels_int n : n < 2 ^ 31 -> travels box_ex unbox_ex SInt n.
Proof. intros H. split; [cbn in *; lia|]. cbn. apply N2Z.id. Qed.
Lemma travels_list n : n <> 0 -> travels box_ex unbox_ex (SCont SInt) n.
Proof.
  intros H. split; [|cbn; now rewrite repeat_length, N2Nat.id]. cbn. assert (K : N.to_nat n <> O) by lia. revert K. generalize (N.to_nat n). intros k K.
  split; [destruct k; cbn; congruence|]. clear K. induction k; cbn; auto. split; [lia|auto].
Qed.
Example C100_carried_ex : carried box_ex unbox_ex up_ex update5 /\ carried box_ex unbox_ex up_ex create_one.
Proof.
  split.
  - exists (T UpUpdate 0 false [SInt] [ENoImpl; lists]). split; [cbn; auto|]. do 2 (split; [reflexivity|]). exists (PPath (mk_path 0 [5])), [NoImpl; FPayload (Entity 3)].
    split; [reflexivity|]. split; [do 2 (split; [reflexivity|]); repeat constructor; now apply travels_int|]. constructor; [exact Logic.I|]. constructor; [now apply travels_list|constructor].
  - exists (T UpCreate 0 true [] [ENoImpl; lists; ENoImpl]). split; [cbn; auto|]. do 2 (split; [reflexivity|]). exists (PCreate 0 []), [NoImpl; FPayload (Entity 2); NoImpl].
    split; [reflexivity|]. split; [do 2 (split; [reflexivity|]); constructor|]. constructor; [exact Logic.I|]. constructor; [now apply travels_list|]. constructor; [exact Logic.I|constructor].
Qed.
Example C100_ex : text_of box_ex up_ex SEmpty toy update5 = toy (JArray [JInt 3; JArray [JInt 5; JArray [JInt 7; JInt 7; JInt 7]]]) /\
  text_of box_ex up_ex SEmpty toy create_one = toy (JArray [JInt 2; JArray [JNull; JArray [JInt 7; JInt 7]]]) /\
  read_text unbox_ex up_ex SEmpty (fun _ => None) (fun _ => 0) untoy_all (text_of box_ex up_ex SEmpty toy create_one) = NetModel.Message create_one.
Proof. vm_compute. auto. Qed.
Example C100_typed_ex : read_text unbox_ex up_ex SEmpty (fun _ => None) (fun _ => 0) untoy_all (toy (JArray [JInt 4; JInt 9])) = NetModel.Message (make_upstream_delete 0 (PPath (mk_path 0 [9])) None) /\
  read_text unbox_ex up_ex SEmpty (fun _ => None) (fun _ => 0) untoy_all (toy (JArray [JInt 9; JInt 9])) = Refused.
Proof. vm_compute. auto. Qed.
(* two clients, through real texts *)
Definition two_wire : list (label bytes) :=
  [Connect _; Connect _; Register _ 1; Register _ 0; Ask _ 0 create_one; Ask _ 1 update5; Serve _ 1; Serve _ 0; Deliver _ 0; Deliver _ 0; Deliver _ 1; Deliver _ 1]%nat.
Example C101_ex : match wire_run SEmpty toy untoy_all two_wire with
  | Some n => map (fun c => (shown (stores (view _ c)) key1, shown (stores (view _ c)) key5, inbox _ c, outbox _ c)) (members _ _ n)
                = [(Some (Entity 2), Some (Entity 3), [], []); (Some (Entity 2), Some (Entity 3), [], [])] /\ map fst (served _ _ n) = [Some 1; Some 0]%nat
  | None => False
  end.
Proof. vm_compute. auto. Qed.
(* of which C101 speaks *)
Ltac carried_by t p fs := exists t; split; [cbn; auto|]; do 2 (split; [reflexivity|]); exists p, fs; split; [reflexivity|]; split;
  [do 2 (split; [reflexivity|]); repeat constructor; now apply travels_int|];
  repeat (constructor; [first [exact Logic.I|now apply travels_list]|]); constructor.
Example C101_hyps_ex : prints toy untoy_all /\ exists n, wire_run SEmpty toy untoy_all two_wire = Some n /\ all_carried box_ex unbox_ex up_ex down_ex n /\ length (told _ _ n) = 2%nat.
Proof.
  split; [exact PipProps.toy_ok|]. eexists. split; [vm_compute; reflexivity|]. split; [split|reflexivity].
  - cbn [told]. constructor; [|constructor; [|constructor]].
    + carried_by (T DownUpdate 0 false [SInt] [ENoImpl; lists; ENoImpl]) (PPath (mk_path 0 [5])) [NoImpl; FPayload (Entity 3); NoImpl].
    + carried_by (T DownCreate 0 false [SInt] [ENoImpl; lists; ENoImpl]) (PPath (mk_path 0 [1])) [NoImpl; FPayload (Entity 2); NoImpl].
  - intros i c H. cbn [members] in H. destruct C100_carried_ex as (A & B).
    destruct i as [|[|i]]; cbn in H; [| |destruct i; discriminate]; injection H as <-; cbn [asked]; constructor; auto.
Qed.
Example C101_settles_ex : forall t, In t down_ex -> is_upstream (mk_msg (t_kind t) 0 []) = false.
Proof. intros t H. cbn in H. intuition (subst; reflexivity). Qed.
