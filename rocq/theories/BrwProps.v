(* C109: contexts in browsers connected to a server. *)
From Verif Require Import Base StoreModel StoreSpec NetModel NetSpec NetProofs NetProps.
From Verif Require Import Base64Model JsonModel JsonSpec AppModel WireModel WireSpec WireProofs WireProps JsbModel JsbSpec JsbProps BrwModel BrwSpec BrwProofs.
From Verif Require PipProps JsbProofs.
Open Scope N_scope.

Section Props109.
Variable box : shape -> N -> value.
Variable unbox : shape -> value -> N.
Variables up_api down_api : list message_type.
Variable sys : shape.
Variable lenient : list N -> list N.
Variable other_number : jsv -> Z.
Variable like_bytes : list (list N * jsv) -> option (list N).
Variable integral_of : N -> option Z.
Variable double_of : Z -> N.
Variable print : json -> bytes.
Variable parse : bytes -> option json.
Variable stringify : jsv -> bytes.
Variable js_parse : bytes -> option jsv.
Hypothesis Hu : understood lenient stringify parse print js_parse.
Hypothesis up_ok : one_type up_api /\ numbered up_api.
Hypothesis down_ok : one_type down_api /\ numbered down_api /\ api_proper sys down_api.
(* a browser writes and the server reads; the server writes and a browser reads *)
Let js_text := browser_text box up_api sys lenient stringify.
Let up_read := read_text unbox up_api sys integral_of double_of parse.
Let down_text := WireModel.text_of box down_api sys print.
Let js_hears := browser_read unbox down_api sys lenient other_number like_bytes js_parse.

(* C109: a message of a browser, made of parts a browser can write, arrives as itself exactly if the server can read the parts: every
   other brings the server to undefined behaviour *)
Theorem C109_up : forall m, made_of sayable box unbox up_api m ->
  (made_of fits_up box unbox up_api m -> up_read (js_text m) = NetModel.Message m) /\
  (~ made_of fits_up box unbox up_api m -> up_read (js_text m) = Twice).
Proof. intros m M. eapply up_verdict; eauto; tauto. Qed.
(* a message of the server arrives exactly if no container in it is empty: every other is lost.  What arrives is the one message that its
   text is seen as, which is itself if its text is ASCII *)
Theorem C109_down : forall m, made_of sayable box unbox down_api m ->
  exists m', (forall x, seen_as box unbox down_api m x <-> x = m') /\ (made_of js_writable box unbox down_api m -> m' = m) /\
    (made_of legible box unbox down_api m -> js_hears (down_text m) = NetModel.Message m') /\
    (~ made_of legible box unbox down_api m -> js_hears (down_text m) = Thrown).
Proof.
  intros m M. destruct (down_verdict box unbox down_api sys lenient other_number like_bytes integral_of double_of print parse stringify js_parse Hu (proj1 down_ok) (proj1 (proj2 down_ok)) m (proj2 (proj2 down_ok)) M)
    as (m' & A & B & _ & C). exists m'. auto.
Qed.

(* beside them there may be clients with the serializer of JsonCpp, as in C101 *)
Variable browser : nat -> bool.
Hypothesis Hprint : prints print parse.
Let up_text (i : nat) := if browser i then js_text else WireModel.text_of box up_api sys print.
Let down_read (i : nat) := if browser i then js_hears else read_text unbox down_api sys integral_of double_of parse.

(* (what upstream messages would be read as does not matter) *)
Let arrives (i : nat) (m : msg) : option msg :=
  match down_read i (down_text m) with NetModel.Message m' => if is_upstream m' && negb (is_upstream m) then None else Some m' | _ => None end.
Lemma arrives_down i m m' : is_upstream m = false -> arrives i m = Some m' -> is_upstream m' = false.
Proof. unfold arrives. intros U. rewrite U. destruct (down_read _ _) as [x| | |]; try discriminate. destruct (is_upstream x) eqn:V; [discriminate|]. intros E. injection E as <-. exact V. Qed.
Lemma arrives_if i m : browser i = true -> made_of sayable box unbox down_api m ->
  ((exists m', arrives i m = Some m' /\ made_of legible box unbox down_api m /\ seen_as box unbox down_api m m') \/ arrives i m = None /\ ~ made_of legible box unbox down_api m) /\
  down_read i (down_text m) = match arrives i m with Some m' => NetModel.Message m' | None => Thrown end.
Proof.
  intros Br M. destruct (down_verdict box unbox down_api sys lenient other_number like_bytes integral_of double_of print parse stringify js_parse Hu (proj1 down_ok) (proj1 (proj2 down_ok)) m (proj2 (proj2 down_ok)) M)
    as (m' & S & _ & K & A & B). unfold arrives, down_read. rewrite Br.
  destruct (legible_dec box unbox down_api sys lenient other_number like_bytes (proj1 down_ok) m (proj2 (proj2 down_ok)) M) as [F|F].
  - unfold js_hears, down_text. rewrite (A F). replace (is_upstream m') with (is_upstream m) by (unfold is_upstream; now rewrite K). rewrite andb_negb_r. split; auto.
    left. exists m'. split; auto. split; auto. now apply S.
  - unfold js_hears, down_text. rewrite (B F). auto.
Qed.
Lemma arrives_not i m : browser i = false -> carried box unbox down_api m -> arrives i m = Some m /\ down_read i (down_text m) = NetModel.Message m.
Proof.
  intros Br M. unfold arrives, down_read, down_text. rewrite Br, text_read; auto; try apply down_ok. now rewrite andb_negb_r.
Qed.
Lemma said_faithful {P} (n : net bytes P) : all_said box unbox up_api down_api browser n -> faithful up_text up_read down_text down_read arrives n.
Proof.
  intros S i c Hi. specialize (S i c Hi). destruct (browser i) eqn:Br; destruct S as (A & B); split.
  - eapply Forall_impl; [|exact A]. intros m C. now apply arrives_if.
  - eapply Forall_impl; [|exact B]. intros m C. unfold up_text. rewrite Br. apply C109_up; auto.
    apply (made_weaker box unbox up_api fits_up sayable m); auto. now intros s v (X & _).
  - eapply Forall_impl; [|exact A]. intros m C. destruct (arrives_not i m Br C) as (-> & ->). reflexivity.
  - eapply Forall_impl; [|exact B]. intros m C. unfold up_text. rewrite Br. apply text_read; auto; apply up_ok.
Qed.
Lemma arrives_only i l : browser i = true -> Forall (made_of sayable box unbox down_api) l ->
  only (made_of legible box unbox down_api) (seen_as box unbox down_api) l (map_some (arrives i) l).
Proof.
  intros Br. unfold map_some. induction 1 as [|m l H _ IH]; cbn; [constructor|]. destruct (arrives_if i m Br H) as ([(m' & -> & F & S)|(-> & F)] & _); now constructor.
Qed.
Lemma arrives_all i l : browser i = false -> Forall (carried box unbox down_api) l -> map_some (arrives i) l = l.
Proof.
  intros Br. unfold map_some. induction 1 as [|m l H _ IH]; cbn; auto. destruct (arrives_not i m Br H) as (-> & _). cbn. now rewrite IH.
Qed.
Lemma weaker_legible m : made_of fits_down box unbox down_api m -> made_of legible box unbox down_api m.
Proof. apply made_weaker. intros s v (W & F). split; [now apply JsbProofs.ascii_writable|exact F]. Qed.
Lemma only_all l k : only (made_of legible box unbox down_api) (seen_as box unbox down_api) l k -> Forall (made_of fits_down box unbox down_api) l -> k = l.
Proof.
  induction 1 as [|x y l k Q R _ IH|x l k Q _ IH]; intros F; auto; inversion F as [|? ? F1 F2]; subst; [|destruct Q; now apply weaker_legible].
  rewrite (IH F2). f_equal.
  assert (S1 : made_of sayable box unbox down_api x) by (apply (made_weaker box unbox down_api legible sayable); auto; now intros s v (X & _)).
  assert (S2 : made_of js_writable box unbox down_api x) by (apply (made_weaker box unbox down_api fits_down js_writable); auto; now intros s v (X & _)).
  destruct (C109_down x S1) as (m' & A & B & _). apply A in R. subst. auto.
Qed.

Variables (ssh csh : StoreModel.shape) (srv cli : nat).
Hypothesis srv_consumer : exists a, nth_error (actors ssh) srv = Some a /\ consumer a = true.

Section Any.
Context {P : Type} (react : P -> msg -> P * list msg).
Hypothesis answers_down : forall q m d, In d (snd (react q m)) -> is_upstream d = false.
Notation run := (NetModel.run bytes up_text up_read down_text down_read P react ssh srv csh cli).
Notation step := (NetModel.step bytes up_text up_read down_text down_read P react ssh srv csh cli).
Notation start := (NetModel.start bytes P).

(* in any state of the net: what a lost message leaves behind, *)
Theorem C109_missed : forall n i c m r, browser i = true -> nth_error (members _ _ n) i = Some c -> alive _ c = true -> inbox _ c = down_text m :: r ->
  made_of sayable box unbox down_api m -> ~ made_of legible box unbox down_api m ->
  exists n' c', step n (Deliver _ i) = Some n' /\ nth_error (members _ _ n') i = Some c' /\
    view _ c' = view _ c /\ got _ c' = got _ c /\ alive _ c' = true /\ ruined _ c' = ruined _ c /\ at_server _ c' = at_server _ c /\ inbox _ c' = r /\ outbox _ c' = outbox _ c /\
    (forall j, j <> i -> nth_error (members _ _ n') j = nth_error (members _ _ n) j) /\
    (hub _ _ n', crashed _ _ n', told _ _ n', served _ _ n') = (hub _ _ n, crashed _ _ n, told _ _ n, served _ _ n).
Proof.
  intros n i c m r Br H A I M F. destruct (C109_down m M) as (m' & _ & _ & _ & D). exists (with_member _ _ n i (with_inbox _ r c)), (with_inbox _ r c).
  split; [cbn; unfold down_read; now rewrite H, A, I, Br, (D F)|]. split; [cbn; now rewrite nth_set_at, Nat.eqb_refl, H|].
  repeat split; auto. intros j J. cbn. rewrite nth_set_at. destruct (Nat.eqb_spec i j); congruence.
Qed.
(* and what the other kind does to the server *)
Theorem C109_crash : forall n i c m r, browser i = true -> nth_error (members _ _ n) i = Some c -> crashed _ _ n = false -> at_server _ c = Known -> outbox _ c = up_text i m :: r ->
  made_of sayable box unbox up_api m -> ~ made_of fits_up box unbox up_api m ->
  exists n', step n (Serve _ i) = Some n' /\ crashed _ _ n' = true.
Proof.
  intros n i c m r Br H C K O M F. eexists. split; [cbn; unfold up_text in O; rewrite Br in O; rewrite H, C, K, O, (proj2 (C109_up m M) F); reflexivity|reflexivity].
Qed.

Variable st0 : state table P.
Hypothesis empty : forall t, stores st0 t = [].

(* C109: whatever fails and whatever is written to the connections, the context in a browser is pushed the messages of the server, since
   it was registered, that can be read, as they are seen: each once, in order, and none else; all of them when nothing is under way.  Another client is
   pushed all messages *)
Theorem C109_history : forall l1 i l2 n c,
  run (start st0) (l1 ++ Register _ i :: l2) = Some n -> all_said box unbox up_api down_api browser n -> nth_error (members _ _ n) i = Some c ->
  exists n1 news heard, run (start st0) l1 = Some n1 /\ told _ _ n = told _ _ n1 ++ news /\
    prefix heard news /\ (if browser i then only (made_of legible box unbox down_api) (seen_as box unbox down_api) heard (got _ c) else got _ c = heard) /\ (at_rest c -> heard = news).
Proof.
  intros l1 i l2 n c E C H. destruct (history up_text up_read down_text down_read ssh csh srv cli arrives arrives_down srv_consumer react answers_down st0 empty _ _ _ _ _ E (said_faithful n C) H)
    as (n1 & news & heard & A1 & A2 & A3 & A4 & A5). exists n1, news, heard. split; auto. split; auto. split; auto. split; auto.
  specialize (C i c H). destruct A3 as (r & A3). rewrite A2, A3 in C. rewrite A4. destruct (browser i) eqn:Br; destruct C as (C & _);
    apply Forall_app in C; destruct C as (_ & C); apply Forall_app in C; [apply arrives_only; tauto|apply arrives_all; tauto].
Qed.
(* it shows what those messages say *)
Theorem C109_shows : forall ls n p, run (start st0) ls = Some n -> all_said box unbox up_api down_api browser n ->
  shown (stores (hub _ _ n)) p = value_after (told _ _ n) p /\
  forall i c, nth_error (members _ _ n) i = Some c -> (forall m, In (Ask _ i m) ls -> is_upstream m = true) ->
    shown (stores (view _ c)) p = value_after (got _ c) p.
Proof. intros ls n p E C. eapply (shows up_text up_read down_text down_read ssh csh srv cli arrives arrives_down); eauto. now apply said_faithful. Qed.
(* and what the server shows, if everything told can be read *)
Theorem C109_agree_partial : forall l1 i l2 n1 n c p,
  run (start st0) l1 = Some n1 -> told _ _ n1 = [] ->
  run (start st0) (l1 ++ Register _ i :: l2) = Some n -> all_said box unbox up_api down_api browser n ->
  nth_error (members _ _ n) i = Some c -> (browser i = true -> Forall (made_of fits_down box unbox down_api) (told _ _ n)) ->
  (forall m, In (Ask _ i m) (l1 ++ Register _ i :: l2) -> is_upstream m = true) -> at_rest c ->
  shown (stores (view _ c)) p = shown (stores (hub _ _ n)) p.
Proof.
  intros l1 i l2 n1 n c p E1 T E C H C2 U R. destruct (C109_shows _ _ p E C) as (A & B). rewrite A, (B i c H U).
  destruct (C109_history _ _ _ _ _ E C H) as (n1' & news & heard & E1' & N & _ & O & G). rewrite E1 in E1'. injection E1' as <-.
  rewrite T in N. cbn in N. rewrite (G R), <- N in O.
  destruct (browser i); [now rewrite (only_all _ _ O (C2 eq_refl))|now rewrite O].
Qed.
(* the requests of a browser reach the server's context in order and each once *)
Theorem C109_requests : forall ls n i c, (forall t, producer_of csh t = cli) ->
  run (start st0) ls = Some n -> all_said box unbox up_api down_api browser n -> nth_error (members _ _ n) i = Some c ->
  (forall t, ~ In (Inject _ i t) ls) -> (forall m, In (Ask _ i m) ls -> is_upstream m = true) ->
  prefix (by_client i (served _ _ n)) (filter goes_up (pushed_at i ls)) /\
  (at_rest c -> by_client i (served _ _ n) = filter goes_up (pushed_at i ls)).
Proof. intros ls n i c HP E C. eapply (requests up_text up_read down_text down_read ssh csh srv cli arrives arrives_down); eauto. now apply said_faithful. Qed.
(* and nobody fails: as long as the browsers only say what can be read *)
Theorem C109_healthy_partial : forall ls n, run (start st0) ls = Some n -> all_said box unbox up_api down_api browser n -> (forall i t, ~ In (Inject _ i t) ls) ->
  crashed _ _ n = false /\
  forall i c, nth_error (members _ _ n) i = Some c -> ruined _ c = false /\
    (~ In (DropServer _ i) ls -> ~ In (DropClient _ i) ls -> alive _ c = true /\ at_server _ c <> Gone).
Proof. intros ls n E C. eapply (healthy up_text up_read down_text down_read ssh csh srv cli arrives arrives_down); eauto. now apply said_faithful. Qed.

(* it comes to rest whatever the messages are *)
Theorem C109_settles : (forall t, In t down_api -> is_upstream (mk_msg (t_kind t) 0 []) = false) ->
  forall n : net bytes P,
  Acc (fun b a => exists l, internal l /\ step a l = Some b) n /\
  exists ls' n', Forall internal ls' /\ run n ls' = Some n' /\
    (crashed _ _ n' = false -> forall i c, nth_error (members _ _ n') i = Some c -> alive _ c = true -> at_server _ c = Known -> at_rest c).
Proof.
  intros D n.
  assert (R : forall i t m, down_read i t = NetModel.Message m -> is_upstream m = false).
  { intros i t m E. assert (X : exists ty, In ty down_api /\ mkind m = t_kind ty).
    { unfold down_read in E. destruct (browser i); [exact (browser_kind _ _ _ _ _ _ _ _ _ E)|exact (read_kind _ _ _ _ _ _ _ _ E)]. }
    destruct X as (ty & H & K). specialize (D ty H). unfold is_upstream in *. cbn [mkind] in D. now rewrite K. }
  split; [exact (moves_end up_text up_read down_text down_read react ssh srv csh cli R n)|].
  destruct (moves_settle up_text up_read down_text down_read react ssh srv csh cli R n) as (ls' & n' & A & B & C).
  exists ls', n'. split; auto. split; auto. intros Cr i c H1 H2 H3. exact (stuck_rest up_text up_read down_text down_read react ssh srv csh cli n' C Cr i c H1 H2 H3).
Qed.
End Any.

Section Echo.
Variable modulus : N.
Notation run := (NetModel.run bytes up_text up_read down_text down_read counters (echo_react modulus) ssh srv csh cli).
Notation start := (NetModel.start bytes counters).
Variable st0 : state table counters.
Hypothesis empty : forall t, stores st0 t = [].
(* with echo_producer in the server's context *)
Theorem C109_executed_partial : forall ls n (ty : nat -> N), run (start st0) ls = Some n -> all_said box unbox up_api down_api browser n ->
  Forall request (map snd (served _ _ n)) ->
  (forall m, In m (map snd (served _ _ n)) -> requires_key m = true -> mtype m = ty (path_type m)) ->
  (forall i t, producers st0 i t + N.of_nat (length (served _ _ n)) < modulus) ->
  exists created T, executed (map snd (served _ _ n)) created T /\
    (forall p, shown (stores (hub _ _ n)) p = visible (T p)) /\
    forall l1 i l2 n1 c, ls = l1 ++ Register _ i :: l2 -> run (start st0) l1 = Some n1 -> told _ _ n1 = [] ->
      nth_error (members _ _ n) i = Some c -> (browser i = true -> Forall (made_of fits_down box unbox down_api) (told _ _ n)) ->
      (forall m, In (Ask _ i m) ls -> is_upstream m = true) -> at_rest c ->
      forall p, shown (stores (view _ c)) p = visible (T p).
Proof.
  intros ls n ty E C Q T M. destruct (executes up_text up_read down_text down_read ssh csh srv cli modulus st0 empty ls n ty E Q T M) as (cr & Tb & A & B).
  exists cr, Tb. split; auto. split; auto. intros l1 i l2 n1 c -> E1 T1 Hc Hf U R p. rewrite <- B.
  exact (C109_agree_partial (echo_react modulus) (echo_down modulus) st0 empty l1 i l2 n1 n c p E1 T1 E C Hc Hf U R).
Qed.
End Echo.
End Props109.

(* ---- what is not so ---- *)
(* lists of ints and unsigned numbers under int keys *)
Definition box_b (s : shape) (n : N) : value :=
  match s with
  | SInt | SUInt => VInt (Z.of_N n)
  | SCont _ => VCont (repeat (VInt 7) (N.to_nat n))
  | _ => VEmpty
  end.
Definition unbox_b (s : shape) (v : value) : N := match v with VInt z => Z.to_N z | VCont l => N.of_nat (length l) | _ => 0 end.
Definition numbers : element := EPayload (CEntity SUInt).
Definition up_b : list message_type :=
  [T UpCreate 0 true [] [ENoImpl; lists; ENoImpl]; T UpUpdate 0 false [SInt] [ENoImpl; lists]; T UpUpdate 1 false [SInt] [ENoImpl; numbers]].
Definition down_b : list message_type :=
  [T DownCreate 0 false [SInt] [ENoImpl; lists; ENoImpl]; T DownUpdate 0 false [SInt] [ENoImpl; lists; ENoImpl]; T DownUpdate 1 false [SInt] [ENoImpl; numbers; ENoImpl]].
Lemma up_b_ok : one_type up_b /\ numbered up_b.
Proof. split; [apply same_id; no_dup|unfold numbered; cbn; lia]. Qed.
Lemma down_b_ok : one_type down_b /\ numbered down_b /\ api_proper SEmpty down_b.
Proof. split; [apply same_id; no_dup|]. split; [unfold numbered; cbn; lia|]. split; [exact Logic.I|]. repeat constructor. Qed.

Section NetEx.
Variables (print : json -> bytes) (parse : bytes -> option json) (stringify : jsv -> bytes) (js_parse : bytes -> option jsv) (browser : nat -> bool).
Definition mixed_run := NetModel.run bytes (fun i => if browser i then browser_text box_b up_b SEmpty junk stringify else WireModel.text_of box_b up_b SEmpty print) (read_text unbox_b up_b SEmpty (fun _ => None) (fun _ => 0) parse)
  (WireModel.text_of box_b down_b SEmpty print)
  (fun i => if browser i then browser_read unbox_b down_b SEmpty junk nan no_array js_parse else read_text unbox_b down_b SEmpty (fun _ => None) (fun _ => 0) parse)
  counters (echo_react 256) hub_shape_ex 1 client_shape_ex 0 (NetModel.start bytes counters hub0).
End NetEx.
Definition browser_run print parse stringify js_parse := mixed_run print parse stringify js_parse (fun _ => true).

Lemma fit_int (F : shape -> value -> Prop) n : (forall z, (0 <= z < 2 ^ 31)%Z -> F SInt (VInt z)) -> n < 2 ^ 31 -> fit F box_b unbox_b SInt n.
Proof. intros H L. split; [apply H; change (2 ^ 31) with (Z.to_N (2 ^ 31)) in L; lia|]. cbn. apply N2Z.id. Qed.
Lemma fit_list n : N.of_nat (N.to_nat n) < 2 ^ 31 -> fit js_writable box_b unbox_b (SCont SInt) n.
Proof.
  intros H. split; [|cbn; now rewrite repeat_length, N2Nat.id]. unfold js_writable. cbn [box_b js_writable_as]. rewrite repeat_length. split; [exact H|]. clear H.
  generalize (N.to_nat n). intros k. induction k; cbn; auto. split; [lia|auto].
Qed.

(* Full claim of C109: a browser at rest shows what the server shows.  False: an update with an empty list never arrives, and the browser
   goes on with the old one *)
Definition fill : msg := make_upstream_update 0 (PPath (mk_path 0 [5])) None (Entity 3).
Definition clear : msg := make_upstream_update 0 (PPath (mk_path 0 [5])) None (Entity 0).
Definition stale : list (label bytes) := [Connect _; Register _ 0; Tell _ fill; Deliver _ 0; Tell _ clear; Deliver _ 0]%nat.
Definition js_print (d : json -> bytes) (j : jsv) : bytes := d (to_document j).
Definition js_read (p : bytes -> option json) (t : bytes) : option jsv := option_map (from_document junk) (p t).
Lemma toy_understood : understood junk (js_print toy) untoy_all toy (js_read untoy_all).
Proof. split; intros; unfold js_print, js_read; now rewrite PipProps.toy_ok. Qed.
Theorem C109_stale_refuted : exists n c, browser_run toy untoy_all (js_print toy) (js_read untoy_all) stale = Some n /\ nth_error (members _ _ n) 0 = Some c /\ at_rest c /\
  Forall (made_of js_writable box_b unbox_b down_b) (told _ _ n) /\ asked _ c = [] /\
  shown (stores (view _ c)) key5 = Some (Entity 3) /\ shown (stores (hub _ _ n)) key5 = Some (Entity 0).
Proof.
  eexists. eexists. split; [vm_compute; reflexivity|]. split; [reflexivity|]. split; [repeat split|]. split; [|split; [reflexivity|split; reflexivity]].
  cbn [told].
  assert (K : forall k, N.of_nat (N.to_nat k) < 2 ^ 31 -> made_of js_writable box_b unbox_b down_b (make_downstream_update 0 (PPath (mk_path 0 [5])) None (Entity k) None)).
  { intros k Hk. exists (T DownUpdate 0 false [SInt] [ENoImpl; lists; ENoImpl]). split; [cbn; auto|]. do 2 (split; [reflexivity|]). exists (PPath (mk_path 0 [5])), [NoImpl; FPayload (Entity k); NoImpl].
    split; [reflexivity|]. split; [do 2 (split; [reflexivity|]); repeat constructor; vm_compute; congruence|]. constructor; [exact Logic.I|]. constructor; [now apply fit_list|]. constructor; [exact Logic.I|constructor]. }
  constructor; [apply (K 3); reflexivity|]. constructor; [apply (K 0); reflexivity|constructor].
Qed.
(* Full claim of C109: whatever the browsers say, the server runs.  False: a number of 2^31 is undefined behaviour in the server *)
Definition large : msg := make_upstream_update 1 (PPath (mk_path 1 [5])) None (Entity 2147483648).
Theorem C109_crash_refuted : made_of sayable box_b unbox_b up_b large /\
  forall print parse stringify js_parse, understood junk stringify parse print js_parse -> exists n,
    browser_run print parse stringify js_parse [Connect _; Register _ 0; Ask _ 0 large; Serve _ 0]%nat = Some n /\ crashed _ _ n = true.
Proof.
  assert (M : made_of sayable box_b unbox_b up_b large).
  { exists (T UpUpdate 1 false [SInt] [ENoImpl; numbers]). split; [cbn; auto|]. do 2 (split; [reflexivity|]). exists (PPath (mk_path 1 [5])), [NoImpl; FPayload (Entity 2147483648)].
    split; [reflexivity|]. split; [do 2 (split; [reflexivity|]); repeat constructor; vm_compute; congruence|]. repeat constructor; vm_compute; congruence. }
  split; [exact M|]. intros print parse stringify js_parse Hu.
  assert (F : ~ made_of fits_up box_b unbox_b up_b large).
  { intros (t & H & K & I & p & fs & S & Hp & Hf). cbn in H. destruct H as [<-|[<-|[<-|[]]]]; cbn in K, I; try discriminate. injection S as <- <-.
    cbn in Hf. inversion Hf as [|? ? ? ? _ Hf2]. inversion Hf2 as [|? ? ? ? Hn _]. destruct Hn as ((_ & Sm) & _). cbn in Sm. lia. }
  unfold browser_run, mixed_run. cbn -[browser_text read_text]. fold large.
  destruct up_b_ok as (O & Nb). rewrite (proj2 (up_verdict box_b unbox_b up_b SEmpty junk (fun _ => None) (fun _ => 0) print parse stringify js_parse Hu O Nb large M) F).
  eexists. split; reflexivity.
Qed.

(* nor with text that is not ASCII: an accented letter, two bytes at the server, is one byte in the browser, and that is not UTF-8 *)
Definition box_t (s : shape) (n : N) : value := match s with SInt => VInt (Z.of_N n) | SString => VString [n / 256; n mod 256] | _ => VEmpty end.
Definition unbox_t (s : shape) (v : value) : N := match v with VInt z => Z.to_N z | VString x => fold_left (fun a c => a * 256 + c) x 0 | _ => 0 end.
Definition texts : element := EPayload (CEntity SString).
Definition up_t : list message_type := [T UpUpdate 0 false [SInt] [ENoImpl; texts]].
Definition down_t : list message_type := [T DownUpdate 0 false [SInt] [ENoImpl; texts; ENoImpl]].
Definition accent : msg := make_upstream_update 0 (PPath (mk_path 0 [5])) None (Entity 50089).
Theorem C109_text_refuted : exists n c,
  NetModel.run bytes (fun _ => browser_text box_t up_t SEmpty junk (js_print toy)) (read_text unbox_t up_t SEmpty (fun _ => None) (fun _ => 0) untoy_all)
    (WireModel.text_of box_t down_t SEmpty toy) (fun _ => browser_read unbox_t down_t SEmpty junk nan no_array (js_read untoy_all))
    counters (echo_react 256) hub_shape_ex 1 client_shape_ex 0 (NetModel.start bytes counters hub0) [Connect _; Register _ 0; Ask _ 0 accent; Serve _ 0; Deliver _ 0]%nat = Some n /\
  nth_error (members _ _ n) 0 = Some c /\ at_rest c /\ asked _ c = [accent] /\ made_of fits_up box_t unbox_t up_t accent /\
  Forall (made_of legible box_t unbox_t down_t) (told _ _ n) /\
  shown (stores (hub _ _ n)) key5 = Some (Entity 50089) /\ box_t SString 50089 = VString (utf8 [233]) /\
  shown (stores (view _ c)) key5 = Some (Entity 233) /\ ~ well_formed [233].
Proof.
  assert (W : well_formed [195; 169]).
  { exists [233]. split; [repeat constructor; unfold scalar; lia|]. apply (U8_2 3 41); try lia. constructor. }
  eexists. eexists. split; [vm_compute; reflexivity|]. split; [reflexivity|]. split; [repeat split|]. split; [reflexivity|]. split; [|split; [|split; [reflexivity|split; [reflexivity|split; [reflexivity|]]]]].
  - exists (T UpUpdate 0 false [SInt] [ENoImpl; texts]). split; [cbn; auto|]. do 2 (split; [reflexivity|]). exists (PPath (mk_path 0 [5])), [NoImpl; FPayload (Entity 50089)].
    split; [reflexivity|]. split; [do 2 (split; [reflexivity|]); repeat constructor; vm_compute; congruence|]. constructor; [exact Logic.I|]. constructor; [|constructor].
    split; [|reflexivity]. split; [exact W|exact Logic.I].
  - constructor; [|constructor]. exists (T DownUpdate 0 false [SInt] [ENoImpl; texts; ENoImpl]). split; [cbn; auto|]. do 2 (split; [reflexivity|]).
    exists (PPath (mk_path 0 [5])), [NoImpl; FPayload (Entity 50089); NoImpl].
    split; [reflexivity|]. split; [do 2 (split; [reflexivity|]); repeat constructor; vm_compute; congruence|]. constructor; [exact Logic.I|]. constructor; [|constructor; [exact Logic.I|constructor]].
    split; [|reflexivity]. split; [exact W|exact Logic.I].
  - intros (l & Hl & U). inversion U; subst; lia.
Qed.

Print Assumptions C109_up.
Print Assumptions C109_text_refuted.
Print Assumptions C109_down.
Print Assumptions C109_missed.
Print Assumptions C109_crash.
Print Assumptions C109_history.
Print Assumptions C109_shows.
Print Assumptions C109_agree_partial.
Print Assumptions C109_requests.
Print Assumptions C109_healthy_partial.
Print Assumptions C109_settles.
Print Assumptions C109_executed_partial.
Print Assumptions C109_stale_refuted.
Print Assumptions C109_crash_refuted.

(* two browsers, through real texts; the list becomes empty and is filled again: they miss the one and see the other *)
Definition two_browsers : list (label bytes) :=
  [Connect _; Connect _; Register _ 1; Register _ 0; Ask _ 0 fill; Ask _ 1 (make_upstream_create 0 (PCreate 0 []) None (Entity 2) None); Serve _ 1; Serve _ 0;
   Tell _ clear; Deliver _ 0; Deliver _ 0; Deliver _ 0; Deliver _ 1; Deliver _ 1; Deliver _ 1; Ask _ 0 fill; Serve _ 0; Deliver _ 0; Deliver _ 1]%nat.
Example C109_ex : match browser_run toy untoy_all (js_print toy) (js_read untoy_all) two_browsers with
  | Some n => map (fun c => (shown (stores (view _ c)) key1, shown (stores (view _ c)) key5, length (got _ c), inbox _ c, outbox _ c)) (members _ _ n)
                = [(Some (Entity 2), Some (Entity 3), 3%nat, [], []); (Some (Entity 2), Some (Entity 3), 3%nat, [], [])] /\
              map fst (served _ _ n) = [Some 1; Some 0; None; Some 0]%nat /\ length (told _ _ n) = 4%nat /\ crashed _ _ n = false
  | None => False
  end.
Proof. vm_compute. auto. Qed.
Ltac made t p fs := exists t; split; [cbn; auto|]; do 2 (split; [reflexivity|]); exists p, fs; split; [reflexivity|]; split;
  [do 2 (split; [reflexivity|]); repeat constructor; vm_compute; congruence|repeat constructor; vm_compute; try congruence; auto].
(* of which C109 speaks *)
Definition odd (i : nat) : bool := Nat.odd i.
Lemma made_fill : made_of fits_up box_b unbox_b up_b fill.
Proof. made (T UpUpdate 0 false [SInt] [ENoImpl; lists]) (PPath (mk_path 0 [5])) [NoImpl; FPayload (Entity 3)]. Qed.
Lemma made_new : made_of fits_up box_b unbox_b up_b (make_upstream_create 0 (PCreate 0 []) None (Entity 2) None).
Proof. made (T UpCreate 0 true [] [ENoImpl; lists; ENoImpl]) (PCreate 0 []) [NoImpl; FPayload (Entity 2); NoImpl]. Qed.
Example C109_hyps_ex : understood junk (js_print toy) untoy_all toy (js_read untoy_all) /\ prints toy untoy_all /\
  exists n, browser_run toy untoy_all (js_print toy) (js_read untoy_all) two_browsers = Some n /\ all_said box_b unbox_b up_b down_b (fun _ => true) n /\
    ~ Forall (made_of fits_down box_b unbox_b down_b) (told _ _ n).
Proof.
  split; [exact toy_understood|]. split; [exact PipProps.toy_ok|]. eexists. split; [vm_compute; reflexivity|]. split.
  - intros i c H. cbn [members told] in *. split.
    + constructor; [made (T DownCreate 0 false [SInt] [ENoImpl; lists; ENoImpl]) (PPath (mk_path 0 [1])) [NoImpl; FPayload (Entity 2); NoImpl]|].
      constructor; [made (T DownUpdate 0 false [SInt] [ENoImpl; lists; ENoImpl]) (PPath (mk_path 0 [5])) [NoImpl; FPayload (Entity 3); NoImpl]|].
      constructor; [made (T DownUpdate 0 false [SInt] [ENoImpl; lists; ENoImpl]) (PPath (mk_path 0 [5])) [NoImpl; FPayload (Entity 0); NoImpl]|].
      constructor; [made (T DownUpdate 0 false [SInt] [ENoImpl; lists; ENoImpl]) (PPath (mk_path 0 [5])) [NoImpl; FPayload (Entity 3); NoImpl]|constructor].
    + destruct i as [|[|i]]; cbn in H; [| |destruct i; discriminate]; injection H as <-; cbn [asked]; repeat (constructor; [exact made_fill || exact made_new|]); constructor.
  - intros B. cbn [told] in B. inversion B as [|? ? _ B1]. inversion B1 as [|? ? _ B2]. inversion B2 as [|? ? B3 _]. clear -B3.
    destruct B3 as (t & H & K & I & p & fs & S & Hp & Hf). cbn in H. destruct H as [<-|[<-|[<-|[]]]]; cbn in K, I; try discriminate. injection S as <- <-.
    cbn in Hf. inversion Hf as [|? ? ? ? _ Hf2]. inversion Hf2 as [|? ? ? ? Hn _]. destruct Hn as ((_ & (Fl & _)) & _). now apply Fl.
Qed.
(* a program and a browser, both asking: they agree with each other and with the server *)
Definition both : list (label bytes) :=
  [Connect _; Connect _; Register _ 1; Register _ 0; Ask _ 0 fill; Ask _ 1 (make_upstream_create 0 (PCreate 0 []) None (Entity 2) None); Serve _ 1; Serve _ 0;
   Deliver _ 0; Deliver _ 0; Deliver _ 1; Deliver _ 1]%nat.
Example C109_mixed_ex : exists n, mixed_run toy untoy_all (js_print toy) (js_read untoy_all) odd both = Some n /\ all_said box_b unbox_b up_b down_b odd n /\
  Forall (made_of fits_down box_b unbox_b down_b) (told _ _ n) /\ length (told _ _ n) = 2%nat /\
  map (fun c => (shown (stores (view _ c)) key1, shown (stores (view _ c)) key5, inbox _ c, outbox _ c)) (members _ _ n)
    = [(Some (Entity 2), Some (Entity 3), [], []); (Some (Entity 2), Some (Entity 3), [], [])].
Proof.
  eexists. split; [vm_compute; reflexivity|]. cbn [told].
  match goal with |- _ /\ Forall _ ?l /\ _ => assert (D : Forall (made_of fits_down box_b unbox_b down_b) l /\ Forall (carried box_b unbox_b down_b) l /\ Forall (made_of sayable box_b unbox_b down_b) l) end.
  { repeat split; (constructor; [made (T DownCreate 0 false [SInt] [ENoImpl; lists; ENoImpl]) (PPath (mk_path 0 [1])) [NoImpl; FPayload (Entity 2); NoImpl]|]);
      (constructor; [made (T DownUpdate 0 false [SInt] [ENoImpl; lists; ENoImpl]) (PPath (mk_path 0 [5])) [NoImpl; FPayload (Entity 3); NoImpl]|constructor]). }
  split; [|split; [apply D|split; reflexivity]].
  intros i c H. cbn [members told] in *. destruct i as [|[|i]]; cbn in H; [| |destruct i; discriminate]; injection H as <-; (split; [apply D|]); cbn [asked].
  - constructor; [made (T UpUpdate 0 false [SInt] [ENoImpl; lists]) (PPath (mk_path 0 [5])) [NoImpl; FPayload (Entity 3)]|constructor].
  - constructor; [exact made_new|constructor].
Qed.
(* the accented letter as the browser sees it *)
Example C109_seen_ex : seen_as box_t unbox_t down_t (make_downstream_update 0 (PPath (mk_path 0 [5])) None (Entity 50089) None) (make_downstream_update 0 (PPath (mk_path 0 [5])) None (Entity 233) None).
Proof.
  exists (T DownUpdate 0 false [SInt] [ENoImpl; texts; ENoImpl]). split; [cbn; auto|]. split.
  { do 2 (split; [reflexivity|]). exists (PPath (mk_path 0 [5])), [NoImpl; FPayload (Entity 50089); NoImpl]. split; [reflexivity|]. split; [cbn; auto|]. repeat constructor. }
  do 2 (split; [reflexivity|]). exists (PPath (mk_path 0 [5])), [NoImpl; FPayload (Entity 50089); NoImpl], (PPath (mk_path 0 [5])), [NoImpl; FPayload (Entity 233); NoImpl].
  do 2 (split; [reflexivity|]). split; [split; [reflexivity|]; split; [|exact Logic.I]; exists (VInt 5); split; [constructor|reflexivity]|].
  split; [exact Logic.I|]. split; [|split; exact Logic.I]. exists (VString [233]). split; [|reflexivity].
  apply (Seen_string [233] [195; 169] [233]); [repeat constructor; unfold scalar; lia|apply (U8_2 3 41); try lia; constructor|]. repeat constructor; unfold scalar; lia.
Qed.
