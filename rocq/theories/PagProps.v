(* C108: pages of a context, alone or connected to others *)
From Coq Require Import String.
From Verif Require Import Base UiModel UiSpec UiProps StoreModel StoreSpec StoreProofs StoreProps NetModel NetSpec NetProofs NetProps PagModel PagSpec PagProofs.
From Verif Require JsonModel DefModel DefSpec WireModel WireSpec WireProps PipProps ApiModel ApiSpec ApiProps JsbModel JsbSpec JsbProofs BrwModel BrwSpec BrwProofs BrwProps.

(* ---- one context ---- *)
Section One.
Context {P : Type} (react : P -> msg -> P * list msg) (sh : shape) (ren : nat).
(* the renderer is a state consumer; producers answer with downstream messages *)
Hypothesis is_ren : exists a, nth_error (actors sh) ren = Some a /\ state_consumer a = true.
Hypothesis answers_down : forall q m d, In d (snd (react q m)) -> is_upstream d = false.

(* C108: whatever messages are pushed into a context and whatever is matched through it, afterwards the page shows the
   specification for what is in the stores, at the element where it was put, and the rest of the document is as before *)
Theorem C108_context : forall st (see : (path -> outcome) -> st) s h el x0 cs x e,
  sees_payloads see -> always_shown see s -> place s h el -> (forall t, stores x0 t = []) ->
  StoreModel.run table map_apply map_static_false map_match ignores P react sh x0 cs = (x, e) ->
  exists h' r, page_after see s h el (noted ren e) = Fine (h', r) /\ shows_in h el s (see (reads (stores x))) h'.
Proof.
  intros st see s h el x0 cs x e Sp A Pl Em E. apply page_shows; auto. intros p.
  pose proof (run_follows react sh ren is_ren answers_down cs x0 x e E p) as F. rewrite !shown_val. f_equal.
  unfold vals in F. rewrite <- F. destruct (noted ren e); [cbn; now rewrite Em|]. erewrite last_any. reflexivity.
Qed.
End One.

(* ---- the network ---- *)
Section Net.
Context {text : Type} (up_text : nat -> msg -> text) (up_read : text -> incoming) (down_text : msg -> text) (down_read : nat -> text -> incoming)
  {P : Type} (react : P -> msg -> P * list msg) (ssh : shape) (srv : nat) (csh : shape) (cli ren : nat).
(* as for C84 *)
Hypothesis up_codec : forall i m, is_upstream m = true -> up_read (up_text i m) = Message m.
Hypothesis down_codec : forall i m, is_upstream m = false -> down_read i (down_text m) = Message m.
Hypothesis answers_down : forall q m d, In d (snd (react q m)) -> is_upstream d = false.
Hypothesis srv_consumer : exists a, nth_error (actors ssh) srv = Some a /\ consumer a = true.
Hypothesis is_ren : exists a, nth_error (actors csh) ren = Some a /\ state_consumer a = true.
Notation run := (NetModel.run text up_text up_read down_text down_read P react ssh srv csh cli).
Notation start := (NetModel.start text P).
Notation noted_at := (noted_at up_text up_read down_text down_read react ssh srv csh cli ren).
Variable st0 : state table P.
Hypothesis empty : forall t, stores st0 t = [].
Context {st : Type} (see : (path -> outcome) -> st) (s : spec st) (h : heap) (el : nat).
Hypothesis sees : sees_payloads see.
Hypothesis always : always_shown see s.
Hypothesis placed : place s h el.

(* at any time, whatever failed, the page of a client shows what is in the stores of its context *)
Theorem C108_client : forall ls n i c, run (start st0) ls = Some n -> nth_error (members _ _ n) i = Some c ->
  exists h' r, page_after see s h el (noted_at (start st0) i ls) = Fine (h', r) /\ shows_in h el s (see (reads (stores (view _ c)))) h'.
Proof.
  intros ls n i c E H. apply page_shows; auto. intros p.
  pose proof (run_noted up_text up_read down_text down_read react ssh srv csh cli ren is_ren ls (start st0) n i E p) as F.
  unfold stores_at in F. rewrite H in F. rewrite !shown_val. f_equal. rewrite <- F. now destruct i.
Qed.

(* the page of a client registered before anything was told shows what is in the stores of the server's context, once
   nothing of this client is under way *)
Theorem C108_page_partial : forall l1 i l2 n1 n c,
  run (start st0) l1 = Some n1 -> told _ _ n1 = [] ->
  run (start st0) (l1 ++ Register _ i :: l2) = Some n -> nth_error (members _ _ n) i = Some c ->
  (forall m, In (Ask _ i m) (l1 ++ Register _ i :: l2) -> is_upstream m = true) -> at_rest c ->
  exists h' r, page_after see s h el (noted_at (start st0) i (l1 ++ Register _ i :: l2)) = Fine (h', r) /\
    shows_in h el s (see (reads (stores (hub _ _ n)))) h'.
Proof.
  intros l1 i l2 n1 n c E1 T E H U R. destruct (C108_client _ _ _ _ E H) as (h' & r & A & B). exists h', r. split; auto.
  replace (see (reads (stores (hub _ _ n)))) with (see (reads (stores (view _ c)))); auto. apply sees. intros p. rewrite !payload_shown.
  exact (C84_agree_partial up_text up_read down_text down_read react ssh srv csh cli up_codec down_codec answers_down srv_consumer st0 empty l1 i l2 n1 n c p E1 T E H U R).
Qed.

(* when nothing outside happens any more, the messages under way can be handled in some order (in any order, by
   C84_settles, as long as there are any), and then the pages of all clients whose connection did not fail, and which
   were registered before anything was told, show what is in the stores of the server's context *)
Theorem C108_settled_partial : forall ls n, run (start st0) ls = Some n -> (forall i t, ~ In (Inject _ i t) ls) ->
  (forall i m, In (Ask _ i m) ls -> is_upstream m = true) ->
  exists ls' n', Forall internal ls' /\ run (start st0) (ls ++ ls') = Some n' /\
    forall l1 i l2 n1, ls = l1 ++ Register _ i :: l2 -> run (start st0) l1 = Some n1 -> told _ _ n1 = [] ->
      ~ In (DropServer _ i) ls -> ~ In (DropClient _ i) ls ->
      exists h' r, page_after see s h el (noted_at (start st0) i (ls ++ ls')) = Fine (h', r) /\
        shows_in h el s (see (reads (stores (hub _ _ n')))) h'.
Proof.
  intros ls n E J U.
  destruct (C84_settles up_text up_read down_text down_read react ssh srv csh cli up_codec down_codec answers_down srv_consumer st0 empty ls n E) as (_ & ls' & n' & Int & E' & Rest).
  exists ls', n'. split; auto.
  assert (E2 : run (start st0) (ls ++ ls') = Some n') by (rewrite (run_app up_text up_read down_text down_read react ssh srv csh cli), E; exact E').
  split; auto. intros l1 i l2 n1 -> E1 T D1 D2.
  assert (NI : forall l, In l ls' -> internal l) by (now apply Forall_forall).
  assert (J2 : forall j t, ~ In (Inject _ j t) ((l1 ++ Register _ i :: l2) ++ ls')).
  { intros j t I. apply in_app_or in I as [I|I]; [exact (J _ _ I)|exact (NI _ I)]. }
  destruct (C84_healthy up_text up_read down_text down_read react ssh srv csh cli up_codec down_codec answers_down srv_consumer st0 empty _ _ E2 J2) as (Cr & Hl).
  rewrite <- app_assoc in *. cbn [app] in *.
  destruct (register_known up_text up_read down_text down_read react ssh srv csh cli i l1 (l2 ++ ls') (start st0) n' E2) as (n1' & c & _ & H & K).
  destruct (Hl i c H) as (_ & Al). destruct Al as (Al1 & Al2).
  { intros I. rewrite app_comm_cons, app_assoc in I. apply in_app_or in I as [I|I]; [exact (D1 I)|exact (NI _ I)]. }
  { intros I. rewrite app_comm_cons, app_assoc in I. apply in_app_or in I as [I|I]; [exact (D2 I)|exact (NI _ I)]. }
  refine (C108_page_partial l1 i (l2 ++ ls') n1 n' c E1 T E2 H _ _).
  - intros m I. rewrite app_comm_cons, app_assoc in I. apply in_app_or in I as [I|I]; [exact (U _ _ I)|destruct (NI _ I)].
  - apply (Rest Cr i c H Al1). destruct (at_server _ c); congruence.
Qed.
End Net.

(* with the messages of a definition as JSON texts (C103): the page of a client shows what is in the stores of the server's
   context, if every message that was told or asked is one which the definition declares and whose parts JSON carries *)
Theorem C108_definition_partial : forall box unbox key_shape entity_shape path_number sys integral_of double_of print parse ps us ds
    ssh csh srv cli ren (P : Type) (react : P -> msg -> P * list msg) st0 st (see : (path -> outcome) -> st) s h el l1 i l2 n1 n c,
  WireSpec.prints print parse ->
  ApiModel.wire_api key_shape entity_shape path_number ps = Some (us, ds) -> ApiSpec.one_each path_number ps -> WireSpec.numbered us -> WireSpec.numbered ds ->
  (exists a, nth_error (actors ssh) srv = Some a /\ consumer a = true) -> (exists a, nth_error (actors csh) ren = Some a /\ state_consumer a = true) ->
  (forall q m d, In d (snd (react q m)) -> is_upstream d = false) -> (forall t, stores st0 t = []) ->
  sees_payloads see -> always_shown see s -> place s h el ->
  let up_text := fun _ : nat => WireModel.text_of box us sys print in let up_read := WireModel.read_text unbox us sys integral_of double_of parse in
  let down_text := WireModel.text_of box ds sys print in let down_read := fun _ : nat => WireModel.read_text unbox ds sys integral_of double_of parse in
  let run := NetModel.run bytes up_text up_read down_text down_read P react ssh srv csh cli (NetModel.start bytes P st0) in
  run l1 = Some n1 -> told _ _ n1 = [] -> run (l1 ++ Register _ i :: l2) = Some n ->
  Forall (fun m => exists a x, In a (ApiSpec.points ps) /\ In x (DefSpec.declared_actions a) /\
    ApiSpec.can_tell key_shape entity_shape path_number (WireSpec.travels box unbox) a x m) (told _ _ n) ->
  (forall k d, nth_error (members _ _ n) k = Some d -> Forall (fun m => exists a x, In a (ApiSpec.points ps) /\ In x (DefSpec.declared_actions a) /\
    ApiSpec.can_ask key_shape entity_shape path_number (WireSpec.travels box unbox) a x m) (asked _ d)) ->
  nth_error (members _ _ n) i = Some c ->
  (forall m, In (Ask _ i m) (l1 ++ Register _ i :: l2) -> is_upstream m = true) -> at_rest c ->
  exists h' r, page_after see s h el (noted_at up_text up_read down_text down_read react ssh srv csh cli ren (NetModel.start bytes P st0) i (l1 ++ Register _ i :: l2)) = Fine (h', r) /\
    shows_in h el s (see (reads (stores (hub _ _ n)))) h'.
Proof.
  intros box unbox key_shape entity_shape path_number sys integral_of double_of print parse ps us ds
    ssh csh srv cli ren P react st0 st see s h el l1 i l2 n1 n c Hp Ea Oe Nu Nd Hs Hr An Em Se Al Pl up_text up_read down_text down_read run E1 T E Ht Hq H U R.
  destruct (C108_client up_text up_read down_text down_read react ssh srv csh cli ren Hr st0 see s h el Se Al Pl _ _ _ _ E H) as (h' & r & A & B).
  exists h', r. split; [exact A|]. replace (see (reads (stores (hub _ _ n)))) with (see (reads (stores (view _ c)))); auto. apply Se. intros p. rewrite !payload_shown.
  exact (ApiProps.C103_agree box unbox key_shape entity_shape path_number sys integral_of double_of print parse Hp ps us ds ssh csh srv cli P react st0 l1 i l2 n1 n c p
    Ea Oe Nu Nd Hs An Em E1 T E Ht Hq H U R).
Qed.

(* in a browser (C109): the page shows the specification for what the messages say that the browser understands, as it sees them, and for what is in the
   stores of the server's context if these are all; in another program it always shows the latter *)
Theorem C108_browser : forall box unbox up_api down_api sys lenient other_number like_bytes integral_of double_of print parse stringify js_parse (browser : nat -> bool)
    ssh csh srv cli ren (P : Type) (react : P -> msg -> P * list msg) st0 st (see : (path -> outcome) -> st) s h el l1 i l2 n1 n c,
  BrwSpec.understood lenient stringify parse print js_parse -> WireSpec.prints print parse ->
  WireSpec.one_type up_api /\ WireSpec.numbered up_api -> WireSpec.one_type down_api /\ WireSpec.numbered down_api /\ BrwSpec.api_proper sys down_api ->
  (exists a, nth_error (actors ssh) srv = Some a /\ consumer a = true) -> (exists a, nth_error (actors csh) ren = Some a /\ state_consumer a = true) ->
  (forall q m d, In d (snd (react q m)) -> is_upstream d = false) -> (forall t, stores st0 t = []) ->
  sees_payloads see -> always_shown see s -> place s h el ->
  let up_text := fun i => if browser i then BrwModel.browser_text box up_api sys lenient stringify else WireModel.text_of box up_api sys print in
  let up_read := WireModel.read_text unbox up_api sys integral_of double_of parse in
  let down_text := WireModel.text_of box down_api sys print in
  let down_read := fun i => if browser i then BrwModel.browser_read unbox down_api sys lenient other_number like_bytes js_parse else WireModel.read_text unbox down_api sys integral_of double_of parse in
  let run := NetModel.run bytes up_text up_read down_text down_read P react ssh srv csh cli (NetModel.start bytes P st0) in
  run l1 = Some n1 -> told _ _ n1 = [] -> run (l1 ++ Register _ i :: l2) = Some n ->
  BrwSpec.all_said box unbox up_api down_api browser n ->
  nth_error (members _ _ n) i = Some c ->
  (forall m, In (Ask _ i m) (l1 ++ Register _ i :: l2) -> is_upstream m = true) -> at_rest c ->
  exists h' r now, page_after see s h el (noted_at up_text up_read down_text down_read react ssh srv csh cli ren (NetModel.start bytes P st0) i (l1 ++ Register _ i :: l2)) = Fine (h', r) /\
    shows_in h el s (see now) h' /\
    (exists heard, (if browser i then BrwSpec.only (BrwSpec.made_of BrwSpec.legible box unbox down_api) (BrwSpec.seen_as box unbox down_api) (told _ _ n) heard else heard = told _ _ n) /\
       forall p, payload_in (now p) = value_after heard p) /\
    ((browser i = true -> Forall (BrwSpec.made_of BrwSpec.fits_down box unbox down_api) (told _ _ n)) -> shows_in h el s (see (reads (stores (hub _ _ n)))) h').
Proof.
  intros box unbox up_api down_api sys lenient other_number like_bytes integral_of double_of print parse stringify js_parse browser
    ssh csh srv cli ren P react st0 st see s h el l1 i l2 n1 n c Hu Hp Uo Do Hs Hr An Em Se Al Pl up_text up_read down_text down_read run E1 T E Sd H U R.
  destruct (C108_client up_text up_read down_text down_read react ssh srv csh cli ren Hr st0 see s h el Se Al Pl _ _ _ _ E H) as (h' & r & A & B).
  exists h', r, (reads (stores (view _ c))). split; [exact A|]. split; [exact B|]. split.
  - destruct (BrwProps.C109_history box unbox up_api down_api sys lenient other_number like_bytes integral_of double_of print parse stringify js_parse Hu Uo Do browser Hp ssh csh srv cli Hs react An st0 Em l1 i l2 n c E Sd H)
      as (n1' & news & heard & E1' & N & _ & O & G). assert (Q : Some n1' = Some n1) by (rewrite <- E1; symmetry; exact E1'). injection Q as ->. rewrite T in N. cbn in N. rewrite (G R), <- N in O.
    exists (got _ c). split; [destruct (browser i); auto|]. intros p. rewrite payload_shown.
    destruct (BrwProps.C109_shows box unbox up_api down_api sys lenient other_number like_bytes integral_of double_of print parse stringify js_parse Hu Uo Do browser Hp ssh csh srv cli Hs react An st0 Em _ n p E Sd) as (_ & Sh).
    now apply Sh with i.
  - intros F. replace (see (reads (stores (hub _ _ n)))) with (see (reads (stores (view _ c)))); auto. apply Se. intros p. rewrite !payload_shown.
    exact (BrwProps.C109_agree_partial box unbox up_api down_api sys lenient other_number like_bytes integral_of double_of print parse stringify js_parse Hu Uo Do browser Hp ssh csh srv cli Hs react An st0 Em l1 i l2 n1 n c p E1 T E Sd H F U R).
Qed.
Print Assumptions C108_browser.

(* ---- what is not so ---- *)
(* the page shows what is in the stores whatever the specification looks at *)
Definition C108_full : Prop := forall st (see : (path -> outcome) -> st) s h el sh ren cs x e,
  always_shown see s -> place s h el -> (exists a, nth_error (actors sh) ren = Some a /\ state_consumer a = true) ->
  StoreModel.run table map_apply map_static_false map_match ignores unit (fun u _ => (u, [])) sh {| stores := fun _ => []; producers := fun _ => tt |} cs = (x, e) ->
  exists h' r, page_after see s h el (noted ren e) = Fine (h', r) /\ shows_in h el s (see (reads (stores x))) h'.

Definition page_shape : shape := {| actors := [{| consumer := false; state_consumer := false |}; {| consumer := false; state_consumer := true |}];
  producer_of := fun _ => 0%nat; listeners_of := fun _ => [] |}.
(* a read makes the path unresolved (map_store.hpp:37-49) and nobody is notified: context.hpp:162-192 *)
Definition loading : spec bool := TextNode (TPath (fun b : bool => Some (if b then bs "loading" else bs "nothing"))).
Definition see_loading (x : path -> outcome) : bool := match x key5 with Unresolved => true | _ => false end.
Theorem C108_read_refuted : ~ C108_full.
Proof.
  intros H. specialize (H bool see_loading loading UiProps.page 0%nat page_shape 1%nat [Push (make_upstream_read 0 (PPath key5) None)]).
  edestruct H as (h' & r & A & B).
  - split; [exact I|]. intros x. cbn. repeat split. discriminate.
  - exists (mk_node None (KElem (bs "body")) [] []). repeat split; auto. intros i [].
  - eexists. split; reflexivity.
  - vm_compute. reflexivity.
  - vm_compute in A. injection A as <- <-. destruct B as (n & n' & new & B1 & B2 & _ & _ & B5 & B6 & _).
    vm_compute in B1, B2. injection B1 as <-. injection B2 as <-. cbn in B5. subst new. vm_compute in B6.
    inversion B6; subst. inversion H4; subst. vm_compute in H2. injection H2 as <-. discriminate.
Qed.
Print Assumptions C108_context.
Print Assumptions C108_client.
Print Assumptions C108_page_partial.
Print Assumptions C108_settled_partial.
Print Assumptions C108_definition_partial.
Print Assumptions C108_read_refuted.

(* nor does the page in a browser show what is in the stores of the server's context once nothing is under way: a list that was emptied
   goes on being shown as it was *)
Definition counted : spec bytes := TextNode (TPath (fun b => Some b)).
Definition see_count (x : path -> outcome) : bytes := match payload_in (x key5) with Some (Entity 0) => bs "none" | Some _ => bs "some" | None => bs "nothing" end.
Definition paged_browser : shape := {| actors := [{| consumer := false; state_consumer := false |}; {| consumer := false; state_consumer := true |}];
  producer_of := fun _ => 0%nat; listeners_of := fun _ => [] |}.
Definition at_browser {A} (f : (nat -> msg -> bytes) -> (bytes -> incoming) -> (msg -> bytes) -> (nat -> bytes -> incoming) -> A) : A :=
  f (fun _ => BrwModel.browser_text BrwProps.box_b BrwProps.up_b JsonModel.SEmpty JsbProps.junk (BrwProps.js_print PipProps.toy))
    (WireModel.read_text BrwProps.unbox_b BrwProps.up_b JsonModel.SEmpty (fun _ => None) (fun _ => 0) PipProps.untoy_all)
    (WireModel.text_of BrwProps.box_b BrwProps.down_b JsonModel.SEmpty PipProps.toy)
    (fun _ => BrwModel.browser_read BrwProps.unbox_b BrwProps.down_b JsonModel.SEmpty JsbProps.junk JsbProps.nan JsbProps.no_array (BrwProps.js_read PipProps.untoy_all)).
Theorem C108_stale_refuted : sees_payloads see_count /\ always_shown see_count counted /\ place counted UiProps.page 0 /\ at_browser (fun ut ur dt dr => exists n c h' r,
  NetModel.run bytes ut ur dt dr counters (echo_react 256) hub_shape_ex 1 paged_browser 0 (NetModel.start bytes counters hub0) BrwProps.stale = Some n /\
  nth_error (members _ _ n) 0 = Some c /\ at_rest c /\ BrwSpec.all_said BrwProps.box_b BrwProps.unbox_b BrwProps.up_b BrwProps.down_b (fun _ => true) n /\
  page_after see_count counted UiProps.page 0 (noted_at ut ur dt dr (echo_react 256) hub_shape_ex 1 paged_browser 0 1 (NetModel.start bytes counters hub0) 0 BrwProps.stale) = Fine (h', r) /\
  shows_in UiProps.page 0 counted (bs "some") h' /\ see_count (reads (stores (hub _ _ n))) = bs "none" /\
  ~ shows_in UiProps.page 0 counted (see_count (reads (stores (hub _ _ n)))) h').
Proof.
  assert (Pg : place counted UiProps.page 0) by (exists (mk_node None (KElem (bs "body")) [] []); repeat split; auto; intros i []).
  assert (Se : sees_payloads see_count) by (intros x y H; unfold see_count; now rewrite H).
  assert (Al : always_shown see_count counted) by (split; [exact I|]; intros x; cbn; repeat split; discriminate).
  do 3 (split; [assumption|]). unfold at_browser.
  match goal with |- exists n c h' r, ?run = _ /\ _ => destruct run as [n|] eqn:E; [|exfalso; vm_compute in E; discriminate] end. exists n.
  destruct (nth_error (members _ _ n) 0) as [c|] eqn:H; [|exfalso; vm_compute in E; injection E as <-; discriminate]. exists c.
  destruct (C108_client _ _ _ _ (echo_react 256) hub_shape_ex 1 paged_browser 0 1 ltac:(eexists; split; reflexivity) hub0 see_count counted UiProps.page 0 Se Al Pg _ _ _ _ E H) as (h' & r & A & B).
  exists h', r. split; [reflexivity|]. split; [exact eq_refl|].
  assert (V : see_count (reads (stores (view _ c))) = bs "some") by (vm_compute in E; injection E as <-; injection H as <-; vm_compute; reflexivity).
  split; [vm_compute in E; injection E as <-; injection H as <-; repeat split|].
  split.
  { destruct BrwProps.C109_stale_refuted as (n2 & c2 & E2 & H2 & _ & T2 & A2 & _). intros i d Hd.
    assert (Tn : told _ _ n = told _ _ n2) by (vm_compute in E, E2; injection E as <-; injection E2 as <-; reflexivity).
    rewrite Tn. split; [eapply Forall_impl; [|exact T2]; intros m; apply BrwProofs.made_weaker; intros ? ?; apply JsbProofs.ascii_writable|]. replace (asked _ d) with (@nil msg); [constructor|].
    clear - E Hd. vm_compute in E. injection E as <-. destruct i as [|[|i]]; cbn in Hd; try discriminate. injection Hd as <-. reflexivity. }
  split; [exact A|]. rewrite V in B. split; [exact B|].
  assert (W : see_count (reads (stores (hub _ _ n))) = bs "none") by (vm_compute in E; injection E as <-; vm_compute; reflexivity).
  split; [exact W|]. rewrite W. clear - A. vm_compute in A. injection A as <- <-. intros C. destruct C as (m & m' & new & B1 & B2 & _ & _ & B5 & B6 & _).
  vm_compute in B1, B2. injection B1 as <-. injection B2 as <-. cbn in B5. subst new. vm_compute in B6.
  inversion B6; subst. match goal with X : shows _ _ _ 1%nat _ |- _ => inversion X; subst end.
  match goal with X : nth_error _ 1 = Some _ |- _ => vm_compute in X; injection X as <- end. discriminate.
Qed.
Print Assumptions C108_stale_refuted.
Fixpoint texts_below (fuel : nat) (h : heap) (i : nat) : list bytes :=
  match fuel, nth_error h i with
  | Datatypes.S f, Some n => match kind_of n with KText b => [b] | _ => flat_map (texts_below f h) (kids n) end
  | _, _ => []
  end.
Definition texts_of {A} (o : out (heap * renderer A)) : list bytes := match o with Fine (h, _) => texts_below 9 h 0 | _ => [] end.
Example C108_browser_ex : texts_of (at_browser (fun ut ur dt dr =>
  page_after see_count counted UiProps.page 0 (noted_at ut ur dt dr (echo_react 256) hub_shape_ex 1 paged_browser 0 1 (NetModel.start bytes counters hub0) 0 (firstn 4 BrwProps.stale)))) = [bs "some"].
Proof. vm_compute. reflexivity. Qed.

(* ---- two clients which show what is at key5 and at key1 ---- *)
Definition name_of (o : outcome) : bytes :=
  match payload_in o with Some (Entity 7) => bs "Ann" | Some (Entity 8) => bs "Bob" | Some _ => bs "someone" | None => bs "nobody" end.
Definition see_ex (x : path -> outcome) : model :=
  mk_model (Some (name_of (x key5))) (Some (match payload_in (x key1) with Some _ => 0%nat | None => 1%nat end)) [name_of (x key1)].
Example C108_ex_sees : sees_payloads see_ex /\ always_shown see_ex greeting /\ place greeting UiProps.page 0.
Proof.
  split; [|split].
  - intros x y H. unfold see_ex, name_of. now rewrite !H.
  - split; [cbn; repeat split; auto; repeat constructor; cbn; try tauto; intuition discriminate|].
    intros x. unfold see_ex. set (a := match payload_in (x key1) with Some _ => 0%nat | None => 1%nat end).
    assert (La : (a < 2)%nat) by (unfold a; destruct (payload_in _); lia). clearbody a.
    cbn. repeat split; auto; try discriminate; try (exists a; auto); repeat constructor; cbn; auto; try discriminate.
    destruct a as [|[|a]]; [| |lia]; cbn; repeat split; discriminate.
  - exists (mk_node None (KElem (bs "body")) [] []). repeat split; auto. intros i [].
Qed.
Definition paged_client : shape := {| actors := [{| consumer := false; state_consumer := false |}; {| consumer := false; state_consumer := true |}];
  producer_of := fun _ => 0%nat; listeners_of := fun _ => [] |}.
Definition notes_ex (i : nat) (ls : list (label wire)) :=
  noted_at (fun _ => inl) wire_read inl (fun _ => wire_read) (echo_react 256) hub_shape_ex 1 paged_client 0 1 (start wire counters hub0) i ls.
Example C108_ex :
  map (fun i => length (notes_ex i two)) [0; 1]%nat = [3; 3]%nat /\
  texts_of (page_after see_ex greeting UiProps.page 0 (notes_ex 0 two)) = texts_of (page_after see_ex greeting UiProps.page 0 (notes_ex 1 two)) /\
  texts_of (page_after see_ex greeting UiProps.page 0 (notes_ex 1 two)) = [bs "Hello "; bs "Bob"; bs "first"; bs "someone"] /\
  texts_of (page_after see_ex greeting UiProps.page 0 (notes_ex 1 (firstn 4 two))) = [bs "Hello "; bs "nobody"; bs "nobody"; bs "nobody"].
Proof. vm_compute. repeat split. Qed.
(* the same with the JSON texts of a definition: the note 5 is set by the one client and seen on the page of the other *)
Definition texts_net : list (label bytes) :=
  [Connect _; Connect _; Register _ 1; Register _ 0; Ask _ 0 (make_upstream_update 0 (PPath key5) None (Entity 7)); Serve _ 0; Deliver _ 0; Deliver _ 1]%nat.
Definition through_texts {A} (f : (msg -> bytes) -> (bytes -> incoming) -> (msg -> bytes) -> (bytes -> incoming) -> A) : A :=
  let api := ApiProps.api_ex ApiProps.all_ex in
  f (WireModel.text_of WireProps.box_ex (fst api) JsonModel.SEmpty PipProps.toy)
    (WireModel.read_text WireProps.unbox_ex (fst api) JsonModel.SEmpty (fun _ => None) (fun _ => 0) PipProps.untoy_all)
    (WireModel.text_of WireProps.box_ex (snd api) JsonModel.SEmpty PipProps.toy)
    (WireModel.read_text WireProps.unbox_ex (snd api) JsonModel.SEmpty (fun _ => None) (fun _ => 0) PipProps.untoy_all).
Example C108_definition_ex : through_texts (fun ut ur dt dr =>
  (match NetModel.run bytes (fun _ => ut) ur dt (fun _ => dr) counters (echo_react 256) hub_shape_ex 1 paged_client 0 (NetModel.start bytes counters hub0) texts_net with
   | Some n => map (fun c => (at_server _ c, length (inbox _ c), length (outbox _ c))) (members _ _ n)
   | None => []
   end,
   texts_of (page_after see_ex greeting UiProps.page 0
     (noted_at (fun _ => ut) ur dt (fun _ => dr) (echo_react 256) hub_shape_ex 1 paged_client 0 1 (NetModel.start bytes counters hub0) 1 texts_net)))) =
  ([(Known, 0, 0); (Known, 0, 0)]%nat, [bs "Hello "; bs "Ann"; bs "Ann"; bs "nobody"]).
Proof. vm_compute. reflexivity. Qed.
