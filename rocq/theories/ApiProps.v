(* C103: the messages of a definition between its clients and its server. *)
From Verif Require Import Base StoreModel StoreSpec NetModel NetSpec NetProofs.
From Verif Require Import DefModel DefSpec DefProofs JsonModel JsonSpec AppModel WireModel WireSpec WireProofs WireProps ApiModel ApiSpec ApiProofs.
From Verif Require PipProps.
Open Scope N_scope.

Section Props.
Variable box : shape -> N -> value.
Variable unbox : shape -> value -> N.
Variable key_shape : N -> shape.
Variable entity_shape : ty -> shape.
Variable path_number : list N -> nat.
Variable sys : shape.
Variable integral_of : N -> option Z.
Variable double_of : Z -> N.
Variable print : json -> bytes.
Variable parse : bytes -> option json.
Hypothesis Hprint : prints print parse.
Notation api := (wire_api key_shape entity_shape path_number).
Notation says l := (text_of box l sys print).
Notation hears l := (read_text unbox l sys integral_of double_of parse).
Notation any := (fun (_ : shape) (_ : N) => True).
(* declared requests and answers *)
Notation ask ok ps m := (exists a x, In a (points ps) /\ In x (declared_actions a) /\ can_ask key_shape entity_shape path_number ok a x m).
Notation tell ok ps m := (exists a x, In a (points ps) /\ In x (declared_actions a) /\ can_tell key_shape entity_shape path_number ok a x m).

Lemma api_of ps us ds : api ps = Some (us, ds) -> exists us0 ds0, message_api ps = Some (us0, ds0) /\
  us = map (wire_type key_shape entity_shape path_number) us0 /\ ds = map (wire_type key_shape entity_shape path_number) ds0.
Proof. unfold wire_api. destruct (message_api ps) as [[us0 ds0]|]; [|discriminate]. intros E. injection E as <- <-. eauto. Qed.

(* C103: what the two variants can carry is exactly the requests for declared actions and the answers to them *)
Theorem C103_carried : forall ps us ds m, api ps = Some (us, ds) ->
  (carried box unbox us m <-> ask (travels box unbox) ps m) /\ (carried box unbox ds m <-> tell (travels box unbox) ps m).
Proof.
  intros ps us ds m E. destruct (api_of _ _ _ E) as (us0 & ds0 & A & -> & ->).
  split; rewrite carried_has; [eapply up_types|eapply down_types]; eauto.
Qed.

(* every one of them arrives as itself *)
Theorem C103_arrives : forall ps us ds m, api ps = Some (us, ds) -> one_each path_number ps -> numbered us -> numbered ds ->
  (ask (travels box unbox) ps m -> hears us (says us m) = NetModel.Message m) /\
  (tell (travels box unbox) ps m -> hears ds (says ds m) = NetModel.Message m).
Proof.
  intros ps us ds m E O Nu Nd. destruct (C103_carried _ _ _ m E) as (U & D). destruct (api_of _ _ _ E) as (us0 & ds0 & A & -> & ->).
  split; intros H.
  - apply text_read; auto; [eapply up_one_type; eauto|now apply U].
  - apply text_read; auto; [eapply down_one_type; eauto|now apply D].
Qed.

(* whatever text comes, the server gets a request for a declared action, and a client an answer to one, if they get a message at all *)
Theorem C103_only : forall ps us ds t m, api ps = Some (us, ds) ->
  (hears us t = NetModel.Message m -> ask any ps m) /\ (hears ds t = NetModel.Message m -> tell any ps m).
Proof.
  intros ps us ds t m E. destruct (api_of _ _ _ E) as (us0 & ds0 & A & -> & ->). split; intros R.
  - apply text_typed in R as (ty & I & Ty). apply of_has in Ty. eapply up_types; eauto.
  - apply text_typed in R as (ty & I & Ty). apply of_has in Ty. eapply down_types; eauto.
Qed.

(* a definition can get further access points at the end: old and new programs understand each other, and what is about the new access
   points is refused by the old ones *)
Theorem C103_grows : forall ps ps' more us ds us' ds' m, api ps = Some (us, ds) -> api ps' = Some (us', ds') -> points ps' = points ps ++ more ->
  one_each path_number ps' -> numbered us' -> numbered ds' ->
  (ask (travels box unbox) ps m -> hears us' (says us m) = NetModel.Message m /\ hears us (says us' m) = NetModel.Message m) /\
  (tell (travels box unbox) ps m -> hears ds' (says ds m) = NetModel.Message m /\ hears ds (says ds' m) = NetModel.Message m) /\
  (forall a x, In a more -> In x (declared_actions a) ->
     (can_ask key_shape entity_shape path_number (travels box unbox) a x m -> hears us (says us' m) = Refused) /\
     (can_tell key_shape entity_shape path_number (travels box unbox) a x m -> hears ds (says ds' m) = Refused)).
Proof.
  intros ps ps' more us ds us' ds' m E E' P O Nu Nd.
  destruct (C103_carried _ _ _ m E) as (U & D). destruct (C103_carried _ _ _ m E') as (U' & D').
  destruct (C103_arrives _ _ _ m E' O Nu Nd) as (Ru & Rd).
  destruct (api_of _ _ _ E) as (us0 & ds0 & A & Eu & Ed). destruct (api_of _ _ _ E') as (us0' & ds0' & A' & Eu' & Ed').
  assert (O' : one_each path_number ps).
  { destruct O as (O1 & O2). split.
    - rewrite P, map_app in O1. clear -O1. induction (map ap_path (points ps)) as [|x l IH]; [constructor|]. cbn in O1. inversion O1 as [|? ? Q R]. subst.
      constructor; [|now apply IH]. intros I. apply Q, in_or_app. now left.
    - intros a b Ia Ib. apply O2; rewrite P; apply in_or_app; now left. }
  destruct (message_api_spec _ _ _ A) as (S1 & S2). destruct (message_api_spec _ _ _ A') as (S1' & S2'). fold (points ps) in S1, S2. fold (points ps') in S1', S2'.
  rewrite P, flat_map_app in S1'. rewrite P, flat_map_app in S2'. rewrite <- S1 in S1'. rewrite <- S2 in S2'.
  set (w := wire_type key_shape entity_shape path_number) in *.
  assert (Xu : us' = us ++ map w (flat_map (fun a => map (request a) (declared_actions a)) more)) by (rewrite Eu', S1', map_app, Eu; reflexivity).
  assert (Xd : ds' = ds ++ map w (flat_map (fun a => flat_map (answers a) (declared_actions a)) more)) by (rewrite Ed', S2', map_app, Ed; reflexivity).
  assert (Ou : one_type us') by (rewrite Eu'; eapply up_one_type; eauto). assert (Od : one_type ds') by (rewrite Ed'; eapply down_one_type; eauto).
  assert (Nu0 : numbered us) by (unfold numbered in *; rewrite Xu, app_length in Nu; lia).
  assert (Nd0 : numbered ds) by (unfold numbered in *; rewrite Xd, app_length in Nd; lia).
  destruct (C103_arrives _ _ _ m E O' Nu0 Nd0) as (Ru0 & Rd0).
  assert (Old : forall a x, In a (points ps) -> In x (declared_actions a) -> In a (points ps')) by (intros; rewrite P; apply in_or_app; now left).
  split; [|split].
  - intros Q. assert (T : says us' m = says us m) by (rewrite Xu; apply text_more with (unbox := unbox); now apply U).
    split; [rewrite <- T; apply Ru|rewrite T; now apply Ru0]. destruct Q as (a & x & Ia & Ix & Q). exists a, x. eauto.
  - intros Q. assert (T : says ds' m = says ds m) by (rewrite Xd; apply text_more with (unbox := unbox); now apply D).
    split; [rewrite <- T; apply Rd|rewrite T; now apply Rd0]. destruct Q as (a & x & Ia & Ix & Q). exists a, x. eauto.
  - intros a x Ia Ix.
    assert (New : forall b, In b (points ps) -> path_number (ap_path b) <> path_number (ap_path a)).
    { intros b Ib Q. assert (R : a = b).
      { apply (same_point path_number ps' a b O); [rewrite P; apply in_or_app; now right|rewrite P; apply in_or_app; now left|congruence]. }
      subst b. destruct O as (O1 & _). rewrite P, map_app in O1. apply (in_map ap_path) in Ia, Ib.
      clear -O1 Ia Ib. induction (map ap_path (points ps)) as [|y l IH]; [destruct Ib|]. cbn in O1. inversion O1 as [|? ? Q R]. subst.
      destruct Ib as [->|Ib]; [apply Q, in_or_app; now right|now apply IH]. }
    split; intros Q.
    + rewrite Xu. apply text_unknown; auto; [now rewrite <- Xu| | |now rewrite <- Xu].
      * intros t It Ty. assert (G : ask any ps m) by (apply (up_types key_shape entity_shape path_number ps us0 ds0 A any); exists t; fold w; rewrite <- Eu; split; [exact It|now apply of_has]).
        destruct G as (b & y & Ib & _ & G). apply (New b Ib).
        assert (Mt : mtype m = N.of_nat (path_number (ap_path a))) by (destruct Q; reflexivity).
        assert (Mt' : mtype m = N.of_nat (path_number (ap_path b))) by (destruct G; reflexivity). apply Nnat.Nat2N.inj. congruence.
      * apply carried_has. exists (w (request a x)). split; [apply in_map, in_flat_map; exists a; split; [exact Ia|now apply in_map]|].
        eapply request_types; eauto. rewrite P. apply in_or_app. now right.
    + rewrite Xd. apply text_unknown; auto; [now rewrite <- Xd| | |now rewrite <- Xd].
      * intros t It Ty. assert (G : tell any ps m) by (apply (down_types key_shape entity_shape path_number ps us0 ds0 A any); exists t; fold w; rewrite <- Ed; split; [exact It|now apply of_has]).
        destruct G as (b & y & Ib & _ & G). apply (New b Ib).
        assert (Mt : mtype m = N.of_nat (path_number (ap_path a))) by (destruct Q; reflexivity).
        assert (Mt' : mtype m = N.of_nat (path_number (ap_path b))) by (destruct G; reflexivity). apply Nnat.Nat2N.inj. congruence.
      * apply (answer_types key_shape entity_shape path_number) in Q as (t & It & Q). apply carried_has. exists (w t). split; [|exact Q].
        apply in_map, in_flat_map. exists a. split; [exact Ia|]. apply in_flat_map. eauto.
Qed.

(* with all of it between contexts: C101 for the API of a definition *)
Theorem C103_agree : forall ps us ds ssh csh srv cli (P : Type) (react : P -> msg -> P * list msg) st0 l1 i l2 n1 n c p,
  api ps = Some (us, ds) -> one_each path_number ps -> numbered us -> numbered ds ->
  (exists a, nth_error (actors ssh) srv = Some a /\ consumer a = true) ->
  (forall q m d, In d (snd (react q m)) -> is_upstream d = false) -> (forall t, stores st0 t = []) ->
  let run := NetModel.run bytes (fun _ => says us) (hears us) (says ds) (fun _ => hears ds) P react ssh srv csh cli (NetModel.start bytes P st0) in
  run l1 = Some n1 -> told _ _ n1 = [] -> run (l1 ++ Register _ i :: l2) = Some n ->
  Forall (fun m => tell (travels box unbox) ps m) (told _ _ n) ->
  (forall k d, nth_error (NetModel.members _ _ n) k = Some d -> Forall (fun m => ask (travels box unbox) ps m) (asked _ d)) ->
  nth_error (NetModel.members _ _ n) i = Some c ->
  (forall m, In (Ask _ i m) (l1 ++ Register _ i :: l2) -> is_upstream m = true) -> at_rest c ->
  shown (stores (view _ c)) p = shown (stores (hub _ _ n)) p.
Proof.
  intros ps us ds ssh csh srv cli P react st0 l1 i l2 n1 n c p E O Nu Nd HS HR H0 run R1 T1 R T A Hc U Z.
  assert (OO : one_type us /\ one_type ds).
  { destruct (api_of _ _ _ E) as (us0 & ds0 & X & -> & ->). split; [eapply up_one_type|eapply down_one_type]; eauto. }
  eapply (C101_agree_partial box unbox us ds sys integral_of double_of print parse Hprint); try exact R1; try exact R; eauto; try tauto.
  split.
  - eapply Forall_impl; [|exact T]. intros m Q. now apply (C103_carried _ _ _ m E).
  - intros k d Hk. eapply Forall_impl; [|exact (A k d Hk)]. intros m Q. now apply (C103_carried _ _ _ m E).
Qed.
Theorem C103_settles : forall ps us ds ssh csh srv cli (P : Type) (react : P -> msg -> P * list msg) (n : net bytes P), api ps = Some (us, ds) ->
  let step := NetModel.step bytes (fun _ => says us) (hears us) (says ds) (fun _ => hears ds) P react ssh srv csh cli in
  Acc (fun b a => exists l, internal l /\ step a l = Some b) n.
Proof.
  intros ps us ds ssh csh srv cli P react n E. destruct (api_of _ _ _ E) as (us0 & ds0 & X & -> & ->). cbv zeta.
  apply C101_settles. eapply directions. exact X.
Qed.
End Props.

(* ---- what is not so ---- *)
(* notes under int keys, words under two int keys, and one thing without a key *)
Definition keys_ex (k : N) : shape := if k =? 4 then SEmpty else SInt.
Definition entities_ex (t : ty) : shape := match t with Plain 301 => SString | _ => SCont SInt end.
Definition paths_ex (p : list N) : nat := if bytes_eqb p [1] then 0 else if bytes_eqb p [2; 3] then 1 else if bytes_eqb p [4] then 2 else if bytes_eqb p [5] then 3 else 4.
Definition acts (l : list N) : list ty := map (fun k => Pair k (Plain 0)) l.
Definition ap (p : list N) (e : N) (l : list N) : access_point :=
  {| ap_name := Plain 0; ap_actions := acts l; ap_store := Plain 0; ap_entity := Plain e; ap_path := p; ap_listen := [] |}.
Definition notes := ap [1] 300 [tCreate; tRead; tUpdate; tDelete].
Definition words := ap [2; 3] 301 [tRead; tUpdate].
Definition thing := ap [4] 300 [tCreate; tUpdate].
Definition marks := ap [5] 300 [tCreate; tRead; tUpdate; tDelete].
Definition one_producer (l : list access_point) : list producer := [{| pr_type := Plain 0; pr_name := Plain 0; pr_points := l |}].
Definition api_ex (l : list access_point) : list message_type * list message_type :=
  match wire_api keys_ex entities_ex paths_ex (one_producer l) with Some r => r | None => ([], []) end.
Definition client_says (l : list access_point) := text_of box_ex (fst (api_ex l)) SEmpty toy.
Definition server_hears (l : list access_point) := read_text unbox_ex (fst (api_ex l)) SEmpty (fun _ => None) (fun _ => 0) untoy_all.
Definition update_note : msg := make_upstream_update 0 (PPath (mk_path 0 [5])) None (Entity 3).

Lemma one_each_ex l : NoDup (map paths_ex (map ap_path l)) -> one_each paths_ex (one_producer l).
Proof.
  intros H. unfold one_each, points, one_producer. cbn [flat_map pr_points]. rewrite app_nil_r. split.
  - eapply NoDup_map_inv. exact H.
  - intros a b Ia Ib E. rewrite map_map in H. induction l as [|x l IH]; [destruct Ia|]. cbn in H. inversion H as [|? ? Q R]. subst.
    destruct Ia as [->|Ia], Ib as [->|Ib]; auto; exfalso; apply Q; [rewrite E|rewrite <- E]; now apply (in_map (fun x => paths_ex (ap_path x))).
Qed.

(* Full claim: two programs whose definitions have the same access points, with the same actions, understand each other.
   False: the order of the access points decides.  A client's update of note 5 is one of mark 5 for a server that lists the marks first; *)
Theorem C103_order_refuted : exists l l' m m', (forall a, In a l <-> In a l') /\ one_each paths_ex (one_producer l) /\ one_each paths_ex (one_producer l') /\
  In notes l /\ can_ask keys_ex entities_ex paths_ex (travels box_ex unbox_ex) notes Update m /\
  server_hears l' (client_says l m) = NetModel.Message m' /\ can_ask keys_ex entities_ex paths_ex (travels box_ex unbox_ex) marks Update m'.
Proof.
  exists [notes; marks], [marks; notes], update_note, (make_upstream_update 3 (PPath (mk_path 3 [5])) None (Entity 3)).
  split; [intros a; cbn; tauto|]. split; [apply one_each_ex; no_dup|]. split; [apply one_each_ex; no_dup|]. split; [cbn; auto|].
  split; [apply (AskUpdate keys_ex entities_ex paths_ex (travels box_ex unbox_ex) notes [5] 3)|split; [vm_compute; reflexivity|apply (AskUpdate keys_ex entities_ex paths_ex (travels box_ex unbox_ex) marks [5] 3)]];
    try (now apply travels_list); (constructor; [now apply travels_int|constructor]).
Qed.
(* and so does the order of the actions of one.  A client's read deletes the note on a server that lists Delete before Read *)
Theorem C103_actions_refuted : exists a a' m m', ap_path a = ap_path a' /\ ap_entity a = ap_entity a' /\ (forall x, In x (declared_actions a) <-> In x (declared_actions a')) /\
  NoDup (declared_actions a) /\ NoDup (declared_actions a') /\
  can_ask keys_ex entities_ex paths_ex (travels box_ex unbox_ex) a Read m /\
  server_hears [a'] (client_says [a] m) = NetModel.Message m' /\ can_ask keys_ex entities_ex paths_ex (travels box_ex unbox_ex) a' Delete m'.
Proof.
  exists (ap [1] 300 [tRead; tDelete]), (ap [1] 300 [tDelete; tRead]), (make_upstream_read 0 (PPath (mk_path 0 [5])) None), (make_upstream_delete 0 (PPath (mk_path 0 [5])) None).
  split; [reflexivity|]. split; [reflexivity|]. split; [intros x; vm_compute; tauto|]. split; [vm_compute; no_dup|]. split; [vm_compute; no_dup|].
  split; [|split; [vm_compute; reflexivity|]].
  - apply (AskRead keys_ex entities_ex paths_ex (travels box_ex unbox_ex) (ap [1] 300 [tRead; tDelete]) [5]). constructor; [now apply travels_int|constructor].
  - apply (AskDelete keys_ex entities_ex paths_ex (travels box_ex unbox_ex) (ap [1] 300 [tDelete; tRead]) [5]). constructor; [now apply travels_int|constructor].
Qed.

Print Assumptions C103_carried.
Print Assumptions C103_arrives.
Print Assumptions C103_only.
Print Assumptions C103_grows.
Print Assumptions C103_agree.
Print Assumptions C103_settles.
Print Assumptions C103_order_refuted.
Print Assumptions C103_actions_refuted.

(* the API of the example and messages of each kind through texts: a create names no key of its own unless the key has no value *)
Definition all_ex := [notes; words; thing].
Definition create_note : msg := make_upstream_create 0 (PCreate 0 []) None (Entity 2) None.
Definition create_thing : msg := make_upstream_create 2 (PPath (mk_path 2 [0])) None (Entity 2) None.
Example C103_ex : length (fst (api_ex all_ex)) = 8%nat /\ length (snd (api_ex all_ex)) = 10%nat /\
  map (client_says all_ex) [create_note; update_note; create_thing] =
    [toy (JArray [JInt 2; JArray [JNull; JArray [JInt 7; JInt 7]]]); toy (JArray [JInt 4; JArray [JInt 5; JArray [JInt 7; JInt 7; JInt 7]]]);
     toy (JArray [JInt 8; JArray [JNull; JArray [JInt 7; JInt 7]]])] /\
  map (fun m => server_hears all_ex (client_says all_ex m)) [create_note; update_note; create_thing] = map NetModel.Message [create_note; update_note; create_thing].
Proof. vm_compute. auto. Qed.
Example C103_hyps_ex : one_each paths_ex (one_producer all_ex) /\ numbered (fst (api_ex all_ex)) /\ numbered (snd (api_ex all_ex)) /\
  wire_api keys_ex entities_ex paths_ex (one_producer all_ex) = Some (api_ex all_ex) /\
  can_ask keys_ex entities_ex paths_ex (travels box_ex unbox_ex) notes Create create_note /\
  can_ask keys_ex entities_ex paths_ex (travels box_ex unbox_ex) thing Create create_thing.
Proof.
  split; [apply one_each_ex; no_dup|]. split; [unfold numbered; vm_compute; discriminate|]. split; [unfold numbered; vm_compute; discriminate|]. split; [vm_compute; reflexivity|]. split.
  - apply (AskCreate keys_ex entities_ex paths_ex (travels box_ex unbox_ex) notes [] 1 [] 2); [reflexivity|discriminate|constructor|now apply travels_list].
  - apply (AskCreateFixed keys_ex entities_ex paths_ex (travels box_ex unbox_ex) thing [] 4 [0] 2); [reflexivity|reflexivity|constructor; [split; [exact Logic.I|reflexivity]|constructor]|now apply travels_list].
Qed.
(* marks at the end: an old server refuses them and an old client is understood *)
Example C103_grows_ex :
  points (one_producer (all_ex ++ [marks])) = points (one_producer all_ex) ++ [marks] /\
  server_hears (all_ex ++ [marks]) (client_says all_ex update_note) = NetModel.Message update_note /\
  server_hears all_ex (client_says (all_ex ++ [marks]) (make_upstream_update 3 (PPath (mk_path 3 [5])) None (Entity 3))) = Refused.
Proof. vm_compute. auto. Qed.
