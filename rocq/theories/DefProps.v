(* Theorems about definition trees and the tables built from them. *)
From Coq Require Import List NArith Bool Lia.
From Verif Require Import Base DefModel DefSpec DefProofs.
Import ListNotations.
Open Scope N_scope.

(* ------------------------------------------------------------------ C52 *)

(* The search returns, in depth-first order, exactly the outermost matching nodes, each with the
   summary of the nodes from the root down to it. *)
Theorem C52_search : forall S pred (summarize : S -> ty -> S) t s0,
  exists addrs,
    in_order addrs /\
    (forall a, In a addrs <-> outermost pred t a) /\
    Forall2 (fun a r => node_at t a = Some (fst r) /\ snd r = fold_left summarize (chain t a) s0)
            addrs (find_in_tree pred summarize t s0).
Proof. intros. apply search. Qed.
Print Assumptions C52_search.

(* The tags of the definition language are different types. *)
Theorem C52_tags : NoDup [tAccessPoint; tActions; tCreate; tDelete; tProducer; tRead; tUpdate; tName; tAccessPoints;
  tListenPaths; tProducers; tEntity; tPathKey; tStore; tType; tPath; tContext].
Proof. repeat (constructor; [intros H; vm_compute in H; intuition discriminate|]). constructor. Qed.
Print Assumptions C52_tags.

(* With settings: every result carries exactly the tags asked for, and the value of each is that of the
   nearest node on the way which defines it. *)
Theorem C52_settings : forall tags pred t, proper t -> NoDup tags ->
  exists addrs,
    in_order addrs /\
    (forall a, In a addrs <-> outermost pred t a) /\
    Forall2 (fun a r => node_at t a = Some (fst r) /\ map fst (snd r) = tags /\
                        forall k v, In k tags -> (In (k, Some v) (snd r) <-> in_force t a k v))
            addrs (find_with_settings tags pred t).
Proof.
  intros tags pred t P D.
  destruct (search _ pred collect_settings t (with_settings tags)) as (addrs & O & I & F).
  exists addrs. split; [exact O|]. split; [exact I|]. unfold find_with_settings.
  eapply Forall2_imp; [|exact F]. intros a [n st] [Hn Hs]. cbn [fst snd] in *. split; [exact Hn|].
  assert (Ft : map fst st = tags).
  { subst st. etransitivity; [apply fold_collect_fst|]. unfold with_settings. rewrite map_map. apply map_id. }
  split; [exact Ft|]. intros k v Ik. rewrite <- (settings_in_force tags t a n k v P D Hn Ik).
  replace (fold_left collect_settings (chain t a) (with_settings tags)) with st by exact Hs. clear Hs.
  split.
  - intro H. apply get_setting_spec; [rewrite Ft; exact D|exact H].
  - intro H. rewrite <- Ft in Ik. apply in_map_iff in Ik as ([k' o] & E & Ik). cbn in E. subst k'.
    rewrite (get_setting_spec st k o) in H; [subst o; exact Ik|rewrite Ft; exact D|exact Ik].
Qed.
Print Assumptions C52_settings.

(* the second test of test/mpdef/find_in_tree.cpp: tags 100 (FindMe), 1-4 the settings, 7-9 the others *)
Definition find_me := 100.
Definition settings_tree : ty :=
  Pair 7 (Map [
    Pair 1 (Plain 42);
    Pair find_me (Map []);
    Pair 8 (Map [Pair 2 (Plain 256); Pair find_me (Lst []);
                 Pair 9 (Map [Pair 3 (Plain 512); Pair find_me (Map [])])]);
    Pair 9 (Map [Pair 1 (Plain 84); Pair find_me (Map []);
                 Pair 8 (Map [Pair 1 (Plain 1024); Pair 2 (Plain 768);
                              Pair find_me (Map [Pair 3 (Plain 1080); Pair find_me (Map [])])])])]).
Example C52_example :
  map snd (find_with_settings [1; 2; 3; 4] (key_is find_me) settings_tree) =
  [ [(1, Some (Plain 42)); (2, None); (3, None); (4, None)];
    [(1, Some (Plain 42)); (2, Some (Plain 256)); (3, None); (4, None)];
    [(1, Some (Plain 42)); (2, Some (Plain 256)); (3, Some (Plain 512)); (4, None)];
    [(1, Some (Plain 84)); (2, None); (3, None); (4, None)];
    [(1, Some (Plain 1024)); (2, Some (Plain 768)); (3, Some (Plain 1080)); (4, None)] ].
Proof. vm_compute. reflexivity. Qed.

(* ------------------------------------------------------------------ C53 *)

(* The table has one entry for each path listened to. *)
Theorem C53_entries : forall ps,
  NoDup (map fst (listener_lookup ps)) /\
  forall p, In p (map fst (listener_lookup ps)) <->
    exists a, In a (flat_map pr_points ps) /\ In p (ap_listen a).
Proof.
  intro ps. destruct (group_by_facts (flat_map listener_pairs (flat_map pr_points ps))) as (A & B & _).
  split; [exact A|]. intro p. unfold listener_lookup. rewrite B, in_map_iff. split.
  - intros ([k v] & E & I). cbn in E. subst k. apply in_flat_map in I as (a & Ia & I).
    exists a. split; [exact Ia|]. unfold listener_pairs in I. apply in_map_iff in I as (q & E & I). congruence.
  - intros (a & Ia & I). exists (p, [ap_path a]). split; [reflexivity|]. apply in_flat_map. exists a.
    split; [exact Ia|]. unfold listener_pairs. apply in_map_iff. exists p; auto.
Qed.
Print Assumptions C53_entries.

(* Its entry lists the access points which listen to the path in declaration order, each as many times
   as it names the path. *)
Theorem C53_listeners : forall ps p,
  find_group (listener_lookup ps) p =
  flat_map (fun a => repeat (ap_path a) (count_occ (list_eq_dec N.eq_dec) (ap_listen a) p)) (flat_map pr_points ps).
Proof.
  intros ps p. destruct (group_by_facts (flat_map listener_pairs (flat_map pr_points ps))) as (_ & _ & C).
  unfold listener_lookup. rewrite C. apply values_of_listeners.
Qed.
Print Assumptions C53_listeners.

(* The full property, "each once", if no access point names a path twice. *)
Theorem C53_each_once_partial : forall ps p,
  (forall a, In a (flat_map pr_points ps) -> NoDup (ap_listen a)) ->
  find_group (listener_lookup ps) p =
  map ap_path (filter (fun a => if in_dec (list_eq_dec N.eq_dec) p (ap_listen a) then true else false)
                      (flat_map pr_points ps)).
Proof.
  intros ps p H. rewrite C53_listeners. induction (flat_map pr_points ps) as [|a l IH]; [reflexivity|].
  cbn [flat_map filter]. rewrite IH by (intros; apply H; right; assumption).
  destruct (in_dec _ p (ap_listen a)) as [I|N0].
  - apply NoDup_count_occ' with (decA := list_eq_dec N.eq_dec) in I; [rewrite I; reflexivity|apply H; left; reflexivity].
  - rewrite (proj1 (count_occ_not_In _ _ _) N0). reflexivity.
Qed.
Print Assumptions C53_each_once_partial.

Definition ap0 (path : list N) (listen : list (list N)) : access_point :=
  {| ap_name := void; ap_actions := []; ap_store := Plain 50; ap_entity := Plain 50;
     ap_path := path; ap_listen := listen |}.
Definition producer0 (l : list access_point) : producer :=
  {| pr_type := Plain 60; pr_name := Plain 61; pr_points := l |}.

(* An access point which names a path twice is told twice about every message for it. *)
Theorem C53_repeated_refuted : exists ps p q,
  find_group (listener_lookup ps) p = [q; q] /\ length (flat_map pr_points ps) = 1%nat.
Proof.
  exists [producer0 [ap0 [70] [[71]; [71]]]], [71], [70]. vm_compute. split; reflexivity.
Qed.
Print Assumptions C53_repeated_refuted.

(* exactly then: for all paths each listener is there once if, and only if, no access point names a path twice *)
Theorem C53_each_once_iff : forall ps,
  (forall p, find_group (listener_lookup ps) p =
     map ap_path (filter (fun a => if in_dec (list_eq_dec N.eq_dec) p (ap_listen a) then true else false) (flat_map pr_points ps)))
  <-> (forall a, In a (flat_map pr_points ps) -> NoDup (ap_listen a)).
Proof.
  intro ps. split; [|intros H p; now apply C53_each_once_partial].
  intros H a Ha. apply (NoDup_count_occ (list_eq_dec N.eq_dec)). intros p. specialize (H p). rewrite C53_listeners in H.
  apply (f_equal (@length _)) in H. rewrite map_length in H.
  assert (K : forall l, (length (filter (fun a => if in_dec (list_eq_dec N.eq_dec) p (ap_listen a) then true else false) l) <=
    length (flat_map (fun a => repeat (ap_path a) (count_occ (list_eq_dec N.eq_dec) (ap_listen a) p)) l))%nat).
  { clear. induction l as [|b l IH]; cbn [filter flat_map]; [auto|]. rewrite app_length, repeat_length.
    destruct (in_dec (list_eq_dec N.eq_dec) p (ap_listen b)) as [Hb|Hb]; cbn [length]; [|lia].
    apply (count_occ_In (list_eq_dec N.eq_dec)) in Hb. lia. }
  apply in_split in Ha as (l1 & l2 & E). rewrite E in H. rewrite flat_map_app, filter_app, !app_length in H. cbn [filter flat_map] in H. rewrite app_length, repeat_length in H.
  pose proof (K l1). pose proof (K l2). destruct (in_dec (list_eq_dec N.eq_dec) p (ap_listen a)) as [Hb|Hb]; cbn [length] in H; [lia|].
  apply (count_occ_not_In (list_eq_dec N.eq_dec)) in Hb. lia.
Qed.
Print Assumptions C53_each_once_iff.

Example C53_example :
  listener_lookup [producer0 [ap0 [1] [[3]; [2]]; ap0 [2] []]; producer0 [ap0 [3] [[2]]; ap0 [4; 5] [[1]; [2]; [3]]]] =
  [([3], [[1]; [4; 5]]); ([2], [[1]; [3]; [4; 5]]); ([1], [[4; 5]])].
Proof. vm_compute. reflexivity. Qed.

(* ------------------------------------------------------------------ C59 *)

(* Enumeration lists, parents before children and in declaration order, exactly the declared access
   points with actions or a store, each with its path and its own members. Full property: without
   [one_way]; see C59_both_refuted. *)
Theorem C59_enumeration_partial : forall def ms, proper def -> one_way def ->
  enumerate_access_points [] def = Some ms ->
  exists addrs,
    in_order addrs /\
    (forall a, In a addrs <-> declared def a /\ exists n, node_at def a = Some n /\ active n) /\
    Forall2 (fun a m => ap_path m = path_of def a /\ exists n, node_at def a = Some n /\ describes n m) addrs ms.
Proof.
  intros def ms P W E. destruct (enumerate_spec def [] ms P E) as (addrs & A & B & C). exists addrs. split; [exact A|]. split; [|exact C].
  intro a. rewrite B. unfold active_point. now rewrite (looks_declares def W).
Qed.
Print Assumptions C59_enumeration_partial.

(* Exactly, for all definitions: of a node with both an AccessPoint and AccessPoints the AccessPoint and all below it is left out, and nothing else. *)
Theorem C59_enumeration_exact : forall def ms, proper def -> enumerate_access_points [] def = Some ms ->
  exists addrs,
    in_order addrs /\
    (forall a, In a addrs <-> reached looks_at def a /\ exists n, node_at def a = Some n /\ active n) /\
    Forall2 (fun a m => ap_path m = path_of def a /\ exists n, node_at def a = Some n /\ describes n m) addrs ms.
Proof. intros def ms P E. apply (enumerate_spec def [] ms P E). Qed.
Print Assumptions C59_enumeration_exact.
(* 10 and 11 are left out *)
Example C59_enumeration_exact_ex :
  let ap := fun key more => Pair tAccessPoint (Map ([Pair tPathKey (Plain key); Pair tStore (Plain 9)] ++ more)) in
  option_map (map ap_path) (enumerate_access_points [] (Pair tProducer (Map [ap 10 [Pair tAccessPoints (Lst [ap 11 []])]; Pair tAccessPoints (Lst [ap 20 [Pair tAccessPoints (Lst [ap 21 []])]; ap 22 [ap 23 []]])]))) =
  Some [[20]; [20; 21]; [22]; [22; 23]].
Proof. vm_compute. reflexivity. Qed.

(* It compiles if every access point has a path key. *)
Theorem C59_compiles : forall def, proper def ->
  (forall a n, node_at def a = Some n ->
    (exists k s, n = Pair k s) /\
    (is_point n = true -> exists l p, n = Pair tAccessPoint (Map l) /\ In (Pair tPathKey (Plain p)) l) /\
    (is_points n = true -> exists l, n = Pair tAccessPoints (Map l) \/ n = Pair tAccessPoints (Lst l))) ->
  exists ms, enumerate_access_points [] def = Some ms.
Proof. intros def P K. apply enumerate_total; assumption. Qed.
Print Assumptions C59_compiles.

(* the definition of test/nbdl/builder/enumerate_access_points.cpp, its second producer with a store
   instead of actions *)
Definition actions (l : list N) : ty := Pair tActions (Map (map (fun k => Pair k (Map [])) l)).
Definition point (name key : N) (more : list ty) : ty :=
  Pair tAccessPoint (Map ([Pair tName (Plain name); Pair tEntity (Plain (name + 100)); Pair tPathKey (Plain key)] ++ more)).
Definition nested : ty :=
  Pair tAccessPoints (Lst [
    point 201 21 [actions [tCreate; tRead; tUpdate; tDelete]];
    point 202 22 [Pair tAccessPoints (Lst [point 203 23 [actions [tCreate]]])]]).
Definition producers : list ty :=
  [Pair tProducers (Lst [
     Pair tProducer (Map [Pair tType (Plain 91); Pair tName (Plain 92);
       Pair tAccessPoints (Lst [
         point 204 24 [nested];
         point 205 25 [actions [tCreate; tRead]; nested]])]);
     Pair tProducer (Map [Pair tType (Plain 93);
       point 206 26 [Pair tStore (Plain 300);
                     Pair tListenPaths (Lst [Pair tPath (Types [24; 21]); Pair tPath (Types [24; 22; 23])]);
                     nested]])])].

Example C59_example :
  exists ps, enumerate_producers producers = Some ps /\
    map (fun p => map (fun a => (ap_name a, ap_path a)) (pr_points p)) ps =
      [ [(Plain 201, [24; 21]); (Plain 203, [24; 22; 23]); (Plain 205, [25]);
         (Plain 201, [25; 21]); (Plain 203, [25; 22; 23])];
        [(Plain 206, [26]); (Plain 201, [26; 21]); (Plain 203, [26; 22; 23])] ] /\
    map pr_name ps = [Plain 92; Plain 93] /\
    map (producer_of ps) [[24; 21]; [25]; [26]; [26; 22; 23]; [24]] =
      [Some 0; Some 0; Some 1; Some 1; None]%nat /\
    find_group (listener_lookup ps) [24; 21] = [[26]].
Proof. eexists. split; [vm_compute; reflexivity|]. vm_compute. repeat split. Qed.

(* A producer which has both an AccessPoint and AccessPoints loses the former. *)
Theorem C59_both_refuted : exists def a,
  proper def /\ declared def a /\ (exists n, node_at def a = Some n /\ active n) /\
  exists ms, enumerate_access_points [] def = Some ms /\ ~ In (path_of def a) (map ap_path ms).
Proof.
  exists (Pair tProducer (Map [point 1 10 [actions [tCreate]];
                               Pair tAccessPoints (Lst [point 2 20 [actions [tCreate]]])])), [0%nat].
  split.
  { apply properb_spec. vm_compute. reflexivity. }
  split.
  { apply reached_cons. eexists. split; [reflexivity|]. split; [|apply reached_nil; reflexivity].
    right. right. split; [eexists; eexists; reflexivity|]. left. reflexivity. }
  split.
  { eexists. split; [reflexivity|]. left. exists (Map [Pair tCreate (Map [])]).
    split; [eexists; eexists; split; [reflexivity|]|discriminate].
    right. right. right. left. reflexivity. }
  eexists. split; [vm_compute; reflexivity|]. vm_compute. intros [H|[]]. discriminate.
Qed.
Print Assumptions C59_both_refuted.

(* The producers of a context are the one given as Producer or all of those in Producers, in order; each has the type, the name and
   the access points of its definition. *)
Definition declared_producers (l : list ty) (ds : list ty) : Prop :=
  (exists p, In (Pair tProducer p) l /\ (forall ps, ~ In (Pair tProducers ps) l) /\ ds = [Pair tProducer p]) \/
  (exists ps, In (Pair tProducers ps) l /\ (forall p, ~ In (Pair tProducer p) l) /\ (ps = Map ds \/ ps = Lst ds)).
Lemma producer_meta_one t r : proper t -> producer_meta t = Some r ->
  exists q, r = [q] /\ describes_producer t q /\ enumerate_access_points [] t = Some (pr_points q).
Proof.
  intros P E. destruct t as [| |k s| |]; try discriminate. destruct s as [| | |l|]; try discriminate. cbn [producer_meta] in E.
  pose proof (proper_good _ P k l eq_refl) as D.
  destruct (find_key tType l) as [type|] eqn:ET; [|discriminate]. destruct (enumerate_access_points [] (Pair k (Map l))) as [aps|] eqn:EA; [|discriminate].
  injection E as <-. eexists. split; [reflexivity|]. split; [|reflexivity]. split.
  - exists k, l. split; [reflexivity|]. cbn. now apply find_key_spec.
  - cbn. destruct (find_key tName l) as [n|] eqn:EN; cbn.
    + left. exists k, l. split; [reflexivity|]. now apply find_key_spec.
    + right. split; [|reflexivity]. intros v (tag & m & X & I). injection X as <- <-. exact (proj1 (find_key_none l tName D) EN v I).
Qed.
Theorem C59_producers : forall k l qs, proper (Pair k (Map l)) -> enumerate_producers l = Some qs ->
  exists ds, declared_producers l ds /\
    Forall2 (fun d q => describes_producer d q /\ enumerate_access_points [] d = Some (pr_points q)) ds qs.
Proof.
  intros k l qs P E. pose proof (proper_good _ P k l eq_refl) as D.
  assert (PM : forall x, In x l -> proper x).
  { intros x I. inversion P as [| |? ? P' | |]; subst. inversion P' as [| | | |? F _]; subst. exact (proj1 (Forall_forall _ _) F x I). }
  assert (All : forall ps r, Forall proper ps -> all producer_meta ps = Some r ->
    Forall2 (fun d q => describes_producer d q /\ enumerate_access_points [] d = Some (pr_points q)) ps r).
  { induction ps as [|x ps IH]; intros r F A; cbn in A; [injection A as <-; constructor|].
    destruct (producer_meta x) as [a|] eqn:Ex; [|discriminate]. fold (all producer_meta ps) in A. destruct (all producer_meta ps) as [b|] eqn:Eb; [|discriminate].
    injection A as <-. inversion F; subst. destruct (producer_meta_one x a) as (q & -> & Q1 & Q2); auto. cbn. constructor; auto. }
  unfold enumerate_producers in E. destruct (find_key tProducer l) as [p|] eqn:E1, (find_key tProducers l) as [ps|] eqn:E2; try discriminate.
  - assert (I : In (Pair tProducer p) l) by now apply find_key_spec.
    destruct (producer_meta_one _ _ (PM _ I) E) as (q & -> & Q1 & Q2). exists [Pair tProducer p]. split; [|constructor; [split; assumption|constructor]].
    left. exists p. repeat split; auto. apply find_key_none; auto.
  - assert (I : In (Pair tProducers ps) l) by now apply find_key_spec. pose proof (PM _ I) as P2. inversion P2 as [| |? ? P3| |]; subst.
    assert (exists ds, (ps = Map ds \/ ps = Lst ds) /\ Forall proper ds /\ all producer_meta ds = Some qs) as (ds & Q1 & Q2 & Q3).
    { inversion P3; subst; try discriminate; eauto. }
    exists ds. split; [right; exists ps; repeat split; auto; apply find_key_none; auto|]. now apply All.
Qed.
Print Assumptions C59_producers.

(* The lookup of a path gives the one producer which enumerates it. *)
Theorem C59_producer : forall ps p i, producer_of ps p = Some i ->
  exists q, nth_error ps i = Some q /\ In p (map ap_path (pr_points q)) /\
    forall j q', nth_error ps j = Some q' -> In p (map ap_path (pr_points q')) -> j = i.
Proof. apply producer_of_sound. Qed.
Print Assumptions C59_producer.

(* Every path enumerated by one producer only, and once, is found. *)
Theorem C59_producer_found : forall ps i q p,
  nth_error ps i = Some q -> In p (map ap_path (pr_points q)) -> NoDup (map ap_path (pr_points q)) ->
  (forall j q', nth_error ps j = Some q' -> In p (map ap_path (pr_points q')) -> j = i) ->
  producer_of ps p = Some i.
Proof.
  intros ps i q p E O D U. unfold producer_of.
  rewrite (filter_lookup_one ps 0 p i q E O D U). reflexivity.
Qed.
Print Assumptions C59_producer_found.

(* ------------------------------------------------------------------ C63 *)

(* The message types are, in the order of the access points and of their actions, the request of each
   action, and the answers to each action. *)
Theorem C63_messages : forall ps us ds, message_api ps = Some (us, ds) ->
  us = flat_map (fun a => map (request a) (declared_actions a)) (flat_map pr_points ps) /\
  ds = flat_map (fun a => flat_map (answers a) (declared_actions a)) (flat_map pr_points ps).
Proof. apply message_api_spec. Qed.
Print Assumptions C63_messages.

(* They are pairwise different, so that the index in the variant of messages determines the message, if
   no path has two access points and no access point repeats an action. *)
Theorem C63_distinct : forall ps us ds, message_api ps = Some (us, ds) ->
  NoDup (map ap_path (flat_map pr_points ps)) ->
  (forall a, In a (flat_map pr_points ps) -> NoDup (declared_actions a)) ->
  NoDup us /\ NoDup ds.
Proof.
  intros ps us ds H D DA. apply message_api_spec in H as [-> ->]. apply message_types_distinct; assumption.
Qed.
Print Assumptions C63_distinct.

(* It compiles if every action is one of the four and every path has a key. *)
Theorem C63_compiles : forall ps,
  (forall a, In a (flat_map pr_points ps) -> ap_path a <> [] /\
     forall t, In t (ap_actions a) -> exists k s x, t = Pair k s /\ In (k, x) action_tags) ->
  exists us ds, message_api ps = Some (us, ds).
Proof.
  intros ps H. unfold message_api.
  destruct (all_total _ _ entity_messages (flat_map pr_points ps)) as [ms ->];
    [|destruct (partition is_up ms) as [us ds]; exists us, ds; reflexivity].
  apply Forall_forall. intros a Ia. destruct (H a Ia) as [Np Na]. unfold entity_messages.
  destruct (all_total _ _ action_of (ap_actions a)) as [acts ->].
  - apply Forall_forall. intros t It. destruct (Na t It) as (k & s & x & -> & Ex). assert (act_of k = Some x) as Ey by (cbn in Ex; repeat destruct Ex as [Ex|Ex]; try (injection Ex as <- <-; reflexivity); destruct Ex). exists [x]. cbn. rewrite Ey. reflexivity.
  - destruct (all_total _ _ (upstream (ap_path a) (ap_entity a)) acts) as [ups ->]; [|eexists; reflexivity].
    apply Forall_forall. intros x _. destruct x; try (eexists; reflexivity).
    cbn. destruct (ap_path a); [congruence|eexists; reflexivity].
Qed.
Print Assumptions C63_compiles.

Example C63_example :
  exists ps us ds, enumerate_producers producers = Some ps /\ message_api ps = Some (us, ds) /\
    length us = 17%nat /\ length ds = 21%nat /\
    map (fun m => (m_act m, m_path m)) (firstn 6 us) =
      [(Create, [24; 21]); (Read, [24; 21]); (Update, [24; 21]); (Delete, [24; 21]);
       (Create, [24; 22; 23]); (Create, [25])] /\
    map (fun m => (m_act m, m_payload m)) (firstn 6 ds) =
      [(Create, Some (Plain 301)); (Read, Some (Plain 301)); (Read, None); (Update, Some (Plain 301));
       (Delete, None); (Create, Some (Plain 303))].
Proof.
  eexists. eexists. eexists. split; [vm_compute; reflexivity|]. split; [vm_compute; reflexivity|].
  vm_compute. repeat split.
Qed.
