(* C82: the paths and parameters of the user interface. *)
From Verif Require Import Base MatchModel MatchSpec MatchProofs PspModel PspSpec PspProofs.
Open Scope nat_scope.

(* The function is called exactly once, with what the parameters stand for, in order, when each of them stands for something; and not at all when one does not.  The keys in a path are looked up in what the path has come to. *)
Theorem C82_params : forall type_of key_of apply s l fn,
  match_params_spec type_of key_of apply s l fn = told (all_of (fun p => means type_of key_of apply in_place p s) l) fn.
Proof. intros. unfold match_params_spec. rewrite ok_list by (apply Forall_forall; intros; apply all_okp). reflexivity. Qed.
Print Assumptions C82_params.

Theorem C82_path : forall type_of key_of apply s p fn, match_path_spec type_of key_of apply s p fn = told (leads type_of key_of apply in_place p s) fn.
Proof. intros. unfold match_path_spec. apply ok_path. apply Forall_forall. intros. apply all_okn. Qed.
Print Assumptions C82_path.

(* The keys in a path are those in the store. Partial: for specifications in which the keys after a match_when do not look at the store. *)
Theorem C82_in_store_partial : forall type_of key_of apply s l fn, forallb rooted l = true ->
  match_params_spec type_of key_of apply s l fn = told (all_of (fun p => means type_of key_of apply in_store p s) l) fn.
Proof.
  intros ty ko ap s l fn R. rewrite C82_params. f_equal. apply all_of_ext. intros p Hp. rewrite forallb_forall in R. apply rooted_same. auto.
Qed.
Print Assumptions C82_in_store_partial.

Lemma look_is s ks v : look s ks = Is v <-> resolves s ks v.
Proof.
  unfold look, resolves. destruct (path_once ks s) as [R|(w & R)]; rewrite R; split.
  - discriminate.
  - intros H. specialize (H nat (fun _ => Some [])). rewrite R in H. discriminate.
  - intros [= <-]. exact R.
  - intros H. f_equal. exact (resolves_inj _ _ _ _ R H).
Qed.
Lemma end_opened : forall p s v, resolves s p v -> resolves v [] v.
Proof.
  induction p as [|k p IH]; intros s v H; [exact (open_idem _ _ H)|]. destruct (key_once s k) as [X|(w & M)].
  - specialize (H store (fun x => Some [x])). cbn in H. rewrite X in H. discriminate.
  - destruct (is_store w) eqn:S.
    + apply (IH w). intros E fn. specialize (H E fn). cbn in H. rewrite M, S in H. exact H.
    + assert (v = w) as ->. { specialize (H store (fun x => Some [x])). cbn in H. rewrite M, S in H. congruence. } intros E fn. cbn. now rewrite S.
Qed.
Lemma all_of_app {A} (f : A -> ans (list value)) a b : all_of f (a ++ b) = bind (all_of f a) (fun x => bind (all_of f b) (fun y => Is (x ++ y))).
Proof.
  unfold all_of. induction a as [|p a IH]; cbn [app fold_right]; [cbn; now destruct (fold_right _ _ b)|]. rewrite IH. destruct (f p) as [x| | |]; try reflexivity. cbn. destruct (fold_right _ _ a) as [y| | |]; try reflexivity. cbn. destruct (fold_right _ _ b) as [z| | |]; try reflexivity. cbn. now rewrite app_assoc.
Qed.

(* get(path, keys...) is what the keys lead to from where the path leads. *)
Theorem C82_get : forall type_of key_of apply p xs s c ks v, p <> [] -> forallb closed xs = true ->
  leads type_of key_of apply in_place p s = Is c -> all_of (fun x => means type_of key_of apply in_place x s) xs = Is ks -> look c (map key_of ks) = Is v ->
  leads type_of key_of apply in_place (get_fn (PPath p :: xs)) s = Is v.
Proof.
  intros ty ko ap p xs s c ks v NE C L K V.
  assert (KC : forall d, all_of (fun x => means ty ko ap in_place x d) xs = Is ks).
  { intros d. rewrite <- K. apply all_of_ext. intros x Hx. rewrite forallb_forall in C. apply closed_same. auto. }
  destruct p as [|[l|t l] ys]; [congruence| |]; cbn [get_fn]; rewrite leads_cons in *.
  - destruct (leads ty ko ap in_place ys s) as [b| | |]; try discriminate. cbn [bind] in *. rewrite go_on_get in *. change (in_place s b) with b in *. rewrite all_of_app, KC.
    destruct (all_of _ l) as [k1| | |]; try discriminate. cbn [bind] in *. rewrite map_app. apply look_is. apply look_is in L. apply look_is in V. eapply path_concat; eauto.
  - rewrite leads_cons, L. cbn [bind]. rewrite go_on_get. change (in_place s c) with c. rewrite KC. exact V.
Qed.
Print Assumptions C82_get.

(* match_when leads where the path leads, if there is a value of the type. *)
Theorem C82_match_when : forall type_of key_of apply t p q s v, match_when t p = Some q ->
  leads type_of key_of apply in_place q s = Is v <-> leads type_of key_of apply in_place p s = Is v /\ type_of v = t.
Proof.
  intros ty ko ap t p q s v E. destruct p as [|[l|? ?] ys]; try discriminate. injection E as <-. rewrite !leads_cons.
  destruct (leads ty ko ap in_place ys s) as [b| | |]; cbn [bind]; [|split; [discriminate|intros [? _]; discriminate]..]. rewrite go_on_type.
  destruct (go_on ty ko ap in_place (Get l) s b) as [w| | |]; cbn [bind]; [|split; [discriminate|intros [? _]; discriminate]..].
  destruct (Nat.eqb_spec t (ty w)) as [->|NT]; split; try discriminate.
  - intros [= <-]. auto.
  - intros [[= <-] _]. reflexivity.
  - intros [[= <-] E]. congruence.
Qed.
Print Assumptions C82_match_when.

(* match takes the first alternative for the value, and a function that was given for a type is given a path to that value. *)
Theorem C82_match : forall type_of key_of apply p ws m s v, match_fn p ws = Some m -> leads type_of key_of apply in_place p s = Is v -> existsb (fun w => fits type_of (fst w) v) ws = true ->
  exists before w after q, ws = before ++ w :: after /\ fits type_of (fst w) v = true /\ (forall b, In b before -> fits type_of (fst b) v = false) /\
    means type_of key_of apply in_place m s = means type_of key_of apply in_place (match snd w with Spec a => a | Fn f => f q end) s /\
    (fst w <> None -> leads type_of key_of apply in_place q s = Is v).
Proof.
  intros ty ko ap p ws m s v E L X. unfold match_fn in E. destruct (all_some (map (make_when_pair p) ws)) as [l|] eqn:A; [|discriminate]. injection E as <-.
  rewrite means_match, L. clear -A L X. revert l A. induction ws as [|w ws IH]; intros l A; [discriminate|]. cbn [map all_some] in A. destruct (make_when_pair p w) as [[t a]|] eqn:W; [|discriminate].
  destruct (all_some (map (make_when_pair p) ws)) as [l'|] eqn:A'; [|discriminate]. injection A as <-. cbn [fold_right fst snd]. unfold make_when_pair in W. destruct (make_path_match_type (fst w) p) as [q|] eqn:Q; [|discriminate]. injection W as <- <-.
  destruct (fits ty (fst w) v) eqn:Ft.
  - exists [], w, ws, q. split; [reflexivity|]. split; [exact Ft|]. split; [intros b []|]. split; [reflexivity|]. intros NV. destruct (fst w) as [t|] eqn:Et; [|congruence]. apply (C82_match_when ty ko ap t p q s v Q). split; [exact L|]. cbn in Ft. symmetry. now apply Nat.eqb_eq.
  - cbn [existsb] in X. rewrite Ft in X. destruct (IH X l' eq_refl) as (b & w' & af & q' & -> & H1 & H2 & H3 & H4). exists (w :: b), w', af, q'. split; [reflexivity|]. split; [exact H1|]. split; [intros x [<-|Hx]; auto|]. split; [exact H3|exact H4].
Qed.
Print Assumptions C82_match.

(* match_if takes the first alternative whose test the value passes, if one of the tests is known to hold; and a function is given the path itself. *)
Theorem C82_match_if : forall type_of key_of apply p before w after s v, leads type_of key_of apply in_place p s = Is v ->
  passes (fst w) v = true -> (forall b, In b before -> passes (fst b) v = false) -> In (Always true) (map fst (before ++ w :: after)) ->
  means type_of key_of apply in_place (match_if_fn p (before ++ w :: after)) s = means type_of key_of apply in_place (match snd w with Spec a => a | Fn f => f p end) s.
Proof.
  intros ty ko ap p before w after s v L Pw Pb A. unfold match_if_fn. rewrite means_match_if, L.
  replace (existsb _ _) with true.
  - clear A. induction before as [|b before IH]; cbn [app map fold_right fst snd].
    + now rewrite Pw.
    + rewrite (Pb b (or_introl eq_refl)). apply IH. intros x Hx. apply Pb. now right.
  - symmetry. apply existsb_exists. rewrite in_map_iff in A. destruct A as (x & E & Hx). exists (fst x, match snd x with Spec a => a | Fn f => f p end). split; [|cbn; now rewrite E].
    apply in_map_iff. exists x. auto.
Qed.
Print Assumptions C82_match_if.
Example C82_match_if_ex : receive (fun _ => 0) (fun v => match v with Const c => c | _ => 0 end) (fun _ _ => Made 0) (State [(3, Leaf 1 9%N)])
  [match_if_fn [Get [PConst 3]] [(Test (fun v => match v with Leaf _ x => N.eqb x 8 | _ => false end), Spec (PConst 1)); (Test (fun v => match v with Leaf _ x => N.eqb x 9 | _ => false end), Fn (fun q => PPath q)); (Always true, Spec (PConst 2))]] = Some [Called [Val (Leaf 1 9%N)]].
Proof. vm_compute. reflexivity. Qed.

(* The predicate for a path and a type holds if the path leads to a value of the type. *)
Theorem C82_predicate : forall type_of key_of apply t p s, p <> [] ->
  (forall v, leads type_of key_of apply in_place p s = Is v -> predicate type_of key_of apply t p s = Some (Nat.eqb t (type_of v))) /\
  (leads type_of key_of apply in_place p s = Nothing -> predicate type_of key_of apply t p s = Some false).
Proof.
  intros ty ko ap t p s NE. unfold predicate. rewrite C82_path, leads_cons. split.
  - intros v L. rewrite L. cbn [bind]. rewrite go_on_type, go_on_get. assert (R : look v [] = Is v).
    { apply look_is. destruct p as [|n p]; [congruence|]. rewrite leads_cons in L. destruct (leads ty ko ap in_place p s) as [b| | |]; try discriminate. cbn [bind] in L.
      assert (G : exists l, go_on ty ko ap in_place (Get l) s b = Is v).
      { destruct n as [l|t' l]; [eauto|]. rewrite go_on_type in L. destruct (go_on ty ko ap in_place (Get l) s b) as [w| | |] eqn:K; try discriminate. cbn [bind] in L. destruct t' as [t'|]; [|discriminate]. destruct (Nat.eqb t' (ty w)); [|discriminate]. injection L as <-. eauto. }
      destruct G as (l & G). rewrite go_on_get in G. destruct (all_of _ l) as [ks| | |]; try discriminate. cbn [bind] in G. apply look_is in G. eapply end_opened; exact G. }
    cbn [all_of fold_right bind map]. rewrite R. cbn [bind]. destruct (Nat.eqb t (ty v)); reflexivity.
  - intros L. rewrite L. reflexivity.
Qed.
Print Assumptions C82_predicate.

(* ---- what goes wrong ---- *)

(* types and keys for the examples: the number of a leaf's type, 100 for all else; a leaf is the key of its value *)
Definition ty (s : store) : nat := match s with Leaf t _ => t | _ => 100 end.
Definition ko (v : value) : key := match v with Const c => c | Val (Leaf _ x) => N.to_nat x | Val _ => 0 | Made x => N.to_nat x end.
Definition ap (f : nat) (l : list value) : value := Made (N.of_nat (f + fold_right (fun v n => ko v + n) 0 l)).

(* "a key at a location in the store": false after a match_when. The key is looked up in the value that was matched. *)
Theorem C82_in_store_refuted : exists s l xs ys, receive ty ko ap s l = Some [Called xs] /\ all_of (fun p => means ty ko ap in_store p s) l = Is ys /\ xs <> ys.
Proof.
  exists (State [(0, Leaf 7 5%N); (1, Variant 0 (State [(0, Leaf 7 6%N); (5, Leaf 1 50%N); (6, Leaf 1 60%N)]))]).
  exists [PPath [Get [PKeyAt [Get [PConst 0]]]; MatchType (Some 100) [PConst 1]]]. exists [Val (Leaf 1 60%N)], [Val (Leaf 1 50%N)].
  vm_compute. split; [reflexivity|]. split; [reflexivity|]. discriminate.
Qed.
Print Assumptions C82_in_store_refuted.

(* "a function given to when is given a path to the value": false for the default. The path leads nowhere, whatever the store holds, and so the handler is never called. *)
Theorem C82_default_refuted : forall type_of key_of apply p m s v, match_fn p [(None, Fn (fun q => PPath q))] = Some m -> leads type_of key_of apply in_place p s = Is v ->
  receive type_of key_of apply s [m] = Some [].
Proof.
  intros ty ko ap p m s v E L. destruct p as [|[l|? ?] ys]; try discriminate. injection E as <-. unfold receive. rewrite C82_params. unfold all_of. cbn [fold_right]. rewrite means_match, L. cbn [fold_right fits fst snd].
  rewrite means_path. rewrite leads_cons in *. destruct (leads ty ko ap in_place ys s) as [b| | |]; try discriminate. cbn [bind] in *. rewrite go_on_type, L. reflexivity.
Qed.
Print Assumptions C82_default_refuted.

(* "a matched path can be matched again": false, it does not compile. *)
Theorem C82_match_again_refuted : forall t p q u ws, match_when t p = Some q -> match_when u q = None /\ (ws <> [] -> match_fn q ws = None).
Proof.
  intros t p q u ws E. destruct p as [|[l|? ?] ys]; try discriminate. injection E as <-. split; [reflexivity|]. destruct ws as [|w ws]; [congruence|]. reflexivity.
Qed.
Print Assumptions C82_match_again_refuted.

(* "nothing is called when a path leads nowhere": false for the path of a match, where it is undefined behaviour. *)
Theorem C82_unresolved_refuted : forall type_of key_of apply p l s, leads type_of key_of apply in_place p s = Nothing ->
  receive type_of key_of apply s [PMatch p l] = Some [Undefined].
Proof. intros ty ko ap p l s L. unfold receive. rewrite C82_params. unfold all_of. cbn [fold_right]. rewrite means_match, L. reflexivity. Qed.
Print Assumptions C82_unresolved_refuted.

(* four nodes, concat, apply, key_at, match and match_if together *)
Example C82_ex :
  let s := State [(0, Leaf 7 5%N); (1, State [(5, Variant 1 (Leaf 3 33%N)); (12, Leaf 2 99%N)]); (2, State [(3, State [(4, State [(5, Leaf 1 42%N)])])])] in
  receive ty ko ap s [PConst 9; PConcat [PPath [Get [PConst 0]]; PConst 8];
                      PPath [Get [PConst 1; PKeyAt [Get [PConst 0]]]];
                      PPath [Get [PConst 1; PApply 7 [PPath [Get [PConst 0]]]]];
                      PPath [MatchType (Some 1) [PConst 5]; MatchType (Some 100) [PConst 4]; Get [PConst 3]; MatchType (Some 100) [PConst 2]];
                      PMatch [Get [PConst 0]] [(Some 6, PConst 1); (Some 7, PConcat [PPath [MatchType (Some 7) [PConst 0]]; PConst 2]); (None, PConst 3)];
                      PMatchIf [Get [PConst 0]] [(Test (fun v => Nat.eqb (ty v) 1), PConst 1); (Always true, PConst 4)]]
    = Some [Called [Const 9; Val (Leaf 7 5); Const 8; Val (Leaf 3 33); Val (Leaf 2 99); Val (Leaf 1 42); Val (Leaf 7 5); Const 2; Const 4]] /\
  receive ty ko ap s [PConst 1; PPath [MatchType (Some 2) [PConst 0]]] = Some [] /\
  (exists q, match_when 7 (get_fn [PConst 0]) = Some q /\ leads ty ko ap in_place q s = Is (Leaf 7 5)) /\
  get_fn [PPath (get_fn [PConst 1]); PConst 12] = [Get [PConst 1; PConst 12]].
Proof. vm_compute. split; [reflexivity|]. split; [reflexivity|]. split; [eexists; split; reflexivity|reflexivity]. Qed.
