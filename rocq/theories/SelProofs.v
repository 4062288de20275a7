From Coq Require Import String Permutation.
From Verif Require Import Base SqlModel SqlSpec SqlProofs SqlProps SelSpec.
Open Scope N_scope.

Lemma eqb_true a b : bytes_eqb a b = true -> a = b.
Proof. destruct (bytes_eqb_spec a b); congruence. Qed.
Lemma look_in {A} (l : list (bytes * A)) c x : NoDup (map fst l) -> In (c, x) l -> look c l = Some x.
Proof.
  induction l as [|[k y] l IH]; cbn; intros ND H; [contradiction|]. inversion ND; subst. destruct (bytes_eqb c k) eqn:E.
  - apply eqb_true in E as ->. destruct H as [H|H]; [congruence|]. exfalso. apply H2. change k with (fst (k, x)). now apply in_map.
  - destruct H as [H|H]; [|auto]. injection H as -> ->. rewrite bytes_eqb_refl in E. discriminate.
Qed.
Lemma look_l {A} (l r : list (bytes * A)) c x : look c l = Some x -> look c (l ++ r) = Some x.
Proof. induction l as [|[k y] l IH]; cbn; [discriminate|]. destruct (bytes_eqb c k); auto. Qed.
Lemma look_r {A} (l r : list (bytes * A)) c : ~ In c (map fst l) -> look c (l ++ r) = look c r.
Proof.
  induction l as [|[k y] l IH]; cbn; intros H; [reflexivity|]. destruct (bytes_eqb c k) eqn:E; [|apply IH; tauto].
  apply eqb_true in E as ->. exfalso. apply H. now left.
Qed.

Lemma flat_map_one {A B} (f : A -> list B) l q x : nth_error l q = Some x -> (forall i y, nth_error l i = Some y -> i <> q -> f y = []) -> flat_map f l = f x.
Proof.
  revert q; induction l as [|a l IH]; intros [|q] E H; cbn in *; try discriminate.
  - injection E as ->. assert (flat_map f l = []) as ->; [|apply app_nil_r].
    assert (G : forall i y, nth_error l i = Some y -> f y = []) by (intros i y Hy; apply (H (S i) y Hy); discriminate). clear - G.
    induction l as [|b l IH]; cbn; [reflexivity|]. rewrite (G 0%nat b eq_refl). apply IH. intros i y Hy. exact (G (S i) y Hy).
  - rewrite (H 0%nat a eq_refl) by discriminate. cbn. apply (IH q E). intros i y Hy Hi. apply (H (S i) y Hy). congruence.
Qed.

Definition to_jn (j : join) : jn := Jn (j_table j) (j_alias j) (j_parent j, key_name (j_member j)) (j_alias j, key_name (j_table j)).

Section Rows.
Variable lg : log.
Hypothesis KD : keys_distinct lg.

Lemma one_join v p n (tu : tuple) k q t c a rest : look p v = Some tu -> cell_of tu (key_name n) = Some (Key k) -> nth_error lg q = Some ((t, c), k) -> ~ In a (map fst v) ->
  join_rows lg (to_jn (Join n t a p) :: rest) v = join_rows lg rest (v ++ [(a, ((t, c), k))]).
Proof.
  intros Hp Hc Hq Ha. cbn [join_rows to_jn jn_alias jn_table jn_left jn_right j_alias j_table j_parent j_member].
  assert (L : forall y, value (v ++ [(a, y)]) (p, key_name n) = Some (Key k)).
  { intros y. unfold value. cbn [fst snd]. now rewrite (look_l v _ p tu Hp). }
  assert (R : forall y, fst (fst y) = t -> value (v ++ [(a, y)]) (a, key_name t) = Some (Key (snd y))).
  { intros [[t' c'] k'] Hy. cbn in Hy. subst t'. unfold value. cbn [fst snd]. rewrite look_r by exact Ha. cbn [look]. rewrite bytes_eqb_refl. unfold cell_of, key_name. cbn [fst snd]. rewrite bytes_eqb_refl. reflexivity. }
  rewrite (flat_map_one _ lg q _ Hq).
  - cbn [fst]. rewrite bytes_eqb_refl, L, R by reflexivity. cbn [snd cell_eqb andb]. rewrite N.eqb_refl. reflexivity.
  - intros i [[t' c'] k'] Hi Hne. cbn [fst]. destruct (bytes_eqb t' t) eqn:E; [|reflexivity]. apply eqb_true in E as ->. rewrite L, R by reflexivity. cbn [snd cell_eqb andb].
    destruct (N.eqb_spec k k') as [<-|]; [|reflexivity]. exfalso. apply Hne. eapply KD; eauto.
Qed.

(* the children of a stored entity *)
Definition kid (ms : list (bytes * member)) (ids : list column) (ne : bytes * etype) (x : entity * nat * tuple) : Prop :=
  let '(e, q, tu) := x in
  Instance e (snd ne) /\ In (fst ne, Child e) ms /\ (exists qs, Stored lg e [] q qs) /\ nth_error lg q = Some tu /\ fst (fst tu) = etable (snd ne) /\ In (key_name (fst ne), Key (snd tu)) ids.

Lemma kid_more ms ids m id ne x : kid ms ids ne x -> kid (m :: ms) (id ++ ids) ne x.
Proof. destruct x as [[e q] tu]. cbn. intros (A & B & C & D & E & F). repeat split; auto. apply in_app_iff. now right. Qed.

Lemma kids p ms ids ps ts : ChildrenStored lg p ms ids ps -> Members ms ts -> exists ks, Forall2 (kid ms ids) (tch ts) ks.
Proof.
  intros H. revert ts. induction H as [p|p n e ms q qs r k ids ps HS HF HQ HC IH|p n v ms ids ps HC IH|p n es ms ids ps HC IH]; intros ts HM; inversion HM; subst; cbn [tch].
  - exists []. constructor.
  - match goal with X : Members ms _ |- _ => destruct (IH _ X) as (ks & K) end. exists ((e, q, (r, k)) :: ks). constructor.
    + cbn [kid fst snd]. split; [assumption|]. split; [now left|]. split; [eauto|]. split; [assumption|]. split; [|now left]. inversion HS; subst. match goal with X : Instance _ _ |- _ => inversion X; subst end.
      cbn. match goal with X : nth_error lg q = Some _, Y : nth_error lg q = Some _ |- _ => rewrite X in Y; injection Y as <- end. reflexivity.
    + eapply SqlProofs.Forall2_impl; [|exact K]. intros a b Hk. apply (kid_more ms ids (n, Child e) [_] a b Hk).
  - match goal with X : Members ms _ |- _ => destruct (IH _ X) as (ks & K) end. exists ks. eapply SqlProofs.Forall2_impl; [|exact K]. intros a b Hk. apply (kid_more ms ids _ [] a b Hk).
  - match goal with X : Members ms _ |- _ => destruct (IH _ X) as (ks & K) end. exists ks. eapply SqlProofs.Forall2_impl; [|exact K]. intros a b Hk. apply (kid_more ms ids _ [] a b Hk).
Qed.

Lemma stored_columns p ms ids ps vals ts : ChildrenStored lg p ms ids ps -> Values ms vals -> Members ms ts -> Permutation (map fst (ids ++ vals)) (column_names ts).
Proof.
  intros H. revert vals ts. induction H as [p|p n e ms q qs r k ids ps HS HF HQ HC IH|p n v ms ids ps HC IH|p n es ms ids ps HC IH]; intros vals ts HV HM; inversion HM; subst; inversion HV; subst; cbn [column_names flat_map snd fst map app].
  - constructor.
  - constructor. now apply IH.
  - rewrite map_app. cbn [map fst]. symmetry. apply Permutation_cons_app. symmetry. rewrite <- map_app. now apply IH.
  - now apply IH.
Qed.

(* what a stored entity's row has *)
Lemma stored_row e ty q qs (tu : tuple) : Stored lg e [] q qs -> Instance e ty -> columns_ok ty -> nth_error lg q = Some tu ->
  exists t ms ts ids ks, e = Entity t ms /\ ty = EType t ts /\ fst (fst tu) = t /\ Forall2 (kid ms ids) (tch ts) ks /\ Members ms ts /\
    (forall n k, In (n, Key k) ids -> cell_of tu n = Some (Key k)) /\ (forall c v, In (c, Value v) ms -> cell_of tu c = Some (Data v)).
Proof.
  intros HS HI HO HQ. inversion HS as [t ms fks p k ids vals before after HC HV HN HM]; subst. inversion HI as [? ? ts HMs]; subst.
  rewrite HN in HQ. injection HQ as <-. cbn [app] in *. destruct (kids _ _ _ _ _ HC HMs) as (ks & K). destruct HO as [ND _]. inversion ND as [|? ? ND1 ND2]; subst.
  pose proof (stored_columns _ _ _ _ _ _ HC HV HMs) as P.
  assert (NDc : NoDup (map fst (ids ++ vals))) by (eapply Permutation_NoDup; [symmetry; exact P|exact ND2]).
  assert (C : forall c x, In (c, x) (ids ++ vals) -> cell_of (t, ids ++ vals, k) c = Some x).
  { intros c x Hx. unfold cell_of. cbn [fst snd]. destruct (bytes_eqb c (t ++ bs "_id")) eqn:E.
    - apply eqb_true in E as ->. exfalso. apply ND1. eapply Permutation_in; [exact P|]. exact (in_map fst _ _ Hx).
    - now apply look_in. }
  exists t, ms, ts, ids, ks. repeat split; auto.
  - intros n k' H. apply C. apply in_app_iff. now left.
  - intros c v H. apply C. apply in_app_iff. right. clear - HV H. induction HV; cbn in *; [contradiction|..]; destruct H as [H|H]; try discriminate; auto. injection H as <- <-. now left.
Qed.

Definition shows (alias : bytes) (e : entity) (v : env) (n : name) : Prop :=
  exists x d, EntityAt alias e (fst n) x /\ has_value x (snd n) d /\ value v n = Some (Data d).

Lemma members_values ms ts c : Members ms ts -> In (c, TValue) ts -> exists d, In (c, Value d) ms.
Proof. induction 1; cbn; intros [E|E] || intros []; try discriminate; try (destruct (IHMembers E) as (d & H1); eauto). injection E as <-. eauto. Qed.

Lemma own_shown e ty q qs (tu : tuple) alias v : Stored lg e [] q qs -> Instance e ty -> columns_ok ty -> nth_error lg q = Some tu -> look alias v = Some tu ->
  Forall (shows alias e v) (own_columns alias ty).
Proof.
  intros HS HI HO HQ HL. destruct (stored_row e ty q qs tu HS HI HO HQ) as (t & ms & ts & ids & ks & -> & -> & _ & _ & HM & _ & HV).
  cbn [own_columns]. apply Forall_map, Forall_forall. intros c Hc. unfold value_names in Hc. apply in_flat_map in Hc as ([n m] & Hm & Hc). destruct m; cbn in Hc; try contradiction.
  destruct Hc as [<-|[]]. destruct (members_values ms ts n HM Hm) as (d & Hd). exists (Entity t ms), d. repeat split; [constructor|exact Hd|]. unfold value. cbn [fst snd]. rewrite HL. now apply HV.
Qed.

Definition child_env (alias : bytes) (cs : list (bytes * etype)) (ks : list (entity * nat * tuple)) : env :=
  combine (map (fun ne => dot alias (fst ne)) cs) (map snd ks).
Definition direct (alias : bytes) (cs : list (bytes * etype)) : list join := map (fun ne => Join (fst ne) (etable (snd ne)) (dot alias (fst ne)) alias) cs.

Lemma child_env_names ms ids alias cs ks : Forall2 (kid ms ids) cs ks -> map fst (child_env alias cs ks) = map (fun ne => dot alias (fst ne)) cs.
Proof. unfold child_env. induction 1; cbn; [reflexivity|]. now f_equal. Qed.

Lemma join_children alias (tu : tuple) ms ids rest cs ks : Forall2 (kid ms ids) cs ks -> (forall n k, In (n, Key k) ids -> cell_of tu n = Some (Key k)) ->
  forall v, look alias v = Some tu -> NoDup (map fst v ++ map (fun ne => dot alias (fst ne)) cs) ->
  join_rows lg (map to_jn (direct alias cs) ++ rest) v = join_rows lg rest (v ++ child_env alias cs ks).
Proof.
  intros H HK. unfold child_env. induction H as [|[n ty] [[e q] [[t c] k]] cs ks K HF IH]; intros v HL ND.
  - cbn. now rewrite app_nil_r.
  - destruct K as (K1 & K2 & K3 & K4 & K5 & K6). cbn [fst snd] in *. subst t. cbn [direct map app fst snd combine].
    erewrite one_join; [|exact HL|apply HK; exact K6|exact K4|].
    + fold (direct alias cs). rewrite IH.
      * rewrite <- app_assoc. reflexivity.
      * now apply look_l.
      * rewrite map_app, <- app_assoc. exact ND.
    + cbn [map fst] in ND. apply NoDup_remove_2 in ND. rewrite in_app_iff in ND. tauto.
Qed.

Definition extends (v v' : env) : Prop := forall a t, look a v = Some t -> look a v' = Some t.

Definition joined (ty : etype) : Prop := forall e q qs (tu : tuple) alias v, Stored lg e [] q qs -> Instance e ty -> columns_ok ty -> nth_error lg q = Some tu -> look alias v = Some tu ->
  NoDup (map fst v ++ map j_alias (alias_list alias ty)) ->
  exists new, map fst new = map j_alias (alias_list alias ty) /\ (forall rest, join_rows lg (map to_jn (alias_list alias ty) ++ rest) v = join_rows lg rest (v ++ new)) /\
    forall v', extends (v ++ new) v' -> Forall (shows alias e v') (columns_below alias ty).

Lemma shows_child alias t ms n e v c : In (n, Child e) ms -> shows (dot alias n) e v c -> shows alias (Entity t ms) v c.
Proof. intros H (x & d & A & B & C). exists x, d. repeat split; auto. eapply EA_child; eauto. Qed.

Lemma nodup_app_l {A} (l r : list A) : NoDup (l ++ r) -> NoDup l.
Proof. induction l as [|a l IH]; cbn; intros H; [constructor|]. inversion H as [|? ? H1 H2]; subst. constructor; auto. intros X. apply H1, in_app_iff. now left. Qed.

Lemma columns_ok_tch t ms : columns_ok (EType t ms) -> Forall (fun ne => columns_ok (snd ne)) (tch ms).
Proof. intros [_ H]. induction ms as [|[n [|e|e]] ms IH]; cbn in *; [constructor|auto| |auto]. destruct H. constructor; auto. Qed.

Lemma join_below alias t ms ids cs ks : Forall2 (kid ms ids) cs ks -> Forall (fun ne => joined (snd ne)) cs -> Forall (fun ne => columns_ok (snd ne)) cs ->
  forall v, Forall2 (fun (ne : bytes * etype) (k : entity * nat * tuple) => look (dot alias (fst ne)) v = Some (snd k)) cs ks ->
  NoDup (map fst v ++ map j_alias (flat_map (fun ne : bytes * etype => alias_list (dot alias (fst ne)) (snd ne)) cs)) ->
  exists new, map fst new = map j_alias (flat_map (fun ne : bytes * etype => alias_list (dot alias (fst ne)) (snd ne)) cs) /\
    (forall rest, join_rows lg (map to_jn (flat_map (fun ne : bytes * etype => alias_list (dot alias (fst ne)) (snd ne)) cs) ++ rest) v = join_rows lg rest (v ++ new)) /\
    forall v', extends (v ++ new) v' -> Forall (shows alias (Entity t ms) v') (flat_map (fun ne : bytes * etype => columns_below (dot alias (fst ne)) (snd ne)) cs).
Proof.
  induction 1 as [|[n ty] [[e q] tu] cs ks K HF IH]; intros HJ HO v HL ND.
  - exists []. repeat split; [|constructor]. intros rest. now rewrite app_nil_r.
  - inversion HJ as [|? ? J1 J2]; subst. inversion HO as [|? ? O1 O2]; subst. inversion HL as [|? ? ? ? L1 L2]; subst. cbn [fst snd] in *.
    destruct K as (K1 & K2 & (qs & K3) & K4 & K5 & K6). cbn [flat_map fst snd] in ND |- *. rewrite map_app in ND. pose proof ND as ND0. rewrite app_assoc in ND. pose proof (nodup_app_l _ _ ND) as NDl.
    destruct (J1 e q qs tu (dot alias n) v K3 K1 O1 K4 L1 NDl) as (new1 & M1 & R1 & S1).
    destruct (IH J2 O2 (v ++ new1)) as (new2 & M2 & R2 & S2).
    + eapply SqlProofs.Forall2_impl; [|exact L2]. intros a b Hab. now apply look_l.
    + rewrite map_app, M1. exact ND.
    + exists (new1 ++ new2). split; [now rewrite !map_app, M1, M2|]. split.
      * intros rest. rewrite map_app, <- app_assoc, R1, R2, <- app_assoc. reflexivity.
      * intros v' E. apply Forall_app. rewrite app_assoc in E. split; [|now apply S2].
        assert (E1 : extends (v ++ new1) v') by (intros a x Hx; apply E; now apply look_l).
        eapply Forall_impl; [|exact (S1 v' E1)]. intros c. now apply shows_child.
Qed.

Lemma all_joined ty : joined ty.
Proof.
  induction ty as [t ts Hts] using etype_ind'; intros e q qs tu alias v HS HI HO HQ HL ND. apply tch_ind in Hts.
  destruct (stored_row e _ q qs tu HS HI HO HQ) as (t' & ms & ts' & ids & ks & -> & E & HT & HK & HM & HC & HV). injection E as <- <-.
  pose proof (columns_ok_tch _ _ HO) as HO'. rewrite alias_list_eq in *. fold (direct alias (tch ts)) in *. rewrite map_app in ND. rewrite app_assoc in ND.
  pose proof (nodup_app_l _ _ ND) as ND1. assert (MD : map j_alias (direct alias (tch ts)) = map (fun ne => dot alias (fst ne)) (tch ts)) by (unfold direct; now rewrite map_map). rewrite MD in *.
  pose proof (child_env_names ms ids alias _ _ HK) as NE.
  assert (L2 : Forall2 (fun (ne : bytes * etype) (k : entity * nat * tuple) => look (dot alias (fst ne)) (v ++ child_env alias (tch ts) ks) = Some (snd k)) (tch ts) ks).
  { assert (G : forall cs ks0 v0, Forall2 (kid ms ids) cs ks0 -> NoDup (map fst v0 ++ map (fun ne => dot alias (fst ne)) cs) ->
        Forall2 (fun (ne : bytes * etype) (k : entity * nat * tuple) => look (dot alias (fst ne)) (v0 ++ child_env alias cs ks0) = Some (snd k)) cs ks0).
    { clear. intros cs ks v0 H. revert v0. induction H as [|[n ty] k cs ks K HF IH]; intros v0 ND; [constructor|]. unfold child_env. cbn [map combine fst] in *. constructor.
      - cbn [fst]. rewrite look_r; [cbn; now rewrite bytes_eqb_refl|]. apply NoDup_remove_2 in ND. rewrite in_app_iff in ND. tauto.
      - specialize (IH (v0 ++ [(dot alias n, snd k)])). rewrite map_app, <- app_assoc in IH. eapply SqlProofs.Forall2_impl; [|exact (IH ND)]. intros a b Hab. cbn beta in Hab. rewrite <- app_assoc in Hab. exact Hab. }
    now apply G. }
  destruct (join_below alias t ms ids (tch ts) ks HK Hts HO' (v ++ child_env alias (tch ts) ks) L2) as (new & M & R & S).
  { rewrite map_app, NE. exact ND. }
  exists (child_env alias (tch ts) ks ++ new). split; [rewrite !map_app, M, NE, MD; reflexivity|]. split.
  - intros rest. rewrite map_app, <- app_assoc. rewrite (join_children alias tu ms ids _ _ _ HK HC v HL ND1), R, <- app_assoc. reflexivity.
  - intros v' E. rewrite columns_below_eq. apply Forall_app. rewrite app_assoc in E. split; [|now apply S].
    assert (E1 : extends (v ++ child_env alias (tch ts) ks) v') by (intros a x Hx; apply E; now apply look_l).
    clear - HK HO' L2 E1 KD. revert L2 E1. generalize (v ++ child_env alias (tch ts) ks) as v1. intros v1 L2 E1.
    induction HK as [|[n ty] [[e q] tu] cs ks K HF IH]; [constructor|]. inversion HO'; subst. inversion L2; subst. cbn [flat_map fst snd] in *. apply Forall_app. split; [|now apply IH].
    destruct K as (K1 & K2 & (qs & K3) & K4 & K5 & K6). eapply Forall_impl; [|eapply (own_shown e ty q qs tu (dot alias n) v'); eauto]. intros c. now apply shows_child.
Qed.
End Rows.

(* ---- text ---- *)
Lemma sum_join_separated d l s : sum_join d l = Some s -> s = separated d l.
Proof.
  destruct l as [|x l]; [discriminate|]. cbn [sum_join]. intros E. injection E as <-. revert x. induction l as [|y l IH]; intros x; [cbn; apply app_nil_r|].
  cbn [flat_map]. change (separated d (x :: y :: l)) with (x ++ d ++ separated d (y :: l)). rewrite <- IH, <- !app_assoc. reflexivity.
Qed.
Lemma qualified_text a n : qualified a n = name_text (a, n). Proof. reflexivity. Qed.
Lemma join_text j : join_clause j = jn_text (to_jn j). Proof. reflexivity. Qed.

Definition the_query (e : etype) : query := Query (aliased_columns e) (etable e) (map to_jn (table_alias_list e)) (etable e, key_name (etable e)).

Lemma some_pair {A B} (a : A) (b : B) c d : Some (a, b) = Some (c, d) -> c = a /\ d = b.
Proof. intros E. now injection E. Qed.
Lemma glue (a b c d q1 t q2 j w p x y xy : bytes) : d = q1 ++ t ++ q2 -> x ++ y = xy ->
  a ++ b ++ c ++ d ++ j ++ w ++ (p ++ [] ++ x) ++ y = a ++ b ++ c ++ (q1 ++ t ++ q2) ++ j ++ w ++ p ++ xy.
Proof. intros -> <-. cbn [app]. now rewrite <- !app_assoc. Qed.

Lemma select_text e v s vs : select e [(primary_key_name e, v)] = Some (s, vs) -> s = query_text (the_query e) /\ vs = [v].
Proof.
  unfold select. destruct (has_many e); [discriminate|]. unfold columns_clause, join_clauses. destruct (sum_join (str ",") _) as [c|] eqn:EC; [|discriminate].
  destruct (sum_join (str " ") _) as [j|] eqn:EJ; [|discriminate]. apply sum_join_separated in EC, EJ. unfold select_statement, criteria_list. cbn [map fst snd flat_map].
  intros E. apply some_pair in E as [-> ->]. split; [|reflexivity].
  subst c j. unfold query_text, the_query. cbn [q_columns q_from q_joins q_where]. rewrite map_map.
  replace (map (fun an : bytes * bytes => qualified (fst an) (snd an)) (aliased_columns e)) with (map name_text (aliased_columns e)) by (apply map_ext; intros [a b]; reflexivity).
  apply glue; reflexivity.
Qed.
