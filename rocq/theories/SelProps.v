(* C76: a SELECT by key finds what an INSERT stored. *)
From Coq Require Import String Permutation.
From Verif Require Import Base SqlModel SqlSpec SqlProofs SqlProps SelModel SelSpec SelProofs.
Open Scope N_scope.

Lemma join_rows_extend lg js : forall v v', In v' (join_rows lg js v) -> exists new, v' = v ++ new.
Proof.
  induction js as [|j js IH]; intros v v' H; cbn in H.
  - destruct H as [<-|[]]. exists []. now rewrite app_nil_r.
  - apply in_flat_map in H as (t & _ & H). destruct (_ && _); [|contradiction]. apply IH in H as (new & ->). rewrite <- app_assoc. eauto.
Qed.

Lemma stored_selected lg e ty p ps r id : keys_distinct lg -> Stored lg e [] p ps -> nth_error lg p = Some (r, id) -> Instance e ty -> columns_ok ty -> distinct ty -> all_names no_dot ty ->
  exists cells, rows_of lg (the_query ty) (Key id) = [cells] /\
    Forall2 (fun n c => exists x d, EntityAt (etable ty) e (fst n) x /\ has_value x (snd n) d /\ c = Some (Data d)) (aliased_columns ty) cells.
Proof.
  intros KD HS HP HI HO HD HN. unfold rows_of, the_query. cbn [q_from q_joins q_where q_columns].
  destruct (stored_row lg e ty p ps (r, id) HS HI HO HP) as (t & ms & ts & ids & ks & Ee & Et & HT & _). cbn [fst] in HT.
  assert (EK : forall t0 c k, cell_of ((t0, c), k) (key_name t0) = Some (Key k)) by (intros; unfold cell_of, key_name; cbn; now rewrite bytes_eqb_refl).
  assert (R : fst r = etable ty) by (rewrite Et; exact HT).
  rewrite (flat_map_one _ lg p _ HP).
  - cbn [fst]. rewrite R, bytes_eqb_refl. pose proof (C62_distinct ty HD HN) as ND.
    destruct (all_joined lg KD ty e p ps (r, id) (etable ty) [(etable ty, (r, id))] HS HI HO HP) as (new & _ & J & S).
    + cbn. now rewrite bytes_eqb_refl.
    + exact ND.
    + specialize (J []). rewrite app_nil_r in J. match goal with |- context [join_rows ?a ?b ?c] => replace (join_rows a b c) with (join_rows lg [] ([(etable ty, (r, id))] ++ new)) by (symmetry; exact J) end.
      cbn [join_rows flat_map].
      set (v := [(etable ty, (r, id))] ++ new) in *. assert (LR : @look tuple (etable ty) v = Some (r, id)) by (cbn; now rewrite bytes_eqb_refl).
      assert (value v (etable ty, key_name (etable ty)) = Some (Key id)) as ->.
      { unfold value. cbn [fst snd]. rewrite LR. destruct r as [t0 c0]. cbn in R. rewrite <- R. apply EK. }
      cbn [cell_eqb]. rewrite N.eqb_refl. eexists. split; [reflexivity|].
      assert (F : Forall (shows (etable ty) e v) (aliased_columns ty)).
      { unfold aliased_columns. apply Forall_app. split; [eapply own_shown; eauto|]. apply S. intros a x Hx. exact Hx. }
      clear - F. induction F as [|n l (x & d & A & B & C) F IH]; cbn; constructor; eauto.
  - intros i [[t' c'] k'] Hi Hne. cbn [fst]. destruct (bytes_eqb t' (etable ty)) eqn:E; [|reflexivity]. apply eqb_true in E as ->.
    match goal with |- flat_map ?f ?l = [] => assert (G : forall v, In v l -> f v = []) end.
    { intros v Hv. apply join_rows_extend in Hv as (new & ->). match goal with |- context [cell_eqb ?x _] => assert (x = Some (Key k')) as -> end.
      { unfold value. cbn [fst snd app look]. rewrite bytes_eqb_refl. apply EK. }
      cbn [cell_eqb]. destruct (N.eqb_spec k' id) as [->|]; [|reflexivity]. exfalso. apply Hne. destruct r as [t0 c0]. cbn in R. subst t0. eapply KD; eauto. }
    revert G. match goal with |- (forall v, In v ?l -> _) -> _ => generalize l end. intros l G. induction l as [|v l IH]; [reflexivity|]. cbn [flat_map]. rewrite (G v) by now left. apply IH. intros v' Hv'. apply G. now right.
Qed.

(* C76: the statement is the text of a query which, with the key of an entity that was inserted, finds one row: the values of the entity and
   of the entities below, whatever was in the database before and is inserted after, as long as the keys of a table are distinct.
   Partial: an entity with no entity below has no statement (C62_flat_refuted), and only the values are found, not what is in containers. *)
Theorem C76_select_partial : forall db order, (forall n, Permutation (order n) (seq 0 n)) -> forall before e ty id after later s vs,
  insert db order e [] before = (id, after) -> keys_distinct (after ++ later) ->
  Instance e ty -> columns_ok ty -> distinct ty -> all_names no_dot ty ->
  select ty [(primary_key_name ty, Key id)] = Some (s, vs) ->
  exists q cells, s = query_text q /\ vs = [Key id] /\ rows_of (after ++ later) q (Key id) = [cells] /\
    Forall2 (fun n c => exists x d, EntityAt (table e) e (fst n) x /\ has_value x (snd n) d /\ c = Some (Data d)) (q_columns q) cells /\
    (forall a c, In (a, c) (q_columns q) <-> exists x d, EntityAt (table e) e a x /\ has_value x c d).
Proof.
  intros db order HO before e ty id after later s vs E KD HI HC HD HN HS. destruct (insert_ok db order HO e [] before) as (new & k & p & ps & r & E' & ST & Nk & _).
  rewrite E in E'. injection E' as <- ->. apply select_text in HS as [-> ->].
  assert (NP : nth_error ((before ++ new) ++ later) p = Some (r, id)) by (apply nth_ext; exact Nk).
  specialize (ST later). rewrite app_assoc in ST. destruct (stored_selected _ e ty p ps r id KD ST NP HI HC HD HN) as (cells & R & F).
  assert (table e = etable ty) as -> by (inversion HI; reflexivity).
  exists (the_query ty), cells. split; [reflexivity|]. split; [reflexivity|]. split; [exact R|]. split; [exact F|]. intros a c. unfold the_query. cbn [q_columns]. split.
  - intros H. clear - F H. induction F as [|n x l r (y & d & A & B & _) F IH]; cbn in H; [contradiction|]. destruct H as [->|H]; [exists y, d; auto|auto].
  - intros (x & d & A & B). unfold aliased_columns.
    assert (G : forall root e a x, EntityAt root e a x -> has_value x c d -> forall ty, Instance e ty -> In (a, c) (own_columns root ty ++ columns_below root ty)).
    { clear. induction 1 as [a e|a t ms n e b x Hm HE IH]; intros B ty HI; inversion HI as [? ? ts HM]; subst; apply in_app_iff.
      - left. cbn in B |- *. apply in_map. unfold value_names. apply in_flat_map. exists (c, TValue). split; [|now left]. clear - B HM. induction HM; cbn in *; auto; destruct B as [B|B]; try discriminate; auto. injection B as <- <-. now left.
      - right. assert (exists ty, In (n, TChild ty) ts /\ Instance e ty) as (ty & T1 & T2).
        { clear - Hm HM. induction HM; cbn in *; [contradiction|..]; destruct Hm as [Hm|Hm]; try discriminate; try (destruct (IHHM Hm) as (y & Y1 & Y2); eauto). injection Hm as <- <-. eauto. }
        specialize (IH B ty T2). rewrite columns_below_eq. apply in_tch in T1. apply in_app_iff in IH as [IH|IH]; apply in_app_iff; [left|right]; apply in_flat_map; exists (n, ty); auto. }
    eapply G; eauto.
Qed.
Print Assumptions C76_select_partial.

(* the statement exists unless the entity has containers, or no entities below, or no values *)
Theorem C76_statement : forall ty k v, select ty [(k, v)] <> None <-> has_many ty = false /\ table_alias_list ty <> [] /\ aliased_columns ty <> [].
Proof.
  intros ty k v. unfold select, columns_clause, join_clauses, select_statement. destruct (has_many ty); [split; [congruence|intros (H & _); discriminate]|].
  destruct (aliased_columns ty), (table_alias_list ty); cbn [map sum_join fst snd criteria_list]; split; try (intros; congruence); try (intros (_ & H & H'); congruence).
  intros _. repeat split; congruence.
Qed.
Print Assumptions C76_statement.

(* An entity of values only can be inserted but not selected: there is no statement. *)
Theorem C76_flat_refuted : forall t, exists ty e, Instance e ty /\ has_many ty = false /\ aliased_columns ty <> [] /\ etable ty = t /\ forall k v, select ty [(k, v)] = None.
Proof.
  intros t. pose (n := str "v"). exists (EType t [(n, TValue)]), (Entity t [(n, Value 0)]). split; [repeat constructor|]. split; [reflexivity|]. split; [discriminate|]. split; [reflexivity|].
  intros k v. destruct (select (EType t [(n, TValue)]) [(k, v)]) eqn:E; [|reflexivity]. exfalso.
  destruct (proj1 (C76_statement (EType t [(n, TValue)]) k v)) as (_ & H & _); [rewrite E; discriminate|]. now apply H.
Qed.
Print Assumptions C76_flat_refuted.

Example C76_ex : let foo := EType (str "foo") [(str "v", TValue)] in let bar := EType (str "bar") [(str "w", TValue); (str "x", TChild foo); (str "y", TChild foo)] in
  let e n := Entity (str "bar") [(str "w", Value n); (str "x", Child (Entity (str "foo") [(str "v", Value (n + 1))])); (str "y", Child (Entity (str "foo") [(str "v", Value (n + 2))]))] in
  let db (l : log) (_ : row) := N.of_nat (length l) in let order n := rev (seq 0 n) in
  exists id after id' after', insert db order (e 10) [] [] = (id, after) /\ insert db order (e 20) [] after = (id', after') /\
    Instance (e 10) bar /\ columns_ok bar /\ select bar [(primary_key_name bar, Key id)] <> None /\
    rows_of after' (the_query bar) (Key id) = [[Some (Data 10); Some (Data 11); Some (Data 12)]] /\
    rows_of after' (the_query bar) (Key id') = [[Some (Data 20); Some (Data 21); Some (Data 22)]].
Proof.
  intros foo bar e db order. exists (fst (insert db order (e 10) [] [])), (snd (insert db order (e 10) [] [])).
  exists (fst (insert db order (e 20) [] (snd (insert db order (e 10) [] [])))), (snd (insert db order (e 20) [] (snd (insert db order (e 10) [] [])))).
  split; [vm_compute; reflexivity|]. split; [vm_compute; reflexivity|]. split; [|split; [|split; [|split]]].
  - repeat constructor.
  - cbn. repeat split; repeat constructor; cbn; intuition discriminate.
  - vm_compute. discriminate.
  - vm_compute. reflexivity.
  - vm_compute. reflexivity.
Qed.

(* ---- C77: update ---- *)
Lemma changed_at u new x : forall l1 r k l2, fst r = u_table u -> cell_of (r, k) (u_where u) = Some x -> (exists k, x = Key k) ->
  Forall (fun t : tuple => fst (fst t) = u_table u -> cell_eqb (cell_of t (u_where u)) (Some x) = false) l1 ->
  changed u new x (l1 ++ (r, k) :: l2) = l1 ++ (set_cells (combine (u_set u) new) r, k) :: l2.
Proof.
  intros l1 r k l2 Hr Hc (kx & ->) F. induction F as [|[r' k'] l1 H F IH]; cbn [app changed].
  - rewrite Hr, bytes_eqb_refl. match goal with |- context [cell_eqb ?c _] => replace c with (Some (Key kx)) by (symmetry; exact Hc) end. cbn [cell_eqb]. now rewrite N.eqb_refl.
  - destruct (bytes_eqb (fst r') (u_table u)) eqn:E; cbn [andb]; [|now rewrite IH]. apply eqb_true in E. cbn [fst] in H. match goal with |- context [cell_eqb ?c ?d] => replace (cell_eqb c d) with false by (symmetry; exact (H E)) end. now rewrite IH.
Qed.

Lemma flat_acts ins ms : flat ms = true -> child_acts ins ms = [].
Proof. induction ms as [|[n [v|e|l]] ms IH]; cbn; intros H; try discriminate; auto. Qed.
Lemma flat_many ins fks ms : flat ms = true -> forall l, insert_many ins fks ms l = l.
Proof. induction ms as [|[n [v|e|l0]] ms IH]; cbn; intros H l; try discriminate; auto. Qed.

Lemma insert_flat db order t ms keys l : (forall n, Permutation (order n) (seq 0 n)) -> flat ms = true ->
  insert db order (Entity t ms) keys l = (db l (t, keys ++ values ms), l ++ [((t, keys ++ values ms), db l (t, keys ++ values ms))]).
Proof.
  intros HO HF. cbn [insert]. rewrite flat_acts by exact HF. cbn [length map number]. specialize (HO 0%nat). cbn in HO. apply Permutation_sym, Permutation_nil in HO. rewrite HO.
  cbn [evaluate map app]. unfold call. now rewrite flat_many.
Qed.

Lemma values_only ms ts : Members ms ts -> Forall (fun nm => snd nm = TValue) ts -> flat ms = true /\ map fst (values ms) = map fst ts /\ column_names ts = map fst ts.
Proof.
  induction 1 as [|n v ms ts HM IH|n e ty ms ts HI HM IH|n es ty ms ts HI HM IH]; intros F; inversion F as [|? ? F1 F2]; subst; try discriminate; [auto|].
  destruct (IH F2) as (A & B & C). split; [exact A|]. split; [change (n :: map fst (values ms) = n :: map fst ts)|change (n :: column_names ts = n :: map fst ts)]; congruence.
Qed.

Lemma set_none new : forall l : list column, (forall c, In c (map fst l) -> ~ In c (map fst new)) -> map (fun c => (fst c, match look (fst c) new with Some x => x | None => snd c end)) l = l.
Proof.
  induction l as [|[c x] l IH]; intros H; [reflexivity|]. cbn [map fst snd]. rewrite IH by (intros; apply H; now right). f_equal. f_equal.
  assert (G : look c new = None); [|now rewrite G]. specialize (H c (or_introl eq_refl)). clear - H. induction new as [|[k y] new IH]; [reflexivity|]. cbn in *. destruct (bytes_eqb c k) eqn:E; [apply eqb_true in E; subst; tauto|]. apply IH. tauto.
Qed.
Lemma set_all : forall new old : list column, NoDup (map fst old) -> map fst new = map fst old -> map (fun c => (fst c, match look (fst c) new with Some x => x | None => snd c end)) old = new.
Proof.
  intros new old ND E. assert (ND' : NoDup (map fst new)) by now rewrite E.
  assert (G : forall c x, In (c, x) new -> look c new = Some x) by (intros; now apply look_in).
  revert G E. generalize new at 2 4 as full. clear. intros full. revert new. induction old as [|[c x] old IH]; intros [|[c' x'] new] G E; cbn in E; try discriminate; [reflexivity|].
  injection E as <- E. cbn [map fst snd]. rewrite (G c' x' (or_introl eq_refl)). f_equal. apply IH; [|exact E]. intros. apply G. now right.
Qed.

Lemma pairs_separated (l : list bytes) s : column_value_list l = Some s -> s = separated (bs ","%string) (map (fun c => quoted c ++ bs "=?"%string) l).
Proof.
  destruct l as [|n r]; [discriminate|]. cbn [column_value_list]. intros E. injection E as <-. revert n. induction r as [|m r IH]; intros n.
  - cbn [flat_map app map separated]. unfold quoted, str. now rewrite <- !app_assoc.
  - specialize (IH m). cbn [map separated] in *. rewrite <- IH. cbn [flat_map]. unfold quoted, str. rewrite <- !app_assoc. f_equal. f_equal. reflexivity.
Qed.

Lemma combine_fst_snd {A B} (l : list (A * B)) : combine (map fst l) (map snd l) = l.
Proof. induction l as [|[a b] l IH]; cbn; congruence. Qed.

(* C77: the statement is the text of an UPDATE after which the database is as if the new entity had been inserted instead *)
Theorem C77_update : forall db order, (forall n, Permutation (order n) (seq 0 n)) -> forall before e e' ty fks id after later s vs,
  insert db order e fks before = (id, after) -> keys_distinct (after ++ later) -> Instance e ty -> Instance e' ty -> columns_ok ty -> only_values ty ->
  (forall c, In c (map fst fks) -> c <> key_name (table e) /\ ~ In c (map fst (entity_values e))) ->
  update e' [((key_name (table e), Some (table e)), Key id)] = Some (s, vs) ->
  exists u new, s = change_text u /\ vs = new ++ [Key id] /\ length (u_set u) = length new /\
    after = before ++ [((table e, fks ++ entity_values e), id)] /\
    changed u new (Key id) (after ++ later) = (before ++ [((table e, fks ++ entity_values e'), id)]) ++ later.
Proof.
  intros db order HO before e e' ty fks id after later s vs E KD HI HI' HC HV HF HU.
  inversion HI as [t ms ts HM]; subst. inversion HI' as [t' ms' ts' HM']; subst. cbn [table entity_values] in *. cbn in HV.
  destruct (values_only _ _ HM HV) as (F1 & V1 & CN). destruct (values_only _ _ HM' HV) as (F1' & V1' & _).
  rewrite (insert_flat db order t ms fks before HO F1) in E. change (flat_map _ ms) with (values ms) in *. change (flat_map _ ms') with (values ms') in *. injection E as E1 <-. rewrite E1 in *.
  cbn [update existsb is_primary_key fst snd map] in HU. unfold is_primary_key in HU. cbn [fst snd] in HU. rewrite bytes_eqb_refl, F1' in HU. cbn [orb andb] in HU.
  unfold update_statement in HU. cbn [map fst snd] in HU. destruct (column_value_list (map fst (values ms'))) as [c|] eqn:EC; [|discriminate]. cbn [column_value_list] in HU. apply some_pair in HU as (-> & ->).
  exists (Change t (map fst (values ms')) (key_name t)), (map snd (values ms')). cbn [u_set u_table u_where]. split; [|split; [|split; [|split]]].
  - rewrite (pairs_separated _ _ EC). unfold change_text. cbn [u_set u_table u_where flat_map]. unfold quoted, str. rewrite <- !app_assoc. reflexivity.
  - reflexivity.
  - now rewrite !map_length.
  - reflexivity.
  - rewrite <- !app_assoc. cbn [app]. rewrite changed_at.
    + cbn [u_set]. rewrite combine_fst_snd. unfold set_cells. cbn [fst snd]. rewrite map_app.
      cbn in HC. destruct HC as (ND & _). inversion ND as [|? ? NI ND']; subst.
      rewrite set_none; [rewrite set_all|]; [reflexivity|rewrite V1, <- CN; exact ND'|congruence|]. intros c0 Hc. rewrite V1', <- V1. now apply HF.
    + reflexivity.
    + unfold cell_of, key_name. cbn [fst snd u_where]. now rewrite bytes_eqb_refl.
    + eauto.
    + apply Forall_forall. intros [[t0 c0] k0] Hin. cbn [fst u_table u_where]. intros ->. unfold cell_of, key_name. cbn [fst snd]. rewrite bytes_eqb_refl. cbn [cell_eqb].
      destruct (N.eqb_spec k0 id) as [->|]; [|reflexivity]. exfalso. apply In_nth_error in Hin as (i & Hi).
      assert (i < length before)%nat by (apply nth_error_Some; intros X; pose proof (eq_trans (eq_sym Hi) X) as Y; discriminate Y).
      assert (i = length before); [|lia]. eapply (KD i (length before) t c0 _ id).
      * rewrite <- app_assoc. rewrite nth_error_app1 by lia. exact Hi.
      * rewrite <- app_assoc. rewrite nth_error_app2 by lia. rewrite Nat.sub_diag. reflexivity.
Qed.
Print Assumptions C77_update.

(* the statement exists just when there is a value and a key of the type, for entities of values only *)
Theorem C77_statement : forall e keys, update e keys <> None <-> (exists n v, In ((n, Some (table e)), v) keys) /\ (forall n m, match e with Entity _ ms => In (n, m) ms end -> exists v, m = Value v) /\ entity_values e <> [].
Proof.
  intros [t ms] keys. cbn [update table entity_values]. change (flat_map _ ms) with (values ms).
  assert (K : existsb (is_primary_key t) keys = true <-> exists n v, In ((n, Some t), v) keys).
  { rewrite existsb_exists. split.
    - intros ([[n [t'|]] v] & Hin & E); cbn in E; [|discriminate]. destruct (bytes_eqb_spec t' t) as [->|]; [eauto|discriminate].
    - intros (n & v & Hin). exists ((n, Some t), v). split; [exact Hin|]. cbn. apply bytes_eqb_refl. }
  rewrite <- K. clear K. destruct (existsb _ keys) eqn:EK; cbn [andb]; [|split; [congruence|intros (H & _); discriminate]].
  destruct (flat ms) eqn:EF.
  - unfold update_statement. split.
    + intros H. split; [reflexivity|]. split.
      * intros n m Hin. unfold flat in EF. rewrite forallb_forall in EF. specialize (EF _ Hin). cbn in EF. destruct m; try discriminate; eauto.
      * destruct (values ms); [cbn in H; congruence|discriminate].
    + intros (_ & _ & H). destruct (values ms) as [|[c x] l]; [congruence|]. destruct keys as [|[[n o] x'] keys]; [discriminate EK|]. cbn [map fst snd column_value_list]. discriminate.
  - split; [congruence|]. intros (_ & H & _). exfalso. assert (flat ms = true); [|congruence]. unfold flat. apply forallb_forall. intros [n m] Hin. destruct (H n m Hin) as (v & ->). reflexivity.
Qed.
Print Assumptions C77_statement.

(* "Update call must specify primary key for TableEntity": the name of the key is not looked at *)
Theorem C77_key_name_refuted : forall t c v n k, n <> key_name t ->
  exists s, update (Entity t [(c, Value v)]) [((n, Some t), Key k)] = Some (s, [Data v; Key k]) /\ s = change_text (Change t [c] n).
Proof.
  intros t c v n k _. eexists. split.
  - unfold update. cbn [existsb fst snd flat forallb map]. unfold is_primary_key. cbn [fst snd]. rewrite bytes_eqb_refl. reflexivity.
  - unfold change_text. cbn [u_table u_set u_where map separated flat_map]. unfold quoted, str. rewrite <- !app_assoc. reflexivity.
Qed.
Print Assumptions C77_key_name_refuted.

Example C77_ex : let foo n m := Entity (str "foo") [(str "v", Value n); (str "w", Value m)] in
  let db (l : log) (_ : row) := N.of_nat (length l) in let order n := seq 0 n in
  exists id after later, insert db order (foo 1 2) [(str "o_id", Key 9)] [((str "foo", []), 7)] = (id, after) /\ later = [((str "foo", [(str "v", Data 1)]), 8)] /\
    update (foo 3 4) [((str "foo_id", Some (str "foo")), Key id)] = Some (str "UPDATE ""foo"" SET ""v""=?,""w""=? WHERE ""foo_id""=? LIMIT 1;", [Data 3; Data 4; Key id]) /\
    changed (Change (str "foo") [str "v"; str "w"] (str "foo_id")) [Data 3; Data 4] (Key id) (after ++ later) =
      [((str "foo", []), 7); ((str "foo", [(str "o_id", Key 9); (str "v", Data 3); (str "w", Data 4)]), id)] ++ later.
Proof. intros foo db order. exists 1, [((str "foo", []), 7); ((str "foo", [(str "o_id", Key 9); (str "v", Data 1); (str "w", Data 2)]), 1)], [((str "foo", [(str "v", Data 1)]), 8)]. vm_compute. repeat split. Qed.
