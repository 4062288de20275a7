(* C50 inserts; C51 criteria; C62 columns and joins of a SELECT. *)
From Coq Require Import String Permutation.
From Verif Require Import Base SqlModel SqlSpec SqlProofs.
Open Scope N_scope.

(* ---- C50 ---- *)

(* Whatever keys the database returns and in whatever order the compiler evaluates arguments: inserting an entity tree adds
   exactly one row for each of its entities; the rows of its children are inserted before its own row, which holds the keys
   that were returned for them; the rows of its containers are inserted after it and hold the key returned for it. *)
Theorem C50_stored : forall db order, (forall n, Permutation (order n) (seq 0 n)) -> forall e keys l, exists new id p ps r,
  insert db order e keys l = (id, l ++ new) /\ Stored (l ++ new) e keys p ps /\ nth_error (l ++ new) p = Some (r, id) /\
  Permutation ps (seq (length l) (length new)) /\ length new = rows e.
Proof.
  intros db order H e keys l. destruct (insert_ok db order H e keys l) as (new & k & p & ps & r & E & ST & Nk & PM & LN).
  exists new, k, p, ps, r. specialize (ST []). rewrite app_nil_r in ST. auto.
Qed.
Print Assumptions C50_stored.

Scheme stored_ind := Induction for Stored Sort Prop
  with cstored_ind := Induction for ChildrenStored Sort Prop
  with mstored_ind := Induction for ManyStored Sort Prop
  with estored_ind := Induction for EachStored Sort Prop.

(* the key k was returned by an insert before position q *)
Definition returned_before (lg : log) (ps : list nat) (q : nat) (k : N) : Prop := exists q' r, In q' ps /\ (q' < q)%nat /\ nth_error lg q' = Some (r, k).

Lemma returned_sub lg ps ps' q k : (forall x, In x ps -> In x ps') -> returned_before lg ps q k -> returned_before lg ps' q k.
Proof. intros H (q' & r & H1 & H2). exists q', r. auto. Qed.

Lemma in_values ms cs n k : Values ms cs -> ~ In (n, Key k) cs.
Proof. induction 1; cbn; auto. intros [E|E]; [discriminate|auto]. Qed.

Lemma stored_keys lg e fks p ps : Stored lg e fks p ps ->
  In p ps /\ forall q t cols kq n k, In q ps -> nth_error lg q = Some ((t, cols), kq) -> In (n, Key k) cols ->
    (q = p /\ In (n, Key k) fks) \/ returned_before lg ps q k \/ In (n, Key k) fks.
Proof.
  intros H. induction H using stored_ind with
    (P0 := fun p ms ids ps _ => (forall n k, In (n, Key k) ids -> returned_before lg ps p k) /\
       forall q t cols kq n k, In q ps -> nth_error lg q = Some ((t, cols), kq) -> In (n, Key k) cols -> returned_before lg ps q k)
    (P1 := fun p fks ms ps _ => forall q t cols kq n k, In q ps -> nth_error lg q = Some ((t, cols), kq) -> In (n, Key k) cols ->
       (p < q)%nat /\ (returned_before lg ps q k \/ In (n, Key k) fks))
    (P2 := fun p fks es ps _ => forall q t cols kq n k, In q ps -> nth_error lg q = Some ((t, cols), kq) -> In (n, Key k) cols ->
       (p < q)%nat /\ (returned_before lg ps q k \/ In (n, Key k) fks)).
  - split; [apply in_app_iff; right; now left|]. destruct IHStored as [C1 C2]. intros q t' cols kq n k' Hq En Hc.
    apply in_app_iff in Hq as [Hq|[<-|Hq]].
    + right; left. eapply returned_sub; [|eapply C2; eauto]. intros x. rewrite in_app_iff. auto.
    + assert (cols = fks ++ ids ++ vals) as -> by congruence. apply in_app_iff in Hc as [Hc|Hc]; [left; auto|]. right; left.
      apply in_app_iff in Hc as [Hc|Hc]; [|exfalso; eapply in_values; eauto].
      eapply returned_sub; [|eapply C1; eauto]. intros x. rewrite in_app_iff. auto.
    + destruct (IHStored0 q t' cols kq n k' Hq En Hc) as [Hlt [R|R]]; right; left.
      * eapply returned_sub; [|exact R]. intros x. rewrite in_app_iff. cbn. auto.
      * destruct R as [R|[]]. injection R as _ <-. exists p. eexists. split; [apply in_app_iff; right; now left|]. split; [exact Hlt|exact e].
  - split; [intros n k []|intros q t cols kq n k []].
  - destruct IHStored as [I1 I2]. destruct IHStored0 as [C1 C2]. rewrite Forall_forall in f. split.
    + intros n' k' [E|E].
      * injection E as _ <-. exists q, r. split; [apply in_app_iff; auto|]. auto.
      * eapply returned_sub; [|eapply C1; eauto]. intros x. rewrite in_app_iff. auto.
    + intros q' t cols kq n' k' Hq En Hc. apply in_app_iff in Hq as [Hq|Hq].
      * destruct (I2 q' t cols kq n' k' Hq En Hc) as [[_ []]|[R|[]]]. eapply returned_sub; [|exact R]. intros x. rewrite in_app_iff. auto.
      * eapply returned_sub; [|eapply C2; eauto]. intros x. rewrite in_app_iff. auto.
  - exact IHStored.
  - exact IHStored.
  - intros q t cols kq n k [].
  - intros q t cols kq n' k' Hq En Hc. apply in_app_iff in Hq as [Hq|Hq].
    + destruct (IHStored q t cols kq n' k' Hq En Hc) as [L [R|R]]; (split; [exact L|]); [left|now right]. eapply returned_sub; [|exact R]. intros x. rewrite in_app_iff. auto.
    + destruct (IHStored0 q t cols kq n' k' Hq En Hc) as [L [R|R]]; (split; [exact L|]); [left|now right]. eapply returned_sub; [|exact R]. intros x. rewrite in_app_iff. auto.
  - exact IHStored.
  - exact IHStored.
  - intros q t cols kq n k [].
  - destruct IHStored as [I1 I2]. rewrite Forall_forall in f. intros q' t cols kq n' k' Hq En Hc. apply in_app_iff in Hq as [Hq|Hq].
    + split; [auto|]. destruct (I2 q' t cols kq n' k' Hq En Hc) as [[_ R]|[R|R]]; [now right| |now right]. left. eapply returned_sub; [|exact R]. intros x. rewrite in_app_iff. auto.
    + destruct (IHStored0 q' t cols kq n' k' Hq En Hc) as [L [R|R]]; (split; [exact L|]); [left|now right]. eapply returned_sub; [|exact R]. intros x. rewrite in_app_iff. auto.
Qed.

(* every foreign key a row has was returned by an insert of this call before it, unless the caller gave it *)
Theorem C50_foreign_keys : forall db order, (forall n, Permutation (order n) (seq 0 n)) -> forall e keys l id l', insert db order e keys l = (id, l') ->
  forall q t cols kq n k, (length l <= q)%nat -> nth_error l' q = Some ((t, cols), kq) -> In (n, Key k) cols ->
  In (n, Key k) keys \/ exists q' r, (length l <= q' < q)%nat /\ nth_error l' q' = Some (r, k).
Proof.
  intros db order H e keys l id l' E q t cols kq n k Hq En Hc. destruct (C50_stored db order H e keys l) as (new & id' & p & ps & r & E' & ST & Nk & PM & LN).
  rewrite E in E'. injection E' as <- ->. destruct (stored_keys _ _ _ _ _ ST) as [_ K].
  assert (Hin : In q ps). { eapply Permutation_in; [symmetry; exact PM|]. apply in_seq. split; [exact Hq|]. rewrite <- app_length. apply nth_error_Some. congruence. }
  destruct (K q t cols kq n k Hin En Hc) as [[_ R]|[(q' & r' & H1 & H2 & H3)|R]]; auto. right. exists q', r'. split; [|exact H3].
  apply (Permutation_in _ PM), in_seq in H1. lia.
Qed.
Print Assumptions C50_foreign_keys.

(* ---- placeholders ---- *)
Fixpoint flip (b : bool) (s : bytes) : bool := match s with [] => b | c :: r => flip (if c =? 34 then negb b else b) r end.

Lemma ph_app b s r : placeholders b (s ++ r) = (placeholders b s + placeholders (flip b s) r)%nat.
Proof. revert b; induction s as [|c s IH]; intros b; cbn; [reflexivity|]. destruct (c =? 34); [apply IH|]. destruct ((c =? 63) && negb b); rewrite IH; lia. Qed.
Lemma flip_app b s r : flip b (s ++ r) = flip (flip b s) r.
Proof. revert b; induction s as [|c s IH]; intros b; cbn; auto. Qed.

(* a name has no double quote in it *)
Definition plain (n : bytes) : Prop := ~ In 34 n.
Lemma plain_flip b n : plain n -> flip b n = b.
Proof. unfold plain. revert b; induction n as [|c n IH]; intros b H; cbn in *; [reflexivity|]. destruct (N.eqb_spec c 34); [tauto|]. apply IH. tauto. Qed.
Lemma plain_ph n : plain n -> placeholders true n = 0%nat.
Proof. unfold plain. induction n as [|c n IH]; intros H; cbn in *; [reflexivity|]. destruct (N.eqb_spec c 34); [tauto|]. rewrite andb_false_r. apply IH. tauto. Qed.

Definition closed (s : bytes) : Prop := flip false s = false /\ placeholders false s = 0%nat.

Ltac consts := repeat match goal with
  | |- context [placeholders true (str ?s)] => let v := eval vm_compute in (placeholders true (str s)) in change (placeholders true (str s)) with v
  | |- context [placeholders false (str ?s)] => let v := eval vm_compute in (placeholders false (str s)) in change (placeholders false (str s)) with v
  end.

Lemma closed_app a b : closed a -> closed b -> closed (a ++ b).
Proof. intros [A1 A2] [B1 B2]. split; [now rewrite flip_app, A1|]. rewrite ph_app, A1, A2, B2. reflexivity. Qed.
Lemma closed_quote n : plain n -> closed (quote n).
Proof.
  intros H. unfold quote. split.
  - rewrite !flip_app. change (flip false (str """")) with true. rewrite (plain_flip _ n H). reflexivity.
  - rewrite !ph_app. change (flip false (str """")) with true. rewrite (plain_flip _ n H), (plain_ph n H). reflexivity.
Qed.
Lemma closed_const s : flip false s = false -> placeholders false s = 0%nat -> closed s.
Proof. now split. Qed.

Lemma names_state l : Forall plain l -> flip true (flat_map (fun m => str """,""" ++ m) l) = true /\ placeholders true (flat_map (fun m => str """,""" ++ m) l) = 0%nat.
Proof.
  induction 1 as [|n l Hn Hl [I1 I2]]; [split; reflexivity|]. cbn [flat_map]. split.
  - rewrite !flip_app. change (flip true (str """,""")) with true. now rewrite (plain_flip _ n Hn).
  - rewrite !ph_app, ?flip_app. change (flip true (str """,""")) with true. change (placeholders true (str """,""")) with 0%nat. rewrite (plain_flip _ n Hn), (plain_ph n Hn), I2. reflexivity.
Qed.
Lemma eqs_state l : Forall plain l -> flip true (flat_map (fun m => str """=?,""" ++ m) l) = true /\ placeholders true (flat_map (fun m => str """=?,""" ++ m) l) = length l.
Proof.
  induction 1 as [|n l Hn Hl [I1 I2]]; [split; reflexivity|]. cbn [flat_map]. split.
  - rewrite !flip_app. change (flip true (str """=?,""")) with true. now rewrite (plain_flip _ n Hn).
  - rewrite !ph_app, ?flip_app. change (flip true (str """=?,""")) with true. change (placeholders true (str """=?,""")) with 1%nat. rewrite (plain_flip _ n Hn), (plain_ph n Hn), I2. reflexivity.
Qed.
Lemma marks n a : flip false (flat_map (fun _ : nat => str ",?") (List.seq a n)) = false /\ placeholders false (flat_map (fun _ : nat => str ",?") (List.seq a n)) = n.
Proof. revert a; induction n as [|n IH]; intros a; [split; reflexivity|]. cbn [List.seq flat_map]. destruct (IH (S a)) as [I1 I2]. rewrite flip_app, ph_app. change (flip false (str ",?")) with false. change (placeholders false (str ",?")) with 1%nat. rewrite I1, I2. split; reflexivity. Qed.
Lemma crit_state l : Forall closed l -> flip false (flat_map (fun m => str "=?," ++ m) l) = false /\ placeholders false (flat_map (fun m => str "=?," ++ m) l) = length l.
Proof.
  induction 1 as [|n l [Hn1 Hn2] Hl [I1 I2]]; [split; reflexivity|]. cbn [flat_map]. split.
  - rewrite !flip_app. change (flip false (str "=?,")) with false. now rewrite Hn1.
  - rewrite !ph_app, ?flip_app. change (flip false (str "=?,")) with false. change (placeholders false (str "=?,")) with 1%nat. rewrite Hn1, Hn2, I2. reflexivity.
Qed.

(* each INSERT has as many placeholders as bound values, which are the columns in order; there is a statement iff there is a column *)
Theorem C50_insert_statement : forall t cols, plain t -> Forall plain (map fst cols) ->
  match insert_statement t cols with
  | Some (s, vs) => placeholders false s = length vs /\ vs = map snd cols /\ cols <> []
  | None => cols = []
  end.
Proof.
  unfold column. intros t cols Ht Hc. unfold insert_statement. destruct cols as [|[n v] cols]; [reflexivity|]. cbn [map fst snd length column_name_list placeholder_list].
  inversion Hc as [|? ? Hn Hns]; subst. split; [|split; [reflexivity|discriminate]].
  destruct (names_state _ Hns) as [N1 N2]. match goal with |- context [List.seq 0 ?k] => destruct (marks k 0) as [M1 M2] end. cbn [fst] in Hn.
  rewrite !ph_app, ?flip_app. 
  change (flip false (str "INSERT INTO """)) with true. rewrite (plain_flip _ t Ht). change (flip true (str """ (")) with false. change (flip false (str """")) with true.
  rewrite (plain_flip _ n Hn), N1. change (flip true (str """")) with false. change (flip false (str ") VALUES (")) with false. change (flip false (str "?")) with false. rewrite M1.
  rewrite (plain_ph t Ht), (plain_ph n Hn), N2, M2. rewrite map_length. consts. unfold column in *. lia.
Qed.
Print Assumptions C50_insert_statement.

Example C50_ex :
  let foo v := Entity (str "foo") [(str "v", Value v)] in
  let bar := Entity (str "bar") [(str "list", Many [foo 1; foo 2]); (str "x", Value 7); (str "a", Child (foo 3)); (str "b", Child (foo 4))] in
  let db := fun (l : log) (_ : row) => 100 + N.of_nat (length l) in
  insert db (fun n => List.rev (seq 0 n)) bar [] [] =
    (102, [((str "foo", [(str "v", Data 4)]), 100); ((str "foo", [(str "v", Data 3)]), 101);
           ((str "bar", [(str "a_id", Key 101); (str "b_id", Key 100); (str "x", Data 7)]), 102);
           ((str "foo", [(str "bar_id", Key 102); (str "v", Data 1)]), 103); ((str "foo", [(str "bar_id", Key 102); (str "v", Data 2)]), 104)]) /\
  insert_statement (str "t") [(str "a", Data 1); (str "b", Key 2)] = Some (str "INSERT INTO ""t"" (""a"",""b"") VALUES (?,?);", [Data 1; Key 2]).
Proof. vm_compute. split; reflexivity. Qed.

(* an entity without values, children and foreign keys has a row without columns, for which there is no statement *)
Theorem C50_no_columns_refuted : exists e db order, (forall n, Permutation (order n) (seq 0 n)) /\
  exists id t k rest, insert db order e [] [] = (id, ((t, []), k) :: rest) /\ insert_statement t [] = None.
Proof.
  exists (Entity (str "boo") [(str "foo_list", Many [Entity (str "foo") [(str "v", Value 1)]])]), (fun l _ => N.of_nat (length l)), (seq 0).
  split; [reflexivity|]. vm_compute. do 4 eexists. split; reflexivity.
Qed.
Print Assumptions C50_no_columns_refuted.

(* ---- C51 ---- *)
Definition where_update (t : bytes) (cols keys : list column) (w : bytes) : Prop :=
  exists s vs pre, update_statement t cols keys = Some (s, vs) /\ s = pre ++ str " WHERE " ++ w ++ str " LIMIT 1;".

(* With one key the rows are restricted to that key.  Full statement: with every non-empty list of keys the text after WHERE is
   their conjunction; it is false, see below. *)
Theorem C51_select_partial : forall t c j k v, exists s, select_statement t c j [(k, v)] = Some (s, [v]) /\
  s = str "SELECT " ++ c ++ str " FROM " ++ quote t ++ j ++ str " WHERE " ++ conjunction [k] ++ str ";".
Proof. intros. eexists. split; reflexivity. Qed.
Print Assumptions C51_select_partial.
Theorem C51_update_partial : forall t cols k v, cols <> [] -> exists s pre, update_statement t cols [(k, v)] = Some (s, map snd cols ++ [v]) /\
  s = pre ++ str " WHERE " ++ conjunction [quote k] ++ str " LIMIT 1;".
Proof.
  intros t cols k v Hc. unfold update_statement. destruct cols as [|[n x] cols]; [congruence|]. cbn [map fst snd column_value_list flat_map].
  eexists. exists (str "UPDATE """ ++ t ++ str """ SET " ++ (str """" ++ n) ++ flat_map (fun m => str """=?,""" ++ m) (map fst cols) ++ str """=?").
  split; [reflexivity|]. unfold conjunction, quote. change (bs "=?"%string) with (str "=?"). rewrite <- !app_assoc. cbn [app]. change (str """=?") with (str """" ++ str "=?"). rewrite <- ?app_assoc. reflexivity.
Qed.
Print Assumptions C51_update_partial.

(* each statement has as many placeholders as bound values *)
Theorem C51_update_placeholders : forall t cols keys s vs, plain t -> Forall plain (map fst cols) -> Forall plain (map fst keys) ->
  update_statement t cols keys = Some (s, vs) -> placeholders false s = length vs /\ vs = map snd cols ++ map snd keys.
Proof.
  intros t cols keys s vs Ht Hc Hk E. unfold update_statement in E. destruct cols as [|[n x] cols]; [discriminate|]. destruct keys as [|[k y] keys]; [discriminate|].
  cbn [map fst snd column_value_list] in *. match type of E with Some (?a, ?b) = _ => assert (s = a) as -> by congruence; assert (vs = b) as -> by congruence end. clear E. split; [|reflexivity]. inversion Hc as [|? ? Hn Hns]; subst. inversion Hk as [|? ? Hk1 Hks]; subst.
  destruct (eqs_state _ Hns) as [N1 N2]. destruct (eqs_state _ Hks) as [K1 K2]. cbn [fst] in Hn, Hk1.
  rewrite !ph_app, ?flip_app.
  change (flip false (str "UPDATE """)) with true. rewrite (plain_flip _ t Ht). change (flip true (str """ SET ")) with false. change (flip false (str """")) with true.
  rewrite (plain_flip _ n Hn), N1. change (flip true (str """=?")) with false. change (flip false (str " WHERE ")) with false. change (flip false (str """")) with true.
  rewrite (plain_flip _ k Hk1), K1. change (flip true (str """=?")) with false.
  rewrite (plain_ph t Ht), (plain_ph n Hn), (plain_ph k Hk1), N2, K2. cbn [length app]. rewrite app_length. cbn [length]. rewrite !map_length. consts. unfold column in *. lia.
Qed.
Print Assumptions C51_update_placeholders.
Theorem C51_select_placeholders : forall t c j keys s vs, plain t -> closed c -> closed j -> Forall closed (map fst keys) ->
  select_statement t c j keys = Some (s, vs) -> placeholders false s = length vs /\ vs = map snd keys.
Proof.
  intros t c j keys s vs Ht Hc Hj Hk E. unfold select_statement in E. destruct keys as [|[k y] keys]; [discriminate|]. cbn [map fst snd criteria_list] in *.
  match type of E with Some (?a, ?b) = _ => assert (s = a) as -> by congruence; assert (vs = b) as -> by congruence end. clear E. split; [|reflexivity]. inversion Hk as [|? ? [Hk1 Hk2] Hks]; subst. destruct (crit_state _ Hks) as [K1 K2]. destruct (closed_quote t Ht) as [Q1 Q2].
  destruct Hc as [C1 C2], Hj as [J1 J2]. cbn [fst] in *.
  rewrite !ph_app, ?flip_app. change (flip false (str "SELECT ")) with false. rewrite C1. change (flip false (str " FROM ")) with false. rewrite Q1, J1. change (flip false (str " WHERE ")) with false. rewrite Hk1, K1.
  change (flip false (str "=?")) with false. rewrite C2, Q2, J2, Hk2, K2. cbn [length]. rewrite !map_length. consts. unfold column in *. lia.
Qed.
Print Assumptions C51_select_placeholders.

(* the criteria of two or more keys are never a conjunction: they are joined by commas *)
Lemma split_eq (n a b : bytes) : n ++ a = n ++ b -> a = b.
Proof. apply app_inv_head. Qed.
Theorem C51_select_refuted : forall k1 k2 more, exists w, criteria_list (k1 :: k2 :: more) = Some w /\ w <> conjunction (k1 :: k2 :: more).
Proof. intros. eexists. split; [reflexivity|]. cbn [flat_map conjunction]. rewrite <- !app_assoc. intros E. apply split_eq in E. discriminate. Qed.
Theorem C51_update_refuted : forall k1 k2 more, exists w, column_value_list (k1 :: k2 :: more) = Some w /\ w <> conjunction (map quote (k1 :: k2 :: more)).
Proof.
  intros. eexists. split; [reflexivity|]. cbn [flat_map map conjunction]. unfold quote at 1. rewrite <- !app_assoc. intros E. apply split_eq in E. apply split_eq in E. discriminate.
Qed.
Print Assumptions C51_select_refuted.
Print Assumptions C51_update_refuted.
Example C51_ex : update_statement (str "t") [(str "a", Data 1)] [(str "t_id", Key 5); (str "o_id", Key 6)] =
  Some (str "UPDATE ""t"" SET ""a""=? WHERE ""t_id""=?,""o_id""=? LIMIT 1;", [Data 1; Key 5; Key 6]).
Proof. reflexivity. Qed.

(* ---- C62 ---- *)
Section ETypeInd.
Variable P : etype -> Prop.
Definition of_child (m : mtype) : Prop := match m with TChild e => P e | _ => True end.
Hypothesis H : forall t ms, Forall (fun nm => of_child (snd nm)) ms -> P (EType t ms).
Fixpoint etype_ind' (e : etype) : P e :=
  match e with
  | EType t ms => H t ms ((fix go (ms : list (bytes * mtype)) : Forall (fun nm => of_child (snd nm)) ms :=
      match ms with
      | [] => Forall_nil _
      | nm :: r => Forall_cons nm (match snd nm as m return of_child m with TChild e => etype_ind' e | _ => I end) (go r)
      end) ms)
  end.
End ETypeInd.

Fixpoint tch (ms : list (bytes * mtype)) : list (bytes * etype) :=
  match ms with [] => [] | (n, TChild e) :: r => (n, e) :: tch r | _ :: r => tch r end.
Lemma child_types_map {R} (f : bytes -> etype -> R) ms : child_types f ms = map (fun ne => f (fst ne) (snd ne)) (tch ms).
Proof. induction ms as [|[n [|e|e]] ms IH]; cbn; congruence. Qed.
Lemma in_tch n e ms : In (n, e) (tch ms) <-> In (n, TChild e) ms.
Proof. induction ms as [|[n' [|e'|e']] ms IH]; cbn; [tauto| | |]; rewrite IH; intuition congruence. Qed.
Lemma tch_ind (P : etype -> Prop) ms : Forall (fun nm => of_child P (snd nm)) ms -> Forall (fun ne => P (snd ne)) (tch ms).
Proof. induction 1 as [|[n [|e|e]] ms Hm Hms IH]; cbn; auto. Qed.

Lemma alias_list_eq p t ms : alias_list p (EType t ms) =
  map (fun ne => Join (fst ne) (etable (snd ne)) (dot p (fst ne)) p) (tch ms) ++ flat_map (fun ne => alias_list (dot p (fst ne)) (snd ne)) (tch ms).
Proof. cbn [alias_list]. rewrite !child_types_map, <- flat_map_concat_map. reflexivity. Qed.

(* there is a join for each entity below, and for nothing else: it names the entity's table, its alias is the path to it *)
Theorem C62_joins : forall e j, In j (table_alias_list e) <->
  exists e', Below (etable e) e (j_parent j) (j_member j) e' (j_alias j) /\ j_table j = etable e'.
Proof.
  intros e j. unfold table_alias_list. generalize (etable e) as p. induction e as [t ms Hms] using etype_ind'; intros p. apply tch_ind in Hms. rewrite Forall_forall in Hms.
  rewrite alias_list_eq, in_app_iff, in_map_iff, in_flat_map. split.
  - intros [([n e] & <- & Hin)|([n e] & Hin & Hj)].
    + exists e. split; [|reflexivity]. cbn. apply (B_here p t ms n e). now apply in_tch.
    + apply (Hms _ Hin) in Hj as (e' & Hb & Ht). exists e'. split; [|exact Ht]. apply B_there with n e; [now apply in_tch|exact Hb].
  - intros (e' & Hb & Ht). inversion Hb; subst.
    + left. exists (j_member j, e'). cbn. split; [|now apply in_tch]. destruct j; cbn in *; subst. reflexivity.
    + right. exists (n, e). split; [now apply in_tch|]. apply (Hms (n, e)); [now apply in_tch|]. eauto.
Qed.
Print Assumptions C62_joins.

Lemma ordered_mono l : forall s s', (forall x, In x s -> In x s') -> ordered s l -> ordered s' l.
Proof. induction l as [|j l IH]; cbn; intros s s' H; [auto|]. intros [H1 H2]. split; [auto|]. eapply IH; [|exact H2]. intros x [Hx|Hx]; [now left|right; auto]. Qed.
Lemma ordered_app l1 : forall s l2, ordered s l1 -> ordered (map j_alias l1 ++ s) l2 -> ordered s (l1 ++ l2).
Proof.
  induction l1 as [|j l1 IH]; cbn; intros s l2 H1 H2; [exact H2|]. destruct H1 as [H1 H1']. split; [exact H1|]. apply IH; [exact H1'|].
  eapply ordered_mono; [|exact H2]. intros x. cbn. rewrite !in_app_iff. cbn. tauto.
Qed.

(* every join refers to the table of FROM or to an alias introduced by a join before it *)
Theorem C62_ordered : forall e, ordered [etable e] (table_alias_list e).
Proof.
  intros e. unfold table_alias_list. generalize (etable e) as p.
  induction e as [t ms Hms] using etype_ind'; intros p. apply tch_ind in Hms. rewrite alias_list_eq. apply ordered_app.
  - assert (G : forall cs s, In p s -> ordered s (map (fun ne : bytes * etype => Join (fst ne) (etable (snd ne)) (dot p (fst ne)) p) cs)).
    { induction cs as [|c cs IH]; cbn; intros s Hs; [exact I|]. split; [exact Hs|]. apply IH. now right. }
    apply G. now left.
  - rewrite map_map. cbn [j_alias].
    assert (G : forall cs s, Forall (fun ne => forall p, ordered [p] (alias_list p (snd ne))) cs -> (forall ne, In ne cs -> In (dot p (fst ne)) s) ->
               ordered s (flat_map (fun ne : bytes * etype => alias_list (dot p (fst ne)) (snd ne)) cs)).
    { induction cs as [|c cs IH]; cbn; intros s HF Hs; [exact I|]. inversion HF; subst. apply ordered_app.
      - eapply ordered_mono; [|apply H1]. intros x [<-|[]]. apply Hs. now left.
      - apply IH; [assumption|]. intros ne Hne. apply in_app_iff. right. apply Hs. now right. }
    apply G; [exact Hms|]. intros ne Hne. apply in_app_iff. left. apply in_map_iff. eauto.
Qed.
Print Assumptions C62_ordered.

Lemma columns_below_eq p t ms : columns_below p (EType t ms) =
  flat_map (fun ne => own_columns (dot p (fst ne)) (snd ne)) (tch ms) ++ flat_map (fun ne => columns_below (dot p (fst ne)) (snd ne)) (tch ms).
Proof. cbn [columns_below]. rewrite !child_types_map, <- !flat_map_concat_map. reflexivity. Qed.
Lemma in_own a c alias e : In (a, c) (own_columns alias e) <-> a = alias /\ value_member e c.
Proof.
  destruct e as [t ms]. cbn. rewrite in_map_iff. unfold value_names. split.
  - intros (n & E & Hn). injection E as <- <-. split; [reflexivity|]. apply in_flat_map in Hn as ([m [| |]] & Hm & Hn); cbn in Hn; try tauto. destruct Hn as [<-|[]]. exact Hm.
  - intros [-> Hc]. exists c. split; [reflexivity|]. apply in_flat_map. exists (c, TValue). split; [exact Hc|now left].
Qed.

(* the columns are the value members of the entity and of every entity below it, each under its alias *)
Theorem C62_columns : forall e a c, In (a, c) (aliased_columns e) <->
  (a = etable e /\ value_member e c) \/ exists parent n e', Below (etable e) e parent n e' a /\ value_member e' c.
Proof.
  intros e a c. unfold aliased_columns. rewrite in_app_iff, in_own. generalize (etable e) as p. intros p.
  enough (G : forall p, In (a, c) (columns_below p e) <-> exists parent n e', Below p e parent n e' a /\ value_member e' c) by now rewrite G.
  clear p. induction e as [t ms Hms] using etype_ind'; intros p. apply tch_ind in Hms. rewrite Forall_forall in Hms. rewrite columns_below_eq, in_app_iff, !in_flat_map. split.
  - intros [([n e] & Hin & Hc)|([n e] & Hin & Hc)].
    + apply in_own in Hc as [-> Hc]. exists p, n, e. split; [|exact Hc]. apply B_here. now apply in_tch.
    + apply (Hms _ Hin) in Hc as (parent & n' & e' & Hb & Hc). exists parent, n', e'. split; [|exact Hc]. apply B_there with n e; [now apply in_tch|exact Hb].
  - intros (parent & n' & e' & Hb & Hc). inversion Hb; subst.
    + left. exists (n', e'). split; [now apply in_tch|]. apply in_own. auto.
    + right. exists (n, e). split; [now apply in_tch|]. apply (Hms (n, e)); [now apply in_tch|]. eauto.
Qed.
Print Assumptions C62_columns.

Definition no_dot (n : bytes) : Prop := ~ In 46 n.
Lemma dot_split n n' r r' : no_dot n -> no_dot n' -> n ++ 46 :: r = n' ++ 46 :: r' -> n = n'.
Proof.
  unfold no_dot. revert n'; induction n as [|c n IH]; intros [|c' n'] H H' E; cbn in *; auto.
  - injection E as <- _. tauto. - injection E as -> _. tauto. - injection E as -> E. f_equal. eapply IH; eauto.
Qed.
Lemma dot_eq p n : dot p n = p ++ 46 :: n. Proof. reflexivity. Qed.

Lemma alias_under e : forall p j, In j (alias_list p e) -> exists r, j_alias j = p ++ 46 :: r.
Proof.
  induction e as [t ms Hms] using etype_ind'; intros p j. apply tch_ind in Hms. rewrite Forall_forall in Hms. rewrite alias_list_eq, in_app_iff, in_map_iff, in_flat_map.
  intros [([n e] & <- & Hin)|([n e] & Hin & Hj)]; [cbn; rewrite dot_eq; eauto|]. apply (Hms _ Hin) in Hj as (r & E). cbn in E. rewrite E, dot_eq, <- app_assoc. cbn. eauto.
Qed.
Lemma all_names_tch Q t ms : all_names Q (EType t ms) -> Forall (fun ne => Q (fst ne) /\ all_names Q (snd ne)) (tch ms).
Proof. intros [_ H]. induction ms as [|[n [|e|e]] ms IH]; cbn in *; [constructor|tauto| |tauto]. constructor; tauto. Qed.
Lemma distinct_tch t ms : distinct (EType t ms) -> NoDup (map fst (tch ms)) /\ Forall (fun ne => distinct (snd ne)) (tch ms).
Proof.
  intros [H1 H2]. induction ms as [|[n [|e|e]] ms IH]; cbn in *; [split; constructor| | |]; inversion H1; subst; try (apply IH; tauto).
  destruct (IH H4) as [I1 I2]; [tauto|]. split; constructor; auto; [|tauto]. intros X. apply H3. apply in_map_iff in X as ([n' e'] & E & X). cbn in E. subst. apply in_tch in X. apply in_map_iff. exists (n, TChild e'). auto.
Qed.

(* the aliases differ from each other and from the table, if the members of each entity have distinct names without dots *)
Theorem C62_distinct : forall e, distinct e -> all_names no_dot e -> NoDup (etable e :: map j_alias (table_alias_list e)).
Proof.
  intros e D A. constructor.
  - intros X. apply in_map_iff in X as (j & E & Hj). apply alias_under in Hj as (r & E'). rewrite E' in E. apply (f_equal (@length N)) in E. rewrite app_length in E. cbn in E. lia.
  - unfold table_alias_list. generalize (etable e) as p. induction e as [t ms Hms] using etype_ind'; intros p. apply tch_ind in Hms.
    apply all_names_tch in A. apply distinct_tch in D as [ND D]. rewrite alias_list_eq, map_app, map_map. cbn [j_alias].
    assert (FM : forall cs, map j_alias (flat_map (fun ne : bytes * etype => alias_list (dot p (fst ne)) (snd ne)) cs) = flat_map (fun ne => map j_alias (alias_list (dot p (fst ne)) (snd ne))) cs).
    { induction cs as [|c cs IH]; cbn; [reflexivity|]. now rewrite map_app, IH. }
    rewrite FM. revert Hms A ND D. generalize (tch ms) as cs. clear. intros cs Hms A ND D.
    assert (APP : forall (l1 l2 : list bytes), NoDup l1 -> NoDup l2 -> (forall x, In x l1 -> ~ In x l2) -> NoDup (l1 ++ l2)).
    { clear. induction l1 as [|x l1 IH]; intros l2 H1 H2 H3; [exact H2|]. inversion H1; subst. cbn. constructor.
      - rewrite in_app_iff. intros [X|X]; [auto|]. eapply H3; [now left|exact X].
      - apply IH; auto. intros y Hy. apply H3. now right. }
    apply APP.
    + clear - ND. induction cs as [|[n e] cs IH]; cbn in *; [constructor|]. inversion ND; subst. constructor; [|auto].
      intros X. apply in_map_iff in X as ([n' e'] & E & X). cbn in E. rewrite !dot_eq in E. apply app_inv_head in E. injection E as ->. apply H1. apply in_map_iff. exists (n, e'). auto.
    + induction cs as [|[n e] cs IH]; cbn [flat_map] in *; [constructor|]. inversion Hms; subst. inversion A as [|? ? [A1 A2] A3]; subst. inversion D; subst. inversion ND; subst. cbn [fst snd map] in *.
      apply APP; [now apply H1|apply IH; auto|]. intros x X Y. apply in_map_iff in X as (j & <- & X). apply alias_under in X as (r & X).
      apply in_flat_map in Y as ([n' e'] & Hin & Y). cbn [fst snd] in Y. apply in_map_iff in Y as (j' & E & Y). apply alias_under in Y as (r' & Y). rewrite X, Y, !dot_eq, <- !app_assoc in E.
      apply app_inv_head in E. cbn in E. injection E as E. rewrite Forall_forall in A3. destruct (A3 _ Hin) as [A4 _]. cbn in A4.
      assert (n' = n) as -> by (eapply dot_split; eauto). apply H5. apply in_map_iff. exists (n, e'). auto.
    + intros x X Y. apply in_map_iff in X as ([n e] & <- & X). apply in_flat_map in Y as ([n' e'] & Hin & Y). cbn [fst snd] in Y. apply in_map_iff in Y as (j' & E & Y). apply alias_under in Y as (r' & Y).
      rewrite Y in E. cbn [fst] in E. rewrite !dot_eq, <- app_assoc in E. apply app_inv_head in E. cbn in E. injection E as E.
      rewrite Forall_forall in A. destruct (A _ X) as [A1 _]. apply A1. cbn. rewrite <- E. apply in_app_iff. right. now left.
Qed.
Print Assumptions C62_distinct.

Lemma closed_qualified a n : plain a -> plain n -> closed (qualified a n).
Proof. intros Ha Hn. unfold qualified. apply closed_app; [now apply closed_quote|]. apply closed_app; [split; reflexivity|now apply closed_quote]. Qed.
Lemma closed_join d l s : closed d -> Forall closed l -> sum_join d l = Some s -> closed s.
Proof.
  intros Hd Hl E. destruct l as [|x l]; [discriminate|]. cbn in E. apply (f_equal (fun o => match o with Some z => z | None => [] end)) in E. cbn in E. rewrite <- E. inversion Hl; subst. apply closed_app; [assumption|].
  clear - Hd H2. induction H2; cbn; [split; reflexivity|]. apply closed_app; [now apply closed_app|assumption].
Qed.
Lemma plain_app a b : plain a -> plain b -> plain (a ++ b).
Proof. unfold plain. rewrite in_app_iff. tauto. Qed.
Lemma plain_id n : plain n -> plain (key_name n).
Proof. intros H. apply plain_app; [exact H|]. unfold plain. vm_compute. intuition discriminate. Qed.
Lemma below_plain p e parent n e' a : Below p e parent n e' a -> plain p -> all_names plain e -> plain parent /\ plain n /\ plain a /\ all_names plain e'.
Proof.
  assert (D : forall p n, plain p -> plain n -> plain (p ++ bs "."%string ++ n)) by (intros; apply plain_app; [assumption|]; apply plain_app; [unfold plain; vm_compute; intuition discriminate|assumption]).
  induction 1; intros Hp Ha; apply all_names_tch in Ha; rewrite Forall_forall in Ha; destruct (Ha (n, e)) as [A1 A2]; try (apply in_tch; assumption); cbn [fst snd] in *.
  - auto.
  - apply IHBelow; auto.
Qed.
Lemma value_plain e c : all_names plain e -> value_member e c -> plain c.
Proof. destruct e as [t ms]. intros [_ H] Hc. cbn in Hc. induction ms as [|[n [|e|e]] ms IH]; cbn in *; try tauto; destruct Hc as [Hc|Hc]; try congruence; try tauto. injection Hc as ->. tauto. Qed.

(* the whole SELECT has as many placeholders as bound values *)
Theorem C62_placeholders : forall e keys s vs, all_names plain e -> Forall closed (map fst keys) -> select e keys = Some (s, vs) -> placeholders false s = length vs /\ vs = map snd keys.
Proof.
  intros e keys s vs He Hk E. unfold select in E. destruct (has_many e); [discriminate|]. destruct (columns_clause e) as [c|] eqn:Ec; [|discriminate]. destruct (join_clauses e) as [j|] eqn:Ej; [|discriminate].
  assert (Ht : plain (etable e)) by (destruct e; apply He).
  apply C51_select_placeholders with (etable e) c j; auto.
  - eapply closed_join; [|  |exact Ec]; [split; reflexivity|]. apply Forall_forall. intros x Hx. apply in_map_iff in Hx as ([a n] & <- & Hx). cbn [fst snd]. apply C62_columns in Hx as [[-> Hv]|(parent & n' & e' & Hb & Hv)].
    + apply closed_qualified; [exact Ht|]. eapply value_plain; eauto.
    + destruct (below_plain _ _ _ _ _ _ Hb Ht He) as (P1 & P2 & P3 & P4). apply closed_qualified; [exact P3|]. eapply value_plain; eauto.
  - eapply closed_join; [| |exact Ej]; [split; reflexivity|]. apply Forall_forall. intros x Hx. apply in_map_iff in Hx as (q & <- & Hx). apply C62_joins in Hx as (e' & Hb & Et).
    destruct (below_plain _ _ _ _ _ _ Hb Ht He) as (P1 & P2 & P3 & P4). assert (P5 : plain (j_table q)) by (rewrite Et; destruct e'; apply P4). unfold join_clause.
    repeat match goal with |- closed (?a ++ ?b) => apply (closed_app a b); [first [apply closed_qualified; auto using plain_id; fail|apply closed_quote; assumption|split; reflexivity]|] end.
    apply closed_qualified; auto using plain_id.
Qed.
Print Assumptions C62_placeholders.
Theorem C62_primary_key : forall e, all_names plain e -> closed (primary_key_name e).
Proof. intros [t ms] [Ht _]. apply closed_qualified; [exact Ht|now apply plain_id]. Qed.
Print Assumptions C62_primary_key.

(* an entity without children cannot be selected: there is no join to join *)
Theorem C62_flat_refuted : forall e, table_alias_list e = [] -> forall keys, select e keys = None.
Proof. intros e H keys. unfold select, join_clauses. rewrite H. cbn. destruct (has_many e), (columns_clause e); reflexivity. Qed.
Print Assumptions C62_flat_refuted.

(* nor can one with a member that holds many; every other one can, when a key is asked for and there is some column to read *)
Theorem C62_selectable : forall t ms keys,
  (exists s vs, select (EType t ms) keys = Some (s, vs)) <->
  (forall n e, ~ In (n, TMany e) ms) /\ (exists n e, In (n, TChild e) ms) /\ keys <> [] /\
  (exists c, value_member (EType t ms) c \/ exists parent n e a, Below t (EType t ms) parent n e a /\ value_member e c).
Proof.
  intros t ms keys.
  assert (M : has_many (EType t ms) = true <-> exists n e, In (n, TMany e) ms).
  { unfold has_many. rewrite existsb_exists. split.
    - intros ([n [|e|e]] & H & X); try discriminate. eauto.
    - intros (n & e & H). exists (n, TMany e). auto. }
  assert (J : table_alias_list (EType t ms) <> [] <-> exists n e, In (n, TChild e) ms).
  { split.
    - intros H. destruct (table_alias_list (EType t ms)) as [|j l] eqn:E; [congruence|].
      destruct (proj1 (C62_joins (EType t ms) j)) as (e' & B & _); [rewrite E; now left|]. inversion B; subst; eauto.
    - intros (n & e & H) E. assert (X : In (Join n (etable e) (t ++ bs "."%string ++ n) t) (table_alias_list (EType t ms))).
      { apply C62_joins. exists e. split; [|reflexivity]. cbn. now apply B_here. }
      rewrite E in X. destruct X. }
  assert (C : aliased_columns (EType t ms) <> [] <-> exists c, value_member (EType t ms) c \/ exists parent n e a, Below t (EType t ms) parent n e a /\ value_member e c).
  { split.
    - intros H. destruct (aliased_columns (EType t ms)) as [|[a c] l] eqn:E; [congruence|].
      destruct (proj1 (C62_columns (EType t ms) a c)) as [[_ V]|(pa & n & e' & B & V)]; [rewrite E; now left|eauto|]. exists c. right. eauto 6.
    - intros (c & [V|(pa & n & e & a & B & V)]) E.
      + assert (X : In (t, c) (aliased_columns (EType t ms))) by (apply C62_columns; left; auto). rewrite E in X. destruct X.
      + assert (X : In (a, c) (aliased_columns (EType t ms))) by (apply C62_columns; right; eauto). rewrite E in X. destruct X. }
  unfold select, columns_clause, join_clauses, select_statement, criteria_list. rewrite <- C, <- J. split.
  - intros (s & vs & E). destruct (has_many (EType t ms)) eqn:Hm; [discriminate|].
    split; [intros n e H; enough (false = true) by discriminate; apply M; eauto|].
    destruct (aliased_columns (EType t ms)); [discriminate|]. destruct (table_alias_list (EType t ms)); [discriminate|]. destruct keys; [discriminate|].
    repeat split; discriminate.
  - intros (A & B & K & D). destruct (has_many (EType t ms)); [destruct (proj1 M eq_refl) as (n & e & H); destruct (A n e H)|].
    destruct (aliased_columns (EType t ms)); [congruence|]. destruct (table_alias_list (EType t ms)); [congruence|]. destruct keys; [congruence|]. cbn. eauto.
Qed.
Print Assumptions C62_selectable.
(* the statement for one key, in full: the columns and joins above, written in their order *)
Lemma sum_join_listed sep l t : sum_join sep l = Some t -> listed sep l t.
Proof.
  unfold sum_join. destruct l as [|x l]; [discriminate|]. intros E. injection E as <-. revert x. induction l as [|y l IH]; intros x; cbn [flat_map].
  - rewrite app_nil_r. constructor.
  - rewrite <- app_assoc. constructor. apply IH.
Qed.
Lemma qualified_text a c : qualified a c = column_text (a, c).
Proof. unfold qualified, column_text, quote. cbn [fst snd]. change (bs """."""%string) with (str """" ++ str "." ++ str """"). change (bs """"%string) with (str """"). rewrite <- !app_assoc. reflexivity. Qed.
Lemma join_clause_text j : join_clause j = join_text j.
Proof.
  unfold join_clause, join_text. rewrite !qualified_text. unfold column_text, quote, key_name. cbn [fst snd].
  change (bs " JOIN """%string) with (str " JOIN " ++ bs """"%string). change (bs """ AS """%string) with (bs """"%string ++ str " AS " ++ bs """"%string).
  change (bs """ ON """%string) with (bs """"%string ++ str " ON " ++ bs """"%string). change (bs "_id"" = """%string) with (bs "_id"%string ++ bs """"%string ++ str " = " ++ bs """"%string).
  change (bs "_id"""%string) with (bs "_id"%string ++ bs """"%string). change (str """") with (bs """"%string). rewrite <- !app_assoc. reflexivity.
Qed.
Theorem C62_statement : forall e k v s vs, select e [(k, v)] = Some (s, vs) ->
  vs = [v] /\ exists ct jt, listed (bs ","%string) (map column_text (aliased_columns e)) ct /\ listed (bs " "%string) (map join_text (table_alias_list e)) jt /\
  s = bs "SELECT "%string ++ ct ++ bs " FROM """%string ++ etable e ++ bs """"%string ++ jt ++ bs " WHERE "%string ++ k ++ bs "=?;"%string.
Proof.
  intros e k v s vs. unfold select. destruct (has_many e); [discriminate|]. unfold columns_clause, join_clauses.
  destruct (sum_join (str ",") _) as [ct|] eqn:Ec; [|discriminate]. destruct (sum_join (str " ") _) as [jt|] eqn:Ej; [|discriminate].
  destruct (C51_select_partial (etable e) ct jt k v) as (s' & -> & Es). intros E. injection E as <- <-. split; [reflexivity|]. exists ct, jt. split; [|split].
  - apply sum_join_listed in Ec. rewrite (map_ext _ column_text) in Ec by (intros [a c]; apply qualified_text). exact Ec.
  - apply sum_join_listed in Ej. rewrite (map_ext _ join_text) in Ej by apply join_clause_text. exact Ej.
  - rewrite Es. cbn [conjunction]. unfold quote. change (bs " FROM """%string) with (str " FROM " ++ str """"). change (bs "=?;"%string) with (bs "=?"%string ++ str ";").
    change (bs """"%string) with (str """"). rewrite <- !app_assoc. reflexivity.
Qed.
Print Assumptions C62_statement.

(* an entity of one child and of many others is not selected *)
Example C62_many_ex : let foo := EType (str "foo") [(str "v", TValue)] in
  select (EType (str "bar") [(str "w", TValue); (str "a", TChild foo); (str "b", TMany foo)]) [(str "k", Key 5)] = None.
Proof. reflexivity. Qed.

Example C62_ex : let foo := EType (str "foo") [(str "v", TValue)] in let bar := EType (str "bar") [(str "w", TValue); (str "bar_foo", TChild foo)] in
  let baz := EType (str "baz") [(str "a", TChild bar); (str "x", TValue); (str "b", TChild foo)] in
  map j_alias (table_alias_list baz) = [str "baz.a"; str "baz.b"; str "baz.a.bar_foo"] /\
  aliased_columns baz = [(str "baz", str "x"); (str "baz.a", str "w"); (str "baz.b", str "v"); (str "baz.a.bar_foo", str "v")] /\
  select bar [(primary_key_name bar, Key 5)] = Some (str "SELECT ""bar"".""w"",""bar.bar_foo"".""v"" FROM ""bar"" JOIN ""foo"" AS ""bar.bar_foo"" ON ""bar"".""bar_foo_id"" = ""bar.bar_foo"".""foo_id"" WHERE ""bar"".""bar_id""=?;", [Key 5]) /\
  select foo [(primary_key_name foo, Key 5)] = None.
Proof. vm_compute. repeat split. Qed.

(* the texts of the statements *)
Lemma commas_cons x y r : commas (x :: y :: r) = x ++ [44] ++ commas (y :: r).
Proof. reflexivity. Qed.
Lemma listed_text suf : forall r n, (str """" ++ n) ++ flat_map (fun m => (str """" ++ suf ++ str ",""") ++ m) r ++ (str """" ++ suf) = commas (map (fun n => quoted n ++ suf) (n :: r)).
Proof.
  induction r as [|m r IH]; intros n.
  - cbn [map flat_map app]. unfold commas. cbn [map concat]. rewrite app_nil_r. unfold quoted. rewrite <- !app_assoc. reflexivity.
  - cbn [map flat_map]. rewrite commas_cons. cbn [map] in IH. rewrite <- (IH m). unfold quoted. rewrite <- !app_assoc. reflexivity.
Qed.
Lemma quoted_text n r : (str """" ++ n) ++ flat_map (fun m => str """,""" ++ m) r ++ str """" = commas (map quoted (n :: r)).
Proof.
  pose proof (listed_text [] r n) as K. rewrite app_nil_r in K. replace (map quoted (n :: r)) with (map (fun n => quoted n ++ []) (n :: r)); [exact K|].
  apply map_ext. intros. apply app_nil_r.
Qed.
Lemma marks_text : forall (r : list bytes) k, str "?" ++ flat_map (fun _ : nat => str ",?") (List.seq k (length r)) = commas ([63] :: map (fun _ => [63]) r).
Proof.
  induction r as [|m r IH]; intros k; [reflexivity|]. cbn [length List.seq flat_map map]. rewrite commas_cons, <- (IH (S k)). reflexivity.
Qed.
Theorem C50_insert_text : forall t cols s vs, insert_statement t cols = Some (s, vs) -> s = insert_sql t (map fst cols).
Proof.
  unfold insert_statement, column, insert_sql. intros t cols s vs H. destruct cols as [|c cols]; [discriminate|].
  cbn [map column_name_list length placeholder_list] in H. rewrite quoted_text in H. rewrite <- (map_length fst cols) in H. rewrite (marks_text (map fst cols) 0) in H.
  assert (E : forall A B (a c : A) (b d : B), Some (a, b) = Some (c, d) -> c = a) by (intros ? ? ? ? ? ? [= <- _]; reflexivity). rewrite (E _ _ _ _ _ _ H).
  unfold quoted, str. rewrite <- !app_assoc. reflexivity.
Qed.
Print Assumptions C50_insert_text.
Theorem C50_update_text : forall t cols keys s vs, update_statement t cols keys = Some (s, vs) -> s = update_sql t (map fst cols) (map fst keys) /\ vs = map snd (cols ++ keys).
Proof.
  unfold update_statement, column, update_sql. intros t cols keys s vs H. destruct cols as [|c cols]; [discriminate|]. destruct keys as [|k keys]; [discriminate|].
  cbn [map column_value_list] in H.
  assert (E : forall A B (a c : A) (b d : B), Some (a, b) = Some (c, d) -> c = a /\ d = b) by (intros ? ? ? ? ? ? [= <- <-]; auto).
  destruct (E _ _ _ _ _ _ H) as [-> ->]. split; [|rewrite map_app; reflexivity].
  pose proof (listed_text [61; 63] (map fst cols) (fst c)) as K1. pose proof (listed_text [61; 63] (map fst keys) (fst k)) as K2.
  change (map fst (c :: cols)) with (fst c :: map fst cols). change (map fst (k :: keys)) with (fst k :: map fst keys).
  rewrite <- K1, <- K2. unfold quoted, str. rewrite <- !app_assoc. reflexivity.
Qed.
Print Assumptions C50_update_text.
