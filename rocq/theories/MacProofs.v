(* Proofs about macros. *)
From Coq Require Import Permutation.
From Verif Require Import Base MacModel MacSpec.
Open Scope nat_scope.

(* ---- counting ---- *)
Lemma rseq_at i : i < 64 -> nth_error rseq i = Some (Num (63 - i)).
Proof. intros H. do 64 (destruct i as [|i]; [reflexivity|]). lia. Qed.
Lemma narg_count args : length args <= 63 -> narg args = Some (Num (length args)).
Proof.
  intros H. unfold narg. rewrite nth_error_app2 by lia. rewrite rseq_at by lia. do 2 f_equal. lia.
Qed.
Lemma narg_many args : 64 <= length args -> narg args = nth_error args 63.
Proof. intros H. unfold narg. apply nth_error_app1. lia. Qed.

(* ---- entities ---- *)
Lemma member_list_inv : forall n ms l, member_list n ms = Some l -> ms = map Id l /\ n = S (length l) /\ 1 <= length l.
Proof.
  induction n as [|n IH]; intros ms l H; [destruct ms; discriminate|]. destruct n as [|[|k]]; [destruct ms; discriminate| |].
  - destruct ms as [|[m| |] [|? ?]]; try discriminate. injection H as <-. cbn. auto.
  - destruct ms as [|[m| |] r]; try discriminate. cbn [member_list] in H. destruct (member_list (S (S k)) r) as [l'|] eqn:E; [|discriminate]. injection H as <-.
    apply IH in E as (-> & E & L). cbn. repeat split; lia.
Qed.
Lemma member_list_all : forall l, 1 <= length l -> member_list (S (length l)) (map Id l) = Some l.
Proof.
  induction l as [|m [|m' r] IH]; intros H; [cbn in H; lia|reflexivity|].
  change (option_map (cons m) (member_list (S (length (m' :: r))) (map Id (m' :: r))) = Some (m :: m' :: r)). rewrite IH by (cbn; lia). reflexivity.
Qed.
Lemma members_iff c args ms : members (Id c :: args) = Some ms <-> args = map Id ms /\ 1 <= length ms <= 62.
Proof.
  unfold members, vfunc. split.
  - intros H. destruct (narg (Id c :: args)) as [[x|n|]|] eqn:N; try discriminate. apply member_list_inv in H as (-> & -> & L). split; [reflexivity|].
    split; [exact L|]. destruct (Nat.le_gt_cases (length ms) 62) as [|G]; [assumption|]. rewrite narg_many in N by (cbn [length]; rewrite map_length; lia).
    change (nth_error (map Id ms) 62 = Some (Num (S (length ms)))) in N. rewrite nth_error_map in N. destruct (nth_error ms 62); discriminate.
  - intros (-> & L). rewrite narg_count by (cbn [length]; rewrite map_length; lia). cbn [length]. rewrite map_length. apply member_list_all. lia.
Qed.

Lemma entity_iff c args e : nbdl_entity c args = Some e <-> exists ms, declares c args ms /\ e = {| record := c; declared := ms |}.
Proof.
  unfold nbdl_entity, declares. split.
  - intros H. destruct (members _) as [ms|] eqn:M; [|discriminate]. apply members_iff in M as (A & L).
    destruct (forallb _ ms) eqn:F; [|discriminate]. injection H as <-. exists ms. split; [|reflexivity]. split; [|split; [exact L|]].
    + destruct args; [destruct ms; [cbn in L; lia|discriminate]|exact A].
    + apply Forall_forall. intros m Hm. rewrite forallb_forall in F. specialize (F m Hm). destruct (owner c m); congruence.
  - intros (ms & (-> & L & F) & ->). replace (match map Id ms with [] => [Blank] | _ => map Id ms end) with (map Id ms) by (destruct ms; [cbn in L; lia|reflexivity]).
    rewrite (proj2 (members_iff (cname c) (map Id ms) ms)) by auto. replace (forallb _ ms) with true; [reflexivity|]. symmetry. apply forallb_forall. intros m Hm.
    rewrite Forall_forall in F. specialize (F m Hm). destruct (owner c m); congruence.
Qed.

Lemma no_dup_iff {A} (eqb : A -> A -> bool) (Hq : forall a b, eqb a b = true <-> a = b) l : no_dup eqb l = true <-> NoDup l.
Proof.
  induction l as [|x l IH]; cbn [no_dup]; [split; [constructor|auto]|]. rewrite andb_true_iff, IH, negb_true_iff. split.
  - intros (A1 & A2). constructor; [|exact A2]. intros X. assert (existsb (eqb x) l = true) by (apply existsb_exists; exists x; split; [exact X|now apply Hq]). congruence.
  - intros X. inversion X as [|? ? N D e]; subst. split; [|exact D]. destruct (existsb (eqb x) l) eqn:E; [|reflexivity]. apply existsb_exists in E as (y & Hy & Q). apply Hq in Q. subst. contradiction.
Qed.
Lemma pair_eqb_iff a b : pair_eqb a b = true <-> a = b.
Proof.
  destruct a as [[x|] m], b as [[y|] n]; unfold pair_eqb; cbn [fst snd]; rewrite andb_true_iff, ?N.eqb_eq; split; intros H; try (destruct H; congruence); try (injection H; intros; subst; auto); try discriminate. 
Qed.

Lemma declare_iff : forall l es, declare l = Some es <-> Forall2 (fun p e => exists ms, declares (fst p) (snd p) ms /\ e = {| record := fst p; declared := ms |}) l es.
Proof.
  induction l as [|[c args] l IH]; intros es; cbn [declare].
  - split; [intros H; injection H as <-; constructor|intros H; inversion H; reflexivity].
  - split.
    + intros H. destruct (nbdl_entity c args) as [e|] eqn:E; [|discriminate]. destruct (declare l) as [es'|]; [|discriminate]. injection H as <-. constructor; [now apply entity_iff|now apply IH].
    + intros H. inversion H as [|? e ? es' A B]; subst. apply entity_iff in A. cbn [fst snd] in A. rewrite A. apply IH in B. now rewrite B.
Qed.

Lemma get_iff {V} (e : entity) (o : object V) name v : get_member e o name = Some v <-> In name (declared e) /\ v = o name.
Proof.
  unfold get_member. induction (declared e) as [|m ms IH]; cbn [map find fst snd]; [split; [discriminate|intros [[] _]]|].
  destruct (N.eqb_spec m name) as [->|D].
  - split; [intros H; injection H as <-; cbn; auto|intros (_ & ->); reflexivity].
  - rewrite IH. cbn. tauto.
Qed.

Lemma assign_other {V} : forall ms (vs : list V) o m, ~ In m ms -> assign_to o ms vs m = o m.
Proof.
  induction ms as [|x ms IH]; intros [|v vs] o m H; try reflexivity. cbn [assign_to]. rewrite IH by (intros X; apply H; now right). unfold set.
  destruct (N.eqb_spec m x) as [->|]; [|reflexivity]. exfalso. apply H. now left.
Qed.
Lemma assign_changed {V} : forall ms (vs : list V) o, NoDup ms -> changed o (assign_to o ms vs) ms vs.
Proof.
  intros ms vs o D. split; [|intros m; apply assign_other]. revert vs o. induction D as [|x ms N D IH]; intros vs o i m v Hm Hv; [destruct i; discriminate|].
  destruct vs as [|w vs]; [destruct i; discriminate|]. cbn [assign_to]. destruct i as [|i]; cbn [nth_error] in Hm, Hv.
  - injection Hm as ->. injection Hv as ->. rewrite assign_other by exact N. unfold set. now rewrite N.eqb_refl.
  - eapply IH; eauto.
Qed.

(* ---- metastructs ---- *)
Lemma key_list_inv : forall n len names l, key_list len n names = Some l -> exists xs, names = map Id xs /\ length xs = n /\ 1 <= n /\ l = combine xs (map (fun i => len - (n - i)) (seq 0 n)).
Proof.
  induction n as [|n IH]; intros len names l H; [discriminate|]. cbn [key_list] in H. destruct n as [|k].
  - destruct names as [|[x| |] [|? ?]]; try discriminate; injection H as <-; exists [x]; cbn; auto.
  - destruct names as [|[x| |] r]; try discriminate. destruct (key_list len (S k) r) as [l'|] eqn:E; [|discriminate]. injection H as <-.
    apply IH in E as (xs & -> & L & _ & ->). exists (x :: xs). split; [reflexivity|]. split; [cbn; lia|]. split; [lia|].
    cbn [seq map combine]. f_equal. rewrite <- (seq_shift k 1), map_map. reflexivity.
Qed.
Lemma key_list_all : forall xs len, 1 <= length xs -> key_list len (length xs) (map Id xs) = Some (combine xs (map (fun i => len - (length xs - i)) (seq 0 (length xs)))).
Proof.
  induction xs as [|x [|y r] IH]; intros len H; [cbn in H; lia|reflexivity|].
  specialize (IH len ltac:(cbn; lia)). remember (y :: r) as t. cbn [length map key_list]. destruct (length t) as [|k] eqn:LT; [subst; discriminate|]. rewrite IH.
  cbn [option_map]. f_equal. cbn [seq map combine]. f_equal. rewrite <- (seq_shift k 1), map_map. reflexivity.
Qed.
Lemma spec_list_inv : forall n names l, spec_list n names = Some l -> names = map Id l /\ length l = n /\ 1 <= n.
Proof.
  induction n as [|n IH]; intros names l H; [discriminate|]. cbn [spec_list] in H. destruct n as [|k].
  - destruct names as [|[x| |] [|? ?]]; try discriminate; injection H as <-; cbn; auto.
  - destruct names as [|[x| |] r]; try discriminate. destruct (spec_list (S k) r) as [l'|] eqn:E; [|discriminate]. injection H as <-. apply IH in E as (-> & L & _). cbn. repeat split; lia.
Qed.
Lemma spec_list_all : forall xs, 1 <= length xs -> spec_list (length xs) (map Id xs) = Some xs.
Proof.
  induction xs as [|x [|y r] IH]; intros H; [cbn in H; lia|reflexivity|]. specialize (IH ltac:(cbn; lia)). remember (y :: r) as t. cbn [length map spec_list]. destruct (length t) as [|k] eqn:LT; [subst; discriminate|]. now rewrite IH.
Qed.

Lemma find_key : forall xs s i x, NoDup xs -> nth_error xs i = Some x -> find (fun p => N.eqb (fst p) x) (combine xs (seq s (length xs))) = Some (x, s + i).
Proof.
  induction xs as [|y xs IH]; intros s i x D H; [destruct i; discriminate|]. inversion D as [|? ? N D' e]; subst. cbn [length seq combine find fst].
  destruct i as [|i]; cbn [nth_error] in H.
  - injection H as ->. rewrite N.eqb_refl, Nat.add_0_r. reflexivity.
  - destruct (N.eqb_spec y x) as [->|_]; [exfalso; apply N; eapply nth_error_In; eauto|]. rewrite (IH (S s) i x D' H). f_equal. f_equal. lia.
Qed.
Lemma all_some_map {A B} (f : A -> option B) l r : all_some (map f l) = Some r <-> Forall2 (fun x y => f x = Some y) l r.
Proof.
  revert r. induction l as [|x l IH]; intros r; cbn [map all_some].
  - split; [intros H; injection H as <-; constructor|intros H; inversion H; reflexivity].
  - destruct (f x) as [y|] eqn:F; [|split; [discriminate|intros H; inversion H; congruence]]. destruct (all_some (map f l)) as [r'|] eqn:E; cbn [option_map].
    + split; [intros H; injection H as <-; constructor; [exact F|now apply IH]|intros H; inversion H as [|? y' ? r'' A1 A2]; subst; apply IH in A2; congruence].
    + split; [discriminate|intros H; inversion H as [|? y' ? r'' A1 A2]; subst; apply IH in A2; discriminate].
Qed.
Lemma map_fst_combine {A B} (xs : list A) (ys : list B) : length xs = length ys -> map fst (combine xs ys) = xs.
Proof. revert ys. induction xs as [|x xs IH]; intros [|y ys] H; try discriminate; cbn; [reflexivity|]. f_equal. apply IH. now injection H. Qed.
Lemma spec_found xs : NoDup xs -> all_some (map (fun x => option_map snd (find (fun p => N.eqb (fst p) x) (combine xs (seq 0 (length xs))))) xs) = Some (seq 0 (length xs)).
Proof.
  intros D. apply all_some_map. assert (G : forall i x, nth_error xs i = Some x -> option_map snd (find (fun p => N.eqb (fst p) x) (combine xs (seq 0 (length xs)))) = Some i).
  { intros i x H. rewrite (find_key xs 0 i x D H). reflexivity. }
  remember (combine xs (seq 0 (length xs))) as ks. clear Heqks D.
  assert (K : forall s, (forall i x, nth_error xs i = Some x -> option_map snd (find (fun p => N.eqb (fst p) x) ks) = Some (s + i)) -> Forall2 (fun x y => option_map snd (find (fun p => N.eqb (fst p) x) ks) = Some y) xs (seq s (length xs))).
  { clear G. induction xs as [|x xs IH]; intros s G; cbn [length seq]; constructor; [specialize (G 0 x eq_refl); now rewrite Nat.add_0_r in G|].
    apply IH. intros i y H. specialize (G (S i) y H). now replace (S s + i) with (s + S i) by lia. }
  now apply K.
Qed.

Lemma metastruct_iff names m : mpdef_metastruct names = Some m <->
  exists xs, names = map Id xs /\ 1 <= length xs <= 63 /\ NoDup xs /\ m = {| keys := combine xs (seq 0 (length xs)); spec := seq 0 (length xs) |}.
Proof.
  unfold mpdef_metastruct, vfunc. split.
  - intros H. destruct (narg names) as [[x|n|]|] eqn:Na; try discriminate.
    destruct (key_list n n names) as [ks|] eqn:K; [|discriminate]. destruct (spec_list n names) as [ns|] eqn:S; [|discriminate].
    apply key_list_inv in K as (xs & E & L & L1 & K). apply spec_list_inv in S as (E' & L' & _). rewrite E in E'.
    assert (EX : xs = ns) by (clear - E'; revert ns E'; induction xs as [|x xs IH]; intros [|y ys] H; try discriminate; [reflexivity|]; cbn in H; injection H as -> H; f_equal; auto). subst ns.
    assert (LN : length xs <= 63). { destruct (Nat.le_gt_cases (length xs) 63) as [|G]; [assumption|]. subst names. rewrite narg_many in Na by (rewrite map_length; lia). rewrite nth_error_map in Na. destruct (nth_error xs 63); discriminate. }
    assert (KE : ks = combine xs (seq 0 (length xs))). { rewrite K. f_equal. rewrite <- L. erewrite map_ext_in; [apply map_id|]. intros i Hi. apply in_seq in Hi. lia. }
    rewrite KE, map_fst_combine in H by now rewrite seq_length. destruct (no_dup N.eqb xs) eqn:D; [|discriminate]. apply (no_dup_iff N.eqb N.eqb_eq) in D.
    rewrite (spec_found xs D) in H. injection H as <-. exists xs. split; [exact E|]. split; [lia|]. auto.
  - intros (xs & -> & L & D & ->). rewrite narg_count by (rewrite map_length; lia). rewrite map_length. rewrite key_list_all, spec_list_all by lia.
    replace (map (fun i => length xs - (length xs - i)) (seq 0 (length xs))) with (seq 0 (length xs)) by (symmetry; erewrite map_ext_in; [apply map_id|]; intros i Hi; apply in_seq in Hi; lia).
    rewrite map_fst_combine by now rewrite seq_length. rewrite (proj2 (no_dup_iff N.eqb N.eqb_eq xs) D), (spec_found xs D). reflexivity.
Qed.

Lemma at_key_in {V} (ps : list (nat * V)) k v : at_key ps k = Some v -> In (k, v) ps.
Proof.
  unfold at_key. intros H. destruct (filter (fun p => Nat.eqb (fst p) k) ps) as [|[k' v'] [|? ?]] eqn:F; try discriminate. injection H as <-.
  assert (X : In (k', v') (filter (fun p => Nat.eqb (fst p) k) ps)) by (rewrite F; now left). apply filter_In in X as [X Q]. cbn [fst] in Q. apply Nat.eqb_eq in Q. now subst.
Qed.
Lemma at_key_nodup {V} (ps : list (nat * V)) k v : NoDup (map fst ps) -> In (k, v) ps -> at_key ps k = Some v.
Proof.
  unfold at_key. induction ps as [|[k' v'] ps IH]; intros D H; [destruct H|]. cbn [map fst] in D. inversion D as [|? ? N D' e]; subst. cbn [filter fst]. destruct H as [H|H].
  - injection H as -> ->. rewrite Nat.eqb_refl. replace (filter (fun p => Nat.eqb (fst p) k) ps) with (@nil (nat * V)); [reflexivity|]. symmetry.
    clear - N. induction ps as [|[a b] ps IH]; [reflexivity|]. cbn [filter fst map] in *. destruct (Nat.eqb_spec a k) as [->|]; [exfalso; apply N; now left|]. apply IH. intros X. apply N. now right.
  - destruct (Nat.eqb_spec k' k) as [->|]; [exfalso; apply N; apply in_map_iff; exists (k, v); auto|]. now apply IH.
Qed.
Lemma combine_in {V} : forall (vs : list V) s k v, In (k, v) (combine (seq s (length vs)) vs) -> s <= k /\ nth_error vs (k - s) = Some v.
Proof.
  induction vs as [|w vs IH]; intros s k v H; [destruct H|]. cbn [length seq combine] in H. destruct H as [H|H]; [injection H as -> ->; rewrite Nat.sub_diag; auto|].
  apply IH in H as [A B]. split; [lia|]. replace (k - s) with (S (k - S s)) by lia. exact B.
Qed.
Lemma in_combine_seq {V} : forall (vs : list V) s i v, nth_error vs i = Some v -> In (s + i, v) (combine (seq s (length vs)) vs).
Proof.
  induction vs as [|w vs IH]; intros s i v H; [destruct i; discriminate|]. cbn [length seq combine]. destruct i as [|i]; cbn in H; [injection H as ->; left; f_equal; lia|]. right. replace (s + S i) with (S s + i) by lia. now apply IH.
Qed.
Lemma Forall2_nth {A B} (R : A -> B -> Prop) l r : Forall2 R l r -> forall i x, nth_error l i = Some x -> exists y, nth_error r i = Some y /\ R x y.
Proof. induction 1 as [|x y l r H F IH]; intros [|i] z Hz; cbn in *; try discriminate; [injection Hz as <-; eauto|auto]. Qed.
Lemma Forall2_len {A B} (R : A -> B -> Prop) l r : Forall2 R l r -> length l = length r.
Proof. induction 1; cbn; congruence. Qed.

Lemma with_map_iff {V} (ps : list (nat * V)) n vs :
  (if Nat.eqb (length ps) (length (seq 0 n)) then all_some (map (at_key ps) (seq 0 n)) else None) = Some vs <-> length vs = n /\ Permutation ps (combine (seq 0 n) vs).
Proof.
  rewrite seq_length. split.
  - intros H. destruct (Nat.eqb_spec (length ps) n) as [L|]; [|discriminate]. apply all_some_map in H. pose proof (Forall2_len _ _ _ H) as LV. rewrite seq_length in LV. split; [auto|]. apply Permutation_sym. subst n.
    assert (I : incl (combine (seq 0 (length ps)) vs) ps).
    { intros [k v] X. rewrite LV in X. apply combine_in in X as [_ X]. rewrite Nat.sub_0_r in X.
      destruct (Forall2_nth _ _ _ H k k) as (w & W1 & W2). { rewrite LV. apply nth_error_split in X as (l1 & l2 & -> & <-). rewrite app_length. cbn [length]. rewrite seq_app, nth_error_app2; rewrite seq_length; [rewrite Nat.sub_diag; reflexivity|lia]. }
      apply at_key_in. congruence. }
    apply NoDup_Permutation_bis; [| |exact I].
    + rewrite LV. clear. generalize 0 as s. induction vs as [|v vs IH]; intros s; cbn [length seq combine]; constructor; [|apply IH]. intros X. apply combine_in in X as [X _]. lia.
    + rewrite combine_length, seq_length, <- LV. lia.
  - intros (L & P). assert (LP : length ps = n) by (rewrite (Permutation_length P), combine_length, seq_length, L; lia). rewrite LP, Nat.eqb_refl. apply all_some_map.
    assert (D : NoDup (map fst ps)). { eapply Permutation_NoDup; [apply Permutation_map, Permutation_sym, P|]. rewrite map_fst_combine by (now rewrite seq_length). apply seq_NoDup. }
    assert (G : forall i v, nth_error vs i = Some v -> at_key ps i = Some v).
    { intros i v H. apply at_key_nodup; [exact D|]. eapply Permutation_in; [apply Permutation_sym, P|]. rewrite <- L. now apply (in_combine_seq vs 0). }
    rewrite <- L. clear - G. assert (K : forall s, (forall i v, nth_error vs i = Some v -> at_key ps (s + i) = Some v) -> Forall2 (fun x y => at_key ps x = Some y) (seq s (length vs)) vs).
    { clear G. induction vs as [|v vs IH]; intros s G; cbn [length seq]; constructor; [specialize (G 0 v eq_refl); now rewrite Nat.add_0_r in G|]. apply IH. intros i w H. specialize (G (S i) w H). now replace (S s + i) with (s + S i) by lia. }
    now apply K.
Qed.

(* ---- collectors ---- *)
Lemma compose_at_spec {T X} (x : X) (state : list T) : forall (cs : list (T -> X -> T)) i, i + length cs <= length state ->
  compose_at i cs state x = Some (map (fun p => fst p (snd p) x) (combine cs (skipn i state))).
Proof.
  induction cs as [|c cs IH]; intros i H; [reflexivity|]. cbn [compose_at length] in *. destruct (nth_error state i) as [s|] eqn:Ns; [|apply nth_error_None in Ns; lia].
  rewrite IH by lia. f_equal. assert (E : skipn i state = s :: skipn (S i) state).
  { clear - Ns. revert i Ns. induction state as [|t state IH]; intros i Ns; [destruct i; discriminate|]. destruct i as [|i]; [cbn in Ns; injection Ns as ->; reflexivity|]. cbn [skipn]. now apply IH. }
  rewrite E. reflexivity.
Qed.
Lemma compose_at_none {T X} (x : X) (state : list T) : forall (cs : list (T -> X -> T)) i, length state < i + length cs -> cs <> [] -> compose_at i cs state x = None.
Proof.
  induction cs as [|c cs IH]; intros i H Hn; [congruence|]. cbn [compose_at length] in *. destruct (nth_error state i) as [s|] eqn:Ns; [|reflexivity].
  destruct cs as [|d cs]; [|rewrite IH; [reflexivity|cbn [length] in *; lia|discriminate]]. assert (i < length state) by (apply nth_error_Some; congruence). cbn [length] in H. lia.
Qed.
Lemma fold_compose {T X} (cs : list (T -> X -> T)) : forall xs state, length cs <= length state -> xs <> [] ->
  fold (compose_collectors cs) xs state = Some (map (fun p => fold_left (fst p) xs (snd p)) (combine cs state)).
Proof.
  induction xs as [|x xs IH]; intros state L Hn; [congruence|]. cbn [fold]. unfold compose_collectors at 1. rewrite compose_at_spec by (cbn; lia). cbn [skipn].
  destruct xs as [|y xs].
  - cbn [fold fold_left]. reflexivity.
  - rewrite IH; [|rewrite map_length, combine_length; lia|discriminate]. f_equal. clear. revert state. induction cs as [|c cs IH]; intros [|s state]; try reflexivity. cbn [combine map fst snd fold_left]. f_equal. apply IH.
Qed.
Lemma fold_append_if {X} (p : X -> bool) : forall xs s, fold_left (append_if p) xs s = s ++ filter p xs.
Proof. induction xs as [|x xs IH]; intros s; cbn [fold_left filter]; [now rewrite app_nil_r|]. rewrite IH. unfold append_if. destruct (p x); [|reflexivity]. now rewrite <- app_assoc. Qed.
