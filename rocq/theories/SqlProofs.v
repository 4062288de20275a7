From Coq Require Import String Permutation.
From Verif Require Import Base SqlModel SqlSpec.
Open Scope N_scope.

Section EntityInd.
Variable P : entity -> Prop.
Definition good_member (m : member) : Prop := match m with Value _ => True | Child e => P e | Many es => Forall P es end.
Hypothesis H : forall t ms, Forall (fun nm => good_member (snd nm)) ms -> P (Entity t ms).
Fixpoint entity_ind' (e : entity) : P e :=
  match e with
  | Entity t ms => H t ms
      ((fix go (ms : list (bytes * member)) : Forall (fun nm => good_member (snd nm)) ms :=
          match ms with
          | [] => Forall_nil _
          | nm :: r => Forall_cons nm
              (match snd nm as m return good_member m with
               | Value _ => I
               | Child e => entity_ind' e
               | Many es => (fix all (es : list entity) : Forall P es := match es with [] => Forall_nil P | e :: q => Forall_cons e (entity_ind' e) (all q) end) es
               end) (go r)
          end) ms)
  end.
End EntityInd.

Fixpoint children (ms : list (bytes * member)) : list (bytes * entity) :=
  match ms with [] => [] | (n, Child e) :: r => (n, e) :: children r | _ :: r => children r end.

Lemma child_acts_children ins ms : child_acts ins ms = map (fun ne => (fst ne, ins (snd ne) [])) (children ms).
Proof. induction ms as [|[n [v|e|es]] ms IH]; cbn; congruence. Qed.

Lemma values_spec ms : Values ms (values ms).
Proof. unfold values. induction ms as [|[n [v|e|es]] ms IH]; cbn; constructor; exact IH. Qed.

Lemma Forall2_perm {A B} (Q : A -> B -> Prop) l l' : Permutation l l' -> forall d, Forall2 Q l d -> exists d', Permutation d d' /\ Forall2 Q l' d'.
Proof.
  induction 1 as [|x l l' Hp IH|x y l|l1 l2 l3 H1 IH1 H2 IH2]; intros d F.
  - inversion F; subst. exists []. auto.
  - inversion F; subst. destruct (IH _ H3) as (d' & P1 & P2). exists (y :: d'). auto.
  - inversion F; subst. inversion H3; subst. exists (y1 :: y0 :: l'0). split; [constructor|auto].
  - destruct (IH1 _ F) as (d1 & P1 & F1). destruct (IH2 _ F1) as (d2 & P2 & F2). exists d2. split; [now transitivity d1|exact F2].
Qed.

Lemma Forall2_impl {A B} (Q R : A -> B -> Prop) l d : (forall a b, Q a b -> R a b) -> Forall2 Q l d -> Forall2 R l d.
Proof. intros H. induction 1; constructor; auto. Qed.

Lemma list_sum_perm l l' : Permutation l l' -> list_sum l = list_sum l'.
Proof. unfold list_sum. induction 1; cbn in *; lia. Qed.

Lemma Permutation_flat {A B} (f : A -> list B) l l' : Permutation l l' -> Permutation (flat_map f l) (flat_map f l').
Proof. intros H. now apply Permutation_flat_map. Qed.

Lemma perm_in_range ps a n : Permutation ps (seq a n) -> Forall (fun q => (a <= q < a + n)%nat) ps.
Proof. intros H. apply Forall_forall. intros q Hq. apply (Permutation_in _ H) in Hq. apply in_seq in Hq. lia. Qed.

Section Ins.
Variable db : log -> row -> N.
Variable order : nat -> list nat.
Hypothesis Hord : forall n, Permutation (order n) (seq 0 n).
Notation ins := (insert db order).

Definition ok (e : entity) : Prop := forall fks l, exists new k p ps r,
  ins e fks l = (k, l ++ new) /\ (forall suf, Stored (l ++ new ++ suf) e fks p ps) /\ nth_error (l ++ new) p = Some (r, k) /\
  Permutation ps (seq (length l) (length new)) /\ length new = rows e.

Lemma nth_ext {A} (l : list A) s p x : nth_error l p = Some x -> nth_error (l ++ s) p = Some x.
Proof. intros E. rewrite nth_error_app1; [exact E|]. apply nth_error_Some. congruence. Qed.

(* what is known of the i-th child after its insert *)
Definition childR (cs : list (bytes * entity)) (i : nat) (lg : log) (p : nat) (ps : list nat) (k : N) : Prop :=
  exists n e r, nth_error cs i = Some (n, e) /\ Stored lg e [] p ps /\ nth_error lg p = Some (r, k).

Lemma result_here i k ks : result ((i, k) :: ks) i = k.
Proof. unfold result. cbn. now rewrite Nat.eqb_refl. Qed.
Lemma result_there i j k ks : i <> j -> result ((i, k) :: ks) j = result ks j.
Proof. intros H. unfold result. cbn. destruct (Nat.eqb_spec i j); [contradiction|reflexivity]. Qed.

Definition child_rows (cs : list (bytes * entity)) (i : nat) : nat := match nth_error cs i with Some ne => rows (snd ne) | None => 0 end.

Lemma evaluate_ok cs : Forall (fun ne => ok (snd ne)) cs -> forall is, NoDup is -> Forall (fun i => (i < length cs)%nat) is -> forall l, exists ks new data,
  evaluate is (map (fun ne => ins (snd ne) []) cs) l = (ks, l ++ new) /\
  Forall2 (fun i d => forall suf, childR cs i (l ++ new ++ suf) (fst d) (snd d) (result ks i)) is data /\
  Permutation (flat_map snd data) (seq (length l) (length new)) /\ length new = list_sum (map (child_rows cs) is).
Proof.
  intros HC. induction is as [|i is IH]; intros ND HL l.
  - exists [], [], []. rewrite app_nil_r. repeat split; constructor.
  - inversion ND as [|? ? NI ND']; subst. inversion HL as [|? ? Hi HL']; subst. cbn [evaluate].
    destruct (nth_error cs i) as [[n e]|] eqn:En; [|apply nth_error_None in En; lia].
    rewrite (map_nth_error _ _ _ En). cbn [snd]. rewrite Forall_forall in HC.
    destruct (HC _ (nth_error_In _ _ En) [] l) as (new & k & p & ps & r & E & ST & Nk & PM & LN). cbn [snd] in *. rewrite E.
    destruct (IH ND' HL' (l ++ new)) as (ks & new2 & data & E2 & F2 & PM2 & L2). rewrite E2.
    exists ((i, k) :: ks), (new ++ new2), ((p, ps) :: data). rewrite <- app_assoc. split; [reflexivity|]. split; [|split].
    + constructor.
      * intros suf. exists n, e, r. cbn [fst snd]. rewrite result_here. rewrite <- app_assoc. split; [exact En|]. split; [apply ST|].
        rewrite app_assoc. now apply nth_ext.
      * rewrite app_length in PM2. clear - F2 NI. revert F2 NI. generalize data. induction is as [|j is IHi]; intros d F NI; inversion F; subst; constructor.
        -- intros suf. rewrite result_there by (intros ->; apply NI; now left). specialize (H1 suf). rewrite <- !app_assoc in *. exact H1.
        -- apply IHi; [assumption|]. intros X. apply NI. now right.
    + cbn [flat_map snd]. rewrite app_length, seq_app. rewrite app_length in PM2. now apply Permutation_app.
    + rewrite app_length, L2, LN. cbn. unfold child_rows at 2. now rewrite En.
Qed.

(* all children, in order of declaration *)
Lemma children_stored : forall ms cs0 lg p data ks, (forall d, In d data -> Forall (fun q => (q < p)%nat) (snd d)) ->
  Forall2 (fun i d => childR (cs0 ++ children ms) i lg (fst d) (snd d) (result ks i)) (seq (length cs0) (length (children ms))) data ->
  ChildrenStored lg p ms (map (fun ni => (key_name (fst ni), Key (result ks (snd ni)))) (number (length cs0) (map fst (children ms)))) (flat_map snd data).
Proof.
  induction ms as [|[n [v|e|es]] ms IH]; intros cs0 lg p data ks Hlt F; cbn [children] in *.
  - cbn in F. inversion F; subst. constructor.
  - constructor. auto.
  - cbn [length seq map number] in *. inversion F as [|i d is data' HR F']; subst. destruct HR as (n' & e' & r & En & ST & Nk).
    rewrite nth_error_app2, Nat.sub_diag in En by lia. cbn in En. injection En as <- <-. cbn [flat_map map fst snd].
    eapply CS_child; [exact ST|apply Hlt; now left|exact Nk|].
    specialize (IH (cs0 ++ [(n, e)]) lg p data' ks). rewrite app_length in IH. cbn [length] in IH. rewrite Nat.add_1_r in IH. apply IH.
    + intros d' Hd'. apply Hlt. now right.
    + rewrite <- app_assoc. exact F'.
  - constructor. auto.
Qed.

Definition each_rows := fix all (es : list entity) : nat := match es with [] => 0%nat | e :: q => (rows e + all q)%nat end.
Lemma insert_each_ok es : Forall ok es -> forall fks l p, (p < length l)%nat -> exists new ps,
  insert_each ins fks es l = l ++ new /\ (forall suf, EachStored (l ++ new ++ suf) p fks es ps) /\ Permutation ps (seq (length l) (length new)) /\ length new = each_rows es.
Proof.
  induction 1 as [|e es He Hes IH]; intros fks l p Hp.
  - exists [], []. rewrite app_nil_r. repeat split; constructor.
  - destruct (He fks l) as (new & k & q & qs & r & E & ST & Nk & PM & LN). cbn [insert_each]. rewrite E. cbn [snd].
    destruct (IH fks (l ++ new) p) as (new2 & ps & E2 & ST2 & PM2 & L2); [rewrite app_length; lia|]. fold (insert_each ins fks). rewrite E2.
    exists (new ++ new2), (qs ++ ps). rewrite <- app_assoc. split; [reflexivity|]. split; [|split].
    + intros suf. rewrite <- app_assoc. apply ES_cons with q; [apply ST| |].
      * eapply Forall_impl; [|apply (perm_in_range _ _ _ PM)]. cbn. lia.
      * specialize (ST2 suf). rewrite <- !app_assoc in ST2. exact ST2.
    + rewrite app_length, seq_app. rewrite app_length in PM2. now apply Permutation_app.
    + cbn. rewrite app_length, L2, LN. reflexivity.
Qed.

Definition many_rows := fix go (ms : list (bytes * member)) : nat :=
  match ms with [] => 0%nat | (_, Many es) :: r => (each_rows es + go r)%nat | _ :: r => go r end.
Lemma insert_many_ok ms : Forall (fun nm => good_member ok (snd nm)) ms -> forall fks l p, (p < length l)%nat -> exists new ps,
  insert_many ins fks ms l = l ++ new /\ (forall suf, ManyStored (l ++ new ++ suf) p fks ms ps) /\ Permutation ps (seq (length l) (length new)) /\ length new = many_rows ms.
Proof.
  induction 1 as [|[n m] ms Hm Hms IH]; intros fks l p Hp.
  - exists [], []. rewrite app_nil_r. repeat split; constructor.
  - destruct m as [v|e|es]; cbn [insert_many]; fold (insert_many ins fks).
    + destruct (IH fks l p Hp) as (new & ps & E & ST & PM & LN). exists new, ps. repeat split; auto. intros suf. constructor. apply ST.
    + destruct (IH fks l p Hp) as (new & ps & E & ST & PM & LN). exists new, ps. repeat split; auto. intros suf. constructor. apply ST.
    + destruct (insert_each_ok es Hm fks l p Hp) as (new & ps & E & ST & PM & LN). rewrite E.
      destruct (IH fks (l ++ new) p) as (new2 & ps2 & E2 & ST2 & PM2 & L2); [rewrite app_length; lia|]. rewrite E2.
      exists (new ++ new2), (ps ++ ps2). rewrite <- app_assoc. split; [reflexivity|]. split; [|split].
      * intros suf. specialize (ST2 suf). rewrite <- !app_assoc in *. constructor; [apply ST|exact ST2].
      * rewrite app_length, seq_app. rewrite app_length in PM2. now apply Permutation_app.
      * cbn. rewrite app_length, L2, LN. reflexivity.
Qed.

Lemma rows_split t ms : rows (Entity t ms) = S (list_sum (map (fun ne => rows (snd ne)) (children ms)) + many_rows ms).
Proof. cbn [rows]. f_equal. induction ms as [|[n [v|e|es]] ms IH].
  - reflexivity.
  - exact IH.
  - cbn [children map list_sum fold_right snd many_rows]. rewrite IH. unfold list_sum. lia.
  - cbn [children many_rows]. rewrite IH. fold each_rows. lia.
Qed.

Lemma seq_child_rows cs : map (child_rows cs) (seq 0 (length cs)) = map (fun ne => rows (snd ne)) cs.
Proof.
  assert (G : forall cs0 cs, map (child_rows (cs0 ++ cs)) (seq (length cs0) (length cs)) = map (fun ne => rows (snd ne)) cs).
  { intros cs0 cs'. revert cs0. induction cs' as [|c cs' IH]; intros cs0; cbn; [reflexivity|]. f_equal.
    - unfold child_rows. now rewrite nth_error_app2, Nat.sub_diag by lia.
    - specialize (IH (cs0 ++ [c])). rewrite <- app_assoc, app_length in IH. cbn in IH. now rewrite Nat.add_1_r in IH. }
  exact (G [] cs).
Qed.

Lemma children_ok ms : Forall (fun nm => good_member ok (snd nm)) ms -> Forall (fun ne => ok (snd ne)) (children ms).
Proof. induction 1 as [|[n [v|e|es]] ms Hm Hms IH]; cbn; auto. Qed.

Lemma insert_ok e : ok e.
Proof.
  induction e as [t ms Hms] using entity_ind'. intros fks l. cbn [insert]. rewrite child_acts_children, map_length.
  rewrite map_map. cbn [snd]. rewrite (map_map _ fst). cbn [fst].
  set (cs := children ms). pose proof (children_ok ms Hms) as HC. fold cs in HC.
  assert (ND : NoDup (order (length cs))) by (eapply Permutation_NoDup; [symmetry; apply Hord|apply seq_NoDup]).
  assert (HL : Forall (fun i => (i < length cs)%nat) (order (length cs))).
  { apply Forall_forall. intros i Hi. apply (Permutation_in _ (Hord _)) in Hi. apply in_seq in Hi. lia. }
  destruct (evaluate_ok cs HC (order (length cs)) ND HL l) as (ks & new & data & E & F & PM & LN).
  match goal with |- context [evaluate ?a ?b ?c] => replace (evaluate a b c) with (ks, l ++ new) by (symmetry; exact E) end.
  unfold call. set (l1 := l ++ new). set (rw := (t, _)). set (k := db l1 rw).
  destruct (insert_many_ok ms Hms [(key_name t, Key k)] (l1 ++ [(rw, k)]) (length l1)) as (new2 & ps2 & E2 & ST2 & PM2 & L2); [rewrite app_length; cbn; lia|].
  destruct (Forall2_perm _ _ _ (Hord (length cs)) _ F) as (data' & PD & F').
  exists (new ++ (rw, k) :: new2), k, (length l1), (flat_map snd data' ++ length l1 :: ps2), rw.
  assert (A : forall suf, l ++ (new ++ (rw, k) :: new2) ++ suf = l1 ++ (rw, k) :: new2 ++ suf) by (intros suf; unfold l1; rewrite <- !app_assoc; reflexivity).
  pose proof (Permutation_trans (Permutation_sym (Permutation_flat snd _ _ PD)) PM) as PM'.
  split; [|split; [|split; [|split]]].
  - change (l1 ++ [(rw, db l1 rw)]) with (l1 ++ [(rw, k)]). cbv beta iota zeta. f_equal. etransitivity; [exact E2|]. unfold l1. rewrite <- !app_assoc. reflexivity.
  - intros suf. rewrite A. econstructor.
    + pose proof (children_stored ms [] (l1 ++ (rw, k) :: new2 ++ suf) (length l1) data' ks) as CS. cbn [app length] in CS. apply CS.
      * intros d Hd. apply Forall_forall. intros q Hq. pose proof (perm_in_range _ _ _ PM') as R. rewrite Forall_forall in R.
        assert (In q (flat_map snd data')) as Hin by (apply in_flat_map; eauto). specialize (R q Hin). unfold l1. rewrite app_length. lia.
      * eapply Forall2_impl; [|exact F']. intros i d Hd. specialize (Hd ((rw, k) :: new2 ++ suf)). unfold l1. rewrite <- app_assoc. exact Hd.
    + apply values_spec.
    + rewrite nth_error_app2, Nat.sub_diag by lia. reflexivity.
    + specialize (ST2 suf). rewrite <- app_assoc in ST2. exact ST2.
  - unfold l1. rewrite app_assoc, nth_error_app2, Nat.sub_diag by lia. reflexivity.
  - rewrite app_length, seq_app. apply Permutation_app; [exact PM'|]. cbn [length seq]. unfold l1. rewrite app_length. constructor.
    unfold l1 in PM2. rewrite !app_length in PM2. cbn [length] in PM2. rewrite Nat.add_1_r in PM2. exact PM2.
  - rewrite rows_split. rewrite app_length. cbn [length]. rewrite L2, LN.
    assert (list_sum (map (child_rows cs) (order (length cs))) = list_sum (map (fun ne => rows (snd ne)) cs)) as ->; [|fold cs; lia].
    rewrite <- seq_child_rows. apply list_sum_perm. apply Permutation_map. apply Hord.
Qed.
End Ins.
