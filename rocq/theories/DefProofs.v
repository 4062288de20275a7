(* Proofs about definition trees. *)
From Coq Require Import List NArith Bool Lia.
From Verif Require Import Base DefModel DefSpec.
Import ListNotations.
Open Scope N_scope.

(* ------------------------------------------------------------------ lists and addresses *)

Lemma node_ind : forall P : ty -> Prop,
  (forall t, Forall P (children t) -> P t) -> forall t, P t.
Proof.
  intros P H.
  assert (F : forall t, P t /\ Forall P (members t)).
  { fix F 1. intro t. destruct t as [n|l|k s|l|l].
    - split; [apply H; constructor|constructor].
    - split; [apply H; constructor|constructor].
    - split; [|constructor]. apply H. destruct (F s) as [_ F2].
      destruct s; cbn in *; try constructor; exact F2.
    - split; [apply H; constructor|]. cbn. induction l as [|x l IH]; constructor; [apply F|exact IH].
    - split; [apply H; constructor|]. cbn. induction l as [|x l IH]; constructor; [apply F|exact IH]. }
  intro t; apply F.
Qed.

(* the addresses below the children from position i on *)
Fixpoint shift (i : nat) (ll : list (list (list nat))) : list (list nat) :=
  match ll with [] => [] | l :: r => map (cons i) l ++ shift (S i) r end.

Lemma in_shift : forall ll i a,
  In a (shift i ll) <-> exists j r l, a = (i + j)%nat :: r /\ nth_error ll j = Some l /\ In r l.
Proof.
  induction ll as [|l ll IH]; intros i a; cbn.
  - split; [tauto|]. intros (j & r & l & _ & E & _). destruct j; discriminate.
  - rewrite in_app_iff, in_map_iff, IH. split.
    + intros [(r & <- & I)|(j & r & l' & -> & E & I)].
      * exists 0%nat, r, l. rewrite Nat.add_0_r. auto.
      * exists (S j), r, l'. rewrite Nat.add_succ_r. auto.
    + intros (j & r & l' & -> & E & I). destruct j as [|j]; cbn in E.
      * left. exists r. rewrite Nat.add_0_r. split; [reflexivity|]. congruence.
      * right. exists j, r, l'. rewrite Nat.add_succ_r. auto.
Qed.

Lemma in_order_app : forall l m,
  in_order l -> in_order m -> (forall a b, In a l -> In b m -> before a b) -> in_order (l ++ m).
Proof.
  induction l as [|x l IH]; intros m Hl Hm H; cbn; [exact Hm|].
  destruct Hl as [F Hl]. split.
  - apply Forall_app. split; [exact F|]. apply Forall_forall. intros b Hb. apply H; [left; reflexivity|exact Hb].
  - apply IH; auto. intros a b Ha Hb. apply H; [right; exact Ha|exact Hb].
Qed.

Lemma in_order_cons : forall i l, in_order l -> in_order (map (cons i) l).
Proof.
  induction l as [|x l IH]; cbn; [tauto|]. intros [F H]. split; [|auto].
  apply Forall_map. eapply Forall_impl; [|exact F]. intros b Hb. constructor; exact Hb.
Qed.

Lemma in_order_shift : forall ll i, Forall in_order ll -> in_order (shift i ll).
Proof.
  induction ll as [|l ll IH]; intros i H; cbn; [exact I|]. inversion H; subst.
  apply in_order_app; [apply in_order_cons; assumption|apply IH; assumption|].
  intros a b Ha Hb. apply in_map_iff in Ha as (r & <- & _).
  apply in_shift in Hb as (j & r' & l' & -> & _ & _). constructor. lia.
Qed.

Lemma in_order_nil_cons : forall ll, in_order (shift 0 ll) -> in_order ([] :: shift 0 ll).
Proof.
  intros ll H. split; [|exact H]. apply Forall_forall. intros a Ha.
  apply in_shift in Ha as (j & r & l & -> & _ & _). constructor.
Qed.

(* choosing one witness for each element *)
Lemma choose : forall (A B : Type) (Q : A -> B -> Prop) l,
  Forall (fun x => exists y, Q x y) l -> exists ll, Forall2 Q l ll.
Proof.
  induction 1 as [|x l (y & Hy) _ (ll & Hll)]; [exists []; constructor|].
  exists (y :: ll); constructor; assumption.
Qed.

Lemma Forall2_nth_left : forall (A B : Type) (R : A -> B -> Prop) l m i x,
  Forall2 R l m -> nth_error l i = Some x -> exists y, nth_error m i = Some y /\ R x y.
Proof.
  intros A B R l m i x H. revert i. induction H as [|a b l m Hab _ IH]; intros i E.
  - destruct i; discriminate.
  - destruct i as [|i]; cbn in *; [exists b; split; congruence|apply IH; exact E].
Qed.

Lemma Forall2_nth_right : forall (A B : Type) (R : A -> B -> Prop) l m i y,
  Forall2 R l m -> nth_error m i = Some y -> exists x, nth_error l i = Some x /\ R x y.
Proof.
  intros A B R l m i y H. revert i. induction H as [|a b l m Hab _ IH]; intros i E.
  - destruct i; discriminate.
  - destruct i as [|i]; cbn in *; [exists a; split; congruence|apply IH; exact E].
Qed.

Lemma Forall2_right : forall (A B : Type) (R : A -> B -> Prop) (Q : B -> Prop) l m,
  (forall a b, R a b -> Q b) -> Forall2 R l m -> Forall Q m.
Proof. intros A B R Q l m H; induction 1; constructor; eauto. Qed.

Lemma Forall2_imp : forall (A B : Type) (Q R : A -> B -> Prop) l m,
  (forall a b, Q a b -> R a b) -> Forall2 Q l m -> Forall2 R l m.
Proof. intros A B Q R l m H; induction 1; constructor; auto. Qed.

(* collecting results of children with their addresses *)
Lemma shift_results : forall (X : Type) (R : nat -> list nat -> X -> Prop) (f : ty -> list X) l ll i,
  Forall2 (fun c l' => True) l ll ->
  (forall j c l', nth_error l j = Some c -> nth_error ll j = Some l' -> Forall2 (R (i + j)%nat) l' (f c)) ->
  Forall2 (fun a x => match a with j :: r => R j r x | [] => False end) (shift i ll) (flat_map f l).
Proof.
  induction l as [|c l IH]; intros ll i Hl H; inversion Hl; subst; cbn; [constructor|].
  apply Forall2_app.
  - specialize (H 0%nat c y eq_refl eq_refl). rewrite Nat.add_0_r in H.
    clear -H. induction H; cbn; constructor; assumption.
  - apply IH; [assumption|]. intros j c' l0 E1 E2. specialize (H (S j) c' l0 E1 E2).
    rewrite Nat.add_succ_r in H. exact H.
Qed.

Lemma strictly_above_cons : forall i p a, strictly_above (i :: p) (i :: a) <-> strictly_above p a.
Proof.
  intros. split; intros (q & Hq & E); exists q; (split; [exact Hq|]).
  - cbn in E. injection E as E. exact E.
  - cbn. congruence.
Qed.

Lemma above_cons : forall i p a, above (i :: p) (i :: a) <-> above p a.
Proof.
  intros. split; intros (q & E); exists q.
  - cbn in E. injection E as E. exact E.
  - cbn. congruence.
Qed.

(* ------------------------------------------------------------------ C52: the search *)

Definition found {S} (summarize : S -> ty -> S) (t : ty) (s0 : S) (a : list nat) (r : ty * S) : Prop :=
  node_at t a = Some (fst r) /\ snd r = fold_left summarize (chain t a) s0.

Lemma outermost_cons : forall pred t i r,
  outermost pred t (i :: r) <->
  pred t = false /\ exists c, nth_error (children t) i = Some c /\ outermost pred c r.
Proof.
  intros. split.
  - intros [(n & Hn & Pn) H]. split.
    + apply (H [] t); [exists (i :: r); split; [discriminate|reflexivity]|reflexivity].
    + cbn in Hn. destruct (nth_error (children t) i) as [c|] eqn:E; [|discriminate].
      exists c. split; [reflexivity|]. split; [exists n; auto|].
      intros p m Hp Hm. apply (H (i :: p) m); [apply strictly_above_cons; exact Hp|]. cbn. rewrite E. exact Hm.
  - intros (Pt & c & E & (n & Hn & Pn) & H). split.
    + exists n. cbn. rewrite E. auto.
    + intros p m Hp Hm. destruct p as [|j p].
      * cbn in Hm. congruence.
      * assert (j = i) as -> by (destruct Hp as (q & _ & Eq); cbn in Eq; congruence).
        cbn in Hm. rewrite E in Hm. eapply H; [exact (proj1 (strictly_above_cons i p r) Hp)|exact Hm].
Qed.

Lemma outermost_nil : forall pred t, outermost pred t [] <-> pred t = true.
Proof.
  intros. split.
  - intros [(n & Hn & Pn) _]. cbn in Hn. congruence.
  - intro P. split; [exists t; auto|]. intros p n (q & Hq & E) _.
    destruct p; [destruct q; [congruence|discriminate]|discriminate].
Qed.

Lemma find_in_tree_eq : forall S pred (summarize : S -> ty -> S) t s,
  find_in_tree pred summarize t s =
  if pred t then [(t, summarize s t)]
  else flat_map (fun c => find_in_tree pred summarize c (summarize s t)) (children t).
Proof. intros. destruct t as [n|l|k v|l|l]; try reflexivity. destruct v; reflexivity. Qed.

Lemma search : forall S pred (summarize : S -> ty -> S) t s0,
  exists addrs,
    in_order addrs /\ (forall a, In a addrs <-> outermost pred t a) /\
    Forall2 (found summarize t s0) addrs (find_in_tree pred summarize t s0).
Proof.
  intros S pred summarize t. induction t as [t IH] using node_ind. intros s0.
  rewrite find_in_tree_eq. destruct (pred t) eqn:P.
  - exists [[]]. split; [cbn; auto|]. split.
    + intros [|i r].
      * rewrite outermost_nil. cbn. tauto.
      * rewrite outermost_cons. cbn. split; [intros [H|[]]; discriminate|intros [H _]; congruence].
    + constructor; [|constructor]. split; reflexivity.
  - destruct (choose _ _ (fun c addrs =>
      in_order addrs /\ (forall a, In a addrs <-> outermost pred c a) /\
      Forall2 (found summarize c (summarize s0 t)) addrs (find_in_tree pred summarize c (summarize s0 t)))
      (children t)) as [ll Hll].
    { eapply Forall_impl; [|exact IH]. cbn. intros c Hc. apply Hc. }
    exists (shift 0 ll). split; [|split].
    + apply in_order_shift. eapply Forall2_right; [|exact Hll]. cbn. tauto.
    + intro a. rewrite in_shift. destruct a as [|i r].
      * rewrite outermost_nil. split; [intros (j & r & l & E & _); discriminate|congruence].
      * rewrite outermost_cons. split.
        -- intros (j & r' & l & E & Hn & Hr). injection E as -> ->. split; [exact P|].
           destruct (Forall2_nth_right _ _ _ _ _ _ _ Hll Hn) as (c & Hc & _ & Hiff & _).
           exists c. split; [exact Hc|]. apply Hiff; exact Hr.
        -- intros (_ & c & Hc & Ho).
           destruct (Forall2_nth_left _ _ _ _ _ _ _ Hll Hc) as (l & Hl & _ & Hiff & _).
           exists i, r, l. split; [reflexivity|]. split; [exact Hl|]. apply Hiff; exact Ho.
    + eapply Forall2_imp; [|apply shift_results with
        (R := fun i r x => exists c, nth_error (children t) i = Some c /\ found summarize c (summarize s0 t) r x)
        (ll := ll)].
      * intros [|j r] x H; [contradiction|]. destruct H as (c & Hc & H1 & H2).
        split; cbn; rewrite Hc; assumption.
      * eapply Forall2_imp; [|exact Hll]. trivial.
      * intros j c l' Hc Hl. destruct (Forall2_nth_left _ _ _ _ _ _ _ Hll Hc) as (l & E & _ & _ & F).
        rewrite Hl in E. injection E as <-. eapply Forall2_imp; [|exact F].
        intros a b Hab. exists c. split; [exact Hc|exact Hab].
Qed.

(* ------------------------------------------------------------------ C52: the settings *)

Lemma key_is_spec : forall k t, key_is k t = true <-> exists s, t = Pair k s.
Proof.
  intros k t. destruct t as [n|l|k' s|l|l]; cbn; split; intro H;
    try discriminate; try (destruct H as [? ?]; discriminate).
  - apply N.eqb_eq in H as ->. exists s; reflexivity.
  - destruct H as [s' H]. injection H as -> ->. apply N.eqb_refl.
Qed.

(* in a map without repeated keys find_key finds exactly the member *)
Definition distinct (l : list ty) : Prop :=
  forall i j k s s', nth_error l i = Some (Pair k s) -> nth_error l j = Some (Pair k s') -> i = j.

Lemma distinct_tail : forall x l, distinct (x :: l) -> distinct l.
Proof.
  intros x l H i j k s s' A B. assert (S i = S j) by (eapply H; cbn; eassumption). congruence.
Qed.

Lemma find_key_spec : forall l k s, distinct l -> (find_key k l = Some s <-> In (Pair k s) l).
Proof.
  intros l k s D. unfold find_key.
  assert (F : forall m, distinct m ->
    (forall s', In (Pair k s') m -> filter (key_is k) m = [Pair k s']) /\
    ((forall s', ~ In (Pair k s') m) -> filter (key_is k) m = [])).
  { clear. induction m as [|x m IH]; intro D; [split; [intros s' []|reflexivity]|].
    destruct (IH (distinct_tail _ _ D)) as [IH1 IH2]. cbn.
    destruct (key_is k x) eqn:E.
    - apply key_is_spec in E as [sx ->].
      assert (No : forall s', ~ In (Pair k s') m).
      { intros s' I. apply In_nth_error in I as [j Hj].
        assert (0%nat = S j) by (eapply D; cbn; [reflexivity|exact Hj]). discriminate. }
      split.
      + intros s' [I|I]; [injection I as ->; rewrite (IH2 No); reflexivity|destruct (No _ I)].
      + intro H. exfalso. apply (H sx). left; reflexivity.
    - split.
      + intros s' [->|I]; [cbn in E; rewrite N.eqb_refl in E; discriminate|apply IH1; exact I].
      + intro H. apply IH2. intros s' I. apply (H s'). right; exact I. }
  destruct (F l D) as [F1 F2]. split.
  - intro H. destruct (filter (key_is k) l) as [|x r] eqn:E; [discriminate|].
    destruct x; try discriminate. destruct r; [|discriminate]. injection H as ->.
    assert (I : In (Pair k0 s) (filter (key_is k) l)) by (rewrite E; left; reflexivity).
    apply filter_In in I as [I K]. cbn in K. apply N.eqb_eq in K as ->. exact I.
  - intro I. rewrite (F1 _ I). reflexivity.
Qed.

Lemma find_key_none : forall l k, distinct l -> (find_key k l = None <-> forall s, ~ In (Pair k s) l).
Proof.
  intros l k D. split.
  - intros E s I. apply (find_key_spec l k s D) in I. congruence.
  - intro H. destruct (find_key k l) as [s|] eqn:E; [|reflexivity].
    apply find_key_spec in E; [|exact D]. destruct (H _ E).
Qed.

Definition good_node (t : ty) : Prop := forall tag l, t = Pair tag (Map l) -> distinct l.

Lemma proper_good : forall t, proper t -> good_node t.
Proof. intros t H tag l ->. inversion H; subst. inversion H1; subst. exact H3. Qed.

Lemma proper_children : forall t, proper t -> Forall proper (children t).
Proof.
  intros t H. destruct t as [n|l|k s|l|l]; try constructor. inversion H; subst.
  destruct s; cbn; try constructor; inversion H1; subst; assumption.
Qed.

Lemma proper_chain : forall a t, proper t -> Forall good_node (chain t a).
Proof.
  induction a as [|i a IH]; intros t H; cbn.
  - constructor; [apply proper_good; exact H|constructor].
  - constructor; [apply proper_good; exact H|].
    destruct (nth_error (children t) i) as [c|] eqn:E; [|constructor].
    apply IH. apply proper_children in H. rewrite Forall_forall in H. apply H.
    apply nth_error_In in E; exact E.
Qed.

Lemma collect_fst : forall st t, map fst (collect_settings st t) = map fst st.
Proof.
  intros st t. destruct t as [n|l|k s|l|l]; try reflexivity. destruct s; try reflexivity.
  cbn. rewrite map_map. apply map_ext. reflexivity.
Qed.

Lemma get_setting_spec : forall st k v, NoDup (map fst st) -> In (k, v) st -> get_setting st k = v.
Proof.
  intros st k v D I. unfold get_setting.
  assert (F : filter (fun e => fst e =? k) st = [(k, v)]).
  { clear - D I. induction st as [|[k' v'] st IH]; [destruct I|]. cbn in *. inversion D; subst.
    destruct (N.eqb_spec k' k) as [->|Ne].
    - destruct I as [I|I].
      + injection I as ->. f_equal.
        clear - H1. induction st as [|[k' v'] st IH]; [reflexivity|]. cbn in *.
        destruct (N.eqb_spec k' k) as [->|]; [tauto|apply IH; tauto].
      + destruct H1. apply in_map_iff. exists (k, v); auto.
    - destruct I as [I|I]; [congruence|auto]. }
  rewrite F. reflexivity.
Qed.

Lemma collect_get : forall st t k, NoDup (map fst st) -> In k (map fst st) ->
  get_setting (collect_settings st t) k =
  match t with
  | Pair _ (Map l) => match find_key k l with Some v => Some v | None => get_setting st k end
  | _ => get_setting st k
  end.
Proof.
  intros st t k D I. destruct t as [n|l|c s|l|l]; try reflexivity. destruct s; try reflexivity.
  apply get_setting_spec; [rewrite collect_fst; exact D|].
  apply in_map_iff in I as ([k' v] & E & I). cbn in E. subst k'. cbn.
  apply in_map_iff. exists (k, v). split; [reflexivity|exact I].
Qed.

(* the last definition in a list of nodes *)
Definition last_defined (l : list ty) (k : N) (v : ty) : Prop :=
  exists i n, nth_error l i = Some n /\ defines n k v /\
    forall j n' v', (i < j)%nat -> nth_error l j = Some n' -> ~ defines n' k v'.

Lemma collect_last : forall l st k, Forall good_node l ->
  NoDup (map fst st) -> In k (map fst st) -> (forall v, get_setting st k <> Some v) ->
  forall v, get_setting (fold_left collect_settings l st) k = Some v <-> last_defined l k v.
Proof.
  intros l st k G D I N0. revert G. induction l as [|t l IH] using rev_ind; intros G v.
  - cbn. split; [intro H; destruct (N0 _ H)|]. intros (i & n & E & _). destruct i; discriminate.
  - apply Forall_app in G as [G Gt]. inversion Gt as [|? ? Gn _]; subst.
    rewrite fold_left_app. cbn [fold_left].
    assert (F : map fst (fold_left collect_settings l st) = map fst st).
    { clear. revert st. induction l as [|x l IH]; intro st; [reflexivity|]. cbn. rewrite IH. apply collect_fst. }
    rewrite collect_get; [|rewrite F; exact D|rewrite F; exact I].
    specialize (IH G).
    assert (Last : nth_error (l ++ [t]) (length l) = Some t).
    { rewrite nth_error_app2 by apply Nat.le_refl. rewrite Nat.sub_diag. reflexivity. }
    assert (Out : forall j n, (length l < j)%nat -> nth_error (l ++ [t]) j = Some n -> False).
    { intros j n Hj E. assert (j < length (l ++ [t]))%nat by (apply nth_error_Some; congruence).
      rewrite app_length in H. cbn in H. lia. }
    (* the two cases: the last node defines k or it does not *)
    assert (Def : forall w, defines t k w ->
      (match t with
       | Pair _ (Map m) => match find_key k m with Some v => Some v | None => get_setting (fold_left collect_settings l st) k end
       | _ => get_setting (fold_left collect_settings l st) k end) = Some w).
    { intros w (tag & m & -> & Im). apply (find_key_spec m k w (Gn _ _ eq_refl)) in Im. rewrite Im. reflexivity. }
    assert (Undef : (forall w, ~ defines t k w) ->
      (match t with
       | Pair _ (Map m) => match find_key k m with Some v => Some v | None => get_setting (fold_left collect_settings l st) k end
       | _ => get_setting (fold_left collect_settings l st) k end) = get_setting (fold_left collect_settings l st) k).
    { intro U. destruct t as [n|l'|tag s|l'|l']; try reflexivity. destruct s as [n|l'|k' s'|m|m]; try reflexivity.
      destruct (find_key k m) as [w|] eqn:E; [|reflexivity].
      exfalso. apply (U w). exists tag, m. split; [reflexivity|].
      apply find_key_spec in E; [exact E|apply (Gn _ _ eq_refl)]. }
    assert (Dec : (exists w, defines t k w) \/ forall w, ~ defines t k w).
    { destruct t as [n|l'|tag s|l'|l']; try (right; intros w (tg & m & E & _); discriminate).
      destruct s as [n|l'|k' s'|m|m]; try (right; intros w (tg & m' & E & _); discriminate).
      destruct (find_key k m) as [w|] eqn:E.
      - left. exists w, tag, m. split; [reflexivity|]. apply find_key_spec in E; [exact E|apply (Gn _ _ eq_refl)].
      - right. intros w (tg & m' & Em & Im). injection Em as <- <-.
        apply (proj1 (find_key_none m k (Gn _ _ eq_refl)) E w Im). }
    destruct Dec as [(w & Hw)|U].
    + rewrite (Def w Hw). split.
      * intro E. injection E as <-. exists (length l), t. split; [exact Last|]. split; [exact Hw|].
        intros j n' v' Hj E. destruct (Out _ _ Hj E).
      * intros (i & n & E & Hd & Later). f_equal.
        destruct (Nat.eq_dec i (length l)) as [->|Ne].
        -- rewrite Last in E. injection E as <-.
           pose proof (Def _ Hd) as A. rewrite (Def _ Hw) in A. congruence.
        -- exfalso. apply (Later (length l) t w); [|exact Last|exact Hw].
           assert (i < length (l ++ [t]))%nat by (apply nth_error_Some; congruence).
           rewrite app_length in H. cbn in H. lia.
    + rewrite (Undef U), IH. split.
      * intros (i & n & E & Hd & Later).
        assert (Hi : (i < length l)%nat) by (apply nth_error_Some; congruence).
        exists i, n. split; [rewrite nth_error_app1; assumption|]. split; [exact Hd|].
        intros j n' v' Hj E'. destruct (Nat.eq_dec j (length l)) as [->|Ne].
        -- rewrite Last in E'. injection E' as <-. apply U.
        -- assert (j < length l)%nat.
           { assert (j < length (l ++ [t]))%nat by (apply nth_error_Some; congruence).
             rewrite app_length in H. cbn in H. lia. }
           rewrite nth_error_app1 in E' by assumption. eapply Later; eassumption.
      * intros (i & n & E & Hd & Later).
        destruct (Nat.eq_dec i (length l)) as [->|Ne].
        -- rewrite Last in E. injection E as <-. destruct (U _ Hd).
        -- assert (i < length l)%nat.
           { assert (i < length (l ++ [t]))%nat by (apply nth_error_Some; congruence).
             rewrite app_length in H. cbn in H. lia. }
           rewrite nth_error_app1 in E by assumption. exists i, n. split; [exact E|]. split; [exact Hd|].
           intros j n' v' Hj E'. eapply Later; [exact Hj|].
           rewrite nth_error_app1; [exact E'|apply nth_error_Some; congruence].
Qed.

(* the nodes of the chain are those at the prefixes of the address *)
Lemma chain_nth : forall a t n i, node_at t a = Some n ->
  nth_error (chain t a) i = if (i <=? length a)%nat then node_at t (firstn i a) else None.
Proof.
  induction a as [|x a IH]; intros t n i H.
  - cbn. destruct i as [|i]; [reflexivity|]. destruct i; reflexivity.
  - cbn in H |- *. destruct (nth_error (children t) x) as [c|] eqn:E; [|discriminate].
    destruct i as [|i]; [reflexivity|]. cbn. rewrite E. rewrite (IH c n i H). reflexivity.
Qed.

Lemma last_in_force : forall t a n k v, node_at t a = Some n ->
  last_defined (chain t a) k v <-> in_force t a k v.
Proof.
  intros t a n k v H. split.
  - intros (i & m & E & Hd & Later). rewrite (chain_nth _ _ _ _ H) in E.
    destruct (Nat.leb_spec i (length a)) as [Hi|]; [|discriminate].
    exists (firstn i a), m. split; [exists (skipn i a); symmetry; apply firstn_skipn|].
    split; [exact E|]. split; [exact Hd|].
    intros p' n' v' (q & Eq) (q' & Hq' & Eq') Hn'.
    assert (Lp : length p' = (i + length q')%nat).
    { rewrite Eq', app_length, firstn_length. lia. }
    assert (p' = firstn (length p') a) as Ep.
    { rewrite Eq, firstn_app, Nat.sub_diag, firstn_all. cbn. rewrite app_nil_r. reflexivity. }
    apply (Later (length p') n' v').
    + destruct q'; [congruence|]. cbn in Lp. lia.
    + rewrite (chain_nth _ _ _ _ H).
      assert (length p' <= length a)%nat by (rewrite Eq, app_length; lia).
      destruct (Nat.leb_spec (length p') (length a)); [|lia]. rewrite <- Ep. exact Hn'.
  - intros (p & m & (q & Eq) & Hm & Hd & Later).
    assert (p = firstn (length p) a) as Ep.
    { rewrite Eq, firstn_app, Nat.sub_diag, firstn_all. cbn. rewrite app_nil_r. reflexivity. }
    assert (Lp : (length p <= length a)%nat) by (rewrite Eq, app_length; lia).
    exists (length p), m. split.
    + rewrite (chain_nth _ _ _ _ H). destruct (Nat.leb_spec (length p) (length a)); [|lia].
      rewrite <- Ep. exact Hm.
    + split; [exact Hd|]. intros j n' v' Hj E. rewrite (chain_nth _ _ _ _ H) in E.
      destruct (Nat.leb_spec j (length a)) as [Hl|]; [|discriminate].
      apply (Later (firstn j a) n' v').
      * exists (skipn j a). symmetry; apply firstn_skipn.
      * exists (firstn (j - length p) q). split.
        -- intro Z. assert (length (firstn (j - length p) q) = 0%nat) by (rewrite Z; reflexivity).
           rewrite firstn_length in H0. assert (length q = length a - length p)%nat by (rewrite Eq, app_length; lia). lia.
        -- rewrite Eq, firstn_app. rewrite firstn_all2 by lia. reflexivity.
      * exact E.
Qed.

Lemma fold_collect_fst : forall l st, map fst (fold_left collect_settings l st) = map fst st.
Proof. induction l as [|x l IH]; intro st; [reflexivity|]. cbn. rewrite IH. apply collect_fst. Qed.

Lemma settings_in_force : forall tags t a n k v,
  proper t -> NoDup tags -> node_at t a = Some n -> In k tags ->
  get_setting (fold_left collect_settings (chain t a) (with_settings tags)) k = Some v <-> in_force t a k v.
Proof.
  intros tags t a n k v P D H I.
  assert (F : map fst (with_settings tags) = tags).
  { unfold with_settings. rewrite map_map. cbn. apply map_id. }
  rewrite collect_last.
  - apply last_in_force with n; exact H.
  - apply proper_chain; exact P.
  - rewrite F; exact D.
  - rewrite F; exact I.
  - intros w E. rewrite (get_setting_spec _ k None) in E; [discriminate|rewrite F; exact D|].
    unfold with_settings. apply in_map_iff. exists k; auto.
Qed.

(* ------------------------------------------------------------------ C53: grouping *)

Definition values_of {A} (k : list N) (l : list (list N * list A)) : list A :=
  flat_map (fun p => if bytes_eqb (fst p) k then snd p else []) l.

Lemma bytes_eqb_iff : forall a b, bytes_eqb a b = true <-> a = b.
Proof. intros. destruct (bytes_eqb_spec a b); split; congruence. Qed.

Lemma add_keys : forall m p k, In k (map fst (add_to_map m p)) <-> k = fst p \/ In k (map fst m).
Proof.
  induction m as [|[k' v] m IH]; intros p k; cbn.
  - split; [intros [<-|[]]; auto|intros [->|[]]; auto].
  - destruct (bytes_eqb_spec k' (fst p)) as [->|Ne]; cbn.
    + intuition congruence.
    + rewrite IH. tauto.
Qed.

Lemma add_nodup : forall m p, NoDup (map fst m) -> NoDup (map fst (add_to_map m p)).
Proof.
  induction m as [|[k' v] m IH]; intros p H; cbn.
  - constructor; [intros []|constructor].
  - inversion H; subst. destruct (bytes_eqb_spec k' (fst p)) as [->|Ne]; cbn.
    + constructor; assumption.
    + constructor; [|apply IH; assumption]. rewrite add_keys. intros [E|I]; [congruence|contradiction].
Qed.

Lemma add_values : forall (m : groups) p k, NoDup (map fst m) ->
  flat_map (fun e => if bytes_eqb (fst e) k then List.concat (snd e) else []) (add_to_map m p) =
  flat_map (fun e => if bytes_eqb (fst e) k then List.concat (snd e) else []) m ++
  if bytes_eqb (fst p) k then snd p else [].
Proof.
  induction m as [|[k' v] m IH]; intros [kp vp] k H; cbn.
  - rewrite app_nil_r. destruct (bytes_eqb kp k); cbn; rewrite ?app_nil_r; reflexivity.
  - inversion H; subst. cbn in IH |- *. destruct (bytes_eqb_spec k' kp) as [->|Ne]; cbn.
    + rewrite concat_app. cbn. rewrite app_nil_r.
      destruct (bytes_eqb_spec kp k) as [->|Nk].
      * assert (Z : flat_map (fun e : list N * list (list (list N)) =>
                  if bytes_eqb (fst e) k then List.concat (snd e) else []) m = []).
        { clear - H2. induction m as [|[k' v'] m IH]; [reflexivity|]. cbn in *.
          destruct (bytes_eqb_spec k' k) as [->|]; [tauto|apply IH; tauto]. }
        rewrite Z, !app_nil_r. reflexivity.
      * rewrite app_nil_r. reflexivity.
    + rewrite (IH (kp, vp) k H3). cbn. rewrite app_assoc. reflexivity.
Qed.

Lemma fold_groups : forall l m, NoDup (map fst m) ->
  NoDup (map fst (fold_left add_to_map l m)) /\
  (forall k, In k (map fst (fold_left add_to_map l m)) <-> In k (map fst m) \/ In k (map fst l)) /\
  (forall k, flat_map (fun e => if bytes_eqb (fst e) k then List.concat (snd e) else []) (fold_left add_to_map l m) =
     flat_map (fun e => if bytes_eqb (fst e) k then List.concat (snd e) else []) m ++ values_of k l).
Proof.
  induction l as [|p l IH]; intros m H.
  - cbn. split; [exact H|]. split; [tauto|]. intro k. rewrite app_nil_r. reflexivity.
  - cbn [fold_left]. destruct (IH (add_to_map m p) (add_nodup m p H)) as (A & B & C).
    split; [exact A|]. split.
    + intro k. rewrite B, add_keys. cbn. intuition congruence.
    + intro k. rewrite C, add_values by exact H. unfold values_of. cbn. rewrite app_assoc. reflexivity.
Qed.

Lemma find_group_flat : forall (m : list (list N * list (list N))) k, NoDup (map fst m) ->
  find_group m k = flat_map (fun e => if bytes_eqb (fst e) k then snd e else []) m.
Proof.
  intros m k H. unfold find_group.
  assert (Z : forall m' : list (list N * list (list N)), ~ In k (map fst m') ->
    filter (fun e => bytes_eqb (fst e) k) m' = [] /\
    flat_map (fun e => if bytes_eqb (fst e) k then snd e else []) m' = []).
  { induction m' as [|[k' v] m' IH]; [auto|]. cbn. intro N0.
    destruct (bytes_eqb_spec k' k) as [->|]; [tauto|]. apply IH; tauto. }
  induction m as [|[k' v] m IH]; [reflexivity|]. inversion H; subst. cbn.
  destruct (bytes_eqb_spec k' k) as [->|Ne].
  - destruct (Z m) as [-> ->]; [assumption|]. rewrite app_nil_r. reflexivity.
  - apply IH; assumption.
Qed.

Lemma group_by_facts : forall l,
  NoDup (map fst (group_by l)) /\
  (forall k, In k (map fst (group_by l)) <-> In k (map fst l)) /\
  (forall k, find_group (group_by l) k = values_of k l).
Proof.
  intro l. destruct (fold_groups l [] (NoDup_nil _)) as (A & B & C).
  assert (F : map fst (group_by l) = map fst (fold_left add_to_map l [])).
  { unfold group_by. rewrite map_map. apply map_ext. reflexivity. }
  split; [rewrite F; exact A|]. split.
  - intro k. rewrite F, B. cbn. tauto.
  - intro k. rewrite find_group_flat by (rewrite F; exact A).
    unfold group_by. rewrite flat_map_concat_map, map_map, <- flat_map_concat_map. cbn.
    specialize (C k). cbn in C. exact C.
Qed.

Lemma values_of_listeners : forall aps p,
  values_of p (flat_map listener_pairs aps) =
  flat_map (fun a => repeat (ap_path a) (count_occ (list_eq_dec N.eq_dec) (ap_listen a) p)) aps.
Proof.
  induction aps as [|a aps IH]; intro p; [reflexivity|].
  cbn [flat_map]. unfold values_of in *. rewrite flat_map_app, IH. f_equal.
  unfold listener_pairs. clear. induction (ap_listen a) as [|q l IH]; [reflexivity|].
  cbn. destruct (list_eq_dec N.eq_dec q p) as [->|Ne].
  - rewrite bytes_eqb_refl. cbn. f_equal. exact IH.
  - destruct (bytes_eqb_spec q p); [congruence|]. cbn. exact IH.
Qed.

(* ------------------------------------------------------------------ C59: access points *)

Lemma all_some : forall (A B : Type) (f : A -> option (list B)) l r, all f l = Some r ->
  r = flat_map (fun x => match f x with Some y => y | None => [] end) l /\
  Forall (fun x => exists y, f x = Some y) l.
Proof.
  intros A B f. induction l as [|x l IH]; intros r H; cbn in H.
  - injection H as <-. split; [reflexivity|constructor].
  - fold (all f l) in H. destruct (f x) as [a|] eqn:E; [|discriminate].
    destruct (all f l) as [b|]; [|discriminate]. injection H as <-.
    destruct (IH b eq_refl) as [-> F]. cbn. rewrite E. split; [reflexivity|].
    constructor; [exists a; exact E|exact F].
Qed.

Lemma for_key_some : forall B k (f : ty -> option (list B)) l, contains k l = true ->
  exists i c, nth_error l i = Some c /\ key_is k c = true /\ for_key k f l = f c.
Proof.
  intros B k f l H.
  assert (E : exists c, In c l /\ key_is k c = true).
  { unfold contains, find_key in H. destruct (filter (key_is k) l) as [|c r] eqn:E; [discriminate|].
    exists c. apply filter_In. rewrite E. left; reflexivity. }
  clear H. induction l as [|x l IH]; [destruct E as (c & [] & _)|]. cbn. fold (for_key k f l).
  destruct (key_is k x) eqn:K.
  - exists 0%nat, x. auto.
  - destruct IH as (i & c & A & B0 & C).
    + destruct E as (c & [->|I] & Kc); [congruence|exists c; auto].
    + exists (S i), c. auto.
Qed.

Lemma reached_nil R : forall t, reached R t [] <-> is_point t = true.
Proof.
  intro t. split.
  - intros [(n & E & P) _]. cbn in E. congruence.
  - intro P. split; [exists t; auto|]. intros p i n c (q & E). destruct p; discriminate.
Qed.

Lemma reached_cons R : forall t i r,
  reached R t (i :: r) <-> exists c, nth_error (children t) i = Some c /\ R t c /\ reached R c r.
Proof.
  intros t i r. split.
  - intros [(n & E & P) H]. cbn in E. destruct (nth_error (children t) i) as [c|] eqn:Ec; [|discriminate].
    exists c. split; [reflexivity|]. split.
    + apply (H [] i t c); [exists r; reflexivity|reflexivity|]. cbn. rewrite Ec. reflexivity.
    + split; [exists n; auto|]. intros p j m d Ab Em Ed.
      apply (H (i :: p) j m d); [cbn; apply above_cons; exact Ab| |]; cbn; rewrite Ec; assumption.
  - intros (c & Ec & D & (n & E & P) & H). split; [exists n; cbn; rewrite Ec; auto|].
    intros p j m d Ab Em Ed. destruct p as [|i' p].
    + assert (j = i) as -> by (destruct Ab as (q & Eq); cbn in Eq; congruence).
      cbn in Em, Ed. rewrite Ec in Ed. congruence.
    + assert (i' = i) as -> by (destruct Ab as (q & Eq); cbn in Eq; congruence).
      cbn in Em, Ed. rewrite Ec in Em, Ed. apply (H p j m d); auto.
      cbn in Ab. exact (proj1 (above_cons i (p ++ [j]) r) Ab).
Qed.

Lemma one_way_child : forall t i c, one_way t -> nth_error (children t) i = Some c -> one_way c.
Proof.
  intros t i c H E a n Hn. apply (H (i :: a) n). cbn. rewrite E. exact Hn.
Qed.

Lemma proper_child : forall t i c, proper t -> nth_error (children t) i = Some c -> proper c.
Proof.
  intros t i c H E. apply proper_children in H. rewrite Forall_forall in H.
  apply H. apply nth_error_In in E; exact E.
Qed.

Definition active_point (R : ty -> ty -> Prop) (t : ty) (a : list nat) : Prop :=
  reached R t a /\ exists n, node_at t a = Some n /\ active n.

Lemma active_point_cons R : forall t i r,
  active_point R t (i :: r) <->
  exists c, nth_error (children t) i = Some c /\ R t c /\ active_point R c r.
Proof.
  intros. unfold active_point. rewrite reached_cons. cbn. split.
  - intros [(c & E & D & H) (n & En & An)]. rewrite E in En. exists c. repeat split; auto.
    + apply H.
    + apply H.
    + exists n; auto.
  - intros (c & E & D & H & n & En & An). rewrite E. split; [exists c; auto|exists n; auto].
Qed.

Lemma says_find : forall l k d, distinct l -> says (Pair tAccessPoint (Map l)) k d (value_or (find_key k l) d).
Proof.
  intros l k d D. destruct (find_key k l) as [s|] eqn:E; cbn.
  - left. exists tAccessPoint, l. split; [reflexivity|]. apply find_key_spec in E; assumption.
  - right. split; [|reflexivity]. intros v (tag & m & Em & I). injection Em as _ <-.
    apply (proj1 (find_key_none l k D) E v I).
Qed.

Lemma active_has_actions : forall l, distinct l ->
  (has_actions l = true <-> active (Pair tAccessPoint (Map l))).
Proof.
  intros l D. unfold has_actions, active. rewrite orb_true_iff. split.
  - intros [H|H].
    + left. destruct (find_key tActions l) as [s|] eqn:E; cbn in H; [|discriminate].
      exists s. split.
      * exists tAccessPoint, l. split; [reflexivity|]. apply find_key_spec in E; assumption.
      * destruct (members s); [discriminate|discriminate].
    + right. destruct (find_key tStore l) as [s|] eqn:E; cbn in H; [|discriminate].
      exists s. split.
      * exists tAccessPoint, l. split; [reflexivity|]. apply find_key_spec in E; assumption.
      * intros ->. discriminate.
  - intros [(m & (tag & l' & El & I) & Ne)|(s & (tag & l' & El & I) & Ne)]; injection El as _ <-.
    + left. apply find_key_spec in I; [|exact D]. rewrite I. cbn. destruct (members m); congruence.
    + right. apply find_key_spec in I; [|exact D]. rewrite I. cbn.
      destruct s as [n| | | |]; cbn; try reflexivity.
      destruct (N.eqb_spec n 0) as [->|]; [destruct Ne; reflexivity|reflexivity].
Qed.

Lemma meta_describes : forall path l m, distinct l -> In m (access_point_meta path l) ->
  ap_path m = path /\ describes (Pair tAccessPoint (Map l)) m.
Proof.
  intros path l m D H. unfold access_point_meta in H. destruct (has_actions l); [|destruct H].
  destruct H as [<-|[]]. cbn. split; [reflexivity|]. unfold describes. cbn.
  split; [apply says_find; exact D|]. split; [apply says_find; exact D|]. split; [apply says_find; exact D|].
  split.
  - eexists. split; [apply says_find; exact D|reflexivity].
  - eexists. split; [apply says_find; exact D|].
    generalize (members (value_or (find_key tListenPaths l) (Lst []))). intro ps.
    induction ps as [|x ps IH]; cbn; constructor; [|exact IH]. intros k q ->. reflexivity.
Qed.

(* what an enumeration has to be *)
Definition enumerated (path : list N) (t : ty) (ms : list access_point) : Prop :=
  exists addrs,
    in_order addrs /\ (forall a, In a addrs <-> active_point looks_at t a) /\
    Forall2 (fun a m => ap_path m = path ++ path_of t a /\
                        exists n, node_at t a = Some n /\ describes n m) addrs ms.

(* the children of a node which all contribute *)
Lemma enumerated_children : forall path t f,
  (forall c, In c (children t) -> looks_at t c) ->
  Forall (fun c => enumerated (path ++ path_key t) c (f c)) (children t) ->
  exists addrs,
    in_order addrs /\ ~ In [] addrs /\ in_order ([] :: addrs) /\
    (forall a, In a addrs <-> a <> [] /\ active_point looks_at t a) /\
    Forall2 (fun a m => ap_path m = path ++ path_of t a /\
                        exists n, node_at t a = Some n /\ describes n m) addrs (flat_map f (children t)).
Proof.
  intros path t f Dec H. apply choose in H as [ll Hll].
  assert (Ord : in_order (shift 0 ll)).
  { apply in_order_shift. eapply Forall2_right; [|exact Hll]. cbn. intros a b X. apply X. }
  exists (shift 0 ll). split; [exact Ord|]. split.
  { intro I. apply in_shift in I as (j & r & l & E & _). discriminate. }
  split; [apply in_order_nil_cons; exact Ord|]. split.
  - intros [|i r].
    + split; [intro I; apply in_shift in I as (j & r & l & E & _); discriminate|intros [X _]; congruence].
    + rewrite in_shift, active_point_cons. split.
      * intros (j & r' & l & E & Hn & Hr). injection E as -> ->. split; [discriminate|].
        destruct (Forall2_nth_right _ _ _ _ _ _ _ Hll Hn) as (c & Hc & _ & Hiff & _).
        exists c. split; [exact Hc|]. split; [apply Dec; eapply nth_error_In; exact Hc|]. apply Hiff; exact Hr.
      * intros (_ & c & Hc & _ & Ho).
        destruct (Forall2_nth_left _ _ _ _ _ _ _ Hll Hc) as (l & Hl & _ & Hiff & _).
        exists i, r, l. split; [reflexivity|]. split; [exact Hl|]. apply Hiff; exact Ho.
  - eapply Forall2_imp; [|apply shift_results with
        (R := fun i r m => exists c, nth_error (children t) i = Some c /\
                ap_path m = (path ++ path_key t) ++ path_of c r /\
                exists n, node_at c r = Some n /\ describes n m)
        (ll := ll)].
    + intros [|j r] m X; [contradiction|]. destruct X as (c & Hc & Ep & n & En & Dn). split.
      * rewrite Ep. unfold path_of. cbn. rewrite Hc. rewrite <- app_assoc. reflexivity.
      * exists n. cbn. rewrite Hc. auto.
    + eapply Forall2_imp; [|exact Hll]. trivial.
    + intros j c l' Hc Hl. destruct (Forall2_nth_left _ _ _ _ _ _ _ Hll Hc) as (l & E & _ & _ & F).
      rewrite Hl in E. injection E as <-. eapply Forall2_imp; [|exact F].
      intros a b Hab. exists c. split; [exact Hc|exact Hab].
Qed.

Lemma enumerate_spec : forall t path ms, proper t ->
  enumerate_access_points path t = Some ms -> enumerated path t ms.
Proof.
  intro t. induction t as [t IH] using node_ind. intros path ms P E.
  destruct t as [n|l|k v|l|l]; try discriminate. cbn [enumerate_access_points] in E.
  destruct (N.eqb_spec k tAccessPoint) as [->|Nk].
  - (* an access point *)
    destruct v as [n|l|k' s'|l|l]; try discriminate.
    destruct (find_key tPathKey l) as [s|] eqn:Ek; [|discriminate].
    destruct s as [p|?|?|?|?]; try discriminate.
    destruct (all (enumerate_access_points (path ++ [p])) l) as [nested|] eqn:En; [|discriminate].
    injection E as <-. apply all_some in En as [-> Fs].
    assert (Pk : path_key (Pair tAccessPoint (Map l)) = [p]) by (unfold path_key; cbn; rewrite Ek; reflexivity).
    assert (D : distinct l) by (apply (proper_good _ P tAccessPoint l eq_refl)).
    destruct (enumerated_children path (Pair tAccessPoint (Map l))
      (fun x => match enumerate_access_points (path ++ [p]) x with Some y => y | None => [] end))
      as (addrs & Ord & NoNil & Ord0 & Iff & F2).
    { intros c _. left. reflexivity. }
    { rewrite Pk. apply Forall_forall. intros c Ic. cbn in Ic.
      rewrite Forall_forall in IH, Fs. destruct (Fs c Ic) as [y Ey]. rewrite Ey.
      apply In_nth_error in Ic as Ic'. destruct Ic' as [i Hi].
      apply IH; [exact Ic|eapply proper_child; [exact P|exact Hi]|exact Ey]. }
    cbn [children] in F2.
    destruct (has_actions l) eqn:HA.
    + exists ([] :: addrs). split; [exact Ord0|]. split.
      * intro a. destruct a as [|i r].
        -- split; [|left; reflexivity]. intros _. split; [apply reached_nil; reflexivity|].
           eexists. split; [reflexivity|]. apply active_has_actions; assumption.
        -- cbn. rewrite Iff. split; [intros [X|X]; [discriminate|apply X]|]. intro X. right. split; [discriminate|exact X].
      * assert (exists m, access_point_meta (path ++ [p]) l = [m]) as [m Em]
          by (unfold access_point_meta; rewrite HA; eexists; reflexivity).
        rewrite Em. cbn. constructor; [|exact F2].
        destruct (meta_describes (path ++ [p]) l m D) as [A B]; [rewrite Em; left; reflexivity|].
        split; [|eexists; split; [reflexivity|exact B]].
        rewrite A. unfold path_of. cbn [chain flat_map]. rewrite Pk. reflexivity.
    + exists addrs. split; [exact Ord|]. split.
      * intro a. rewrite Iff. split; [tauto|]. intro X. split; [|exact X]. intros ->.
        destruct X as [_ (n & En & An)]. cbn in En. injection En as <-.
        apply active_has_actions in An; [congruence|exact D].
      * unfold access_point_meta. rewrite HA. exact F2.
  - destruct (N.eqb_spec k tAccessPoints) as [->|Nk'].
    + (* a list of access points *)
      assert (E' : all (enumerate_access_points path) (children (Pair tAccessPoints v)) = Some ms)
        by (destruct v; try discriminate; exact E).
      apply all_some in E' as [-> Fs].
      destruct (enumerated_children path (Pair tAccessPoints v)
        (fun x => match enumerate_access_points path x with Some y => y | None => [] end))
        as (addrs & Ord & NoNil & Ord0 & Iff & F2).
      { intros c _. right. left. reflexivity. }
      { assert (path_key (Pair tAccessPoints v) = []) as -> by reflexivity. rewrite app_nil_r.
        apply Forall_forall. intros c Ic. rewrite Forall_forall in IH, Fs. destruct (Fs c Ic) as [y Ey]. rewrite Ey.
        apply In_nth_error in Ic as Ic'. destruct Ic' as [i Hi].
        apply IH; [exact Ic|eapply proper_child; [exact P|exact Hi]|exact Ey]. }
      exists addrs. split; [exact Ord|]. split; [|exact F2].
      intro a. rewrite Iff. split; [tauto|]. intro X. split; [|exact X]. intros ->.
      destruct X as [X _]. apply reached_nil in X. discriminate.
    + (* anything else *)
      assert (Np : is_point (Pair k v) = false) by (unfold is_point, key_is; apply N.eqb_neq; exact Nk).
      assert (Nps : is_points (Pair k v) = false) by (unfold is_points, key_is; apply N.eqb_neq; exact Nk').
      assert (Pk : path_key (Pair k v) = []) by (unfold path_key; rewrite Np; reflexivity).
      assert (Nothing : (forall i c, nth_error (children (Pair k v)) i = Some c -> looks_at (Pair k v) c -> False) ->
        enumerated path (Pair k v) []).
      { intro No. exists []. split; [exact I|]. split; [|constructor].
        intros [|i r].
        - split; [intros []|]. intros [X _]. apply reached_nil in X. congruence.
        - split; [intros []|]. rewrite active_point_cons. intros (c & Ec & Dc & _). apply (No i c Ec Dc). }
      assert (Single : forall l i c, v = Map l -> nth_error l i = Some c -> looks_at (Pair k (Map l)) c ->
        (forall j d, nth_error l j = Some d -> looks_at (Pair k (Map l)) d -> j = i) ->
        enumerate_access_points path c = Some ms -> enumerated path (Pair k v) ms).
      { intros l i c -> Hi Look Uniq Ec.
        assert (Hc : nth_error (children (Pair k (Map l))) i = Some c) by exact Hi.
        rewrite Forall_forall in IH.
        destruct (IH c (nth_error_In _ _ Hc) path ms) as (addrs & Ord & Iff & F2);
          [eapply proper_child; [exact P|exact Hc]|exact Ec|].
        exists (map (cons i) addrs). split; [apply in_order_cons; exact Ord|]. split.
        - intro a. rewrite in_map_iff. destruct a as [|j r].
          + split; [intros (x & X & _); discriminate|]. intros [X _]. apply reached_nil in X. congruence.
          + rewrite active_point_cons. split.
            * intros (x & X & Ix). injection X as -> ->. exists c. split; [exact Hc|]. split; [exact Look|apply Iff; exact Ix].
            * intros (d & Hd & Dd & Ad).
              assert (j = i) as -> by (eapply Uniq; [exact Hd|exact Dd]).
              rewrite Hc in Hd. injection Hd as <-. exists r. split; [reflexivity|apply Iff; exact Ad].
        - clear - F2 Hc Pk. induction F2 as [|a m addrs ms [A (n & En & Dn)] _ IH2]; constructor; [|exact IH2].
          split.
          + rewrite A. unfold path_of. cbn [chain flat_map]. rewrite Hc, Pk. reflexivity.
          + exists n. cbn [node_at]. rewrite Hc. auto. }
      destruct v as [n|l|k' s'|l|l]; try (injection E as <-; apply Nothing; intros i c Hc Dc;
        destruct Dc as [X|[X|[(tg & l' & X) _]]]; congruence).
      assert (D : distinct l) by (apply (proper_good _ P k l eq_refl)).
      assert (Uniq : forall tag j d i c, nth_error l j = Some d -> key_is tag d = true ->
                nth_error l i = Some c -> key_is tag c = true -> j = i).
      { intros tag j d i c Hj Kd Hi Kc. apply key_is_spec in Kd as [s ->]. apply key_is_spec in Kc as [s' ->].
        eapply D; [exact Hj|exact Hi]. }
      assert (Cont : forall tag, contains tag l = false -> forall j d, nth_error l j = Some d -> key_is tag d = true -> False).
      { intros tag Cf j d Hj Kd. apply key_is_spec in Kd as [s ->]. apply nth_error_In in Hj.
        apply find_key_spec in Hj; [|exact D]. unfold contains in Cf. rewrite Hj in Cf. discriminate. }
      destruct (contains tAccessPoints l) eqn:C1.
      * destruct (for_key_some _ _ (enumerate_access_points path) l C1) as (i & c & Hi & Kc & Ec).
        rewrite Ec in E. apply (Single l i c eq_refl Hi); [| |exact E].
        { right. right. split; [exists k, l; reflexivity|]. left. exact Kc. }
        intros j d Hj [X|[X|[_ [Kd|[_ No]]]]]; try congruence; [eapply Uniq; [exact Hj|exact Kd|exact Hi|exact Kc]|].
        exfalso. apply key_is_spec in Kc as [s' ->]. apply (No s'). exists k, l. split; [reflexivity|]. eapply nth_error_In; exact Hi.
      * destruct (contains tAccessPoint l) eqn:C2.
        -- destruct (for_key_some _ _ (enumerate_access_points path) l C2) as (i & c & Hi & Kc & Ec).
           rewrite Ec in E. apply (Single l i c eq_refl Hi); [| |exact E].
           { right. right. split; [exists k, l; reflexivity|]. right. split; [exact Kc|]. intros m (tg & l' & El & Im). injection El as _ <-.
             apply In_nth_error in Im as [j Hj]. eapply (Cont tAccessPoints C1); [exact Hj|]. apply N.eqb_refl. }
           intros j d Hj [X|[X|[_ [Kd|[Kd _]]]]]; try congruence; [|eapply Uniq; [exact Hj|exact Kd|exact Hi|exact Kc]].
           exfalso. eapply (Cont tAccessPoints C1); eassumption.
        -- injection E as <-. apply Nothing. intros i c Hc Dc.
           destruct Dc as [X|[X|[_ [X|[X _]]]]]; try congruence.
           ++ eapply (Cont tAccessPoints C1); eassumption.
           ++ eapply (Cont tAccessPoint C2); eassumption.
Qed.

(* without both in one node, what is looked at is what is declared *)
Lemma looks_declares : forall t, one_way t -> forall a, reached looks_at t a <-> reached declares t a.
Proof.
  intros t W a. assert (K : forall n c p, node_at t p = Some n -> In c (children n) -> (looks_at n c <-> declares n c)).
  { intros n c p Hp Hc. unfold looks_at, declares. destruct (is_point n) eqn:E1; [tauto|]. destruct (is_points n) eqn:E2; [tauto|].
    split; intros [X|[X|[(tag & l & ->) X]]]; try discriminate; right; right; (split; [now exists tag, l|]); [tauto|].
    destruct X as [X|X]; [|tauto]. right. split; [exact X|]. intros m D. apply key_is_spec in X as [s ->].
    apply (W p _ Hp E1 E2 s m). split; [|exact D]. exists tag, l. split; [reflexivity|exact Hc]. }
  assert (C : forall p i n c, node_at t p = Some n -> node_at t (p ++ [i]) = Some c -> In c (children n)).
  { clear. intros p. revert t. induction p as [|j p IH]; intros t i n c Hp Hc; cbn [node_at app] in *.
    - injection Hp as <-. destruct (nth_error (children t) i) eqn:E; [|discriminate]. injection Hc as <-. eapply nth_error_In; exact E.
    - destruct (nth_error (children t) j) as [d|]; [|discriminate]. eapply IH; eassumption. }
  unfold reached. split; intros [H1 H2]; (split; [exact H1|]); intros p i n c Ab Hn Hc; apply (K n c p Hn (C p i n c Hn Hc)); eapply H2; eassumption.
Qed.

(* every access point has a path key: the enumeration compiles *)
Definition keyed (t : ty) : Prop :=
  forall a n, node_at t a = Some n ->
    (exists k s, n = Pair k s) /\
    (is_point n = true -> exists l p, n = Pair tAccessPoint (Map l) /\ In (Pair tPathKey (Plain p)) l) /\
    (is_points n = true -> exists l, n = Pair tAccessPoints (Map l) \/ n = Pair tAccessPoints (Lst l)).

Lemma all_total : forall (A B : Type) (f : A -> option (list B)) l,
  Forall (fun x => exists y, f x = Some y) l -> exists r, all f l = Some r.
Proof.
  intros A B f l. induction 1 as [|x l (y & E) _ (r & IH)]; [exists []; reflexivity|].
  exists (y ++ r). cbn. fold (all f l). rewrite E, IH. reflexivity.
Qed.

Lemma enumerate_total : forall t path, proper t -> keyed t -> exists ms, enumerate_access_points path t = Some ms.
Proof.
  intro t. induction t as [t IH] using node_ind. intros path P K.
  assert (Kc : forall i c, nth_error (children t) i = Some c -> keyed c).
  { intros i c Hc a n Hn. apply (K (i :: a) n). cbn. rewrite Hc. exact Hn. }
  destruct (K [] t eq_refl) as ((k & v & ->) & K1 & K2).
  assert (Ch : forall path', Forall (fun c => exists ms, enumerate_access_points path' c = Some ms) (children (Pair k v))).
  { intro path'. apply Forall_forall. intros c Ic. rewrite Forall_forall in IH.
    destruct (In_nth_error _ _ Ic) as [i Hi].
    apply IH; [exact Ic|eapply proper_child; [exact P|exact Hi]|eapply Kc; exact Hi]. }
  cbn [enumerate_access_points]. destruct (N.eqb_spec k tAccessPoint) as [->|Nk].
  - destruct (K1 eq_refl) as (l & p & E & Ip). injection E as ->.
    assert (D : distinct l) by (apply (proper_good _ P tAccessPoint l eq_refl)).
    apply find_key_spec in Ip; [|exact D]. rewrite Ip.
    destruct (all_total _ _ (enumerate_access_points (path ++ [p])) l (Ch _)) as [r ->]. eexists; reflexivity.
  - destruct (N.eqb_spec k tAccessPoints) as [->|Nk'].
    + destruct (K2 eq_refl) as (l & [E|E]); injection E as ->; apply all_total; apply Ch.
    + destruct v as [n|l|k' s'|l|l]; try (exists []; reflexivity).
      destruct (contains tAccessPoints l) eqn:C1.
      * destruct (for_key_some _ _ (enumerate_access_points path) l C1) as (i & c & Hi & Kc' & ->).
        specialize (Ch path). rewrite Forall_forall in Ch. apply Ch. eapply nth_error_In; exact Hi.
      * destruct (contains tAccessPoint l) eqn:C2.
        -- destruct (for_key_some _ _ (enumerate_access_points path) l C2) as (i & c & Hi & Kc' & ->).
           specialize (Ch path). rewrite Forall_forall in Ch. apply Ch. eapply nth_error_In; exact Hi.
        -- exists []. reflexivity.
Qed.

(* ------------------------------------------------------------------ C59: the producer of a path *)

Definition owns (p : producer) (path : list N) : Prop := In path (map ap_path (pr_points p)).

Lemma unique_in : forall l x, In x (unique l) <-> In x l.
Proof.
  induction l as [|y l IH]; intro x; [tauto|]. cbn [unique]. destruct l as [|z l]; [cbn; tauto|].
  destruct (bytes_eqb_spec y z) as [->|Ne].
  - rewrite IH. cbn. tauto.
  - cbn [In]. rewrite IH. cbn. tauto.
Qed.

Lemma unique_id : forall l, NoDup l -> unique l = l.
Proof.
  induction l as [|y l IH]; intro H; [reflexivity|]. inversion H; subst. cbn [unique].
  destruct l as [|z l]; [reflexivity|]. destruct (bytes_eqb_spec y z) as [->|Ne].
  - destruct H2. left; reflexivity.
  - rewrite IH by assumption. reflexivity.
Qed.

Lemma lookup_in : forall ps i0 p j,
  In (KPath p, j) (producer_lookup i0 ps) <-> exists n q, j = (i0 + n)%nat /\ nth_error ps n = Some q /\ owns q p.
Proof.
  induction ps as [|q ps IH]; intros i0 p j; cbn.
  - split; [intros []|]. intros (n & q & _ & E & _). destruct n; discriminate.
  - rewrite in_app_iff, IH, in_map_iff. split.
    + intros [(k & E & I)|(n & q' & -> & E & O)].
      * injection E as -> ->. unfold producer_keys in I. apply in_app_iff in I as [I|[I|[]]]; [|discriminate].
        apply in_map_iff in I as (p' & E & I). injection E as ->. apply (proj1 (unique_in _ _)) in I.
        exists 0%nat, q. rewrite Nat.add_0_r. split; [congruence|]. split; [reflexivity|exact I].
      * exists (S n), q'. rewrite Nat.add_succ_r. auto.
    + intros (n & q' & -> & E & O). destruct n as [|n].
      * left. cbn in E. injection E as <-. exists (KPath p). rewrite Nat.add_0_r. split; [reflexivity|].
        unfold producer_keys. apply in_app_iff. left. apply in_map_iff. exists p. split; [reflexivity|].
        apply unique_in. exact O.
      * right. exists n, q'. rewrite Nat.add_succ_r. auto.
Qed.

Lemma key_is_path_spec : forall p e, key_is_path p e = true <-> fst e = KPath p.
Proof.
  intros p [k i]. unfold key_is_path. cbn. destruct k as [q|n]; [|split; discriminate].
  rewrite bytes_eqb_iff. split; congruence.
Qed.

Lemma filter_lookup_none : forall ps i0 p, (forall q, In q ps -> ~ owns q p) ->
  filter (key_is_path p) (producer_lookup i0 ps) = [].
Proof.
  intros ps i0 p H. destruct (filter (key_is_path p) (producer_lookup i0 ps)) as [|e r] eqn:E; [reflexivity|].
  assert (I : In e (filter (key_is_path p) (producer_lookup i0 ps))) by (rewrite E; left; reflexivity).
  apply filter_In in I as [I K]. apply key_is_path_spec in K. destruct e as [k j]. cbn in K. subst k.
  apply lookup_in in I as (n & q & _ & En & O). destruct (H q); [eapply nth_error_In; exact En|exact O].
Qed.

Lemma filter_map_path : forall p i l, NoDup l -> In p l ->
  filter (key_is_path p) (map (fun k => (k, i)) (map KPath l)) = [(KPath p, i)].
Proof.
  induction l as [|x l IH]; intros D I; [destruct I|]. inversion D; subst. cbn.
  unfold key_is_path at 1. cbn. destruct (bytes_eqb_spec x p) as [->|Ne].
  - f_equal. clear - H1. induction l as [|y l IH]; [reflexivity|]. cbn in *. try (unfold key_is_path at 1; cbn).
    destruct (bytes_eqb_spec y p); [tauto|apply IH; tauto].
  - destruct I as [I|I]; [congruence|auto].
Qed.

Lemma filter_lookup_one : forall ps i0 p i q,
  nth_error ps i = Some q -> owns q p -> NoDup (map ap_path (pr_points q)) ->
  (forall j q', nth_error ps j = Some q' -> owns q' p -> j = i) ->
  filter (key_is_path p) (producer_lookup i0 ps) = [(KPath p, (i0 + i)%nat)].
Proof.
  induction ps as [|q0 ps IH]; intros i0 p i q E O D U; [destruct i; discriminate|].
  cbn [producer_lookup]. rewrite filter_app. destruct i as [|i].
  - cbn in E. injection E as ->. rewrite filter_lookup_none.
    + rewrite app_nil_r. unfold producer_keys. rewrite map_app, filter_app, unique_id by exact D.
      rewrite filter_map_path by assumption. cbn. rewrite Nat.add_0_r. reflexivity.
    + intros q' I O'. apply In_nth_error in I as [j Hj]. specialize (U (S j) q' Hj O'). discriminate.
  - cbn in E. rewrite (IH (S i0) p i q E O D).
    + assert (filter (key_is_path p) (map (fun k => (k, i0)) (producer_keys q0)) = []) as ->.
      { destruct (filter _ (map (fun k => (k, i0)) (producer_keys q0))) as [|e r] eqn:Ef; [reflexivity|].
        assert (I : In e (filter (key_is_path p) (map (fun k => (k, i0)) (producer_keys q0)))) by (rewrite Ef; left; reflexivity).
        apply filter_In in I as [I K]. apply key_is_path_spec in K. apply in_map_iff in I as (k & <- & I).
        cbn in K. subst k. unfold producer_keys in I. apply in_app_iff in I as [I|[I|[]]]; [|discriminate].
        apply in_map_iff in I as (p' & Ep & I). injection Ep as ->. apply (proj1 (unique_in _ _)) in I.
        specialize (U 0%nat q0 eq_refl I). discriminate. }
      cbn. rewrite Nat.add_succ_r. reflexivity.
    + intros j q' Hj O'. specialize (U (S j) q' Hj O'). congruence.
Qed.

Lemma producer_of_sound : forall ps p i, producer_of ps p = Some i ->
  exists q, nth_error ps i = Some q /\ owns q p /\
    forall j q', nth_error ps j = Some q' -> owns q' p -> j = i.
Proof.
  intros ps p i H. unfold producer_of in H.
  destruct (filter (key_is_path p) (producer_lookup 0 ps)) as [|[k j] [|]] eqn:E; try discriminate.
  injection H as ->.
  assert (All : forall k' j', In (k', j') (producer_lookup 0 ps) -> k' = KPath p -> j' = i).
  { intros k' j' I ->. assert (I' : In (KPath p, j') (filter (key_is_path p) (producer_lookup 0 ps))).
    { apply filter_In. split; [exact I|]. apply key_is_path_spec. reflexivity. }
    rewrite E in I'. destruct I' as [I'|[]]. congruence. }
  assert (I : In (k, i) (filter (key_is_path p) (producer_lookup 0 ps))) by (rewrite E; left; reflexivity).
  apply filter_In in I as [I K]. apply key_is_path_spec in K. cbn in K. subst k.
  apply lookup_in in I as I'. destruct I' as (n & q & En & Eq & O). cbn in En. subst n.
  exists q. split; [exact Eq|]. split; [exact O|]. intros j' q' Hj O'.
  apply (All (KPath p) j'); [|reflexivity]. apply lookup_in. exists j', q'. auto.
Qed.

(* ------------------------------------------------------------------ C63: the message types *)

Lemma partition_flat : forall (A : Type) (U D : A -> list message) l,
  (forall a m, In a l -> In m (U a) -> is_up m = true) -> (forall a m, In a l -> In m (D a) -> is_up m = false) ->
  partition is_up (flat_map (fun a => U a ++ D a) l) = (flat_map U l, flat_map D l).
Proof.
  intros A U D l HU HD.
  assert (P : forall l1 l2 p, (forall m, In m l1 -> is_up m = true) -> (forall m, In m l2 -> is_up m = false) ->
    partition is_up ((l1 ++ l2) ++ p) =
    (l1 ++ fst (partition is_up p), l2 ++ snd (partition is_up p))).
  { induction l1 as [|m l1 IH]; intros l2 p H1 H2.
    - cbn. induction l2 as [|m l2 IH2]; cbn.
      + destruct (partition is_up p); reflexivity.
      + rewrite IH2 by (intros; apply H2; right; assumption).
        rewrite (H2 m) by (left; reflexivity). reflexivity.
    - cbn. rewrite IH; [|intros; apply H1; right; assumption|exact H2].
      rewrite (H1 m) by (left; reflexivity). reflexivity. }
  induction l as [|a l IH]; [reflexivity|]. cbn [flat_map]. rewrite P.
  - rewrite IH; [reflexivity|intros; eapply HU; [right|]; eassumption|intros; eapply HD; [right|]; eassumption].
  - intros; eapply HU; [left; reflexivity|assumption].
  - intros; eapply HD; [left; reflexivity|assumption].
Qed.

Lemma act_of_spec : forall k, map snd (filter (fun p => fst p =? k) action_tags) = match act_of k with Some x => [x] | None => [] end.
Proof.
  intros k. unfold act_of, action_tags. cbn [filter fst]. rewrite !(N.eqb_sym _ k).
  destruct (N.eqb_spec k tCreate) as [->|]; [reflexivity|]. destruct (N.eqb_spec k tRead) as [->|]; [reflexivity|].
  destruct (N.eqb_spec k tUpdate) as [->|]; [reflexivity|]. destruct (N.eqb_spec k tDelete) as [->|]; reflexivity.
Qed.
Lemma actions_declared : forall l acts, all action_of l = Some acts ->
  acts = flat_map (fun t => match t with Pair k _ => map snd (filter (fun p => fst p =? k) action_tags) | _ => [] end) l.
Proof.
  intros l acts H. apply all_some in H as [-> _]. apply flat_map_ext.
  intros [ | |k s| |]; try reflexivity. rewrite act_of_spec. cbn. destruct (act_of k); reflexivity.
Qed.

Lemma upstream_request : forall a acts ups, all (upstream (ap_path a) (ap_entity a)) acts = Some ups ->
  ups = map (request a) acts.
Proof.
  intros a acts ups H. apply all_some in H as [-> F]. induction F as [|x acts (y & Ey) _ IH]; [reflexivity|].
  cbn. rewrite Ey, IH. destruct x; cbn in Ey; try (injection Ey as <-; reflexivity).
  destruct (ap_path a) eqn:Ep; [discriminate|]. injection Ey as <-. unfold request. rewrite Ep. reflexivity.
Qed.

Lemma downstream_answers : forall a x, downstream (ap_path a) (ap_entity a) x = answers a x.
Proof. intros a x. destruct x; reflexivity. Qed.

Lemma entity_messages_spec : forall a ms, entity_messages a = Some ms ->
  ms = map (request a) (declared_actions a) ++ flat_map (answers a) (declared_actions a).
Proof.
  intros a ms H. unfold entity_messages in H.
  destruct (all action_of (ap_actions a)) as [acts|] eqn:E; [|discriminate].
  destruct (all (upstream _ _) acts) as [ups|] eqn:U; [|discriminate]. injection H as <-.
  apply actions_declared in E. apply upstream_request in U. fold (declared_actions a) in E. subst acts ups.
  f_equal. apply flat_map_ext. intro x. apply downstream_answers.
Qed.

Lemma message_api_spec : forall ps us ds, message_api ps = Some (us, ds) ->
  us = flat_map (fun a => map (request a) (declared_actions a)) (flat_map pr_points ps) /\
  ds = flat_map (fun a => flat_map (answers a) (declared_actions a)) (flat_map pr_points ps).
Proof.
  intros ps us ds H. unfold message_api in H.
  destruct (all entity_messages (flat_map pr_points ps)) as [ms|] eqn:E; [|discriminate].
  apply all_some in E as [-> F].
  assert (X : flat_map (fun x => match entity_messages x with Some y => y | None => [] end) (flat_map pr_points ps) =
    flat_map (fun a => map (request a) (declared_actions a) ++ flat_map (answers a) (declared_actions a)) (flat_map pr_points ps)).
  { clear H. induction F as [|a l (y & Ey) _ IH]; [reflexivity|]. cbn. rewrite Ey, IH.
    apply entity_messages_spec in Ey. rewrite Ey. reflexivity. }
  rewrite X, partition_flat in H.
  - injection H as <- <-. auto.
  - intros a m _ I. apply in_map_iff in I as (x & <- & _). reflexivity.
  - intros a m _ I. apply in_flat_map in I as (x & _ & I).
    destruct x; cbn in I; repeat (destruct I as [<-|I]; [reflexivity|]); destruct I.
Qed.

Lemma nodup_flat_map : forall (A B : Type) (f : A -> list B) l,
  (forall a, In a l -> NoDup (f a)) ->
  (forall a b x, In a l -> In b l -> In x (f a) -> In x (f b) -> a = b) -> NoDup l -> NoDup (flat_map f l).
Proof.
  intros A B f l H1 H2 D. induction D as [|a l N0 D IH]; [constructor|]. cbn.
  assert (G : forall l1 l2 : list B, NoDup l1 -> NoDup l2 -> (forall x, In x l1 -> ~ In x l2) -> NoDup (l1 ++ l2)).
  { clear. induction l1 as [|x l1 IH]; intros l2 D1 D2 H; [exact D2|]. inversion D1; subst. cbn. constructor.
    - rewrite in_app_iff. intros [I|I]; [contradiction|]. apply (H x); [left; reflexivity|exact I].
    - apply IH; auto. intros y I. apply H. right; exact I. }
  apply G.
  - apply H1. left; reflexivity.
  - apply IH; [intros; apply H1; right; assumption|]. intros b c x Ib Ic. apply H2; right; assumption.
  - intros x I1 I2. apply in_flat_map in I2 as (b & Ib & I2).
    assert (a = b) as -> by (eapply H2; [left; reflexivity|right; exact Ib|exact I1|exact I2]). contradiction.
Qed.

Lemma NoDup_of_map : forall (A B : Type) (f : A -> B) l, NoDup (map f l) -> NoDup l.
Proof.
  induction l as [|x l IH]; intro H; [constructor|]. inversion H; subst. constructor; [|auto].
  intro I. apply H2. apply in_map; exact I.
Qed.

Lemma map_inj_in : forall (A B : Type) (f : A -> B) l a b, NoDup (map f l) -> In a l -> In b l -> f a = f b -> a = b.
Proof.
  induction l as [|x l IH]; intros a b H Ia Ib E; [destruct Ia|]. inversion H; subst.
  destruct Ia as [->|Ia], Ib as [->|Ib]; auto.
  - exfalso. apply H2. rewrite E. apply in_map; exact Ib.
  - exfalso. apply H2. rewrite <- E. apply in_map; exact Ia.
Qed.

Lemma answers_act : forall a x m, In m (answers a x) -> m_act m = x /\ m_path m = ap_path a.
Proof. intros a x m I. destruct x; cbn in I; repeat (destruct I as [<-|I]; [split; reflexivity|]); destruct I. Qed.

Lemma message_types_distinct : forall aps, NoDup (map ap_path aps) ->
  (forall a, In a aps -> NoDup (declared_actions a)) ->
  NoDup (flat_map (fun a => map (request a) (declared_actions a)) aps) /\
  NoDup (flat_map (fun a => flat_map (answers a) (declared_actions a)) aps).
Proof.
  intros aps D DA. split; apply nodup_flat_map; try (eapply NoDup_of_map; exact D).
  - intros a Ia. specialize (DA a Ia). induction DA as [|x l N0 DA IH]; [constructor|]. cbn. constructor; [|exact IH].
    intro I. apply in_map_iff in I as (y & E & I). unfold request in E. injection E as E _. congruence.
  - intros a b m Ia Ib I1 I2. apply in_map_iff in I1 as (x & <- & _). apply in_map_iff in I2 as (y & E & _).
    unfold request in E. injection E as _ E _. eapply map_inj_in; [exact D|exact Ia|exact Ib|congruence].
  - intros a Ia. apply nodup_flat_map; [|intros x y m _ _ I1 I2; apply answers_act in I1 as [<- _]; apply answers_act in I2 as [<- _]; reflexivity|apply DA; exact Ia].
    intros x _. destruct x; cbn; repeat constructor; cbn; intuition discriminate.
  - intros a b m Ia Ib I1 I2. apply in_flat_map in I1 as (x & _ & I1). apply in_flat_map in I2 as (y & _ & I2).
    apply answers_act in I1 as [_ E1]. apply answers_act in I2 as [_ E2].
    eapply map_inj_in; [exact D|exact Ia|exact Ib|congruence].
Qed.

(* ------------------------------------------------------------------ deciding properness *)

Definition same_key (a b : ty) : bool := match a with Pair k _ => key_is k b | _ => false end.
Fixpoint distinctb (l : list ty) : bool :=
  match l with [] => true | x :: r => negb (existsb (same_key x) r) && distinctb r end.
Fixpoint properb (t : ty) : bool :=
  match t with
  | Plain _ | Types _ => true
  | Pair _ s => properb s
  | Lst l => forallb properb l
  | Map l => forallb properb l && distinctb l
  end.

Lemma distinctb_spec : forall l, distinctb l = true -> distinct l.
Proof.
  induction l as [|x l IH]; intro H; cbn in H.
  - intros i j k s s' A. destruct i; discriminate.
  - apply andb_true_iff in H as [H1 H2]. apply negb_true_iff in H1.
    assert (No : forall k s s' j, x = Pair k s -> nth_error l j = Some (Pair k s') -> False).
    { intros k s s' j -> Hj. apply nth_error_In in Hj.
      assert (existsb (same_key (Pair k s)) l = true); [|congruence].
      apply existsb_exists. exists (Pair k s'). split; [exact Hj|]. cbn. apply N.eqb_refl. }
    intros i j k s s' A B. destruct i as [|i], j as [|j]; cbn in A, B.
    + reflexivity.
    + exfalso. eapply No; [injection A as A; exact A|exact B].
    + exfalso. eapply No; [injection B as B; exact B|exact A].
    + f_equal. eapply IH; eassumption.
Qed.

Lemma properb_spec : forall t, properb t = true -> proper t.
Proof.
  fix F 1. intros t H. destruct t as [n|l|k s|l|l]; cbn in H.
  - constructor.
  - constructor.
  - constructor. apply F. exact H.
  - apply andb_true_iff in H as [H1 H2]. constructor; [|apply distinctb_spec; exact H2].
    clear H2. induction l as [|x l IH]; constructor; cbn in H1; apply andb_true_iff in H1 as [A B].
    + apply F; exact A.
    + apply IH; exact B.
  - constructor. induction l as [|x l IH]; constructor; cbn in H; apply andb_true_iff in H as [A B].
    + apply F; exact A.
    + apply IH; exact B.
Qed.
