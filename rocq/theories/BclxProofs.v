(* What happens with any endpoint. *)
From Coq Require Import Lia Sorted.
From Verif Require Import Base BclModel BclSpec BclProofs.
Open Scope nat_scope.

Local Arguments owner_dec : simpl never.
Definition rank (o : owner) : nat := match o with Init => 0 | Read n => S n end.
Definition cares (k : kind) (o : owner) : bool := match k, o with Open, Init | Error, _ | Close, _ | Message, Read _ => true | _, _ => false end.
Definition regs (rs : list nat) : list (kind * owner) := init3 ++ flat_map read3 rs.
Definition mem (w : list owner) (o : owner) : bool := existsb (owner_eqb o) w.

(* w: who still listens *)
Definition lives (s : st) (w : list owner) : Prop := exists rs b,
  listeners s = regs rs /\ StronglySorted lt rs /\ (forall n, In n rs -> n < next s) /\ (forall n, In (Read n) (silent s) -> n < next s /\ ~ In n rs) /\
  existsb (owner_eqb Init) (silent s) = b /\ w = (if b then [] else [Init]) ++ map Read rs.
Definition holds (v : view) (s : st) : Prop :=
  started v = next s /\ gone v = negb (alive s) /\ rev (out s) = heard v /\
  (if alive s then ready_cb s = Some Init /\ error_cb s = Some (newest v) /\ message_cb s = match next s with O => None | S n => Some (Read n) end
   else ready_cb s = None /\ error_cb s = None /\ message_cb s = None).

Lemma owner_eqb_iff a b : owner_eqb a b = true <-> a = b.
Proof. split; [apply owner_eqb_true|intros ->; apply owner_eqb_refl]. Qed.
Lemma mem_in w o : mem w o = true <-> In o w. Proof. apply silent_in. Qed.

Lemma lives_rank s w : lives s w -> forall o, In o w -> rank o <= next s.
Proof.
  intros (rs & b & _ & _ & B & _ & _ & ->) o I. apply in_app_iff in I as [I|I]; [destruct b; [contradiction|destruct I as [<-|[]]; cbn; lia]|].
  apply in_map_iff in I as (n & <- & I). apply B in I. cbn. lia.
Qed.
Lemma regs_read rs k n : In (k, Read n) (regs rs) <-> In n rs /\ k <> Open.
Proof.
  unfold regs. rewrite in_app_iff, in_flat_map. split.
  - intros [[|[|[|[]]]]|(x & I & [H|[H|[H|[]]]])]; try discriminate; injection H as <- <-; split; auto; discriminate.
  - intros [I K]. right. exists n. split; [exact I|]. destruct k; cbn; auto; congruence.
Qed.
Lemma regs_init rs k : In (k, Init) (regs rs) <-> k <> Message.
Proof.
  unfold regs. rewrite in_app_iff, in_flat_map. split.
  - intros [[H|[H|[H|[]]]]|(x & I & [H|[H|[H|[]]]])]; try discriminate; injection H as <-; discriminate.
  - intros K. left. destruct k; cbn; auto; congruence.
Qed.
Lemma kind_eqb_iff a b : kind_eqb a b = true <-> a = b. Proof. destruct a, b; cbn; split; congruence. Qed.
Lemma listening_in e o s : listening e o s = true <-> In (kind_of e, o) (listeners s).
Proof.
  unfold listening. rewrite existsb_exists. split.
  - intros ([k o'] & I & H). apply andb_prop in H as [H1 H2]. cbn in *. apply kind_eqb_iff in H1. apply owner_eqb_true in H2. subst. exact I.
  - intros I. exists (kind_of e, o). split; [exact I|]. cbn. rewrite owner_eqb_refl, (proj2 (kind_eqb_iff _ _) eq_refl). reflexivity.
Qed.
Lemma live s w e o : lives s w -> listening e o s && negb (existsb (owner_eqb o) (silent s)) = mem w o && cares (kind_of e) o.
Proof.
  intros (rs & b & L & _ & B & Q & D & ->). apply Bool.eq_iff_eq_true. rewrite !Bool.andb_true_iff, listening_in, mem_in, L, Bool.negb_true_iff, in_app_iff, in_map_iff.
  destruct o as [|n].
  - rewrite regs_init, D. destruct b; (split; [intros [K X]|intros [X K]]); try discriminate.
    + destruct X as [[]|(x & X & _)]; discriminate.
    + split; [left; left; reflexivity|]. destruct (kind_of e); cbn; congruence.
    + split; [|reflexivity]. destruct (kind_of e); cbn in K; congruence.
  - rewrite regs_read. split.
    + intros [[I K] _]. split; [right; eauto|]. destruct (kind_of e); cbn; congruence.
    + intros [[I|(x & X & I)] K]; [destruct b; [contradiction|destruct I as [I|[]]; discriminate]|]. injection X as ->. split; [split; [exact I|destruct (kind_of e); cbn in K; congruence]|].
      destruct (existsb (owner_eqb (Read n)) (silent s)) eqn:S; [|reflexivity]. apply silent_in in S. destruct (Q _ S). contradiction.
Qed.

(* the listeners of an event *)
Lemma owners_regs k rs : map snd (filter (fun x => kind_eqb (fst x) k) (regs rs)) = filter (cares k) (Init :: map Read rs).
Proof.
  unfold regs. rewrite filter_app, map_app. replace (Init :: map Read rs) with ([Init] ++ map Read rs) by reflexivity. rewrite filter_app. f_equal; [destruct k; reflexivity|].
  induction rs as [|n rs IH]; [reflexivity|]. cbn [flat_map]. rewrite filter_app, map_app, IH. cbn [map filter]. destruct k; reflexivity.
Qed.
Definition below (a b : owner) : Prop := rank a < rank b.
Lemma sorted_owners rs : StronglySorted lt rs -> StronglySorted below (Init :: map Read rs).
Proof.
  intros S. constructor.
  - induction S as [|n rs S IH F]; [constructor|]. cbn. constructor; [exact IH|]. rewrite Forall_map. eapply Forall_impl; [|exact F]. intros a H. unfold below. cbn. lia.
  - rewrite Forall_map, Forall_forall. intros n _. unfold below. cbn. lia.
Qed.
Lemma sorted_filter (f : owner -> bool) l : StronglySorted below l -> StronglySorted below (filter f l).
Proof.
  induction 1 as [|a l S IH F]; cbn; [constructor|]. destruct (f a); [|exact IH]. constructor; [exact IH|]. rewrite Forall_forall in *. intros x I. apply filter_In in I as [I _]. auto.
Qed.
Lemma find_filter {A} (f g : A -> bool) l : (forall x, f x = true -> g x = true) -> find f (filter g l) = find f l.
Proof. intros H. induction l as [|a l IH]; [reflexivity|]. cbn. destruct (g a) eqn:G; cbn; rewrite IH; [reflexivity|]. destruct (f a) eqn:E; [|reflexivity]. apply H in E. congruence. Qed.
Lemma filter_swap {A} (f g : A -> bool) l : filter f (filter g l) = filter g (filter f l).
Proof. induction l as [|a l IH]; [reflexivity|]. cbn. destruct (g a) eqn:G, (f a) eqn:F; cbn; rewrite ?G, ?F, IH; reflexivity. Qed.
Lemma wants_cares e o : wants e o = true -> cares (kind_of e) o = true.
Proof. destruct e as [| | |[m|]], o; cbn; congruence. Qed.

(* before the event has reached anybody *)
Definition pending (s : st) (w : list owner) (e : event) (os : list owner) : Prop :=
  StronglySorted below os /\ (forall o, In o os -> cares (kind_of e) o = true /\ rank o <= next s) /\ find (wants e) w = find (wants e) (filter (mem w) os).
Lemma fired s w e : lives s w -> pending s w e (map snd (filter (fun x => kind_eqb (fst x) (kind_of e)) (listeners s))).
Proof.
  intros (rs & b & L & S & B & Q & D & E). rewrite L, owners_regs. split; [apply sorted_filter, sorted_owners, S|]. split.
  - intros o I. apply filter_In in I as [I C]. split; [exact C|]. destruct I as [<-|I]; [cbn; lia|]. apply in_map_iff in I as (n & <- & I). apply B in I. cbn. lia.
  - rewrite filter_swap, find_filter by apply wants_cares.
    assert (F : filter (mem w) (map Read rs) = map Read rs).
    { assert (G : forall o, In o (map Read rs) -> mem w o = true) by (intros o I; apply mem_in; rewrite E; apply in_or_app; right; exact I).
      clear - G. induction (map Read rs) as [|a l IH]; [reflexivity|]. cbn. rewrite (G a (or_introl eq_refl)), IH; [reflexivity|]. intros; apply G; right; assumption. }
    cbn [filter]. rewrite F. destruct (mem w Init) eqn:M.
    + apply mem_in in M. rewrite E in M |- *. destruct b; [|reflexivity]. apply in_map_iff in M as (x & X & _). discriminate.
    + rewrite E in M |- *. destruct b; [reflexivity|]. discriminate.
Qed.

Definition view_after (ls : list label) : option view := judge connecting ls.
Inductive meets (s : st) (j : option view) : Prop :=
| m_rest v w : stack s = [] -> j = Some v -> lives s w -> waiting v = w -> holds v s -> meets s j
| m_pending v w e os : stack s = [Dispatch e os] -> lives s w -> waiting v = w -> holds v s -> pending s w e os -> j = judge1 v (Fire e) -> meets s j
| m_body v w o e os : stack s = [Body o; Dispatch e os] -> j = Some v -> lives s w -> In o w -> waiting v = remove owner_dec o w -> holds v s -> rank o <= next s ->
    (forall x, In x os -> rank x <= next s /\ (In x w -> x = o)) -> meets s j
| m_done v w e os : stack s = [Dispatch e os] -> j = Some v -> lives s w -> waiting v = w -> holds v s -> (forall x, In x os -> rank x <= next s /\ ~ In x w) -> meets s j.

Lemma judge_snoc ls : forall v l, judge v (ls ++ [l]) = match judge v ls with Some v' => judge1 v' l | None => None end.
Proof. induction ls as [|a ls IH]; intros v l; cbn; [destruct (judge1 v l); reflexivity|]. destruct (judge1 v a); [apply IH|reflexivity]. Qed.

Lemma lives_stack s w k : lives s w -> lives (with_stack k s) w. Proof. intros H. exact H. Qed.
Lemma lives_said s w x : lives s w -> lives (said x s) w. Proof. intros H. exact H. Qed.
Lemma lives_destroy s w : lives s w -> lives (destroy s) w. Proof. intros H. exact H. Qed.
Lemma lives_start s w : lives s w -> lives (start s) (w ++ [Read (next s)]).
Proof.
  intros (rs & b & L & S & B & Q & D & ->). exists (rs ++ [next s]), b. cbn. split; [rewrite L; unfold regs; rewrite flat_map_app, <- app_assoc; reflexivity|]. split.
  - clear - S B. induction S as [|n rs S IH F]; cbn; [repeat constructor|]. constructor; [apply IH; intros; apply B; right; assumption|]. apply Forall_app. split; [exact F|]. constructor; [|constructor]. apply B. left. reflexivity.
  - split; [intros n I; apply in_app_iff in I as [I|[<-|[]]]; [apply B in I|]; lia|]. split; [|split; [exact D|rewrite map_app, app_assoc; reflexivity]].
    intros n I. destruct (Q n I) as [H1 H2]. split; [lia|]. intros J. apply in_app_iff in J as [J|[J|[]]]; [contradiction|lia].
Qed.
Lemma lives_nodup s w : lives s w -> NoDup w.
Proof.
  intros (rs & b & _ & S & _ & _ & _ & ->). assert (N : NoDup (map Read rs)).
  { clear - S. induction S as [|n rs S IH F]; cbn; constructor; [|exact IH]. intros I. apply in_map_iff in I as (x & X & I). injection X as ->. rewrite Forall_forall in F. apply F in I. lia. }
  destruct b; [exact N|]. constructor; [|exact N]. intros I. apply in_map_iff in I as (x & X & _). discriminate.
Qed.
Lemma remove_notin o w : ~ In o w -> remove owner_dec o w = w. Proof. apply notin_remove. Qed.
Lemma remove_map_read n rs : remove owner_dec (Read n) (map Read rs) = map Read (filter (fun x => negb (Nat.eqb x n)) rs).
Proof.
  induction rs as [|x rs IH]; [reflexivity|]. cbn [map remove filter]. destruct (owner_dec (Read n) (Read x)) as [E|E]; destruct (Nat.eqb_spec x n); cbn [negb]; try congruence. cbn [map]. now rewrite IH.
Qed.
Lemma filter_regs n rs : filter (fun x => negb (owner_eqb (snd x) (Read n))) (regs rs) = regs (filter (fun x => negb (Nat.eqb x n)) rs).
Proof.
  unfold regs. rewrite filter_app. f_equal. induction rs as [|x rs IH]; [reflexivity|]. cbn [flat_map]. rewrite filter_app, IH. cbn [filter]. destruct (Nat.eqb x n) eqn:E; cbn; rewrite E; reflexivity.
Qed.
Lemma lives_clean s w o : lives s w -> In o w -> rank o <= next s -> lives (clean_up o s) (remove owner_dec o w).
Proof.
  intros (rs & b & L & S & B & Q & D & ->) I R. destruct o as [|n].
  - exists rs, true. cbn. split; [exact L|]. split; [exact S|]. split; [exact B|]. split; [intros n [X|X]; [discriminate|auto]|]. split; [reflexivity|].
    assert (N : remove owner_dec Init (map Read rs) = map Read rs) by (apply remove_notin; intros J; apply in_map_iff in J as (x & X & _); discriminate).
    destruct b; cbn; [exact N|]. destruct (owner_dec Init Init); [exact N|congruence].
  - exists (filter (fun x => negb (Nat.eqb x n)) rs), b. cbn [clean_up listeners next silent]. split; [rewrite L; apply filter_regs|]. split.
    { clear - S. induction S as [|a l S IH F]; cbn; [constructor|]. destruct (negb (a =? n)); [|exact IH]. constructor; [exact IH|]. rewrite Forall_forall in *. intros x I. apply filter_In in I as [I _]. auto. }
    split; [intros x J; apply filter_In in J as [J _]; auto|]. split.
    { intros x [X|X]; [injection X as <-; cbn in R; split; [lia|]; intros J; apply filter_In in J as [_ J]; rewrite Nat.eqb_refl in J; discriminate|].
      destruct (Q x X) as [Q1 Q2]. split; [exact Q1|]. intros J. apply filter_In in J as [J _]. contradiction. }
    split; [exact D|]. rewrite remove_app, remove_map_read. f_equal. destruct b; [reflexivity|]. cbn. destruct (owner_dec (Read n) Init); [discriminate|reflexivity].
Qed.

Lemma holds_stack v s k : holds v s -> holds v (with_stack k s). Proof. intros H. exact H. Qed.
Lemma holds_clean v s o : holds v s -> holds v (clean_up o s). Proof. intros H. exact H. Qed.
Lemma holds_start v s w : holds v s -> alive s = true -> holds {| waiting := w; started := S (started v); gone := false; heard := heard v |} (start s).
Proof. intros (A & B & C & D) L. rewrite L in *. unfold holds, start, newest. cbn. rewrite L, A. cbn. repeat split; auto; apply D. Qed.
Lemma holds_destroy v s w : holds v s -> holds {| waiting := w; started := started v; gone := true; heard := heard v |} (destroy s).
Proof. intros (A & B & C & D). unfold holds, destroy. cbn. auto 8. Qed.
Lemma holds_told v s w o x : holds v s -> holds {| waiting := w; started := started v; gone := gone v; heard := heard v ++ [(o, x)] |} (said (o, x) s).
Proof. intros (A & B & C & D). unfold holds, said, newest in *. cbn. rewrite C. auto. Qed.

Lemma reaction_wants v s e o : holds v s -> cares (kind_of e) o = true ->
  match reaction o e s with None => wants e o = false | Some (cb, x) => wants e o = true /\ x = answer e /\ is o cb = tellable v e o end.
Proof.
  intros (A & B & C & D) K. unfold tellable, newest in *. rewrite A in *. rewrite B.
  destruct e as [| | |[m|]], o as [|n]; cbn in K |- *; try discriminate; auto; (split; [reflexivity|]; split; [reflexivity|]);
    destruct (alive s); destruct D as (D1 & D2 & D3); rewrite ?D1, ?D2, ?D3; cbn; auto; destruct (next s) as [|m0]; cbn;
    try (match goal with |- context [Nat.eqb ?a ?b] => destruct (Nat.eqb_spec a b) end);
    try (match goal with |- context [owner_dec ?a ?b] => destruct (owner_dec a b) as [X|X] end); cbn; congruence.
Qed.
Lemma newest_rank v s : holds v s -> rank (newest v) = next s.
Proof. intros (A & _). unfold newest. rewrite A. destruct (next s); reflexivity. Qed.
Lemma tellable_last v s e o os : holds v s -> tellable v e o = true -> (forall x, In x os -> cares (kind_of e) x = true /\ rank x <= next s) -> Forall (below o) os ->
  os = [].
Proof.
  intros H T C F. destruct os as [|x os]; [reflexivity|exfalso]. inversion F as [|? ? Fx _]. subst. destruct (C x (or_introl eq_refl)) as [C1 C2]. unfold below in Fx.
  unfold tellable in T. apply andb_prop in T as [_ T]. assert (G : e = EOpen \/ o = newest v) by (destruct e; auto; right; destruct (owner_dec o (newest v)); congruence).
  destruct G as [-> | ->]; [destruct x; [cbn in Fx; lia|discriminate]|]. rewrite (newest_rank v s H) in Fx. lia.
Qed.

Lemma meets_start s w v : lives s w -> holds v s -> waiting v = w -> alive s = true -> waiting v ++ [Read (started v)] = w ++ [Read (next s)].
Proof. intros _ (A & _) -> _. now rewrite A. Qed.
Lemma meets_step s j l c : meets s j -> step s l = Some c ->
  match c with Run s' => meets s' (match j with Some v => judge1 v l | None => None end) | Bad => match j with Some v => judge1 v l | None => None end = None end.
Proof.
  intros M St. destruct M as [v w K J L W H|v w e os K L W H P J|v w o e os K J L I W H R X|v w e os K J L W H X].
  - subst j. assert (G : gone v = negb (alive s)) by apply H. destruct l as [e| | |]; cbn [step] in St; unfold in_cpp in St; rewrite K in St; try discriminate.
    + injection St as <-. eapply (m_pending _ _ v w e); [reflexivity|exact L|exact W|exact H|exact (fired s w e L)|reflexivity].
    + injection St as <-. cbn [judge1]. rewrite G. destruct (alive s) eqn:A; cbn [negb]; [|reflexivity].
      eapply m_rest; [exact K|reflexivity|apply lives_start, L|cbn; eapply meets_start; eauto|apply holds_start; assumption].
    + injection St as <-. cbn [judge1]. rewrite G. destruct (alive s) eqn:A; cbn [negb]; [|reflexivity].
      eapply m_rest; [exact K|reflexivity|apply lives_destroy, L|exact W|apply holds_destroy; assumption].
  - assert (Lt : l = Tick) by (destruct l; cbn [step] in St; unfold in_cpp in St; rewrite K in St; try discriminate; reflexivity). subst l.
    destruct P as (P1 & P2 & P3). replace (match j with Some v0 => judge1 v0 Tick | None => None end) with j by (destruct j; reflexivity).
    cbn [step] in St. rewrite K in St. destruct os as [|o os].
    + injection St as <-. apply (m_rest _ _ v w); auto. rewrite J. cbn [judge1]. rewrite W, P3. reflexivity.
    + inversion P1 as [|? ? S1 F1]. subst. destruct (P2 o (or_introl eq_refl)) as [C1 C2]. rewrite (live s (waiting v) e o L), C1, Bool.andb_true_r in St. cbn [filter] in P3.
      assert (P2' : forall x, In x os -> cares (kind_of e) x = true /\ rank x <= next s) by (intros; apply P2; right; assumption).
      destruct (mem (waiting v) o) eqn:M.
      * pose proof (reaction_wants v s e o H C1) as RW. destruct (reaction o e s) as [[cb x]|].
        -- destruct RW as (RW1 & RW2 & RW3). cbn [find] in P3. rewrite RW1 in P3. cbn [judge1]. rewrite P3, <- RW3. injection St as <-. destruct (is o cb) eqn:Is; [|reflexivity].
           pose proof (tellable_last v s e o os H (eq_sym RW3) P2' F1) as ->. subst x. apply mem_in in M.
           eapply (m_body _ _ _ (waiting v) o e []); [reflexivity|reflexivity|exact L|exact M|reflexivity|exact (holds_told v s _ o _ H)|exact C2|intros y []].
        -- injection St as <-. eapply (m_pending _ _ v (waiting v) e os); auto. split; [exact S1|]. split; [exact P2'|]. rewrite P3. cbn [find]. rewrite RW. reflexivity.
      * injection St as <-. eapply (m_pending _ _ v (waiting v) e os); auto. split; [exact S1|]. split; [exact P2'|exact P3].
  - subst j. assert (G : gone v = negb (alive s)) by apply H. destruct l as [e0| | |]; cbn [step] in St; unfold in_cpp in St; rewrite K in St; try discriminate.
    + injection St as <-. cbn [judge1]. eapply (m_done _ _ v (remove owner_dec o w) e os); [reflexivity|reflexivity|apply lives_stack, lives_clean; assumption|exact W|exact H|].
      intros x Ix. destruct (X x Ix) as [X1 X2]. split; [exact X1|]. intros Q. apply in_remove in Q as [Q1 Q2]. auto.
    + injection St as <-. cbn [judge1]. rewrite G. destruct (alive s) eqn:A; cbn [negb]; [|reflexivity].
      eapply (m_body _ _ _ (w ++ [Read (next s)]) o e os); [exact K|reflexivity|apply lives_start, L|apply in_or_app; left; exact I| |apply holds_start; assumption|cbn; lia|].
      * cbn. rewrite remove_app, W. f_equal. destruct H as (H1 & _). rewrite H1. symmetry. apply remove_notin. intros [Q|[]]. subst o. cbn in R. lia.
      * intros x Ix. destruct (X x Ix) as [X1 X2]. cbn [start next]. split; [lia|]. intros Q. apply in_app_iff in Q as [Q|[Q|[]]]; [auto|]. subst x. cbn in X1. lia.
    + injection St as <-. cbn [judge1]. rewrite G. destruct (alive s) eqn:A; cbn [negb]; [|reflexivity].
      eapply (m_body _ _ _ w o e os); [exact K|reflexivity|exact L|exact I|exact W|apply holds_destroy; assumption|exact R|exact X].
  - assert (Lt : l = Tick) by (destruct l; cbn [step] in St; unfold in_cpp in St; rewrite K in St; try discriminate; reflexivity). subst l j. cbn [judge1].
    cbn [step] in St. rewrite K in St. destruct os as [|o os].
    + injection St as <-. apply (m_rest _ _ v w); auto.
    + rewrite (live s w e o L) in St. destruct (X o (or_introl eq_refl)) as [_ X2]. destruct (mem w o) eqn:M; [apply mem_in in M; contradiction|]. injection St as <-.
      apply (m_done _ _ v w e os); auto. intros x Ix. apply X. right. exact Ix.
Qed.
Lemma meets_init : meets init (Some connecting).
Proof.
  eapply (m_rest _ _ connecting [Init]); auto.
  - exists [], false. split; [reflexivity|]. split; [constructor|]. split; [intros n []|]. split; [intros n []|]. split; reflexivity.
  - repeat split.
Qed.
Lemma exec_meets ls c : exec ls c -> match c with Run s => meets s (judge connecting ls) | Bad => judge connecting ls = None end.
Proof.
  induction 1 as [|ls l s c E IH St]; [exact meets_init|]. rewrite judge_snoc. exact (meets_step s _ l c IH St).
Qed.
