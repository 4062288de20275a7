From Verif Require Import Base EvModel EvSpec.
Open Scope N_scope.

Definition entry (o : listener) : N * N * N := (l_el o, l_name o, l_fn o).

Record inv (s : st) : Prop := {
  inv_dom : dom s = map entry (objects s);
  inv_fresh : forall o, In o (objects s) -> l_fn o < next s;
  inv_nodup : NoDup (map l_fn (objects s)) }.

Lemma entry_eqb_spec a b : reflect (a = b) (entry_eqb a b).
Proof.
  destruct a as [[e n] f], b as [[e' n'] f']. cbn. destruct (N.eqb_spec e e'); cbn; [|constructor; congruence].
  destruct (N.eqb_spec n n'); cbn; [|constructor; congruence]. destruct (N.eqb_spec f f'); constructor; congruence.
Qed.

Lemma inv_init : inv init.
Proof. split; cbn; [reflexivity|intros o []|constructor]. Qed.

Lemma inv_listen el name h s : inv s -> inv (listen el name h s).
Proof.
  intros [Hd Hf Hn]. assert (NI : ~ In (next s) (map l_fn (objects s))).
  { intros Hi. apply in_map_iff in Hi. destruct Hi as (o & E & Ho). apply Hf in Ho. lia. }
  unfold listen. split; cbn.
  - unfold add_event_listener. destruct (existsb _ (dom s)) eqn:E; [|rewrite map_app; cbn; now rewrite Hd].
    exfalso. apply existsb_exists in E. destruct E as (x & Hx & Ex). destruct (entry_eqb_spec (el, name, next s) x); [|discriminate]. subst x.
    rewrite Hd in Hx. apply in_map_iff in Hx. destruct Hx as (o & Eo & Ho). apply NI. apply in_map_iff. exists o. split; [|auto]. now injection Eo.
  - intros o Ho. apply in_app_iff in Ho. destruct Ho as [Ho|[<-|[]]]; cbn; [apply Hf in Ho; lia|lia].
  - rewrite map_app. cbn. clear -Hn NI. induction (map l_fn (objects s)) as [|a l IH]; cbn; [repeat constructor; auto|].
    inversion Hn; subst. constructor; [|apply IH; auto; cbn in NI; tauto]. rewrite in_app_iff. cbn in *. intuition.
Qed.

Lemma find_object_in s f o : find_object f s = Some o -> In o (objects s) /\ l_fn o = f.
Proof. intros E. apply find_some in E. destruct E as [A B]. apply N.eqb_eq in B. auto. Qed.

Lemma find_object_is s o : inv s -> In o (objects s) -> find_object (l_fn o) s = Some o.
Proof.
  intros [_ _ Hn] Hi. unfold find_object. induction (objects s) as [|x l IH]; [contradiction|]. cbn in *. inversion Hn; subst.
  destruct (N.eqb_spec (l_fn x) (l_fn o)) as [E|E].
  - destruct Hi as [->|Hi]; [reflexivity|]. exfalso. apply H1. rewrite E. now apply in_map.
  - destruct Hi as [->|Hi]; [congruence|auto].
Qed.

Lemma inv_drop f s : inv s -> inv (drop f s).
Proof.
  intros H. unfold drop. destruct (find_object f s) as [o|] eqn:E; [|auto]. destruct (find_object_in _ _ _ E) as [Ho Ef].
  assert (X : forall x, In x (objects s) -> negb (entry_eqb (l_el o, l_name o, f) (entry x)) = negb (l_fn x =? f)).
  { intros x Hx. f_equal. destruct (entry_eqb_spec (l_el o, l_name o, f) (entry x)) as [Q|Q]; destruct (N.eqb_spec (l_fn x) f) as [W|W]; auto.
    - injection Q as _ _ Q. congruence.
    - exfalso. apply Q. pose proof (find_object_is s x H Hx) as Fx. rewrite W, E in Fx. injection Fx as ->. unfold entry. congruence. }
  destruct H as [Hd Hf Hn]. split; cbn.
  - unfold remove_event_listener. rewrite Hd. clear -X. induction (objects s) as [|x l IH]; [reflexivity|]. cbn [map filter]. rewrite X by now left.
    destruct (negb (l_fn x =? f)); cbn [map]; rewrite IH; auto; intros; apply X; now right.
  - intros x Hx. apply filter_In in Hx. now apply Hf.
  - clear -Hn. induction (objects s) as [|x l IH]; cbn; [constructor|]. cbn in Hn. inversion Hn; subst. destruct (negb (l_fn x =? f)); cbn; auto. constructor; auto.
    intros Hi. apply H1. apply in_map_iff in Hi. destruct Hi as (y & Ey & Hy). apply filter_In in Hy. apply in_map_iff. exists y. tauto.
Qed.

(* the same listeners, whatever the rest *)
Lemma inv_same s s' : inv s -> dom s' = dom s -> objects s' = objects s -> next s' = next s -> inv s'.
Proof. intros [A B C] E1 E2 E3. split; rewrite ?E1, ?E2, ?E3; auto. Qed.

Lemma in_dom s el name f : inv s -> existsb (entry_eqb (el, name, f)) (dom s) = true ->
  exists o, find_object f s = Some o /\ In o (objects s) /\ l_el o = el /\ l_name o = name /\ l_fn o = f.
Proof.
  intros H E. apply existsb_exists in E. destruct E as (x & Hx & Ex). destruct (entry_eqb_spec (el, name, f) x); [|discriminate]. subst x.
  rewrite (inv_dom _ H) in Hx. apply in_map_iff in Hx. destruct Hx as (o & Eo & Ho). injection Eo as <- <- <-. exists o. split; [now apply find_object_is|auto].
Qed.

Definition good (c : config) : Prop := match c with Run s _ => inv s | DeadCall => False | DeadUse => True end.

Lemma step_good c c' : good c -> step c = Some c' -> good c'.
Proof.
  intros H E. destruct c as [s [|[[|[el name h|f|el name ev] l]|el name [|f fs] ev|f [|[|l'] l]] k]| |]; cbn in *; try discriminate; try contradiction.
  - now injection E as <-.
  - injection E as <-. now apply inv_listen.
  - injection E as <-. now apply inv_drop.
  - now injection E as <-.
  - now injection E as <-.
  - destruct (existsb _ (dom s)) eqn:Ed; [|now injection E as <-]. destruct (in_dom s el name f H Ed) as (o & Eo & _). rewrite Eo in E. injection E as <-.
    eapply inv_same; eauto.
  - now injection E as <-.
  - destruct (seen f s); injection E as <-; cbn; auto. eapply inv_same; eauto.
  - destruct (find_object f s); injection E as <-; cbn; auto.
Qed.

Lemma reaches_good c c' : reaches c c' -> good c -> good c'.
Proof. induction 1; auto. intros G. apply IHreaches. eapply step_good; eauto. Qed.

(* ---- an event whose handlers only look ---- *)
Lemma reaches_trans a b c : reaches a b -> reaches b c -> reaches a c.
Proof. induction 1; auto. intros. econstructor; eauto. Qed.

Definition with_trace (s : st) (d : list (N * N)) (t : list note) : st :=
  {| dom := dom s; objects := objects s; data := d; next := next s; trace := t |}.

Lemma quiet_handler f ev o : forall l s d t k, Forall quiet_use l -> find_object f s = Some o -> seen f (with_trace s d t) = Some ev ->
  reaches (Run (with_trace s d t) (Handler f l :: k)) (Run (with_trace s d (repeat (Saw f ev) (looks l) ++ t)) k).
Proof.
  induction l as [|u l IH]; intros s d t k Q F SE.
  - eapply reach_step; [reflexivity|apply reach_refl].
  - inversion Q as [|u' l' Qu Ql]; subst. destruct Qu as [->| ->].
    + eapply reach_step; [cbn [step]; rewrite SE; reflexivity|]. cbn [data dom objects next trace with_trace].
      change (looks (Look :: l)) with (S (looks l)).
      replace (repeat (Saw f ev) (S (looks l)) ++ t) with (repeat (Saw f ev) (looks l) ++ Saw f ev :: t).
      * apply (IH s d (Saw f ev :: t) k); auto.
      * cbn [repeat app]. clear. induction (looks l); cbn; congruence.
    + eapply reach_step; [cbn [step]; change (find_object f (with_trace s d t)) with (find_object f s); rewrite F; reflexivity|].
      eapply reach_step; [reflexivity|]. change (looks (Send [] :: l)) with (looks l). now apply IH.
Qed.

Lemma quiet_dispatch el name ev : forall os s d t k, inv s -> (forall o, In o (objects s) -> quiet (l_handler o)) ->
  (forall o, In o os -> In o (objects s) /\ listens el name o = true) ->
  exists d', reaches (Run (with_trace s d t) (Dispatch el name (map l_fn os) ev :: k)) (Run (with_trace s d' (rev (flat_map (notes ev) os) ++ t)) k).
Proof.
  induction os as [|o os IH]; intros s d t k H Q Ho.
  - exists d. eapply reach_step; [reflexivity|apply reach_refl].
  - destruct (Ho o (or_introl eq_refl)) as [Hi Hl]. apply andb_prop in Hl. destruct Hl as [L1 L2]. apply N.eqb_eq in L1, L2.
    set (d1 := (l_fn o, ev) :: filter (fun x => negb (fst x =? l_fn o)) d).
    destruct (IH s d1 (repeat (Saw (l_fn o) ev) (looks (l_handler o ev)) ++ Called (l_fn o) ev :: t) k H Q (fun x Hx => Ho x (or_intror Hx))) as (d' & R).
    exists d'. cbn [map flat_map rev].
    eapply reach_step.
    { cbn [step]. change (dom (with_trace s d t)) with (dom s). assert (existsb (entry_eqb (el, name, l_fn o)) (dom s) = true) as ->.
      { apply existsb_exists. exists (entry o). split; [rewrite (inv_dom _ H); now apply in_map|]. unfold entry. rewrite L1, L2. now destruct (entry_eqb_spec (el, name, l_fn o) (el, name, l_fn o)). }
      change (find_object (l_fn o) (with_trace s d t)) with (find_object (l_fn o) s). rewrite (find_object_is s o H Hi). reflexivity. }
    cbn [data dom objects next trace with_trace]. fold d1.
    eapply reaches_trans.
    { apply (quiet_handler (l_fn o) ev o (l_handler o ev) s d1 (Called (l_fn o) ev :: t)); [now apply Q|now apply find_object_is|].
      unfold seen. cbn. now rewrite N.eqb_refl. }
    rewrite rev_app_distr, <- app_assoc.
    replace (rev (notes ev o) ++ t) with (repeat (Saw (l_fn o) ev) (looks (l_handler o ev)) ++ Called (l_fn o) ev :: t); [exact R|].
    unfold notes. cbn [rev]. rewrite <- app_assoc. cbn [app]. f_equal. clear. induction (looks (l_handler o ev)) as [|n IH]; [reflexivity|].
    cbn [repeat rev]. rewrite <- IH. clear. induction n; cbn; congruence.
Qed.

Lemma functions_dom el name s : inv s -> functions el name (dom s) = map l_fn (filter (listens el name) (objects s)).
Proof.
  intros H. unfold functions. rewrite (inv_dom _ H). clear. induction (objects s) as [|o l IH]; [reflexivity|]. cbn. unfold listens at 1.
  destruct ((l_el o =? el) && (l_name o =? name)); cbn; congruence.
Qed.

(* ---- handlers that look first ---- *)
Definition below (t : task) : Prop :=
  match t with Effects l => looks_first_all l | Dispatch _ _ _ _ => True | Handler _ l => l = [] end.
Definition head_is (f e : N) (t : list note) : Prop :=
  match t with Called f' e' :: _ | Saw f' e' :: _ => f' = f /\ e' = e | [] => False end.
Definition ready (s : st) (k : list task) : Prop :=
  match k with
  | [] => True
  | Handler f l :: r => Forall below r /\ looks_first_uses l /\ (l = [] \/ exists e o, seen f s = Some e /\ find_object f s = Some o /\ head_is f e (trace s))
  | _ => Forall below k
  end.
Definition tidy (c : config) : Prop :=
  match c with
  | Run s k => inv s /\ (forall o ev, In o (objects s) -> looks_first_uses (l_handler o ev)) /\ ready s k /\ sees_own_event (trace s)
  | _ => False
  end.

Lemma go_all l : (fix go l' := match l' with [] => True | e :: q => looks_first_effect e /\ go q end) l <-> looks_first_all l.
Proof. induction l as [|e l IH]; [split; constructor|]. rewrite IH. split; [intros []; now constructor|intros X; inversion X; auto]. Qed.

Lemma uses_same l : (fix uses (l : list use) : Prop :=
      match l with
      | [] => True
      | Look :: r => uses r
      | Send l' :: r => r = [] /\ (fix go l' := match l' with [] => True | e :: q => looks_first_effect e /\ go q end) l'
      end) l <-> looks_first_uses l.
Proof. induction l as [|[|l'] l IH]; cbn; tauto. Qed.

Lemma ready_below s k : Forall below k -> ready s k.
Proof.
  intros H. destruct k as [|[l|a b c d|f l] k]; cbn; auto. inversion H; subst. cbn in *. subst. split; [auto|]. split; [exact I|now left].
Qed.

Lemma drop_objects f s o : In o (objects (drop f s)) -> In o (objects s).
Proof. unfold drop. destruct (find_object f s); auto. cbn. intros H. now apply filter_In in H. Qed.
Lemma drop_trace f s : trace (drop f s) = trace s.
Proof. unfold drop. destruct (find_object f s); auto. Qed.

Lemma step_tidy c c' : tidy c -> step c = Some c' -> tidy c'.
Proof.
  intros H E. destruct c as [s k| |]; try contradiction. destruct H as (HI & HH & HR & HS).
  destruct k as [|[[|[el name h|f|el name ev] l]|el name [|f fs] ev|f [|[|l'] l]] k]; cbn [step] in E; try discriminate.
  - injection E as <-. cbn in HR. inversion HR; subst. split; [auto|]. split; [auto|]. split; [now apply ready_below|auto].
  - injection E as <-. cbn in HR. inversion HR as [|? ? H1 H2]; subst. cbn in H1. inversion H1 as [|? ? H3 H4]; subst. split; [now apply inv_listen|].
    split; [|split; [|exact HS]].
    + intros o ev Ho. unfold listen in Ho. cbn in Ho. apply in_app_iff in Ho. destruct Ho as [Ho|[<-|[]]]; [auto|]. cbn. apply uses_same. exact (H3 ev).
    + cbn [ready]. constructor; auto.
  - injection E as <-. cbn in HR. inversion HR as [|? ? H1 H2]; subst. cbn in H1. inversion H1 as [|? ? H3 H4]; subst. split; [now apply inv_drop|].
    split; [intros o ev Ho; apply HH; now apply drop_objects in Ho|]. split; [cbn [ready]; constructor; auto|]. now rewrite drop_trace.
  - injection E as <-. cbn in HR. inversion HR as [|? ? H1 H2]; subst. cbn in H1. inversion H1 as [|? ? H3 H4]; subst. split; [auto|]. split; [auto|]. split; [|auto].
    cbn [ready]. constructor; [exact I|]. constructor; auto.
  - injection E as <-. cbn in HR. inversion HR; subst. split; [auto|]. split; [auto|]. split; [now apply ready_below|auto].
  - cbn in HR. inversion HR as [|? ? H1 H2]; subst. destruct (existsb _ (dom s)) eqn:Ed.
    + destruct (in_dom s el name f HI Ed) as (o & Eo & Ho & _ & _ & Ef). rewrite Eo in E. injection E as <-. split; [eapply inv_same; eauto|]. split; [exact HH|]. split; [|exact HS].
      cbn [ready]. split; [constructor; auto; exact I|]. split; [now apply HH|]. right. exists ev, o. split; [unfold seen; cbn; now rewrite N.eqb_refl|].
      split; [exact Eo|]. cbn. auto.
    + injection E as <-. split; [auto|]. split; [auto|]. split; [|auto]. cbn [ready]. constructor; auto; exact I.
  - injection E as <-. cbn in HR. split; [auto|]. split; [auto|]. split; [|auto]. now apply ready_below.
  - cbn in HR. destruct HR as (H1 & H2 & [H3|(e & o & H3 & H4 & H5)]); [discriminate|]. rewrite H3 in E. injection E as <-. split; [eapply inv_same; eauto|]. split; [exact HH|].
    split.
    + cbn [ready]. split; [auto|]. split; [exact H2|]. right. exists e, o. split; [exact H3|]. split; [exact H4|]. cbn. auto.
    + cbn [trace sees_own_event]. split; [|exact HS]. unfold head_is in H5. destruct (trace s) as [|[f' e'|f' e'] t]; [contradiction| |]; destruct H5; auto.
  - cbn in HR. destruct HR as (H1 & (H2 & H2') & [H3|(e & o & H3 & H4 & H5)]); [discriminate|]. rewrite H4 in E. injection E as <-. subst l.
    split; [auto|]. split; [auto|]. split; [|auto]. cbn [ready]. constructor; [now apply go_all|]. constructor; auto. reflexivity.
Qed.

Lemma reaches_tidy c c' : reaches c c' -> tidy c -> tidy c'.
Proof. induction 1; auto. intros G. apply IHreaches. eapply step_tidy; eauto. Qed.

(* ---- what is seen ---- *)
Record kept (s : st) (k : list task) : Prop := {
  k_inv : inv s;
  k_data : forall f, alive f s -> seen f s = last_called f (trace s);
  k_next : forall f e, In (Called f e) (trace s) -> f < next s;
  k_bound : forall d, In d (data s) -> alive (fst d) s;
  k_saw : forall t1 f e t2, trace s = t1 ++ Saw f e :: t2 -> last_called f t2 = Some e;
  k_task : forall f r, In (Handler f r) k -> exists e, last_called f (trace s) = Some e
}.
Lemma find_alive f s : find_object f s <> None <-> alive f s.
Proof.
  unfold find_object, alive. split.
  - destruct (find _ _) as [o|] eqn:E; [|congruence]. intros _. apply find_some in E as [H1 H2]. exists o. split; auto. apply N.eqb_eq; auto.
  - intros (o & H1 & H2) E. apply (find_none _ _ E) in H1. apply N.eqb_neq in H1. auto.
Qed.
Lemma seen_filter f g d : f <> g -> option_map snd (find (fun d => fst d =? f) (filter (fun d : N * N => negb (fst d =? g)) d)) = option_map snd (find (fun d => fst d =? f) d).
Proof.
  intros H. induction d as [|[a b] d IH]; [reflexivity|]. cbn. destruct (N.eqb_spec a g); cbn.
  - destruct (N.eqb_spec a f); [congruence|]. exact IH.
  - destruct (N.eqb_spec a f); [reflexivity|]. exact IH.
Qed.
Lemma last_called_in f t e : last_called f t = Some e -> In (Called f e) t.
Proof. induction t as [|[g x|g x] t IH]; cbn; intros H; [discriminate| |auto]. destruct (N.eqb_spec g f); [left; congruence|auto]. Qed.
Lemma snoc_cons A (x : A) t t1 y t2 : x :: t = t1 ++ y :: t2 -> (t1 = [] /\ x = y /\ t = t2) \/ exists t1', t = t1' ++ y :: t2.
Proof. destruct t1 as [|z t1]; cbn; intros E; injection E as -> ->; [left; auto|right; eauto]. Qed.

Lemma kept_step s k s' k' : kept s k -> step (Run s k) = Some (Run s' k') -> kept s' k'.
Proof.
  intros K H. assert (G : inv s') by (exact (step_good (Run s k) (Run s' k') (k_inv _ _ K) H)). destruct K as [KI KD KN KB KS KT].
  destruct k as [|t k]; [discriminate|].
  assert (KT' : forall f r, In (Handler f r) k -> exists e, last_called f (trace s) = Some e) by (intros f r Hf; apply (KT f r); right; auto).
  destruct t as [[|[el name h|f|el name ev] l]|el name [|f fs] ev|f [|[|l] r]]; cbn [step] in H.
  - injection H as <- <-. constructor; auto.
  - injection H as <- <-. constructor; auto.
    + intros f (o & Ho & Hf). cbn in Ho. cbn [trace listen]. change (seen f (listen el name h s)) with (seen f s). apply in_app_iff in Ho as [Ho|[<-|[]]].
      * apply KD. exists o; auto.
      * cbn in Hf. subst f. destruct (last_called (next s) (trace s)) as [e|] eqn:E; [exfalso; apply last_called_in, KN in E; lia|].
        unfold seen. destruct (find _ (data s)) as [[a b]|] eqn:F; [|reflexivity]. exfalso. apply find_some in F as [F1 F2]. cbn in F2. apply N.eqb_eq in F2. subst a.
        apply KB in F1 as (x & F1 & F2). apply (inv_fresh _ KI) in F1. cbn in F2. lia.
    + intros f e Hf. cbn. specialize (KN f e Hf). lia.
    + intros d Hd. destruct (KB d Hd) as (x & X1 & X2). exists x. split; auto. cbn. apply in_app_iff; auto.
    + intros f r [Hf|Hf]; [discriminate|]. cbn. eauto.
  - injection H as <- <-. unfold drop in *. destruct (find_object f s) as [o|] eqn:Ef.
    2:{ constructor; auto. intros g r [Hg|Hg]; [discriminate|]. eauto. }
    constructor; auto.
    + intros g (x & Hx & Hg). cbn in Hx. apply filter_In in Hx as [Hx1 Hx2]. subst g. apply negb_true_iff, N.eqb_neq in Hx2.
      cbn [trace]. unfold seen. cbn [data]. rewrite seen_filter by exact Hx2. apply KD. exists x; auto.
    + intros d Hd. cbn in Hd. apply filter_In in Hd as [Hd Hn]. destruct (KB d Hd) as (x & X1 & X2). exists x. split; auto. cbn. apply filter_In. rewrite X2. auto.
    + intros g r [Hg|Hg]; [discriminate|]. cbn. eauto.
  - injection H as <- <-. constructor; auto. intros g r [Hg|[Hg|Hg]]; try discriminate. eauto.
  - injection H as <- <-. constructor; auto.
  - destruct (existsb _ (dom s)) eqn:Ex.
    2:{ injection H as <- <-. constructor; auto. intros g r [Hg|Hg]; [discriminate|]. eauto. }
    destruct (find_object f s) as [o|] eqn:Ef; [|discriminate]. injection H as <- <-.
    assert (Hf : f < next s).
    { apply find_object_in in Ef as [E1 <-]. apply (inv_fresh _ KI); auto. }
    constructor; auto.
    + intros g (x & Hx & Hg). cbn in Hx. cbn [trace last_called]. unfold seen. cbn [data find fst]. destruct (N.eqb_spec f g) as [->|Hn]; [reflexivity|].
      rewrite seen_filter by congruence. apply KD. exists x; auto.
    + intros g e [[= <- <-]|Hg]; cbn; eauto.
    + intros d [<-|Hd]; [apply find_object_in in Ef as [E1 E2]; exists o; auto|]. apply filter_In in Hd as [Hd _]. destruct (KB d Hd) as (x & X1 & X2). exists x; auto.
    + intros t1 g e t2 E. cbn [trace] in E. apply snoc_cons in E as [(_ & E & _)|[t1' E]]; [discriminate|eauto].
    + assert (KC : forall g, (exists e, last_called g (trace s) = Some e) -> exists e, last_called g (Called f ev :: trace s) = Some e).
      { intros g [e E]. cbn. destruct (f =? g); eauto. }
      intros g r [Hg|[Hg|Hg]]; try discriminate.
      * injection Hg as <- _. cbn. rewrite N.eqb_refl. eauto.
      * cbn [trace]. eauto.
  - injection H as <- <-. constructor; auto.
  - destruct (seen f s) as [e|] eqn:Es; [|discriminate]. injection H as <- <-. constructor; auto.
    + intros g e' [[=]|Hg]. eauto.
    + intros t1 g e' t2 E. cbn [trace] in E. apply snoc_cons in E as [(_ & E & <-)|[t1' E]]; [|eauto]. injection E as <- <-.
      rewrite <- KD; [exact Es|]. unfold seen in Es. destruct (find _ (data s)) as [d|] eqn:Ed; [|discriminate].
      apply find_some in Ed as [D1 D2]. apply N.eqb_eq in D2. rewrite <- D2. auto.
    + intros g r' [Hg|Hg]; [|cbn; eauto]. injection Hg as <- _. cbn. destruct (KT f (Look :: r)) as [e' E']; [left; auto|]. eauto.
  - destruct (find_object f s) as [o|] eqn:Ef; [|discriminate]. injection H as <- <-. constructor; auto.
    intros g r' [Hg|[Hg|Hg]]; [discriminate| |eauto]. injection Hg as <- _. apply (KT f (Send l :: r)). left; auto.
Qed.
Lemma reaches_kept c c' : reaches c c' -> forall s k s' k', c = Run s k -> c' = Run s' k' -> kept s k -> kept s' k'.
Proof.
  induction 1 as [c|c c1 c2 S R IH]; intros s k s' k' E1 E2 K.
  - subst c. injection E2 as <- <-. exact K.
  - subst c. destruct c1 as [s1 k1| |]; [eapply IH; eauto; eapply kept_step; eauto| |]; inversion R; subst; discriminate.
Qed.
Lemma kept_starts l s k : reaches (starts l) (Run s k) -> kept s k.
Proof.
  intros R. eapply (reaches_kept _ _ R); [reflexivity|reflexivity|]. constructor; cbn; try contradiction.
  - exact inv_init.
  - intros f (o & [] & _).
  - intros [|? ?] ? ? ? E; discriminate.
  - intros f r [E|[]]. discriminate.
Qed.
