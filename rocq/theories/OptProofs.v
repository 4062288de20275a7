From Verif Require Import Base DeltaModel DeltaSpec DeltaProofs OptModel OptSpec.
Open Scope nat_scope.

Section P.
Context {V : Type} (eqb : V -> V -> bool).
Hypothesis eqb_spec : forall x y, eqb x y = true <-> x = y.
Variables (n : nat) (e : list V).
Notation step := (step eqb n). Notation exec := (exec eqb n). Notation ov := (ov eqb).

Lemma exec_snoc s ls l s' : exec s (ls ++ [l]) = Some s' <-> exists s1, exec s ls = Some s1 /\ step s1 l = Some s'.
Proof.
  revert s. induction ls as [|l0 ls IH]; intros s; cbn.
  - split; [intros H; exists s; split; [reflexivity|]; destruct (step s l); congruence|]. intros (s1 & H1 & H2). injection H1 as ->. now rewrite H2.
  - destruct (step s l0) as [s0|]; [apply IH|]. split; [discriminate|]. intros (s1 & H1 & _). discriminate.
Qed.

(* what is so in every state: induction over runs *)
Lemma reach_ind (P : list (label V) -> net V -> Prop) :
  P [] (start e) -> (forall ls s l s', exec (start e) ls = Some s -> P ls s -> step s l = Some s' -> P (ls ++ [l]) s') ->
  forall ls s, exec (start e) ls = Some s -> P ls s.
Proof.
  intros H0 HS ls. induction ls as [|l ls IH] using rev_ind; intros s E.
  - injection E as <-. exact H0.
  - apply exec_snoc in E as (s1 & E1 & E2). eapply HS; eauto.
Qed.

Lemma made_by_app i (a b : list (label V)) : made_by i (a ++ b) = made_by i a ++ made_by i b.
Proof. induction a as [|[j u d|j|j] a IH]; cbn; auto. destruct (j =? i); cbn; now rewrite IH. Qed.

(* every local change is confirmed later on, or is on its way *)
Definition flying (ops : list (op V)) (way : list (change V)) : Prop :=
  forall a u d b, ops = a ++ Local u d :: b -> In (Confirmed u d) b \/ In (u, d) way.

Lemma flying_settled ops : flying ops [] -> settled ops.
Proof.
  induction ops as [|o ops IH]; intros H; [constructor|].
  assert (Hs : settled ops).
  { apply IH. intros a u d b E. apply (H (o :: a)). rewrite E. reflexivity. }
  destruct o as [u d|u d|x]; try (constructor; exact Hs). apply settled_local; [|exact Hs]. destruct (H [] u d ops eq_refl) as [X|[]]. exact X.
Qed.

Lemma snoc_split {A} (l a b : list A) x y : l ++ [x] = a ++ y :: b -> (b = [] /\ l = a /\ x = y) \/ exists b', b = b' ++ [x] /\ l = a ++ y :: b'.
Proof.
  destruct (exists_last (l := y :: b)) as (b' & z & E); [discriminate|]. rewrite E, app_assoc. intros H. apply app_inj_tail in H as [H1 H2]. subst z.
  destruct b' as [|y' b']; [left|right].
  - injection E as -> ->. rewrite app_nil_r in H1. auto.
  - injection E as -> ->. exists b'. auto.
Qed.

Record Follows (ls : list (label V)) (s : net V) (i : nat) : Prop := {
  f_ops : exists ops, shown (clients s i) = run eqb (make_store e) ops /\ existsb is_replace ops = false /\ arity (length e) ops /\
          confirmed_of ops ++ map snd (inbox (clients s i)) = map snd (order s) /\
          flying ops (inbox (clients s i) ++ outbox (clients s i)) /\ (forall u d, In (Local u d) ops -> In (u, d) (made_by i ls));
  f_out : Forall (fun m => length (snd m) = length e) (outbox (clients s i));
  f_in : Forall (fun m => length (snd m) = length e) (inbox (clients s i));
  f_made : forall m, In m (outbox (clients s i)) -> In m (made_by i ls)
}.

Lemma set_same f i (c : client V) : set f i c i = c. Proof. unfold set. now rewrite Nat.eqb_refl. Qed.
Lemma set_other f i j (c : client V) : j <> i -> set f i c j = f j. Proof. intros H. unfold set. apply Nat.eqb_neq in H. now rewrite H. Qed.

Lemma follows_more ls l s i : Follows ls s i -> Follows (ls ++ [l]) s i.
Proof.
  intros [(ops & H1 & H2 & H3 & H4 & H5 & H6) Ho Hi Hm]. constructor; auto.
  - exists ops. repeat (split; [assumption|]). intros u d H. rewrite made_by_app. apply in_or_app. left. auto.
  - intros m H. rewrite made_by_app. apply in_or_app. left. auto.
Qed.

Lemma root_length ls s : exec (start e) ls = Some s -> length (root s) = length e.
Proof.
  revert ls s. apply reach_ind; [reflexivity|]. intros ls s l s' _ IH E. destruct l as [i u d|i|i]; cbn -[Nat.ltb] in E.
  - destruct (_ && _); [|discriminate]. injection E as <-. exact IH.
  - destruct (outbox (clients s i)); [discriminate|]. injection E as <-. cbn. change (length (ov (snd c) (root s)) = length e). now rewrite ov_length.
  - destruct (inbox (clients s i)); [discriminate|]. destruct (i <? n); [|discriminate]. injection E as <-. exact IH.
Qed.

Lemma order_root ls s : exec (start e) ls = Some s -> root s = fold_left (fun e d => ov d e) (map snd (order s)) e.
Proof.
  revert ls s. apply reach_ind; [reflexivity|]. intros ls s l s' _ IH E. destruct l as [i u d|i|i]; cbn -[Nat.ltb] in E.
  - destruct (_ && _); [|discriminate]. injection E as <-. exact IH.
  - destruct (outbox (clients s i)) as [|m r]; [discriminate|]. injection E as <-. cbn [root order]. rewrite map_app, fold_left_app. change (ov (snd m) (root s) = ov (snd m) (fold_left (fun e d => ov d e) (map snd (order s)) e)). f_equal. exact IH.
  - destruct (inbox (clients s i)); [discriminate|]. destruct (i <? n); [|discriminate]. injection E as <-. exact IH.
Qed.

Lemma follows_reach ls s : exec (start e) ls = Some s -> forall i, Follows ls s i.
Proof.
  revert ls s. apply (reach_ind (fun ls s => forall i, Follows ls s i)).
  - intros i. constructor; cbn; auto; try (intros m []; fail). exists []. cbn. split; [reflexivity|]. split; [reflexivity|]. split; [constructor|]. split; [reflexivity|]. split; [|intros u d []].
    intros a u d b E. destruct a; discriminate.
  - intros ls s l s' R IH E i. destruct l as [j u d|j|j]; cbn -[Nat.ltb] in E.
    + destruct ((j <? n) && (length d =? length (root s))) eqn:C; [|discriminate]. apply andb_prop in C as [_ C]. apply Nat.eqb_eq in C. rewrite (root_length _ _ R) in C.
      injection E as <-. destruct (Nat.eq_dec i j) as [->|Hij].
      * destruct (IH j) as [(ops & H1 & H2 & H3 & H4 & H5 & H6) Ho Hi Hm]. constructor; cbn; rewrite set_same; cbn; auto.
        -- exists (ops ++ [Local u d]). split; [|split; [|split; [|split; [|split]]]].
           ++ rewrite run_app, <- H1. reflexivity.
           ++ rewrite existsb_app, H2. reflexivity.
           ++ apply Forall_app. split; [exact H3|]. constructor; [exact C|constructor].
           ++ unfold confirmed_of in *. rewrite flat_map_app. cbn. now rewrite app_nil_r.
           ++ intros a u' d' b Eo. apply snoc_split in Eo as [(-> & -> & Eo)|(b' & -> & Eo)].
              ** injection Eo as -> ->. right. apply in_or_app. right. apply in_or_app. right. left. reflexivity.
              ** destruct (H5 _ _ _ _ Eo) as [X|X]; [left; apply in_or_app; left; exact X|right]. rewrite app_assoc. apply in_or_app. left. exact X.
           ++ intros u' d' H. rewrite made_by_app. apply in_or_app. apply in_app_or in H as [H|[H|[]]]; [left; auto|right]. injection H as -> ->. cbn. rewrite Nat.eqb_refl. left. reflexivity.
        -- apply Forall_app. split; [exact Ho|]. constructor; [exact C|constructor].
        -- intros m H. rewrite made_by_app. apply in_or_app. apply in_app_or in H as [H|[H|[]]]; [left; auto|right]. cbn. rewrite Nat.eqb_refl. left. auto.
      * pose proof (follows_more ls (Change j u d) s i (IH i)) as F. destruct F as [Fo F1 F2 F3]. constructor; cbn; rewrite (set_other _ _ _ _ Hij); assumption.
    + destruct (outbox (clients s j)) as [|m r] eqn:Eo; [discriminate|]. injection E as <-.
      assert (Lm : length (snd m) = length e) by (destruct (IH j) as [_ Ho _ _]; rewrite Eo in Ho; inversion Ho; assumption).
      apply follows_more. destruct (IH i) as [(ops & H1 & H2 & H3 & H4 & H5 & H6) Ho Hi Hm].
      assert (G : forall c, shown c = shown (clients s i) -> inbox c = inbox (clients s i) ++ [m] ->
                   (forall x, In x (outbox c) -> In x (outbox (clients s i))) -> (forall x, In x (outbox (clients s i)) -> In x (inbox c) \/ In x (outbox c)) ->
                   (exists ops, shown c = run eqb (make_store e) ops /\ existsb is_replace ops = false /\ arity (length e) ops /\
                     confirmed_of ops ++ map snd (inbox c) = map snd (order s ++ [m]) /\ flying ops (inbox c ++ outbox c) /\ (forall u d, In (Local u d) ops -> In (u, d) (made_by i ls))) /\
                   Forall (fun m => length (snd m) = length e) (outbox c) /\ Forall (fun m => length (snd m) = length e) (inbox c) /\ (forall m, In m (outbox c) -> In m (made_by i ls))).
      { intros c E1 E2 E3 E4. split; [|split; [|split]].
        - exists ops. rewrite E1, E2. split; [exact H1|]. split; [exact H2|]. split; [exact H3|]. split; [rewrite !map_app, app_assoc; f_equal; exact H4|]. split; [|exact H6].
          intros a u d b Ep. destruct (H5 a u d b Ep) as [X|X]; [left; exact X|right]. rewrite <- E2. apply in_or_app. apply in_app_or in X as [X|X]; [left; rewrite E2; apply in_or_app; left; exact X|apply E4, X].
        - rewrite Forall_forall in *. intros x Hx. auto.
        - rewrite E2. apply Forall_app. split; [exact Hi|]. constructor; [exact Lm|constructor].
        - auto. }
      destruct (Nat.eq_dec i j) as [->|Hij].
      * destruct (G (tell m (sent (clients s j)))) as (G1 & G2 & G3 & G4); cbn; auto.
        -- intros x Hx. rewrite Eo in *. right. exact Hx.
        -- intros x Hx. rewrite Eo in Hx |- *. destruct Hx as [->|Hx]; [left; apply in_or_app; right; left; reflexivity|right; exact Hx].
        -- constructor; cbn [clients order]; rewrite set_same; assumption.
      * destruct (G (tell m (clients s i))) as (G1 & G2 & G3 & G4); cbn; auto. constructor; cbn [clients order]; rewrite (set_other _ _ _ _ Hij); assumption.
    + destruct (inbox (clients s j)) as [|[u d] r] eqn:Ei; [discriminate|]. destruct (j <? n); [|discriminate]. injection E as <-.
      apply follows_more. destruct (Nat.eq_dec i j) as [->|Hij].
      * destruct (IH j) as [(ops & H1 & H2 & H3 & H4 & H5 & H6) Ho Hi Hm]. rewrite Ei in *. constructor; cbn; rewrite set_same; cbn; rewrite ?Ei; cbn; auto.
        -- exists (ops ++ [Confirmed u d]). split; [|split; [|split; [|split; [|split]]]].
           ++ rewrite run_app, <- H1. reflexivity.
           ++ rewrite existsb_app, H2. reflexivity.
           ++ apply Forall_app. split; [exact H3|]. inversion Hi; subst. constructor; [assumption|constructor].
           ++ unfold confirmed_of in *. rewrite flat_map_app. cbn. rewrite <- app_assoc. exact H4.
           ++ intros a u' d' b Eo. apply snoc_split in Eo as [(_ & _ & Eo)|(b' & -> & Eo)]; [discriminate|].
              destruct (H5 _ _ _ _ Eo) as [X|[X|X]]; [left; apply in_or_app; left; exact X|left; injection X as -> ->; apply in_or_app; right; left; reflexivity|right; exact X].
           ++ intros u' d' H. apply in_app_or in H as [H|[H|[]]]; [auto|discriminate].
        -- inversion Hi; assumption.
      * destruct (IH i) as [Fo F1 F2 F3]. constructor; cbn; rewrite (set_other _ _ _ _ Hij); assumption.
Qed.

Lemma view_prefix ls s i : exec (start e) ls = Some s -> Confirmed_all ls s i ->
  history (firstn (length (order s) - length (inbox (clients s i))) (map snd (order s))) e (view s i).
Proof.
  intros R [Co Ci]. destruct (follows_reach _ _ R i) as [(ops & H1 & H2 & H3 & H4 & H5 & H6) _ _ _].
  assert (Hs : settled ops).
  { apply flying_settled. intros a u d b Eo. destruct (H5 _ _ _ _ Eo) as [X|X]; [left; exact X|]. exfalso. rewrite Co, app_nil_r in X. apply (Ci (u, d)); [|exact X].
    apply H6. rewrite Eo. apply in_or_app. right. left. reflexivity. }
  unfold view. rewrite H1. pose proof (converge eqb eqb_spec e ops Hs H2 H3) as X. rewrite X. rewrite <- H4.
  replace (length (order s) - length (inbox (clients s i))) with (length (confirmed_of ops)).
  - rewrite firstn_app, Nat.sub_diag, firstn_all, app_nil_r. apply (history_ov eqb eqb_spec).
  - pose proof (f_equal (@length _) H4) as H7. rewrite app_length in H7. pose proof (map_length snd (inbox (clients s i))) as L1. pose proof (map_length snd (order s)) as L2. unfold change in *. cbn in *. lia.
Qed.

(* ---- what a client has seen ---- *)
Definition Seen (ls : list (label V)) (s : net V) (i : nat) : Prop :=
  exists told ops, order s = told ++ inbox (clients s i) /\ (forall more r, story i (told ++ more) (ls ++ r) = ops ++ story i more r) /\
    shown (clients s i) = run eqb (make_store e) ops /\ existsb is_replace ops = false /\ arity (length e) ops.

Lemma seen_reach ls s : exec (start e) ls = Some s -> forall i, Seen ls s i.
Proof.
  revert ls s. apply (reach_ind (fun ls s => forall i, Seen ls s i)).
  - intros i. exists [], []. repeat split; try reflexivity. constructor.
  - intros ls s l s' R IH E i. pose proof (follows_reach _ _ R i) as F. destruct (IH i) as (told & ops & H1 & H2 & H3 & H4 & H5). destruct l as [j u d|j|j]; cbn -[Nat.ltb] in E.
    + destruct ((j <? n) && (length d =? length (root s))) eqn:C; [|discriminate]. apply andb_prop in C as [_ C]. apply Nat.eqb_eq in C. rewrite (root_length _ _ R) in C. injection E as <-.
      destruct (Nat.eq_dec i j) as [->|Hij].
      * exists told, (ops ++ [Local u d]). cbn [order clients]. rewrite set_same. cbn [inbox shown make_change]. split; [exact H1|]. split; [|split; [|split]].
        -- intros more r. rewrite <- app_assoc, H2. cbn. rewrite Nat.eqb_refl, <- app_assoc. reflexivity.
        -- rewrite run_app, <- H3. reflexivity.
        -- rewrite existsb_app, H4. reflexivity.
        -- apply Forall_app. split; [exact H5|]. constructor; [exact C|constructor].
      * exists told, ops. cbn [order clients]. rewrite (set_other _ _ _ _ Hij). split; [exact H1|]. split; [|auto].
        intros more r. rewrite <- app_assoc, H2. cbn. apply not_eq_sym, Nat.eqb_neq in Hij. rewrite Hij. reflexivity.
    + destruct (outbox (clients s j)) as [|m r] eqn:Eo; [discriminate|]. injection E as <-. exists told, ops.
      assert (G : inbox (tell m (set (clients s) j (sent (clients s j)) i)) = inbox (clients s i) ++ [m] /\ shown (tell m (set (clients s) j (sent (clients s j)) i)) = shown (clients s i)).
      { unfold set. destruct (Nat.eqb_spec i j) as [->|Hij]; auto. }
      cbn [order clients]. destruct G as [-> ->]. split; [rewrite H1, app_assoc; reflexivity|]. split; [|auto]. intros more r'. rewrite <- app_assoc, H2. reflexivity.
    + destruct (inbox (clients s j)) as [|[u d] r] eqn:Ei; [discriminate|]. destruct (j <? n); [|discriminate]. injection E as <-. destruct (Nat.eq_dec i j) as [->|Hij].
      * exists (told ++ [(u, d)]), (ops ++ [Confirmed u d]). cbn [order clients]. rewrite set_same. cbn [inbox shown handle fst snd]. rewrite Ei in *. cbn [tl]. split; [rewrite H1, <- app_assoc; reflexivity|]. split; [|split; [|split]].
        -- intros more r'. rewrite <- !app_assoc, H2. cbn. rewrite Nat.eqb_refl. reflexivity.
        -- rewrite run_app, <- H3. reflexivity.
        -- rewrite existsb_app, H4. reflexivity.
        -- apply Forall_app. split; [exact H5|]. destruct F as [_ _ F _]. rewrite Ei in F. inversion F; subst. constructor; [assumption|constructor].
      * exists told, ops. cbn [order clients]. rewrite (set_other _ _ _ _ Hij). split; [exact H1|]. split; [|auto].
        intros more r'. rewrite <- app_assoc, H2. cbn. apply not_eq_sym, Nat.eqb_neq in Hij. rewrite Hij. reflexivity.
Qed.

Lemma story_run ls s i : exec (start e) ls = Some s -> shown (clients s i) = run eqb (make_store e) (story i (order s) ls) /\
  existsb is_replace (story i (order s) ls) = false /\ arity (length e) (story i (order s) ls).
Proof.
  intros R. destruct (seen_reach _ _ R i) as (told & ops & H1 & H2 & H3 & H4 & H5). specialize (H2 (inbox (clients s i)) []). rewrite app_nil_r, <- H1 in H2. cbn in H2. rewrite app_nil_r in H2.
  rewrite H2. auto.
Qed.

(* ---- members that one client alone writes ---- *)

Lemma last_written_app x (v : option V) a b : last_written x v (a ++ b) = last_written x (last_written x v a) b.
Proof. apply fold_left_app. Qed.

Lemma written_merge x : forall (d p : list (option V)), length d = length p -> x < length p ->
  written (merge_delta d p) x = match written d x with Some w => Some w | None => written p x end.
Proof.
  unfold written. induction x as [|x IH]; intros [|o d] [|q p] L H; cbn in *; try lia.
  - destruct o; reflexivity.
  - apply IH; lia.
Qed.
Lemma written_empty k x : written (empty_delta k : list (option V)) x = None.
Proof. unfold written, empty_delta. destruct (nth_error (repeat None k) x) as [[v|]|] eqn:E; auto. apply nth_error_In, repeat_spec in E. discriminate. Qed.

Lemma made_change i (ls : list (label V)) m : In m (made_by i ls) <-> In (Change i (fst m) (snd m)) ls.
Proof.
  destruct m as [u d]. cbn. induction ls as [|l ls IH]; cbn; [tauto|]. destruct l as [j u' d'|j|j]; cbn.
  - destruct (Nat.eqb_spec j i) as [->|Hj].
    + cbn. rewrite IH. split; (intros [H|H]; [left; congruence|right; exact H]).
    + rewrite IH. split; [tauto|]. intros [H|H]; [congruence|exact H].
  - rewrite IH. split; [tauto|]. intros [H|H]; [discriminate|exact H].
  - rewrite IH. split; [tauto|]. intros [H|H]; [discriminate|exact H].
Qed.

(* messages come from somewhere *)
Lemma origin ls s : exec (start e) ls = Some s -> forall i m, In m (inbox (clients s i)) -> exists j, In m (made_by j ls).
Proof.
  revert ls s. apply (reach_ind (fun ls s => forall i m, In m (inbox (clients s i)) -> exists j, In m (made_by j ls))); [intros i m []|]. intros ls s l s' R IH E i m H.
  assert (M : forall m, (exists j, In m (made_by j ls)) -> exists j, In m (made_by j (ls ++ [l]))).
  { intros m' (j & X). exists j. rewrite made_by_app. apply in_or_app. left. exact X. }
  apply M. destruct l as [j u d|j|j]; cbn -[Nat.ltb] in E.
  - destruct (_ && _); [|discriminate]. injection E as <-. cbn in H. unfold set in H. destruct (i =? j) eqn:Ei; [apply Nat.eqb_eq in Ei; subst j|]; exact (IH i m H).
  - destruct (outbox (clients s j)) as [|m0 r] eqn:Eo; [discriminate|]. injection E as <-. cbn in H. apply in_app_or in H as [H|[<-|[]]].
    + unfold set in H. destruct (i =? j) eqn:Ei; [apply Nat.eqb_eq in Ei; subst j|]; exact (IH i m H).
    + exists j. apply (f_made _ _ _ (follows_reach _ _ R j)). rewrite Eo. left. reflexivity.
  - destruct (inbox (clients s j)) as [|m0 r] eqn:Eo; [discriminate|]. destruct (j <? n); [|discriminate]. injection E as <-. cbn in H. unfold set in H.
    destruct (i =? j) eqn:Ei; [apply Nat.eqb_eq in Ei; subst j|exact (IH i m H)]. cbn in H. rewrite Eo in H. apply (IH i m). rewrite Eo. right. exact H.
Qed.

Lemma uids_app (a b : list (label V)) : uids (a ++ b) = uids a ++ uids b. Proof. apply flat_map_app. Qed.
Lemma made_uids i (ls : list (label V)) : NoDup (uids ls) -> NoDup (map fst (made_by i ls)).
Proof.
  assert (Hs : forall (ls : list (label V)) u, In u (map fst (made_by i ls)) -> In u (uids ls)).
  { intros l u H. apply in_map_iff in H as (m & <- & H). apply made_change in H. apply in_flat_map. eexists. split; [exact H|]. left. reflexivity. }
  induction ls as [|l ls IH]; intros H; [constructor|]. destruct l as [j u d|j|j]; cbn in *; auto. inversion H; subst. destruct (j =? i); [|auto]. cbn. constructor; [|auto]. intros X. apply Hs in X. contradiction.
Qed.
Lemma nodup_app_l {A} (a b : list A) : NoDup (a ++ b) -> NoDup a.
Proof. intros H. induction a as [|x a IH]; [constructor|]. inversion H; subst. constructor; [intros X; apply H2; apply in_or_app; auto|auto]. Qed.
Lemma nodup_app_r {A} (a b : list A) : NoDup (a ++ b) -> NoDup b.
Proof. intros H. induction a as [|x a IH]; [exact H|]. inversion H; subst. auto. Qed.

Lemma uid_insert_in u v l : In v (uid_insert u l) <-> v = u \/ In v l.
Proof.
  unfold uid_insert. destruct (existsb (N.eqb u) l) eqn:X.
  - apply existsb_in in X. split; [auto|]. intros [->|H]; auto.
  - cbn. split; (intros [H|H]; [left; auto|right; exact H]).
Qed.

Section Writer.
Variables (i x : nat) (own : N -> bool).
Hypothesis Hx : x < length e.

Definition fly (c : client V) : list (change V) := filter (fun m => own (fst m)) (inbox c) ++ outbox c.
Record Keeps (ls : list (label V)) (c : client V) : Prop := {
  k_len : length (value (shown c)) = length e /\ length (pending (shown c)) = length e;
  k_fly : exists done, made_by i ls = done ++ fly c;
  k_uids : forall u, In u (local_uids (shown c)) <-> In u (map fst (fly c));
  k_pend : forall w, last_written x (written (pending (shown c)) x) (fly c) = Some w -> member (value (shown c)) x = Some w;
  k_val : member (value (shown c)) x = last_written x (member e x) (made_by i ls)
}.

Lemma keeps_same ls l c c' : made_by i (ls ++ [l]) = made_by i ls -> shown c' = shown c -> fly c' = fly c -> Keeps ls c -> Keeps (ls ++ [l]) c'.
Proof. intros E1 E2 E3 [H1 H2 H3 H4 H5]. constructor; rewrite ?E1, ?E2, ?E3; assumption. Qed.

Lemma keeps_change ls c u d : length d = length e -> Keeps ls c -> Keeps (ls ++ [Change i u d]) (make_change eqb c u d).
Proof.
  intros L [[H1 H1'] (done & H2) H3 H4 H5].
  assert (Em : made_by i (ls ++ [Change i u d]) = made_by i ls ++ [(u, d)]) by (rewrite made_by_app; cbn; rewrite Nat.eqb_refl; reflexivity).
  assert (Ef : fly (make_change eqb c u d) = fly c ++ [(u, d)]) by (unfold fly; cbn; rewrite app_assoc; reflexivity).
  assert (Es : shown (make_change eqb c u d) = {| value := ov d (value (shown c)); pending := merge_delta d (pending (shown c)); local_uids := uid_insert u (local_uids (shown c)) |}).
  { cbn. unfold apply_local_delta, DeltaProofs.ov. destruct (apply_delta eqb d (value (shown c))). reflexivity. }
  constructor; rewrite ?Em, ?Ef, ?Es; cbn [value pending local_uids].
  - split; [rewrite (ov_length eqb eqb_spec); exact H1|rewrite merge_length; exact H1'].
  - exists done. rewrite H2, app_assoc. reflexivity.
  - intros v. rewrite uid_insert_in, H3, map_app, in_app_iff. cbn. intuition.
  - intros w. rewrite last_written_app, written_merge by lia. cbn. rewrite (member_ov eqb eqb_spec) by lia. destruct (written d x) as [y|]; [auto|]. apply H4.
  - rewrite last_written_app, <- H5, (member_ov eqb eqb_spec) by lia. cbn. destruct (written d x); reflexivity.
Qed.

Lemma keeps_deliver ls c m r : inbox c = m :: r -> length (snd m) = length e -> (own (fst m) = false -> written (snd m) x = None) ->
  NoDup (map fst (made_by i ls)) -> (forall m, In m (outbox c) -> own (fst m) = true) -> Keeps ls c -> Keeps (ls ++ [Deliver i]) (handle eqb c m).
Proof.
  intros Ei L Hn Nd Ho [[H1 H1'] (done & H2) H3 H4 H5]. destruct m as [u d]. cbn [fst snd] in *.
  assert (Em : made_by i (ls ++ [Deliver i]) = made_by i ls) by (rewrite made_by_app; cbn; apply app_nil_r).
  assert (Ef : fly c = (if own u then [(u, d)] else []) ++ fly (handle eqb c (u, d))).
  { unfold fly. cbn. rewrite Ei. cbn. destruct (own u); reflexivity. }
  assert (Hm : forall o, member (ov o (value (shown c))) x = match written o x with Some w => Some w | None => member (value (shown c)) x end) by (intros o; apply (member_ov eqb eqb_spec); lia).
  destruct (own u) eqn:Eu.
  - assert (Nd' : NoDup (map fst (fly c))) by (rewrite H2, map_app in Nd; exact (nodup_app_r _ _ Nd)). rewrite Ef in Nd'. cbn in Nd'. apply NoDup_cons_iff in Nd' as [Nu _].
    assert (Eu' : existsb (N.eqb u) (local_uids (shown c)) = true) by (apply existsb_in, H3; rewrite Ef; left; reflexivity).
    assert (Ue : forall v, In v (uid_erase u (local_uids (shown c))) <-> In v (map fst (fly (handle eqb c (u, d))))).
    { intros v. rewrite erase_in, H3, Ef. cbn. split; [intros [[X|X] Y]; [congruence|exact X]|]. intros X. split; [right; exact X|]. intros ->. exact (Nu X). }
    set (c' := handle eqb c (u, d)) in *.
    assert (Es : shown c' = match uid_erase u (local_uids (shown c)) with
                            | [] => {| value := ov (merge_delta d (pending (shown c))) (value (shown c)); pending := empty_delta (length (pending (shown c))); local_uids := [] |}
                            | _ => {| value := value (shown c); pending := merge_delta d (pending (shown c)); local_uids := uid_erase u (local_uids (shown c)) |} end).
    { unfold c'. cbn. unfold apply_confirmed_delta. rewrite Eu'. destruct (uid_erase u (local_uids (shown c))); [|reflexivity].
      unfold DeltaProofs.ov. destruct (apply_delta eqb (merge_delta d (pending (shown c))) (value (shown c))). reflexivity. }
    assert (Hq : forall w, last_written x (written (merge_delta d (pending (shown c))) x) (fly c') = Some w -> member (value (shown c)) x = Some w).
    { intros w. rewrite written_merge by lia. intros X. apply H4. rewrite Ef. exact X. }
    destruct (uid_erase u (local_uids (shown c))) as [|u0 l0] eqn:El.
    + assert (Ef0 : fly c' = []). { destruct (fly c') as [|m0 f0] eqn:F0; [reflexivity|]. exfalso. apply (proj2 (Ue (fst m0))). left. reflexivity. }
      assert (Ev : member (ov (merge_delta d (pending (shown c))) (value (shown c))) x = member (value (shown c)) x).
      { rewrite Hm. destruct (written (merge_delta d (pending (shown c))) x) as [w|] eqn:W; [|reflexivity]. symmetry. apply Hq. rewrite Ef0. reflexivity. }
      constructor; rewrite ?Em, ?Es; cbn [value pending local_uids].
      * split; [rewrite (ov_length eqb eqb_spec); exact H1|unfold empty_delta; rewrite repeat_length; exact H1'].
      * exists (done ++ [(u, d)]). rewrite H2, Ef, <- app_assoc. reflexivity.
      * intros v. rewrite Ef0. cbn. tauto.
      * intros w. rewrite Ef0, written_empty. discriminate.
      * rewrite Ev. exact H5.
    + constructor; rewrite ?Em, ?Es; cbn [value pending local_uids].
      * split; [exact H1|rewrite merge_length; exact H1'].
      * exists (done ++ [(u, d)]). rewrite H2, Ef, <- app_assoc. reflexivity.
      * exact Ue.
      * exact Hq.
      * exact H5.
  - rewrite app_nil_l in Ef. assert (Eu' : existsb (N.eqb u) (local_uids (shown c)) = false).
    { apply not_true_iff_false. intros X. apply existsb_in, H3 in X. apply in_map_iff in X as (m & Xm & X). unfold fly in X. apply in_app_or in X as [X|X].
      - apply filter_In in X as [_ X]. congruence.
      - apply Ho in X. congruence. }
    specialize (Hn eq_refl).
    assert (Es : shown (handle eqb c (u, d)) = {| value := ov d (value (shown c)); pending := merge_delta d (pending (shown c)); local_uids := local_uids (shown c) |}).
    { cbn. unfold apply_confirmed_delta. rewrite Eu'. unfold DeltaProofs.ov. destruct (apply_delta eqb d (value (shown c))). reflexivity. }
    constructor; rewrite ?Em, ?Es, <- ?Ef; cbn [value pending local_uids].
    + split; [rewrite (ov_length eqb eqb_spec); exact H1|rewrite merge_length; exact H1'].
    + exists done. exact H2.
    + exact H3.
    + intros w. rewrite written_merge, Hm by lia. rewrite Hn. apply H4.
    + rewrite Hm, Hn. exact H5.
Qed.

Lemma keeps_reach ls s : exec (start e) ls = Some s -> NoDup (uids ls) -> (forall j u d, In (Change j u d) ls -> (own u = true <-> j = i)) -> Only_writer i x ls -> Keeps ls (clients s i).
Proof.
  revert ls s. apply (reach_ind (fun ls s => NoDup (uids ls) -> (forall j u d, In (Change j u d) ls -> (own u = true <-> j = i)) -> Only_writer i x ls -> Keeps ls (clients s i))).
  - intros _ _ _. constructor; cbn; auto.
    + unfold empty_delta. rewrite repeat_length. auto.
    + exists []. reflexivity.
    + tauto.
    + intros w. rewrite written_empty. discriminate.
  - intros ls s l s' R IH E Nd Hown Hw.
    assert (K : Keeps ls (clients s i)).
    { apply IH.
      - rewrite uids_app in Nd. exact (nodup_app_l _ _ Nd).
      - intros j u d H. apply (Hown j u d). apply in_or_app. left. exact H.
      - intros j u d H. apply (Hw j u d). apply in_or_app. left. exact H. }
    assert (Hown' : forall j m, In m (made_by j ls) -> (own (fst m) = true <-> j = i)).
    { intros j m H. apply made_change in H. apply (Hown j _ (snd m)). apply in_or_app. left. exact H. }
    destruct l as [j u d|j|j]; cbn -[Nat.ltb] in E.
    + destruct ((j <? n) && (length d =? length (root s))) eqn:C; [|discriminate]. apply andb_prop in C as [_ C]. apply Nat.eqb_eq in C. rewrite (root_length _ _ R) in C.
      injection E as <-. cbn. destruct (Nat.eq_dec i j) as [<-|Hij].
      * rewrite set_same. apply keeps_change; assumption.
      * rewrite (set_other _ _ _ _ Hij). apply (keeps_same ls _ (clients s i)); auto. rewrite made_by_app. cbn. destruct (Nat.eqb_spec j i); [congruence|]. apply app_nil_r.
    + destruct (outbox (clients s j)) as [|m r] eqn:Eo; [discriminate|]. injection E as <-. cbn.
      assert (Hm : own (fst m) = true <-> j = i). { apply Hown'. apply (f_made _ _ _ (follows_reach _ _ R j)). rewrite Eo. left. reflexivity. }
      assert (Em : made_by i (ls ++ [Serve j]) = made_by i ls) by (rewrite made_by_app; cbn; apply app_nil_r).
      destruct (Nat.eq_dec i j) as [<-|Hij].
      * rewrite set_same. apply (keeps_same ls _ (clients s i)); auto. unfold fly. cbn. rewrite filter_app. cbn. rewrite (proj2 Hm eq_refl), Eo, <- app_assoc. reflexivity.
      * rewrite (set_other _ _ _ _ Hij). apply (keeps_same ls _ (clients s i)); auto. unfold fly. cbn. rewrite filter_app. cbn. destruct (own (fst m)); [destruct Hij; symmetry; apply Hm; reflexivity|].
        rewrite app_nil_r. reflexivity.
    + destruct (inbox (clients s j)) as [|m r] eqn:Ei; [discriminate|]. destruct (j <? n); [|discriminate]. injection E as <-. cbn. destruct (Nat.eq_dec i j) as [<-|Hij].
      * rewrite set_same. pose proof (follows_reach _ _ R i) as F. apply (keeps_deliver _ _ _ r); auto.
        -- pose proof (f_in _ _ _ F) as X. rewrite Ei in X. inversion X; assumption.
        -- intros Ho. destruct (origin _ _ R i m) as (j & Hj); [rewrite Ei; left; reflexivity|]. pose proof Hj as Hj'. apply made_change in Hj. apply (Hw j (fst m)); [apply in_or_app; left; exact Hj|].
           intros ->. apply Hown' in Hj'. rewrite (proj2 Hj' eq_refl) in Ho. discriminate.
        -- apply made_uids. rewrite uids_app in Nd. exact (nodup_app_l _ _ Nd).
        -- intros m' H'. apply (Hown' i); [|reflexivity]. apply (f_made _ _ _ F), H'.
      * rewrite (set_other _ _ _ _ Hij). apply (keeps_same ls _ (clients s i)); auto. rewrite made_by_app. cbn. apply app_nil_r.
Qed.
End Writer.

(* ---- it comes to rest ---- *)

Definition sum_of (f : nat -> nat) : nat := list_sum (map f (seq 0 n)).
Definition load (s : net V) : nat := sum_of (fun i => length (outbox (clients s i)) * S n + length (inbox (clients s i))).

Lemma sum_ext f g : (forall i, i < n -> f i = g i) -> sum_of f = sum_of g.
Proof. intros H. unfold sum_of. f_equal. apply map_ext_in. intros i Hi. apply in_seq in Hi. apply H. lia. Qed.
Lemma sum_plus f g : sum_of (fun i => f i + g i) = sum_of f + sum_of g.
Proof. unfold sum_of. induction (seq 0 n) as [|a l IH]; [reflexivity|]. cbn. unfold list_sum in *. rewrite IH. lia. Qed.
Lemma sum_one : sum_of (fun _ => 1) = n.
Proof. unfold sum_of. rewrite <- (seq_length n 0) at 2. induction (seq 0 n) as [|a l IH]; [reflexivity|]. cbn. unfold list_sum in *. now rewrite IH. Qed.
Lemma sum_at i k f g : i < n -> g i + k = f i -> (forall j, j <> i -> g j = f j) -> sum_of g + k = sum_of f.
Proof.
  intros Hi E H. unfold sum_of. assert (Hin : In i (seq 0 n)) by (apply in_seq; lia). apply in_split in Hin as (a & b & Es). rewrite Es.
  assert (Nd : NoDup (seq 0 n)) by apply seq_NoDup. rewrite Es in Nd. apply NoDup_remove in Nd as [_ Nd].
  rewrite !map_app, !list_sum_app. cbn. rewrite (map_ext_in g f a), (map_ext_in g f b); [fold (list_sum (map f b)); lia| |]; intros j Hj; apply H; intros ->; apply Nd, in_or_app; auto.
Qed.

Lemma outbox_bound ls s : exec (start e) ls = Some s -> forall i, n <= i -> outbox (clients s i) = [].
Proof.
  revert ls s. apply (reach_ind (fun ls s => forall i, n <= i -> outbox (clients s i) = [])); [reflexivity|]. intros ls s l s' R IH E i Hi. destruct l as [j u d|j|j]; cbn -[Nat.ltb] in E.
  - destruct (j <? n) eqn:C; [|discriminate]. apply Nat.ltb_lt in C. destruct (_ =? _); [|discriminate]. injection E as <-. cbn. rewrite set_other by lia. auto.
  - destruct (outbox (clients s j)) as [|m r] eqn:Eo; [discriminate|]. injection E as <-. cbn. unfold set. destruct (i =? j) eqn:Ei; [|auto]. apply Nat.eqb_eq in Ei. subst j. rewrite (IH i Hi) in Eo. discriminate.
  - destruct (inbox (clients s j)) as [|m r] eqn:Eo; [discriminate|]. destruct (j <? n); [|discriminate]. injection E as <-. cbn. unfold set. destruct (i =? j) eqn:Ei; [|auto]. apply Nat.eqb_eq in Ei. subst j. exact (IH i Hi).
Qed.

Lemma load_step ls s l s' : exec (start e) ls = Some s -> step s l = Some s' -> is_change l = false -> load s' + 1 = load s.
Proof.
  intros R E H. destruct l as [j u d|j|j]; [discriminate| |]; cbn -[Nat.ltb] in E.
  - destruct (outbox (clients s j)) as [|m r] eqn:Eo; [discriminate|]. injection E as <-. unfold load. cbn [clients].
    assert (Hj : j < n). { destruct (lt_dec j n); [assumption|]. rewrite (outbox_bound _ _ R j) in Eo by lia. discriminate. }
    set (h := fun i => length (outbox (set (clients s) j (sent (clients s j)) i)) * S n + length (inbox (set (clients s) j (sent (clients s j)) i))).
    rewrite (sum_ext _ (fun i => h i + 1)).
    + rewrite (sum_plus h (fun _ => 1)), sum_one. rewrite <- (sum_at j (S n) (fun i => length (outbox (clients s i)) * S n + length (inbox (clients s i))) h Hj); [lia| |].
      * unfold h. rewrite set_same. cbn. rewrite Eo. cbn. lia.
      * intros i Hi. unfold h. rewrite set_other by exact Hi. reflexivity.
    + intros i Hi. unfold h. cbn [tell outbox inbox]. rewrite app_length. cbn [length]. lia.
  - destruct (inbox (clients s j)) as [|m r] eqn:Ei; [discriminate|]. destruct (j <? n) eqn:C; [|discriminate]. apply Nat.ltb_lt in C. injection E as <-. unfold load. cbn [clients].
    apply (sum_at j 1); [exact C| |].
    + rewrite set_same. cbn. rewrite Ei. cbn. lia.
    + intros i Hi. rewrite set_other by exact Hi. reflexivity.
Qed.

Lemma exec_app s a b : exec s (a ++ b) = match exec s a with Some s' => exec s' b | None => None end.
Proof. revert s. induction a as [|l a IH]; intros s; [reflexivity|]. cbn. destruct (step s l); [apply IH|reflexivity]. Qed.

Lemma load_exec ls s more s' : exec (start e) ls = Some s -> exec s more = Some s' -> existsb is_change more = false -> load s' + length more = load s.
Proof.
  revert ls s. induction more as [|l more IH]; intros ls s R E H.
  - injection E as <-. cbn. lia.
  - cbn in E, H. destruct (step s l) as [s1|] eqn:E1; [|discriminate]. apply orb_false_iff in H as [H1 H2].
    pose proof (load_step _ _ _ _ R E1 H1). assert (R' : exec (start e) (ls ++ [l]) = Some s1) by (rewrite exec_snoc; eauto). specialize (IH _ _ R' E H2). cbn. lia.
Qed.

Lemma busy_step s : At_rest n s \/ exists l s', is_change l = false /\ step s l = Some s'.
Proof.
  assert (G : forall k, k <= n -> (forall i, i < k -> outbox (clients s i) = [] /\ inbox (clients s i) = []) \/ exists l s', is_change l = false /\ step s l = Some s').
  { induction k as [|k IH]; intros Hk; [left; intros i Hi; lia|]. destruct IH as [H|H]; [lia| |right; exact H].
    destruct (outbox (clients s k)) as [|m r] eqn:Eo.
    - destruct (inbox (clients s k)) as [|m r] eqn:Ei.
      + left. intros i Hi. destruct (Nat.eq_dec i k) as [->|Hne]; [auto|apply H; lia].
      + right. exists (Deliver k). cbn -[Nat.ltb]. rewrite Ei. replace (k <? n) with true by (symmetry; apply Nat.ltb_lt; lia). eauto.
    - right. exists (Serve k). cbn. rewrite Eo. eauto. }
  apply (G n). lia.
Qed.
End P.
