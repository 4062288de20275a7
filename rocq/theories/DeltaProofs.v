From Verif Require Import Base DeltaModel DeltaSpec.

Section P.
Context {V : Type}.
Variable eqb : V -> V -> bool.
Hypothesis eqb_spec : forall x y, eqb x y = true <-> x = y.

Lemma eqb_refl x : eqb x x = true.
Proof. now apply eqb_spec. Qed.
Lemma eqb_neq x y : eqb x y = false <-> x <> y.
Proof. rewrite <- not_true_iff_false, eqb_spec. tauto. Qed.

Notation apply_delta := (apply_delta eqb).
Notation make_delta := (make_delta eqb).

Definition ov (d : list (option V)) (e : list V) : list V := fst (apply_delta d e).

Lemma ov_cons o d x e : ov (o :: d) (x :: e) = (match o with Some v => v | None => x end) :: ov d e.
Proof.
  unfold ov. cbn. destruct (apply_delta d e) as [e2 c]. destruct o as [v|]; auto.
  destruct (eqb v x) eqn:E; cbn; auto. apply eqb_spec in E. now subst.
Qed.
Lemma ov_nil_l e : ov [] e = e.
Proof. reflexivity. Qed.
Lemma ov_nil_r d : ov d [] = [].
Proof. destruct d; reflexivity. Qed.

Lemma ov_length d e : length (ov d e) = length e.
Proof. revert d; induction e as [|x e IH]; intros [|o d]; auto. rewrite ov_cons. cbn. now rewrite IH. Qed.

Lemma ov_overwrites d e : overwrites d e (ov d e).
Proof.
  split; [apply ov_length|]. revert d; induction e as [|x e IH]; intros [|o d] [|i] H; cbn in *; try lia; auto.
  - rewrite ov_cons. cbn. unfold written. cbn. now destruct o.
  - rewrite ov_cons. cbn. unfold written. cbn. apply (IH d i). lia.
Qed.

Lemma overwrites_unique d (e e1 e2 : list V) : overwrites d e e1 -> overwrites d e e2 -> e1 = e2.
Proof.
  intros [L1 H1] [L2 H2]. revert e e2 d L1 H1 L2 H2.
  induction e1 as [|x e1 IH]; intros e e2 d L1 H1 L2 H2; destruct e as [|y e], e2 as [|z e2]; cbn in *; try lia; auto.
  f_equal.
  - specialize (H1 0%nat ltac:(lia)). specialize (H2 0%nat ltac:(lia)). cbn in *. congruence.
  - assert (G : forall i, match nth_error d (S i) with Some (Some v) => Some v | _ => None end = written (tl d) i).
    { intros i. unfold written. destruct d; auto. now destruct i. }
    apply (IH e e2 (tl d)); try lia.
    + intros i Hi. specialize (H1 (S i) ltac:(lia)). cbn in H1. rewrite <- (G i). exact H1.
    + intros i Hi. specialize (H2 (S i) ltac:(lia)). cbn in H2. rewrite <- (G i). exact H2.
Qed.

Lemma history_ov ds : forall e, history ds e (fold_left (fun e d => ov d e) ds e).
Proof. induction ds as [|d ds IH]; intros e; cbn; econstructor; [apply ov_overwrites|apply IH]. Qed.

Lemma history_unique ds : forall e e1 e2 : list V, history ds e e1 -> history ds e e2 -> e1 = e2.
Proof.
  induction ds as [|d ds IH]; intros e e1 e2 H1 H2; inversion H1; inversion H2; subst; auto.
  eapply IH; eauto. assert (e3 = e6) by (eapply overwrites_unique; eauto). now subst.
Qed.

(* ---- change flag ---- *)
Lemma apply_flag d e : snd (apply_delta d e) = true <-> fst (apply_delta d e) <> e.
Proof.
  revert d; induction e as [|x e IH]; intros [|o d]; cbn; try (split; [discriminate|congruence]).
  specialize (IH d). destruct (apply_delta d e) as [e2 c]. cbn in IH. destruct o as [v|].
  - destruct (eqb v x) eqn:E; cbn.
    + rewrite IH. split; [|congruence]. intros H H2. injection H2. auto.
    + apply eqb_neq in E. split; [|auto]. intros _ H. injection H. auto.
  - cbn. rewrite IH. split; [|congruence]. intros H H2. injection H2. auto.
Qed.

Lemma apply_idem d e : apply_delta d (ov d e) = (ov d e, false).
Proof.
  revert d; induction e as [|x e IH]; intros [|o d]; try reflexivity. rewrite ov_cons. cbn. rewrite IH.
  destruct o as [v|]; auto. now rewrite eqb_refl.
Qed.

(* ---- merge ---- *)
Lemma merge_length (d p : list (option V)) : length (merge_delta d p) = length p.
Proof. revert d; induction p as [|x p IH]; intros [|o d]; cbn; auto. Qed.

Lemma ov_merge d p e : length p = length e -> ov (merge_delta d p) e = ov d (ov p e).
Proof.
  revert d p; induction e as [|x e IH]; intros d [|o2 p] H; cbn in H; try lia.
  - rewrite !ov_nil_r. reflexivity.
  - destruct d as [|o d]; cbn [merge_delta]; [reflexivity|]. rewrite !ov_cons, IH by lia. now destruct o.
Qed.

Lemma merge_assoc (a b c : list (option V)) : length b = length c ->
  merge_delta a (merge_delta b c) = merge_delta (merge_delta a b) c.
Proof.
  revert a b; induction c as [|z c IH]; intros a [|y b] H; cbn in H; try lia.
  - now destruct a.
  - destruct a as [|x a]; cbn; [reflexivity|]. rewrite IH by lia. now destruct x.
Qed.

Lemma ov_empty n e : ov (empty_delta n) e = e.
Proof. revert n; induction e as [|x e IH]; intros [|n]; auto. cbn [empty_delta repeat]. rewrite ov_cons. f_equal. apply IH. Qed.

Lemma ov_twice d e : ov d (ov d e) = ov d e.
Proof. unfold ov at 1. now rewrite apply_idem. Qed.

(* ---- make_delta ---- *)
Lemma make_delta_length e1 e2 : length e1 = length e2 -> length (make_delta e1 e2) = length e1.
Proof. revert e2; induction e1 as [|x e1 IH]; intros [|y e2] H; cbn in *; try lia; auto. Qed.

Lemma make_delta_apply e1 e2 : length e1 = length e2 -> ov (make_delta e1 e2) e2 = e1.
Proof.
  revert e2; induction e1 as [|x e1 IH]; intros [|y e2] H; cbn in H; try lia; auto.
  cbn [DeltaModel.make_delta]. rewrite ov_cons, IH by lia. destruct (eqb x y) eqn:E; cbn; auto. apply eqb_spec in E. now subst.
Qed.

Lemma make_delta_written e1 : forall e2 i, length e1 = length e2 -> (i < length e1)%nat ->
  written (make_delta e1 e2) i = (if match member e1 i, member e2 i with Some a, Some b => eqb a b | _, _ => true end then None else member e1 i).
Proof.
  induction e1 as [|x e1 IH]; intros [|y e2] [|i] H Hi; cbn in *; try lia.
  - unfold written. cbn. now destruct (eqb x y).
  - apply (IH e2 i); lia.
Qed.

(* ---- local_version ---- *)
Notation run := (run eqb).
Notation step := (step eqb).

Definition inv (n : nat) (all : list V) (s : store V) : Prop :=
  length (value s) = n /\ length (pending s) = n /\
  ov (pending s) (value s) = all /\ (local_uids s = [] -> value s = all).

Definition delta_of (o : op V) : list (option V) := match o with Local _ d | Confirmed _ d => d | Replace _ => [] end.

Lemma apply_fst d e : fst (apply_delta d e) = ov d e.
Proof. reflexivity. Qed.
Ltac dest_apply := repeat match goal with |- context [let (_, _) := apply_delta ?d ?e in _] =>
   let E := fresh "E" in let x := fresh "x" in destruct (apply_delta d e) as [x ?] eqn:E; apply (f_equal fst) in E; rewrite apply_fst in E; cbn in E; subst x end.

(* merging and overwriting the value with the same change *)
Lemma ov_both d p e : length p = length e -> ov (merge_delta d p) (ov d e) = ov d (ov p e).
Proof.
  revert d p; induction e as [|x e IH]; intros d [|o2 p] H; cbn in H; try lia.
  - rewrite !ov_nil_r. reflexivity.
  - destruct d as [|o d]; cbn [merge_delta]; [reflexivity|]. rewrite !ov_cons, IH by lia. destruct o; auto.
Qed.

Lemma step_inv n all s o : inv n all s -> is_replace o = false -> length (delta_of o) = n ->
  inv n (ov (delta_of o) all) (step s o).
Proof.
  intros (H1 & H2 & H3 & H4) Hr Hl. destruct o as [u d|u d|e]; [| |discriminate]; cbn [step DeltaModel.step delta_of].
  - unfold apply_local_delta. dest_apply. cbn. repeat split; cbn; rewrite ?ov_length, ?merge_length; auto.
    + rewrite ov_both by lia. now rewrite H3.
    + unfold uid_insert. destruct (existsb (N.eqb u) (local_uids s)) eqn:E; [|discriminate].
      intros H. rewrite H in E. discriminate.
  - unfold apply_confirmed_delta. destruct (existsb (N.eqb u) (local_uids s)) eqn:E.
    + destruct (uid_erase u (local_uids s)) eqn:Eu.
      * dest_apply. cbn. rewrite ov_merge, H3 by lia. repeat split; cbn; rewrite ?ov_length; auto.
        -- rewrite <- H3, ov_length. auto.
        -- unfold empty_delta. rewrite repeat_length. auto.
        -- apply ov_empty.
      * repeat split; cbn; rewrite ?merge_length; auto.
        -- rewrite ov_merge by lia. now rewrite H3.
        -- discriminate.
    + dest_apply. cbn. repeat split; cbn; rewrite ?ov_length, ?merge_length; auto.
      * rewrite ov_both by lia. now rewrite H3.
      * intros H. now rewrite (H4 H).
Qed.

Lemma run_inv ops : forall n all s, inv n all s -> existsb is_replace ops = false -> arity n ops ->
  inv n (fold_left (fun e o => ov (delta_of o) e) ops all) (run s ops).
Proof.
  induction ops as [|o ops IH]; intros n all s HI Hr Ha; [exact HI|].
  cbn in Hr |- *. apply orb_false_iff in Hr as [Hr1 Hr2]. inversion Ha as [|? ? Ha1 Ha2]. subst.
  apply IH; auto. apply step_inv; auto. destruct o; auto; discriminate.
Qed.

(* the uids *)
Lemma erase_in u v l : In v (uid_erase u l) <-> In v l /\ v <> u.
Proof.
  unfold uid_erase. rewrite filter_In, negb_true_iff, N.eqb_neq. intuition.
Qed.
Lemma existsb_in u l : existsb (N.eqb u) l = true <-> In u l.
Proof.
  rewrite existsb_exists. split; [intros (x & H & E); apply N.eqb_eq in E; now subst|intros H; exists u; split; auto; apply N.eqb_refl].
Qed.

Lemma step_uids s o v : In v (local_uids (step s o)) ->
  (In v (local_uids s) \/ exists d, o = Local v d) /\ (forall d, o <> Confirmed v d).
Proof.
  destruct o as [u d|u d|e]; cbn [step DeltaModel.step].
  - unfold apply_local_delta. dest_apply. cbn. intros H. split; [|discriminate]. unfold uid_insert in H.
    destruct (existsb _ _); auto. destruct H as [->|H]; eauto.
  - unfold apply_confirmed_delta. destruct (existsb (N.eqb u) (local_uids s)) eqn:E.
    + destruct (uid_erase u (local_uids s)) as [|w l] eqn:Eu.
      * dest_apply. cbn. tauto.
      * cbn [fst local_uids]. rewrite <- Eu. intros H. apply erase_in in H as [H Hn]. split; auto. intros d0 Hd. congruence.
    + dest_apply. cbn. intros H. split; auto. intros d0 Hd. injection Hd as -> ->. apply existsb_in in H. congruence.
  - cbn. intros H. split; auto. discriminate.
Qed.

Lemma run_uids ops : forall s v, In v (local_uids (run s ops)) -> settled ops ->
  In v (local_uids s) /\ (forall d, ~ In (Confirmed v d) ops).
Proof.
  induction ops as [|o ops IH]; intros s v H Hs; [split; auto|]. cbn in H.
  assert (Hs' : settled ops) by (inversion Hs; auto).
  destruct (IH _ _ H Hs') as [H1 H2]. destruct (step_uids _ _ _ H1) as [[H3|(d & ->)] H4].
  - split; auto. intros d [Hd|Hd]; [now apply (H4 d)|now apply (H2 d)].
  - inversion Hs as [|? ? ? Hin _| |]; subst. exfalso. now apply (H2 d).
Qed.

(* all changes vs the confirmed ones *)
Definition agree_off (d : list (option V)) (e e' : list V) : Prop :=
  length e = length e' /\ forall i, written d i = None -> member e i = member e' i.

Lemma member_ov d e i : (i < length e)%nat -> member (ov d e) i = match written d i with Some v => Some v | None => member e i end.
Proof. apply ov_overwrites. Qed.
Lemma member_out (e : list V) i : (length e <= i)%nat -> member e i = None.
Proof. apply nth_error_None. Qed.

Lemma agree_step c d e e' : agree_off d e e' -> agree_off d (ov c e) (ov c e').
Proof.
  intros [L H]. split; [now rewrite !ov_length|]. intros i Hi. destruct (lt_dec i (length e)).
  - rewrite !member_ov by lia. rewrite (H i Hi). auto.
  - rewrite !member_out by (rewrite ov_length; lia). auto.
Qed.

Lemma member_ext (e e' : list V) : (forall i, member e i = member e' i) -> e = e'.
Proof.
  revert e'. induction e as [|x l IH]; intros [|y l'] H; auto.
  - specialize (H 0%nat). discriminate.
  - specialize (H 0%nat). discriminate.
  - pose proof (H 0%nat) as H0. injection H0 as ->. f_equal. apply IH. intros k. apply (H (S k)).
Qed.

Lemma agree_same d e e' : agree_off d e e' -> ov d e = ov d e'.
Proof.
  intros [L H]. apply member_ext. intros i. destruct (lt_dec i (length e)).
  - rewrite !member_ov by lia. destruct (written d i) eqn:E; auto.
  - rewrite !member_out by (rewrite ov_length; lia). auto.
Qed.

Lemma agree_ov d e : agree_off d (ov d e) e.
Proof.
  split; [apply ov_length|]. intros i Hi. destruct (lt_dec i (length e)).
  - rewrite member_ov by lia. now rewrite Hi.
  - rewrite !member_out; auto; rewrite ?ov_length; lia.
Qed.

Lemma fold_agree ds : forall d e e', In d ds -> agree_off d e e' ->
  fold_left (fun e d => ov d e) ds e = fold_left (fun e d => ov d e) ds e'.
Proof.
  induction ds as [|c ds IH]; intros d e e' Hin Ha; [destruct Hin|]. cbn. destruct Hin as [->|Hin].
  - now rewrite (agree_same _ _ _ Ha).
  - apply (IH d); auto. now apply agree_step.
Qed.

Lemma in_confirmed u d (ops : list (op V)) : In (Confirmed u d) ops -> In d (confirmed_of ops).
Proof. intros H. unfold confirmed_of. apply in_flat_map. eexists. split; [exact H|]. now left. Qed.

Lemma all_is_confirmed ops : settled ops -> existsb is_replace ops = false -> forall e,
  fold_left (fun e o => ov (delta_of o) e) ops e = fold_left (fun e d => ov d e) (confirmed_of ops) e.
Proof.
  induction 1 as [|u d ops Hin Hs IH|u d ops Hs IH|e0 ops Hs IH]; intros Hr e; cbn in Hr |- *; auto; try discriminate.
  rewrite (IH Hr). apply (fold_agree _ d); [eapply in_confirmed; eauto|apply agree_ov].
Qed.

Lemma inv_init e : inv (length e) e (make_store e).
Proof. repeat split; cbn; auto; [unfold empty_delta; apply repeat_length|apply ov_empty]. Qed.

Lemma run_settled s ops : settled ops -> (forall v, In v (local_uids s) -> exists d, In (Confirmed v d) ops) -> local_uids (run s ops) = [].
Proof.
  intros Hs Hc. destruct (local_uids (run s ops)) as [|v l] eqn:E; auto. exfalso.
  destruct (run_uids ops s v) as [A B]; auto. { rewrite E. now left. }
  destruct (Hc v A) as (d & Hd). now apply (B d).
Qed.

Lemma converge e ops : settled ops -> existsb is_replace ops = false -> arity (length e) ops ->
  value (run (make_store e) ops) = fold_left (fun e d => ov d e) (confirmed_of ops) e.
Proof.
  intros Hs Hr Ha. destruct (run_inv ops _ _ _ (inv_init e) Hr Ha) as (_ & _ & _ & H).
  rewrite <- all_is_confirmed by auto. apply H. apply run_settled; auto. cbn. tauto.
Qed.

(* after the confirmation of the last outstanding change the store is fresh *)
Lemma flush_fresh s u d : length (pending s) = length (value s) -> local_uids s = [u] ->
  exists v, step s (Confirmed u d) = make_store v.
Proof.
  intros Hl Hu. cbn [step DeltaModel.step]. unfold apply_confirmed_delta. rewrite Hu. cbn. rewrite N.eqb_refl. cbn.
  dest_apply. cbn. eexists. unfold make_store. rewrite ov_length, Hl. reflexivity.
Qed.

Lemma run_app s a b : run s (a ++ b) = run (run s a) b.
Proof. apply fold_left_app. Qed.

(* ---- a replacement and the changes before it ---- *)
Lemma step_uids_iff s o v : In v (local_uids (step s o)) <->
  (In v (local_uids s) \/ exists d, o = Local v d) /\ (forall d, o <> Confirmed v d).
Proof.
  split; [apply step_uids|]. destruct o as [u d|u d|e]; cbn [step DeltaModel.step].
  - intros [H _]. unfold apply_local_delta. dest_apply. cbn. unfold uid_insert.
    destruct (existsb (N.eqb u) (local_uids s)) eqn:E.
    + destruct H as [H|(d' & H)]; auto. injection H as -> _. now apply existsb_in.
    + destruct H as [H|(d' & H)]; [now right|]. injection H as -> _. now left.
  - intros [[H|(d' & H)] Hn]; [|discriminate]. unfold apply_confirmed_delta.
    assert (Hv : v <> u) by (intros ->; now apply (Hn d)).
    destruct (existsb (N.eqb u) (local_uids s)) eqn:E.
    + assert (G : In v (uid_erase u (local_uids s))) by now apply erase_in.
      destruct (uid_erase u (local_uids s)) as [|w l] eqn:Eu; [destruct G|]. exact G.
    + dest_apply. exact H.
  - intros [[H|(d' & H)] _]; [exact H|discriminate].
Qed.

Lemma rev_case {A} (l : list A) : l = [] \/ exists l' x, l = l' ++ [x].
Proof. destruct l as [|a l]; [now left|]. right. destruct (exists_last (l := a :: l)) as (l' & x & E); [discriminate|]. eauto. Qed.

Lemma outstanding_snoc u (ops : list (op V)) o :
  outstanding u (ops ++ [o]) <-> (outstanding u ops \/ exists d, o = Local u d) /\ forall d, o <> Confirmed u d.
Proof.
  split.
  - intros (a & b & d & E & H). destruct (rev_case b) as [->|(b' & x & ->)].
    + apply app_inj_tail in E as [-> ->]. split; [right; eauto|discriminate].
    + rewrite app_comm_cons, app_assoc in E. apply app_inj_tail in E as [-> ->]. split.
      * left. exists a, b', d. split; auto. intros d' H'. apply (H d'), in_or_app. now left.
      * intros d' ->. apply (H d'), in_or_app. right. now left.
  - intros [[(a & b & d & -> & H)|(d & ->)] Hn].
    + exists a, (b ++ [o]), d. split; [now rewrite <- app_assoc|]. intros d' H'. apply in_app_or in H' as [H'|[H'|[]]]; [now apply (H d')|].
      now apply (Hn d').
    + exists ops, [], d. split; auto.
Qed.

Lemma uids_outstanding e ops u : In u (local_uids (run (make_store e) ops)) <-> outstanding u ops.
Proof.
  induction ops as [|o ops IH] using rev_ind.
  - cbn. split; [tauto|]. intros (a & b & d & E & _). now destruct a.
  - rewrite run_app, outstanding_snoc, <- IH. cbn [run fold_left]. apply step_uids_iff.
Qed.

Lemma no_outstanding e ops : (forall v, ~ outstanding v ops) <-> local_uids (run (make_store e) ops) = [].
Proof.
  split.
  - intros H. destruct (local_uids (run (make_store e) ops)) as [|v l] eqn:E; auto. exfalso. apply (H v), (uids_outstanding e).
    rewrite E. now left.
  - intros H v Hv. apply (uids_outstanding e) in Hv. now rewrite H in Hv.
Qed.

Lemma outstanding_settled (ops : list (op V)) : settled ops -> forall v, ~ outstanding v ops.
Proof.
  assert (G : forall x (ops : list (op V)) v, outstanding v (x :: ops) -> outstanding v ops \/ exists d, x = Local v d /\ forall d', ~ In (Confirmed v d') ops).
  { clear ops. intros x ops v (a & b & d' & E & H). destruct a as [|y a]; injection E as -> ->; [right; eauto|left; exists a, b, d'; auto]. }
  induction 1 as [|u d ops Hin Hs IH|u d ops Hs IH|e0 ops Hs IH]; intros v Hv.
  - destruct Hv as (a & b & d' & E & _). now destruct a.
  - destruct (G _ _ _ Hv) as [K|(d' & K & Hn)]; [now apply (IH v)|]. injection K as -> ->. now apply (Hn d').
  - destruct (G _ _ _ Hv) as [K|(d' & K & Hn)]; [now apply (IH v)|discriminate].
  - destruct (G _ _ _ Hv) as [K|(d' & K & Hn)]; [now apply (IH v)|discriminate].
Qed.

Lemma rest_split (ops : list (op V)) : (forall v, ~ outstanding v ops) ->
  exists a b, ops = a ++ b /\ at_rest a /\ existsb is_local b = false.
Proof.
  induction ops as [|o ops IH] using rev_ind; intros H.
  - exists [], []. repeat split; auto. now left.
  - destruct o as [u d|u d|w].
    + exfalso. apply (H u), outstanding_snoc. split; [right; eauto|discriminate].
    + destruct (in_dec N.eq_dec u (local_uids (run (make_store []) ops))) as [Hu|Hu].
      * exists (ops ++ [Confirmed u d]), []. rewrite app_nil_r. repeat split; auto. right. exists ops, u, d. repeat split; auto.
        now apply (uids_outstanding []).
      * destruct IH as (a & b & -> & A & B).
        { intros v Hv. destruct (N.eq_dec v u) as [->|Hn]; [now apply Hu, uids_outstanding|].
          apply (H v), outstanding_snoc. split; auto. intros d' E. injection E as -> _. congruence. }
        exists a, (b ++ [Confirmed u d]). rewrite app_assoc. repeat split; auto. rewrite existsb_app, B. reflexivity.
    + destruct IH as (a & b & -> & A & B).
      { intros v Hv. apply (H v), outstanding_snoc. split; auto. discriminate. }
      exists a, (b ++ [Replace w]). rewrite app_assoc. repeat split; auto. rewrite existsb_app, B. reflexivity.
Qed.

Definition sized (n : nat) (s : store V) : Prop := length (value s) = n /\ length (pending s) = n.
Lemma step_sized n s o : sized n s -> arity n [o] -> sized n (step s o).
Proof.
  intros [A B] H. inversion H as [|? ? C _]. subst. destruct o as [u d|u d|w]; cbn [step DeltaModel.step].
  - unfold apply_local_delta. dest_apply. split; cbn; now rewrite ?ov_length, ?merge_length.
  - unfold apply_confirmed_delta. destruct (existsb _ _); [destruct (uid_erase u (local_uids s))|]; dest_apply; split; cbn;
      rewrite ?ov_length, ?merge_length; auto. unfold empty_delta. now rewrite repeat_length, ?merge_length.
  - split; cbn; auto.
Qed.
Lemma run_sized n ops : forall s, sized n s -> arity n ops -> sized n (run s ops).
Proof.
  induction ops as [|o ops IH]; intros s H Ha; [exact H|]. inversion Ha as [|? ? A B]. subst. cbn. apply IH; auto.
  apply step_sized; auto. constructor; auto.
Qed.

(* at rest nothing is pending *)
Lemma rest_pending e ops : at_rest ops -> arity (length e) ops ->
  pending (run (make_store e) ops) = empty_delta (length e).
Proof.
  intros [->|(a & u & d & -> & Hu & Hn)] Ha; [reflexivity|]. apply (no_outstanding e) in Hn. rewrite run_app in *. cbn [run fold_left] in *.
  apply Forall_app in Ha as [Ha Hd]. inversion Hd as [|? ? Ld _]. subst.
  assert (S0 : sized (length e) (run (make_store e) a)).
  { apply run_sized; auto. split; cbn; auto. unfold empty_delta. apply repeat_length. }
  apply (uids_outstanding e), existsb_in in Hu. revert Hn. cbn [step DeltaModel.step]. unfold apply_confirmed_delta. rewrite Hu.
  destruct (uid_erase u _); [|discriminate]. dest_apply. cbn. intros _. rewrite ?merge_length. now destruct S0 as [_ ->].
Qed.

(* without local changes pending collects what is confirmed *)
Lemma quiet_pending ops : forall s e, local_uids s = [] -> existsb is_local ops = false ->
  sized (length e) s -> arity (length e) ops ->
  ov (pending (run s ops)) e = fold_left (fun e d => ov d e) (confirmed_of ops) (ov (pending s) e).
Proof.
  induction ops as [|o ops IH]; intros s e Hu Hl Hs Ha; [reflexivity|]. cbn in Hl. apply orb_false_iff in Hl as [Hl1 Hl2].
  inversion Ha as [|? ? A B]. subst. pose proof (step_sized _ s o Hs ltac:(constructor; auto)) as Hs'.
  destruct o as [u d|u d|w]; [discriminate| |].
  - change (run s (Confirmed u d :: ops)) with (run (step s (Confirmed u d)) ops). change (confirmed_of (Confirmed u d :: ops)) with (d :: confirmed_of ops).
    cbn [fold_left]. rewrite IH; auto; clear IH.
    + cbn [step DeltaModel.step]. unfold apply_confirmed_delta. rewrite Hu. cbn [existsb]. dest_apply. cbn. destruct Hs. now rewrite ov_merge by lia.
    + cbn [step DeltaModel.step]. unfold apply_confirmed_delta. rewrite Hu. cbn [existsb]. dest_apply. reflexivity.
  - change (run s (Replace w :: ops)) with (run (step s (Replace w)) ops). rewrite IH; auto.
Qed.

(* without local changes the value collects them as well *)
Lemma quiet_value ops : forall s, local_uids s = [] -> existsb is_local ops = false -> existsb is_replace ops = false ->
  value (run s ops) = fold_left (fun e d => ov d e) (confirmed_of ops) (value s).
Proof.
  induction ops as [|o ops IH]; intros s Hu Hl Hr; [reflexivity|]. cbn in Hl, Hr. apply orb_false_iff in Hl as [Hl1 Hl2].
  apply orb_false_iff in Hr as [Hr1 Hr2]. destruct o as [u d|u d|w]; try discriminate.
  change (run s (Confirmed u d :: ops)) with (run (step s (Confirmed u d)) ops). change (confirmed_of (Confirmed u d :: ops)) with (d :: confirmed_of ops).
  cbn [fold_left]. rewrite IH; auto; clear IH;
    cbn [step DeltaModel.step]; unfold apply_confirmed_delta; rewrite Hu; cbn [existsb]; dest_apply; auto.
Qed.
Lemma quiet_uids ops : forall s, local_uids s = [] -> existsb is_local ops = false -> local_uids (run s ops) = [].
Proof.
  induction ops as [|o ops IH]; intros s Hu Hl; [exact Hu|]. cbn in Hl. apply orb_false_iff in Hl as [Hl1 Hl2].
  cbn. apply IH; auto. destruct o as [u d|u d|w]; [discriminate| |exact Hu].
  cbn [step DeltaModel.step]; unfold apply_confirmed_delta; rewrite Hu; cbn [existsb]; dest_apply; auto.
Qed.

(* two stores that differ only where something is pending become equal with the next flush *)
Definition near (s1 s2 : store V) : Prop :=
  pending s1 = pending s2 /\ local_uids s1 = local_uids s2 /\ agree_off (pending s1) (value s1) (value s2).
Lemma merge_written d : forall (p : list (option V)) i, length d = length p ->
  written (merge_delta d p) i = match written d i with Some v => Some v | None => written p i end.
Proof.
  induction d as [|o d IH]; intros [|o2 p] i H; cbn in H; try lia; [now destruct i|].
  cbn [merge_delta]. destruct i as [|i]; [unfold written; cbn; now destruct o|]. apply (IH p i). lia.
Qed.
Lemma agree_merge d p e e' : length d = length p -> length p = length e -> agree_off p e e' -> agree_off (merge_delta d p) (ov d e) (ov d e').
Proof.
  intros Ld Lp [L H]. split; [now rewrite !ov_length|]. intros i Hi. destruct (lt_dec i (length e)).
  - rewrite !member_ov by lia. destruct (written d i) eqn:E; auto. apply H. revert Hi. rewrite merge_written by lia. now rewrite E.
  - rewrite !member_out by (rewrite ov_length; lia). auto.
Qed.

Lemma agree_merge1 d p e e' : length d = length p -> length p = length e -> agree_off p e e' -> agree_off (merge_delta d p) e e'.
Proof.
  intros Ld Lp [L H]. split; auto. intros i Hi. apply H. revert Hi. rewrite merge_written by lia. destruct (written d i); [discriminate|auto].
Qed.

Lemma near_run n ops : forall s1 s2, near s1 s2 -> sized n s1 -> arity n ops -> existsb is_replace ops = false ->
  local_uids (run s1 ops) = [] -> local_uids s1 <> [] \/ existsb is_local ops = true -> value (run s1 ops) = value (run s2 ops).
Proof.
  induction ops as [|o ops IH]; intros s1 s2 (P & U & A) Hs Ha Hr He Hl.
  - cbn in *. destruct Hl as [Hl|Hl]; [now destruct Hl|discriminate].
  - cbn in Hr. apply orb_false_iff in Hr as [Hr1 Hr2]. inversion Ha as [|? ? Ha1 Ha2]. subst.
    pose proof (step_sized n s1 o Hs ltac:(constructor; auto)) as Hs1.
    change (run s1 (o :: ops)) with (run (step s1 o) ops) in *. change (run s2 (o :: ops)) with (run (step s2 o) ops). destruct Hs as [L1 L2].
    destruct o as [u d|u d|w]; [| |discriminate].
    + apply IH; auto.
      * cbn [step DeltaModel.step]. unfold apply_local_delta. dest_apply. rewrite <- P, <- U. split; [reflexivity|split; [reflexivity|]]. cbn.
        apply agree_merge; auto; congruence.
      * left. intros E. assert (G : In u (local_uids (step s1 (Local u d)))) by (apply step_uids_iff; split; [right; eauto|discriminate]).
        now rewrite E in G.
    + destruct (existsb (N.eqb u) (local_uids s1)) eqn:Eu.
      * destruct (uid_erase u (local_uids s1)) as [|x l] eqn:El.
        -- replace (step s2 (Confirmed u d)) with (step s1 (Confirmed u d)); auto.
           cbn [step DeltaModel.step]. unfold apply_confirmed_delta. rewrite <- U, <- P, Eu, El. dest_apply. cbn. f_equal.
           apply agree_same, agree_merge1; auto; congruence.
        -- apply IH; auto.
           ++ cbn [step DeltaModel.step]. unfold apply_confirmed_delta. rewrite <- U, <- P, Eu, El. split; [reflexivity|split; [reflexivity|]]. cbn.
              apply agree_merge1; auto; congruence.
           ++ left. cbn [step DeltaModel.step]. unfold apply_confirmed_delta. rewrite Eu, El. discriminate.
      * apply IH; auto.
        -- cbn [step DeltaModel.step]. unfold apply_confirmed_delta. rewrite <- U, <- P, Eu. dest_apply. split; [reflexivity|split; [reflexivity|]]. cbn.
           apply agree_merge; auto; congruence.
        -- destruct Hl as [Hl|Hl]; [|now right]. left. cbn [step DeltaModel.step]. unfold apply_confirmed_delta. rewrite Eu. dest_apply. exact Hl.
Qed.

Lemma replace_exact n s w ops : sized n s -> local_uids s = [] -> length w = n -> arity n ops -> settled ops -> existsb is_replace ops = false ->
  value (run (step s (Replace w)) ops) =
  fold_left (fun e d => ov d e) (confirmed_of ops) (if existsb is_local ops then ov (pending s) w else w).
Proof.
  intros [L1 L2] Hu Lw Ha Hs Hr. destruct (existsb is_local ops) eqn:El; [|now rewrite quiet_value].
  set (s2 := {| value := ov (pending s) w; pending := pending s; local_uids := [] |}).
  rewrite (near_run n ops _ s2).
  - assert (I2 : inv n (ov (pending s) w) s2).
    { repeat split; cbn; rewrite ?ov_length, ?ov_twice; auto. }
    destruct (run_inv ops _ _ _ I2 Hr Ha) as (_ & _ & _ & G). rewrite G; [now apply all_is_confirmed|].
    apply run_settled; auto. cbn. tauto.
  - split; [reflexivity|split; [exact Hu|]]. cbn. split; [now rewrite ov_length|]. intros i Hi. symmetry. now apply agree_ov.
  - split; auto.
  - auto.
  - auto.
  - apply run_settled; auto. cbn. rewrite Hu. cbn. tauto.
  - now right.
Qed.


(* ---- what is shown while local changes are outstanding ---- *)
Lemma shows_snoc (past ops : list (op V)) ds o ds' : shows past ops ds -> shows (past ++ ops) [o] ds' -> shows past (ops ++ [o]) (ds ++ ds').
Proof.
  intros H. revert o ds'. induction H; intros o ds' H'; cbn [app].
  - now rewrite app_nil_r in H'.
  - apply shows_made, IHshows. now rewrite <- app_assoc.
  - apply shows_foreign; [assumption|]. apply IHshows. now rewrite <- app_assoc.
  - apply shows_own; [assumption|]. apply IHshows. now rewrite <- app_assoc.
Qed.

Lemma all_changes ops : forall e, fold_left (fun e o => ov (delta_of o) e) ops e = fold_left (fun e d => ov d e) (changes_of ops) e.
Proof. induction ops as [|[u d|u d|w] ops IH]; intros e; cbn; auto. Qed.

Lemma outstanding_dec u (ops : list (op V)) : outstanding u ops \/ ~ outstanding u ops.
Proof. destruct (in_dec N.eq_dec u (local_uids (run (make_store []) ops))) as [H|H]; [left|right]; rewrite <- (uids_outstanding []); exact H. Qed.

Lemma last_rest_snoc before since (o : op V) : last_rest before since -> ~ at_rest (before ++ since ++ [o]) -> last_rest before (since ++ [o]).
Proof.
  intros [H1 H2] H. split; [exact H1|]. intros a b E Ha. destruct (rev_case b) as [->|(b' & x & ->)].
  - rewrite app_nil_r in E. now subst a.
  - rewrite app_assoc in E. apply app_inj_tail in E as [E _]. now apply (H2 a b').
Qed.

Lemma shown_exactly e ops : existsb is_replace ops = false -> arity (length e) ops ->
  exists before since ds, ops = before ++ since /\ last_rest before since /\ shows before since ds /\
    value (run (make_store e) ops) = fold_left (fun e d => ov d e) (changes_of before ++ ds) e.
Proof.
  induction ops as [|o ops IH] using rev_ind; intros Hr Ha.
  - exists [], [], []. split; [reflexivity|]. split; [|split; [constructor|reflexivity]]. split; [now left|]. intros [|? ?] b E; [congruence|discriminate].
  - pose proof Hr as Hr0. pose proof Ha as Ha0. rewrite existsb_app in Hr. apply orb_false_iff in Hr as [Hr Hr1]. apply Forall_app in Ha as [Ha Ha1].
    destruct (IH Hr Ha) as (before & since & ds & E & L & S & Ev). clear IH.
    destruct (run_inv _ _ _ _ (inv_init e) Hr0 Ha0) as (_ & _ & _ & Hall). rewrite all_changes in Hall.
    assert (Go : forall ds', shows (before ++ since) [o] ds' -> ~ at_rest (ops ++ [o]) ->
        value (step (run (make_store e) ops) o) = fold_left (fun e d => ov d e) ds' (value (run (make_store e) ops)) ->
        exists before since ds, ops ++ [o] = before ++ since /\ last_rest before since /\ shows before since ds /\
          value (run (make_store e) (ops ++ [o])) = fold_left (fun e d => ov d e) (changes_of before ++ ds) e).
    { intros ds' H1 H2 H3. exists before, (since ++ [o]), (ds ++ ds'). split; [rewrite E; now rewrite app_assoc|]. split.
      - apply last_rest_snoc; [exact L|]. rewrite app_assoc, <- E. exact H2.
      - split; [now apply shows_snoc|]. rewrite run_app. cbn [run fold_left]. rewrite app_assoc, fold_left_app, <- Ev. exact H3. }
    destruct o as [u d|u d|w]; [| |discriminate].
    + apply (Go [d]).
      * apply shows_made. constructor.
      * intros [H|(a & u' & d' & H & _)]; [now destruct ops|]. apply app_inj_tail in H as [_ H]. discriminate.
      * cbn [step DeltaModel.step]. unfold apply_local_delta. dest_apply. reflexivity.
    + destruct (outstanding_dec u ops) as [Hu|Hu].
      * destruct (local_uids (run (make_store e) (ops ++ [Confirmed u d]))) as [|v l] eqn:Ul.
        -- exists (ops ++ [Confirmed u d]), [], []. rewrite !app_nil_r. split; [reflexivity|]. split; [|split; [constructor|apply Hall; reflexivity]].
           split; [right; exists ops, u, d; repeat split; auto; now apply (no_outstanding e)|]. intros [|? ?] b Ea; [congruence|discriminate].
        -- apply (Go []).
           ++ apply shows_own; [now rewrite <- E|]. constructor.
           ++ intros [H|(a & u' & d' & H & _ & Hn)]; [now destruct ops|]. apply (no_outstanding e) in Hn. congruence.
           ++ rewrite run_app in Ul. cbn [run fold_left] in Ul. revert Ul. apply (uids_outstanding e), existsb_in in Hu. cbn [step DeltaModel.step]. unfold apply_confirmed_delta. rewrite Hu.
              destruct (uid_erase u _); [dest_apply; discriminate|reflexivity].
      * apply (Go [d]).
        -- apply shows_foreign; [now rewrite <- E|]. constructor.
        -- intros [H|(a & u' & d' & H & H' & _)]; [now destruct ops|]. apply app_inj_tail in H as [-> H]. injection H as -> ->. contradiction.
        -- rewrite <- (uids_outstanding e), <- existsb_in, not_true_iff_false in Hu. cbn [step DeltaModel.step]. unfold apply_confirmed_delta. rewrite Hu. dest_apply. reflexivity.
Qed.

Lemma last_rest_unique (a b a' b' : list (op V)) : last_rest a b -> last_rest a' b' -> a ++ b = a' ++ b' -> a = a' /\ b = b'.
Proof.
  intros [H1 H2] [H3 H4] E. assert (G : exists c, (a' = a ++ c /\ b = c ++ b') \/ (a = a' ++ c /\ b' = c ++ b)).
  { clear -E. revert a' E. induction a as [|x a IH]; intros [|y a'] E; cbn in E.
    - exists []. left. auto.
    - exists (y :: a'). left. auto.
    - exists (x :: a). right. auto.
    - injection E as -> E. destruct (IH _ E) as (c & [[-> ->]|[-> ->]]); exists c; [left|right]; auto. }
  destruct G as ([|x c] & [[-> ->]|[-> ->]]); rewrite ?app_nil_r; auto.
  - exfalso. apply (H2 (x :: c) b'); auto. discriminate.
  - exfalso. apply (H4 (x :: c) b); auto. discriminate.
Qed.

Lemma shows_unique (past ops : list (op V)) ds ds' : shows past ops ds -> shows past ops ds' -> ds = ds'.
Proof.
  intros H. revert ds'. induction H; intros ds' H'; inversion H'; subst; try contradiction; auto; f_equal; auto.
Qed.
End P.
