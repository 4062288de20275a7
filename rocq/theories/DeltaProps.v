From Verif Require Import Base DeltaModel DeltaSpec DeltaProofs.

Section Props.
Context {V : Type} (eqb : V -> V -> bool).
Hypothesis eqb_spec : forall x y, eqb x y = true <-> x = y.

(* C27 *)
Theorem C27_delta_exact (e1 e2 : list V) : length e1 = length e2 ->
  fst (apply_delta eqb (make_delta eqb e1 e2) e2) = e1 /\
  length (make_delta eqb e1 e2) = length e1 /\
  forall i, (i < length e1)%nat ->
    (written (make_delta eqb e1 e2) i <> None <-> member e1 i <> member e2 i) /\
    (forall v, written (make_delta eqb e1 e2) i = Some v -> member e1 i = Some v).
Proof.
  intros H. split; [|split].
  - now apply (make_delta_apply eqb eqb_spec).
  - now apply make_delta_length.
  - intros i Hi. rewrite (make_delta_written eqb) by auto. unfold member.
    destruct (nth_error e1 i) as [a|] eqn:E1; [|apply nth_error_None in E1; lia].
    destruct (nth_error e2 i) as [b|] eqn:E2; [|apply nth_error_None in E2; lia].
    destruct (eqb a b) eqn:E.
    + apply eqb_spec in E. subst. split; [split; congruence|discriminate].
    + apply (eqb_neq eqb eqb_spec) in E. split; [split; congruence|auto].
Qed.

(* C27: make_delta(e) writes everything *)
Theorem C27_delta_whole (e e2 : list V) : length e = length e2 -> fst (apply_delta eqb (make_delta1 e) e2) = e /\ length (make_delta1 e) = length e.
Proof.
  intros L. split; [|apply map_length]. change (ov eqb (make_delta1 e) e2 = e). revert e2 L. induction e as [|x e IH]; intros [|y e2] L; try discriminate; [reflexivity|].
  cbn [make_delta1 map]. rewrite (ov_cons eqb eqb_spec). f_equal. apply IH. cbn in L. lia.
Qed.

(* C28 *)
Theorem C28_apply_reports (d : list (option V)) (e : list V) :
  overwrites d e (fst (apply_delta eqb d e)) /\
  (snd (apply_delta eqb d e) = true <-> fst (apply_delta eqb d e) <> e) /\
  apply_delta eqb d (fst (apply_delta eqb d e)) = (fst (apply_delta eqb d e), false).
Proof.
  split; [|split].
  - apply (ov_overwrites eqb eqb_spec).
  - apply (apply_flag eqb eqb_spec).
  - apply (apply_idem eqb eqb_spec).
Qed.

(* C28: so do the two that change a local_version *)
Theorem C28_store_reports (s : store V) u d :
  (snd (apply_local_delta eqb s u d) = true <-> value (fst (apply_local_delta eqb s u d)) <> value s) /\
  (snd (apply_confirmed_delta eqb s u d) = true <-> value (fst (apply_confirmed_delta eqb s u d)) <> value s).
Proof.
  assert (F : forall p, let (v, r) := apply_delta eqb p (value s) in r = true <-> v <> value s).
  { intros p. pose proof (apply_flag eqb eqb_spec p (value s)) as A. destruct (apply_delta eqb p (value s)). exact A. }
  split.
  - unfold apply_local_delta. specialize (F d). destruct (apply_delta eqb d (value s)). exact F.
  - unfold apply_confirmed_delta. destruct (existsb (N.eqb u) (local_uids s)).
    + destruct (uid_erase u (local_uids s)).
      * specialize (F (merge_delta d (pending s))). destruct (apply_delta eqb (merge_delta d (pending s)) (value s)). exact F.
      * cbn. split; [discriminate|congruence].
    + specialize (F d). destruct (apply_delta eqb d (value s)). exact F.
Qed.

(* C29: any number of deltas merged one after the other into the first *)
Theorem C29_deltas_compose (n : nat) (d : list (option V)) (ds : list (list (option V))) (e : list V) :
  length e = n -> length d = n -> Forall (fun d => length d = n) ds ->
  fst (apply_delta eqb (fold_left (fun p d => merge_delta d p) ds d) e) =
  fold_left (fun e d => fst (apply_delta eqb d e)) (d :: ds) e.
Proof.
  intros He Hd Hs. cbn. revert d Hd. induction Hs as [|c ds Hc Hs IH]; intros d Hd; [reflexivity|].
  cbn. rewrite IH by (rewrite merge_length; auto). f_equal. apply (ov_merge eqb eqb_spec). lia.
Qed.

Theorem C29_merge_assoc (a b c : list (option V)) : length b = length c ->
  merge_delta a (merge_delta b c) = merge_delta (merge_delta a b) c.
Proof. apply merge_assoc. Qed.

(* C30 *)
Theorem C30_converges (e : list V) (ops : list (op V)) :
  settled ops -> existsb is_replace ops = false -> arity (length e) ops ->
  history (confirmed_of ops) e (value (run eqb (make_store e) ops)).
Proof. intros. rewrite (converge eqb eqb_spec) by auto. apply (history_ov eqb eqb_spec). Qed.

(* C30, before everything is confirmed: while no local change is outstanding the value shows every change, and
   at any moment an own change is visible right away *)
Theorem C30_local_visible (s : store V) u d :
  overwrites d (value s) (value (step eqb s (Local u d))).
Proof.
  cbn. unfold apply_local_delta. destruct (apply_delta eqb d (value s)) as [v r] eqn:E. cbn.
  replace v with (fst (apply_delta eqb d (value s))) by now rewrite E. apply (ov_overwrites eqb eqb_spec).
Qed.

(* C30, at every moment: all changes up to the last moment at which everything was settled, and after it every change but the
   confirmations of own changes *)
Theorem C30_shown (e : list V) (ops : list (op V)) : existsb is_replace ops = false -> arity (length e) ops ->
  (exists before since ds, ops = before ++ since /\ last_rest before since /\ shows before since ds) /\
  forall before since ds, ops = before ++ since -> last_rest before since -> shows before since ds ->
    history (changes_of before ++ ds) e (value (run eqb (make_store e) ops)).
Proof.
  intros Hr Ha. destruct (shown_exactly eqb eqb_spec e ops Hr Ha) as (b & c & ds & E & L & S & Ev). split; [exists b, c, ds; auto|].
  intros b' c' ds' E' L' S'. rewrite E in E'. destruct (last_rest_unique b c b' c' L L' E') as [<- <-]. rewrite (shows_unique b c _ _ S' S), Ev.
  apply (history_ov eqb eqb_spec).
Qed.

(* C31 holds when the replacement comes first, or right after the confirmation that settled all local changes *)
Theorem C31_replace_partial (e w : list V) (pre post : list (op V)) :
  pre = [] \/
  (exists pre' u d, pre = pre' ++ [Confirmed u d] /\ local_uids (run eqb (make_store e) pre') = [u]) ->
  existsb is_replace pre = false -> arity (length e) pre ->
  settled post -> existsb is_replace post = false -> length w = length e -> arity (length w) post ->
  history (confirmed_of post) w (value (run eqb (make_store e) (pre ++ Replace w :: post))).
Proof.
  intros Hpre Hr Ha Hs Hr2 Hw Ha2. rewrite run_app.
  assert (G : exists v, length v = length e /\ run eqb (make_store e) pre = make_store v).
  { destruct Hpre as [->|(pre' & u & d & -> & Hu)]; [exists e; auto|].
    rewrite run_app. cbn [run fold_left].
    rewrite existsb_app in Hr. apply orb_false_iff in Hr as [Hr _]. apply Forall_app in Ha as [Ha Ha'].
    destruct (run_inv eqb eqb_spec pre' _ _ _ (inv_init eqb eqb_spec e) Hr Ha) as (L1 & L2 & _ & _).
    destruct (flush_fresh eqb eqb_spec (run eqb (make_store e) pre') u d) as (v & Ev); [lia|auto|].
    exists v. split; [|exact Ev].
    apply (f_equal (fun s => length (pending s))) in Ev. cbn in Ev. unfold empty_delta in Ev. rewrite repeat_length in Ev.
    rewrite <- Ev. unfold apply_confirmed_delta. rewrite Hu. cbn. rewrite N.eqb_refl. cbn.
    destruct (apply_delta eqb _ _). cbn. unfold empty_delta. rewrite repeat_length. lia. }
  destruct G as (v & Lv & ->). cbn [run fold_left].
  replace (step eqb (make_store v) (Replace w)) with (make_store w).
  - apply C30_converges; auto.
  - cbn. unfold make_store. now rewrite Hw, Lv.
Qed.

(* exactly what becomes of a replacement, whatever came before it (other replacements too) as long as no local change is
   outstanding: the changes confirmed since the store was last at rest are written over it again if a local change
   follows, and only then *)
Theorem C31_exact (e w : list V) (pre post : list (op V)) :
  (forall u, ~ outstanding u pre) -> settled post -> arity (length e) (pre ++ Replace w :: post) ->
  existsb is_replace post = false ->
  exists before since, pre = before ++ since /\ at_rest before /\ existsb is_local since = false /\
    history ((if existsb is_local post then confirmed_of since else []) ++ confirmed_of post) w
      (value (run eqb (make_store e) (pre ++ Replace w :: post))).
Proof.
  intros Hn Hs Ha Hr. destruct (rest_split eqb pre Hn) as (a & b & -> & A & B). exists a, b. repeat split; auto.
  apply Forall_app in Ha as [Ha1 Ha2]. inversion Ha2 as [|? ? Hw Ha3]. subst.
  apply Forall_app in Ha1 as [Haa Hab]. pose proof Hn as Hu. apply (no_outstanding eqb e) in Hu.
  assert (S0 : sized (length e) (make_store e)) by (split; cbn; auto; unfold empty_delta; apply repeat_length).
  assert (Sa : sized (length e) (run eqb (make_store e) a)) by now apply (run_sized eqb eqb_spec).
  assert (Sb : sized (length e) (run eqb (make_store e) (a ++ b))) by (apply (run_sized eqb eqb_spec); auto; now apply Forall_app).
  assert (Ua : local_uids (run eqb (make_store e) a) = []).
  { destruct A as [->|(a' & u & d & -> & _ & A)]; [reflexivity|]. now apply (no_outstanding eqb). }
  rewrite run_app. cbn [run DeltaModel.run fold_left]. fold (run eqb (step eqb (run eqb (make_store e) (a ++ b)) (Replace w)) post).
  rewrite (replace_exact eqb eqb_spec (length e)) by auto.
  assert (E : (if existsb is_local post then ov eqb (pending (run eqb (make_store e) (a ++ b))) w else w) =
              fold_left (fun e d => ov eqb d e) (if existsb is_local post then confirmed_of b else []) w).
  { destruct (existsb is_local post); [|reflexivity]. rewrite run_app, (quiet_pending eqb eqb_spec) by (rewrite ?Hw; auto).
    rewrite (rest_pending eqb eqb_spec) by auto. now rewrite (ov_empty eqb eqb_spec). }
  rewrite E, <- fold_left_app. apply (history_ov eqb eqb_spec).
Qed.

(* when the changes confirmed since then are none, the replacement stays *)
Theorem C31_at_rest (e w : list V) (pre post : list (op V)) :
  at_rest pre -> settled post -> arity (length e) (pre ++ Replace w :: post) -> existsb is_replace post = false ->
  history (confirmed_of post) w (value (run eqb (make_store e) (pre ++ Replace w :: post))).
Proof.
  intros A Hs Ha Hr. apply Forall_app in Ha as [Ha1 Ha2]. inversion Ha2 as [|? ? Hw Ha3]. subst.
  assert (S0 : sized (length e) (make_store e)) by (split; cbn; auto; unfold empty_delta; apply repeat_length).
  assert (Ua : local_uids (run eqb (make_store e) pre) = []).
  { destruct A as [->|(a' & u & d & -> & _ & A)]; [reflexivity|]. now apply (no_outstanding eqb). }
  rewrite run_app. cbn [run DeltaModel.run fold_left]. fold (run eqb (step eqb (run eqb (make_store e) pre) (Replace w)) post).
  rewrite (replace_exact eqb eqb_spec (length e)) by (auto; now apply (run_sized eqb eqb_spec)).
  rewrite (rest_pending eqb eqb_spec), (ov_empty eqb eqb_spec) by auto.
  destruct (existsb is_local post); apply (history_ov eqb eqb_spec).
Qed.
End Props.

(* C31 is false: a change confirmed before the replacement comes back with the confirmation of a change that does
   not touch that member.  full statement: the members not written after the replacement keep its values. *)
Definition C31_full : Prop := forall (e w : list N) (pre post : list (op N)),
  settled pre -> settled post -> arity (length e) (pre ++ Replace w :: post) -> existsb is_replace (pre ++ post) = false ->
  history (confirmed_of post) w (value (run N.eqb (make_store e) (pre ++ Replace w :: post))).

Theorem C31_replace_refuted :
  ~ C31_full /\
  (* the witness: member 0 is replaced by 9, nobody writes it afterwards, yet it ends as 5 *)
  value (run N.eqb (make_store [0; 0]%N)
    [Confirmed 7 [Some 5; None]%N; Replace [9; 9]%N; Local 1 [None; Some 1]%N; Confirmed 1 [None; Some 1]%N]) = [5; 1]%N.
Proof.
  split; [|reflexivity]. intros H.
  specialize (H [0;0]%N [9;9]%N [Confirmed 7 [Some 5; None]%N] [Local 1 [None; Some 1]%N; Confirmed 1 [None; Some 1]%N]).
  assert (A : history [[None; Some 1%N]] [9;9]%N [5;1]%N).
  { apply H.
    - constructor. constructor.
    - constructor; [now left|]. repeat constructor.
    - repeat constructor.
    - reflexivity. }
  inversion A as [|? ? ? ? ? [_ B] C]. subst. inversion C. subst. specialize (B 0%nat ltac:(cbn; lia)). discriminate.
Qed.

Print Assumptions C27_delta_exact.
Print Assumptions C27_delta_whole.
Print Assumptions C28_apply_reports.
Print Assumptions C28_store_reports.
Print Assumptions C29_deltas_compose.
Print Assumptions C29_merge_assoc.
Print Assumptions C30_converges.
Print Assumptions C30_local_visible.
Print Assumptions C30_shown.
Print Assumptions C31_replace_partial.
Print Assumptions C31_replace_refuted.
Print Assumptions C31_exact.
Print Assumptions C31_at_rest.

Open Scope N_scope.
Example C27_ex : make_delta N.eqb [1; 2; 3] [1; 5; 3] = [None; Some 2; None] /\ apply_delta N.eqb [None; Some 2; None] [1; 5; 3] = ([1; 2; 3], true).
Proof. split; reflexivity. Qed.
Example C28_ex : apply_delta N.eqb [Some 4; None] [1; 2] = ([4; 2], true) /\ apply_delta N.eqb [Some 4; None] [4; 2] = ([4; 2], false).
Proof. split; reflexivity. Qed.
Example C28_store_ex : snd (apply_confirmed_delta N.eqb (fst (apply_local_delta N.eqb (make_store [1; 2]) 7 [Some 4; None])) 7 [Some 4; None]) = false /\
  apply_delta N.eqb (make_delta1 [5; 6]) [1; 6] = ([5; 6], true).
Proof. split; reflexivity. Qed.
Example C29_ex : fold_left (fun p d => merge_delta d p) [[Some 1; None; None]; [Some 2; Some 3; None]] [None; Some 8; Some 9] = [Some 2; Some 3; Some 9].
Proof. reflexivity. Qed.
(* a foreign change overtakes two local ones, which are confirmed in the other order *)
Definition C30_ops : list (op N) :=
  [Local 1 [Some 1; None]; Confirmed 7 [Some 5; Some 5]; Local 2 [Some 2; None]; Confirmed 2 [Some 2; None]; Confirmed 1 [Some 1; None]].
Example C30_ex : value (run N.eqb (make_store [0; 0]) C30_ops) = [1; 5] /\ settled C30_ops /\
  value (run N.eqb (make_store [0; 0]) (firstn 4 C30_ops)) = [2; 5].
Proof.
  split; [reflexivity|split; [|reflexivity]]. unfold C30_ops.
  constructor; [right; right; right; left; reflexivity|]. constructor. constructor; [now left|]. repeat constructor.
Qed.
(* one local change is confirmed, another is not *)
Example C30_shown_ex : let ops := [Local 1 [Some 1; None]; Confirmed 1 [Some 1; None]; Local 2 [Some 2; None]; Local 3 [None; Some 3]; Confirmed 7 [Some 7; Some 7]; Confirmed 2 [Some 2; None]] in
  value (run N.eqb (make_store [0; 0]) ops) = [7; 7] /\ last_rest (firstn 2 ops) (skipn 2 ops) /\
  shows (firstn 2 ops) (skipn 2 ops) [[Some 2; None]; [None; Some 3]; [Some 7; Some 7]].
Proof.
  cbn [firstn skipn]. split; [reflexivity|].
  assert (O : forall u (d d' : list (option N)), outstanding u [Local u d] /\ forall v, ~ outstanding v [Local u d; Confirmed u d']).
  { intros u d d'. split; [exists [], [], d; auto|]. intros v. rewrite (outstanding_snoc v [Local u d] (Confirmed u d')), (outstanding_snoc v [] (Local u d)).
    intros [[[[H|(x & H)] _]|(x & H)] H2]; [destruct H as ([|? ?] & b & x & H & _); discriminate|injection H as -> ->|discriminate]. now apply (H2 d'). }
  split.
  - split; [right; exists [Local 1 [Some 1; None]], 1, [Some 1; None]; split; [reflexivity|]; apply O|]. intros a b E Ha H.
    assert (U : local_uids (run N.eqb (make_store [0; 0]) ([Local 1 [Some 1; None]; Confirmed 1 [Some 1; None]] ++ a)) = []).
    { apply (no_outstanding N.eqb). destruct H as [H|(a' & u & d & -> & _ & H)]; [discriminate|exact H]. }
    destruct a as [|x a]; [congruence|]. injection E as <- E. destruct a as [|x a]; [discriminate|]. injection E as <- E. destruct a as [|x a]; [discriminate|]. injection E as <- E.
    destruct a as [|x a]; [discriminate|]. injection E as <- E. destruct a as [|x a]; [discriminate|discriminate E].
  - apply shows_made, shows_made, shows_foreign; [|apply shows_own; [|constructor]].
    + rewrite <- (uids_outstanding N.eqb [0; 0]). vm_compute. intuition discriminate.
    + rewrite <- (uids_outstanding N.eqb [0; 0]). vm_compute. auto.
Qed.
(* the hypothesis matters: a confirmation that carries another change than the local one leaves the local one behind *)
Example C30_needs_same_change :
  value (run N.eqb (make_store [0; 0]) [Local 1 [Some 1; None]; Confirmed 1 [None; Some 3]]) = [1; 3].
Proof. reflexivity. Qed.
Example C31_ex : value (run N.eqb (make_store [0; 0])
   [Local 1 [Some 1; None]; Confirmed 1 [Some 1; None]; Replace [9; 9]; Local 2 [None; Some 4]; Confirmed 2 [None; Some 4]]) = [9; 4].
Proof. reflexivity. Qed.
(* the witness of C31_replace_refuted read with C31_exact: the change confirmed before the replacement comes first *)
Example C31_exact_ex :
  history [[Some 5; None]; [None; Some 1]] [9; 9] [5; 1] /\ at_rest (@nil (op N)) /\
  (forall u, ~ outstanding u [Confirmed 7 [Some 5; None]%N]).
Proof.
  split; [|split; [now left|]].
  - apply (history_cons _ _ _ [5; 9]); [|apply (history_cons _ _ _ [5; 1]); [|constructor]].
    all: split; auto; intros [|[|i]] H; cbn in *; auto; lia.
  - apply (outstanding_settled). constructor. constructor.
Qed.
Example C31_rest_ex : at_rest [Local 1 [Some 1; None]; Confirmed 1 [Some 1; None]].
Proof.
  right. exists [Local 1 [Some 1; None]], 1, [Some 1; None]. split; [reflexivity|split].
  - exists [], [], [Some 1; None]. auto.
  - apply outstanding_settled. constructor; [now left|]. repeat constructor.
Qed.
