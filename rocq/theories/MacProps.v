(* C104 - C106: entities, metastructs, collectors. *)
From Coq Require Import Permutation.
From Verif Require Import Base MacModel MacSpec MacProofs.
Open Scope nat_scope.

(* C104.  A declaration of an entity compiles exactly if it names between 1 and 62 members of its class, and these are its members, in order. *)
Theorem C104_exact : forall c args e, nbdl_entity c args = Some e <-> exists ms, declares c args ms /\ e = {| record := c; declared := ms |}.
Proof. exact entity_iff. Qed.
Print Assumptions C104_exact.

(* The declarations of a program compile together exactly if each does, no class is declared twice, and no member is declared twice, whatever classes name it. *)
Theorem C104_program : forall l es, program l = Some es <->
  Forall2 (fun p e => exists ms, declares (fst p) (snd p) ms /\ e = {| record := fst p; declared := ms |}) l es /\
  NoDup (map (fun e => cname (record e)) es) /\ NoDup (flat_map (fun e => map (fun m => (owner (record e) m, m)) (declared e)) es).
Proof.
  intros l es. unfold program. split.
  - intros H. destruct (declare l) as [es'|] eqn:D; [|discriminate]. destruct (no_dup N.eqb _ && no_dup pair_eqb _)%bool eqn:B; [|discriminate]. injection H as ->.
    apply andb_prop in B as [B1 B2]. split; [now apply declare_iff|]. split; [exact (proj1 (no_dup_iff N.eqb N.eqb_eq _) B1)|exact (proj1 (no_dup_iff pair_eqb pair_eqb_iff _) B2)].
  - intros (F & A & B). apply declare_iff in F. rewrite F. apply (no_dup_iff N.eqb N.eqb_eq) in A. apply (no_dup_iff pair_eqb pair_eqb_iff) in B. unfold specializations. now rewrite A, B.
Qed.
Print Assumptions C104_program.

Lemma nodup_in {A B} (f : A -> list B) l x : NoDup (flat_map f l) -> In x l -> NoDup (f x).
Proof.
  induction l as [|y l IH]; intros D H; [destruct H|]. cbn [flat_map] in D. destruct H as [->|H].
  - clear IH. induction (f x) as [|z r IH]; [constructor|]. cbn [app] in D. inversion D as [|? ? N D' e]; subst. constructor; [|now apply IH]. intros X. apply N. apply in_app_iff. now left.
  - apply IH; [|exact H]. clear - D. induction (f y) as [|z r IH]; [exact D|]. cbn [app] in D. inversion D. auto.
Qed.
(* Its members can be read by their names and by nothing else, in the order they were declared in; assigning to all of them changes these and no others. *)
Theorem C104_members : forall l es e V (o : object V), program l = Some es -> In e es ->
  (forall name v, get_member e o name = Some v <-> In name (declared e) /\ v = o name) /\
  map snd (bind_map e o) = bind_sequence e o /\ map fst (bind_map e o) = declared e /\
  (forall i m, nth_error (declared e) i = Some m -> nth_error (bind_sequence e o) i = Some (o m)) /\
  (forall vs, changed o (bind_assign e vs o) (declared e) vs).
Proof.
  intros l es e V o P H. apply C104_program in P as (_ & _ & D). split; [intros; apply get_iff|]. unfold bind_map, bind_sequence. rewrite !map_map, map_id. cbn [fst snd].
  split; [reflexivity|]. split; [reflexivity|]. split; [intros i m X; rewrite nth_error_map, X; reflexivity|]. intros vs. apply assign_changed.
  apply (nodup_in _ _ _ D) in H. now apply NoDup_map_inv in H.
Qed.
Print Assumptions C104_members.

(* so reading an entity and assigning what was read to another gives that other one the members of the first, and keeps the rest *)
Theorem C104_copied : forall l es e V (o o' : object V), program l = Some es -> In e es ->
  let r := bind_assign e (bind_sequence e o) o' in bind_sequence e r = bind_sequence e o /\ forall m, ~ In m (declared e) -> r m = o' m.
Proof.
  intros l es e V o o' P H r. destruct (C104_members l es e V o' P H) as (_ & _ & _ & _ & C). destruct (C (bind_sequence e o)) as (C1 & C2). split; [|exact C2].
  unfold bind_sequence at 1 2. apply map_ext_in. intros m Hm. apply In_nth_error in Hm as (i & Hi). apply (C1 i m); [exact Hi|]. unfold bind_sequence. now rewrite nth_error_map, Hi.
Qed.
Print Assumptions C104_copied.

(* two classes with a common base: each can be an entity with a member of the base, but not both *)
Theorem C104_inherited_refuted : exists c1 c2 m, cname c1 <> cname c2 /\ (exists e, program [(c1, [Id m])] = Some e) /\ (exists e, program [(c2, [Id m])] = Some e) /\
  program [(c1, [Id m]); (c2, [Id m])] = None.
Proof.
  exists {| cname := 1; owner := fun _ => Some 9%N |}, {| cname := 2; owner := fun _ => Some 9%N |}, 5%N.
  split; [discriminate|]. split; [eexists; vm_compute; reflexivity|]. split; [eexists; vm_compute; reflexivity|]. vm_compute. reflexivity.
Qed.
Print Assumptions C104_inherited_refuted.
(* 63 members are too many *)
Theorem C104_many_refuted : exists c ms, NoDup ms /\ Forall (fun m => owner c m <> None) ms /\ nbdl_entity c (map Id ms) = None.
Proof.
  exists {| cname := 1; owner := fun m => Some m |}, (map N.of_nat (seq 0 63)). split; [|split; [apply Forall_forall; intros; discriminate|vm_compute; reflexivity]].
  apply FinFun.Injective_map_NoDup; [intros a b; apply Nat2N.inj|apply seq_NoDup].
Qed.
Print Assumptions C104_many_refuted.
Example C104_ex : let c := {| cname := 1%N; owner := fun m => if N.ltb m 8 then Some 1%N else None |} in
  program [(c, [Id 3%N; Id 4%N])] = Some [{| record := c; declared := [3%N; 4%N] |}] /\ nbdl_entity c [Id 3%N; Id 9%N] = None /\ nbdl_entity c [] = None /\ program [(c, [Id 3%N; Id 3%N])] = None.
Proof. cbn zeta. split; [|vm_compute; auto]. reflexivity. Qed.

(* C105.  The names of a metastruct are its keys in order. *)
Theorem C105_exact : forall names m, mpdef_metastruct names = Some m <->
  exists xs, names = map Id xs /\ 1 <= length xs <= 63 /\ NoDup xs /\ m = {| keys := combine xs (seq 0 (length xs)); spec := seq 0 (length xs) |}.
Proof. exact metastruct_iff. Qed.
Print Assumptions C105_exact.

(* each name gives the value at its place *)
Theorem C105_get : forall xs m V (vs : list V) i x v, mpdef_metastruct (map Id xs) = Some m -> nth_error xs i = Some x -> nth_error vs i = Some v ->
  exists k, key_of m x = Some k /\ at_fn k (make_metastruct m vs) = Some v.
Proof.
  intros xs m V vs i x v H X W. apply C105_exact in H as (ys & E & L & D & ->).
  assert (EX : xs = ys) by (clear - E; revert ys E; induction xs as [|x xs IH]; intros [|y ys] H; try discriminate; [reflexivity|]; cbn in H; injection H as -> H; f_equal; auto). subst ys.
  exists i. unfold key_of. cbn [keys]. rewrite (find_key xs 0 i x D X). cbn. split; [reflexivity|exact W].
Qed.
Print Assumptions C105_get.

(* made with NAME = value: it compiles exactly if the names are each given once, in any order, and the order does not matter *)
Theorem C105_with_map : forall names m V (ps : list (nat * V)) vs, mpdef_metastruct names = Some m ->
  (make_metastruct_with_map m ps = Some vs <-> length vs = length names /\ Permutation ps (combine (seq 0 (length names)) vs)).
Proof.
  intros names m V ps vs H. apply C105_exact in H as (xs & -> & L & D & ->). rewrite map_length. rewrite <- with_map_iff. unfold make_metastruct_with_map. cbn [spec].
  destruct (length ps =? length (seq 0 (length xs))); [|tauto]. destruct (all_some _); cbn [option_map]; [|tauto]. reflexivity.
Qed.
Print Assumptions C105_with_map.
Theorem C105_any_order : forall names m V (ps qs : list (nat * V)), mpdef_metastruct names = Some m -> Permutation ps qs -> make_metastruct_with_map m ps = make_metastruct_with_map m qs.
Proof.
  intros names m V ps qs H P. destruct (make_metastruct_with_map m ps) as [vs|] eqn:E.
  - symmetry. apply (C105_with_map names m V qs vs H). apply (C105_with_map names m V ps vs H) in E as [A B]. split; [exact A|]. eapply Permutation_trans; [apply Permutation_sym, P|exact B].
  - destruct (make_metastruct_with_map m qs) as [vs|] eqn:F; [|reflexivity]. apply (C105_with_map names m V qs vs H) in F as [A B].
    rewrite (proj2 (C105_with_map names m V ps vs H)) in E; [discriminate|]. split; [exact A|]. eapply Permutation_trans; eauto.
Qed.
Print Assumptions C105_any_order.
(* without names the number of values is not checked *)
Theorem C105_unchecked_refuted : exists m x k (vs : list N), mpdef_metastruct [Id 7%N; Id 8%N] = Some m /\ key_of m x = Some k /\ at_fn k (make_metastruct m vs) = None.
Proof. eexists _, 8%N, _, [1%N]. split; [vm_compute; reflexivity|]. split; vm_compute; reflexivity. Qed.
Print Assumptions C105_unchecked_refuted.
Example C105_ex : exists m, mpdef_metastruct [Id 7%N; Id 8%N; Id 9%N] = Some m /\ key_of m 9%N = Some 2 /\
  make_metastruct_with_map m [(2, 30%N); (0, 10%N); (1, 20%N)] = Some [10%N; 20%N; 30%N] /\ make_metastruct_with_map m [(2, 30%N); (2, 10%N); (1, 20%N)] = None.
Proof. eexists. split; [vm_compute; reflexivity|]. vm_compute. auto. Qed.

(* C106.  Collectors that are composed collect what each of them does; there must be a state for each, and states without a collector are dropped. *)
Theorem C106_composed : forall T X (cs : list (T -> X -> T)) xs states, xs <> [] -> cs <> [] ->
  (forall r, fold (compose_collectors cs) xs states = Some r <-> length cs <= length states /\ r = map (fun p => fold_left (fst p) xs (snd p)) (combine cs states)).
Proof.
  intros T X cs xs states Hx Hc r. destruct (Nat.le_gt_cases (length cs) (length states)) as [L|L].
  - rewrite fold_compose by auto. split; [intros H; injection H as <-; auto|intros (_ & ->); reflexivity].
  - destruct xs as [|x xs]; [congruence|]. cbn [fold]. unfold compose_collectors at 1. rewrite compose_at_none by (cbn; auto). split; [discriminate|lia].
Qed.
Print Assumptions C106_composed.
(* with append_if: each list gets exactly what its predicate holds of, in order *)
Theorem C106_filters : forall X (ps : list (X -> bool)) xs, fold (compose_collectors (map append_if ps)) xs (map (fun _ => []) ps) = Some (map (fun p => filter p xs) ps).
Proof.
  intros X ps [|x xs]; [reflexivity|]. rewrite fold_compose; [|rewrite !map_length; lia|discriminate]. f_equal. remember (x :: xs) as l. clear.
  induction ps as [|p ps IH]; [reflexivity|]. cbn [map combine fst snd]. rewrite fold_append_if. f_equal. exact IH.
Qed.
Print Assumptions C106_filters.
Example C106_ex : fold (compose_collectors (map append_if [N.even; N.ltb 3])) [1;2;3;4;5;6]%N [[]; []] = Some [[2;4;6]%N; [4;5;6]%N]
  /\ fold (compose_collectors (map append_if [N.even; N.ltb 3])) [1;2]%N [[]; []; [9%N]] = Some [[2%N]; []].
Proof. vm_compute. auto. Qed.
