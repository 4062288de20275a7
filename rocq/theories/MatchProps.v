(* C40, C41, C42, C46 *)
From Verif Require Import Base PromiseModel PromiseSpec PromiseProofs PromiseProps MatchModel MatchSpec MatchProofs.
Open Scope nat_scope.

(* C40: for every list of predicates that compiles and every value, match_if runs to its end, gives the position of the first
   predicate that holds, and evaluates the predicates up to that one, in order, once each, and no other *)
Theorem C40_first : forall preds x, compiles preds = true -> exists i, first_at (fun p => holds p x = true) preds i /\
  (exists ls c, run Sync (match_if_pipe preds) [x; (size_t, 0%N)] ls = Some (Running c) /\ quiet c) /\
  (forall ls o, run Sync (match_if_pipe preds) [x; (size_t, 0%N)] ls = Some o -> exists c, o = Running c /\
     (quiet c -> match_if preds x ls = Some (N.of_nat i) /\ names (filter (fun e => match e with Ran _ _ => true | _ => false end) (hist c)) = List.seq 0 (S i))).
Proof.
  intros preds x H. destruct (if_seq preds x H) as (i & Hf & ES). exists i. split; [exact Hf|].
  assert (A : forall ls o, run Sync (match_if_pipe preds) [x; (size_t, 0%N)] ls = Some o ->
            length ls <= S (length (stages (match_if_pipe preds))) /\ exists c, o = Running c /\
            (quiet c -> hist c = (map (fun j => Ran j [x; (size_t, N.of_nat j)]) (List.seq 0 (S i)) ++ [Caught (length preds + 1) [(size_t, N.of_nat i)]]) ++ [EndTerminate]) /\
            (~ quiet c -> exists o', step Sync (promise_join (match_if_pipe preds) []) c Tick = Some o')).
  { intros ls o E. destruct (C37_sync _ _ _ _ (if_uses preds) (if_now preds) E _ _ ES) as (L & R). split; [exact L|].
    destruct o as [c|h|h]; [|contradiction|destruct R as [_ R]; discriminate]. exists c. split; [reflexivity|]. destruct R as [R1 R2]. split; auto. intros Q. apply R1, Q. }
  split.
  - assert (B : forall n, (exists ls c, run Sync (match_if_pipe preds) [x; (size_t, 0%N)] ls = Some (Running c) /\ quiet c) \/
                 (exists ls c, length ls = n /\ run Sync (match_if_pipe preds) [x; (size_t, 0%N)] ls = Some (Running c) /\ ~ quiet c)).
    { induction n as [|n [IH|(ls & c & Ln & E & Q)]]; [right|left; exact IH|].
      - exists []. eexists. repeat split. intros [X _]. discriminate.
      - destruct (A ls _ E) as (_ & c' & Ec & _ & P). injection Ec as <-. destruct (P Q) as [o' S].
        assert (E' : run Sync (match_if_pipe preds) [x; (size_t, 0%N)] (ls ++ [Tick]) = Some o').
        { revert E S. unfold run. clear. generalize (start [x; (size_t, 0%N)]). induction ls as [|lb ls IH]; intros o E S; cbn [exec app] in E |- *.
          - injection E as ->. rewrite S. reflexivity.
          - destruct o as [d| |]; try discriminate. destruct (step _ _ d lb) as [o1|]; [|discriminate]. now apply IH. }
        destruct (A _ _ E') as (_ & c1 & -> & _). destruct (quiet_dec c1) as [Q1|Q1]; [left; eauto|right].
        exists (ls ++ [Tick]), c1. rewrite app_length. cbn. repeat split; auto; lia. }
    destruct (B (S (S (length (stages (match_if_pipe preds)))))) as [X|(ls & c & L & E & _)]; [exact X|].
    apply A in E as [L' _]. lia.
  - intros ls o E. destruct (A ls o E) as (_ & c & -> & Hq & _). exists c. split; [reflexivity|]. intros Q. specialize (Hq Q).
    unfold match_if. rewrite H, E, Hq. split.
    + rewrite !stored_app, stored_ran. reflexivity.
    + rewrite !filter_app. cbn [filter]. rewrite !app_nil_r. apply names_ran.
Qed.
Print Assumptions C40_first.

(* no list whose last predicates are not known to hold compiles; then there is always a predicate that holds *)
Theorem C40_always_one : forall preds, compiles preds = true -> forall x, exists i, i < length preds /\ first_at (fun p => holds p x = true) preds i.
Proof.
  intros preds H x. destruct (C40_first preds x H) as (i & Hf & _). exists i. split; auto.
  destruct Hf as ((a & Ha & _) & _). apply nth_error_Some. congruence.
Qed.
Print Assumptions C40_always_one.

(* there is an answer if, and only if, some predicate is known to hold when it is compiled, whatever the value *)
Theorem C40_answers : forall preds x, (exists ls i, match_if preds x ls = Some i) <-> In (Const true) preds.
Proof.
  assert (K : forall preds, compiles preds = true <-> In (Const true) preds).
  { intros preds. unfold compiles. rewrite existsb_exists. split.
    - intros ([[|]|f] & I & E); try discriminate. exact I.
    - intros I. exists (Const true). split; [exact I|reflexivity]. }
  intros preds x. rewrite <- K. split.
  - intros (ls & i & E). unfold match_if in E. destruct (compiles preds); [reflexivity|discriminate].
  - intros C. destruct (C40_first preds x C) as (i & _ & (ls & c & R & Q) & A). destruct (A ls _ R) as (c' & Ec & H). injection Ec as <-.
    exists ls, (N.of_nat i). now apply H.
Qed.
Print Assumptions C40_answers.
Example C40_answers_ex : match_if [Dyn (fun _ => true); Const true] (5, 1%N) (repeat Tick 5) = Some 0%N /\ match_if [Dyn (fun _ => true); Const false] (5, 1%N) (repeat Tick 5) = None.
Proof. split; reflexivity. Qed.

Example C40_ex : let ps := [Const false; Dyn (fun v => N.eqb (snd v) 7); Dyn (fun v => N.ltb 3 (snd v)); Const true; Const true] in
  map (fun n => match_if ps (5, n) (repeat Tick 8)) [7%N; 9%N; 1%N] = [Some 1%N; Some 2%N; Some 3%N].
Proof. reflexivity. Qed.

(* C41: a lookup either does not compile for any continuation, or calls every continuation exactly once with one and the same value *)
Theorem C41_once : forall s p, rejects s p \/ exists v, resolves s p v.
Proof. intros s p. apply path_once. Qed.
Print Assumptions C41_once.

(* two lookups one after the other are the lookup of the concatenated path *)
Theorem C41_concat : forall p q s u v, resolves s p u -> resolves u q v -> resolves s (p ++ q) v.
Proof. exact path_concat. Qed.
Print Assumptions C41_concat.

(* keys are looked up in order: the first key is matched in the store, the others in what it gives *)
Theorem C41_in_order : forall k p s v, resolves s (k :: p) v -> exists u, (forall E (fn : store -> option (list E)), match_key s k fn = fn u) /\
  (if is_store u then resolves u p v else u = v).
Proof.
  intros k p s v H. destruct (key_once s k) as [N|(u & M)].
  - specialize (H nat (fun _ => Some [])). cbn in H. rewrite N in H. discriminate.
  - exists u. split; auto. destruct (is_store u) eqn:S.
    + intros E fn. specialize (H E fn). cbn [match_path] in H. rewrite M, S in H. exact H.
    + specialize (H store (fun x => Some [x])). cbn in H. rewrite M, S in H. congruence.
Qed.
Print Assumptions C41_in_order.

(* where get_path gives a value, match_path gives the same one; a variant, alias or reference at its end is looked through
   as far as matching without a key does.  A map there does not compile. *)
Theorem C41_agrees : forall s p v, get_path s p = Some v ->
  (exists w, resolves s p w /\ view w = view v /\ (plain v -> w = v)) \/ (rejects s p /\ exists l, view v = Map l).
Proof.
  intros s p v G. pose proof (get_then_open p s v G) as O. destruct (unit_opens v) as [(l & V & N)|(w & M & U & V & K & _)].
  - right. split; [|eauto]. intros E fn. rewrite O. apply N.
  - left. exists w. split; [|split].
    + intros E fn. rewrite O. apply M.
    + exact V.
    + intros P. apply K. destruct v; cbn in P |- *; try contradiction; auto. specialize (M nat (fun _ => Some [])). discriminate.
Qed.
Print Assumptions C41_agrees.

(* a path of getters is the lookup of all their keys; with a type check that fails the value found so far is rejected and
   nothing more is looked up *)
Theorem C41_path_promise : forall ps s r, ps <> [] -> path_promise (rev (map GetPath ps)) s = Some r ->
  exists v, r = [MatchModel.Resolved v] /\ resolves s (concat ps) v.
Proof.
  intros ps s r Hp H. unfold path_promise in H. rewrite rev_involutive in H. apply pipe_gets in H as (v & -> & _ & H). eauto.
Qed.
Print Assumptions C41_path_promise.

Theorem C41_path_promise_rejects : forall ps t q rest s u v, ps <> [] -> path_promise (rev (map GetPath ps)) s = Some [MatchModel.Resolved u] ->
  resolves u q v -> (forall i, v <> Leaf t i) ->
  path_promise (rest ++ MatchType t q :: rev (map GetPath ps)) s = Some [MatchModel.Rejected v].
Proof.
  intros ps t q rest s u v Hp H R T. unfold path_promise in *. rewrite rev_involutive in H.
  rewrite rev_app_distr. cbn [rev]. rewrite rev_involutive, <- app_assoc, fold_left_app, H. cbn [app fold_left].
  rewrite pipe_single. cbn [promise_match]. rewrite R.
  destruct (Nat.eqb_spec (typeid v) (S t)) as [E|_]; [|apply pipe_rejected]. destruct v; try discriminate E. injection E as ->. exfalso. now eapply T.
Qed.
Print Assumptions C41_path_promise_rejects.

(* and a value of that type passes *)
Theorem C41_path_promise_passes : forall ps t i q s u, ps <> [] -> path_promise (rev (map GetPath ps)) s = Some [MatchModel.Resolved u] ->
  resolves u q (Leaf t i) -> path_promise (MatchType t q :: rev (map GetPath ps)) s = Some [MatchModel.Resolved (Leaf t i)].
Proof.
  intros ps t i q s u Hp H R. unfold path_promise in *. rewrite rev_involutive in H. cbn [rev]. rewrite rev_involutive, fold_left_app, H. cbn [fold_left].
  rewrite pipe_single. cbn [promise_match]. rewrite R. cbn [typeid]. rewrite Nat.eqb_refl. reflexivity.
Qed.
Print Assumptions C41_path_promise_passes.

(* It is false that a lookup of a path is the lookup of its parts: once a value that is no store is reached match_path takes
   it for the result and ignores the keys that are left (match_path.hpp:38-41) ... *)
Theorem C41_extra_keys_ignored : forall s p q u, p <> [] -> resolves s p u -> is_store u = false -> resolves s (p ++ q) u.
Proof. intros. now apply path_extra. Qed.
Print Assumptions C41_extra_keys_ignored.

(* ... although looking up those keys in the value does not compile, nor does get_path; and a variant that holds such a
   value swallows a key (variant.hpp:251-255) *)
Theorem C41_two_steps_refuted :
  (exists s p q u, resolves s p u /\ resolves s (p ++ q) u /\ rejects u q /\ get_path s (p ++ q) = None) /\
  (exists s k u, resolves s [] u /\ resolves s [k] u /\ rejects u [k]).
Proof.
  split.
  - exists (State [(1, Leaf 3 7)]), [1], [2], (Leaf 3 7). repeat split.
  - exists (Variant 2 (Leaf 3 7)), 1, (Leaf 3 7). repeat split.
Qed.
Print Assumptions C41_two_steps_refuted.

(* nbdl::match of a std::unordered_map without a key, and so every path that ends at one, does not compile: its
   match_impl gives itself to the continuation, which match forbids *)
Theorem C41_map_end_refuted : exists s p l, get_path s p = Some (Map l) /\ rejects s p.
Proof. exists (State [(1, Map [])]), [1], []. split; [reflexivity|intros E fn; reflexivity]. Qed.
Print Assumptions C41_map_end_refuted.

(* a member that is a reference to a state is given as that state, by get_path and match_path alike *)
Theorem C41_references : forall l k t, assoc k l = Some (Ref t) -> is_state t = true ->
  get_path (State l) [k] = Some t /\ resolves (State l) [k] t.
Proof.
  intros l k t A S. split.
  - cbn. rewrite A. cbn. now rewrite S.
  - intros E fn. cbn [match_path match_key get]. rewrite A. cbn [option_map get1]. rewrite S.
    destruct t; try discriminate S; cbn [is_store match_unit has_unit]; try reflexivity.
    + cbn in S. rewrite S. cbn. now destruct (is_store t).
    + cbn in S. rewrite S. cbn. now destruct (is_store t).
Qed.
Print Assumptions C41_references.

(* a reference to a state and a strong alias of one are as good as the state *)
Theorem C41_through : forall l s k u, stands_for l s -> assoc k l = Some u -> (forall t, u <> Ref t) ->
  (forall p, get_path s (k :: p) = get_path u p) /\
  (forall p E (fn : store -> option (list E)), match_path s (k :: p) fn = if is_store u then match_path u p fn else fn u).
Proof.
  intros l s k u S A U. assert (G1 : get1 u = u) by (destruct u; try reflexivity; exfalso; eapply U; reflexivity).
  assert (K : is_state s = true /\ get s k = Some u).
  { induction S as [|s S [I1 I2]|s S [I1 I2]]; cbn; [rewrite A; cbn; rewrite G1; auto| |]; rewrite I1, I2; cbn; rewrite G1; auto. }
  destruct K as [K1 K2]. split.
  - intros p. cbn [get_path]. rewrite K2. reflexivity.
  - intros p E fn. cbn [match_path]. destruct S; cbn [match_key]; rewrite ?K1, K2; reflexivity.
Qed.
Print Assumptions C41_through.
Example C41_through_ex : let s := Alias (Ref (State [(1, Alias (State [(2, Leaf 4 9)]))])) in get_path s [1; 2] = Some (Leaf 4 9) /\ resolves s [1; 2] (Leaf 4 9).
Proof. repeat split. Qed.

Example C41_ex : let s := State [(1, Ref (State [(2, Variant 1 (Map [(5, Leaf 4 8)])); (3, Leaf 4 9)])); (2, Alias (State []))] in
  resolves s [1; 2; 5] (Leaf 4 8) /\ resolves s [1; 2; 6] not_in_set /\ resolves s [1; 3] (Leaf 4 9) /\ resolves s [2] (Alias (State [])) /\
  get_path s [1; 3] = Some (Leaf 4 9) /\ rejects s [7] /\
  path_promise [MatchType 4 [2; 5]; GetPath [1]] s = Some [MatchModel.Resolved (Leaf 4 8)] /\
  path_promise [GetPath [1]; MatchType 4 [2; 6]; GetPath [1]] s = Some [MatchModel.Rejected not_in_set].
Proof. repeat split. Qed.

(* C42: matching a variant with functions for all its alternatives calls exactly one of them, once, with what the variant
   holds: the first that takes its type *)
Theorem C42_match : forall V n (v : variant V) fns r, type_id v < n -> match_fns n v fns = Some r ->
  exists i, r = [(i, v)] /\ first_at (fun c => c (type_id v) = true) fns i.
Proof. intros V n v fns r L H. unfold match_fns in H. destruct (forallb _ _); [|discriminate]. apply overloads_first in H as (i & -> & F). eauto. Qed.
Print Assumptions C42_match.

Theorem C42_total : forall V n (v : variant V) fns, type_id v < n ->
  (forall t, t < n -> exists c, In c fns /\ c t = true) -> exists r, match_fns n v fns = Some r.
Proof.
  intros V n v fns L H. unfold match_fns.
  assert (F : forallb (fun t => existsb (fun c => c t) fns) (List.seq 0 n) = true).
  { apply forallb_forall. intros t Ht. apply in_seq in Ht. apply existsb_exists. apply H. lia. }
  rewrite F. rewrite forallb_forall in F. specialize (F (type_id v) ltac:(apply in_seq; lia)).
  pose proof (overloads_some V v fns 0 F) as X. destruct (match_overloads v fns 0); [eauto|congruence].
Qed.
Print Assumptions C42_total.

(* match_when calls its function for one type only, once, with the value *)
Theorem C42_match_when : forall V n (v : variant V), type_id v < n -> flat_map (fun t => match_when t v) (List.seq 0 n) = [held v].
Proof.
  intros V n v L. replace n with (type_id v + S (n - S (type_id v))) by lia. rewrite List.seq_app, flat_map_app. cbn [List.seq flat_map].
  assert (A : forall l, ~ In (type_id v) l -> flat_map (fun t => match_when t v) l = []).
  { induction l as [|t l IH]; intros H; cbn; [reflexivity|]. unfold match_when at 1. destruct (Nat.eqb_spec (type_id v) t) as [E|]; [cbn in H; subst; tauto|].
    apply IH. cbn in H. tauto. }
  rewrite A by (rewrite in_seq; lia). rewrite A by (rewrite in_seq; lia). unfold match_when. now rewrite Nat.add_0_l, Nat.eqb_refl.
Qed.
Print Assumptions C42_match_when.

(* a variant_holder tells the number of the one alternative that match_when accepts, and the value that match_when gives *)
Theorem C42_holder : forall V n (v : variant V), type_id v < n ->
  (exists i, holder_match v VariantIndex = [OfIndex i] /\ i < n /\ forall t, match_when t v <> [] <-> t = i) /\
  (exists x, holder_match v VariantValue = [OfValue x] /\ forall t, match_when t v <> [] -> match_when t v = [x]).
Proof.
  intros V n v L. unfold match_when. split.
  - exists (type_id v). split; [reflexivity|]. split; [exact L|]. intros t. destruct (Nat.eqb_spec (type_id v) t); split; congruence.
  - exists (held v). split; [reflexivity|]. intros t. destruct (Nat.eqb (type_id v) t); congruence.
Qed.
Print Assumptions C42_holder.
Example C42_holder_ex : holder_match (mk_variant 2 7) VariantIndex = [OfIndex 2] /\ holder_match (mk_variant 2 7) VariantValue = [OfValue 7].
Proof. split; reflexivity. Qed.

(* reading back what was written restores the variant, whatever it held before, for every reader that undoes the writer *)
Theorem C42_round_trip : forall V n default (v v0 : variant V) W (write : Z -> V -> W) (read : W -> Z -> nat -> V -> option V),
  type_id v < n -> (forall id i x d, read (write id x) id i d = Some x) ->
  bind_read n default (Z.of_nat (type_id v)) v0 (read (bind_write v write)) = (v, false).
Proof.
  intros V n default v v0 W write read L H. unfold bind_read, match_by_type, bind_write.
  destruct (Z.leb_spec 0 (Z.of_nat (type_id v))); [|lia]. destruct (Z.ltb_spec (Z.of_nat (type_id v)) (Z.of_nat n)); [|lia].
  cbn. rewrite Nat2Z.id, H. now destruct v.
Qed.
Print Assumptions C42_round_trip.

(* an id that is no index, or a reader that throws, leaves the variant as it was; whatever is read, the id is an index *)
Theorem C42_bad_id : forall V n default id (v : variant V) f, (id < 0 \/ Z.of_nat n <= id)%Z -> bind_read n default id v f = (v, false).
Proof.
  intros V n default id v f H. unfold bind_read, match_by_type.
  destruct (Z.leb_spec 0 id); destruct (Z.ltb_spec id (Z.of_nat n)); cbn; try reflexivity; lia.
Qed.
Print Assumptions C42_bad_id.

Theorem C42_read : forall V n default id (v v' : variant V) f thrown, type_id v < n -> bind_read n default id v f = (v', thrown) ->
  type_id v' < n /\ (thrown = true -> v' = v) /\
  (v' <> v -> Z.of_nat (type_id v') = id /\ f id (type_id v') (default (type_id v')) = Some (held v')).
Proof.
  intros V n default id v v' f th L H. unfold bind_read, match_by_type in H.
  destruct (Z.leb_spec 0 id); destruct (Z.ltb_spec id (Z.of_nat n)); cbn in H; try (injection H as <- <-; repeat split; auto; congruence).
  destruct (f id (Z.to_nat id) (default (Z.to_nat id))) as [x|] eqn:F; injection H as <- <-; cbn; repeat split; auto; try congruence; try lia.
Qed.
Print Assumptions C42_read.

(* equality of variants is an equivalence when that of the values is, and tells alternatives apart *)
Theorem C42_equal : forall V empty eq, (forall x, eq x x = true) -> (forall x y, eq x y = eq y x) -> (forall x y z : V, eq x y = true -> eq y z = true -> eq x z = true) ->
  forall a b c, variant_equal empty eq a a = true /\ variant_equal empty eq a b = variant_equal empty eq b a /\
    (variant_equal empty eq a b = true -> variant_equal empty eq b c = true -> variant_equal empty eq a c = true) /\
    (variant_equal empty eq a b = true -> type_id a = type_id b).
Proof.
  intros V empty eq R S T a b c. unfold variant_equal. rewrite Nat.eqb_refl, R. repeat split.
  - now destruct (empty (type_id a)).
  - rewrite (Nat.eqb_sym (type_id b)). destruct (Nat.eqb_spec (type_id a) (type_id b)) as [E|]; auto. rewrite E, S. reflexivity.
  - destruct (Nat.eqb_spec (type_id a) (type_id b)) as [E|]; [|discriminate]. rewrite E. destruct (Nat.eqb (type_id b) (type_id c)); [|discriminate].
    destruct (empty (type_id b)); eauto.
  - destruct (Nat.eqb_spec (type_id a) (type_id b)) as [E|]; [auto|discriminate].
Qed.
Print Assumptions C42_equal.

Example C42_ex : let v := mk_variant 2 7%N in
  match_fns 3 v [Nat.eqb 1; fun t => Nat.ltb 1 t; fun _ => true] = Some [(1, v)] /\ match_fns 3 v [Nat.eqb 1; Nat.eqb 2] = None /\
  bind_read 3 (fun _ => 0%N) 1 v (fun _ _ d => Some (d + 5)%N) = (mk_variant 1 5%N, false) /\
  bind_read 3 (fun _ => 0%N) (-1) v (fun _ _ d => Some (d + 5)%N) = (v, false) /\
  bind_read 3 (fun _ => 0%N) 1 v (fun _ _ d => None) = (v, true).
Proof. repeat split. Qed.

(* C46: a lookup in a chain gives what the most recently composed store for its key is (as matching without a key shows it);
   without one it is the lookup in the base store *)
Theorem C46_match : forall l base k E (fn : store -> option (list E)),
  match_key (chain l base) k fn = match latest k l with Some v => match_path v [] fn | None => match_key base k fn end.
Proof. exact chain_key. Qed.
Print Assumptions C46_match.

Theorem C46_path : forall l base k p v,
  match latest k l with
  | Some u => forall w, resolves u [] w -> (if is_store w then resolves w p v else v = w) -> resolves (chain l base) (k :: p) v
  | None => resolves (chain l base) (k :: p) v <-> resolves base (k :: p) v
  end.
Proof.
  intros l base k p v. destruct (latest k l) as [u|] eqn:L.
  - intros w HW HV E fn. cbn [match_path]. rewrite chain_key, L, HW. destruct (is_store w); [apply HV|now subst].
  - split; intros H E fn; specialize (H E fn); cbn [match_path] in *; rewrite chain_key, L in *; exact H.
Qed.
Print Assumptions C46_path.

(* an action made for a key changes the most recently composed store for the key and nothing else; other actions reach
   the base store as they are *)
Theorem C46_action : forall apply l base k a,
  apply_action apply (chain l base) (For k a) =
  match latest k l with
  | Some v => option_map (fun v' => chain (replace_latest k v' l) base) (apply_action apply v a)
  | None => option_map (chain l) (apply_action apply base (For k a))
  end.
Proof. exact chain_action. Qed.
Print Assumptions C46_action.

Theorem C46_action_seen : forall apply l base k a v v' j E (fn : store -> option (list E)),
  latest k l = Some v -> apply_action apply v a = Some v' -> exists s', apply_action apply (chain l base) (For k a) = Some s' /\
  match_key s' j fn = if Nat.eqb k j then match_path v' [] fn else match_key (chain l base) j fn.
Proof.
  intros apply l base k a v v' j E fn L A. rewrite chain_action, L, A. cbn [option_map]. eexists. split; [reflexivity|].
  rewrite !chain_key, latest_replace. destruct (Nat.eqb_spec k j) as [->|]; [|reflexivity]. now rewrite L.
Qed.
Print Assumptions C46_action_seen.

Theorem C46_plain : forall apply l base x, apply_action apply (chain l base) (Plain x) = option_map (chain l) (apply_action apply base (Plain x)).
Proof. exact chain_plain. Qed.
Print Assumptions C46_plain.

(* a range shows the elements of its container one by one under its key, and the store under all other keys *)
Theorem C46_range : forall k c s j E (fn : store -> option (list E)),
  map (fun t => match_key t j fn) (store_range k c s) = map (fun x => if Nat.eqb k j then match_path x [] fn else match_key s j fn) c.
Proof.
  intros k c s j E fn. unfold store_range. rewrite map_map. apply map_ext. intros x. cbn [match_key]. destruct (Nat.eqb k j); [|reflexivity]. symmetry. apply empty_path.
Qed.
Print Assumptions C46_range.

(* It is false that an action can be sent to the element of an outer range: store_iterator_action has no key, the innermost
   range takes it (store_range.hpp:62-65) *)
Theorem C46_nested_range_refuted : exists k e k' e' s apply x, k <> k' /\
  apply_action apply (Iter k e (Iter k' e' s)) (Elem (Plain x)) = Some (Iter k (Leaf 1 x) (Iter k' e' s)) /\
  forall a r, apply_action apply (Iter k e (Iter k' e' s)) (Elem a) = Some r -> match_path r [k'] (fun v => Some [v]) = Some [e'].
Proof.
  exists 1, (Leaf 1 0), 2, (Leaf 1 5), (State []), (fun _ a => match a with Plain x => Some (Leaf 1 x) | _ => None end), 3%N.
  split; [discriminate|]. split; [reflexivity|]. intros a r H. cbn in H. destruct a; cbn in H; try discriminate. injection H as <-. reflexivity.
Qed.
Print Assumptions C46_nested_range_refuted.

Example C46_ex : let s := chain [(1, Leaf 1 10); (2, State [(7, Leaf 1 20)]); (1, Leaf 1 30)] (State [(3, Leaf 1 40)]) in
  resolves s [1] (Leaf 1 10) /\ resolves s [2; 7] (Leaf 1 20) /\ resolves s [3] (Leaf 1 40) /\ rejects s [4].
Proof. repeat split. Qed.
