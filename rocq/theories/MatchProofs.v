From Verif Require Import Base PromiseModel PromiseSpec PromiseProofs MatchModel MatchSpec.
Open Scope nat_scope.

Section StoreInd.
Variable P : store -> Prop.
Hypothesis HLeaf : forall t x, P (Leaf t x).
Hypothesis HState : forall l, P (State l).
Hypothesis HRef : forall s, P s -> P (Ref s).
Hypothesis HAlias : forall s, P s -> P (Alias s).
Hypothesis HVariant : forall i s, P s -> P (Variant i s).
Hypothesis HMap : forall l, P (Map l).
Hypothesis HComp : forall k l r, P l -> P r -> P (Composite k l r).
Hypothesis HIter : forall k e s, P e -> P s -> P (Iter k e s).
Fixpoint store_ind' (s : store) : P s :=
  match s with
  | Leaf t x => HLeaf t x | State l => HState l | Ref s => HRef s (store_ind' s) | Alias s => HAlias s (store_ind' s)
  | Variant i s => HVariant i s (store_ind' s) | Map l => HMap l
  | Composite k l r => HComp k l r (store_ind' l) (store_ind' r) | Iter k e s => HIter k e s (store_ind' e) (store_ind' s)
  end.
End StoreInd.

Lemma state_store : forall s, is_state s = true -> is_store s = true.
Proof. induction s; cbn; auto; congruence. Qed.

Lemma has_unit_store : forall s, has_unit s = true -> is_store s = true /\ is_state s = false.
Proof.
  induction s; cbn; try discriminate; auto; intros H.
  - apply andb_true_iff in H as [H1 H2]. apply negb_true_iff in H1. auto.
  - apply andb_true_iff in H as [H1 H3]. apply andb_true_iff in H1 as [H1 H2]. apply negb_true_iff in H1. auto.
Qed.

(* what is left when a store is opened *)
Lemma unit_opens : forall s,
  (exists l, view s = Map l /\ forall E (fn : store -> option (list E)), match_unit s fn = None) \/
  (exists w, (forall E (fn : store -> option (list E)), match_unit s fn = fn w) /\ has_unit w = false /\ view w = view s /\
             (has_unit s = false -> w = s) /\ (is_store w = false -> is_store s = false \/ has_unit s = true)).
Proof.
  induction s using store_ind'.
  - right. exists (Leaf t x). repeat split; auto.
  - right. exists (State l). repeat split; auto.
  - destruct (has_unit (Ref s)) eqn:U.
    + destruct IHs as [(l & V & N)|(w & M & U' & V & _ & K)].
      * left. exists l. split; [exact V|]. intros E fn. cbn [match_unit]. rewrite U. apply N.
      * right. exists w. split; [intros E fn; cbn [match_unit]; rewrite U; apply M|]. repeat split; auto; try discriminate.
    + right. exists (Ref s). split; [intros E fn; cbn [match_unit]; rewrite U; reflexivity|]. repeat split; auto.
  - destruct (has_unit (Alias s)) eqn:U.
    + destruct IHs as [(l & V & N)|(w & M & U' & V & _ & K)].
      * left. exists l. split; [exact V|]. intros E fn. cbn [match_unit]. rewrite U. apply N.
      * right. exists w. split; [intros E fn; cbn [match_unit]; rewrite U; apply M|]. repeat split; auto; try discriminate.
    + right. exists (Alias s). split; [intros E fn; cbn [match_unit]; rewrite U; reflexivity|]. repeat split; auto.
  - destruct (is_store s) eqn:S.
    + destruct IHs as [(l & V & N)|(w & M & U' & V & _ & K)].
      * left. exists l. split; [exact V|]. intros E fn. cbn [match_unit]. rewrite S. apply N.
      * right. exists w. split; [intros E fn; cbn [match_unit]; rewrite S; apply M|]. repeat split; auto; try discriminate.
    + right. exists s. split; [intros E fn; cbn [match_unit]; rewrite S; reflexivity|]. repeat split; auto; try discriminate.
      destruct (has_unit s) eqn:U; auto. apply has_unit_store in U as [U _]. congruence.
  - left. exists l. split; reflexivity.
  - right. exists (Composite k s1 s2). repeat split; auto.
  - right. exists (Iter k s1 s2). repeat split; auto.
Qed.

Lemma unit_fixed : forall s E (fn : store -> option (list E)), has_unit s = false -> match_unit s fn = fn s.
Proof.
  intros s E fn U. destruct (unit_opens s) as [(l & V & N)|(w & M & _ & _ & K & _)]; [|now rewrite M, K].
  exfalso. revert V N U. clear. induction s using store_ind'; try discriminate; cbn [view].
  - intros V N U. specialize (N nat (fun _ => Some [])). cbn [match_unit] in N. rewrite U in N. discriminate.
  - intros V N U. specialize (N nat (fun _ => Some [])). cbn [match_unit] in N. rewrite U in N. discriminate.
Qed.

Lemma empty_path : forall s E (fn : store -> option (list E)), match_path s [] fn = match_unit s fn.
Proof.
  intros s E fn. cbn. destruct (is_store s) eqn:S; [reflexivity|]. symmetry. apply unit_fixed.
  destruct (has_unit s) eqn:U; auto. apply has_unit_store in U as [U _]. congruence.
Qed.

Definition dec_path s p := rejects s p \/ exists v, resolves s p v.

Lemma unit_once : forall s, dec_path s [].
Proof.
  intros s. destruct (unit_opens s) as [(l & V & N)|(w & M & _)].
  - left. intros E fn. rewrite empty_path. apply N.
  - right. exists w. intros E fn. rewrite empty_path. apply M.
Qed.

Lemma key_once : forall s k,
  (forall E (fn : store -> option (list E)), match_key s k fn = None) \/
  (exists v, forall E (fn : store -> option (list E)), match_key s k fn = fn v).
Proof.
  assert (U : forall s, (forall E (fn : store -> option (list E)), match_unit s fn = None) \/ (exists v, forall E (fn : store -> option (list E)), match_unit s fn = fn v)).
  { intros s. destruct (unit_opens s) as [(l & V & N)|(w & M & _)]; [left|right]; eauto. }
  intros s k. induction s using store_ind'; cbn [match_key].
  - left; reflexivity.
  - destruct (get (State l) k); [right; eauto|left; reflexivity].
  - destruct (is_state (Ref s)); [destruct (get (Ref s) k); [right; eauto|left; reflexivity]|exact IHs].
  - destruct (is_state (Alias s)); [destruct (get (Alias s) k); [right; eauto|left; reflexivity]|exact IHs].
  - destruct (is_store s); [exact IHs|right; eauto].
  - destruct (assoc k l) as [v|]; [|right; eauto]. destruct (is_store v); [apply U|right; eauto].
  - destruct (Nat.eqb k0 k); [|exact IHs1]. destruct (is_store s2); [apply U|right; eauto].
  - destruct (Nat.eqb k0 k); [apply U|exact IHs2].
Qed.

Lemma path_once : forall p s, dec_path s p.
Proof.
  induction p as [|k p IH]; intros s; [apply unit_once|].
  destruct (key_once s k) as [N|(v & M)].
  - left. intros E fn. cbn. apply N.
  - destruct (is_store v) eqn:S.
    + destruct (IH v) as [N|(w & M')].
      * left. intros E fn. cbn. rewrite M, S. apply N.
      * right. exists w. intros E fn. cbn. rewrite M, S. apply M'.
    + right. exists v. intros E fn. cbn. now rewrite M, S.
Qed.

Lemma resolves_inj : forall s p v w, resolves s p v -> resolves s p w -> v = w.
Proof.
  intros s p v w H1 H2. specialize (H1 store (fun x => Some [x])). specialize (H2 store (fun x => Some [x])). congruence.
Qed.

Lemma resolves_unit : forall s w, resolves s [] w -> forall E (fn : store -> option (list E)), match_unit s fn = fn w.
Proof. intros s w H E fn. rewrite <- empty_path. apply H. Qed.

(* an opened store answers as the store does *)
Lemma open_key : forall s w, resolves s [] w -> is_store w = true ->
  forall k E (fn : store -> option (list E)), match_key s k fn = match_key w k fn.
Proof.
  intros s. induction s using store_ind'; intros w H S k' E fn;
    try (assert (w = Leaf t x) as -> by (specialize (H store (fun x => Some [x])); cbn in H; congruence); reflexivity);
    try (assert (w = State l) as -> by (specialize (H store (fun x => Some [x])); cbn in H; congruence); reflexivity);
    try (assert (w = Composite k s1 s2) as -> by (specialize (H store (fun x => Some [x])); cbn in H; congruence); reflexivity);
    try (assert (w = Iter k s1 s2) as -> by (specialize (H store (fun x => Some [x])); cbn in H; congruence); reflexivity).
  - pose proof (resolves_unit _ _ H) as U. cbn [match_unit] in U. destruct (has_unit (Ref s)) eqn:HU.
    + apply has_unit_store in HU as [_ HS]. cbn [match_key]. rewrite HS. apply IHs; auto.
      intros E' fn'. rewrite empty_path. apply U.
    + specialize (U store (fun x => Some [x])). assert (w = Ref s) as -> by congruence. reflexivity.
  - pose proof (resolves_unit _ _ H) as U. cbn [match_unit] in U. destruct (has_unit (Alias s)) eqn:HU.
    + apply has_unit_store in HU as [_ HS]. cbn [match_key]. rewrite HS. apply IHs; auto.
      intros E' fn'. rewrite empty_path. apply U.
    + specialize (U store (fun x => Some [x])). assert (w = Alias s) as -> by congruence. reflexivity.
  - pose proof (resolves_unit _ _ H) as U. cbn [match_unit match_key] in U |- *. destruct (is_store s) eqn:HS.
    + apply IHs; [|exact S]. intros E' fn'. rewrite empty_path. apply U.
    + specialize (U store (fun x => Some [x])). assert (w = s) as -> by congruence. congruence.
  - specialize (H store (fun x => Some [x])). discriminate.
Qed.

Lemma nonstore_path : forall u q v, is_store u = false -> resolves u q v -> q = [] /\ v = u.
Proof.
  intros u [|k q] v S H.
  - split; auto. specialize (H store (fun x => Some [x])). cbn in H. rewrite S in H. congruence.
  - exfalso. specialize (H store (fun x => Some [x])). cbn in H. revert H S. clear. 
    induction u using store_ind'; cbn [match_key is_store]; intros H S; try discriminate.
    + destruct (is_state (Ref u)) eqn:ST; [apply state_store in ST; cbn in ST; congruence|auto].
    + destruct (is_state (Alias u)) eqn:ST; [apply state_store in ST; cbn in ST; congruence|auto].
Qed.

Lemma open_idem : forall s w, resolves s [] w -> resolves w [] w.
Proof.
  intros s w H. destruct (unit_opens s) as [(l & V & N)|(w' & M & U & _)].
  - specialize (H store (fun x => Some [x])). rewrite empty_path, N in H. discriminate.
  - assert (w' = w) as ->. { pose proof (resolves_unit _ _ H store (fun x => Some [x])) as X. rewrite M in X. congruence. }
    intros E fn. rewrite empty_path. now apply unit_fixed.
Qed.

Lemma path_concat : forall p q s u v, resolves s p u -> resolves u q v -> resolves s (p ++ q) v.
Proof.
  induction p as [|k p IH]; intros q s u v H1 H2.
  - cbn [app]. destruct (is_store u) eqn:S.
    + destruct q as [|k q].
      * pose proof (resolves_inj _ _ _ _ (open_idem _ _ H1) H2) as ->. exact H1.
      * intros E fn. specialize (H2 E fn). rewrite <- H2. cbn [match_path]. now apply open_key.
    + apply nonstore_path in H2 as [-> ->]; auto.
  - destruct (key_once s k) as [N|(w & M)].
    + specialize (H1 store (fun x => Some [x])). cbn in H1. rewrite N in H1. discriminate.
    + destruct (is_store w) eqn:S.
      * assert (HW : resolves w p u). { intros E fn. specialize (H1 E fn). cbn in H1. rewrite M, S in H1. exact H1. }
        intros E fn. cbn. rewrite M, S. apply (IH q w u v HW H2).
      * assert (u = w) as ->. { specialize (H1 store (fun x => Some [x])). cbn in H1. rewrite M, S in H1. congruence. }
        apply nonstore_path in H2 as [-> ->]; auto. intros E fn. cbn. now rewrite M, S.
Qed.

(* extra keys are ignored once a value that is no store is reached *)
Lemma path_extra : forall p q s u, p <> [] -> resolves s p u -> is_store u = false -> resolves s (p ++ q) u.
Proof.
  induction p as [|k p IH]; intros q s u Hp H S; [congruence|].
  destruct (key_once s k) as [N|(w & M)].
  - specialize (H store (fun x => Some [x])). cbn in H. rewrite N in H. discriminate.
  - destruct (is_store w) eqn:SW.
    + assert (HW : resolves w p u). { intros E fn. specialize (H E fn). cbn in H. rewrite M, SW in H. exact H. }
      destruct p as [|k' p'].
      * (* the last key gives a store that opens to u *)
        intros E fn. cbn. rewrite M, SW. cbn [app].
        destruct q as [|k' q]; [apply HW|].
        pose proof (resolves_unit _ _ HW) as U.
        clear - U S SW. revert U S SW. induction w using store_ind'; cbn [match_unit is_store]; intros U S SW; try discriminate.
        -- specialize (U store (fun x => Some [x])). assert (u = State l) as -> by congruence. discriminate.
        -- destruct (has_unit (Ref w)) eqn:HU.
           ++ apply has_unit_store in HU as [HS ST]. cbn [match_path match_key]. rewrite ST. apply IHw; auto.
           ++ specialize (U store (fun x => Some [x])). assert (u = Ref w) as -> by congruence. cbn in S. congruence.
        -- destruct (has_unit (Alias w)) eqn:HU.
           ++ apply has_unit_store in HU as [HS ST]. cbn [match_path match_key]. rewrite ST. apply IHw; auto.
           ++ specialize (U store (fun x => Some [x])). assert (u = Alias w) as -> by congruence. cbn in S. congruence.
        -- cbn [match_path match_key]. destruct (is_store w) eqn:SW'; [apply IHw; auto|].
           specialize (U store (fun x => Some [x])). assert (u = w) as -> by congruence. reflexivity.
        -- specialize (U store (fun x => Some [x])). discriminate.
        -- specialize (U store (fun x => Some [x])). assert (u = Composite k w1 w2) as -> by congruence. discriminate.
        -- specialize (U store (fun x => Some [x])). assert (u = Iter k w1 w2) as -> by congruence. discriminate.
      * intros E fn. cbn [app match_path]. rewrite M, SW. apply (IH q w u); auto. discriminate.
    + assert (u = w) as ->. { specialize (H store (fun x => Some [x])). cbn in H. rewrite M, SW in H. congruence. }
      intros E fn. cbn. now rewrite M, SW.
Qed.

Lemma get_state : forall s k v, get s k = Some v -> is_state s = true.
Proof. induction s using store_ind'; cbn; intros k9 v E; try discriminate; auto; destruct (is_state s); auto; discriminate. Qed.

Lemma key_get : forall s k v, get s k = Some v -> forall E (fn : store -> option (list E)), match_key s k fn = fn v.
Proof.
  intros s k v G E fn. pose proof (get_state _ _ _ G) as ST. destruct s; try discriminate; cbn [match_key]; try rewrite ST; rewrite G; reflexivity.
Qed.

Lemma get_then_open : forall p s v, get_path s p = Some v -> forall E (fn : store -> option (list E)), match_path s p fn = match_unit v fn.
Proof.
  induction p as [|k p IH]; intros s v G E fn.
  - cbn in G. injection G as <-. apply empty_path.
  - cbn in G |- *. destruct (get s k) as [w|] eqn:GK; [|discriminate]. rewrite (key_get _ _ _ GK).
    destruct (is_store w) eqn:S; [now apply IH|].
    destruct p as [|k' p].
    + cbn in G. injection G as <-. symmetry. rewrite <- empty_path. cbn. now rewrite S.
    + cbn in G. destruct (get w k') eqn:G'; [|discriminate]. apply get_state, state_store in G'. congruence.
Qed.

(* ---- path promises ---- *)

Definition gets (ps : list (list key)) : list node := rev (map GetPath ps).

Lemma pipe_single : forall n v, pipe_node (Some [Resolved v]) n = promise_match n v.
Proof. intros n v. cbn. destruct (promise_match n v); [|reflexivity]. now rewrite app_nil_r. Qed.

Lemma pipe_none : forall l, fold_left pipe_node l None = None.
Proof. induction l; cbn; auto. Qed.

Lemma pipe_rejected : forall l v, fold_left pipe_node l (Some [Rejected v]) = Some [Rejected v].
Proof. induction l; cbn; auto. Qed.

Lemma pipe_gets : forall ps s r, fold_left pipe_node (map GetPath ps) (Some [Resolved s]) = Some r ->
  exists v, r = [Resolved v] /\ (ps = [] -> v = s) /\ (ps <> [] -> resolves s (concat ps) v).
Proof.
  induction ps as [|p ps IH]; intros s r H.
  - cbn in H. injection H as <-. exists s. repeat split; auto. congruence.
  - cbn [map fold_left] in H. rewrite pipe_single in H. cbn [promise_match] in H.
    destruct (path_once p s) as [N|(u & M)].
    + rewrite N, pipe_none in H. discriminate.
    + rewrite M in H. apply IH in H as (v & -> & H0 & H1). exists v. repeat split; auto; [congruence|]. intros _. cbn [concat].
      destruct ps as [|p' ps]; [rewrite H0 by auto; cbn; now rewrite app_nil_r|]. apply path_concat with u; auto. apply H1; congruence.
Qed.

(* ---- composed stores ---- *)

Lemma chain_key : forall l base k E (fn : store -> option (list E)),
  match_key (chain l base) k fn = match latest k l with Some v => match_path v [] fn | None => match_key base k fn end.
Proof.
  induction l as [|[k' v] l IH]; intros base k E fn; cbn [chain fold_right fst snd store_compose match_key]; [reflexivity|].
  unfold latest. cbn [find fst]. destruct (Nat.eqb k' k); [reflexivity|apply IH].
Qed.

Lemma chain_action : forall apply l base k a,
  apply_action apply (chain l base) (For k a) =
  match latest k l with
  | Some v => option_map (fun v' => chain (replace_latest k v' l) base) (apply_action apply v a)
  | None => option_map (chain l) (apply_action apply base (For k a))
  end.
Proof.
  induction l as [|[k' v] l IH]; intros base k a.
  - cbn. destruct (apply_action apply base (For k a)); reflexivity.
  - unfold latest. cbn [chain fold_right fst snd store_compose find replace_latest apply_action]. rewrite (Nat.eqb_sym k k').
    destruct (Nat.eqb k' k) eqn:EK.
    + apply Nat.eqb_eq in EK as ->. reflexivity.
    + fold (chain l base). rewrite IH. fold (latest k l). unfold latest. destruct (find (fun kv => Nat.eqb (fst kv) k) l) as [[k2 v2]|]; cbn.
      * destruct (apply_action apply v2 a); reflexivity.
      * destruct (apply_action apply base (For k a)); reflexivity.
Qed.

Lemma chain_plain : forall apply l base x,
  apply_action apply (chain l base) (Plain x) = option_map (chain l) (apply_action apply base (Plain x)).
Proof.
  induction l as [|[k' v] l IH]; intros base x.
  - cbn. destruct (apply_action apply base (Plain x)); reflexivity.
  - cbn [chain fold_right fst snd store_compose apply_action]. fold (chain l base). rewrite IH. destruct (apply_action apply base (Plain x)); reflexivity.
Qed.

Lemma latest_replace : forall k v l j, latest j (replace_latest k v l) = if Nat.eqb k j then option_map (fun _ => v) (latest j l) else latest j l.
Proof.
  intros k v l j. unfold latest. induction l as [|[k' w] l IH]; cbn; [now destruct (Nat.eqb k j)|].
  destruct (Nat.eqb k' k) eqn:E1; cbn.
  - apply Nat.eqb_eq in E1 as ->. now destruct (Nat.eqb k j) eqn:E2.
  - destruct (Nat.eqb k' j) eqn:E2; cbn; [|apply IH]. apply Nat.eqb_eq in E2 as ->. rewrite Nat.eqb_sym. now rewrite E1.
Qed.

(* ---- variants ---- *)

Lemma overloads_first : forall V (v : variant V) cs i r, match_overloads v cs i = Some r ->
  exists j, r = [(i + j, v)] /\ first_at (fun c => c (type_id v) = true) cs j.
Proof.
  intros V v cs. induction cs as [|c cs IH]; intros i r H; cbn in H; [discriminate|].
  destruct (c (type_id v)) eqn:E.
  - injection H as <-. exists 0. rewrite Nat.add_0_r. repeat split; [exists c; cbn; auto|lia].
  - apply IH in H as (j & -> & (a & Ha & Hc) & Hj). exists (S j). split; [do 2 f_equal; lia|]. split; [exists a; cbn; auto|].
    intros [|j'] b Hb Hn; cbn in Hn; [injection Hn as <-; congruence|]. apply (Hj j' b); auto; lia.
Qed.

Lemma overloads_some : forall V (v : variant V) cs i, existsb (fun c => c (type_id v)) cs = true -> match_overloads v cs i <> None.
Proof. intros V v cs. induction cs as [|c cs IH]; cbn; intros i H; [discriminate|]. destruct (c (type_id v)); [discriminate|]. now apply IH. Qed.

(* ---- match_if ---- *)

Definition pred_stages (n : nat) (ps : list pred) : list stage := map (fun ip => predicate_promise (fst ip) (snd ip)) (combine (List.seq n (length ps)) ps).
Definition if_tail (n : nat) : list stage :=
  [Fn n (fun _ _ => Ret []); Catch (n + 1) (fun ts => match ts with [t] => Nat.eqb t size_t | _ => false end) (fun _ _ => Ret [])].

Lemma if_stages : forall preds, stages (match_if_pipe preds) = pred_stages 0 preds ++ if_tail (length preds).
Proof.
  intros preds. unfold match_if_pipe, if_tail. cbn [stages flat_map]. f_equal.
  unfold pred_stages. induction (combine _ _) as [|x l IH]; cbn; [reflexivity|now rewrite IH].
Qed.

Lemma seq_reject_preds : forall ps n tl h e, PromiseSpec.seq (pred_stages n ps ++ tl) h (Reject e) = PromiseSpec.seq tl h (Reject e).
Proof. induction ps as [|p ps IH]; intros n tl h e; [reflexivity|]. cbn. apply (IH (S n)). Qed.

Lemma seq_preds : forall ps n tl h x, existsb (fun p => holds p x) ps = true ->
  exists i, first_at (fun p => holds p x = true) ps i /\
    PromiseSpec.seq (pred_stages n ps ++ tl) h (Resolve [x; (size_t, N.of_nat n)]) =
    PromiseSpec.seq tl (h ++ map (fun j => Ran j [x; (size_t, N.of_nat j)]) (List.seq n (S i))) (Reject [(size_t, N.of_nat (n + i))]).
Proof.
  induction ps as [|p ps IH]; intros n tl h x H; [discriminate|].
  cbn in H. destruct (holds p x) eqn:HP.
  - exists 0. split; [split; [exists p; cbn; auto|lia]|].
    unfold pred_stages. cbn [length List.seq combine map app fst snd PromiseSpec.seq predicate_promise]. rewrite HP.
    fold (pred_stages (S n) ps). rewrite seq_reject_preds, Nat.add_0_r. reflexivity.
  - cbn in H. destruct (IH (S n) tl (h ++ [Ran n [x; (size_t, N.of_nat n)]]) x H) as (i & ((q & Hq & Hh) & Hf) & E).
    exists (S i). split.
    + split; [exists q; cbn; auto|]. intros [|j] b Hj Hn; cbn in Hn; [injection Hn as <-; congruence|]. apply (Hf j b); auto; lia.
    + unfold pred_stages. cbn [length List.seq combine map app fst snd PromiseSpec.seq predicate_promise]. rewrite HP.
      fold (pred_stages (S n) ps). replace (N.of_nat n + 1)%N with (N.of_nat (S n)) by lia. rewrite E. cbn [List.seq map].
      rewrite <- app_assoc. replace (S n + i) with (n + S i) by lia. reflexivity.
Qed.

Lemma compiles_holds : forall ps x, compiles ps = true -> existsb (fun p => holds p x) ps = true.
Proof.
  intros ps x H. apply existsb_exists in H as (p & HI & HP). apply existsb_exists. exists p. split; auto. destruct p as [[|]|]; cbn; congruence.
Qed.

Lemma if_seq : forall preds x, compiles preds = true ->
  exists i, first_at (fun p => holds p x = true) preds i /\
    PromiseSpec.seq (stages (match_if_pipe preds)) [] (Resolve [x; (size_t, 0%N)]) =
    (map (fun j => Ran j [x; (size_t, N.of_nat j)]) (List.seq 0 (S i)) ++ [Caught (length preds + 1) [(size_t, N.of_nat i)]], Terminated).
Proof.
  intros preds x H. rewrite if_stages. destruct (seq_preds preds 0 (if_tail (length preds)) [] x (compiles_holds _ _ H)) as (i & Hf & E).
  exists i. split; [exact Hf|]. exact E.
Qed.

Lemma pred_stage_in : forall ps n s, In s (pred_stages n ps) -> exists m p, s = predicate_promise m p.
Proof. intros ps n s H. apply in_map_iff in H as ([m p] & <- & _). cbn. eauto. Qed.

Lemma if_uses : forall preds, Forall (uses_at_most 1) (stages (match_if_pipe preds)).
Proof.
  intros preds. rewrite if_stages. apply Forall_app. split; [|repeat constructor].
  apply Forall_forall. intros s H. apply pred_stage_in in H as (m & p & ->). cbn. intros h [|v [|[t i] [|]]]; cbn; try lia. destruct (holds p v); cbn; lia.
Qed.

Lemma if_now : forall preds n f, In (Prom n f) (stages (match_if_pipe preds)) -> forall h x, later_calls (f h x) = [].
Proof.
  intros preds n f H. rewrite if_stages in H. apply in_app_iff in H as [H|H].
  - apply pred_stage_in in H as (m & p & E). unfold predicate_promise in E. injection E as _ ->.
    intros h [|v [|[t i] [|]]]; cbn; try reflexivity. destruct (holds p v); reflexivity.
  - cbn in H. destruct H as [H|[H|[]]]; discriminate.
Qed.

Lemma stored_app : forall h1 h2, stored (h1 ++ h2) = fold_left (fun r e => match e with Caught _ [(_, i)] => Some i | _ => r end) h2 (stored h1).
Proof. intros. unfold stored. apply fold_left_app. Qed.

Lemma stored_ran : forall x l, stored (map (fun j => Ran j [x; (size_t, N.of_nat j)]) l) = None.
Proof. intros x l. unfold stored. induction l; cbn; auto. Qed.

Lemma names_ran : forall x l, names (filter (fun e => match e with Ran _ _ => true | _ => false end) (map (fun j => Ran j [x; (size_t, N.of_nat j)]) l)) = l.
Proof. intros x l. induction l as [|j l IH]; [reflexivity|]. cbn [map filter names flat_map ename app]. f_equal. exact IH. Qed.
