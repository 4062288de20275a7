From Coq Require Import String.
From Verif Require Import Base Base64Model JsonModel JsonSpec JsonProofs AppModel AppSpec.
Open Scope N_scope.

Lemma starts_with_iff pat s : starts_with pat s = true <-> exists r, s = pat ++ r.
Proof.
  revert s. induction pat as [|x pat IH]; intros s; cbn. { split; eauto. }
  destruct s as [|y s]. { split; [discriminate|]. intros [r E]. discriminate. }
  split.
  - intros H. apply andb_prop in H as [H1 H2]. apply N.eqb_eq in H1. subst. apply IH in H2 as [r ->]. exists r. reflexivity.
  - intros [r E]. injection E as -> ->. rewrite N.eqb_refl. cbn. apply IH. eauto.
Qed.

Lemma find_sub_some pat s n : find_sub pat s = Some n -> Cut pat s (firstn n s) (skipn (n + length pat) s).
Proof.
  revert n. induction s as [|x s IH]; intros n; cbn [find_sub]; destruct (starts_with pat _) eqn:E.
  1,3: intros H; injection H as <-; apply starts_with_iff in E as [r E]; split; [|intros; cbn; lia].
  1,2: rewrite E; cbn; rewrite skipn_app, skipn_all, Nat.sub_diag; reflexivity.
  - discriminate.
  - destruct (find_sub pat s) as [k|] eqn:F; [|discriminate]. intros H. injection H as <-. destruct (IH k eq_refl) as [A B]. split.
    + cbn. f_equal. exact A.
    + intros a' b' E'. destruct a' as [|y a'].
      * exfalso. cbn in E'. assert (starts_with pat (x :: s) = true) by (apply starts_with_iff; eauto). congruence.
      * cbn in E'. injection E' as <- E'. apply B in E'. cbn. lia.
Qed.

Lemma find_sub_none pat s : find_sub pat s = None -> ~ Occurs pat s.
Proof.
  induction s as [|x s IH]; cbn [find_sub]; destruct (starts_with pat _) eqn:E; try discriminate; intros H (a & b & X).
  - destruct a; [|discriminate]. assert (starts_with pat [] = true) by (apply starts_with_iff; eauto). congruence.
  - destruct (find_sub pat s) eqn:F; [discriminate|]. destruct a as [|y a].
    + assert (starts_with pat (x :: s) = true) by (apply starts_with_iff; eauto). congruence.
    + injection X as <- X. apply (IH eq_refl). exists a, b. exact X.
Qed.

Lemma cut_unique w s a b a' b' : Cut w s a b -> Cut w s a' b' -> a = a' /\ b = b'.
Proof.
  intros [E M] [E' M']. pose proof (M _ _ E') as L. pose proof (M' _ _ E) as L'. rewrite E in E'. 
  assert (a = a' /\ w ++ b = w ++ b') as [-> X].
  { clear - E' L L'. assert (length a = length a') as Ln by lia. clear L L'. revert a' E' Ln. induction a as [|x a IH]; intros [|y a'] E L; cbn in *; try lia; [auto|].
    injection E as -> E. destruct (IH a' E) as [-> ?]; auto. }
  apply app_inv_head in X. auto.
Qed.

Lemma host_port_unique s h p h' p' : HostPort s h p -> HostPort s h' p' -> h = h' /\ p = p'.
Proof.
  intros [N1 H1] [N2 H2].
  assert (K : forall a b c d : bytes, ~ In colon a -> ~ In colon c -> a ++ colon :: b = c ++ colon :: d -> a = c /\ b = d).
  { induction a as [|x a IH]; intros b [|y c] d Ha Hc E; cbn in E.
    - injection E. auto.
    - injection E as E _. subst y. exfalso. apply Hc. left. reflexivity.
    - injection E as -> _. exfalso. apply Ha. left. reflexivity.
    - injection E as -> E. destruct (IH b c d) as [-> ->]; auto; intros X; [apply Ha|apply Hc]; right; exact X. }
  destruct H1 as [->|[-> ->]]; destruct H2 as [E|[E ->]].
  - apply K in E; auto.
  - exfalso. apply N2. rewrite <- E. apply in_or_app. right. left. reflexivity.
  - exfalso. apply N1. rewrite E. apply in_or_app. right. left. reflexivity.
  - auto.
Qed.

Lemma address_unique a p h q p' h' q' : Address a p h q -> Address a p' h' q' -> p = p' /\ h = h' /\ q = q'.
Proof.
  intros [(r & C & H)|(N & -> & H)] [(r' & C' & H')|(N' & -> & H')].
  - destruct (cut_unique _ _ _ _ _ _ C C') as [-> ->]. destruct (host_port_unique _ _ _ _ _ H H') as [-> ->]. auto.
  - exfalso. apply N'. destruct C as [-> _]. exists p, r. reflexivity.
  - exfalso. apply N. destruct C' as [-> _]. exists p', r'. reflexivity.
  - destruct (host_port_unique _ _ _ _ _ H H') as [-> ->]. auto.
Qed.

(* the part after the protocol is split as it should be *)
Lemma split_host_port s (x : bytes) : exists h p, HostPort s h p /\
  match find_sub (bs ":") s with Some pos => (x, firstn pos s, skipn (pos + 1) s) | None => (x, s, []) end = (x, h, p).
Proof.
  destruct (find_sub (bs ":") s) as [n|] eqn:E.
  - apply find_sub_some in E as [E M]. exists (firstn n s), (skipn (n + 1) s). split; [|reflexivity]. split.
    + intros I. apply in_split in I as (a & b & I). change (length (bs ":")) with 1%nat in E. change (bs ":") with [colon] in *.
      assert (length (firstn n s) <= length a)%nat.
      { apply (M a (b ++ colon :: skipn (n + 1) s)). rewrite E at 1. rewrite I. rewrite <- app_assoc. reflexivity. }
      rewrite I in H. rewrite app_length in H. cbn in H. lia.
    + left. exact E.
  - exists s, []. split; [|reflexivity]. split; [|auto]. intros I. apply in_split in I as (a & b & I). apply (find_sub_none _ _ E). exists a, b. exact I.
Qed.

Lemma split_address_ok a : exists p h q, Address a p h q /\ connect_to a = (h, q) /\
  (fst (fst (split_address a)) = [] /\ p = [] /\ ~ Occurs (bs "://") a \/
   exists r, Cut (bs "://") a p r /\ fst (fst (split_address a)) = bs "://" ++ r).
Proof.
  unfold connect_to, split_address. destruct (find_sub (bs "://") a) as [n|] eqn:E.
  - apply find_sub_some in E. change (length (bs "://")) with 3%nat in E.
    destruct (split_host_port (skipn (n + 3) a) (skipn n a)) as (h & q & H & ->). exists (firstn n a), h, q. split; [left; eauto|]. split; [reflexivity|].
    right. exists (skipn (n + 3) a). split; [exact E|]. cbn [fst]. destruct E as [E _]. rewrite <- (firstn_skipn n a) in E at 1. apply app_inv_head in E. exact E.
  - apply find_sub_none in E. destruct (split_host_port a []) as (h & q & H & ->). exists [], h, q. split; [right; auto|]. split; [reflexivity|]. left. auto.
Qed.

(* an address put together from parts *)
Lemma proto_cut proto r : ~ In colon proto -> Cut (bs "://") (proto ++ bs "://" ++ r) proto r.
Proof.
  intros N. split; [reflexivity|]. intros a' b' E. destruct (Nat.le_gt_cases (length proto) (length a')) as [L|L]; [exact L|]. exfalso.
  apply N. clear N. revert a' E L. induction proto as [|x proto IH]; intros a' E L; cbn in L; [lia|]. destruct a' as [|y a'].
  - injection E as -> _. left. reflexivity.
  - injection E as _ E. right. apply (IH a' E). cbn in L. lia.
Qed.

(* ---- connect ---- *)
Lemma connect_fail limit f n results made : (0 <= f)%Z -> (f + Z.of_nat n <= limit)%Z -> (limit <= 2147483647)%Z ->
  connect limit f (fails n ++ results) made = connect limit (f + Z.of_nat n) results (n + made).
Proof.
  revert f made. induction n as [|n IH]; intros f made H0 H1 H2.
  - cbn. rewrite Z.add_0_r. reflexivity.
  - change (fails (S n) ++ results) with (false :: fails n ++ results). cbn [connect].
    destruct (Z.eqb_spec f 2147483647); [lia|]. destruct (Z.leb_spec limit f); [lia|]. rewrite IH by lia.
    replace (f + 1 + Z.of_nat n)%Z with (f + Z.of_nat (S n))%Z by lia. replace (n + S made)%nat with (S n + made)%nat by lia. reflexivity.
Qed.

(* results: failures, then a success or nothing *)
Lemma results_split (l : list bool) : (exists n r, l = fails n ++ true :: r) \/ l = fails (length l).
Proof.
  induction l as [|[] l [(n & r & IH)|IH]]; [right; reflexivity|left; exists O, l; reflexivity|left; exists O, l; reflexivity| |].
  - left. exists (S n), r. rewrite IH. reflexivity.
  - right. cbn. rewrite IH at 1. reflexivity.
Qed.
