(* Proofs about promise pipelines. *)
From Verif Require Import Base PromiseModel PromiseSpec.
Open Scope nat_scope.

Section pipe_ind.
Variable P : pipe -> Prop.
Hypothesis HS : forall s, P (Stage s).
Hypothesis HP : forall l, Forall P l -> P (Pipe l).
Fixpoint pipe_ind' (p : pipe) : P p :=
  match p with
  | Stage s => HS s
  | Pipe l => HP l ((fix go l := match l return Forall P l with [] => Forall_nil P | x :: r => Forall_cons x (pipe_ind' x) (go r) end) l)
  end.
End pipe_ind.

Lemma join_stages : forall p next, promise_join p next = stages p ++ next.
Proof.
  induction p as [s|l IH] using pipe_ind'; intros next; [reflexivity|]. cbn [promise_join stages].
  induction IH as [|x r Hx _ IHr]; [reflexivity|]. cbn [fold_right flat_map]. now rewrite Hx, IHr, app_assoc.
Qed.

Lemma seq_term : forall l h, seq l h Terminate = (h, Terminated).
Proof. intros [|[] l] h; reflexivity. Qed.

Lemma seq_extends : forall l h k, exists d, fst (seq l h k) = h ++ d.
Proof.
  assert (A : forall (h x d : list event), (h ++ x) ++ d = h ++ (x ++ d)) by (intros; now rewrite app_assoc).
  induction l as [|s l IH]; intros h k; destruct k as [a|a|]; try (rewrite seq_term); cbn; try (exists []; now rewrite app_nil_r).
  - destruct s as [n f|n f|n f|n p|n inv f]; auto.
    + destruct (f h a); [|now eexists]. destruct (IH (h ++ [Ran n a]) (Resolve a0)) as [d ->]. eexists. apply A.
    + destruct (IH (h ++ [Ran n a]) (match f h a with Ret b => Resolve b | Throw e => Reject e end)) as [d ->]. eexists. apply A.
    + destruct (f h a); [|now eexists]. destruct (IH (h ++ [Ran n a]) (Resolve a)) as [d ->]. eexists. apply A.
    + destruct (p h a) as [|[k|k] r]; [now eexists| |]; destruct (IH (h ++ [Ran n a]) k) as [d ->]; eexists; apply A.
  - destruct s as [n f|n f|n f|n p|n inv f]; auto. destruct (inv (types a)); auto. destruct (f h a); now eexists.
Qed.

Lemma names_app : forall a b, names (a ++ b) = names a ++ names b.
Proof. intros. apply flat_map_app. Qed.

(* the stages that act, in order *)
Lemma seq_names : forall l h k, exists d, fst (seq l h k) = h ++ d /\ subseq (names d) (map sname l) /\ existsb is_end d = false
  /\ forallb (fun e => match e with Restart _ => false | _ => true end) d = true.
Proof.
  assert (A : forall l (h : list event) n e k,
    ename e = [n] -> is_end e = false -> (match e with Restart _ => false | _ => true end) = true ->
    (exists d, fst (seq l (h ++ [e]) k) = (h ++ [e]) ++ d /\ subseq (names d) (map sname l) /\ existsb is_end d = false
      /\ forallb (fun e => match e with Restart _ => false | _ => true end) d = true) ->
    exists d, fst (seq l (h ++ [e]) k) = h ++ d /\ subseq (names d) (n :: map sname l) /\ existsb is_end d = false
      /\ forallb (fun e => match e with Restart _ => false | _ => true end) d = true).
  { intros l h n e k En Ee Er (d & -> & S & E & R). exists (e :: d). rewrite <- app_assoc. split; [reflexivity|]. cbn. unfold names in S. rewrite En, Ee, Er, E, R.
    cbn. auto using @subseq. }
  assert (B : forall (h : list event) n e l,
    ename e = [n] -> is_end e = false -> (match e with Restart _ => false | _ => true end) = true ->
    exists d, h ++ [e] = h ++ d /\ subseq (names d) (n :: map sname l) /\ existsb is_end d = false
      /\ forallb (fun e => match e with Restart _ => false | _ => true end) d = true).
  { intros h n e l En Ee Er. exists [e]. cbn. rewrite En, Ee, Er. cbn. auto using @subseq. }
  assert (D : forall l h n k,
    (exists d, fst (seq l h k) = h ++ d /\ subseq (names d) (map sname l) /\ existsb is_end d = false
      /\ forallb (fun e => match e with Restart _ => false | _ => true end) d = true) ->
    exists d, fst (seq l h k) = h ++ d /\ subseq (names d) (n :: map sname l) /\ existsb is_end d = false
      /\ forallb (fun e => match e with Restart _ => false | _ => true end) d = true).
  { intros l h n k (d & E & S & X). exists d. auto using @subseq. }
  assert (Z : forall (h : list event) l, exists d, h = h ++ d /\ subseq (names d) l /\ existsb is_end d = false
      /\ forallb (fun e => match e with Restart _ => false | _ => true end) d = true).
  { intros. exists []. rewrite app_nil_r. cbn. auto using @subseq. }
  induction l as [|s l IH]; intros h k; destruct k as [a|a|]; try (rewrite seq_term; apply Z); cbn -[seq names]; try (cbn [seq fst]; apply Z).
  - destruct s as [n f|n f|n f|n p|n inv f]; cbn [seq sname].
    + destruct (f h a); [apply A|apply B]; auto.
    + apply A; auto.
    + destruct (f h a); [apply A|apply B]; auto.
    + destruct (p h a) as [|[k|k] r]; [apply B|apply A|apply A]; auto.
    + apply D. auto.
  - destruct s as [n f|n f|n f|n p|n inv f]; cbn [seq sname]; try (apply D; now auto).
    destruct (inv (types a)); [|apply D; now auto]. destruct (f h a); apply B; auto.
Qed.

(* ---- the pipeline has one call outstanding, or is finished ---- *)
Definition calm (m : mode) (s : stage) : Prop :=
  match s with Prom _ p => forall h a, length (p h a) <= 1 /\ (m = Sync -> later_calls (p h a) = []) | _ => True end.

Definition left_alive (m : mode) (r : result) : bool :=
  match m, r with Sync, _ => false | _, (Hung | Rejected _) => true | _, _ => false end.

Definition inv (m : mode) (l : list stage) (a : args) (n : nat) (c : cfg) : Prop :=
  exists k h b, passes l a k h b /\ (m <> Loop -> k = 0) /\
  ((alive c = true /\ exists i t, i <= length l /\ n = k * S (length l) + i /\ (exists d, hist c = h ++ d) /\
      ((stack c = [(i, t)] /\ pool c = []) \/ (stack c = [] /\ pool c = [(i, t)] /\ m <> Sync)) /\
      seq (skipn i l) (hist c) t = seq l h (Resolve b))
   \/ (quiet c /\ hist c = fst (seq l h (Resolve b)) ++ end_events (snd (seq l h (Resolve b))) /\
       snd (seq l h (Resolve b)) <> Died /\ (m = Loop -> forall x, snd (seq l h (Resolve b)) <> Resolved x) /\
       alive c = left_alive m (snd (seq l h (Resolve b))) /\ k * S (length l) <= n <= S k * S (length l))).

Definition oinv (m : mode) (l : list stage) (a : args) (n : nat) (o : outcome) : Prop :=
  match o with
  | Running c => inv m l a n c
  | UseAfterFree _ => False
  | Aborted h' => exists k h b, passes l a k h b /\ (m <> Loop -> k = 0) /\ seq l h (Resolve b) = (h', Died) /\ n <= S k * S (length l)
  end.

Lemma skipn_nth : forall {A} (l : list A) i s, nth_error l i = Some s -> skipn i l = s :: skipn (S i) l.
Proof. induction l as [|x l IH]; intros [|i] s H; try discriminate; cbn in *; [now injection H as ->|]. now rewrite (IH _ _ H). Qed.

Lemma forward_inv m l a k h b n i c s t ev x :
  passes l a k h b -> (m <> Loop -> k = 0) -> nth_error l i = Some s -> n = k * S (length l) + i ->
  alive c = true -> stack c = [] -> pool c = [] -> (exists d, hist c = h ++ d) ->
  seq (skipn i l) (hist c) t = seq l h (Resolve b) ->
  seq (skipn i l) (hist c) t = seq (skipn (S i) l) (hist c ++ ev) x ->
  forall acts, acts = [Now x] \/ (acts = [Later x] /\ m <> Sync) ->
  oinv m l a (S n) (settle m (forward c i ev acts)).
Proof.
  intros Hp Hk Hn En Ha Hs Hpo [d Hd] E1 E2 acts HA.
  assert (Hi : S i <= length l) by (apply nth_error_Some; congruence).
  assert (G : oinv m l a (S n) (forward c i ev acts)).
  { exists k, h, b. split; [auto|]. split; [auto|]. left. cbn. split; [auto|]. exists (S i), x. split; [auto|]. split; [lia|]. split; [exists (d ++ ev); now rewrite Hd, app_assoc|]. rewrite Hs, Hpo.
    split; [destruct HA as [-> | [-> Hm]]; cbn; auto|]. congruence. }
  destruct m; auto. destruct HA as [-> | [-> Hm]]; [|congruence]. exact G.
Qed.

Lemma deliver_inv : forall m l a n k h b i t c,
  Forall (calm m) l -> passes l a k h b -> (m <> Loop -> k = 0) ->
  alive c = true -> stack c = [] -> pool c = [] -> i <= length l -> n = k * S (length l) + i -> (exists d, hist c = h ++ d) ->
  seq (skipn i l) (hist c) t = seq l h (Resolve b) ->
  oinv m l a (S n) (deliver m l c (i, t)).
Proof.
  intros m l a n k h b i t c HC Hp Hk Ha Hs Hpo Hi En HX E. unfold deliver. rewrite Ha. cbn [negb].
  assert (DONE : forall r c', quiet c' -> hist c' = fst (seq l h (Resolve b)) ++ end_events r -> snd (seq l h (Resolve b)) = r -> r <> Died ->
    (m = Loop -> forall x, r <> Resolved x) -> alive c' = left_alive m r -> oinv m l a (S n) (Running c')).
  { intros r c' Q H1 H2 H3 H4 H5. exists k, h, b. split; [auto|]. split; [auto|]. right. rewrite H2. split; [exact Q|]. split; [auto|]. split; [auto|].
    split; [auto|]. split; [auto|]. cbn [Nat.mul]. lia. }
  destruct (nth_error l i) as [s|] eqn:Es.
  - pose proof (skipn_nth l i s Es) as Ek.
    assert (F1 := fun ev x => forward_inv m l a k h b n i c s t ev x Hp Hk Es En Ha Hs Hpo HX E).
    assert (Hcs : calm m s) by (eapply Forall_forall; [exact HC|eapply nth_error_In; eauto]).
    assert (AB : forall ev, seq (skipn i l) (hist c) t = (hist c ++ ev, Died) -> oinv m l a (S n) (settle m (Aborted (hist c ++ ev)))).
    { intros ev EE. assert (G : oinv m l a (S n) (Aborted (hist c ++ ev))). { exists k, h, b. split; [auto|]. split; [auto|]. split; [congruence|]. cbn [Nat.mul]. lia. } destruct m; exact G. }
    rewrite Ek in F1, AB, E.
    destruct t as [v|v|].
    + destruct s as [nm f|nm f|nm f|nm p|nm iv f]; cbn [resolve_stage] in *.
      * cbn [seq] in *. destruct (f (hist c) v); [eapply F1; [reflexivity|auto]|apply AB; reflexivity].
      * cbn [seq] in *. destruct (f (hist c) v); eapply F1; try reflexivity; auto.
      * cbn [seq] in *. destruct (f (hist c) v); [eapply F1; [reflexivity|auto]|apply AB; reflexivity].
      * destruct (Hcs (hist c) v) as [Hl Hsy]. cbn [seq] in *.
        destruct (p (hist c) v) as [|x r] eqn:Ep.
        -- apply (f_equal fst) in E as E0. apply (f_equal snd) in E. cbn [fst snd] in E, E0.
           unfold forward; cbn [now_calls later_calls flat_map map app]; rewrite ?Hs, ?Hpo; destruct m; cbn [settle stack pool hist depth app];
             (apply DONE with (r := Hung); [split; reflexivity|cbn; now rewrite app_nil_r|auto|discriminate|discriminate|auto]).
        -- destruct r as [|y r]; [|cbn in Hl; lia].
           destruct x as [x|x]; (eapply F1; [reflexivity|]); auto. right. split; auto. intros ->. discriminate (Hsy eq_refl).
      * cbn [seq] in *. eapply F1; [|auto]. now rewrite app_nil_r.
    + destruct s as [nm f|nm f|nm f|nm p|nm iv f]; cbn [reject_stage seq] in *; try (eapply F1; [|now auto]; now rewrite app_nil_r).
      destruct (iv (types v)); [|eapply F1; [|now auto]; now rewrite app_nil_r].
      destruct (f (hist c) v); [|apply AB; reflexivity].
      eapply F1; [|now auto]. now rewrite seq_term.
    + eapply F1; [|now auto]. rewrite app_nil_r. now rewrite !seq_term.
  - apply nth_error_None in Es. assert (i = length l) by lia. subst i. rewrite skipn_all in E.
    apply (f_equal fst) in E as E0. apply (f_equal snd) in E as E1.
    destruct t as [v|v|]; cbn [seq fst snd] in E0, E1.
    + destruct m; cbn [end_call].
      * apply DONE with (r := Resolved v); auto; try discriminate; [split; auto|cbn; congruence].
      * cbn [settle oinv]. exists (S k), (hist c ++ [Restart v]), v. split.
        -- rewrite E0. econstructor; [exact Hp|]. rewrite (surjective_pairing (seq l h (Resolve b))). now rewrite <- E1.
        -- split; [congruence|]. left. cbn. split; [auto|]. exists 0, (Resolve v). split; [lia|]. split; [lia|]. split; [exists []; now rewrite app_nil_r|]. rewrite Hs, Hpo. split; auto.
      * cbn [settle stack]. rewrite Hs. apply DONE with (r := Resolved v); auto; try discriminate; [split; auto|cbn; congruence].
    + assert (G : end_call m c (Reject v) = Running (mk_cfg (stack c) (pool c) (alive c) (hist c ++ [EndReject v]) (S (depth c)))) by now destruct m.
      rewrite G. destruct m; cbn [settle stack]; rewrite ?Hs; (apply DONE with (r := Rejected v); auto; try discriminate; [split; auto|cbn; congruence]).
    + destruct m; cbn [end_call settle stack]; rewrite ?Hs; (apply DONE with (r := Terminated); auto; try discriminate; [split; auto|cbn; congruence]).
Qed.

Lemma some_inj {A} (x y : A) : Some x = Some y -> x = y.
Proof. congruence. Qed.

Lemma step_inv : forall m l a n c lb o, Forall (calm m) l -> inv m l a n c -> step m l c lb = Some o -> oinv m l a (S n) o.
Proof.
  intros m l a n c lb o HC (k & h & b & Hp & Hk & H) St.
  destruct H as [(Ha & i & t & Hi & En & HX & HT & E)|((Q1 & Q2) & _)].
  - destruct lb as [|j]; cbn [step] in St.
    + destruct HT as [[H1 H2]|(H1 & H2 & Hm)]; rewrite H1 in St; [|discriminate]. rewrite H2 in St. apply some_inj in St as <-.
      apply (deliver_inv m l a n k h b i t); auto.
    + destruct HT as [[H1 H2]|(H1 & H2 & Hm)]; rewrite H1 in St; [discriminate|]. rewrite H2 in St.
      destruct j as [|j]; [|destruct j; discriminate]. apply some_inj in St as <-. apply (deliver_inv m l a n k h b i t); auto.
  - destruct lb as [|j]; cbn in St; rewrite Q1 in St; [discriminate|]. rewrite Q2 in St. destruct j; discriminate.
Qed.

Lemma exec_inv : forall m l a ls n o o', Forall (calm m) l -> oinv m l a n o -> exec m l o ls = Some o' -> oinv m l a (n + length ls) o'.
Proof.
  induction ls as [|lb ls IH]; intros n o o' HC HI E; cbn in E.
  - injection E as <-. now rewrite Nat.add_0_r.
  - destruct o as [c|h|h]; try discriminate. destruct (step m l c lb) as [o1|] eqn:St; [|discriminate].
    cbn [length]. replace (n + S (length ls)) with (S n + length ls) by lia. eapply IH; eauto. eapply step_inv; eauto.
Qed.

Lemma start_inv : forall m l a, oinv m l a 0 (start a).
Proof. intros m l a. exists 0, [], a. split; [constructor|]. split; [auto|]. left. cbn. split; [auto|]. exists 0, (Resolve a). split; [lia|]. split; [lia|]. split; [now exists []|]. auto. Qed.

Lemma run_inv : forall m p a ls o, Forall (calm m) (stages p) -> run m p a ls = Some o -> oinv m (stages p) a (length ls) o.
Proof.
  intros m p a ls o HC E. unfold run in E. rewrite join_stages, app_nil_r in E. eapply (exec_inv _ _ _ ls 0); eauto. apply start_inv.
Qed.

(* something can always be done while a call is outstanding *)
Lemma inv_progress : forall m l a n c, inv m l a n c -> quiet c \/ exists lb o, step m l c lb = Some o.
Proof.
  intros m l a n c (k & h & b & _ & _ & [(Ha & i & t & Hi & En & _ & HT & E)|(Q & _)]); [right|now left].
  destruct HT as [[H1 H2]|(H1 & H2 & Hm)]; [exists Tick|exists (Fire 0)]; cbn; rewrite H1; rewrite ?H2; cbn; eauto.
Qed.

Lemma seq_not_hung : forall l h k, Forall (uses_at_least 1) l -> snd (seq l h k) <> Hung.
Proof.
  induction l as [|s l IH]; intros h k HF; destruct k as [a|a|]; rewrite ?seq_term; cbn; try discriminate; inversion HF as [|? ? Hs HF' e1]; subst;
    destruct s as [n f|n f|n f|n p|n iv f]; auto; try (destruct (f h a); [now auto|discriminate]).
  - pose proof (Hs h a) as Hl. destruct (p h a) as [|[k|k] r]; [cbn in Hl; lia|now auto|now auto].
  - destruct (iv (types a)); auto. destruct (f h a); discriminate.
Qed.

(* ---- facts about the specification ---- *)
Lemma seq_app : forall l1 l2 h k, seq (l1 ++ l2) h k =
  let (h1, r) := seq l1 h k in
  match r with Resolved a => seq l2 h1 (Resolve a) | Rejected e => seq l2 h1 (Reject e) | Terminated => (h1, Terminated) | Hung => (h1, Hung) | Died => (h1, Died) end.
Proof.
  induction l1 as [|s l1 IH]; intros l2 h k.
  - destruct k; cbn; auto. apply seq_term.
  - destruct k as [a|a|]; [| |now rewrite !seq_term]; cbn; destruct s as [n f|n f|n f|n p|n iv f]; rewrite ?IH; auto.
    + destruct (f h a); auto.
    + destruct (f h a); auto.
    + destruct (p h a) as [|[k|k] r]; auto.
    + destruct (iv (types a)); auto. destruct (f h a); auto.
Qed.

Definition accepts (e : args) (s : stage) : bool := match s with Catch _ iv _ => iv (types e) | _ => false end.

Lemma seq_reject_skip : forall l h e, existsb (accepts e) l = false -> seq l h (Reject e) = (h, Rejected e).
Proof.
  induction l as [|s l IH]; intros h e H; auto. cbn in H. apply orb_false_elim in H as [H1 H2].
  cbn. destruct s as [n f|n f|n f|n p|n iv f]; auto. cbn in H1. rewrite H1. auto.
Qed.

Lemma seq_without_catches : forall l h k h' b, seq l h k = (h', Resolved b) -> seq (filter (fun s => negb (is_catch s)) l) h k = (h', Resolved b).
Proof.
  induction l as [|s l IH]; intros h k h' b H; auto.
  destruct k as [a|a|]; [| |rewrite seq_term in *; discriminate].
  - destruct s as [n f|n f|n f|n p|n iv f]; cbn in *; auto.
    + destruct (f h a); auto; discriminate.
    + destruct (f h a); auto; discriminate.
    + destruct (p h a) as [|[k|k] r]; auto; discriminate.
  - destruct s as [n f|n f|n f|n p|n iv f]; cbn in *; auto.
    destruct (iv (types a)); auto. destruct (f h a); discriminate.
Qed.

Lemma calm_async m l : m <> Sync -> Forall (uses_at_most 1) l -> Forall (calm m) l.
Proof. intros Hm. apply Forall_impl. intros [n f|n f|n f|n p|n iv f]; cbn; auto. intros H h a. split; auto. intros E. congruence. Qed.

Lemma calm_sync l : Forall (uses_at_most 1) l -> (forall n p, In (Prom n p) l -> forall h a, later_calls (p h a) = []) -> Forall (calm Sync) l.
Proof.
  intros H HP. apply Forall_forall. intros s Hs. assert (Hu := proj1 (Forall_forall _ _) H s Hs). destruct s as [n f|n f|n f|n p|n iv f]; cbn in *; auto.
  intros h a. split; auto. intros _. eapply HP; eauto.
Qed.

Lemma quiet_dec c : quiet c \/ ~ quiet c.
Proof. unfold quiet. destruct (stack c), (pool c); auto; right; intros [? ?]; discriminate. Qed.

Lemma quiet_stuck m l c lb : quiet c -> step m l c lb = None.
Proof. intros [Q1 Q2]. destruct lb as [|j]; cbn; rewrite Q1; auto. rewrite Q2. now destruct j. Qed.

Lemma passes_0 l a h b : passes l a 0 h b -> h = [] /\ b = a.
Proof. intros H. inversion H. auto. Qed.

Lemma subseq_app_l {A} (a b c : list A) : subseq (a ++ b) c -> subseq a c.
Proof.
  remember (a ++ b) as x eqn:E. intros H. revert a b E. induction H as [l|x a' b' H IH|x a' b' H IH]; intros a b E.
  - symmetry in E. apply app_eq_nil in E as [-> _]. constructor.
  - destruct a as [|y a]; [constructor|]. cbn in E. injection E as <- ->. constructor. eauto.
  - constructor. eauto.
Qed.

Lemma filter_end_none d : existsb is_end d = false -> filter is_end d = [].
Proof. induction d as [|e d IH]; cbn; auto. destruct (is_end e); cbn; auto; discriminate. Qed.
