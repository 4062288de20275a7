From Verif Require Import Base AccModel AccSpec.
Open Scope N_scope.

Lemma sent_app c a b : sent c (a ++ b) = sent c a ++ sent c b.
Proof. induction a as [|[d|d x|d| |k| | |ok] a IH]; cbn; auto. now rewrite IH, app_assoc. Qed.
Lemma arrivals_app a b : arrivals (a ++ b) = arrivals a ++ arrivals b.
Proof. induction a as [|[d|d x|d| |k| | |ok] a IH]; cbn; auto. now rewrite IH. Qed.
Lemma prefix_app a b c : prefix (a ++ b) c -> prefix a c.
Proof. intros (d & ->). exists (b ++ d). now rewrite app_assoc. Qed.
Lemma prefix_refl a : prefix a a.
Proof. exists []. now rewrite app_nil_r. Qed.
Lemma upd_same {A} c (x : A) f : upd c x f c = x.
Proof. unfold upd. now rewrite N.eqb_refl. Qed.
Lemma upd_other {A} c d (x : A) f : d <> c -> upd c x f d = f d.
Proof. unfold upd. intros H. now destruct (N.eqb_spec d c). Qed.

Section Proofs.
Variable parse : list N -> parsed.
Variable is_upgrade : list N -> bool.
Notation step := (step parse is_upgrade).
Notation run := (run parse is_upgrade).
Notation request := (request parse).

Lemma run_app s a b : run s (a ++ b) = match run s a with Some s' => run s' b | None => None end.
Proof. revert s. induction a as [|l a IH]; intros s; [reflexivity|]. cbn. destruct (step s l); auto. Qed.

(* nothing comes after the end *)
Lemma ended_stays s ls s' c : run s ls = Some s' -> ended s c = true -> sent c ls = [] /\ ended s' c = true.
Proof.
  revert s. induction ls as [|l ls IH]; intros s E H; [injection E as <-; auto|]. cbn [AccModel.run] in E. destruct (step s l) as [s1|] eqn:St; [|discriminate].
  assert (X : sent c [l] = [] /\ ended s1 c = true).
  { destruct l as [d|d b|d| |k| | |ok]; unfold AccModel.step in St; cbn [sent].
    - injection St as <-. auto.
    - destruct (ended s d) eqn:Ed; [discriminate|]. injection St as <-. cbn [ended]. destruct (N.eqb_spec d c) as [->|]; [congruence|auto].
    - injection St as <-. split; [reflexivity|]. cbn [ended]. unfold upd. now destruct (c =? d).
    - destruct (at_ s); try discriminate. destruct (backlog s); [discriminate|]. injection St as <-. auto.
    - destruct (at_ s); try discriminate. destruct (parse (buffer s)); try discriminate. destruct (_ && _); [|discriminate]. injection St as <-. auto.
    - destruct (at_ s); try discriminate. destruct (parse (buffer s)); try discriminate; injection St as <-; auto.
    - destruct (at_ s); try discriminate. destruct (parse (buffer s)); try discriminate. destruct (inbox s c0); try discriminate. destruct (ended s c0); [|discriminate]. injection St as <-. auto.
    - destruct (at_ s); try discriminate. injection St as <-. auto. }
  destruct X as [X1 X2]. destruct (IH s1 E X2) as [Y1 Y2]. split; [|exact Y2]. change (l :: ls) with ([l] ++ ls). now rewrite sent_app, X1, Y1.
Qed.

(* full: all that clients do in the end *)
Definition current (p : phase) : list N := match p with Waiting => [] | Reading c | Upgrading c _ => [c] end.
Record good (full pre : list label) (s : st) : Prop := {
  g_arrivals : arrivals pre = map fst (results s) ++ current (at_ s) ++ backlog s;
  g_ended : forall c, ended s c = true <-> In (End c) pre;
  g_inbox : forall c, ~ In c (map fst (results s)) -> ~ In c (current (at_ s)) -> inbox s c = sent c pre;
  g_phase : match at_ s with Waiting => buffer s = [] | Reading c => sent c pre = buffer s ++ inbox s c | Upgrading c r => buffer s = [] /\ sent c full = r /\ request r /\ sent c pre = r /\ inbox s c = [] end;
  g_some : forall c r, In (c, Some r) (results s) -> sent c full = r /\ request r /\ is_upgrade r = true;
  g_none : forall c, In (c, None) (results s) -> (sent c full = [] /\ In (End c) pre) \/ request (sent c full) }.

Lemma good_step full pre l post s s' : tidy parse full -> full = pre ++ l :: post -> good full pre s -> step s l = Some s' -> (exists s'', run s' post = Some s'') -> good full (pre ++ [l]) s'.
Proof.
  intros [ND T] Ef [GA GE GI GP GS GN] St (s'' & Post).
  assert (SP : forall c, prefix (sent c (pre ++ [l])) (sent c full)) by (intros c; rewrite Ef; change (l :: post) with ([l] ++ post); rewrite app_assoc, (sent_app c (pre ++ [l])); exists (sent c post); reflexivity).
  assert (WH : forall c b rest, sent c pre = b ++ rest -> exists w, request w /\ prefix b w /\ prefix (b ++ rest) w /\ prefix (sent c full) w /\ (In (End c) full -> sent c full = [] \/ sent c full = w)).
  { intros c b rest E. destruct (T c) as (w & W & P & Z). exists w. split; [exact W|]. assert (P2 : prefix (b ++ rest) w).
    { rewrite <- E. rewrite Ef, sent_app in P. eapply prefix_app; exact P. }
    split; [eapply prefix_app; exact P2|]. auto. }
  destruct l as [d|d b|d| |k| | |ok]; unfold AccModel.step in St.
  - injection St as <-. split; cbn [at_ backlog inbox ended buffer results]; intros.
    + rewrite arrivals_app, GA. cbn. now rewrite !app_assoc.
    + rewrite GE, in_app_iff. cbn. intuition discriminate.
    + rewrite sent_app, app_nil_r. auto.
    + destruct (at_ s); cbn; rewrite ?sent_app, ?app_nil_r; auto.
    + auto.
    + destruct (GN c H) as [[A B]|A]; [left; split; [exact A|apply in_or_app; now left]|now right].
  - destruct (ended s d) eqn:Ed; [discriminate|]. injection St as <-. split; cbn [at_ backlog inbox ended buffer results]; intros.
    + rewrite arrivals_app, GA. cbn. now rewrite app_nil_r.
    + rewrite GE, in_app_iff. cbn. intuition discriminate.
    + rewrite sent_app. cbn [sent]. destruct (N.eqb_spec d c) as [->|NE]; [rewrite upd_same, app_nil_r; now rewrite GI|rewrite upd_other, !app_nil_r by congruence; auto].
    + destruct (at_ s) as [|c|c r]; [exact GP| |].
      * rewrite sent_app, GP. cbn [sent]. destruct (N.eqb_spec d c) as [->|NE]; [rewrite upd_same, app_nil_r; now rewrite app_assoc|rewrite upd_other, !app_nil_r by congruence; auto].
      * destruct GP as (A & B & C & D & E). split; [exact A|]. split; [exact B|]. split; [exact C|]. specialize (SP c). rewrite sent_app, D, B in *. cbn [sent] in *.
        destruct (N.eqb_spec d c) as [->|NE]; [|rewrite upd_other, !app_nil_r by congruence; auto]. rewrite upd_same, E. destruct SP as (z & Z). rewrite app_nil_r in *. rewrite <- app_assoc in Z.
        rewrite <- (app_nil_r r) in Z at 1. apply app_inv_head in Z. symmetry in Z. apply app_eq_nil in Z as [-> _]. now rewrite app_nil_r.
    + auto.
    + destruct (GN c H) as [[A B]|A]; [left; split; [exact A|apply in_or_app; now left]|now right].
  - injection St as <-. split; cbn [at_ backlog inbox ended buffer results]; intros.
    + rewrite arrivals_app, GA. cbn. now rewrite app_nil_r.
    + rewrite in_app_iff. cbn [In]. unfold upd. destruct (N.eqb_spec c d) as [->|NE]; [tauto|]. rewrite GE. split; [tauto|]. intros [X|[X|[]]]; [exact X|]. congruence.
    + rewrite sent_app, app_nil_r. auto.
    + destruct (at_ s); cbn; rewrite ?sent_app, ?app_nil_r; auto.
    + auto.
    + destruct (GN c H) as [[A B]|A]; [left; split; [exact A|apply in_or_app; now left]|now right].
  - destruct (at_ s) eqn:Ea; try discriminate. destruct (backlog s) as [|c r] eqn:Eb; [discriminate|]. injection St as <-. split; cbn [at_ backlog inbox ended buffer results]; intros.
    + rewrite arrivals_app, GA. cbn. now rewrite app_nil_r.
    + rewrite GE, in_app_iff. cbn. intuition discriminate.
    + rewrite sent_app, app_nil_r. apply GI; [assumption|intros []].
    + rewrite GP, sent_app, app_nil_r. cbn [app]. symmetry. apply GI; [|intros []]. intros X.
      assert (ND' : NoDup (arrivals pre)).
      { rewrite Ef, arrivals_app in ND. clear -ND. induction (arrivals pre) as [|x l IH]; [constructor|]. cbn in ND. inversion ND; subst. constructor; [intros K; apply H1, in_or_app; now left|auto]. }
      rewrite GA in ND'. cbn [current app] in ND'. clear -X ND'. induction (map fst (results s)) as [|x l IH]; [destruct X|]. cbn in ND'. inversion ND'; subst. destruct X as [->|X]; [|auto]. apply H1. apply in_or_app. right. now left.
    + auto.
    + destruct (GN c0 H) as [[A B]|A]; [left; split; [exact A|apply in_or_app; now left]|now right].
  - destruct (at_ s) as [|c|] eqn:Ea; try discriminate. destruct (parse (buffer s)) eqn:Ep; try discriminate. destruct (Nat.leb 1 k && Nat.leb k (length (inbox s c))); [|discriminate]. injection St as <-.
    split; cbn [at_ backlog inbox ended buffer results]; intros.
    + rewrite arrivals_app, GA. cbn. now rewrite app_nil_r.
    + rewrite GE, in_app_iff. cbn. intuition discriminate.
    + rewrite sent_app, app_nil_r. cbn [current In] in H0. rewrite upd_other by intuition. apply GI; [assumption|]. exact H0.
    + rewrite sent_app, app_nil_r, upd_same, GP, <- app_assoc. f_equal. symmetry. apply firstn_skipn.
    + auto.
    + destruct (GN c0 H) as [[A B]|A]; [left; split; [exact A|apply in_or_app; now left]|now right].
  - destruct (at_ s) as [|c|] eqn:Ea; try discriminate. destruct (WH c _ _ GP) as (w & (W1 & W2 & W3) & P1 & P2 & P3 & _).
    assert (EW : buffer s = w \/ parse (buffer s) = More).
    { destruct (list_eq_dec N.eq_dec (buffer s) w); [now left|right]. now apply W3. }
    destruct EW as [EW|EW]; [|rewrite EW in St; discriminate]. assert (PW : parse (buffer s) = Complete w []) by (rewrite EW; rewrite <- (app_nil_r w) at 1; apply W2). rewrite PW in St. injection St as <-.
    rewrite EW in P2. destruct P2 as (z & Z). rewrite <- app_assoc in Z. rewrite <- (app_nil_r w) in Z at 1. apply app_inv_head in Z. symmetry in Z. apply app_eq_nil in Z as [Z _].
    split; cbn [at_ backlog inbox ended buffer results]; intros.
    + rewrite arrivals_app, GA. cbn. now rewrite app_nil_r.
    + rewrite GE, in_app_iff. cbn. intuition discriminate.
    + rewrite sent_app, app_nil_r. apply GI; assumption.
    + rewrite sent_app, app_nil_r. split; [reflexivity|]. rewrite Z, app_nil_r, EW in GP. split; [|split; [split; [exact W1|split; [exact W2|exact W3]]|split; [exact GP|exact Z]]].
      specialize (SP c). rewrite sent_app, app_nil_r, GP in SP. destruct SP as (y & Y). destruct P3 as (x & X). rewrite Y in X |- *. rewrite <- app_assoc in X. rewrite <- (app_nil_r w) in X at 1. apply app_inv_head in X. symmetry in X. apply app_eq_nil in X as [-> _]. apply app_nil_r.
    + auto.
    + destruct (GN c0 H) as [[A B]|A]; [left; split; [exact A|apply in_or_app; now left]|now right].
  - destruct (at_ s) as [|c|] eqn:Ea; try discriminate. destruct (parse (buffer s)) eqn:Ep; try discriminate. destruct (inbox s c) eqn:Ei; [|discriminate]. destruct (ended s c) eqn:Ee; [|discriminate]. injection St as <-.
    rewrite app_nil_r in GP. assert (SF : sent c full = sent c pre).
    { rewrite Ef, sent_app. change (Fail :: post) with ([Fail] ++ post). rewrite sent_app. cbn [sent app]. destruct (ended_stays _ _ _ c Post) as [X _]; [cbn; exact Ee|]. now rewrite X, app_nil_r. }
    assert (IE : In (End c) pre) by (now apply GE). destruct (WH c (buffer s) [] ltac:(now rewrite app_nil_r)) as (w & (W1 & W2 & W3) & _ & _ & _ & Z).
    assert (B : buffer s = []).
    { destruct Z as [Z|Z]; [rewrite Ef; apply in_or_app; now left|congruence|]. exfalso. rewrite SF, GP in Z. rewrite Z in Ep. rewrite <- (app_nil_r w), W2 in Ep. discriminate. }
    split; cbn [finished at_ backlog inbox ended buffer results]; intros.
    + rewrite arrivals_app, GA. cbn. rewrite app_nil_r, map_app. cbn. now rewrite <- app_assoc.
    + rewrite GE, in_app_iff. cbn. intuition discriminate.
    + rewrite sent_app, app_nil_r. rewrite map_app, in_app_iff in H. apply GI; [tauto|]. cbn in *. tauto.
    + exact B.
    + apply in_app_or in H as [H|[H|[]]]; [auto|discriminate].
    + apply in_app_or in H as [H|[H|[]]]; [destruct (GN c0 H) as [[A A']|A]; [left; split; [exact A|apply in_or_app; now left]|now right]|]. injection H as <-. left. split; [congruence|apply in_or_app; now left].
  - destruct (at_ s) as [| |c r] eqn:Ea; try discriminate. injection St as <-. destruct GP as (A & B & C & D & E). split; cbn [finished at_ backlog inbox ended buffer results]; intros.
    + rewrite arrivals_app, GA. cbn. rewrite app_nil_r, map_app. cbn. now rewrite <- app_assoc.
    + rewrite GE, in_app_iff. cbn. intuition discriminate.
    + rewrite sent_app, app_nil_r. rewrite map_app, in_app_iff in H. apply GI; [tauto|]. cbn in *. tauto.
    + exact A.
    + apply in_app_or in H as [H|[H|[]]]; [auto|]. destruct ok, (is_upgrade r) eqn:U; try discriminate. cbn in H. injection H as <- <-. auto.
    + apply in_app_or in H as [H|[H|[]]]; [destruct (GN c0 H) as [[A' A'']|A']; [left; split; [exact A'|apply in_or_app; now left]|now right]|]. injection H as <- _. right. rewrite B. exact C.
Qed.

Lemma good_init full : good full [] init.
Proof. split; cbn; intros; auto; try tauto. intuition discriminate. Qed.

Lemma good_run full : tidy parse full -> forall post pre s s', full = pre ++ post -> good full pre s -> run s post = Some s' -> good full full s'.
Proof.
  intros T. induction post as [|l post IH]; intros pre s s' E G R.
  - injection R as <-. rewrite app_nil_r in E. now subst.
  - cbn [AccModel.run] in R. destruct (step s l) as [s1|] eqn:St; [|discriminate]. apply (IH (pre ++ [l]) s1); [rewrite E, <- app_assoc; reflexivity| |exact R].
    eapply good_step; eauto.
Qed.
Lemma all_good ls s : tidy parse ls -> run init ls = Some s -> good ls ls s.
Proof. intros T R. exact (good_run ls T ls [] init s eq_refl (good_init ls) R). Qed.

(* what the server does is nothing that clients do *)
Lemma server_sent ls c : forallb of_server ls = true -> sent c ls = [].
Proof. induction ls as [|[d|d x|d| |k| | |ok] ls IH]; cbn; intros H; try discriminate; auto. Qed.
Lemma server_arrivals ls : forallb of_server ls = true -> arrivals ls = [].
Proof. induction ls as [|[d|d x|d| |k| | |ok] ls IH]; cbn; intros H; try discriminate; auto. Qed.
Lemma server_end ls c : forallb of_server ls = true -> ~ In (End c) ls.
Proof. intros H X. rewrite forallb_forall in H. now apply H in X. Qed.
Lemma tidy_server a b : forallb of_server b = true -> tidy parse a -> tidy parse (a ++ b).
Proof.
  intros H [ND T]. split; [rewrite arrivals_app, (server_arrivals b H), app_nil_r; exact ND|]. intros c. destruct (T c) as (w & W & P & Z). exists w. rewrite sent_app, (server_sent b c H), app_nil_r. split; [exact W|]. split; [exact P|].
  intros X. apply in_app_or in X as [X|X]; [auto|]. destruct (server_end b c H X).
Qed.

(* a client that has done its part *)
Definition ready (c : N) (ls : list label) : Prop := request (sent c ls) \/ (sent c ls = [] /\ In (End c) ls).

(* the one whose turn it is gets its result *)
Lemma finish_one ls s c : tidy parse ls -> run init ls = Some s -> at_ s = Reading c -> ready c ls ->
  exists ls' s', forallb of_server ls' = true /\ run s ls' = Some s' /\ at_ s' = Waiting /\ backlog s' = backlog s /\ map fst (results s') = map fst (results s) ++ [c].
Proof.
  intros T R Ea Rd. destruct (all_good ls s T R) as [GA GE GI GP _ _]. rewrite Ea in GP. destruct Rd as [(W1 & W2 & W3)|[Z IE]].
  - set (w := sent c ls) in *.
    assert (PW : parse w = Complete w []) by (rewrite <- (app_nil_r w) at 1; apply W2).
    destruct (inbox s c) as [|b i] eqn:Ei.
    + rewrite app_nil_r in GP. eexists [Parse; Upgrade true], _. split; [reflexivity|]. cbn [AccModel.run]. unfold AccModel.step at 1. rewrite Ea, <- GP, PW. cbn. split; [reflexivity|]. cbn. repeat split. now rewrite map_app.
    + assert (PB : parse (buffer s) = More).
      { apply W3; [exists (b :: i); exact GP|]. intros X. rewrite X in GP. apply (f_equal (@length N)) in GP. rewrite app_length in GP. cbn in GP. lia. }
      eexists [Receive (length (inbox s c)); Parse; Upgrade true], _. split; [reflexivity|]. cbn [AccModel.run]. unfold AccModel.step at 1. rewrite Ea, PB, Nat.leb_refl, Ei. cbn [length Nat.leb andb].
      unfold AccModel.step at 1. cbn [at_ buffer]. change (firstn (S (length i)) (b :: i)) with (firstn (length (b :: i)) (b :: i)). rewrite firstn_all, <- GP, PW. cbn. split; [reflexivity|]. cbn. repeat split. now rewrite map_app.
  - rewrite Z in GP. symmetry in GP. apply app_eq_nil in GP as [GB GI0]. destruct (proj2 T c) as (w & (W1 & W2 & W3) & _).
    assert (PB : parse (buffer s) = More) by (rewrite GB; apply W3; [exists w; reflexivity|congruence]).
    eexists [Fail], _. split; [reflexivity|]. cbn [AccModel.run]. unfold AccModel.step at 1. rewrite Ea, PB, GI0. assert (ended s c = true) as -> by (now apply GE). split; [reflexivity|]. cbn. repeat split. now rewrite map_app.
Qed.
Lemma to_waiting ls s : tidy parse ls -> run init ls = Some s -> (forall c, In c (current (at_ s)) -> ready c ls) ->
  exists ls' s', forallb of_server ls' = true /\ run s ls' = Some s' /\ at_ s' = Waiting /\ backlog s' = backlog s /\ map fst (results s') = map fst (results s) ++ current (at_ s).
Proof.
  intros T R H. destruct (at_ s) as [|c|c r] eqn:Ea.
  - exists [], s. cbn. rewrite app_nil_r. auto.
  - cbn. eapply finish_one; eauto. apply H. now left.
  - eexists [Upgrade true], _. split; [reflexivity|]. cbn [AccModel.run]. unfold AccModel.step. rewrite Ea. split; [reflexivity|]. cbn. repeat split. now rewrite map_app.
Qed.
Lemma serve_backlog l : forall r ls s, tidy parse ls -> run init ls = Some s -> at_ s = Waiting -> backlog s = l ++ r -> (forall c, In c l -> ready c ls) ->
  exists ls' s', forallb of_server ls' = true /\ run s ls' = Some s' /\ at_ s' = Waiting /\ backlog s' = r /\ map fst (results s') = map fst (results s) ++ l.
Proof.
  induction l as [|c l IH]; intros r ls s T R Ea Eb Rd.
  - exists [], s. cbn. rewrite app_nil_r. auto.
  - assert (E1 : exists s1, step s Accept = Some s1 /\ at_ s1 = Reading c /\ backlog s1 = l ++ r /\ results s1 = results s).
    { eexists. unfold AccModel.step. rewrite Ea, Eb. cbn. repeat split. }
    destruct E1 as (s1 & S1 & A1 & B1 & R1). assert (Run1 : run init (ls ++ [Accept]) = Some s1) by (rewrite run_app, R; cbn [AccModel.run]; now rewrite S1).
    pose proof (tidy_server ls [Accept] eq_refl T) as T1.
    assert (RD1 : forall d x, forallb of_server x = true -> ready d ls -> ready d (ls ++ x)).
    { intros d x Hx. unfold ready. rewrite sent_app, (server_sent x d Hx), app_nil_r. intros [X|[X Y]]; [now left|right; split; [exact X|apply in_or_app; now left]]. }
    destruct (finish_one _ s1 c T1 Run1 A1) as (l2 & s2 & F2 & Rn2 & A2 & B2 & R2); [apply RD1; [reflexivity|apply Rd; now left]|].
    assert (Run2 : run init ((ls ++ [Accept]) ++ l2) = Some s2) by (rewrite run_app, Run1; exact Rn2).
    destruct (IH r _ s2 (tidy_server _ l2 F2 T1) Run2 A2) as (l3 & s3 & F3 & Rn3 & A3 & B3 & R3).
    + congruence.
    + intros d Hd. rewrite <- app_assoc. apply RD1; [cbn; exact F2|apply Rd; now right].
    + exists (Accept :: l2 ++ l3), s3. split; [cbn; rewrite forallb_app; now rewrite F2, F3|]. split; [cbn [AccModel.run]; rewrite S1, run_app, Rn2; exact Rn3|]. split; [exact A3|]. split; [exact B3|]. rewrite R3, R2, R1, <- app_assoc. reflexivity.
Qed.

Lemma blocked c : forall ls s s', run s ls = Some s' -> at_ s = Reading c -> parse (buffer s) = More -> inbox s c = [] -> ended s c = false ->
  (forall l, In l ls -> (forall b, l <> Bytes c b) /\ l <> End c) -> results s' = results s /\ at_ s' = Reading c.
Proof.
  induction ls as [|l ls IH]; intros s s' R Ea Ep Ei Ee H; [injection R as <-; auto|]. cbn [AccModel.run] in R. destruct (step s l) as [s1|] eqn:St; [|discriminate].
  destruct (H l (or_introl eq_refl)) as [H1 H2].
  assert (X : at_ s1 = Reading c /\ parse (buffer s1) = More /\ inbox s1 c = [] /\ ended s1 c = false /\ results s1 = results s).
  { unfold AccModel.step in St. destruct l as [d|d b|d| |k| | |ok]; rewrite ?Ea in St; try discriminate.
    - injection St as <-. cbn. auto.
    - destruct (ended s d); [discriminate|]. injection St as <-. cbn. rewrite upd_other; auto. intros ->. now apply (H1 b).
    - injection St as <-. cbn. rewrite upd_other; auto. congruence.
    - rewrite Ep, Ei in St. cbn in St. destruct k; discriminate.
    - rewrite Ep in St. discriminate.
    - rewrite Ep, Ei, Ee in St. discriminate. }
  destruct X as (X1 & X2 & X3 & X4 & X5). destruct (IH s1 s' R X1 X2 X3 X4) as [Y1 Y2]; [intros x Hx; apply H; now right|]. split; [congruence|exact Y2].
Qed.

(* ---- all clients ---- *)
Notation took := (took parse).
Notation answers := (answers parse is_upgrade).

Lemma took_snoc l g b : took l g -> parse (l ++ g) = More -> b <> [] -> took l (g ++ b).
Proof.
  induction 1 as [l|l a g H1 H2 H3 IH]; intros P Hb.
  - rewrite app_nil_r in P. cbn. rewrite <- (app_nil_r b). apply took_piece; auto. constructor.
  - rewrite <- app_assoc. apply took_piece; auto. apply IH; [|exact Hb]. now rewrite <- app_assoc.
Qed.

Lemma answers_snoc ls l rs l1 c x l2 : answers ls l rs l1 -> answers ls l1 [(c, x)] l2 -> answers ls l (rs ++ [(c, x)]) l2.
Proof.
  induction 1; intros A; cbn [app]; [exact A| | |].
  - eapply answers_request; eauto.
  - eapply answers_invalid; eauto.
  - eapply answers_ended; eauto.
Qed.

Lemma answers_more ls ls' l rs l' : answers ls l rs l' -> (forall c, prefix (sent c ls) (sent c ls')) ->
  (forall c, In (End c) ls -> In (End c) ls' /\ sent c ls' = sent c ls) -> answers ls' l rs l'.
Proof.
  intros A P E. assert (T : forall g c, prefix g (sent c ls) -> prefix g (sent c ls')) by (intros g c (x & X); destruct (P c) as (y & Y); exists (x ++ y); now rewrite Y, X, app_assoc).
  induction A.
  - constructor.
  - eapply answers_request; [apply T|..]; eassumption.
  - eapply answers_invalid; [apply T|..]; eassumption.
  - destruct (E c H) as [E1 E2]. rewrite <- E2 in *. eapply answers_ended; eauto.
Qed.

Record Held (pre : list label) (s : st) : Prop := {
  h_arrivals : arrivals pre = map fst (results s) ++ current (at_ s) ++ backlog s;
  h_ended : forall c, ended s c = true <-> In (End c) pre;
  h_inbox : forall c, ~ In c (map fst (results s)) -> ~ In c (current (at_ s)) -> inbox s c = sent c pre;
  h_phase : exists left, answers pre [] (results s) left /\
    match at_ s with
    | Waiting => buffer s = left
    | Reading c => exists g, took left g /\ buffer s = left ++ g /\ sent c pre = g ++ inbox s c
    | Upgrading c r => exists g, took left g /\ prefix g (sent c pre) /\ parse (left ++ g) = Complete r (buffer s)
    end }.

Lemma nodup_left {A} (a b : list A) : NoDup (a ++ b) -> NoDup a.
Proof. induction a as [|x a IH]; intros H; [constructor|]. cbn in H. inversion H; subst. constructor; [|auto]. intros X. apply H2, in_or_app. now left. Qed.

Lemma held_step pre l s s' : NoDup (arrivals (pre ++ [l])) -> Held pre s -> step s l = Some s' -> Held (pre ++ [l]) s'.
Proof.
  intros ND [GA GE GI (left & An & GP)] St.
  assert (SP : forall c, prefix (sent c pre) (sent c (pre ++ [l]))) by (intros c; rewrite sent_app; eexists; reflexivity).
  assert (EP : forall c, In (End c) pre -> In (End c) (pre ++ [l]) /\ sent c (pre ++ [l]) = sent c pre).
  { intros c H. split; [apply in_or_app; now left|]. rewrite sent_app. destruct l as [d|d b|d| |k| | |ok]; cbn [sent]; rewrite ?app_nil_r; auto. destruct (N.eqb_spec d c) as [->|]; [|now rewrite app_nil_r].
    unfold AccModel.step in St. apply GE in H. rewrite H in St. discriminate. }
  pose proof (answers_more _ _ _ _ _ An SP EP) as An'.
  destruct l as [d|d b|d| |k| | |ok]; unfold AccModel.step in St.
  - injection St as <-. split; cbn [at_ backlog inbox ended buffer results]; intros.
    + rewrite arrivals_app, GA. cbn. now rewrite !app_assoc.
    + rewrite GE, in_app_iff. cbn. intuition discriminate.
    + rewrite sent_app, app_nil_r. auto.
    + exists left. split; [exact An'|]. destruct (at_ s) as [|c|c r]; [exact GP| |]; destruct GP as (g & GP); exists g; rewrite sent_app, app_nil_r; exact GP.
  - destruct (ended s d) eqn:Ed; [discriminate|]. injection St as <-. split; cbn [at_ backlog inbox ended buffer results]; intros.
    + rewrite arrivals_app, GA. cbn. now rewrite app_nil_r.
    + rewrite GE, in_app_iff. cbn. intuition discriminate.
    + rewrite sent_app. cbn [sent]. destruct (N.eqb_spec d c) as [->|NE]; [rewrite upd_same, app_nil_r; now rewrite GI|rewrite upd_other, !app_nil_r by congruence; auto].
    + exists left. split; [exact An'|]. destruct (at_ s) as [|c|c r]; [exact GP| |].
      * destruct GP as (g & G1 & G2 & G3). exists g. split; [exact G1|]. split; [exact G2|]. rewrite sent_app, G3. cbn [sent].
        destruct (N.eqb_spec d c) as [->|NE]; [rewrite upd_same, app_nil_r; now rewrite app_assoc|rewrite upd_other, !app_nil_r by congruence; auto].
      * destruct GP as (g & G1 & (z & G2) & G3). exists g. split; [exact G1|]. split; [|exact G3]. destruct (SP c) as (y & Y). exists (z ++ y). now rewrite Y, G2, app_assoc.
  - injection St as <-. split; cbn [at_ backlog inbox ended buffer results]; intros.
    + rewrite arrivals_app, GA. cbn. now rewrite app_nil_r.
    + rewrite in_app_iff. cbn [In]. unfold upd. destruct (N.eqb_spec c d) as [->|NE]; [tauto|]. rewrite GE. split; [tauto|]. intros [X|[X|[]]]; [exact X|]. congruence.
    + rewrite sent_app, app_nil_r. auto.
    + exists left. split; [exact An'|]. destruct (at_ s) as [|c|c r]; [exact GP| |]; destruct GP as (g & GP); exists g; rewrite sent_app, app_nil_r; exact GP.
  - destruct (at_ s) eqn:Ea; try discriminate. destruct (backlog s) as [|c r] eqn:Eb; [discriminate|]. injection St as <-. split; cbn [at_ backlog inbox ended buffer results]; intros.
    + rewrite arrivals_app, GA. cbn. now rewrite app_nil_r.
    + rewrite GE, in_app_iff. cbn. intuition discriminate.
    + rewrite sent_app, app_nil_r. apply GI; [assumption|intros []].
    + exists left. split; [exact An'|]. exists []. split; [constructor|]. split; [now rewrite app_nil_r|]. rewrite sent_app, app_nil_r. cbn [app]. symmetry. apply GI; [|intros []]. intros X.
      rewrite arrivals_app in ND. apply nodup_left in ND. rewrite GA in ND. cbn [current app] in ND. clear -X ND. induction (map fst (results s)) as [|x l IH]; [destruct X|]. cbn in ND. inversion ND; subst. destruct X as [->|X]; [|auto]. apply H1. apply in_or_app. right. now left.
  - destruct (at_ s) as [|c|] eqn:Ea; try discriminate. destruct (parse (buffer s)) eqn:Ep; try discriminate. destruct (Nat.leb 1 k && Nat.leb k (length (inbox s c))) eqn:Ek; [|discriminate]. injection St as <-.
    apply andb_prop in Ek as [K1 K2]. apply Nat.leb_le in K1, K2.
    split; cbn [at_ backlog inbox ended buffer results]; intros.
    + rewrite arrivals_app, GA. cbn. now rewrite app_nil_r.
    + rewrite GE, in_app_iff. cbn. intuition discriminate.
    + rewrite sent_app, app_nil_r. cbn [current In] in H0. rewrite upd_other by intuition. apply GI; [assumption|]. exact H0.
    + destruct GP as (g & G1 & G2 & G3). exists left. split; [exact An'|]. exists (g ++ firstn k (inbox s c)). split; [apply took_snoc; [exact G1|now rewrite <- G2|]|].
      * intros X. apply (f_equal (@length N)) in X. rewrite firstn_length in X. cbn in X. lia.
      * split; [now rewrite G2, app_assoc|]. rewrite sent_app, app_nil_r, upd_same, G3, <- app_assoc. f_equal. symmetry. apply firstn_skipn.
  - destruct (at_ s) as [|c|] eqn:Ea; try discriminate. destruct GP as (g & G1 & G2 & G3). assert (PG : prefix g (sent c (pre ++ [Parse]))) by (rewrite sent_app, app_nil_r; eexists; exact G3).
    destruct (parse (buffer s)) as [|rest|r rest] eqn:Ep; [discriminate| |]; injection St as <-; rewrite G2 in Ep; split; cbn [finished at_ backlog inbox ended buffer results]; intros.
    + rewrite arrivals_app, GA. cbn. rewrite app_nil_r, map_app. cbn. now rewrite <- app_assoc.
    + rewrite GE, in_app_iff. cbn. intuition discriminate.
    + rewrite sent_app, app_nil_r. rewrite map_app, in_app_iff in H. apply GI; [tauto|]. cbn in *. tauto.
    + exists rest. split; [|reflexivity]. eapply answers_snoc; [exact An'|]. eapply answers_invalid; eauto. constructor.
    + rewrite arrivals_app, GA. cbn. now rewrite app_nil_r.
    + rewrite GE, in_app_iff. cbn. intuition discriminate.
    + rewrite sent_app, app_nil_r. apply GI; assumption.
    + exists left. split; [exact An'|]. exists g. auto.
  - destruct (at_ s) as [|c|] eqn:Ea; try discriminate. destruct (parse (buffer s)) eqn:Ep; try discriminate. destruct (inbox s c) eqn:Ei; [|discriminate]. destruct (ended s c) eqn:Ee; [|discriminate]. injection St as <-.
    destruct GP as (g & G1 & G2 & G3). rewrite app_nil_r in G3. apply GE in Ee. destruct (EP c Ee) as [EP1 EP2]. split; cbn [finished at_ backlog inbox ended buffer results]; intros.
    + rewrite arrivals_app, GA. cbn. rewrite app_nil_r, map_app. cbn. now rewrite <- app_assoc.
    + rewrite GE, in_app_iff. cbn. intuition discriminate.
    + rewrite sent_app, app_nil_r. rewrite map_app, in_app_iff in H. apply GI; [tauto|]. cbn in *. tauto.
    + exists (buffer s). split; [|reflexivity]. eapply answers_snoc; [exact An'|]. rewrite G2, <- G3, <- EP2. apply answers_ended; [exact EP1|now rewrite EP2, G3|rewrite EP2, G3, <- G2; exact Ep|constructor].
  - destruct (at_ s) as [| |c r] eqn:Ea; try discriminate. injection St as <-. destruct GP as (g & G1 & G2 & G3). split; cbn [finished at_ backlog inbox ended buffer results]; intros.
    + rewrite arrivals_app, GA. cbn. rewrite app_nil_r, map_app. cbn. now rewrite <- app_assoc.
    + rewrite GE, in_app_iff. cbn. intuition discriminate.
    + rewrite sent_app, app_nil_r. rewrite map_app, in_app_iff in H. apply GI; [tauto|]. cbn in *. tauto.
    + exists (buffer s). split; [|reflexivity]. eapply answers_snoc; [exact An'|]. eapply answers_request; [|exact G1|exact G3| |constructor].
      * rewrite sent_app, app_nil_r. exact G2.
      * destruct ok; cbn [andb]; [|now left]. destruct (is_upgrade r); [right; auto|now left].
Qed.

Lemma held_run post : forall pre s s', NoDup (arrivals (pre ++ post)) -> Held pre s -> run s post = Some s' -> Held (pre ++ post) s'.
Proof.
  induction post as [|l post IH]; intros pre s s' ND G R.
  - injection R as <-. now rewrite app_nil_r.
  - cbn [AccModel.run] in R. destruct (step s l) as [s1|] eqn:St; [|discriminate]. change (l :: post) with ([l] ++ post) in *. rewrite app_assoc in *.
    apply (IH (pre ++ [l]) s1); [exact ND| |exact R]. eapply held_step; eauto. rewrite arrivals_app in ND. eapply nodup_left; exact ND.
Qed.
Lemma held_init : Held [] init.
Proof. split; cbn; intros; auto; try tauto. - intuition discriminate. - exists []. split; [constructor|reflexivity]. Qed.

Lemma all_held ls s : NoDup (arrivals ls) -> run init ls = Some s -> Held ls s.
Proof. intros ND R. exact (held_run ls [] init s ND held_init R). Qed.

(* only what clients do counts *)
Lemma clients_arrivals ls : arrivals (clients ls) = arrivals ls.
Proof. unfold clients. induction ls as [|[d|d b|d| |k| | |ok] ls IH]; cbn; auto. now rewrite IH. Qed.
Lemma clients_sent c ls : sent c (clients ls) = sent c ls.
Proof. unfold clients. induction ls as [|[d|d b|d| |k| | |ok] ls IH]; cbn; auto. now rewrite IH. Qed.
Lemma clients_end c ls : In (End c) (clients ls) <-> In (End c) ls.
Proof. unfold clients. rewrite filter_In. cbn. tauto. Qed.

(* clients alone *)
Lemma clients_run ls s s' : forallb (fun l => negb (of_server l)) ls = true -> run s ls = Some s' -> at_ s' = at_ s /\ buffer s' = buffer s /\ results s' = results s.
Proof.
  revert s. induction ls as [|l ls IH]; intros s H R; [injection R as <-; auto|]. cbn [forallb] in H. apply andb_prop in H as [H1 H2]. cbn [AccModel.run] in R. destruct (step s l) as [s1|] eqn:St; [|discriminate].
  destruct (IH s1 H2 R) as (A & B & C). rewrite A, B, C. destruct l as [d|d b|d| |k| | |ok]; try discriminate H1; unfold AccModel.step in St.
  - injection St as <-. auto.
  - destruct (ended s d); [discriminate|]. injection St as <-. auto.
  - injection St as <-. auto.
Qed.

(* the server reads what it may *)
Lemma read_on c l g : took l g -> forall s rest, at_ s = Reading c -> buffer s = l -> inbox s c = g ++ rest ->
  exists ks s', forallb of_server ks = true /\ run s ks = Some s' /\ at_ s' = Reading c /\ buffer s' = l ++ g /\ inbox s' c = rest /\ (forall d, d <> c -> inbox s' d = inbox s d) /\
    backlog s' = backlog s /\ ended s' = ended s /\ results s' = results s.
Proof.
  induction 1 as [l|l b g P Hb T IH]; intros s rest Ea Eb Ei.
  - exists [], s. rewrite app_nil_r. cbn. repeat split; auto.
  - set (s1 := {| at_ := Reading c; backlog := backlog s; inbox := upd c (skipn (length b) (inbox s c)) (inbox s); ended := ended s; buffer := buffer s ++ firstn (length b) (inbox s c); results := results s |}).
    assert (E1 : firstn (length b) (inbox s c) = b) by (rewrite Ei, <- app_assoc, firstn_app, Nat.sub_diag, firstn_all, app_nil_r; reflexivity).
    assert (E2 : skipn (length b) (inbox s c) = g ++ rest) by (rewrite Ei, <- app_assoc, skipn_app, Nat.sub_diag, skipn_all; reflexivity).
    assert (S1 : step s (Receive (length b)) = Some s1).
    { unfold AccModel.step. rewrite Ea, Eb, P. assert (Nat.leb 1 (length b) = true) as -> by (destruct b; [congruence|reflexivity]). assert (Nat.leb (length b) (length (inbox s c)) = true) as -> by (apply Nat.leb_le; rewrite Ei, !app_length; lia).
      cbn [andb]. unfold s1. rewrite Eb. reflexivity. }
    destruct (IH s1 rest) as (ks & s' & F & R & A1 & A2 & A3 & A4 & A5 & A6 & A7); [reflexivity|cbn; now rewrite Eb, E1|cbn; rewrite upd_same; exact E2|].
    exists (Receive (length b) :: ks), s'. split; [exact F|]. split; [cbn [AccModel.run]; rewrite S1; exact R|]. split; [exact A1|]. split; [now rewrite A2, app_assoc|]. split; [exact A3|].
    split; [intros d Hd; rewrite A4 by exact Hd; cbn; now rewrite upd_other|]. split; [exact A5|]. split; [exact A6|exact A7].
Qed.

Lemma answers_reached ls l rs l' : answers ls l rs l' -> forall s later, at_ s = Waiting -> buffer s = l -> backlog s = map fst rs ++ later -> NoDup (backlog s) ->
  (forall c, In c (backlog s) -> inbox s c = sent c ls) -> (forall c, In (End c) ls -> ended s c = true) ->
  exists ks s', forallb of_server ks = true /\ run s ks = Some s' /\ results s' = results s ++ rs.
Proof.
  induction 1 as [l|l c g r l1 x rs l2 P T Pa X A IH|l c g l1 rs l2 P T Pa A IH|l c rs l2 E T Pa A IH]; intros s later Ea Eb Ebl ND EI EE.
  - exists [], s. cbn. rewrite app_nil_r. auto.
  - destruct P as (rest & P). cbn [map fst app] in Ebl. set (s1 := {| at_ := Reading c; backlog := map fst rs ++ later; inbox := inbox s; ended := ended s; buffer := buffer s; results := results s |}).
    assert (S1 : step s Accept = Some s1) by (unfold AccModel.step; rewrite Ea, Ebl; reflexivity).
    destruct (read_on c l g T s1 rest) as (ks & s2 & F & R & A1 & A2 & A3 & A4 & A5 & A6 & A7); [reflexivity|exact Eb|cbn; rewrite EI by (rewrite Ebl; now left); exact P|]. cbn in A4, A5, A6, A7.
    set (s3 := {| at_ := Upgrading c r; backlog := backlog s2; inbox := inbox s2; ended := ended s2; buffer := l1; results := results s2 |}).
    assert (S3 : step s2 Parse = Some s3) by (unfold AccModel.step; rewrite A1, A2, Pa; reflexivity).
    assert (S4 : exists ok, step s3 (Upgrade ok) = Some (finished c x l1 s3)).
    { destruct X as [->|[U ->]]; [exists false; reflexivity|exists true; unfold AccModel.step; cbn; now rewrite U]. }
    destruct S4 as (ok & S4). rewrite Ebl in ND. apply NoDup_cons_iff in ND as [N1 N2].
    destruct (IH (finished c x l1 s3) later) as (k2 & s5 & F5 & R5 & E5); subst s3; cbn [finished at_ buffer backlog inbox ended results]; rewrite ?A5, ?A6, ?A7; auto.
    { intros d Hd. rewrite A4; [apply EI; rewrite Ebl; now right|]. intros ->. contradiction. }
    exists (Accept :: ks ++ Parse :: Upgrade ok :: k2), s5. split; [cbn; rewrite forallb_app; cbn; now rewrite F, F5|]. split.
    + cbn [AccModel.run]. rewrite S1, run_app, R. cbn [AccModel.run]. rewrite S3, S4. exact R5.
    + rewrite E5. cbn. rewrite A7, <- app_assoc. reflexivity.
  - destruct P as (rest & P). cbn [map fst app] in Ebl. set (s1 := {| at_ := Reading c; backlog := map fst rs ++ later; inbox := inbox s; ended := ended s; buffer := buffer s; results := results s |}).
    assert (S1 : step s Accept = Some s1) by (unfold AccModel.step; rewrite Ea, Ebl; reflexivity).
    destruct (read_on c l g T s1 rest) as (ks & s2 & F & R & A1 & A2 & A3 & A4 & A5 & A6 & A7); [reflexivity|exact Eb|cbn; rewrite EI by (rewrite Ebl; now left); exact P|]. cbn in A4, A5, A6, A7.
    assert (S3 : step s2 Parse = Some (finished c None l1 s2)) by (unfold AccModel.step; rewrite A1, A2, Pa; reflexivity).
    rewrite Ebl in ND. apply NoDup_cons_iff in ND as [N1 N2].
    destruct (IH (finished c None l1 s2) later) as (k2 & s5 & F5 & R5 & E5); cbn [finished at_ buffer backlog inbox ended results]; rewrite ?A5, ?A6, ?A7; auto.
    { intros d Hd. rewrite A4; [apply EI; rewrite Ebl; now right|]. intros ->. contradiction. }
    exists (Accept :: ks ++ Parse :: k2), s5. split; [cbn; rewrite forallb_app; cbn; now rewrite F, F5|]. split.
    + cbn [AccModel.run]. rewrite S1, run_app, R. cbn [AccModel.run]. rewrite S3. exact R5.
    + rewrite E5. cbn. rewrite A7, <- app_assoc. reflexivity.
  - cbn [map fst app] in Ebl. set (s1 := {| at_ := Reading c; backlog := map fst rs ++ later; inbox := inbox s; ended := ended s; buffer := buffer s; results := results s |}).
    assert (S1 : step s Accept = Some s1) by (unfold AccModel.step; rewrite Ea, Ebl; reflexivity).
    destruct (read_on c l (sent c ls) T s1 []) as (ks & s2 & F & R & A1 & A2 & A3 & A4 & A5 & A6 & A7); [reflexivity|exact Eb|cbn; rewrite EI by (rewrite Ebl; now left); now rewrite app_nil_r|]. cbn in A4, A5, A6, A7.
    assert (S3 : step s2 Fail = Some (finished c None (l ++ sent c ls) s2)) by (unfold AccModel.step; rewrite A1, A2, Pa, A3, A6, (EE c E); reflexivity).
    rewrite Ebl in ND. apply NoDup_cons_iff in ND as [N1 N2].
    destruct (IH (finished c None (l ++ sent c ls) s2) later) as (k2 & s5 & F5 & R5 & E5); cbn [finished at_ buffer backlog inbox ended results]; rewrite ?A5, ?A6, ?A7; auto.
    { intros d Hd. rewrite A4; [apply EI; rewrite Ebl; now right|]. intros ->. contradiction. }
    exists (Accept :: ks ++ Fail :: k2), s5. split; [cbn; rewrite forallb_app; cbn; now rewrite F, F5|]. split.
    + cbn [AccModel.run]. rewrite S1, run_app, R. cbn [AccModel.run]. rewrite S3. exact R5.
    + rewrite E5. cbn. rewrite A7, <- app_assoc. reflexivity.
Qed.
End Proofs.
