(* C96-C99: the life of a context. *)
From Verif Require Import Base StoreModel LifeModel LifeSpec LifeProofs.
From Verif Require StoreProofs.
From Coq Require Import Permutation.
Open Scope nat_scope.

(* ---- C96: names ---- *)
(* The actors are those of Producer or Producers, then those of Consumers or else Consumer; the name of one is the one that
   was given to it, or else its type *)
Theorem C96_names : forall d names, actor_names d = Some names -> exists ps cs,
  (ps = match some_producers d with Some l => l | None => match a_producer d with Some a => [a] | None => [] end end) /\
  (a_producer d = None <-> some_producers d <> None) /\
  (cs = match some_consumers d, a_consumer d with Some l, _ => l | None, Some a => [a] | None, None => [] end) /\
  length names = length (ps ++ cs) /\
  forall i a, nth_error (ps ++ cs) i = Some a ->
    nth_error names i = Some (match its_name a with Some n => Named n | None => Typed (its_type a) end).
Proof.
  intros d names H. unfold actor_names in H. destruct (enumerate_producers d) as [ps|] eqn:Ep; [|discriminate].
  injection H as <-. exists ps, (enumerate_consumers d). rewrite <- map_app, map_length.
  unfold enumerate_producers in Ep.
  split; [destruct (a_producer d), (some_producers d); congruence|].
  split; [destruct (a_producer d), (some_producers d); split; intros Q; congruence|].
  split; [reflexivity|]. split; [reflexivity|].
  intros i a E. erewrite map_nth_error; [|exact E]. reflexivity.
Qed.
Print Assumptions C96_names.

Lemma name_eqb_spec : forall a b, name_eqb a b = true <-> a = b.
Proof.
  intros [x|x] [y|y]; cbn; try (split; discriminate); rewrite N.eqb_eq; split; intros H; congruence.
Qed.

Lemma find_param_in : forall X (params : list (name * X)) n, NoDup (map fst params) ->
  match find_param params n with Some x => In (n, x) params | None => forall x, ~ In (n, x) params end.
Proof.
  induction params as [|[k y] r IH]; intros n Nd; cbn; [intros x []|].
  inversion Nd as [|? ? N1 N2]; subst. specialize (IH n N2).
  destruct (name_eqb n k) eqn:E.
  - apply name_eqb_spec in E. subst. left. reflexivity.
  - destruct (find_param r n); [right; exact IH|]. intros x [Q|Q]; [|exact (IH x Q)].
    injection Q as -> _. assert (name_eqb n n = true) by (apply name_eqb_spec; reflexivity). congruence.
Qed.

Section Props.
Variable S : Type.
Variable apply : S -> msg -> S * bool.
Variable static_false : msg -> bool.
Variable look : S -> path -> outcome.
Variable foreign : S -> msg -> S * list path.
Variable fresh : nat -> S.
Variable A : Type.
Variable X : Type.
Variable sh : shape A X.
Variable count : nat.

(* the context after [n] steps *)
Definition after (n : nat) (args : list (option X)) (ms : list msg) : machine S A X :=
  exec S apply static_false look foreign fresh A X sh count n (life S A X sh count args ms).
Notation log := (log S A X).
Notation todo := (todo S A X).
Notation ub := (ub S A X).
Notation stores := (stores S A X).
Notation actor i := (actor A X sh i).

Lemma after_ind : forall (P : machine S A X -> Prop) args ms,
  P (life S A X sh count args ms) -> (forall s, P s -> P (step S apply static_false look foreign fresh A X sh count s)) ->
  forall n, P (after n args ms).
Proof.
  intros P args ms B St n. unfold after.
  assert (G : forall n s, P s -> P (exec S apply static_false look foreign fresh A X sh count n s)).
  { clear n B. induction n as [|n IH]; intros s H; cbn; auto. }
  apply G. exact B.
Qed.

Definition the_producers : list nat := filter (fun i => producer A X (actor i)) (seq 0 count).
Definition the_consumers : list nat := filter (fun i => consumer A X (actor i)) (seq 0 count).

Lemma after_course : forall args ms n, length args = count ->
  on_course S A X (whole_life args the_producers the_consumers) (after n args ms).
Proof.
  intros args ms n L. apply after_ind; [apply life_course; exact L|].
  intros s H. eapply on_course_step; [apply step_moves|exact H].
Qed.

(* ---- C96: the order of construction, initialisation and destruction ---- *)
Theorem C96_order : forall args ms n, length args = count ->
  prefix (filter lifecycle (log (after n args ms))) (whole_life args the_producers the_consumers) /\
  (todo (after n args ms) = [] -> filter lifecycle (log (after n args ms)) = whole_life args the_producers the_consumers).
Proof.
  intros args ms n L. pose proof (after_course args ms n L) as C. unfold on_course in C. split.
  - eexists. exact C.
  - intros T. rewrite T in C. cbn in C. rewrite app_nil_r in C. exact C.
Qed.

(* An actor is constructed with the argument that has its name, or without one if there is none *)
Theorem C96_argument : forall names (params : list (name * X)) ms n i a, length names = count -> NoDup (map fst params) ->
  In (Constructed i a) (log (after n (arguments names params) ms)) ->
  exists nm, nth_error names i = Some nm /\
    match a with Some x => In (nm, x) params | None => forall x, ~ In (nm, x) params end.
Proof.
  intros names params ms n i a L Nd H. set (args := arguments names params).
  assert (La : length args = count) by (unfold args, arguments; rewrite map_length; exact L).
  destruct (C96_order args ms n La) as [[c E] _].
  assert (I : In (Constructed i a) (whole_life args the_producers the_consumers)).
  { rewrite <- E. apply in_app_iff. left. apply filter_In. split; [exact H|reflexivity]. }
  unfold whole_life in I. rewrite !in_app_iff in I.
  destruct I as [I|[[I|[]]|[I|[I|[[I|[]]|I]]]]]; try discriminate;
    try (apply in_map_iff in I as (? & I & _); discriminate).
  apply in_map_iff in I as ((j & b) & Q & I). cbn in Q. injection Q as -> ->.
  assert (G : forall (l : list (option X)) k, In (i, a) (combine (seq k (length l)) l) -> k <= i /\ nth_error l (i - k) = Some a).
  { clear. induction l as [|y l IH]; intros k I; cbn in I; [destruct I|]. destruct I as [I|I].
    - injection I as -> ->. rewrite Nat.sub_diag. split; [lia|reflexivity].
    - apply IH in I as [I1 I2]. split; [lia|]. replace (i - k) with (Datatypes.S (i - Datatypes.S k)) by lia. exact I2. }
  apply G in I as [_ I]. rewrite Nat.sub_0_r in I. unfold args, arguments in I.
  rewrite nth_error_map in I. destruct (nth_error names i) as [nm|]; [|discriminate].
  cbn in I. injection I as <-. exists nm. split; [reflexivity|]. apply find_param_in. exact Nd.
Qed.

(* ---- C97: the stores exist when they are used ---- *)
(* Nothing is undefined if, and only if, no constructor uses the handle and no destructor does.  The actors are constructed
   before the stores and destroyed after them. *)
Theorem C97_exact : forall args ms, length args = count -> (forall t, producer_of A X sh t < count) ->
  ((forall n, ub (after n args ms) = false) <->
   (forall i a, nth_error args i = Some a -> ~ uses (fst (construct A X (actor i) a)) (snd (construct A X (actor i) a))) /\
   (forall n i a r, todo (after n args ms) = Destruct i :: r -> state S A X (after n args ms) i = Some a -> ~ uses a (destruct_ A X (actor i)))).
Proof.
  intros args ms L Pr.
  assert (G : forall (l : list (option X)) k i a, nth_error l i = Some a <-> In (k + i, a) (combine (seq k (length l)) l)).
  { clear. induction l as [|y l IH]; intros k i a; cbn.
    - split; [|tauto]. destruct i; discriminate.
    - destruct i as [|i]; cbn.
      + split; [intros [= ->]; left; f_equal; lia|]. intros [[= _ ->]|H]; [reflexivity|].
        exfalso. assert (k + 0 < Datatypes.S k) by lia. apply in_combine_l in H. apply in_seq in H. lia.
      + rewrite (IH (Datatypes.S k) i a). replace (Datatypes.S k + i) with (k + Datatypes.S i) by lia.
        split; [auto|]. intros [[= Q _]|H]; [lia|exact H]. }
  assert (B : (forall i a, nth_error args i = Some a -> ~ uses (fst (construct A X (actor i) a)) (snd (construct A X (actor i) a))) ->
              phase S A X sh count (life S A X sh count args ms)).
  { intros H. apply (phase_life S apply look foreign fresh); [exact Pr|exact L|].
    apply Forall_forall. intros (i, a) I. unfold harmless. cbn.
    specialize (H i a). rewrite (G args 0 i a), L in H. specialize (H I). destruct (construct A X (actor i) a). exact H. }
  split.
  - intros H.
    assert (C : forall i a, nth_error args i = Some a -> ~ uses (fst (construct A X (actor i) a)) (snd (construct A X (actor i) a))).
    { intros i a E U.
      destruct (bad_constructor S apply static_false look foreign fresh A X sh count (combine (seq 0 count) args)
                  (life S A X sh count args ms) (MakeStores :: inits A X sh count ++ map Outside ms ++ tear_down A X count)) as (n & B0); auto.
      + cbn. unfold build. rewrite <- app_assoc. reflexivity.
      + apply Exists_exists. exists (i, a). split.
        * rewrite <- L. apply (G args 0 i a). exact E.
        * unfold harmless. cbn. destruct (construct A X (actor i) a). auto.
      + specialize (H n). unfold after in H. congruence. }
    split; [exact C|].
    assert (D : forall n, good_destructor S A X sh (after n args ms)).
    { intros n. induction n as [n IH] using (well_founded_induction Wf_nat.lt_wf).
      destruct (phase_exec S apply static_false look foreign fresh A X sh count Pr n (life S A X sh count args ms) eq_refl (B C) IH) as [Un Pn].
      intros i a r T St U. destruct (bad_destructor S apply static_false look foreign fresh A X sh count _ i a r Un Pn T St U) as (n2 & B2).
      rewrite <- exec_add in B2. specialize (H (n + n2)). unfold after in H. congruence. }
    intros n. apply D.
  - intros [H D] n. refine (proj1 (phase_exec S apply static_false look foreign fresh A X sh count Pr n (life S A X sh count args ms) eq_refl (B H) _)).
    intros k _. exact (D k).
Qed.

(* in particular with destructors which do not use the handle *)
Theorem C97_exact_partial : forall args ms, length args = count -> (forall t, producer_of A X sh t < count) ->
  (forall i, quiet (destruct_ A X (actor i))) ->
  ((forall n, ub (after n args ms) = false) <->
   forall i a, nth_error args i = Some a -> ~ uses (fst (construct A X (actor i) a)) (snd (construct A X (actor i) a))).
Proof.
  intros args ms L Pr Ds. rewrite (C97_exact args ms L Pr). split; [tauto|]. intros H. split; [exact H|].
  intros n i a r _ _. assert (Q : forall (p : prog A) b, quiet p -> ~ uses b p) by (clear; induction p; cbn; auto). apply Q, Ds.
Qed.

(* ---- C98: no message before the initialisation ---- *)
(* No actor gets a message or is notified before all actors and the stores are constructed *)
Theorem C98_constructed : forall args ms n, only_after StoresMade delivery (log (after n args ms)).
Proof.
  intros args ms n. assert (R : ready S A X (after n args ms)).
  { apply after_ind; [apply life_ready|]. apply ready_step. }
  destruct R as [(_ & _ & L)|[_ O]]; [|exact O].
  intros l1 x l2 E D. rewrite E, Forall_app in L. destruct L as [_ L]. inversion L; subst. congruence.
Qed.

Lemma after_orderly : forall due args ms n, length args = count ->
  (forall t, inner A X t -> due t = false) ->
  (forall t e t', due t = true -> In e (will A X t) -> In e (will A X t') -> due t' = true) ->
  (forall t e, due t = true -> In e (will A X t) -> lifecycle e = true) ->
  calm A X sh due (todo (life S A X sh count args ms)) ->
  orderly S A X sh due (whole_life args the_producers the_consumers) (after n args ms).
Proof.
  intros due args ms n L D1 D2 D3 C. apply after_ind.
  - split; [apply life_course; exact L|]. split.
    + intros l1 x l2 E. cbn in E. destruct l1; discriminate.
    + left. split; [exact C|]. intros x [].
  - intros s H. eapply orderly_step; eauto. apply step_moves.
Qed.

Lemma calm_app : forall due (l r : list (task A X)), Forall (calm_task A X sh) l -> calm A X sh due r -> calm A X sh due (l ++ r).
Proof. induction l as [|t l IH]; intros r F C; cbn; auto. inversion F; subst. right. split; auto. Qed.

(* If constructors and producer_init do not use the handle, nothing is delivered before every producer is initialised; and
   if consumer_init does not either, not before every actor is *)
Theorem C98_producers_partial : forall args ms n i, length args = count ->
  (forall j a, quiet (snd (construct A X (actor j) a))) -> (forall j, quiet (init_producer A X (actor j))) ->
  i < count -> producer A X (actor i) = true -> only_after (InitedProducer i) delivery (log (after n args ms)).
Proof.
  intros args ms n i L Qc Qp Li Pi.
  set (due := fun t : task A X => match t with InitProducer _ => true | _ => false end).
  assert (O : orderly S A X sh due (whole_life args the_producers the_consumers) (after n args ms)).
  { apply after_orderly; auto.
    - intros [] H; cbn in *; auto; contradiction.
    - intros [] e [] D W W'; cbn in *; try discriminate; try tauto; auto; destruct W as [<-|[]]; destruct W' as [Q|[]]; discriminate.
    - intros [] e D W; cbn in *; try discriminate. destruct W as [<-|[]]. reflexivity.
    - cbn. unfold build, inits. rewrite <- app_assoc. cbn [app]. apply calm_app.
      + apply Forall_forall. intros t I. apply in_map_iff in I as ((j & a) & <- & _). cbn. apply Qc.
      + cbn [calm]. right. split; [exact Logic.I|]. rewrite <- !app_assoc. apply calm_app.
        * apply Forall_forall. intros t I. apply in_map_iff in I as (j & <- & _). cbn. apply Qp.
        * apply calm_none. apply not_true_is_false. intros Ex. apply existsb_exists in Ex as (t & I & D).
          unfold tear_down in I. rewrite !in_app_iff in I. destruct I as [I|[I|[<-|I]]]; try discriminate;
            apply in_map_iff in I as (? & <- & _); discriminate. }
  destruct O as (_ & O & _). intros l1 x l2 E D. apply (O l1 x l2 E D (InitProducer i)); [reflexivity|left; reflexivity|].
  unfold whole_life. rewrite !in_app_iff. right. right. left. apply in_map. unfold the_producers. apply filter_In.
  split; [apply in_seq; lia|exact Pi].
Qed.

Theorem C98_consumers_partial : forall args ms n i, length args = count ->
  (forall j a, quiet (snd (construct A X (actor j) a))) -> (forall j, quiet (init_producer A X (actor j))) ->
  (forall j, quiet (init_consumer A X (actor j))) ->
  i < count -> consumer A X (actor i) = true -> only_after (InitedConsumer i) delivery (log (after n args ms)).
Proof.
  intros args ms n i L Qc Qp Qi Li Pi.
  set (due := fun t : task A X => match t with InitConsumer _ => true | _ => false end).
  assert (O : orderly S A X sh due (whole_life args the_producers the_consumers) (after n args ms)).
  { apply after_orderly; auto.
    - intros [] H; cbn in *; auto; contradiction.
    - intros [] e [] D W W'; cbn in *; try discriminate; try tauto; auto; destruct W as [<-|[]]; destruct W' as [Q|[]]; discriminate.
    - intros [] e D W; cbn in *; try discriminate. destruct W as [<-|[]]. reflexivity.
    - cbn. unfold build, inits. rewrite <- app_assoc. cbn [app]. apply calm_app.
      + apply Forall_forall. intros t I. apply in_map_iff in I as ((j & a) & <- & _). cbn. apply Qc.
      + cbn [calm]. right. split; [exact Logic.I|]. rewrite <- !app_assoc. apply calm_app.
        * apply Forall_forall. intros t I. apply in_map_iff in I as (j & <- & _). cbn. apply Qp.
        * apply calm_app.
          { apply Forall_forall. intros t I. apply in_map_iff in I as (j & <- & _). cbn. apply Qi. }
          apply calm_none. apply not_true_is_false. intros Ex. apply existsb_exists in Ex as (t & I & D).
          unfold tear_down in I. rewrite !in_app_iff in I. destruct I as [I|[<-|I]]; try discriminate;
            apply in_map_iff in I as (? & <- & _); discriminate. }
  destruct O as (_ & O & _). intros l1 x l2 E D. apply (O l1 x l2 E D (InitConsumer i)); [reflexivity|left; reflexivity|].
  unfold whole_life. rewrite !in_app_iff. right. right. right. left. apply in_map. unfold the_consumers. apply filter_In.
  split; [apply in_seq; lia|exact Pi].
Qed.

(* ---- C99: all consumers get the same ---- *)
Lemma life_tells : forall args ms, existsb (tells A X) (todo (life S A X sh count args ms)) = false.
Proof.
  intros args ms. apply not_true_is_false. intros Ex. apply existsb_exists in Ex as (t & I & D). cbn in I.
  unfold build, inits, tear_down in I. rewrite !in_app_iff in I. cbn in I. rewrite !in_app_iff in I.
  destruct I as [[I|[<-|[I|I]]]|[I|[<-|I]]]; try discriminate; apply in_map_iff in I as (? & <- & _); discriminate.
Qed.

(* Whatever the actors do: no consumer gets a message twice, or one that was not for the consumers; and when there is
   nothing left to do every one has got all of them *)
Theorem C99_all : forall args ms n i, i < count -> consumer A X (actor i) = true ->
  (exists rest, Permutation (heard i (log (after n args ms)) ++ rest) (accepted (log (after n args ms)))) /\
  ((forall m, ~ In (ToConsumer i m) (todo (after n args ms))) ->
   Permutation (heard i (log (after n args ms))) (accepted (log (after n args ms)))).
Proof.
  intros args ms n i Li Ci. assert (B : balanced S A X i (after n args ms)).
  { apply after_ind.
    - unfold balanced. rewrite none_waiting by apply life_tells. constructor.
    - intros s H. apply (balanced_step S apply static_false look foreign fresh A X sh count i Li Ci s); [apply step_moves|exact H]. }
  unfold balanced in B. split; [eexists; exact B|]. intros N.
  replace (waiting A X i (todo (after n args ms))) with (@nil msg) in B; [rewrite app_nil_r in B; exact B|].
  symmetry. clear B. induction (todo (after n args ms)) as [|t l IH]; [reflexivity|].
  change (waiting A X i ([t] ++ l) = []). rewrite waiting_app, IH by (intros m I; apply (N m); right; exact I).
  destruct t; cbn; auto. destruct (Nat.eqb i0 i) eqn:Q; auto. apply Nat.eqb_eq in Q. subst. exfalso. apply (N m). left. reflexivity.
Qed.

(* If consumers and state consumers apply no messages while they are told of one, and no store asks for a read while it is
   matched, the consumers get the messages in the order in which the context had them *)
Theorem C99_order_partial : forall args ms n i, (forall j m, tame (on_down A X (actor j) m)) ->
  (forall j p, tame (on_notify A X (actor j) p)) -> (forall s p, look s p <> TriggerRead) ->
  i < count -> consumer A X (actor i) = true ->
  prefix (heard i (log (after n args ms))) (accepted (log (after n args ms))) /\
  ((forall m, ~ In (ToConsumer i m) (todo (after n args ms))) ->
   heard i (log (after n args ms)) = accepted (log (after n args ms))).
Proof.
  intros args ms n i Td Tn Nt Li Ci. assert (B : in_order S A X i (after n args ms)).
  { apply after_ind.
    - split; [rewrite none_waiting by apply life_tells; reflexivity|]. apply tidy_none. apply life_tells.
    - intros s H. eapply in_order_step; eauto. apply step_moves. }
  destruct B as [B _]. split; [eexists; exact B|]. intros N.
  replace (waiting A X i (todo (after n args ms))) with (@nil msg) in B; [rewrite app_nil_r in B; exact B|].
  symmetry. clear B. induction (todo (after n args ms)) as [|t l IH]; [reflexivity|].
  change (waiting A X i ([t] ++ l) = []). rewrite waiting_app, IH by (intros m I; apply (N m); right; exact I).
  destruct t; cbn; auto. destruct (Nat.eqb i0 i) eqn:Q; auto. apply Nat.eqb_eq in Q. subst. exfalso. apply (N m). left. reflexivity.
Qed.
End Props.

(* A map_store has at every moment just what the messages said that were for the consumers, in the order in which the
   context had them.  (No message of another path type changes it.) *)
Section Maps.
Variable foreign : table -> msg -> table * list path.
Hypothesis no_foreign : forall s m, fst (foreign s m) = s.
Variable A : Type.
Variable X : Type.
Variable sh : shape A X.
Variable count : nat.
Notation after := (after table map_apply map_static_false map_match foreign (fun _ => []) A X sh count).

Definition has (p : path) (s : table) : option payload :=
  match find s p with Some (SValue v) => Some v | _ => None end.

Lemma erased : forall s p q, find (erase s p) q = if path_eqb p q then None else find s q.
Proof. intros s p q. rewrite StoreProofs.find_erase, StoreProofs.path_eqb_sym. reflexivity. Qed.
Lemma assigned : forall s p v q, find (assign s p v) q = if path_eqb p q then Some v else find s q.
Proof. intros s p v q. rewrite StoreProofs.find_assign, StoreProofs.path_eqb_sym. reflexivity. Qed.

Lemma map_learns : forall p s m, is_upstream m = false -> path_of m <> None -> map_static_false m = false ->
  has p (fst (map_apply s m)) = learn p (has p s) m.
Proof.
  intros p s m U P _. unfold map_apply, learn. destruct (path_of m) as [q|]; [|congruence].
  unfold is_upstream in U. unfold has. destruct (mkind m); try discriminate; cbn [fst].
  - rewrite assigned. destruct (path_eqb q p); reflexivity.
  - unfold index. destruct (find s q) as [[|v]|] eqn:F; cbn [fst]; rewrite ?assigned;
      destruct (path_eqb q p) eqn:E; auto; apply StoreProofs.path_eqb_spec in E; subst; rewrite F; reflexivity.
  - rewrite assigned. destruct (path_eqb q p); reflexivity.
  - rewrite erased. destruct (path_eqb q p); reflexivity.
Qed.

Lemma map_ignores : forall p s m, is_upstream m = true -> has p (fst (map_apply s m)) = has p s.
Proof.
  intros p s m U. unfold map_apply. destruct (path_of m) as [q|]; [|reflexivity].
  unfold is_upstream in U. unfold has. destruct (mkind m); try discriminate; auto.
  cbn [fst]. destruct (find s q) eqn:F; auto. rewrite assigned. destruct (path_eqb q p) eqn:E; auto.
  apply StoreProofs.path_eqb_spec in E. subst. rewrite F. reflexivity.
Qed.

Lemma map_answers : forall p s m q v d, is_upstream m = true -> is_read m = true -> path_of m = Some q ->
  map_match (fst (map_apply s m)) q = Resolved v -> to_downstream_read m v = Some d -> learn p (has p s) d = has p s.
Proof.
  intros p s m q v d U R P M D. unfold to_downstream_read in D. destruct (mkind m) eqn:K; try discriminate. injection D as <-.
  assert (Pd : path_of (mk_msg DownRead (mtype m) [or_none (get_path m); uid_or_none m; FPayload v]) = Some q).
  { unfold path_of in *. change (match or_none (get_path m) with FPath (PPath p) => Some p | _ => None end = Some q).
    destruct (get_path m) as [f|]; [exact P|discriminate]. }
  unfold learn. rewrite Pd. cbn. destruct (path_eqb q p) eqn:E; auto. apply StoreProofs.path_eqb_spec in E. subst q.
  unfold map_apply in M. rewrite P, K in M. unfold map_match in M. unfold has.
  destruct (find s p) as [[|w]|] eqn:F; cbn [fst] in M; rewrite ?F in M; try discriminate; auto.
  rewrite assigned in M. assert (path_eqb p p = true) as Q by (apply StoreProofs.path_eqb_spec; reflexivity). rewrite Q in M. discriminate.
Qed.

Lemma learn_type : forall p l v, fold_left (learn p) (filter (fun m => Nat.eqb (path_type m) (ptype p) && negb (map_static_false m)) l) v =
  fold_left (learn p) l v.
Proof.
  intros p. induction l as [|m l IH]; intros v; cbn; [reflexivity|].
  destruct (Nat.eqb (path_type m) (ptype p) && negb (map_static_false m)) eqn:E; cbn; [apply IH|].
  rewrite IH. f_equal. unfold learn, path_of. destruct (get_path m) as [[[q|? ?]| | | | |]|] eqn:G; try reflexivity.
  destruct (path_eqb q p) eqn:Q; auto. apply StoreProofs.path_eqb_spec in Q. subst q.
  unfold path_type in E. rewrite G, Nat.eqb_refl in E. cbn in E. unfold map_static_false, is_upstream in E.
  destruct (mkind m); auto; discriminate.
Qed.

Theorem C99_map_store : forall args ms n st p, stores table A X (after n args ms) = Some st ->
  has p (st (ptype p)) = known p (accepted (log table A X (after n args ms))).
Proof.
  intros args ms n st p E.
  assert (F : follows table map_static_false (fun _ => []) A X _ (has p) (learn p) true (after n args ms)).
  { apply after_ind.
    - apply (life_follows table map_apply map_static_false map_match foreign); auto using map_ignores, map_learns.
      + intros s0 m. rewrite no_foreign. reflexivity.
      + intros _ s0 m q v d. apply map_answers.
    - intros s H. apply follows_step; auto.
      + intros s0 m. apply map_ignores.
      + intros s0 m. apply map_learns.
      + intros s0 m. rewrite no_foreign. reflexivity.
      + intros _ s0 m q v d. apply map_answers. }
  destruct F as [F _]. rewrite E in F. destruct F as [F _]. rewrite F. unfold folded. cbn. rewrite learn_type. reflexivity.
Qed.

(* So a consumer which keeps for itself what it is told has the same as the stores whenever nothing is under way to it *)
Theorem C99_mirror_partial : forall args ms n i st p, (forall j m, tame (on_down A X (actor A X sh j) m)) ->
  (forall j q, tame (on_notify A X (actor A X sh j) q)) -> i < count -> consumer A X (actor A X sh i) = true ->
  (forall m, ~ In (ToConsumer i m) (todo table A X (after n args ms))) -> stores table A X (after n args ms) = Some st ->
  has p (st (ptype p)) = known p (heard i (log table A X (after n args ms))).
Proof.
  intros args ms n i st p Td Tn Li Ci N E. rewrite (C99_map_store args ms n st p E). f_equal. symmetry.
  apply C99_order_partial; auto. intros s q. unfold map_match. destruct (find s q) as [[|v]|]; discriminate.
Qed.
End Maps.
Print Assumptions C96_order.
Print Assumptions C96_argument.
Print Assumptions C97_exact.
Print Assumptions C97_exact_partial.
Print Assumptions C98_constructed.
Print Assumptions C98_producers_partial.
Print Assumptions C98_consumers_partial.
Print Assumptions C99_all.
Print Assumptions C99_order_partial.
Print Assumptions C99_map_store.
Print Assumptions C99_mirror_partial.

(* ---- programs ---- *)
Definition silent (p c s : bool) : kind N N :=
  {| producer := p; consumer := c; state_consumer := s; construct := fun a => (match a with Some x => x | None => 0%N end, Ret);
     init_producer := Ret; init_consumer := Ret; on_up := fun _ => Ret; on_down := fun _ => Ret; on_notify := fun _ => Ret;
     destruct_ := Ret |}.
Definition no_foreign (s : table) (m : msg) : table * list path := (s, []).
Notation trace sh count args ms n := (log table N N (after table map_apply map_static_false map_match no_foreign (fun _ => []) N N sh count n args ms)).
Notation broken sh count args ms n := (ub table N N (after table map_apply map_static_false map_match no_foreign (fun _ => []) N N sh count n args ms)).
Notation left_over sh count args ms n := (todo table N N (after table map_apply map_static_false map_match no_foreign (fun _ => []) N N sh count n args ms)).
Notation tables sh count args ms n := (stores table N N (after table map_apply map_static_false map_match no_foreign (fun _ => []) N N sh count n args ms)).
Definition at_ (k : N) : path := mk_path 0 [k].
Definition update_to (k v : N) : msg := make_downstream_update 0%N (PPath (at_ k)) None (Entity v) None.

(* a producer that answers, which is given its argument by name, and two consumers, of which one has a type for a name and
   no argument *)
Definition answering : kind N N :=
  {| producer := true; consumer := false; state_consumer := false;
     construct := fun a => (match a with Some x => x | None => 0%N end, Ret); init_producer := Ret; init_consumer := Ret;
     on_up := fun m => Get (fun a => match path_of m with Some p => Push (make_downstream_update 0%N (PPath p) None (Entity a) None) Ret | None => Ret end);
     on_down := fun _ => Ret; on_notify := fun _ => Ret; destruct_ := Ret |}.
Definition three : shape N N :=
  {| actor := fun i => match i with O => answering | 1 => silent false true true | _ => silent false true false end;
     producer_of := fun _ => 0; listeners_of := fun _ => [] |}.
Definition three_def : context_def :=
  {| a_producer := Some {| its_type := 5%N; its_name := Some 1%N |}; some_producers := None; a_consumer := None;
     some_consumers := Some [{| its_type := 6%N; its_name := Some 2%N |}; {| its_type := 7%N; its_name := None |}] |}.
Example C96_names_ex : actor_names three_def = Some [Named 1%N; Named 2%N; Typed 7%N].
Proof. reflexivity. Qed.
Example C96_order_ex :
  let args := arguments [Named 1%N; Named 2%N; Typed 7%N] [(Named 2%N, 20%N); (Named 1%N, 10%N)] in
  let question := make_upstream_read 0%N (PPath (at_ 3)) None in
  trace three 3 args [question] 100 =
    [Constructed 0 (Some 10%N); Constructed 1 (Some 20%N); Constructed 2 None; StoresMade; InitedProducer 0;
     InitedConsumer 1; InitedConsumer 2; StoresDropped; Destructed 2; Destructed 1; Destructed 0] /\
  trace three 3 args [make_upstream_update 0%N (PPath (at_ 3)) None (Entity 1)] 100 =
    [Constructed 0 (Some 10%N); Constructed 1 (Some 20%N); Constructed 2 None; StoresMade; InitedProducer 0;
     InitedConsumer 1; InitedConsumer 2; GotUp 0 (make_upstream_update 0%N (PPath (at_ 3)) None (Entity 1));
     Accepted (update_to 3 10); Notified 1 (at_ 3); GotDown 1 (update_to 3 10); GotDown 2 (update_to 3 10);
     StoresDropped; Destructed 2; Destructed 1; Destructed 0] /\
  left_over three 3 args [question] 100 = [] /\ broken three 3 args [question] 100 = false.
Proof. vm_compute. auto. Qed.

(* An argument whose name no actor has is not found to be wrong; the check is switched off (make_context.hpp:41-46) *)
Theorem C96_unknown_refuted : ~ forall sh names (params : list (name * N)) ms n nm x, NoDup (map fst params) ->
  left_over sh (length names) (arguments names params) ms n = [] -> broken sh (length names) (arguments names params) ms n = false ->
  In (nm, x) params -> exists i, In (Constructed i (Some x)) (trace sh (length names) (arguments names params) ms n).
Proof.
  intros H. destruct (H three [Named 1%N; Named 2%N; Typed 7%N] [(Named 1%N, 10%N); (Named 3%N, 30%N)] [] 100 (Named 3%N) 30%N) as (i & I).
  - cbn. constructor; [intros [Q|[]]; discriminate|constructor; [intros []|constructor]].
  - vm_compute. reflexivity.
  - vm_compute. reflexivity.
  - right. left. reflexivity.
  - vm_compute in I. repeat (destruct I as [I|I]; [discriminate|]). destruct I.
Qed.
Print Assumptions C96_unknown_refuted.

(* A Consumer beside Consumers is no actor (enumerate_consumers.hpp:40-54); a Producer beside Producers is rejected *)
Theorem C96_consumers_refuted : ~ forall d names a, actor_names d = Some names -> a_consumer d = Some a -> In (name_of a) names.
Proof.
  intros H. specialize (H {| a_producer := None; some_producers := Some []; a_consumer := Some {| its_type := 1%N; its_name := None |}; some_consumers := Some [] |} [] _ eq_refl eq_refl).
  destruct H.
Qed.
Print Assumptions C96_consumers_refuted.

(* the renderer matches the paths of its spec inside of its constructor (renderer.hpp:103-112): the stores are not there *)
Definition renderer_like (p : path) : kind N N :=
  {| producer := false; consumer := false; state_consumer := true; construct := fun a => (0%N, Look p (fun _ => Ret));
     init_producer := Ret; init_consumer := Ret; on_up := fun _ => Ret; on_down := fun _ => Ret;
     on_notify := fun _ => Look p (fun _ => Ret); destruct_ := Ret |}.
Definition with_renderer : shape N N :=
  {| actor := fun i => match i with O => silent true false false | _ => renderer_like (at_ 1) end;
     producer_of := fun _ => 0; listeners_of := fun _ => [] |}.
Theorem C97_constructor_refuted : ~ forall sh count args ms n, length args = count -> (forall t, producer_of N N sh t < count) ->
  broken sh count args ms n = false.
Proof. intros H. assert (Q : broken with_renderer 2 [None; Some 1%N] [] 100 = false) by (apply H; [reflexivity|intros t; cbn; lia]). vm_compute in Q. discriminate. Qed.
Print Assumptions C97_constructor_refuted.
(* and so for every actor which does, whatever the others are: *)
Example C97_exact_ex : ~ forall n, broken with_renderer 2 [None; Some 1%N] [] n = false.
Proof. intros H. assert (Q := H 100). vm_compute in Q. discriminate. Qed.
Example C97_exact_ex2 : forall ms n, broken three 3 [None; None; None] ms n = false.
Proof.
  intros ms. apply C97_exact_partial; [reflexivity|intros t; cbn; lia| |].
  - intros [|[|i]]; exact Logic.I.
  - intros [|[|[|i]]] a E; try destruct i; cbn in E; try discriminate; injection E as <-; intros [].
Qed.
(* a destructor which applies a message only if it was told something: it depends on what happened *)
Definition told_last : kind N N :=
  {| producer := true; consumer := true; state_consumer := false; construct := fun _ => (0%N, Ret);
     init_producer := Ret; init_consumer := Ret; on_up := fun _ => Ret; on_down := fun _ => Set_ 1%N Ret; on_notify := fun _ => Ret;
     destruct_ := Get (fun a => if N.eqb a 0 then Ret else Push (update_to 1 1) Ret) |}.
Definition just_told : shape N N := {| actor := fun _ => told_last; producer_of := fun _ => 0; listeners_of := fun _ => [] |}.
Example C97_exact_ex3 : broken just_told 1 [None] [] 100 = false /\ left_over just_told 1 [None] [] 100 = [] /\
  broken just_told 1 [None] [update_to 1 1] 100 = true /\
  (forall a, ~ uses a (snd (construct N N told_last (Some a)))) /\ ~ uses 0%N (destruct_ N N told_last) /\ uses 1%N (destruct_ N N told_last).
Proof. repeat split; try (vm_compute; reflexivity); cbn; auto. Qed.
(* with quiet constructors a destructor which applies a message finds the stores destroyed: they are the later member *)
Definition parting : kind N N :=
  {| producer := true; consumer := true; state_consumer := false; construct := fun _ => (0%N, Ret);
     init_producer := Ret; init_consumer := Ret; on_up := fun _ => Ret; on_down := fun _ => Ret; on_notify := fun _ => Ret;
     destruct_ := Push (update_to 1 1) Ret |}.
Theorem C97_destructor_refuted : ~ forall sh count args ms n, length args = count -> (forall t, producer_of N N sh t < count) ->
  (forall i a, quiet (snd (construct N N (actor N N sh i) a))) -> broken sh count args ms n = false.
Proof.
  intros H. set (sh := {| actor := fun _ : nat => parting; producer_of := fun _ => 0; listeners_of := fun _ => [] |}).
  assert (Q : broken sh 1 [None] [] 100 = false) by (apply H; [reflexivity|intros t; cbn; lia|intros i a; exact Logic.I]).
  vm_compute in Q. discriminate.
Qed.
Print Assumptions C97_destructor_refuted.

(* nav_route's producer_init applies an update with the present route (nav_route.hpp:148-156), so consumers get it before
   their consumer_init *)
Definition nav_like : kind N N :=
  {| producer := true; consumer := false; state_consumer := false; construct := fun _ => (0%N, Ret);
     init_producer := Push (update_to 1 7) Ret; init_consumer := Ret; on_up := fun _ => Ret; on_down := fun _ => Ret;
     on_notify := fun _ => Ret; destruct_ := Ret |}.
Definition with_nav : shape N N :=
  {| actor := fun i => match i with O => nav_like | 1 => silent true true true | _ => silent false true true end;
     producer_of := fun _ => 0; listeners_of := fun _ => [] |}.
Theorem C98_consumers_refuted : ~ forall sh count args ms n i, length args = count ->
  (forall j a, quiet (snd (construct N N (actor N N sh j) a))) -> (forall j, quiet (init_consumer N N (actor N N sh j))) ->
  i < count -> consumer N N (actor N N sh i) = true -> only_after (InitedConsumer i) delivery (trace sh count args ms n).
Proof.
  intros H. assert (O : only_after (InitedConsumer 1) delivery (trace with_nav 3 [None; None; None] [] 100)).
  { apply H; [reflexivity| | |lia|reflexivity]; intros [|[|j]]; try intros a; exact Logic.I. }
  vm_compute in O. specialize (O [Constructed 0 None; Constructed 1 None; Constructed 2 None; StoresMade; InitedProducer 0; Accepted (update_to 1 7)] _ _ eq_refl eq_refl).
  cbn in O. repeat (destruct O as [O|O]; [discriminate|]). destruct O.
Qed.
Print Assumptions C98_consumers_refuted.
(* nor are all the producers initialised *)
Theorem C98_producers_refuted : ~ forall sh count args ms n i, length args = count ->
  (forall j a, quiet (snd (construct N N (actor N N sh j) a))) ->
  i < count -> producer N N (actor N N sh i) = true -> only_after (InitedProducer i) delivery (trace sh count args ms n).
Proof.
  intros H. assert (O : only_after (InitedProducer 1) delivery (trace with_nav 3 [None; None; None] [] 100)).
  { apply H; [reflexivity| |lia|reflexivity]; intros [|[|j]]; try intros a; exact Logic.I. }
  vm_compute in O. specialize (O [Constructed 0 None; Constructed 1 None; Constructed 2 None; StoresMade; InitedProducer 0; Accepted (update_to 1 7)] _ _ eq_refl eq_refl).
  cbn in O. repeat (destruct O as [O|O]; [discriminate|]). destruct O.
Qed.
Print Assumptions C98_producers_refuted.
Example C98_ex : exists l, trace with_nav 3 [None; None; None] [] 100 =
  [Constructed 0 None; Constructed 1 None; Constructed 2 None; StoresMade; InitedProducer 0; Accepted (update_to 1 7);
   Notified 1 (at_ 1); Notified 2 (at_ 1); GotDown 1 (update_to 1 7); GotDown 2 (update_to 1 7); InitedProducer 1;
   InitedConsumer 1; InitedConsumer 2] ++ l.
Proof. eexists. vm_compute. reflexivity. Qed.

(* a consumer which corrects what it is told, and one after it *)
Definition correcting : kind N N :=
  {| producer := true; consumer := true; state_consumer := false; construct := fun _ => (0%N, Ret);
     init_producer := Ret; init_consumer := Ret; on_up := fun _ => Ret;
     on_down := fun m => match payload_of m with Entity 100 => Push (update_to 1 50) Ret | _ => Ret end;
     on_notify := fun _ => Ret; destruct_ := Ret |}.
Definition with_correcting : shape N N :=
  {| actor := fun i => match i with O => correcting | _ => silent false true false end;
     producer_of := fun _ => 0; listeners_of := fun _ => [] |}.
Theorem C99_order_refuted : ~ forall sh count args ms n i j, left_over sh count args ms n = [] -> broken sh count args ms n = false ->
  i < count -> j < count -> consumer N N (actor N N sh i) = true -> consumer N N (actor N N sh j) = true ->
  heard i (trace sh count args ms n) = heard j (trace sh count args ms n).
Proof.
  intros H. assert (Q : heard 0 (trace with_correcting 2 [None; None] [update_to 1 100] 100) = heard 1 (trace with_correcting 2 [None; None] [update_to 1 100] 100)).
  { apply H; try reflexivity; try lia; vm_compute; reflexivity. }
  vm_compute in Q. discriminate.
Qed.
Print Assumptions C99_order_refuted.
(* the store has the corrected value, the second consumer the other one *)
Theorem C99_mirror_refuted : ~ forall sh count args ms n i st p, i < count -> consumer N N (actor N N sh i) = true ->
  (forall m, ~ In (ToConsumer i m) (left_over sh count args ms n)) -> tables sh count args ms n = Some st ->
  has p (st (ptype p)) = known p (heard i (trace sh count args ms n)).
Proof.
  intros H.
  assert (Q : exists st, tables with_correcting 2 [None; None] [update_to 1 100] 21 = Some st /\ has (at_ 1) (st 0) = Some (Entity 50)).
  { eexists. split; [vm_compute; reflexivity|]. vm_compute. reflexivity. }
  destruct Q as (st & E & V). specialize (H with_correcting 2 [None; None] [update_to 1 100] 21 1 st (at_ 1)).
  assert (L : 1 < 2) by lia. specialize (H L eq_refl).
  change (has (at_ 1) (st (ptype (at_ 1))) = Some (Entity 50)) in V. rewrite H in V; [vm_compute in V; discriminate| |exact E].
  intros m I. vm_compute in I. repeat (destruct I as [I|I]; [discriminate|]). destruct I.
Qed.
Print Assumptions C99_mirror_refuted.
Example C99_ex : heard 1 (trace with_correcting 2 [None; None] [update_to 1 100] 100) = [update_to 1 50; update_to 1 100] /\
  accepted (trace with_correcting 2 [None; None] [update_to 1 100] 100) = [update_to 1 100; update_to 1 50].
Proof. vm_compute. auto. Qed.
(* two consumers which only listen, and a read that the context answers itself *)
Example C99_mirror_ex : let ms := [update_to 1 100; make_upstream_read 0%N (PPath (at_ 1)) None; update_to 1 8; make_downstream_delete 0%N (PPath (at_ 2)) None None; update_to 2 9] in
  heard 1 (trace three 3 [None; None; None] ms 100) =
    [update_to 1 100; make_downstream_read 0%N (PPath (at_ 1)) None (Entity 100); update_to 1 8; make_downstream_delete 0%N (PPath (at_ 2)) None None; update_to 2 9] /\
  heard 2 (trace three 3 [None; None; None] ms 100) = heard 1 (trace three 3 [None; None; None] ms 100) /\
  known (at_ 1) (heard 1 (trace three 3 [None; None; None] ms 100)) = Some (Entity 8).
Proof. vm_compute. auto. Qed.
