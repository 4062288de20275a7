(* Proofs for C89. *)
From Verif Require Import Base JsonModel JsonSpec JsonProofs JsonProps AppModel FrameModel FrameSpec FrameProofs PipModel PipSpec.
Open Scope N_scope.

Section P.
Context (alts : list shape) (term : nat) (fails : value -> bool) (integral_of : N -> option Z) (double_of : Z -> N)
  (parse : bytes -> option json) (print : json -> bytes).
Notation receive := (receive alts term fails integral_of double_of parse).
Notation text_of := (text_of alts print).
Notation step := (PipModel.step alts term fails integral_of double_of parse print).
Notation exec := (PipModel.exec alts term fails integral_of double_of parse print).
Notation Means := (Means alts integral_of double_of parse).
Notation Handles := (Handles alts term fails integral_of double_of parse).

Definition quietly (ts : list bytes) : Prop := Forall (fun t => snd (receive t) = []) ts.
Definition calls (ts : list bytes) : list value := flat_map (fun t => fst (receive t)) ts.

Definition K (w : world) : Prop :=
  acted w = calls (delivered (wire w)) /\
  ((quietly (delivered (wire w)) /\ (settled w = [] /\ failed (wire w) = false \/ settled w = [BadSocket] /\ failed (wire w) = true)) \/
   (failed (wire w) = false /\ exists ts t, delivered (wire w) = ts ++ [t] /\ quietly ts /\ snd (receive t) = settled w /\ settled w <> [])).

Lemma K_same w s : delivered s = delivered (wire w) -> failed s = failed (wire w) -> K w -> K {| wire := s; acted := acted w; settled := settled w |}.
Proof. intros D F (A & B). unfold K. cbn. rewrite D, F. auto. Qed.

Lemma frame_kept s l s' : FrameModel.step s l = Some s' -> l <> ReadDone -> l <> ReadEof -> delivered s' = delivered s /\ failed s' = failed s.
Proof.
  destruct l; cbn; intros E N1 N2; try congruence;
  repeat match type of E with context [match ?x with _ => _ end] => destruct x; try discriminate end; injection E as <-; auto.
Qed.

Lemma read_done s s' : FrameModel.step s ReadDone = Some s' ->
  failed s' = failed s /\ match rphase s with ReadLength => delivered s' = delivered s | ReadBody _ => delivered s' = delivered s ++ [rbuf s] end.
Proof.
  cbn. destruct (_ && _); [|discriminate]. destruct (rphase s); intros E; injection E as <-; auto.
Qed.

Lemma K_step w e w' : K w -> step w e = Some w' -> K w'.
Proof.
  intros HK. destruct e as [i v|t|l]; cbn [PipModel.step].
  - destruct (text_of i v) as [t|]; [|discriminate]. destruct (FrameModel.step (wire w) (Send t)) as [s|] eqn:E; [|discriminate].
    intros X. injection X as <-. destruct (frame_kept _ _ _ E ltac:(discriminate) ltac:(discriminate)). now apply K_same.
  - destruct (FrameModel.step (wire w) (Send t)) as [s|] eqn:E; [|discriminate].
    intros X. injection X as <-. destruct (frame_kept _ _ _ E ltac:(discriminate) ltac:(discriminate)). now apply K_same.
  - assert (G : forall l, l <> ReadDone -> l <> ReadEof -> option_map (fun s => {| wire := s; acted := acted w; settled := settled w |}) (FrameModel.step (wire w) l) = Some w' -> K w').
    { intros l0 N1 N2. destruct (FrameModel.step (wire w) l0) as [s|] eqn:E; [|discriminate]. intros X. injection X as <-.
      destruct (frame_kept _ _ _ E N1 N2). now apply K_same. }
    destruct l; try discriminate; try (apply G; discriminate); destruct (settled w) as [|x r] eqn:Es; try discriminate.
    + apply G; discriminate.
    + destruct (FrameModel.step (wire w) ReadDone) as [s|] eqn:E; [|discriminate]. intros X. injection X as <-.
      destruct (read_done _ _ E) as [F D]. destruct HK as (A & B). unfold arrived.
      assert (B' : quietly (delivered (wire w)) /\ failed (wire w) = false).
      { destruct B as [(Q & [(_ & B)|(B & _)])|(_ & ts & t & _ & _ & _ & B)]; auto; congruence. }
      destruct B' as [Q F0]. destruct (rphase (wire w)) as [|n].
      * unfold K. cbn. rewrite D, F, Es. rewrite Es in B. auto.
      * rewrite D, rev_app_distr. cbn [rev app]. destruct (receive (rbuf (wire w))) as [a r] eqn:R. unfold K. cbn [acted settled wire].
        split; [rewrite D; unfold calls; rewrite flat_map_app; cbn [flat_map]; fold (calls (delivered (wire w)));
                rewrite <- A, app_nil_r; change (PipModel.receive _ _ _ _ _ _ (rbuf (wire w))) with (receive (rbuf (wire w))); now rewrite R|].
        rewrite Es, F, D, F0. cbn [app]. destruct r as [|x r].
        -- left. split; [|auto]. apply Forall_app. split; auto. constructor; auto. now rewrite R.
        -- right. split; auto. exists (delivered (wire w)), (rbuf (wire w)). rewrite R. repeat split; auto. discriminate.
    + destruct (FrameModel.step (wire w) ReadEof) as [s|] eqn:E; [|discriminate]. intros X. injection X as <-.
      destruct HK as (A & B).
      assert (D : delivered s = delivered (wire w) /\ failed s = true).
      { cbn in E. destruct (net (wire w)); [|discriminate]. destruct (_ && _); [|discriminate]. injection E as <-. auto. }
      destruct D as [D F]. unfold K. cbn. rewrite D, F. split; auto. left. split; auto.
      destruct B as [(Q & _)|(_ & ts & t & _ & _ & _ & B)]; auto. congruence.
Qed.
Lemma K_exec es : forall w w', K w -> exec w es = Some w' -> K w'.
Proof.
  induction es as [|e es IH]; intros w w' HK; cbn [PipModel.exec]; [intros E; now injection E as <-|].
  destruct (step w e) as [w1|] eqn:E1; [|discriminate]. apply IH. eapply K_step; eauto.
Qed.
Lemma K_start : K start.
Proof. split; [reflexivity|]. left. split; [constructor|]. auto. Qed.

(* the connection underneath *)
Lemma frame_step w e w' : step w e = Some w' -> exists l, FrameModel.step (wire w) l = Some (wire w') /\
  l = match e with Say i v => match text_of i v with Some t => Send t | None => l end | Raw t => Send t | Net l => l end.
Proof.
  assert (G : forall o (f : state -> world), (forall s, wire (f s) = s) -> option_map f o = Some w' -> o = Some (wire w')).
  { intros o f Hf. destruct o; cbn; [|discriminate]. intros X. injection X as <-. now rewrite Hf. }
  assert (Ha : forall s, wire (arrived alts term fails integral_of double_of parse w s) = s).
  { intros s. unfold arrived. destruct (rphase _); auto. destruct (rev _); auto. now destruct (receive _). }
  destruct e as [i v|t|l]; cbn [PipModel.step].
  - destruct (text_of i v) as [t|]; [|discriminate]. intros X. apply G in X; eauto.
  - intros X. apply G in X; eauto.
  - destruct l; try discriminate; try (intros X; apply G in X; eauto; fail); destruct (settled w); try discriminate; intros X; apply G in X; eauto.
Qed.
Lemma frame_exec es : forall w w', exec w es = Some w' -> exists ls, FrameModel.exec (wire w) ls = Some (wire w').
Proof.
  induction es as [|e es IH]; intros w w'; cbn [PipModel.exec]; [intros E; injection E as <-; now exists []|].
  destruct (step w e) as [w1|] eqn:E1; [|discriminate]. intros E. destruct (IH _ _ E) as (ls & H).
  destruct (frame_step _ _ _ E1) as (l & Hl & _). exists (l :: ls). cbn. now rewrite Hl.
Qed.
Lemma wire_reaches es w : exec start es = Some w -> reaches (wire w).
Proof. intros E. exact (frame_exec _ _ _ E). Qed.

(* after the promise is settled *)
Lemma settled_step w e w' : settled w <> [] -> step w e = Some w' ->
  settled w' = settled w /\ acted w' = acted w /\ delivered (wire w') = delivered (wire w).
Proof.
  intros H. assert (G : forall l, l <> ReadDone -> l <> ReadEof -> option_map (fun s => {| wire := s; acted := acted w; settled := settled w |}) (FrameModel.step (wire w) l) = Some w' ->
    settled w' = settled w /\ acted w' = acted w /\ delivered (wire w') = delivered (wire w)).
  { intros l0 N1 N2. destruct (FrameModel.step (wire w) l0) as [s|] eqn:E; [|discriminate]. intros X. injection X as <-.
    destruct (frame_kept _ _ _ E N1 N2). auto. }
  destruct e as [i v|t|l]; cbn [PipModel.step].
  - destruct (text_of i v) as [t|]; [|discriminate]. apply G; discriminate.
  - apply G; discriminate.
  - destruct l; try discriminate; try (apply G; discriminate); destruct (settled w); try discriminate; congruence.
Qed.
Lemma settled_exec es : forall w w', settled w <> [] -> exec w es = Some w' ->
  settled w' = settled w /\ acted w' = acted w /\ delivered (wire w') = delivered (wire w).
Proof.
  induction es as [|e es IH]; intros w w' H; cbn [PipModel.exec]; [intros E; injection E as <-; auto|].
  destruct (step w e) as [w1|] eqn:E1; [|discriminate]. intros E. destruct (settled_step _ _ _ H E1) as (A & B & C).
  destruct (IH w1 w' ltac:(congruence) E) as (A' & B' & C'). repeat split; congruence.
Qed.
Lemma receive_once t : (length (snd (receive t)) <= 1)%nat.
Proof.
  unfold PipModel.receive. destruct (from_string _ _ _ _ _ _) as [[[]|]|]; cbn; auto.
  destruct type_id; cbn; auto. destruct (fails _); cbn; auto. destruct (Nat.eqb _ _); cbn; auto.
Qed.

(* what a text means *)
Lemma receive_means t : Forall proper alts -> (forall j, parse t = Some j -> doc_ok j) ->
  match snd (receive t) with [] => (exists v, Means t (VVar 0 v) /\ fst (receive t) = []) \/
                                   exists i v, Means t (VVar (S i) v) /\ fails (VVar (S i) v) = false /\ i <> term /\ fst (receive t) = [VVar (S i) v]
  | _ => Handles [t] (fst (receive t)) (snd (receive t)) end.
Proof.
  intros Hp Hd. unfold PipModel.receive, from_string.
  assert (B : parse t = None -> Handles [t] [] [BadText]).
  { intros E. apply H_bad. intros v (j & Ej & _). congruence. }
  destruct (parse t) as [j|] eqn:E; [|now apply B].
  assert (P : proper (message alts)).
  { unfold message. cbn [proper]. split; [discriminate|]. split; [exact I|]. clear -Hp. induction Hp; [exact I|]. split; auto. }
  pose proof (C44_read_partial integral_of double_of (message alts) j (default (message alts)) P (Hd j eq_refl)) as T.
  assert (Hs : has_shape (message alts) (default (message alts))) by exact I. specialize (T Hs).
  destruct (read integral_of double_of (message alts) j (default (message alts))) as [[v|]|]; [| |contradiction].
  2: { cbn [fst snd]. apply H_bad. intros v (j' & Ej & R). assert (j' = j) by congruence. subst j'. exact (T v R). }
  destruct T as [R Sh]. assert (M : Means t v) by (exists j; auto).
  destruct v as [| | | | | | |i v]; try (exfalso; exact Sh).
  destruct i as [|i]; [left; eauto|]. destruct (fails (VVar (S i) v)) eqn:F.
  - cbn [fst snd]. now apply H_fails.
  - destruct (Nat.eqb_spec i term) as [->|N]; cbn [fst snd]; [now apply H_terminate|]. right. exists i, v. auto.
Qed.

Lemma handles_quiet ts : Forall proper alts -> (forall t j, In t ts -> parse t = Some j -> doc_ok j) -> quietly ts ->
  forall us a r, Handles us a r -> Handles (ts ++ us) (calls ts ++ a) r.
Proof.
  intros Hp. induction ts as [|t ts IH]; intros Hd Q us a r H; [exact H|]. inversion Q as [|? ? Q1 Q2]. subst.
  assert (T := receive_means t Hp (fun j => Hd t j (or_introl eq_refl))). rewrite Q1 in T.
  assert (IH' := IH (fun t' j Hi => Hd t' j (or_intror Hi)) Q2 us a r H). cbn [app calls flat_map]. fold (calls ts).
  destruct T as [(v & M & ->)|(i & v & M & F & N & ->)].
  - cbn [app]. eapply H_unresolved; eauto.
  - cbn [app]. now apply H_message.
Qed.

(* ---- messages that were written by the other side ---- *)
Hypothesis parse_print : forall j, parse (print j) = Some j.

Lemma receive_said i v t : writable (message alts) (VVar (S i) v) -> text_of i v = Some t -> fails (VVar (S i) v) = false ->
  receive t = ([VVar (S i) v], if Nat.eqb i term then [Done (VVar (S i) v)] else []).
Proof.
  intros W E F. unfold PipModel.text_of in E. destruct (C43_round_trip_partial integral_of double_of _ _ W) as (j & Ej & Er).
  rewrite Ej in E. injection E as <-. unfold PipModel.receive, from_string. now rewrite parse_print, Er, F.
Qed.

Definition sound (ms : list (nat * value)) : Prop :=
  Forall (fun m => writable (message alts) (alternative_of m) /\ fails (alternative_of m) = false) ms.

Lemma said_written es : forall w w', polite es -> exec w es = Some w' ->
  exists ts, written (wire w') = written (wire w) ++ ts /\ Forall2 (fun m t => text_of (fst m) (snd m) = Some t) (said es) ts.
Proof.
  induction es as [|e es IH]; intros w w' Pl; cbn [PipModel.exec]; [intros E; injection E as <-; exists []; rewrite app_nil_r; split; constructor|].
  destruct (step w e) as [w1|] eqn:E1; [|discriminate]. intros E.
  destruct (IH w1 w' (fun t Hi => Pl t (or_intror Hi)) E) as (ts & Hw & Hf).
  destruct (frame_step _ _ _ E1) as (l & Hl & El). destruct e as [i v|t|l0].
  - cbn [PipModel.step] in E1. destruct (text_of i v) as [t|] eqn:Et; [|discriminate]. subst l. cbn in Hl.
    destruct (wbuf (wire w)); [discriminate|]. injection Hl as Hl. exists (t :: ts). rewrite Hw, <- Hl. cbn. rewrite <- app_assoc. split; [reflexivity|constructor; auto].
  - exfalso. apply (Pl t). now left.
  - subst l. exists ts. rewrite Hw. split; auto. f_equal. assert (N : forall m, l0 <> Send m) by (intros m ->; discriminate).
    clear -Hl N. destruct l0; cbn in Hl; try (exfalso; eapply N; reflexivity);
    repeat match type of Hl with context [match ?x with _ => _ end] => destruct x; try discriminate end; injection Hl as Hl; rewrite <- Hl; auto.
Qed.

(* delivered texts are those of the first messages *)
Lemma firsts ms ts ds r : Forall2 (fun m t => text_of (fst m) (snd m) = Some t) ms ts -> ts = ds ++ r -> sound ms ->
  exists ms1 ms2, ms = ms1 ++ ms2 /\ length ms1 = length ds /\
    Forall2 (fun m t => receive t = ([alternative_of m], if Nat.eqb (fst m) term then [Done (alternative_of m)] else [])) ms1 ds.
Proof.
  intros F. revert ds. induction F as [|[i v] t ms ts H F IH]; intros ds E S.
  - destruct ds; [|discriminate]. exists [], []. repeat split; constructor.
  - destruct ds as [|d ds]; [exists [], ((i, v) :: ms); repeat split; constructor|]. cbn in E. injection E as <- E.
    inversion S as [|? ? [S1 S2] S3]. subst x l. destruct (IH ds E S3) as (ms1 & ms2 & -> & L & G).
    exists ((i, v) :: ms1), ms2. cbn. rewrite L. repeat split. constructor; auto. now apply receive_said.
Qed.

Lemma calls_said ms ds : Forall2 (fun m t => receive t = ([alternative_of m], if Nat.eqb (fst m) term then [Done (alternative_of m)] else [])) ms ds ->
  calls ds = map alternative_of ms.
Proof. induction 1 as [|m t ms ds H F IH]; cbn; auto. fold (calls ds). now rewrite H, IH. Qed.
Lemma quiet_said ms ds : Forall2 (fun m t => receive t = ([alternative_of m], if Nat.eqb (fst m) term then [Done (alternative_of m)] else [])) ms ds ->
  quietly ds -> ~ is_last term ms.
Proof.
  induction 1 as [|m t ms ds H F IH]; intros Q (v & Hi); [destruct Hi|]. inversion Q as [|? ? Q1 Q2]. subst. rewrite H in Q1. cbn in Q1.
  destruct Hi as [->|Hi]; [cbn in Q1; rewrite Nat.eqb_refl in Q1; discriminate|]. apply IH; auto. now exists v.
Qed.
Lemma until_app a b : ~ is_last term a -> until term (a ++ b) = a ++ until term b.
Proof.
  induction a as [|[i v] a IH]; intros N; [reflexivity|]. cbn. destruct (Nat.eqb_spec i term) as [->|Ne].
  - exfalso. apply N. exists v. now left.
  - rewrite IH; auto. intros (x & Hx). apply N. exists x. now right.
Qed.

Lemma said_state es w : polite es -> exec start es = Some w -> sound (said es) -> Forall small (written (wire w)) ->
  exists ms1 ms2, said es = ms1 ++ ms2 /\ acted w = map alternative_of ms1 /\ length ms1 = length (delivered (wire w)) /\
   ((~ is_last term ms1 /\ (settled w = [] /\ failed (wire w) = false \/ settled w = [BadSocket] /\ failed (wire w) = true)) \/
    exists ms v, ms1 = ms ++ [(term, v)] /\ ~ is_last term ms /\ settled w = [Done (VVar (S term) v)] /\ failed (wire w) = false).
Proof.
  intros Pl E S Sm. destruct (said_written _ _ _ Pl E) as (ts & Hw & Hf). cbn in Hw.
  destruct (inv_reaches _ (wire_reaches _ _ E) Sm) as [_ (part & X & _ & Ed & _)]. rewrite Hw in Ed.
  destruct (firsts _ _ _ _ Hf Ed S) as (ms1 & ms2 & -> & L & G). exists ms1, ms2.
  destruct (K_exec _ _ _ K_start E) as (A & B). split; auto. split; [rewrite A; now apply calls_said|]. split; auto.
  destruct B as [(Q & B)|(F & ds & t & D & Q & R & N)]; [left; split; auto; eapply quiet_said; eauto|]. right.
  rewrite D in G. apply Forall2_app_inv_r in G as (m1 & m2 & G1 & G2 & ->). inversion G2 as [|m t' m2' l' H Hn]. subst.
  inversion Hn. subst. rewrite H in R. cbn in R. destruct m as [i v]. cbn in R, H. destruct (Nat.eqb_spec i term) as [->|Ne]; [|congruence].
  exists m1, v. repeat split; auto. eapply quiet_said; eauto.
Qed.
End P.
