(* The program of the example: its connection is one of C89. *)
From Verif Require Import Base JsonModel JsonSpec JsonProofs AppModel FrameModel FrameSpec FrameProofs PipModel PipSpec PipProofs PipProps ExmModel ExmSpec.
Open Scope N_scope.

Local Arguments ExmModel.close : simpl never.
Section Proofs.
Context (alts : list shape) (term : nat) (fails : value -> bool) (integral_of : N -> option Z) (double_of : Z -> N)
  (parse : bytes -> option json) (print : json -> bytes) (limit : Z) (messages : list (nat * value)).
Notation pip := (PipModel.step alts term fails integral_of double_of parse print).
Notation pips := (PipModel.exec alts term fails integral_of double_of parse print).
Notation step := (ExmModel.step alts term fails integral_of double_of parse print limit messages).
Notation exec := (ExmModel.exec alts term fails integral_of double_of parse print limit messages).
Notation close := (ExmModel.close alts term fails integral_of double_of parse print).
Notation next := (ExmModel.next alts term fails integral_of double_of parse print).
Notation after_read := (ExmModel.after_read alts term fails integral_of double_of parse print).
Notation text := (text_of alts print).

Lemma pips_app a : forall w b, pips w (a ++ b) = match pips w a with Some w' => pips w' b | None => None end.
Proof. induction a as [|e a IH]; intros w b; [reflexivity|]. cbn. destruct (pip w e); auto. Qed.
Lemma pips_one es e w w' w0 : pips w0 es = Some w -> pip w e = Some w' -> pips w0 (es ++ [e]) = Some w'.
Proof. intros E E'. rewrite pips_app, E. cbn. now rewrite E'. Qed.

Lemma said_app a b : said (a ++ b) = said a ++ said b.
Proof. unfold said. apply flat_map_app. Qed.
Lemma polite_app a e : polite a -> (forall t, e <> Raw t) -> polite (a ++ [e]).
Proof. intros H N t I. apply in_app_or in I as [I|[I|[]]]; [exact (H t I)|exact (N t I)]. Qed.

Definition client_at (es : list PipModel.event) (c : client) (s : state) : Prop :=
  match c with
  | Connecting _ | Left TooManyAttempts => said es = [] /\ wbuf s = None
  | Sending r => said es ++ r = messages /\ exists b, wbuf s = Some b
  | Left AllSent => said es = messages /\ wbuf s = None
  | Left WriteError => (exists r, said es ++ r = messages) /\ closed s = true /\ exists x b, wbuf s = Some (x :: b)
  | Left NoText => exists i v r, said es ++ (i, v) :: r = messages /\ text i v = None
  end.
Lemma client_same es es' c s s' : said es' = said es -> wbuf s' = wbuf s -> (closed s = true -> closed s' = true) -> client_at es c s -> client_at es' c s'.
Proof.
  intros A B D C. destruct c as [f|r|[]]; cbn in *; rewrite A, ?B; auto.
  destruct C as (X & Y & Z). auto.
Qed.
Definition server_at (x : server) (c : client) (w : world) : Prop :=
  match x with
  | Accepting => settled w = []
  | Receiving => settled w = [] /\ connected c = true
  | Served AcceptError => settled w = [] /\ closed (wire w) = true
  | Served (Settled r) => settled w = [r] /\ closed (wire w) = true
  end.
Record Sim (p : prog) (es : list PipModel.event) : Prop := {
  s_polite : polite es;
  s_exec : pips start es = Some (conn p);
  s_client : client_at es (cli p) (wire (conn p));
  s_server : server_at (srv p) (cli p) (conn p) }.

Lemma sim_begin : Sim begin [].
Proof. split; cbn; auto. intros t []. Qed.

Lemma close_eq w : pip w (Net Close) = Some (close w) /\ closed (wire (close w)) = true /\ settled (close w) = settled w /\ acted (close w) = acted w /\
  wbuf (wire (close w)) = wbuf (wire w).
Proof. unfold ExmModel.close. cbn. auto. Qed.

Lemma next_sim es w r : pips start es = Some w -> polite es -> said es ++ r = messages -> wbuf (wire w) = None ->
  exists es', pips start es' = Some (snd (next r w)) /\ polite es' /\ client_at es' (fst (next r w)) (wire (snd (next r w))) /\ connected (fst (next r w)) = true /\
    settled (snd (next r w)) = settled w /\ closed (wire (snd (next r w))) = closed (wire w).
Proof.
  intros E Pl S W. destruct r as [|[i v] r]; cbn [ExmModel.next].
  - exists es. cbn. rewrite app_nil_r in S. auto 10.
  - destruct (pip w (Say i v)) as [w'|] eqn:Ei.
    + exists (es ++ [Say i v]). cbn [fst snd]. split; [eapply pips_one; eauto|]. split; [apply polite_app; [exact Pl|discriminate]|].
      cbn [PipModel.step] in Ei. destruct (text i v) as [t|]; [|discriminate Ei]. cbn [FrameModel.step] in Ei. rewrite W in Ei. injection Ei as <-.
      cbn. split; [|auto]. split; [|eauto]. rewrite said_app, <- app_assoc. exact S.
    + exists es. cbn [fst snd client_at]. split; [exact E|]. split; [exact Pl|]. split; [|auto]. exists i, v, r. split; [exact S|].
      cbn [PipModel.step] in Ei. destruct (text i v) as [t|]; [|reflexivity]. cbn [FrameModel.step] in Ei. rewrite W in Ei. discriminate Ei.
Qed.

(* an event that the server waits for *)
Lemma read_sim p es l p' : Sim p es -> (forall m, l <> Send m) -> l <> Close -> l <> WriteDone -> (forall k, l <> Push k) ->
  reads alts term fails integral_of double_of parse print p l = Some p' -> exists es', Sim p' es'.
Proof.
  intros [Pl E C S] N1 N2 N3 N4 H. unfold reads in H. destruct (srv p) eqn:Es; try discriminate H. cbn in S. destruct S as [S Cn].
  destruct (pip (conn p) (Net l)) as [w|] eqn:Ew; [|discriminate H].
  assert (K : wbuf (wire w) = wbuf (wire (conn p)) /\ closed (wire w) = closed (wire (conn p)) /\ (length (settled w) <= 1)%nat).
  { assert (L : (length (settled w) <= 1)%nat) by exact (proj1 (C89_once alts term fails integral_of double_of parse print (es ++ [Net l]) w (pips_one _ _ _ _ _ E Ew))).
    destruct (frame_step _ _ _ _ _ _ _ _ _ _ Ew) as (l' & F & El). subst l'.
    destruct l; try (exfalso; eapply N1; reflexivity); try (exfalso; eapply N4; reflexivity); try contradiction; cbn [FrameModel.step] in F.
    - destruct (_ && _ && _ && _) in F; [|discriminate F]. injection F as F. rewrite <- F. auto.
    - destruct (_ && _) in F; [|discriminate F]. destruct (rphase (wire (conn p))); injection F as F; rewrite <- F; auto.
    - destruct (net (wire (conn p))); [|discriminate F]. destruct (_ && _ && _) in F; [|discriminate F]. injection F as F. rewrite <- F. auto. }
  destruct K as (K1 & K2 & K3). pose proof (pips_one _ _ _ _ _ E Ew) as E'. assert (Pl' : polite (es ++ [Net l])) by (apply polite_app; [exact Pl|discriminate]).
  assert (C' : client_at (es ++ [Net l]) (cli p) (wire w)).
  { apply (client_same es _ _ (wire (conn p))); auto; [rewrite said_app; apply app_nil_r|congruence]. }
  unfold ExmModel.after_read in H. destruct (settled w) as [|x xs] eqn:Ex.
  - injection H as <-. exists (es ++ [Net l]). split; auto. cbn. auto.
  - injection H as <-. destruct (close_eq w) as (A1 & A2 & A3 & A4 & A5). exists ((es ++ [Net l]) ++ [Net Close]). split; cbn [srv cli conn].
    + apply polite_app; [exact Pl'|discriminate].
    + eapply pips_one; eauto.
    + apply (client_same (es ++ [Net l]) _ _ (wire w)); auto. rewrite said_app. apply app_nil_r.
    + cbn. rewrite A3, Ex. destruct xs; [auto|cbn in K3; lia].
Qed.

Lemma sim_step p es e p' : Sim p es -> step p e = Some p' -> exists es', Sim p' es'.
Proof.
  intros HS H. pose proof HS as [Pl E C S]. destruct e as [[]|[]|k| | |k| | |]; cbn [ExmModel.step] in H.
  - destruct (cli p) as [f|r|x] eqn:Ec; try discriminate H. destruct (srv p) eqn:Es; try discriminate H. destruct (next messages (conn p)) as [c w] eqn:En. injection H as <-.
    cbn in C, S. destruct C as [C1 C2]. destruct (next_sim es (conn p) messages E Pl ltac:(now rewrite C1) C2) as (es' & A1 & A2 & A3 & A4 & A5 & A6). rewrite En in *. cbn [fst snd] in *.
    exists es'. split; auto. cbn. congruence.
  - destruct (cli p) as [f|r|x] eqn:Ec; try discriminate H. injection H as <-. exists es. cbn in C. split; auto; cbn [srv cli conn].
    + destruct (limit <=? f)%Z; exact C.
    + destruct (srv p) as [| |[]]; cbn in *; auto. destruct S; discriminate.
  - destruct (srv p) eqn:Es; try discriminate H. destruct (connected (cli p)) eqn:Ec; [|discriminate H]. injection H as <-. exists es. split; auto. cbn in *. auto.
  - destruct (srv p) eqn:Es; try discriminate H. injection H as <-. destruct (close_eq (conn p)) as (A1 & A2 & A3 & A4 & A5). exists (es ++ [Net Close]). split; cbn [srv cli conn].
    + apply polite_app; [exact Pl|discriminate].
    + eapply pips_one; eauto.
    + apply (client_same es _ _ (wire (conn p))); auto. rewrite said_app. apply app_nil_r.
    + cbn in *. rewrite A3. auto.
  - destruct (cli p) as [f|r|x] eqn:Ec; try discriminate H. destruct (pip (conn p) (Net (Push k))) as [w|] eqn:Ew; [|discriminate H]. injection H as <-.
    exists (es ++ [Net (Push k)]). pose proof (pips_one _ _ _ _ _ E Ew) as E'. cbn [PipModel.step FrameModel.step] in Ew. cbn in C. destruct C as (C1 & b & C2). rewrite C2 in Ew.
    destruct (_ && _ && _) in Ew; [|discriminate Ew]. injection Ew as <-. split; cbn [srv cli conn].
    + apply polite_app; [exact Pl|discriminate].
    + exact E'.
    + cbn. rewrite said_app, app_nil_r. split; [exact C1|eauto].
    + destruct (srv p) as [| |[]]; cbn in *; auto.
  - destruct (cli p) as [f|r|x] eqn:Ec; try discriminate H. destruct (pip (conn p) (Net WriteDone)) as [w|] eqn:Ew; [|discriminate H].
    pose proof (pips_one _ _ _ _ _ E Ew) as E'. cbn [PipModel.step FrameModel.step] in Ew. cbn in C. destruct C as (C1 & b & C2). rewrite C2 in Ew.
    destruct b as [|]; [|discriminate Ew]. injection Ew as <-.
    destruct (next_sim (es ++ [Net WriteDone]) _ r E') as (es' & A1 & A2 & A3 & A4 & A5 & A6).
    + apply polite_app; [exact Pl|discriminate].
    + now rewrite said_app, app_nil_r.
    + reflexivity.
    + destruct (next r _) as [c w] eqn:En in *. injection H as <-. cbn [fst snd] in *. exists es'. split; auto. cbn [srv cli conn]. cbn in A5, A6.
      destruct (srv p) as [| |[]]; cbn in *; rewrite ?A5, ?A6; tauto.
  - destruct (cli p) as [f|r|x] eqn:Ec; try discriminate H. destruct (wbuf (wire (conn p))) as [[|x b]|] eqn:Eb; try discriminate H. destruct (closed (wire (conn p))) eqn:El; [|discriminate H].
    injection H as <-. exists es. split; auto; cbn [srv cli conn].
    cbn in *. destruct C as (C1 & _). split; [eauto|]. split; [exact El|eauto].
  - eapply read_sim; eauto; discriminate.
  - eapply read_sim; eauto; discriminate.
  - eapply read_sim; eauto; discriminate.
  - destruct (connected (cli p) && negb (closed (wire (conn p)))) eqn:Eb; [|discriminate H]. injection H as <-. destruct (close_eq (conn p)) as (A1 & A2 & A3 & A4 & A5).
    exists (es ++ [Net Close]). split; cbn [srv cli conn].
    + apply polite_app; [exact Pl|discriminate].
    + eapply pips_one; eauto.
    + apply (client_same es _ _ (wire (conn p))); auto. rewrite said_app. apply app_nil_r.
    + destruct (srv p) as [| |[]]; cbn in *; rewrite A3; tauto.
Qed.

Lemma sim_exec evs : forall p es p', Sim p es -> exec p evs = Some p' -> exists es', Sim p' es'.
Proof.
  induction evs as [|e evs IH]; intros p es p' HS H; cbn [ExmModel.exec] in H; [injection H as <-; eauto|].
  destruct (step p e) as [p1|] eqn:E1; [|discriminate H]. destruct (sim_step _ _ _ _ HS E1) as (es1 & HS1). eapply IH; eauto.
Qed.

(* the texts that were written are those of messages of the program *)
Lemma said_in p es m : Sim p es -> In m (said es) -> In m messages.
Proof.
  intros [Pl E C S] I. destruct (cli p) as [f|r|[]]; cbn in C.
  - destruct C as [C _]. rewrite C in I. destruct I.
  - destruct C as [<- _]. apply in_or_app. auto.
  - destruct C as [<- _]. exact I.
  - destruct C as [C _]. rewrite C in I. destruct I.
  - destruct C as [[r <-] _]. apply in_or_app. auto.
  - destruct C as (i & v & r & <- & _). apply in_or_app. auto.
Qed.
Lemma all_small p es : short text messages -> Sim p es -> Forall small (written (wire (conn p))).
Proof.
  intros Sh HS. destruct (said_written _ _ _ _ _ _ _ es _ _ (s_polite _ _ HS) (s_exec _ _ HS)) as (ts & Hw & Hf). cbn in Hw. rewrite Hw.
  assert (G : forall ms ts, (forall m, In m ms -> In m messages) -> Forall2 (fun m t => text (fst m) (snd m) = Some t) ms ts -> Forall small ts).
  { intros ms ts0 I F. induction F as [|[i v] t ms ts0 H F IH]; constructor; [|apply IH; intros m Im; apply I; now right]. apply (Sh i v); [apply I; now left|exact H]. }
  apply (G (said es)); [|exact Hf]. intros m. now apply (said_in p).
Qed.
Lemma all_carried p es : carried alts fails messages -> Sim p es -> carried alts fails (said es).
Proof. intros Hc HS. unfold carried in *. rewrite Forall_forall in *. intros m I. apply Hc. now apply (said_in p es). Qed.

(* ---- everything ends ---- *)
Definition weight (m : nat * value) : nat := match text (fst m) (snd m) with Some t => 4 * length (frame t) + 3 | None => 1 end.
Definition client_left (c : client) : nat :=
  match c with
  | Connecting f => (Z.to_nat (limit - f) + 3 + list_sum (map weight messages))%nat
  | Sending r => (1 + list_sum (map weight r))%nat
  | Left _ => 0
  end.
Definition server_left (s : server) : nat := match s with Accepting => 2 | Receiving => 1 | Served _ => 0 end.
Definition left (p : prog) : nat :=
  (client_left (cli p) + server_left (srv p) + measure (wire (conn p)) + (if closed (wire (conn p)) then 0 else 1))%nat.

Lemma close_left w : (measure (wire (close w)) = measure (wire w))%nat.
Proof. reflexivity. Qed.
Lemma next_left r w : wbuf (wire w) = None ->
  (client_left (fst (next r w)) + measure (wire (snd (next r w))) + (if closed (wire (snd (next r w))) then 0 else 1) <=
   list_sum (map weight r) + measure (wire w) + (if closed (wire w) then 0 else 1))%nat.
Proof.
  intros W. destruct r as [|[i v] r]; cbn [ExmModel.next]; [cbn; lia|]. cbn [PipModel.step]. cbn [map list_sum fold_right]. change (fold_right Nat.add 0%nat) with list_sum. assert (Hw : weight (i, v) = match text i v with Some t => (4 * length (frame t) + 3)%nat | None => 1%nat end) by reflexivity. rewrite Hw. clear Hw.
  destruct (text i v) as [t|]; [|cbn [fst snd client_left]; lia]. cbn [FrameModel.step]. rewrite W. cbn [option_map fst snd client_left].
  unfold measure. cbn [wire wbuf net rbuf rphase failed closed FrameProofs.rest]. rewrite W. cbn [FrameProofs.rest]. cbn [length]. lia.
Qed.
Lemma read_left' p l p' : l = FrameModel.ReadDone \/ l = FrameModel.ReadEof \/ (exists k, l = Pull k) -> reads alts term fails integral_of double_of parse print p l = Some p' ->
  (client_left (cli p') + server_left (srv p') + measure (wire (conn p')) + (if closed (wire (conn p')) then 0 else 1) <
   client_left (cli p) + server_left (srv p) + measure (wire (conn p)) + (if closed (wire (conn p)) then 0 else 1))%nat.
Proof.
  intros N H. unfold reads in H. destruct (srv p) eqn:Es; try discriminate H. destruct (pip (conn p) (Net l)) as [w|] eqn:Ew; [|discriminate H].
  destruct (frame_step _ _ _ _ _ _ _ _ _ _ Ew) as (l' & F & El). subst l'.
  assert (A : closed (wire w) = closed (wire (conn p))).
  { destruct N as [->|[->|(k & ->)]]; cbn [FrameModel.step] in F.
    - destruct (_ && _) in F; [|discriminate F]. destruct (rphase (wire (conn p))); injection F as F; rewrite <- F; auto.
    - destruct (net (wire (conn p))); [|discriminate F]. destruct (_ && _ && _) in F; [|discriminate F]. injection F as F. rewrite <- F. auto.
    - destruct (_ && _ && _ && _) in F; [|discriminate F]. injection F as F. rewrite <- F. auto. }
  apply measure_step in F; [|destruct N as [->|[->|(k & ->)]]; split; discriminate].
  unfold ExmModel.after_read in H. destruct (settled w) as [|x xs]; injection H as <-; cbn [srv cli conn server_left].
  - rewrite A. lia.
  - rewrite close_left. destruct (close_eq w) as (_ & B & _). rewrite B. destruct (closed (wire (conn p))); lia.
Qed.
Lemma left_step p es e p' : (0 <= limit)%Z -> Sim p es -> step p e = Some p' -> (left p' < left p)%nat.
Proof.
  intros L0 [Pl E C S] H. unfold left. destruct e as [[]|[]|k| | |k| | |]; cbn [ExmModel.step] in H.
  - destruct (cli p) as [f|r|x] eqn:Ec; try discriminate H. destruct (srv p) eqn:Es; try discriminate H. destruct (next messages (conn p)) as [c w] eqn:En. injection H as <-.
    cbn in C. pose proof (next_left messages (conn p) (proj2 C)) as N. rewrite En in N. cbn [fst snd srv cli conn client_left] in *. lia.
  - destruct (cli p) as [f|r|x] eqn:Ec; try discriminate H. injection H as <-. cbn [srv cli conn]. destruct (Z.leb_spec limit f); cbn [client_left]; lia.
  - destruct (srv p) eqn:Es; try discriminate H. destruct (connected (cli p)); [|discriminate H]. injection H as <-. cbn [srv cli conn server_left]. lia.
  - destruct (srv p) eqn:Es; try discriminate H. injection H as <-. cbn [srv cli conn server_left]. rewrite close_left. destruct (close_eq (conn p)) as (_ & A & _). rewrite A. destruct (closed _); lia.
  - destruct (cli p) as [f|r|x] eqn:Ec; try discriminate H. destruct (pip (conn p) (Net (Push k))) as [w|] eqn:Ew; [|discriminate H]. injection H as <-.
    destruct (frame_step _ _ _ _ _ _ _ _ _ _ Ew) as (l' & F & ->). assert (A : closed (wire w) = closed (wire (conn p))).
    { cbn [FrameModel.step] in F. destruct (wbuf _); [|discriminate F]. destruct (_ && _ && _) in F; [|discriminate F]. injection F as F. now rewrite <- F. }
    apply measure_step in F; [|split; discriminate]. cbn [srv cli conn]. rewrite A. lia.
  - destruct (cli p) as [f|r|x] eqn:Ec; try discriminate H. destruct (pip (conn p) (Net WriteDone)) as [w|] eqn:Ew; [|discriminate H].
    destruct (next r w) as [c w'] eqn:En. injection H as <-.
    destruct (frame_step _ _ _ _ _ _ _ _ _ _ Ew) as (l' & F & ->). assert (closed (wire w) = closed (wire (conn p)) /\ wbuf (wire w) = None) as [A B].
    { cbn [FrameModel.step] in F. destruct (wbuf _) as [[|]|]; try discriminate F. injection F as F. now rewrite <- F. }
    apply measure_step in F; [|split; discriminate]. pose proof (next_left r w B) as N. rewrite En, A in N. cbn [fst snd srv cli conn client_left] in *. lia.
  - destruct (cli p) as [f|r|x] eqn:Ec; try discriminate H. destruct (wbuf (wire (conn p))) as [[|x b]|] eqn:Eb; try discriminate H. destruct (closed (wire (conn p))) eqn:El; [|discriminate H].
    injection H as <-. cbn [srv cli conn client_left]. rewrite El. lia.
  - apply (read_left' p (Pull k) p'); eauto.
  - apply (read_left' p FrameModel.ReadDone p'); auto.
  - apply (read_left' p FrameModel.ReadEof p'); auto.
  - destruct (connected (cli p) && negb (closed (wire (conn p)))) eqn:Eb; [|discriminate H]. injection H as <-. cbn [srv cli conn]. rewrite close_left. destruct (close_eq (conn p)) as (_ & A & _). rewrite A.
    apply andb_prop in Eb as [_ Eb]. apply negb_true_iff in Eb. rewrite Eb. lia.
Qed.
End Proofs.
