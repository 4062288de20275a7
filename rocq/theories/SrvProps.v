(* What clients of the server in JavaScript see of each other (C80). *)
From Coq Require Import String.
From Verif Require Import Base JsonModel JsonSpec JsonProofs JsbModel JsbSpec JsbProofs JsbProps AppModel SrvModel SrvSpec SrvProofs.
Open Scope N_scope.

Section Props.
Variables (lenient : list N -> list N) (other_number : jsv -> Z) (like_bytes : list (list N * jsv) -> option (list N)) (parse : list N -> option jsv).
Variables (context : list msg -> msg -> list msg) (sys : shape) (ups downs : list shape).
Notation exec := (exec lenient other_number like_bytes parse context sys ups downs).
Notation meaning := (meaning lenient other_number like_bytes parse sys ups).

(* C80: while the server runs, every client gets the documents of exactly those messages that are sent downstream from when it connects until
   it is closed, in that order and each once, and the context is given exactly the messages that clients sent, in that order.  Partial: the
   server need not stay up (C80_crash), and [strict] is off *)
Theorem C80_broadcast_partial ls s : exec false ls (Run s) ->
  given s = meant meaning ls /\
  forall c, docs lenient sys downs (to c (received s)) (mine context meaning c false [] ls).
Proof.
  intros E. apply exec_fold in E. destruct (mine_ok _ _ _ _ _ _ _ _ ls init (Run s) ltac:(constructor) E ltac:(discriminate) ltac:(discriminate)) as (s' & X & G & _ & R).
  injection X as <-. split; [exact G|]. intros c. destruct (R c) as (l & A & B). cbn in A. rewrite A. exact B.
Qed.

(* C80: two clients that stay get the same *)
Definition stays (c : N) (ls : list label) : Prop := forall l, In l ls -> l <> PeerClose c /\ forall text, l = Incoming c text -> meaning text <> None.
Lemma mine_stays c g ls : stays c ls -> forall d, stays d ls -> mine context meaning c true g ls = mine context meaning d true g ls.
Proof.
  revert g. induction ls as [|l ls IH]; intros g H d H'; [reflexivity|].
  assert (IH' : forall g, mine context meaning c true g ls = mine context meaning d true g ls) by (intros g'; apply IH; intros x X; [apply H|apply H']; now right).
  destruct (H l (or_introl eq_refl)) as [H1 H2]. destruct (H' l (or_introl eq_refl)) as [H3 H4].
  destruct l as [k|k text|k|m]; cbn [mine orb].
  - apply IH'.
  - destruct (meaning text) eqn:M; [now rewrite IH'|]. destruct (N.eqb_spec k c) as [->|]; [now destruct (H2 text eq_refl)|]. destruct (N.eqb_spec k d) as [->|]; [now destruct (H4 text eq_refl)|]. apply IH'.
  - destruct (N.eqb_spec k c) as [->|]; [congruence|]. destruct (N.eqb_spec k d) as [->|]; [congruence|]. apply IH'.
  - now rewrite IH'.
Qed.
Lemma docs_same l l' ms : docs lenient sys downs l ms -> docs lenient sys downs l' ms -> l = l'.
Proof. unfold docs. revert l l'. induction ms as [|m ms IH]; intros l l' H H'; inversion H; inversion H'; subst; [reflexivity|]. f_equal; [congruence|auto]. Qed.
Lemma exec_nodup b ls s : exec b ls (Run s) -> b = false -> NoDup (connections s).
Proof. intros E ->. apply exec_fold in E. destruct (mine_ok _ _ _ _ _ _ _ _ ls init (Run s) ltac:(constructor) E ltac:(discriminate) ltac:(discriminate)) as (s' & X & _ & ND & _). injection X as <-. exact ND. Qed.

Theorem C80_same ls ls' s s' c d : exec false ls (Run s) -> exec false (ls ++ ls') (Run s') ->
  In c (connections s) -> ~ In c (over s) -> In d (connections s) -> ~ In d (over s) -> stays c ls' -> stays d ls' ->
  exists news, to c (received s') = to c (received s) ++ news /\ to d (received s') = to d (received s) ++ news.
Proof.
  intros E E' C1 C2 D1 D2 SC SD. pose proof (exec_nodup _ _ _ E eq_refl) as ND. apply exec_fold in E. apply exec_fold in E'. rewrite fold_left_app, E in E'.
  destruct (mine_ok _ _ _ _ _ _ _ _ ls' s (Run s') ND E' ltac:(discriminate) ltac:(discriminate)) as (s1 & X & _ & _ & R). injection X as <-.
  assert (I : forall x, In x (connections s) -> ~ In x (over s) -> inside x s = true).
  { intros x A B. unfold inside, is_over. apply in_existsb in A. rewrite A. destruct (existsb (N.eqb x) (over s)) eqn:F; [|reflexivity]. apply in_existsb in F. contradiction. }
  destruct (R c) as (l & A & B). destruct (R d) as (l' & A' & B'). rewrite I in B by assumption. rewrite I in B' by assumption.
  exists l. split; [exact A|]. rewrite A'. f_equal. eapply docs_same; [exact B'|]. rewrite (mine_stays d _ _ SD c SC). exact B.
Qed.

(* C80: what a client with the same binder sends is understood, and so is what it is sent *)
Theorem C80_understood i v : js_writable (message_variant sys ups) (VVar (S (S i)) v) -> proper (message_variant sys ups) ->
  exists j, bind_to lenient (message_variant sys ups) (VVar (S (S i)) v) = Ok j /\ forall text, parse text = Some j -> meaning text = Some (i, v).
Proof.
  intros W P. destruct (C74_round_trip_partial lenient other_number like_bytes _ _ (default (message_variant sys ups)) W P (default_shape _ P)) as (j & A & B).
  exists j. split; [exact A|]. intros text T. unfold SrvProofs.meaning. rewrite T. unfold decode. now rewrite B.
Qed.
Theorem C80_read_by_clients i v j : js_writable (message_variant sys downs) (VVar (S (S i)) v) -> proper (message_variant sys downs) ->
  to_doc lenient sys downs (i, v) = Ok j -> decode lenient other_number like_bytes sys downs j = Accept (i, v).
Proof.
  intros W P E. destruct (C74_round_trip_partial lenient other_number like_bytes _ _ (default (message_variant sys downs)) W P (default_shape _ P)) as (j' & A & B).
  unfold to_doc in E. cbn [fst snd] in E. rewrite A in E. injection E as <-. unfold decode. now rewrite B.
Qed.

(* C80: the server stops exactly if a client sends a text that is no JSON, or a document that the binder throws on *)
Definition fatal (text : list N) : Prop := match parse text with None => True | Some j => decode lenient other_number like_bytes sys ups j = Exception end.
Theorem C80_crash ls s l : exec false ls (Run s) ->
  (exec false (ls ++ [l]) Crash <-> exists c text, l = Incoming c text /\ In c (connections s) /\ ~ In c (over s) /\ fatal text).
Proof.
  intros E. pose proof (exec_nodup _ _ _ E eq_refl) as ND.
  assert (NB : forall ms s, NoDup (connections s) -> broadcasts lenient sys downs false ms s <> Crash).
  { intros ms s0 ND0 X. destruct (broadcasts_ok _ _ _ ms s0 _ ND0 X ltac:(discriminate)) as (s' & Y & _). discriminate. }
  split.
  - intros E'. remember (ls ++ [l]) as ll eqn:X. remember Crash as cc eqn:Y. destruct E' as [|ls0 l0 s0 c0 E0 St]; [now destruct ls|]. apply app_inj_tail in X as [-> ->]. subst c0.
    apply exec_fold in E. apply exec_fold in E0. rewrite E in E0. injection E0 as <-.
    destruct l as [k|k text|k|m]; cbn [step] in St.
    + destruct (_ || _); discriminate.
    + destruct (existsb (N.eqb k) (connections s) && negb (is_over s k)) eqn:G; [|discriminate]. apply Bool.andb_true_iff in G as [G1 G2]. apply in_existsb in G1. exists k, text. split; [reflexivity|]. split; [exact G1|].
      split; [intros O; apply in_existsb in O; unfold is_over in G2; now rewrite O in G2|]. unfold fatal. destruct (parse text) as [j|]; [|exact I]. unfold receive in St.
      destruct (decode lenient other_number like_bytes sys ups j); try discriminate; [|reflexivity]. injection St as St. exfalso. revert St. apply NB. exact ND.
    + destruct (_ && _); discriminate.
    + exfalso. injection St as St. apply (NB [m] s ND). cbn. now rewrite St.
  - intros (c & text & -> & A & B & F). eapply ex_snoc; [exact E|]. cbn [step]. apply in_existsb in A. rewrite A. unfold is_over. destruct (existsb (N.eqb c) (over s)) eqn:O; [apply in_existsb in O; contradiction|]. cbn [andb negb].
    unfold fatal in F. destruct (parse text) as [j|]; [|reflexivity]. unfold receive. now rewrite F.
Qed.
(* C80: a client is dropped, and nothing else happens, when it sends the number of no message, null, or what stands for a system message *)
Inductive no_message : jsv -> Prop :=
| NM_null : no_message Null
| NM_number z : (-2 ^ 31 <= z < 2 ^ 31)%Z -> (z <= 0 \/ 2 + Z.of_nat (length ups) <= z)%Z -> no_message (Num z)
| NM_array z r : (-2 ^ 31 <= z < 2 ^ 31)%Z -> (z <= 0 \/ 2 + Z.of_nat (length ups) <= z)%Z -> no_message (Arr (Num z :: r))
| NM_system v x : sys <> SEmpty -> Doc sys v x -> no_message (Arr [Num 1; x]).
Lemma no_message_rejected j : proper (message_variant sys ups) -> no_message j -> decode lenient other_number like_bytes sys ups j = Reject.
Proof.
  intros P N.
  assert (K : forall z j, (-2 ^ 31 <= z < 2 ^ 31)%Z -> (z <= 0 \/ 2 + Z.of_nat (length ups) <= z)%Z -> get_variant_type_id other_number j = z -> decode lenient other_number like_bytes sys ups j = Reject).
  { intros z j0 R O E. unfold decode, message_variant. cbn [bind_from]. rewrite E. cbn [length].
    destruct (Z.leb_spec 0 z); cbn [andb negb]; [|reflexivity]. destruct (Z.ltb_spec z (Z.of_nat (S (S (length ups))))); cbn [negb]; [|reflexivity]. assert (z = 0%Z) as -> by lia. reflexivity. }
  destruct N as [|z R O|z r R O|v x NE D].
  - now apply (K 0%Z); [lia|left|].
  - apply (K z); auto. cbn. now rewrite wrap32_id.
  - apply (K z); auto. cbn. now rewrite wrap32_id.
  - unfold decode. rewrite (proj2 (C74_documents lenient other_number like_bytes (message_variant sys ups) (VVar 1 v)) (Arr [Num 1; x])); [reflexivity| |exact P|now apply default_shape].
    unfold message_variant. apply (D_var (SEmpty :: sys :: ups) 1 sys v x); [reflexivity|reflexivity|exact NE|exact D].
Qed.
Theorem C80_dropped ls s c text j : proper (message_variant sys ups) -> exec false ls (Run s) -> In c (connections s) -> ~ In c (over s) -> parse text = Some j -> no_message j ->
  exists s', exec false (ls ++ [Incoming c text]) (Run s') /\ received s' = received s /\ given s' = given s /\ In c (over s') /\
    (forall d, In d (connections s') <-> In d (connections s) /\ d <> c) /\ forall d, In d (over s') <-> In d (over s) \/ d = c.
Proof.
  intros P E A B T N. exists (drop_connection c s). split.
  - eapply ex_snoc; [exact E|]. cbn [step]. apply in_existsb in A. rewrite A. unfold is_over. destruct (existsb (N.eqb c) (over s)) eqn:O; [apply in_existsb in O; contradiction|]. cbn [andb negb].
    rewrite T. unfold receive. now rewrite (no_message_rejected j P N).
  - unfold drop_connection. cbn. split; [reflexivity|]. split; [reflexivity|]. split; [now left|]. split; intros d; [rewrite filter_In|].
    + destruct (N.eqb_spec d c); cbn; intuition (try discriminate; auto).
    + intuition congruence.
Qed.

(* C80: what a client sends has no undefined behaviour: the server stops, drops the client, or gives the context a message of its types *)
Theorem C80_robust text j : bindable (message_variant sys ups) -> js_doc_ok j -> parse text = Some j ->
  (forall l x, like_bytes l = Some x -> all_bytes x /\ 3 * N.of_nat (length x) < 2 ^ 31) ->
  forall ls s c, exec false ls (Run s) -> In c (connections s) -> ~ In c (over s) ->
  fatal text \/ (exists s', exec false (ls ++ [Incoming c text]) (Run s') /\ given s' = given s /\ ~ In c (connections s')) \/
  exists i v, meaning text = Some (i, v) /\ has_shape (message_variant sys ups) (VVar (S (S i)) v).
Proof.
  intros Bi D T L ls s c E A B. destruct (C74_any_document lenient other_number like_bytes (message_variant sys ups) j (default (message_variant sys ups)) Bi D) as [X|(v & X & H)].
  - apply default_shape. clear -Bi. revert Bi. generalize (message_variant sys ups). fix IH 1. intros [| | | | |n| |l|l|s|l] Bi; cbn in *; auto.
    + induction l; cbn in *; intuition.
    + induction l; cbn in *; intuition.
    + destruct Bi as [NE Bi]. split; [exact NE|]. clear NE. induction l; cbn in *; intuition.
  - exact L.
  - left. unfold fatal. rewrite T. unfold decode. now rewrite X.
  - destruct v as [| | | | | | |[|[|i]] v]; try contradiction H.
    3: { right. right. exists i, v. split; [|exact H]. unfold SrvProofs.meaning. rewrite T. unfold decode. now rewrite X. }
    all: right; left; exists (drop_connection c s); (split; [|split; [reflexivity|cbn; rewrite filter_In, N.eqb_refl; cbn; intuition discriminate]]); eapply ex_snoc; [exact E|];
      cbn [step]; apply in_existsb in A; rewrite A; unfold is_over; (destruct (existsb (N.eqb c) (over s)) eqn:O; [apply in_existsb in O; contradiction|]); cbn [andb negb];
      rewrite T; unfold receive, decode; now rewrite X.
Qed.
End Props.
Print Assumptions C80_broadcast_partial.
Print Assumptions C80_same.
Print Assumptions C80_understood.
Print Assumptions C80_read_by_clients.
Print Assumptions C80_crash.
Print Assumptions C80_dropped.
Print Assumptions C80_robust.

(* ---- examples: two kinds of message up and down; the context answers every message with one that counts ---- *)
Definition u_msgs : list shape := [SString; SSeq [SInt; SString]].
Definition echo (g : list msg) (m : msg) : list msg := [(1%nat, VSeq [VInt (Z.of_nat (length g)); match snd m with VString x => VString x | _ => VString [] end])].
(* texts are numbers of documents here *)
Definition parsed (text : list N) : option jsv :=
  match text with [0] => Some (Arr [Num 2; Str (bs "hi")]) | [1] => Some (Arr [Num 2; Str (bs "you")]) | [2] => Some (Num 0) | [3] => Some (Arr [Num 3; Null]) | _ => None end.
Definition go := fun b ls => fold_left (fun acc l => match acc with Some (Run s) => step junk nan no_array parsed echo SInt u_msgs u_msgs b s l | _ => None end) ls (Some (Run init)).
Lemma go_ok b ls c : go b ls = Some c -> exec junk nan no_array parsed echo SInt u_msgs u_msgs b ls c.
Proof.
  revert c. induction ls as [|l ls IH] using rev_ind; intros c E; [injection E as <-; constructor|]. unfold go in E. rewrite fold_left_app in E. cbn in E.
  change (fold_left _ ls _) with (go b ls) in E. destruct (go b ls) as [[s| |]|]; try discriminate. eapply ex_snoc; [apply IH; reflexivity|exact E].
Qed.

Example C80_dropped_ex : no_message SInt u_msgs (Num 7) /\ no_message SInt u_msgs (Arr [Num 1; Num 5]) /\ no_message SInt u_msgs (Arr [Num (-3); Str []]).
Proof. split; [constructor; cbn; lia|]. split; [apply (NM_system SInt u_msgs (VInt 5)); [discriminate|constructor; lia]|constructor; cbn; lia]. Qed.
Example C80_ex : exists s, exec junk nan no_array parsed echo SInt u_msgs u_msgs false [Connect 1; Incoming 1 [0]; Connect 2; Incoming 2 [1]; Incoming 1 [2]; Downstream (0%nat, VString (bs "all")); PeerClose 2] (Run s) /\
  to 1 (received s) = [Arr [Num 3; Arr [Num 0; Str (bs "hi")]]; Arr [Num 3; Arr [Num 1; Str (bs "you")]]] /\
  to 2 (received s) = [Arr [Num 3; Arr [Num 1; Str (bs "you")]]; Arr [Num 2; Str (bs "all")]] /\
  given s = [(0%nat, VString (bs "hi")); (0%nat, VString (bs "you"))] /\ connections s = [2].
Proof. eexists. split; [apply go_ok; vm_compute; reflexivity|]. vm_compute. repeat split. Qed.

(* C80 does not hold for a server that is to stay up: one client ends it for all, with text that is no JSON or with null where an array
   belongs *)
Theorem C80_stays_up_refuted :
  ~ (forall lenient other_number like_bytes parse context sys ups downs ls, ~ exec lenient other_number like_bytes parse context sys ups downs false ls Crash) /\
  exec junk nan no_array parsed echo SInt u_msgs u_msgs false [Connect 1; Connect 2; Incoming 2 [3]] Crash.
Proof.
  split; [|apply go_ok; vm_compute; reflexivity]. intros H. apply (H junk nan no_array parsed echo SInt u_msgs u_msgs [Connect 1; Incoming 1 [9]]). apply go_ok. vm_compute. reflexivity.
Qed.
Print Assumptions C80_stays_up_refuted.

(* C80 does not hold for clients that leave: nothing takes them out of [connections], so that these grow for ever, and where send throws on a
   closed connection the next message ends the server *)
Fixpoint visits (n : nat) : list label := match n with O => [] | S n' => visits n' ++ [Connect (N.of_nat n'); PeerClose (N.of_nat n')] end.
Lemma visited n : exists s, exec junk nan no_array parsed echo SInt u_msgs u_msgs false (visits n) (Run s) /\ length (connections s) = n /\
  (forall c, In c (connections s) -> In c (over s)) /\ (forall c, In c (connections s) \/ In c (over s) -> c < N.of_nat n).
Proof.
  induction n as [|n (s & E & L & O & B)].
  - exists init. split; [constructor|]. cbn. split; [reflexivity|]. split; intros c; tauto.
  - assert (F : forall l, (forall c, In c l -> c < N.of_nat n) -> existsb (N.eqb (N.of_nat n)) l = false).
    { intros l H. destruct (existsb _ l) eqn:X; [|reflexivity]. apply in_existsb in X. apply H in X. lia. }
    eexists. split; [cbn [visits]; replace (visits n ++ [Connect (N.of_nat n); PeerClose (N.of_nat n)]) with ((visits n ++ [Connect (N.of_nat n)]) ++ [PeerClose (N.of_nat n)]) by (now rewrite <- app_assoc);
      eapply ex_snoc; [eapply ex_snoc; [exact E|]|]|].
    + cbn [step]. unfold is_over. rewrite !F by (intros; apply B; tauto). reflexivity.
    + cbn [step connections]. unfold is_over. cbn [over]. rewrite existsb_app, (F (over s)) by (intros; apply B; tauto). rewrite (F (connections s)) by (intros; apply B; tauto). cbn [existsb orb]. rewrite N.eqb_refl. reflexivity.
    + cbn [connections over]. rewrite app_length, L. split; [cbn; lia|]. split.
      * intros c H. apply in_app_or in H as [H|[<-|[]]]; cbn; auto.
      * intros c [H|H]; [apply in_app_or in H as [H|[<-|[]]]|destruct H as [<-|H]]; try lia; [specialize (B c (or_introl H))|specialize (B c (or_intror H))]; lia.
Qed.
Theorem C80_closed_refuted :
  (forall n, exists ls s, exec junk nan no_array parsed echo SInt u_msgs u_msgs false ls (Run s) /\ length (connections s) = n /\ forall c, In c (connections s) -> In c (over s)) /\
  exec junk nan no_array parsed echo SInt u_msgs u_msgs true [Connect 1; Connect 2; PeerClose 1; Downstream (0%nat, VString (bs "all"))] Crash.
Proof. split; [|apply go_ok; vm_compute; reflexivity]. intros n. destruct (visited n) as (s & A & B & C & _). eauto. Qed.
Print Assumptions C80_closed_refuted.
