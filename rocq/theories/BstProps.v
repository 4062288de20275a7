(* C112: a client connects to its host once, and reads every message as it was sent. *)
From Coq Require Import String Lia.
From Verif Require StoreModel JsonModel NetModel WireModel WireSpec PipProps WireProps.
From Verif Require Import Base AppModel AppSpec AppProps BstModel BstSpec.
Open Scope N_scope.

Lemma from_looking : forall h s l r, complete_all (connect h s) l = Some r -> at_phase r = Settled -> Succeeds h s l (acts r) \/ Fails h s l (acts r).
Proof.
  intros h s l r E P. destruct l as [|[[e|[a l0]]|x|x] l]; cbn in E; try discriminate.
  - injection E as <-. discriminate P.
  - destruct l as [|c l]; cbn in E; [|discriminate]. injection E as <-. right. constructor.
  - destruct l as [|[x|[e|]|x] l]; cbn in E; try discriminate.
    + injection E as <-. discriminate P.
    + destruct l as [|c l]; cbn in E; [|discriminate]. injection E as <-. right. constructor.
    + destruct l as [|[x|x|[e|]] l]; cbn in E; try discriminate.
      * injection E as <-. discriminate P.
      * destruct l as [|c l]; cbn in E; [|discriminate]. injection E as <-. right. constructor.
      * destruct l as [|c l]; cbn in E; [|discriminate]. injection E as <-. left. constructor.
Qed.

(* Whatever the network does, what was done and told in the end is one of four courses: it is told that the client is connected exactly when
   every step succeeded, otherwise it is told the first error and nothing is done behind it.  Host and port are those of the address. *)
Theorem C112_connect : forall addr p h q l r, Address addr p h q -> complete_all (open addr) l = Some r -> at_phase r = Settled ->
  (Succeeds h q l (acts r) \/ Fails h q l (acts r)) /\ (told (acts r) = [None] <-> Succeeds h q l (acts r)).
Proof.
  intros addr p h q l r A E P. unfold open in E. rewrite (C55_host_port_partial _ _ _ _ A) in E. destruct (from_looking _ _ _ _ E P) as [S|F].
  - split; [left; exact S|]. split; [intros _; exact S|]. intros _. inversion S. reflexivity.
  - split; [right; exact F|]. split; [|intros S; inversion S; reflexivity]. intros T. inversion F as [e H1 H2|a l0 e H1 H2|a l0 e H1 H2]; rewrite <- H2 in T; discriminate.
Qed.
Print Assumptions C112_connect.

(* it is told at most once, and whatever is still to come can come: nothing is stuck before the end *)
Theorem C112_once : forall h s l r, complete_all (connect h s) l = Some r ->
  match at_phase r with
  | Settled => length (told (acts r)) = 1%nat /\ forall c, complete r c = None
  | Looking => told (acts r) = [] /\ forall x, complete r (Looked x) <> None
  | Dialling => told (acts r) = [] /\ forall x, complete r (Dialled x) <> None
  | Shaking => told (acts r) = [] /\ forall x, complete r (Shook x) <> None
  end.
Proof.
  intros h s l r E. destruct l as [|[[e|[a l0]]|x|x] l]; cbn in E; try discriminate.
  - injection E as <-. cbn. split; auto. intros [e|[a l]]; discriminate.
  - destruct l as [|c l]; cbn in E; [|discriminate]. injection E as <-. cbn. auto.
  - destruct l as [|[x|[e|]|x] l]; cbn in E; try discriminate.
    + injection E as <-. cbn. split; auto. intros [e|]; discriminate.
    + destruct l as [|c l]; cbn in E; [|discriminate]. injection E as <-. cbn. auto.
    + destruct l as [|[x|x|[e|]] l]; cbn in E; try discriminate.
      * injection E as <-. cbn. split; auto. intros [e|]; discriminate.
      * destruct l as [|c l]; cbn in E; [|discriminate]. injection E as <-. cbn. auto.
      * destruct l as [|c l]; cbn in E; [|discriminate]. injection E as <-. cbn. auto.
Qed.
Print Assumptions C112_once.

(* The full statement: a client connects if any address of its host can be reached.  It is false: of all addresses only the first is tried,
   and an error of it is told although others are left. *)
Theorem C112_other_addresses_refuted : forall h s a l e, exists r, complete_all (connect h s) [Looked (inr (a, l)); Dialled (Some e)] = Some r /\
  told (acts r) = [Some e] /\ dialled (acts r) = [a].
Proof. intros. eexists. split; [reflexivity|]. split; reflexivity. Qed.
Print Assumptions C112_other_addresses_refuted.

(* The handshake should name the port with the host unless it is that of the protocol (RFC 6455 4.1, RFC 7230 5.4); it never does. *)
Theorem C112_host_port_refuted : forall addr p h q, Address addr p h q ->
  (forall l r t x, complete_all (open addr) l = Some r -> In (Shake x t) (acts r) -> x = h /\ x <> h ++ bs ":" ++ q) /\
  exists l r, complete_all (open addr) l = Some r /\ at_phase r = Settled /\ told (acts r) = [None] /\ In (Shake h (bs "/")) (acts r).
Proof.
  intros addr p h q A. split; [intros l r t x E I; assert (x = h); [|subst x; split; [reflexivity|]; intros B; rewrite <- (app_nil_r h) in B at 1; apply app_inv_head in B; discriminate]|].
  2: { unfold open. rewrite (C55_host_port_partial _ _ _ _ A). exists [Looked (inr (0, [])); Dialled None; Shook None]. eexists. split; [reflexivity|]. cbn. auto 6. } unfold open in E. rewrite (C55_host_port_partial _ _ _ _ A) in E.
  assert (K : forall l s, complete_all s l = Some r -> host s = h -> (forall x t, In (Shake x t) (acts s) -> x = h) -> forall x t, In (Shake x t) (acts r) -> x = h).
  { clear. induction l as [|c l IH]; intros s E Hs HA; cbn in E; [injection E as <-; exact HA|]. destruct (complete s c) as [s'|] eqn:Ec; [|discriminate].
    assert (Q : host s' = h /\ forall x t, In (Shake x t) (acts s') -> x = h).
    { unfold complete in Ec. destruct (at_phase s), c as [[e|[a l0]]|[e|]|y]; try discriminate; injection Ec as <-; cbn; (split; [exact Hs|]);
        intros x t I; apply in_app_iff in I as [I|[I|[]]]; eauto; try discriminate. injection I as <- _. exact Hs. }
    destruct Q. eapply IH; eauto. }
  eapply (K l (connect h q) E eq_refl); [|exact I]. intros x0 t0 [[=]|[]].
Qed.
Print Assumptions C112_host_port_refuted.

Lemma read_spec : forall r a, buffer r = [] -> read r a = Ok (mk_reader (fst a) [], match snd a with None => Body (fst a) | Some e => Error e end).
Proof.
  intros [b u] [x e] H. cbn in H. subst u. unfold read. cbn [buffer body fst snd app]. rewrite skipn_all.
  assert (C : copy_over x (resize (length x) b) = Ok x).
  { assert (L : length (resize (length x) b) = length x) by (unfold resize; rewrite app_length, firstn_length, repeat_length; lia).
    unfold copy_over. rewrite L, Nat.leb_refl. rewrite (skipn_all2 (n := length x)) by lia. rewrite app_nil_r. reflexivity. }
  rewrite C. reflexivity.
Qed.
(* Every read gives what arrived with it and nothing of what arrived before, also behind reads that failed half way; no read writes
   behind the end of the body. *)
Theorem C112_reads : forall l, exists r, reads fresh l = Ok (r, map (fun a => match snd a with None => Body (fst a) | Some e => Error e end) l) /\
  body r = last (map fst l) [].
Proof.
  assert (K : forall l r, buffer r = [] -> exists r', reads r l = Ok (r', map (fun a => match snd a with None => Body (fst a) | Some e => Error e end) l) /\
    body r' = last (map fst l) (body r)).
  { induction l as [|a l IH]; intros r H; [exists r; split; reflexivity|]. cbn [reads]. rewrite (read_spec r a H). cbn [bind fst].
    destruct (IH (mk_reader (fst a) []) eq_refl) as [r' [I1 I2]]. rewrite I1. exists r'. cbn [bind fst snd]. split; [reflexivity|].
    rewrite I2. cbn [map body]. clear. generalize (map fst l), (fst a), (body r). induction l0 as [|x l0 IH]; intros b d; [reflexivity|].
    destruct l0; [reflexivity|]. exact (IH b d). }
  intros l. exact (K l fresh eq_refl).
Qed.
Print Assumptions C112_reads.

(* What one side writes the other reads: each text whose writing succeeded, in order, and then the error that ends the stream; who writes goes on
   with the text, or with the error. *)
Theorem C112_sent : forall l w part e, Written l w ->
  (exists r, reads fresh (map (fun t => (t, None)) (fst (writes l)) ++ [(part, Some e)]) = Ok (r, map Body w ++ [Error e])) /\
  snd (writes l) = map (fun x => match snd x with None => Body (fst x) | Some e => Error e end) l.
Proof.
  intros l w part e H. assert (K : fst (writes l) = w /\ snd (writes l) = map (fun x => match snd x with None => Body (fst x) | Some e => Error e end) l).
  { induction H as [|t l w H [I1 I2]|t e' l w H [I1 I2]]; [split; reflexivity| |]; cbn; rewrite I1, I2; split; reflexivity. }
  destruct K as [K1 K2]. split; [|exact K2]. destruct (C112_reads (map (fun t => (t, None)) (fst (writes l)) ++ [(part, Some e)])) as [r [R _]].
  exists r. rewrite R, K1, map_app, map_map. reflexivity.
Qed.
Print Assumptions C112_sent.

(* so the messages that JSON carries (C100) arrive, all and in order, between a client and a server that use these for their texts *)
Theorem C112_messages : forall box unbox api sys integral_of double_of print parse ms,
  WireSpec.prints print parse -> WireSpec.one_type api -> WireSpec.numbered api -> Forall (WireSpec.carried box unbox api) ms ->
  exists r gs, reads fresh (map (fun t => (t, None)) (fst (writes (map (fun m => (WireModel.text_of box api sys print m, None)) ms)))) = Ok (r, map Body gs) /\
    map (WireModel.read_text unbox api sys integral_of double_of parse) gs = map NetModel.Message ms.
Proof.
  intros box unbox api sys integral_of double_of print parse ms P O Nu F. set (text := WireModel.text_of box api sys print).
  assert (W : fst (writes (map (fun m => (text m, None)) ms)) = map text ms).
  { clear. induction ms as [|m ms IH]; [reflexivity|]. cbn. now rewrite IH. }
  destruct (C112_reads (map (fun t => (t, None)) (map text ms))) as [r [R _]]. exists r, (map text ms). rewrite W, R, !map_map. split; [reflexivity|].
  apply map_ext_in. intros m I. apply WireProps.C100_message_partial; auto. rewrite Forall_forall in F. auto.
Qed.
Print Assumptions C112_messages.

(* The message is given by reference, and every read uses the same body: who keeps the reference sees the last message that came. *)
Theorem C112_kept_refuted : forall l x e, exists r gs, reads fresh (l ++ [(x, e)]) = Ok (r, gs) /\ body r = x.
Proof. intros l x e. destruct (C112_reads (l ++ [(x, e)])) as [r [E B]]. exists r. eexists. split; [exact E|]. rewrite B, map_app. cbn. apply last_last. Qed.
Print Assumptions C112_kept_refuted.

Example C112_ex : match complete_all (open (bs "ws://example.com:8080")) [Looked (inr (7, [8])); Dialled None; Shook None] with
  | Some r => acts r = [Lookup (bs "example.com") (bs "8080"); Dial 7; Shake (bs "example.com") (bs "/"); Told None]
  | None => False end.
Proof. vm_compute. reflexivity. Qed.
Example C112_reads_ex : reads fresh [(bs "abcdef", None); (bs "x", Some 5); ([], None); (bs "ghi", None)] = Ok (mk_reader (bs "ghi") [], [Body (bs "abcdef"); Error 5; Body []; Body (bs "ghi")]).
Proof. vm_compute. reflexivity. Qed.
Example C112_sent_ex : let l := [(bs "ab", None); (bs "c", Some 9); (bs "def", None)] in Written l [bs "ab"; bs "def"] /\
  writes l = ([bs "ab"; bs "def"], [Body (bs "ab"); Error 9; Body (bs "def")]).
Proof. split; [repeat constructor|vm_compute; reflexivity]. Qed.
Example C112_messages_ex : let ms := [WireProps.update5; WireProps.create_one] in
  let texts := fst (writes (map (fun m => (WireModel.text_of WireProps.box_ex WireProps.up_ex JsonModel.SEmpty PipProps.toy m, None)) ms)) in
  match reads fresh (map (fun t => (t, None)) texts) with
  | Ok (_, [Body a; Body b]) => map (WireModel.read_text WireProps.unbox_ex WireProps.up_ex JsonModel.SEmpty (fun _ => None) (fun _ => 0) PipProps.untoy_all) [a; b] = map NetModel.Message ms
  | _ => False
  end.
Proof. vm_compute. reflexivity. Qed.
