(* Proofs about messages as JSON documents, and the simulation that carries C84 over to them. *)
From Verif Require Import Base StoreModel NetModel NetSpec NetProofs.
From Verif Require Import Base64Model JsonModel JsonSpec AppModel AppProps WireModel WireSpec.

Section Codec.
Variable box : shape -> N -> value.
Variable unbox : shape -> value -> N.
Notation travels := (travels box unbox).

Fixpoint writable_all (l : list shape) (vs : list value) : Prop :=
  match l, vs with [], [] => True | s :: l', v :: vs' => writable s v /\ writable_all l' vs' | _, _ => False end.
Lemma writable_seq l vs : writable_all l vs -> writable (SSeq l) (VSeq vs).
Proof. cbn. revert vs. induction l as [|s l IH]; intros [|v vs]; cbn; auto. Qed.

Lemma box_travels l ns : Forall2 travels l ns -> exists vs, box_all box l ns = Some vs /\ writable_all l vs /\ unbox_all unbox l vs = ns.
Proof.
  induction 1 as [|s n l ns (A & B) H (vs & E1 & E2 & E3)]; [exists []; cbn; auto|].
  exists (box s n :: vs). cbn. rewrite E1, E3, B. auto.
Qed.

Lemma element_travels e f : field_travels box unbox e f -> exists v, element_value box e f = Some v /\ writable (element_shape e) v /\ field_of unbox e v = f.
Proof.
  destruct e as [s|[s| |]|s|], f as [| |[| |]| | |]; cbn; try contradiction; try (intros _; exists VEmpty; cbn; now auto);
    intros (A & B); (eexists; split; [reflexivity|]; split; [exact A|cbn; now rewrite B]).
Qed.
Lemma elements_travel l fs : Forall2 (field_travels box unbox) l fs ->
  exists vs, element_values box l fs = Some vs /\ writable_all (map element_shape l) vs /\ fields_of unbox l vs = fs.
Proof.
  induction 1 as [|e f l fs A H (vs & E1 & E2 & E3)]; [exists []; cbn; auto|].
  destruct (element_travels _ _ A) as (v & F1 & F2 & F3). exists (v :: vs). cbn. rewrite F1, E1, F3, E3. auto.
Qed.
Lemma path_travel t p : path_travels box unbox t p ->
  exists v, path_value box t p = Some v /\ writable (path_shape t) v /\ path_of_value unbox t v = p.
Proof.
  unfold path_travels, path_value, path_shape, path_of_value, no_keys. destruct p as [[ty ks]|ty ks].
  - cbn [ptype keys]. intros (-> & -> & F). destruct (box_travels _ _ F) as (vs & E1 & E2 & E3). rewrite Nat.eqb_refl, E1. cbn [negb andb option_map].
    destruct (t_keys t) eqn:K.
    + eexists. split; [reflexivity|]. split; [exact Logic.I|]. inversion F. reflexivity.
    + eexists. split; [reflexivity|]. split; [now apply writable_seq|]. now rewrite E3.
  - intros (-> & -> & F). destruct (box_travels _ _ F) as (vs & E1 & E2 & E3). rewrite Nat.eqb_refl, E1. cbn [negb andb option_map].
    eexists. split; [reflexivity|]. split; [now apply writable_seq|]. now rewrite E3.
Qed.

Lemma kind_eqb_true a b : kind_eqb a b = true <-> a = b.
Proof. destruct a, b; cbn; split; congruence. Qed.
Lemma value_travels t m p fs : mkind m = t_kind t -> mtype m = t_id t -> storage m = FPath p :: fs ->
  path_travels box unbox t p -> Forall2 (field_travels box unbox) (t_rest t) fs ->
  exists v, value_of box t m = Some v /\ writable (type_shape t) v /\ message_of unbox t v = Some m.
Proof.
  intros K I S Hp Hf. destruct (path_travel _ _ Hp) as (v & A1 & A2 & A3). destruct (elements_travel _ _ Hf) as (vs & B1 & B2 & B3).
  exists (VSeq (v :: vs)). unfold value_of. rewrite S, <- K, <- I, (proj2 (kind_eqb_true _ _) eq_refl), N.eqb_refl, A1, B1. cbn [andb].
  split; [reflexivity|]. split; [apply writable_seq; cbn [writable_all]; auto|]. cbn [message_of]. rewrite A3, B3, <- K, <- I, <- S. now destruct m.
Qed.

Lemma box_all_length l ns vs : box_all box l ns = Some vs -> length ns = length l.
Proof. revert ns vs. induction l as [|s l IH]; intros [|n ns] vs; cbn; try discriminate; auto. destruct (box_all box l ns) eqn:E; [|discriminate]. intros _. f_equal. eauto. Qed.
Lemma value_of_type t m v : value_of box t m = Some v -> of_type t m.
Proof.
  unfold value_of, of_type. destruct (kind_eqb _ _) eqn:K; [|discriminate]. destruct (N.eqb _ _) eqn:I; [|discriminate]. cbn [andb].
  apply kind_eqb_true in K. apply N.eqb_eq in I. destruct (storage m) as [|[p| | | | |] fs]; try discriminate.
  destruct (path_value box t p) eqn:E; [|discriminate]. destruct (element_values box (t_rest t) fs) eqn:F; [|discriminate]. intros _.
  split; auto. split; auto. exists p, fs. split; auto. split.
  - destruct p as [q|ty ks]; cbn in E; destruct (t_create t); cbn in E; try discriminate; destruct (Nat.eqb _ _) eqn:Q; try discriminate; apply Nat.eqb_eq in Q;
      destruct (box_all box _ _) eqn:B; try discriminate; apply box_all_length in B; auto.
  - clear -F. revert fs l F. induction (t_rest t) as [|e r IH]; intros [|f fs] l; cbn; try discriminate; [constructor|].
    destruct (element_value box e f) eqn:E; [|discriminate]. destruct (element_values box r fs) eqn:G; [|discriminate]. intros _. constructor; [|eauto].
    destruct e as [s|[s| |]|s|], f as [| |[| |]| | |]; cbn in E; try discriminate; exact Logic.I.
Qed.

Lemma locate_in api m t v : In t api -> value_of box t m = Some v -> exists i t' v', locate box api m = Some (i, v') /\ nth_error api i = Some t' /\ value_of box t' m = Some v'.
Proof.
  intros H E. induction api as [|a api IH]; [destruct H|]. cbn. destruct (value_of box a m) as [w|] eqn:A; [exists O, a, w; auto|].
  destruct H as [->|H]; [congruence|]. destruct (IH H) as (i & t' & v' & L & T & V). rewrite L. exists (S i), t', v'. auto.
Qed.

Section Api.
Variable api : list message_type.
Variable sys : shape.
Variable integral_of : N -> option Z.
Variable double_of : Z -> N.
Variable print : json -> bytes.
Variable parse : bytes -> option json.
Hypothesis Hprint : prints print parse.

Lemma writable_var sys' l i s v : nth_error l i = Some s -> (Z.of_nat (length l) + 2 <= 2 ^ 31)%Z -> writable s v -> writable (message_variant sys' l) (VVar (S (S i)) v).
Proof.
  intros E L W. cbn. split; [cbn [length] in *; lia|]. revert i E. clear L. induction l as [|a l IH]; intros [|i] E; cbn in E; try discriminate.
  - injection E as ->. exact W.
  - exact (IH i E).
Qed.

Lemma text_read m : one_type api -> numbered api -> carried box unbox api m ->
  read_text unbox api sys integral_of double_of parse (text_of box api sys print m) = NetModel.Message m.
Proof.
  intros O Nb (t & H & K & I & p & fs & S & Hp & Hf). destruct (value_travels t m p fs K I S Hp Hf) as (v & V & W & B).
  destruct (locate_in api m t v H V) as (i & t' & v' & L & T & V').
  assert (t' = t) as -> by (eapply O; eauto using value_of_type, nth_error_In). assert (v' = v) as -> by congruence.
  unfold text_of, read_text. rewrite L.
  assert (W' : writable (message_variant sys (shapes api)) (VVar (Datatypes.S (Datatypes.S i)) v)).
  { apply writable_var with (s := type_shape t); auto; [unfold shapes; now rewrite nth_error_map, T|unfold shapes; rewrite map_length; exact Nb]. }
  destruct (C64_message integral_of double_of parse sys (shapes api) i v W') as (j & -> & D).
  rewrite (D _ (Hprint j)), T, B. reflexivity.
Qed.
End Api.
End Codec.

(* ---- the same net with messages in place of the texts that clients and the server write ---- *)
Section Sim.
Context {text : Type} (up_text : nat -> msg -> text) (up_read : text -> incoming) (down_text : msg -> text) (down_read : nat -> text -> incoming)
  {P : Type} (react : P -> msg -> P * list msg) (ssh : StoreModel.shape) (srv : nat) (csh : StoreModel.shape) (cli : nat) (arrives : nat -> msg -> option msg).
(* a message with the client that wrote it *)
Notation itext := (nat * msg + text)%type.
Notation say := (fun i m => inl (i, m)).
Notation tell := (fun m => inl (0%nat, m)).
Definition ideal_read (read : text -> incoming) (t : itext) : incoming := match t with inl (_, m) => NetModel.Message m | inr t => read t end.
(* a reader that throws on some of the messages and reads others as others *)
Definition lossy_read (read : nat -> text -> incoming) (i : nat) (t : itext) : incoming := match t with inl (_, m) => match arrives i m with Some m' => NetModel.Message m' | None => Thrown end | inr t => read i t end.
Definition on_wire (w : nat -> msg -> text) (t : itext) : text := match t with inl (i, m) => w i m | inr t => t end.
Notation step := (NetModel.step text up_text up_read down_text down_read P react ssh srv csh cli).
Notation run := (NetModel.run text up_text up_read down_text down_read P react ssh srv csh cli).
Notation istep := (NetModel.step itext say (ideal_read up_read) tell (lossy_read down_read) P react ssh srv csh cli).
Notation irun := (NetModel.run itext say (ideal_read up_read) tell (lossy_read down_read) P react ssh srv csh cli).

Definition pc (c : client itext) : client text :=
  {| view := view _ c; alive := alive _ c; ruined := ruined _ c; at_server := at_server _ c; outbox := map (on_wire up_text) (outbox _ c);
     inbox := map (on_wire (fun _ => down_text)) (inbox _ c); asked := asked _ c; got := got _ c; since := since _ c |}.
Definition pn (n : net itext P) : net text P :=
  {| hub := hub _ _ n; crashed := crashed _ _ n; told := told _ _ n; served := served _ _ n; members := map pc (members _ _ n) |}.
Definition il (l : label text) : label itext :=
  match l with
  | Connect _ => Connect _ | Register _ i => Register _ i | Ask _ i m => Ask _ i m | Tell _ m => Tell _ m | Serve _ i => Serve _ i
  | Deliver _ i => Deliver _ i | Inject _ i t => Inject _ i (inr t) | DropServer _ i => DropServer _ i | DropClient _ i => DropClient _ i
  end.

(* what was said survives, or is not noticed *)
Definition faithful (n : net text P) : Prop :=
  forall i c, nth_error (members _ _ n) i = Some c ->
    Forall (fun m => down_read i (down_text m) = match arrives i m with Some m' => NetModel.Message m' | None => Thrown end) (told _ _ n) /\
    Forall (fun m => up_read (up_text i m) = NetModel.Message m) (asked _ c).
(* messages under way were sent *)
Definition sent_inv (n : net itext P) : Prop :=
  forall i c, nth_error (members _ _ n) i = Some c ->
    (forall j m, In (inl (j, m)) (outbox _ c) -> j = i /\ In m (asked _ c)) /\ (forall j m, In (inl (j, m)) (inbox _ c) -> In m (told _ _ n)).

Lemma pc_send i c st ms : pc (send _ say i c st ms) = send _ up_text i (pc c) st ms.
Proof.
  unfold send, pc. cbn. destruct (alive _ c); [rewrite map_app, map_map|]; reflexivity.
Qed.
Lemma pc_does i m c : pc (client_does _ say csh cli i m c) = client_does _ up_text csh cli i m (pc c).
Proof. unfold client_does. cbn [pc view]. destruct (client_push csh (view _ c) m) as [st e]. apply pc_send. Qed.
Lemma pc_hear ms c : pc (hear _ tell ms c) = hear _ down_text ms (pc c).
Proof. unfold hear. cbn [pc at_server]. destruct (at_server _ c) eqn:E; try reflexivity. unfold pc. cbn. rewrite map_app, !map_map. reflexivity. Qed.
Lemma pn_does who m n : pn (hub_does _ tell P react ssh srv who m n) = hub_does _ down_text P react ssh srv who m (pn n).
Proof.
  unfold hub_does. cbn [pn hub]. destruct (hub_push P react ssh (hub _ _ n) m) as [st e]. unfold pn. cbn. f_equal. rewrite !map_map. apply map_ext. apply pc_hear.
Qed.
Lemma map_set {A B} (f : A -> B) l : forall i x, map f (set_at l i x) = set_at (map f l) i (f x).
Proof. induction l as [|y l IH]; intros [|i] x; cbn; congruence. Qed.
Lemma pn_member n i c : pn (with_member _ _ n i c) = with_member _ _ (pn n) i (pc c).
Proof. unfold pn, with_member. cbn. now rewrite map_set. Qed.

Lemma sim_step n l : sent_inv n -> faithful (pn n) -> step (pn n) l = option_map pn (istep n (il l)).
Proof.
  intros S F.
  assert (M : forall i, nth_error (members _ _ (pn n)) i = option_map pc (nth_error (members _ _ n) i)) by (intros i; cbn; apply nth_error_map).
  destruct l as [|i|i m|m|i|i|i t|i|i]; cbn -[client_does hub_does pn pc with_member]; rewrite ?M.
  - cbn. unfold pn. cbn. now rewrite map_app.
  - destruct (nth_error (members _ _ n) i) as [c|]; [|reflexivity]. cbn [option_map pc at_server pn crashed]. destruct (at_server _ c); try reflexivity.
    destruct (crashed _ _ n); [reflexivity|]. cbn [option_map]. now rewrite pn_member.
  - destruct (nth_error (members _ _ n) i) as [c|]; [|reflexivity]. cbn [option_map pc ruined]. destruct (ruined _ c); [reflexivity|]. cbn [option_map].
    now rewrite pn_member, pc_does.
  - cbn [pn crashed]. destruct (crashed _ _ n); [reflexivity|]. cbn [option_map]. now rewrite pn_does.
  - destruct (nth_error (members _ _ n) i) as [c|] eqn:Hc; [|reflexivity]. cbn [option_map pc at_server pn crashed outbox].
    destruct (F i (pc c)) as (_ & Fu); [rewrite M, Hc; reflexivity|].
    destruct (crashed _ _ n) eqn:Cr; [reflexivity|]. destruct (at_server _ c) eqn:A; try reflexivity. destruct (outbox _ c) as [|t r] eqn:O; [reflexivity|]. cbn [map].
    assert (E : up_read (on_wire up_text t) = ideal_read up_read t).
    { destruct t as [(j, m)|t]; [|reflexivity]. cbn. rewrite Forall_forall in Fu.
      destruct (proj1 (S i c Hc) j m) as (-> & X); [rewrite O; now left|]. now apply Fu. }
    rewrite E. destruct (ideal_read up_read t) as [m| | |]; cbn [option_map]; f_equal.
    + now rewrite pn_does, pn_member.
    + now rewrite pn_member.
    + unfold crash, pn, with_member. cbn. now rewrite map_set.
    + unfold crash, pn, with_member. cbn. now rewrite map_set.
  - destruct (nth_error (members _ _ n) i) as [c|] eqn:Hc; [|reflexivity]. cbn [option_map pc alive inbox].
    destruct (F i (pc c)) as (Fd & _); [rewrite M, Hc; reflexivity|].
    destruct (alive _ c); [|reflexivity]. destruct (inbox _ c) as [|t r] eqn:O; [reflexivity|]. cbn [map].
    assert (E : down_read i (on_wire (fun _ => down_text) t) = lossy_read down_read i t).
    { destruct t as [(j, m)|t]; [|reflexivity]. cbn. rewrite Forall_forall in Fd. apply Fd. cbn. apply (proj2 (S i c Hc) j). rewrite O. now left. }
    rewrite E. destruct (lossy_read down_read i t) as [m| | |]; cbn [option_map]; f_equal; rewrite pn_member; [|reflexivity..].
    now rewrite pc_does.
  - destruct (nth_error (members _ _ n) i) as [c|]; [|reflexivity]. cbn [option_map]. rewrite pn_member. f_equal. f_equal. unfold with_outbox, pc. cbn.
    now rewrite map_app.
  - destruct (nth_error (members _ _ n) i) as [c|]; [|reflexivity]. cbn [option_map pc at_server pn crashed].
    destruct (at_server _ c); try reflexivity; destruct (crashed _ _ n); try reflexivity; cbn [option_map]; now rewrite pn_member.
  - destruct (nth_error (members _ _ n) i) as [c|]; [|reflexivity]. cbn [option_map pc alive]. destruct (alive _ c); [|reflexivity]. cbn [option_map]. now rewrite pn_member.
Qed.

Lemma sent_member n i c0 c : sent_inv n -> nth_error (members _ _ n) i = Some c0 ->
  (forall j m, In (inl (j, m)) (outbox _ c) -> j = i /\ In m (asked _ c)) -> (forall j m, In (inl (j, m)) (inbox _ c) -> In m (told _ _ n)) ->
  sent_inv (with_member _ _ n i c).
Proof.
  intros S H0 A B k x H. cbn in H. rewrite nth_set_at in H. destruct (Nat.eqb_spec i k) as [<-|_]; [|exact (S k x H)].
  rewrite H0 in H. injection H as <-. split; auto.
Qed.
Lemma sent_does who m n : sent_inv n -> sent_inv (hub_does _ tell P react ssh srv who m n).
Proof.
  intros S. unfold hub_does. destruct (hub_push _ _ _ _ _) as [st e]. intros i c H. cbn in H. rewrite nth_error_map in H.
  destruct (nth_error _ i) as [x|] eqn:Hx; [|discriminate]. injection H as <-.
  destruct (S i x Hx) as (A & B). cbn [told]. unfold hear. destruct (at_server _ x); cbn; split; auto; intros j m' H'; try (apply in_or_app; left; now apply (B j)).
  apply in_app_or in H'. apply in_or_app. destruct H' as [H'|H']; [left; now apply (B j)|right]. apply in_map_iff in H'. destruct H' as (y & E & Y). now injection E as _ ->.
Qed.
Lemma sent_push t i m c : (forall j m, In (inl (j, m)) (outbox _ c) -> j = i /\ In m (asked _ c)) -> (forall j m, In (inl (j, m)) (inbox _ c) -> In m t) ->
  (forall j x, In (inl (j, x)) (outbox itext (client_does _ say csh cli i m c)) -> j = i /\ In x (asked _ (client_does _ say csh cli i m c))) /\
  (forall j x, In (inl (j, x)) (inbox itext (client_does _ say csh cli i m c)) -> In x t).
Proof.
  intros A B. unfold client_does. destruct (client_push _ _ _) as [st e]. cbn. split; auto. intros j x. rewrite in_app_iff. destruct (alive _ c).
  - rewrite in_app_iff. intros [H|H]; [destruct (A _ _ H); auto|]. apply in_map_iff in H. destruct H as (y & E & Y). injection E as -> ->. auto.
  - intros H. destruct (A _ _ H); auto.
Qed.
Lemma sent_step n l n' : sent_inv n -> istep n (il l) = Some n' -> sent_inv n'.
Proof.
  intros S E. destruct l as [|i|i m|m|i|i|i t|i|i]; cbn -[client_does hub_does with_member] in E;
    try (destruct (nth_error (members _ _ n) i) as [c|] eqn:Hc; [|discriminate]; destruct (S i c Hc) as (A & B)).
  - injection E as <-. intros i c H. cbn in H. destruct (Nat.ltb_spec i (length (members _ _ n))).
    + rewrite nth_error_app1 in H by auto. exact (S i c H).
    + rewrite nth_error_app2 in H by auto. destruct (i - _)%nat as [|[|k]]; cbn in H; try discriminate. injection H as <-. split; intros j m [].
  - destruct (at_server _ c); try discriminate. destruct (crashed _ _ n); [discriminate|]. injection E as <-. eapply sent_member; eauto.
  - destruct (ruined _ c); [discriminate|]. injection E as <-. destruct (sent_push (told _ _ n) i m c A B). eapply sent_member; eauto.
  - destruct (crashed _ _ n); [discriminate|]. injection E as <-. now apply sent_does.
  - destruct (crashed _ _ n); [discriminate|]. destruct (at_server _ c); try discriminate. destruct (outbox _ c) as [|t r] eqn:O; [discriminate|].
    assert (A' : forall j m, In (inl (j, m)) r -> j = i /\ In m (asked _ c)) by (intros j m H; apply A; now right).
    assert (X : sent_inv (with_member _ _ n i (with_outbox _ r c))) by (eapply sent_member; eauto).
    destruct (ideal_read up_read t); injection E as <-; [now apply sent_does|eapply sent_member; eauto|exact X|exact X].
  - destruct (alive _ c); [|discriminate]. destruct (inbox _ c) as [|t r] eqn:O; [discriminate|].
    assert (B' : forall j m, In (inl (j, m)) r -> In m (told _ _ n)) by (intros j m H; apply (B j); now right).
    destruct (lossy_read down_read i t) as [m| | |]; injection E as <-; try (eapply sent_member; eauto; fail).
    destruct (sent_push (told _ _ n) i m (with_got _ m (with_inbox _ r c)) A B'). eapply sent_member; eauto.
  - injection E as <-. eapply sent_member; eauto. cbn. intros j m H. apply in_app_or in H. destruct H as [H|[H|[]]]; [auto|discriminate].
  - assert (X : Some (with_member _ _ n i (with_link _ Gone (since _ c) c)) = Some n').
    { destruct (at_server _ c); try discriminate; (destruct (crashed _ _ n); [discriminate|]); exact E. }
    injection X as <-. eapply sent_member; eauto.
  - destruct (alive _ c); [|discriminate]. injection E as <-. eapply sent_member; eauto.
Qed.

(* what was said is not unsaid *)
Lemma asked_does i m (c : client text) : exists f, asked _ (client_does _ up_text csh cli i m c) = asked _ c ++ f.
Proof. unfold client_does. destruct (client_push _ _ _). cbn. eauto. Qed.
Lemma moves_asks n l i c c' : moves up_text up_read down_text down_read (P := P) csh cli n l i c c' -> exists f, asked _ c' = asked _ c ++ f.
Proof.
  assert (Z : forall x : list msg, exists f, x = x ++ f) by (intros x; exists []; symmetry; apply app_nil_r).
  destruct 1; rewrite ?hear_asked; cbn -[client_does]; auto; try apply asked_does.
  destruct (asked_does i m (with_got _ m (with_inbox _ r c))) as (f & ->). cbn. eauto.
Qed.
Lemma step_keeps n l n' : step n l = Some n' -> forall i c, nth_error (members _ _ n) i = Some c -> exists c' f, nth_error (members _ _ n') i = Some c' /\ asked _ c' = asked _ c ++ f.
Proof.
  intros E i c H. pose proof (step_length up_text up_read down_text down_read react ssh srv csh cli (fun _ => False) (fun _ => False) _ _ _ E) as L.
  destruct (nth_error (members _ _ n') i) as [c'|] eqn:H'.
  - destruct (step_members up_text up_read down_text down_read react ssh srv csh cli (fun _ => False) (fun _ => False) _ _ _ E _ _ H') as [(y & Hy & M)|(_ & -> & _)].
    + rewrite H in Hy. injection Hy as <-. destruct (moves_asks _ _ _ _ _ M) as (f & F). eauto.
    + exfalso. assert (length (members _ _ n) < length (members _ _ n))%nat; [|lia]. apply nth_error_Some. congruence.
  - exfalso. apply nth_error_None in H'. assert (i < length (members _ _ n))%nat by (apply nth_error_Some; congruence). lia.
Qed.
Lemma faithful_step n l n' : step n l = Some n' -> faithful n' -> faithful n.
Proof.
  intros E F i c H. destruct (step_keeps _ _ _ E _ _ H) as (c' & f & H' & Q). destruct (F i c' H') as (A & B). split.
  - destruct (step_grows up_text up_read down_text down_read react ssh srv csh cli _ _ _ E) as (g & G). rewrite G in A. apply Forall_app in A. tauto.
  - rewrite Q in B. apply Forall_app in B. tauto.
Qed.
Lemma faithful_run ls : forall n n', run n ls = Some n' -> faithful n' -> faithful n.
Proof.
  induction ls as [|l ls IH]; intros n n' E F; cbn in E; [now injection E as ->|]. destruct (step n l) as [n1|] eqn:S; [|discriminate].
  eapply faithful_step; eauto.
Qed.

Lemma sim_run ls : forall n n2, sent_inv n -> run (pn n) ls = Some n2 -> faithful n2 -> exists n', irun n (map il ls) = Some n' /\ pn n' = n2.
Proof.
  induction ls as [|l ls IH]; intros n n2 S E F; [exists n; cbn in E |- *; split; auto; congruence|].
  change (match step (pn n) l with Some n1 => run n1 ls | None => None end = Some n2) in E.
  destruct (step (pn n) l) as [n1|] eqn:S1; [|discriminate].
  assert (F0 : faithful (pn n)) by (eapply faithful_step; eauto; eapply faithful_run; eauto).
  rewrite (sim_step n l S F0) in S1. destruct (istep n (il l)) as [m|] eqn:I; [|discriminate]. cbn [option_map] in S1.
  assert (pn m = n1) by congruence. subst n1. destruct (IH m n2 (sent_step _ _ _ S I) E F) as (n' & E' & Q). exists n'. split; auto.
  cbn [map]. change (match istep n (il l) with Some n1 => irun n1 (map il ls) | None => None end = Some n'). now rewrite I.
Qed.
Lemma sim st0 ls n2 : run (start text P st0) ls = Some n2 -> faithful n2 -> exists n', irun (start itext P st0) (map il ls) = Some n' /\ pn n' = n2.
Proof. intros E F. apply (sim_run ls (start itext P st0)); auto. intros [|i] c; discriminate. Qed.

(* what of it can be seen *)
Lemma pc_rest c : at_rest (pc c) -> at_rest c.
Proof.
  unfold at_rest. cbn. intros (A & B & C & D). repeat split; auto; [destruct (outbox _ c)|destruct (inbox _ c)]; auto; discriminate.
Qed.
Lemma pn_nth n i c : nth_error (members _ _ (pn n)) i = Some c -> exists x, nth_error (members _ _ n) i = Some x /\ pc x = c.
Proof. cbn. rewrite nth_error_map. destruct (nth_error (members _ _ n) i) as [x|]; [|discriminate]. cbn. intros E. exists x. split; congruence. Qed.
Lemma in_ask i m ls : In (Ask _ i m) (map il ls) -> In (Ask _ i m) ls.
Proof. intros H. apply in_map_iff in H. destruct H as (l & E & H). destruct l; cbn in E; try discriminate. now injection E as <- <-. Qed.
Lemma in_inject i t ls : In (Inject _ i t) (map il ls) -> exists t', In (Inject _ i t') ls.
Proof. intros H. apply in_map_iff in H. destruct H as (l & E & H). destruct l; cbn in E; try discriminate. injection E as <- _. eauto. Qed.
Lemma in_drop_server i ls : In (DropServer _ i) (map il ls) -> In (DropServer _ i) ls.
Proof. intros H. apply in_map_iff in H. destruct H as (l & E & H). destruct l; cbn in E; try discriminate. now injection E as <-. Qed.
Lemma in_drop_client i ls : In (DropClient _ i) (map il ls) -> In (DropClient _ i) ls.
Proof. intros H. apply in_map_iff in H. destruct H as (l & E & H). destruct l; cbn in E; try discriminate. now injection E as <-. Qed.
Lemma pushed_il i ls : pushed_at i (map il ls) = pushed_at i ls.
Proof. unfold pushed_at. induction ls as [|l ls IH]; [reflexivity|]. cbn. rewrite IH. destruct l; reflexivity. Qed.
End Sim.

(* ---- whatever the texts, if no text for a client is read as a request ---- *)
Section Ends.
Context {text : Type} (up_text : nat -> msg -> text) (up_read : text -> incoming) (down_text : msg -> text) (down_read : nat -> text -> incoming)
  {P : Type} (react : P -> msg -> P * list msg) (ssh : StoreModel.shape) (srv : nat) (csh : StoreModel.shape) (cli : nat).
Hypothesis reads_down : forall i t m, down_read i t = NetModel.Message m -> is_upstream m = false.
Notation step := (NetModel.step text up_text up_read down_text down_read P react ssh srv csh cli).
Notation run := (NetModel.run text up_text up_read down_text down_read P react ssh srv csh cli).
Notation sums := (sum_set 0 (fun _ => True) (fun _ => True)).

Lemma moves_less n l n' : internal l -> step n l = Some n' -> (sent n' < sent n)%nat \/ (sent n' = sent n /\ due n' < due n)%nat.
Proof.
  intros L E. destruct l as [|i|i m|m|i|i|i t|i|i]; try destruct L; cbn -[client_does hub_does] in E.
  - destruct (nth_error _ i) as [c|] eqn:Hc; [|discriminate]. destruct (crashed _ _ n); [discriminate|]. destruct (at_server _ c) eqn:A; try discriminate.
    destruct (outbox _ c) as [|t r] eqn:O; [discriminate|]. left.
    pose proof (sums (fun c => length (outbox _ c)) (members _ _ n) i c (with_outbox _ r c) Hc) as X.
    pose proof (sums (fun c => length (outbox _ c)) (members _ _ n) i c (with_link _ Gone (since _ c) (with_outbox _ r c)) Hc) as Y.
    cbn in X, Y. rewrite O in X, Y. cbn in X, Y. unfold sent. destruct (up_read t) as [m| | |]; injection E as <-.
    + destruct (hub_shape down_text react ssh srv (with_member _ _ n i (with_outbox _ r c)) (Some i) m) as (f & st & -> & _). cbn. rewrite sum_hear. lia.
    + cbn. lia.
    + cbn. lia.
    + cbn. lia.
  - destruct (nth_error _ i) as [c|] eqn:Hc; [|discriminate]. destruct (alive _ c) eqn:A; [|discriminate].
    destruct (inbox _ c) as [|t r] eqn:O; [discriminate|]. right.
    assert (G : exists c', n' = with_member _ _ n i c' /\ outbox _ c' = outbox _ c /\ inbox _ c' = r).
    { destruct (down_read i t) as [m| | |] eqn:D; injection E as <-.
      - destruct (does_down up_text csh cli i m (with_got _ m (with_inbox _ r c)) (reads_down _ _ _ D)) as (st & -> & _). eexists. split; [reflexivity|].
        split; [unfold send; cbn; destruct (alive _ c); auto; apply app_nil_r|reflexivity].
      - eexists. split; [reflexivity|]. split; reflexivity.
      - eexists. split; [reflexivity|]. split; reflexivity.
      - eexists. split; [reflexivity|]. split; reflexivity. }
    destruct G as (c' & -> & Z & Z').
    pose proof (sums (fun c => length (outbox _ c)) (members _ _ n) i c c' Hc) as X.
    pose proof (sums (fun c => length (inbox _ c)) (members _ _ n) i c c' Hc) as Y.
    cbv beta in X, Y. rewrite Z in X. rewrite O, Z' in Y. cbn [length] in Y. unfold sent, due. cbn [members with_member]. lia.
Qed.

Lemma moves_end n : Acc (fun b a => exists l, internal l /\ step a l = Some b) n.
Proof.
  remember (sent n) as a eqn:Ea. remember (due n) as b eqn:Eb. revert n b Ea Eb.
  induction a as [a IHa] using (well_founded_induction Wf_nat.lt_wf). intros n b. revert n.
  induction b as [b IHb] using (well_founded_induction Wf_nat.lt_wf). intros n Ea Eb.
  constructor. intros n' (l & L & S). destruct (moves_less _ _ _ L S) as [H|[H1 H2]].
  - apply (IHa (sent n')) with (b := due n'); auto. lia.
  - apply (IHb (due n')); auto; lia.
Qed.

Lemma moves_settle n : exists ls n', Forall internal ls /\ run n ls = Some n' /\ stuck up_text up_read down_text down_read react ssh srv csh cli n'.
Proof.
  pose proof (moves_end n) as A. induction A as [n _ IH].
  destruct (move_or_stuck up_text up_read down_text down_read react ssh srv csh cli (fun _ => True) (fun _ => True) n) as [(l & n1 & L & S)|S].
  - destruct (IH n1) as (ls & n' & H1 & H2 & H3); [exists l; auto|]. exists (l :: ls), n'. split; [constructor; auto|]. cbn [NetModel.run]. rewrite S. auto.
  - exists [], n. auto.
Qed.
End Ends.

Lemma read_kind unbox api sys integral_of double_of parse t m :
  read_text unbox api sys integral_of double_of parse t = NetModel.Message m -> exists ty, In ty api /\ mkind m = t_kind ty.
Proof.
  unfold read_text. destruct (deserialize _ _ _ _ _ _) as [[|[| | |i v] [|]]|]; try discriminate.
  destruct (nth_error api i) as [ty|] eqn:E; [|discriminate]. unfold message_of. destruct v as [| | | | |l| |]; try discriminate; destruct l as [|p vs]; try discriminate.
  intros X. injection X as <-. exists ty. split; [eapply nth_error_In; eauto|reflexivity].
Qed.

(* ---- what is read has one of the types ---- *)
Section Typed.
Variable integral_of : N -> option Z.
Variable double_of : Z -> N.
Notation rd := (read integral_of double_of).

Lemma read_seq_parts n j js : forall l olds i vs, read_seq rd n j js l olds i = Ok (Some vs) ->
  length vs = length l /\
  forall k s o v, nth_error l k = Some s -> nth_error olds k = Some o -> nth_error vs k = Some v -> v = o \/ exists x, rd s x o = Ok (Some v).
Proof.
  induction l as [|s l IH]; intros [|o olds] i vs; try discriminate.
  - intros E. injection E as <-. split; [reflexivity|]. intros [|k]; discriminate.
  - cbn [read_seq]. fold (read_seq rd n j js). destruct (is_empty s).
    + destruct (read_seq rd n j js l olds i) as [[r|]|] eqn:E; try discriminate. intros X. injection X as <-.
      destruct (IH _ _ _ E) as (L & P). split; [cbn; now rewrite L|]. intros [|k] s' o' v' A B C; cbn in A, B, C; [left; congruence|eauto].
    + destruct (if Nat.eqb n 1 then Ok j else JsonModel.element js i) as [x|]; [|discriminate]. cbn [bind].
      destruct (rd s x o) as [[v|]|] eqn:Ev; try discriminate. cbn [thenr].
      destruct (read_seq rd n j js l olds (S i)) as [[r|]|] eqn:E; try discriminate. intros X. injection X as <-.
      destruct (IH _ _ _ E) as (L & P). split; [cbn; now rewrite L|]. intros [|k] s' o' v' A B C; cbn in A, B, C; [|eauto].
      right. exists x. congruence.
Qed.
Lemma read_seq_length l j olds v : rd (SSeq l) j (VSeq olds) = Ok (Some v) -> exists vs, v = VSeq vs /\ length vs = length l /\
  forall k s o w, nth_error l k = Some s -> nth_error olds k = Some o -> nth_error vs k = Some w -> w = o \/ exists x, rd s x o = Ok (Some w).
Proof.
  cbn [read]. destruct (elements _ _) as [js|]; [|discriminate]. destruct (read_seq _ _ _ _ _ _ _) as [[vs|]|] eqn:E; try discriminate.
  intros X. injection X as <-. destruct (read_seq_parts _ _ _ _ _ _ _ E). eauto.
Qed.

Lemma unboxed unbox : forall l vs, length vs = length l -> length (unbox_all unbox l vs) = length l.
Proof. induction l as [|s l IH]; intros [|v vs] E; try discriminate; [reflexivity|]. cbn. f_equal. apply IH. now injection E. Qed.
Lemma fields_typed unbox : forall l vs, length vs = length l ->
  Forall2 (fun e f => match e, f with
                      | EUid _, FUid _ | EPayload (CEntity _), FPayload (Entity _) | EPayload CNotFound, FPayload NotFound
                      | EPayload CNotInSet, FPayload NotInSet | EPrivate _, FPrivate _ | ENoImpl, NoImpl => True
                      | _, _ => False
                      end) l (fields_of unbox l vs).
Proof.
  induction l as [|e l IH]; intros [|v vs] E; try discriminate; [constructor|]. cbn. constructor; [|apply IH; now injection E].
  now destruct e as [s|[s| |]|s|].
Qed.

Lemma read_typed unbox t j v m : rd (type_shape t) j (default (type_shape t)) = Ok (Some v) -> message_of unbox t v = Some m -> of_type t m.
Proof.
  intros R M. unfold type_shape in R. cbn [default] in R. apply read_seq_length in R as (vs & -> & L & P). cbn [map length] in L.
  destruct vs as [|p vs]; [discriminate|]. cbn in M. injection M as <-. injection L as L. rewrite map_length in L.
  repeat split. exists (path_of_value unbox t p), (fields_of unbox (t_rest t) vs). split; [reflexivity|]. split; [|now apply fields_typed].
  assert (K : length (match p with VSeq vs => unbox_all unbox (t_keys t) vs | _ => [] end) = length (t_keys t)).
  { specialize (P O _ _ _ eq_refl eq_refl eq_refl). unfold path_shape in P. destruct (no_keys t) eqn:Ek.
    - unfold no_keys in Ek. apply andb_true_iff in Ek as [_ Ek]. destruct (t_keys t); [|discriminate]. now destruct p.
    - cbn [default] in P. destruct P as [->|(x & R)]; [apply unboxed; now rewrite map_length|].
      apply read_seq_length in R as (ks & -> & Lk & _). now apply unboxed. }
  unfold path_of_value. destruct (t_create t) eqn:C; auto.
Qed.
End Typed.

Lemma alternative_at {R} (f : shape -> R) none : forall l n, alternative f none l n = match nth_error l n with Some s => f s | None => none end.
Proof. induction l as [|s l IH]; intros [|n]; cbn; auto. Qed.

Lemma text_typed unbox api sys integral_of double_of parse t m :
  read_text unbox api sys integral_of double_of parse t = NetModel.Message m -> exists ty, In ty api /\ of_type ty m.
Proof.
  unfold read_text, deserialize, from_string.
  set (M := message_variant sys (shapes api)).
  assert (D : match_message (default M) = Ok [UnknownError]) by reflexivity.
  destruct (parse t) as [j|]; [|now rewrite D].
  destruct (read integral_of double_of M j (default M)) as [[v|]|] eqn:R; [|now rewrite D|discriminate]. cbn [bind].
  destruct v as [| | | | | | |[|[|i]] v]; try discriminate. cbn [match_message].
  destruct (nth_error api i) as [ty|] eqn:E; [|discriminate]. destruct (message_of unbox ty v) as [m'|] eqn:Em; [|discriminate].
  intros X. injection X as <-. exists ty. split; [eapply nth_error_In; eauto|].
  unfold M, message_variant in R. cbn [read] in R. destruct (variant_id integral_of j) as [id|]; [|discriminate].
  destruct (negb _); [discriminate|]. rewrite alternative_at in R.
  destruct (nth_error _ (Z.to_nat id)) as [s|] eqn:Es; [|discriminate]. destruct (is_empty s) eqn:Ie.
  - destruct (as_int integral_of j); [|discriminate]. cbn in R. injection R as Ei <-. rewrite Ei in Es. cbn in Es. unfold shapes in Es. erewrite map_nth_error in Es by eauto.
    injection Es as <-. discriminate.
  - destruct j as [| | | | |[|ji [|x [|]]]|]; try discriminate. destruct (as_int integral_of ji); [|discriminate].
    destruct (read integral_of double_of s x (default s)) as [[w|]|] eqn:Rw; try discriminate. cbn in R. injection R as Ei ->.
    rewrite Ei in Es. cbn in Es. unfold shapes in Es. erewrite map_nth_error in Es by eauto. injection Es as <-.
    eapply read_typed; eauto.
Qed.

(* ---- an API with more messages at the end ---- *)
Section More.
Variable box : shape -> N -> value.
Variable unbox : shape -> value -> N.
Variables api more : list message_type.
Variable sys : shape.
Variable integral_of : N -> option Z.
Variable double_of : Z -> N.
Variable print : json -> bytes.
Variable parse : bytes -> option json.
Hypothesis Hprint : prints print parse.

Lemma locate_more m i v : locate box api m = Some (i, v) -> locate box (api ++ more) m = Some (i, v).
Proof.
  revert i v. induction api as [|t l IH]; intros i v E; [discriminate|]. cbn in *. destruct (value_of box t m); [exact E|].
  destruct (locate box l m) as [[k w]|]; [|discriminate]. now rewrite (IH k w eq_refl).
Qed.
Lemma locate_nth : forall l m i v, locate box l m = Some (i, v) -> exists t, nth_error l i = Some t /\ value_of box t m = Some v.
Proof.
  induction l as [|t l IH]; intros m i v E; [discriminate|]. cbn in E. destruct (value_of box t m) eqn:V; [injection E as <- <-; exists t; auto|].
  destruct (locate box l m) as [[k w]|] eqn:L; [|discriminate]. injection E as <- <-. exact (IH _ _ _ L).
Qed.
Lemma carried_located l m : carried box unbox l m -> exists i v, locate box l m = Some (i, v).
Proof.
  intros (t & H & K & I & p & fs & S & Hp & Hf). destruct (value_travels box unbox t m p fs K I S Hp Hf) as (v & V & _).
  destruct (locate_in box l m t v H V) as (i & _ & v' & L & _). eauto.
Qed.
Lemma text_more m : carried box unbox api m -> text_of box (api ++ more) sys print m = text_of box api sys print m.
Proof.
  intros C. destruct (carried_located _ _ C) as (i & v & L). unfold text_of. rewrite L, (locate_more _ _ _ L).
  destruct (locate_nth _ _ _ _ L) as (t & T & _). unfold serialize, message_variant, shapes. cbn [write].
  rewrite !alternative_at. cbn [nth_error]. rewrite map_app, nth_error_app1; [reflexivity|]. rewrite map_length. apply nth_error_Some. congruence.
Qed.
Lemma text_unknown m : numbered (api ++ more) -> (forall t, In t api -> ~ of_type t m) -> carried box unbox more m -> one_type (api ++ more) ->
  read_text unbox api sys integral_of double_of parse (text_of box (api ++ more) sys print m) = Refused.
Proof.
  intros Nb No C One.
  assert (C' : carried box unbox (api ++ more) m) by (destruct C as (t & H & Q); exists t; split; [apply in_or_app; now right|exact Q]).
  destruct C' as (t & H & K & I & p & fs & S & Hp & Hf). destruct (value_travels box unbox t m p fs K I S Hp Hf) as (v & V & W & B).
  destruct (locate_in box _ m t v H V) as (i & t' & v' & L & T & V').
  assert (t' = t) as -> by (eapply One; eauto using value_of_type, nth_error_In). assert (v' = v) as -> by congruence.
  assert (Hi : (length api <= i)%nat).
  { apply Nat.nlt_ge. intros Lt. rewrite nth_error_app1 in T by exact Lt. apply (No t); [eapply nth_error_In; eauto|]. eapply value_of_type; eauto. }
  assert (Hi' : (i < length (api ++ more))%nat) by (apply nth_error_Some; congruence).
  assert (W' : writable (message_variant sys (shapes (api ++ more))) (VVar (Datatypes.S (Datatypes.S i)) v)).
  { apply writable_var with (s := type_shape t); auto; [unfold shapes; now rewrite nth_error_map, T|unfold shapes; rewrite map_length; exact Nb]. }
  destruct (C64_message integral_of double_of parse sys (shapes (api ++ more)) i v W') as (j & E & _).
  unfold text_of. rewrite L, E. unfold read_text, deserialize, from_string. rewrite Hprint.
  enough (R : read integral_of double_of (message_variant sys (shapes api)) j (default (message_variant sys (shapes api))) = Ok (Some (default (message_variant sys (shapes api))))) by now rewrite R.
  assert (Vi : variant_id integral_of j = Some (Z.of_nat i + 2)%Z).
  { assert (A : as_int integral_of (JInt (Z.of_nat i + 2)) = Some (Z.of_nat i + 2)%Z).
    { unfold as_int. cbn [integral]. unfold numbered in Nb. replace (_ && _)%bool with true; [reflexivity|]. symmetry. apply andb_true_iff. split; apply Z.leb_le; lia. }
    unfold serialize, message_variant in E. cbn [write] in E. rewrite alternative_at in E. cbn [nth_error] in E. unfold shapes in E. rewrite nth_error_map, T in E. cbn [option_map] in E.
    replace (Z.of_nat (Datatypes.S (Datatypes.S i))) with (Z.of_nat i + 2)%Z in E by lia.
    destruct (is_empty (type_shape t)); [injection E as <-; exact A|]. destruct (write (type_shape t) v) as [w|]; [|discriminate]. injection E as <-. exact A. }
  unfold message_variant. cbn [read]. rewrite Vi.
  replace (negb _) with true; [reflexivity|]. symmetry. apply negb_true_iff, andb_false_iff. right. apply Z.ltb_ge. cbn [length]. unfold shapes. rewrite map_length. lia.
Qed.
End More.
