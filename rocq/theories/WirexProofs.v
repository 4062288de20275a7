(* Exactly which messages arrive as JSON texts. *)
From Coq Require Import Lia.
From Verif Require Import Base StoreModel NetModel.
From Verif Require Import Base64Model JsonModel JsonSpec JsonProofs AppModel AppProps WireModel WireSpec WireProofs.
Open Scope N_scope.

Section Shape.
Variable integral_of : N -> option Z.
Variable double_of : Z -> N.
Notation rd := (read integral_of double_of).

Lemma decode_keeps x b r : base64_decode2 Fixed x b = Ok r -> length (snd r) = length b.
Proof.
  unfold base64_decode2. destruct (target_decoded_length x) as [n|]; [|discriminate]. cbn [bind prepare_output_buffer].
  destruct (N.of_nat (length b) =? n); cbn [negb]; [|intros E; injection E as <-; reflexivity]. destruct b as [|c b]; [intros E; injection E as <-; reflexivity|].
  destruct (validate x); cbn [negb]; [|intros E; injection E as <-; reflexivity]. unfold decode. destruct (N.eqb_spec (N.of_nat (length (decode_body (firstn (source_length_unpadded x) x)))) (N.of_nat (length (c :: b)))) as [Q|Q]; [|discriminate].
  intros E. injection E as <-. cbn [snd]. lia.
Qed.
Definition keeps (s : shape) : Prop := proper s -> forall j old v, has_shape s old -> rd s j old = Ok (Some v) -> has_shape s v.
Lemma keeps_seq l : Forall keeps l -> all_proper l -> forall n j js olds i vs, all_shaped l olds -> read_seq rd n j js l olds i = Ok (Some vs) -> all_shaped l vs.
Proof.
  induction 1 as [|s l Hs Hl IH]; intros P n j js [|o olds] i vs S E; try contradiction; [injection E as <-; exact I|]. destruct P as [P1 P2], S as [S1 S2].
  cbn [read_seq] in E. fold (read_seq rd n j js) in E. destruct (is_empty s).
  - apply thenr_ok in E as (r & E1 & E2). injection E2 as <-. split; [exact S1|eapply IH; eauto].
  - destruct (if Nat.eqb n 1 then Ok j else JsonModel.element js i) as [x|]; [|discriminate]. cbn [bind] in E. apply thenr_ok in E as (v & E1 & E2). apply thenr_ok in E2 as (r & E2 & E3). injection E3 as <-.
    split; [eapply Hs; eauto|eapply IH; eauto].
Qed.
Lemma keeps_map l : Forall (fun ns => keeps (snd ns)) l -> all_nproper l -> forall j olds vs, all_named l olds -> read_map rd j l olds = Ok (Some vs) -> all_named l vs.
Proof.
  induction 1 as [|[n s] l Hs Hl IH]; intros P j [|o olds] vs S E; try contradiction; [injection E as <-; exact I|]. destruct P as [P1 P2], S as [S1 S2].
  cbn [read_map] in E. fold (read_map rd j) in E. destruct (member n j) as [x|]; [|discriminate]. apply thenr_ok in E as (v & E1 & E2). apply thenr_ok in E2 as (r & E2 & E3). injection E3 as <-.
  split; [eapply Hs; eauto|eapply IH; eauto].
Qed.
Lemma read_keeps s : keeps s.
Proof.
  induction s using shape_ind'; intros P j old v S E; cbn [read] in E.
  - destruct (as_int integral_of j); [|discriminate]. injection E as <-. exact I.
  - destruct (as_uint integral_of j); [|discriminate]. injection E as <-. exact I.
  - destruct (as_uint integral_of j); [|discriminate]. injection E as <-. exact I.
  - destruct j; try discriminate; injection E as <-; exact I.
  - destruct j; try discriminate; injection E as <-; exact I.
  - destruct j; try discriminate. destruct old as [| | |b| | | |]; try (destruct n; contradiction); try discriminate.
    destruct (base64_decode2 _ (c_str s) b) as [r|] eqn:D; [|discriminate]. injection E as <-. destruct n as [k|]; [|exact I]. apply decode_keeps in D. cbn in S |- *. congruence.
  - injection E as <-. exact S.
  - destruct old as [| | | | |olds| |]; try contradiction. destruct (elements _ j) as [js|]; [|discriminate]. apply thenr_ok in E as (vs & E1 & E2). injection E2 as <-. exact (keeps_seq l H P _ _ _ _ _ _ S E1).
  - destruct old as [| | | | |olds| |]; try contradiction. apply thenr_ok in E as (vs & E1 & E2). injection E2 as <-. exact (keeps_map l H P _ _ _ S E1).
  - destruct j as [| | | | |js|]; try discriminate. destruct old as [| | | | | |olds|]; try contradiction. apply thenr_ok in E as (vs & E1 & E2). injection E2 as <-. apply cont_shape. apply Forall_app. split; [apply cont_shape, S|].
    clear S. revert vs E1. induction js as [|x js IHj]; intros vs E1; cbn [read_cont] in E1; [injection E1 as <-; constructor|]. apply thenr_ok in E1 as (w & E1 & E2). apply thenr_ok in E2 as (r & E2 & E3). injection E3 as <-.
    constructor; [eapply IHs; [exact P|apply default_shape; exact P|exact E1]|apply IHj; exact E2].
  - destruct P as [_ P]. change (all_proper l) in P. destruct (variant_id integral_of j) as [id|]; [|discriminate]. destruct (negb _); [injection E as <-; exact S|].
    rewrite alternative_nth in E. destruct (nth_error l (Z.to_nat id)) as [s|] eqn:En; [|discriminate]. pose proof (all_proper_nth l _ s P En) as Ps. destruct (is_empty s) eqn:Em.
    + destruct (as_int integral_of j); [|discriminate]. injection E as <-. apply shaped_nth with s; [exact En|apply default_shape; exact Ps].
    + destruct j as [| | | | |[|a [|b [|]]]|]; try discriminate. destruct (as_int integral_of a); [|discriminate]. apply thenr_ok in E as (w & E1 & E2). injection E2 as <-.
      apply shaped_nth with s; [exact En|]. rewrite Forall_forall in H. eapply (H s (nth_error_In _ _ En) Ps); [apply default_shape; exact Ps|exact E1].
Qed.
End Shape.

Section Exact.
Variable box : shape -> N -> value.
Variable unbox : shape -> value -> N.
Notation stands := (stands box unbox).

Lemma keys_value l ns : Forall2 stands l ns -> exists vs, box_all box l ns = Some vs /\ all_shaped l vs /\ all_short vs /\
  (forall ws, all_shaped l ws -> unbox_all unbox l ws = ns -> ws = vs) /\ (writable_all l vs -> Forall2 (travels box unbox) l ns).
Proof.
  induction 1 as [|s n l ns (A & B & C) H (vs & E1 & E2 & E3 & E4 & E5)].
  - exists []. cbn. repeat split; auto. intros [|] ? ?; [reflexivity|contradiction].
  - exists (box s n :: vs). cbn. rewrite E1. repeat split; auto.
    + intros [|w ws] S U; [contradiction|]. destruct S as [S1 S2]. injection U as U1 U2. f_equal; [apply C; assumption|apply E4; assumption].
    + intros [W1 W2]. constructor; [|auto]. split; [exact W1|]. apply C; auto.
Qed.
Definition part (e : element) (f : field) : Prop :=
  match e, f with
  | EUid s, FUid n | EPayload (CEntity s), FPayload (Entity n) | EPrivate s, FPrivate n => stands s n
  | EPayload CNotFound, FPayload NotFound | EPayload CNotInSet, FPayload NotInSet | ENoImpl, NoImpl => True
  | _, _ => False
  end.
Lemma part_value e f : part e f -> exists v, element_value box e f = Some v /\ has_shape (element_shape e) v /\ short_in v /\
  (forall w, has_shape (element_shape e) w -> field_of unbox e w = f -> w = v) /\ (writable (element_shape e) v -> field_travels box unbox e f).
Proof.
  destruct e as [s|[s| |]|s|], f as [| |[| |]| | |]; cbn; try contradiction;
    try (intros _; exists VEmpty; cbn; repeat split; auto; intros [| | | | | | |]; cbn; try contradiction; reflexivity);
    intros (A & B & C); (eexists; split; [reflexivity|]; split; [exact A|]; split; [exact B|]; split; [intros w S U; injection U as U; apply C; assumption|intros W; split; [exact W|apply C; auto]]).
Qed.
Lemma parts_value l fs : Forall2 part l fs -> exists vs, element_values box l fs = Some vs /\ all_shaped (map element_shape l) vs /\ all_short vs /\
  (forall ws, all_shaped (map element_shape l) ws -> fields_of unbox l ws = fs -> ws = vs) /\ (writable_all (map element_shape l) vs -> Forall2 (field_travels box unbox) l fs).
Proof.
  induction 1 as [|e f l fs A H (vs & E1 & E2 & E3 & E4 & E5)].
  - exists []. cbn. repeat split; auto. intros [|] ? ?; [reflexivity|contradiction].
  - destruct (part_value _ _ A) as (v & F1 & F2 & F3 & F4 & F5). exists (v :: vs). cbn. rewrite F1, E1. repeat split; auto.
    + intros [|w ws] S U; [contradiction|]. destruct S as [S1 S2]. injection U as U1 U2. f_equal; [apply F4; assumption|apply E4; assumption].
    + intros [W1 W2]. constructor; auto.
Qed.
Lemma seq_writable_all l vs : writable (SSeq l) (VSeq vs) -> writable_all l vs.
Proof. cbn. revert vs. induction l as [|s l IH]; intros [|v vs]; cbn; tauto. Qed.
Lemma path_meant t p :
  match p with
  | PPath q => t_create t = false /\ ptype q = t_path t /\ Forall2 stands (t_keys t) (keys q)
  | PCreate ty ks => t_create t = true /\ ty = t_path t /\ Forall2 stands (t_keys t) ks
  end -> exists v, path_value box t p = Some v /\ has_shape (path_shape t) v /\ short_in v /\
    (forall w, has_shape (path_shape t) w -> path_of_value unbox t w = p -> w = v) /\ (writable (path_shape t) v -> path_travels box unbox t p).
Proof.
  unfold path_value, path_shape, path_of_value, path_travels, no_keys. destruct p as [[ty ks]|ty ks]; cbn [ptype keys].
  - intros (-> & -> & F). destruct (keys_value _ _ F) as (vs & E1 & E2 & E3 & E4 & E5). rewrite Nat.eqb_refl, E1. cbn [negb andb option_map]. destruct (t_keys t) as [|k r] eqn:K.
    + exists VEmpty. split; [reflexivity|]. split; [exact I|]. split; [exact I|]. split; [intros [| | | | | | |]; cbn; try contradiction; reflexivity|]. intros _. split; [reflexivity|]. split; [reflexivity|]. inversion F. constructor.
    + exists (VSeq vs). split; [reflexivity|]. split; [exact E2|]. split; [exact E3|]. split; [|intros W; split; [reflexivity|]; split; [reflexivity|]; apply E5, seq_writable_all, W].
      intros w S U. destruct w as [| | | | |ws| |]; try contradiction. f_equal. apply E4; [exact S|]. injection U as U. exact U.
  - intros (-> & -> & F). destruct (keys_value _ _ F) as (vs & E1 & E2 & E3 & E4 & E5). rewrite Nat.eqb_refl, E1. cbn [negb andb option_map].
    exists (VSeq vs). split; [reflexivity|]. split; [exact E2|]. split; [exact E3|]. split; [|intros W; split; [reflexivity|]; split; [reflexivity|]; apply E5, seq_writable_all, W].
    intros w S U. destruct w as [| | | | |ws| |]; try contradiction. f_equal. apply E4; [exact S|]. injection U as U. exact U.
Qed.
Lemma value_meant t m : meant box unbox t m -> exists v, value_of box t m = Some v /\ has_shape (type_shape t) v /\ short_in v /\
  (forall w, has_shape (type_shape t) w -> message_of unbox t w = Some m -> w = v) /\ (writable (type_shape t) v -> forall api, In t api -> carried box unbox api m).
Proof.
  intros (K & I & p & fs & S & Hp & Hf). destruct (path_meant _ _ Hp) as (v & A1 & A2 & A3 & A4 & A5). destruct (parts_value _ _ Hf) as (vs & B1 & B2 & B3 & B4 & B5).
  exists (VSeq (v :: vs)). unfold value_of. rewrite S, <- K, <- I, (proj2 (kind_eqb_true _ _) eq_refl), N.eqb_refl, A1, B1. cbn [andb].
  split; [reflexivity|]. split; [split; assumption|]. split; [split; assumption|]. split.
  - intros w Sw U. destruct w as [| | | | |ws| |]; try contradiction. destruct ws as [|w ws]; [contradiction|]. destruct Sw as [S1 S2]. cbn [message_of] in U. injection U as U. rewrite <- U in S. cbn [storage] in S. injection S as S3 S4.
    f_equal. f_equal; [apply A4|apply B4]; assumption.
  - intros W api H. apply seq_writable_all in W as [W1 W2]. exists t. split; [exact H|]. split; [exact K|]. split; [exact I|]. exists p, fs. auto.
Qed.
Lemma decent_shape t : decent t -> sensible (type_shape t) /\ proper (type_shape t).
Proof.
  unfold decent, part_shapes. rewrite Forall_app. intros [A B].
  assert (G : all_sensible (map element_shape (t_rest t)) /\ all_proper (map element_shape (t_rest t))).
  { clear A. induction (t_rest t) as [|e r IH]; cbn; [auto|]. cbn [flat_map] in B. apply Forall_app in B as [B1 B2]. destruct (IH B2) as [I1 I2].
    assert (X : sensible (element_shape e) /\ proper (element_shape e)) by (destruct e as [s|[s| |]|s|]; cbn in B1 |- *; auto; inversion B1; assumption). destruct X. auto. }
  assert (K : sensible (path_shape t) /\ proper (path_shape t)).
  { unfold path_shape. destruct (no_keys t); [cbn; auto|]. clear - A. induction A as [|s l (P & Q) A [I1 I2]]; cbn; auto. }
  destruct G, K. split; split; assumption.
Qed.

Section Api.
Variable api : list message_type.
Variable sys : shape.
Variable integral_of : N -> option Z.
Variable double_of : Z -> N.
Variable print : json -> bytes.
Variable parse : bytes -> option json.
Hypothesis Hprint : prints print parse.

Lemma text_arrives m t : one_type api -> numbered api -> In t api -> decent t -> meant box unbox t m ->
  read_text unbox api sys integral_of double_of parse (text_of box api sys print m) = NetModel.Message m -> carried box unbox api m.
Proof.
  intros O Nb H Dc Mt R. destruct (value_meant t m Mt) as (v & V & Sv & Sh & U & W). destruct (locate_in box api m t v H V) as (i & t' & v' & L & T & V').
  assert (t' = t) as -> by (eapply O; eauto using value_of_type, nth_error_In). assert (v' = v) as -> by congruence.
  destruct (decent_shape t Dc) as [Sn Pr]. destruct (write_total (type_shape t) v Sv Sh) as (j & Wj).
  assert (Nt : nth_error (shapes api) i = Some (type_shape t)) by (unfold shapes; now rewrite nth_error_map, T).
  assert (Li : (i < length api)%nat) by (apply nth_error_Some; congruence).
  assert (E : serialize sys (shapes api) i v = Ok (JArray [JInt (Z.of_nat (S (S i))); j])).
  { unfold serialize, message_variant. cbn [write]. rewrite alternative_nth. cbn [nth_error]. rewrite Nt. cbn [type_shape is_empty]. change (SSeq (path_shape t :: map element_shape (t_rest t))) with (type_shape t). rewrite Wj. reflexivity. }
  unfold text_of in R. rewrite L, E in R. unfold read_text, deserialize, from_string in R. rewrite Hprint in R.
  assert (Rd : read integral_of double_of (message_variant sys (shapes api)) (JArray [JInt (Z.of_nat (S (S i))); j]) (default (message_variant sys (shapes api))) =
               thenr (read integral_of double_of (type_shape t) j (default (type_shape t))) (fun w => Ok (Some (VVar (S (S i)) w)))).
  { unfold message_variant. cbn [read]. unfold variant_id, as_int. cbn [integral]. unfold numbered in Nb.
    assert (F : ((-2147483648 <=? Z.of_nat (S (S i))) && (Z.of_nat (S (S i)) <=? 2147483647))%Z = true) by (apply andb_true_intro; split; apply Z.leb_le; lia).
    rewrite F. replace (negb _) with false.
    - rewrite Nat2Z.id, alternative_nth. cbn [nth_error]. rewrite Nt. cbn [type_shape is_empty]. reflexivity.
    - symmetry. apply Bool.negb_false_iff. apply andb_true_intro. split; [apply Z.leb_le; lia|apply Z.ltb_lt]. cbn [length]. unfold shapes. rewrite map_length. lia. }
  rewrite Rd in R. clear Rd. destruct (read integral_of double_of (type_shape t) j (default (type_shape t))) as [[w|]|] eqn:Rw; cbn [thenr bind] in R; [|discriminate|discriminate].
  cbn [match_message] in R. rewrite T in R. destruct (message_of unbox t w) as [m'|] eqn:Mw; [|discriminate]. injection R as ->.
  assert (w = v) as -> by (apply U; [eapply read_keeps; [exact Pr|apply default_shape; exact Pr|exact Rw]|exact Mw]).
  apply W; [|exact H]. exact (round_trip_only integral_of double_of (type_shape t) Sn v j Sv (short_bytes v Sh) Wj Rw).
Qed.
End Api.
End Exact.
