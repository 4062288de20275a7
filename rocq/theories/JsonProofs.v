From Verif Require Import Base Base64Model Base64Spec Base64Proofs JsonModel JsonSpec.
Open Scope N_scope.

Section ShapeInd.
Variable P : shape -> Prop.
Hypothesis H1 : P SInt. Hypothesis H2 : P SUInt. Hypothesis H3 : P SEnum. Hypothesis H4 : P SDouble. Hypothesis H5 : P SString.
Hypothesis H6 : forall n, P (SBuffer n). Hypothesis H7 : P SEmpty.
Hypothesis H8 : forall l, Forall P l -> P (SSeq l).
Hypothesis H9 : forall l, Forall (fun ns => P (snd ns)) l -> P (SMap l).
Hypothesis H10 : forall s, P s -> P (SCont s).
Hypothesis H11 : forall l, Forall P l -> P (SVar l).
Fixpoint shape_ind' (s : shape) : P s :=
  let all := fix go (l : list shape) : Forall P l := match l with [] => Forall_nil P | x :: r => Forall_cons x (shape_ind' x) (go r) end in
  match s with
  | SInt => H1 | SUInt => H2 | SEnum => H3 | SDouble => H4 | SString => H5 | SBuffer n => H6 n | SEmpty => H7
  | SSeq l => H8 l (all l)
  | SMap l => H9 l ((fix go (l : list (bytes * shape)) : Forall (fun ns => P (snd ns)) l :=
                       match l with [] => Forall_nil _ | x :: r => Forall_cons x (shape_ind' (snd x)) (go r) end) l)
  | SCont s => H10 s (shape_ind' s)
  | SVar l => H11 l (all l)
  end.
End ShapeInd.

Lemma is_empty_iff s : is_empty s = true <-> s = SEmpty.
Proof. destruct s; cbn; split; congruence. Qed.

Lemma alternative_nth {R} (f : shape -> R) d l i : alternative f d l i = match nth_error l i with Some s => f s | None => d end.
Proof. revert i; induction l as [|s l IH]; intros [|i]; cbn; auto. Qed.

(* ---- strings ---- *)
Lemma c_str_spec x : CString x (c_str x).
Proof.
  induction x as [|c x [IH1 IH2]]; cbn; [split; [intros []|now left]|]. destruct (N.eqb_spec c 0) as [->|Hc].
  - split; [intros []|]. right. exists x. reflexivity.
  - split; [intros [E|E]; [congruence|auto]|]. destruct IH2 as [E|(r & E)]; [left|right; exists r]; cbn; now rewrite <- E.
Qed.

Lemma c_str_same x : ~ In 0 x -> c_str x = x.
Proof.
  induction x as [|c x IH]; cbn; intros H; [reflexivity|]. destruct (N.eqb_spec c 0) as [->|]; [tauto|]. rewrite IH; tauto.
Qed.

Lemma CString_inj x y : CString x y -> y = c_str x.
Proof.
  intros [H1 [->|(r & ->)]]; [now rewrite c_str_same|].
  induction y as [|c y IH]; cbn; [reflexivity|]. cbn in H1. destruct (N.eqb_spec c 0) as [->|]; [tauto|]. f_equal. tauto.
Qed.

Lemma c_str_ok x : all_bytes x -> 3 * N.of_nat (length x) < 2 ^ 31 -> all_bytes (c_str x) /\ 3 * N.of_nat (length (c_str x)) < 2 ^ 31.
Proof.
  intros Hb Hl. destruct (c_str_spec x) as [_ [E|(r & E)]]; [rewrite <- E; auto|]. split.
  - rewrite E in Hb. apply Forall_app in Hb. apply Hb.
  - apply (f_equal (@length N)) in E. rewrite app_length in E. cbn in E. lia.
Qed.

(* ---- buffers ---- *)
Lemma wf_no_nul s : WellFormed s -> ~ In 0 s.
Proof.
  intros (body & p & -> & _ & Hb & _) HI. apply in_app_iff in HI as [HI|HI].
  - rewrite Forall_forall in Hb. apply Hb in HI as (v & Hv & E). unfold digit_char in E.
    repeat match type of E with context [if ?b then _ else _] => destruct b end; lia.
  - apply repeat_spec in HI. discriminate.
Qed.

Lemma decoding_length s l : IsDecoding s l -> N.of_nat (length l) = 3 * N.of_nat (source_length_unpadded s) / 4.
Proof.
  intros (ds & p & rest & -> & Hp & Hd & Hbits & Hr). rewrite unpadded_body by exact Hd.
  apply (f_equal (@length bool)) in Hbits. rewrite app_length, digit_bits_length, bit_string_length in Hbits. lia.
Qed.

Definition kind (n : option nat) : out_kind := match n with Some _ => Fixed | None => Dynamic end.

Lemma buffer_result n x b : all_bytes x -> 3 * N.of_nat (length x) < 2 ^ 31 -> match n with Some k => length b = k | None => True end ->
  exists ok new, base64_decode2 (kind n) x b = Ok (ok, new) /\ (buffer_good n x b new \/ buffer_bad n x b new).
Proof.
  intros Hb Hl Hn. pose proof (decode2_total (kind n) x b Hb Hl) as T.
  destruct (base64_decode2 (kind n) x b) as [[ok new]|] eqn:E; [|congruence]. exists ok, new. split; [reflexivity|].
  assert (D : WellFormed x \/ ~ WellFormed x) by (rewrite <- (validate_iff x Hb); destruct (validate x); auto).
  destruct n as [k|]; cbn in E.
  - assert (L : length new = length b).
    { destruct ok; [|apply decode2_fixed_fail in E; congruence].
      destruct D as [D|D]; [apply (decode2_fixed_success x b new Hb Hl D E)|].
      unfold base64_decode2 in E. destruct (target_decoded_length x) as [a|]; [|discriminate]. cbn [bind prepare_output_buffer] in E.
      destruct (N.of_nat (length b) =? a); cbn [negb] in E; [|discriminate]. destruct b as [|c b]; [congruence|].
      destruct (validate x) eqn:V; [exfalso; apply D; now apply validate_sound|discriminate]. }
    destruct D as [D|D].
    + destruct ok.
      * left. destruct (decode2_fixed_success x b new Hb Hl D E) as [L' I]. repeat split; auto. congruence.
      * right. split; [congruence|]. intros (g & _ & I & Lg). apply decoding_length in I.
        assert (N.of_nat (length b) = 3 * N.of_nat (source_length_unpadded x) / 4) as HL by congruence.
        unfold base64_decode2 in E. rewrite target_ok in E by exact Hl. cbn [bind prepare_output_buffer] in E. rewrite HL, N.eqb_refl in E. cbn [negb] in E.
        destruct b as [|c b]; [discriminate|]. rewrite (validate_complete x D) in E. cbn [negb] in E. destruct (decode x _); discriminate.
    + right. split; [congruence|]. intros (g & W & _). auto.
  - destruct D as [D|D].
    + left. destruct (decode2_wf x b Hb Hl D) as (l & E' & I). assert (l = new) as -> by congruence. repeat split; auto.
    + right. split; [exact I|]. intros (g & W & _). auto.
Qed.

(* ---- numbers ---- *)
Section Num.
Variable integral_of : N -> option Z.

Lemma integral_iff j z : integral integral_of j = Some z <-> Number integral_of j z.
Proof.
  unfold Number. destruct j; cbn; split; intros H; try discriminate; try (destruct H as [H|(d' & H & H')]; congruence).
  - left. congruence.
  - right. eauto.
Qed.

Lemma as_int_iff j z : as_int integral_of j = Some z <-> IntNumber integral_of j z.
Proof.
  unfold IntNumber. rewrite <- integral_iff. unfold as_int. destruct (integral integral_of j) as [z'|]; [|split; [discriminate|intros [X _]; discriminate]].
  destruct (Z.leb_spec (-2147483648) z'); destruct (Z.leb_spec z' 2147483647); cbn [andb]; split; intros X; try discriminate; try (destruct X as [X Y]; injection X as ->; lia).
  - injection X as ->. split; [reflexivity|lia].
  - destruct X as [X Y]. exact X.
Qed.

Lemma as_uint_iff j z : as_uint integral_of j = Some z <-> Number integral_of j z /\ (0 <= z < 2 ^ 32)%Z.
Proof.
  rewrite <- integral_iff. unfold as_uint. destruct (integral integral_of j) as [z'|]; [|split; [discriminate|intros [X _]; discriminate]].
  destruct (Z.leb_spec 0 z'); destruct (Z.leb_spec z' 4294967295); cbn [andb]; split; intros X; try discriminate; try (destruct X as [X Y]; injection X as ->; lia).
  - injection X as ->. split; [reflexivity|lia].
  - destruct X as [X Y]. exact X.
Qed.

Lemma variant_id_iff j z : variant_id integral_of j = Some z <-> exists t, IntNumber integral_of t z /\ (j = t \/ exists x, j = JArray [t; x]).
Proof.
  unfold variant_id. split.
  - destruct (integral integral_of j) as [z'|] eqn:I.
    + intros H. apply as_int_iff in H. eauto.
    + destruct j; try discriminate. destruct l as [|a [|b [|]]]; try discriminate. destruct (integral integral_of a); [|discriminate].
      intros H. apply as_int_iff in H. eauto.
  - intros (t & Ht & [->|(x & ->)]).
    + pose proof Ht as [Hn _]. apply integral_iff in Hn. rewrite Hn. now apply as_int_iff.
    + cbn. pose proof Ht as [Hn _]. apply integral_iff in Hn. rewrite Hn. now apply as_int_iff.
Qed.

(* ---- round trip ---- *)
Variable double_of : Z -> N.
Notation rd := (read integral_of double_of).

Lemma is_empty_default s v : is_empty s = true -> writable s v -> v = default s.
Proof. intros E W. apply is_empty_iff in E as ->. destruct v; cbn in W; try contradiction. reflexivity. Qed.

Lemma bytes_eqb_sym a b : bytes_eqb a b = bytes_eqb b a.
Proof. destruct (bytes_eqb_spec a b), (bytes_eqb_spec b a); congruence. Qed.

Lemma obj_set_fresh k j l : ~ In k (map fst l) -> obj_set k j l = l ++ [(k, j)].
Proof.
  induction l as [|[k' j'] l IH]; cbn; intros H; [reflexivity|]. destruct (bytes_eqb_spec k k') as [->|]; [tauto|]. rewrite IH by tauto. reflexivity.
Qed.

Lemma lookup_app k j l1 l2 : ~ In k (map fst l1) -> lookup k (l1 ++ (k, j) :: l2) = j.
Proof.
  induction l1 as [|[k' j'] l1 IH]; cbn; intros H; [now rewrite bytes_eqb_refl|]. destruct (bytes_eqb_spec k k') as [->|]; [tauto|]. apply IH. tauto.
Qed.

Definition survives (s : shape) : Prop := forall v, writable s v -> exists j, write s v = Ok j /\ rd s j (default s) = Ok (Some v).

Lemma write_seq_ok l : Forall survives l -> forall vs, writable (SSeq l) (VSeq vs) ->
  exists js, write_seq write l vs = Ok js /\ length js = count_nonempty l /\
    forall n j all i, (forall k x, nth_error js k = Some x -> (if Nat.eqb n 1 then Ok j else element all (i + k)) = Ok x) ->
      read_seq rd n j all l (map default l) i = Ok (Some vs).
Proof.
  induction 1 as [|s l Hs Hl IH]; intros vs W; destruct vs as [|v vs]; try contradiction.
  - exists []. repeat split.
  - cbn in W. destruct W as [Wv Wvs]. destruct (IH vs Wvs) as (js & E & L & R). unfold count_nonempty in *. cbn [write_seq filter map read_seq].
    destruct (is_empty s) eqn:EM.
    + exists js. split; [exact E|]. split; [exact L|]. intros n j all i H. fold (read_seq rd n j all). rewrite (R n j all i H). cbn. now rewrite (is_empty_default _ _ EM Wv).
    + destruct (Hs v Wv) as (j0 & Ew & Er). fold (write_seq write). rewrite Ew. cbn [bind]. rewrite E. cbn [bind].
      exists (j0 :: js). split; [reflexivity|]. split; [cbn; now rewrite L|]. intros n j all i H.
      rewrite <- (Nat.add_0_r i) at 1. rewrite (H 0%nat j0 eq_refl). cbn [bind]. rewrite Er. cbn [thenr].
      fold (read_seq rd n j all). rewrite (R n j all (S i)); [reflexivity|]. intros k x Hk. specialize (H (S k) x Hk). now rewrite Nat.add_succ_r in H.
Qed.

Lemma write_map_ok l : Forall (fun ns => survives (snd ns)) l -> forall vs acc, NoDup (map fst acc ++ map fst l) ->
  (fix go l vs := match l, vs with [], [] => True | ns :: l', v :: vs' => writable (snd ns) v /\ go l' vs' | _, _ => False end) l vs ->
  exists o, write_map write l vs acc = Ok (acc ++ o) /\ map fst o = map fst l /\
    forall post, read_map rd (JObject (acc ++ o ++ post)) l (map (fun ns => default (snd ns)) l) = Ok (Some vs).
Proof.
  induction 1 as [|[n s] l Hs Hl IH]; intros vs acc ND W; destruct vs as [|v vs]; try contradiction.
  - exists []. rewrite app_nil_r. repeat split.
  - destruct W as [Wv Wvs]. cbn [snd fst map] in *. destruct (Hs v Wv) as (j & Ew & Er). cbn [write_map]. rewrite Ew. cbn [bind].
    assert (NI : ~ In n (map fst acc)). { apply NoDup_remove_2 in ND. rewrite in_app_iff in ND. tauto. }
    rewrite obj_set_fresh by exact NI. fold (write_map write).
    destruct (IH vs (acc ++ [(n, j)])) as (o & E & M & R); [rewrite map_app; cbn; rewrite <- app_assoc; exact ND|exact Wvs|].
    exists ((n, j) :: o). rewrite E, <- app_assoc. split; [reflexivity|]. split; [cbn; now rewrite M|]. intros post.
    cbn [read_map member]. cbn [app]. rewrite lookup_app by exact NI. rewrite Er. cbn [thenr]. fold (read_map rd).
    specialize (R post). rewrite <- app_assoc in R. cbn [app] in R. fold (read_map rd (JObject (acc ++ (n, j) :: o ++ post))). rewrite R. reflexivity.
Qed.

Lemma write_cont_ok s : survives s -> forall vs,
  (fix go vs := match vs with [] => True | v :: vs' => writable s v /\ go vs' end) vs ->
  exists js, write_cont (write s) vs = Ok js /\ length js = length vs /\ read_cont (fun x => rd s x (default s)) js = Ok (Some vs).
Proof.
  intros Hs. induction vs as [|v vs IH]; intros W; [exists []; repeat split|].
  destruct W as [Wv Wvs]. destruct (Hs v Wv) as (j & Ew & Er). destruct (IH Wvs) as (js & E & L & R).
  exists (j :: js). cbn. rewrite Ew. cbn. fold (write_cont (write s)). rewrite E. cbn. rewrite L. repeat split. rewrite Er. cbn. fold (read_cont (fun x => rd s x (default s))). now rewrite R.
Qed.

Lemma var_writable l i v : (fix go l i := match l, i with [], _ => False | s :: _, O => writable s v | _ :: l', S i' => go l' i' end) l i ->
  exists s, nth_error l i = Some s /\ writable s v.
Proof. revert i; induction l as [|s l IH]; intros [|i] H; cbn in *; try contradiction; eauto. Qed.

Lemma round_trip s : survives s.
Proof.
  induction s using shape_ind'; intros v W; destruct v; cbn in W; try contradiction.
  - exists (JInt z). split; [reflexivity|]. cbn [read]. assert (as_int integral_of (JInt z) = Some z) as -> by (apply as_int_iff; split; [now left|lia]). reflexivity.
  - exists (JInt z). split; [reflexivity|]. cbn [read]. assert (as_uint integral_of (JInt z) = Some z) as -> by (apply as_uint_iff; split; [now left|lia]). reflexivity.
  - exists (JInt z). split; [reflexivity|]. cbn [read]. assert (as_uint integral_of (JInt z) = Some z) as -> by (apply as_uint_iff; split; [now left|lia]).
    cbn [option_map]. unfold to_enum. destruct (Z.leb_spec z 2147483647); [reflexivity|lia].
  - exists (JReal d). split; reflexivity.
  - exists (JString s). split; [reflexivity|]. cbn. now rewrite c_str_same.
  - destruct W as (Hb & Hl & Hn). destruct (base64_round_trip b Hb Hl) as (s & Ee & _ & Ed & Ef).
    destruct (encode_wf b s Hb Hl Ee) as (Hw & _). exists (JString s). split; [cbn; unfold encode_or; now rewrite Ee|].
    cbn [read default]. rewrite (c_str_same s) by now apply wf_no_nul.
    destruct n as [k|]; [rewrite Ef; [reflexivity|rewrite repeat_length; auto]|rewrite Ed; reflexivity].
  - exists JNull. split; reflexivity.
  - destruct (write_seq_ok l H l0 W) as (js & E & L & R). exists (bind_sequence_write js). split; [cbn; now rewrite E|].
    cbn [read default]. unfold elements. rewrite <- L.
    destruct js as [|x [|y js]]; cbn [length bind_sequence_write].
    + rewrite (R 0%nat JNull [] 0%nat); [reflexivity|]. intros [|k] z Hk; discriminate.
    + rewrite (R 1%nat x [] 0%nat); [reflexivity|]. intros [|[|k]] z Hk; cbn in Hk |- *; congruence.
    + rewrite Nat.eqb_refl. rewrite R; [reflexivity|]. intros k z Hk. cbn [Nat.eqb plus]. unfold element. now rewrite Hk.
  - destruct W as [ND W]. destruct (write_map_ok l H l0 [] ND W) as (o & E & M & R). cbn [write]. rewrite E. cbn [app bind].
    destruct o as [|kx o].
    + exists JNull. split; [reflexivity|]. cbn in M. destruct l; [|discriminate]. destruct l0; [reflexivity|contradiction].
    + exists (JObject (kx :: o)). split; [reflexivity|]. specialize (R []). cbn [app] in R. rewrite app_nil_r in R. cbn [read default]. rewrite R. reflexivity.
  - destruct W as [NE W]. destruct (write_cont_ok s IHs l W) as (js & E & L & R). cbn [write]. rewrite E. cbn [bind].
    exists (JArray js). split; [destruct js; [destruct l; [congruence|discriminate]|reflexivity]|]. cbn [read default]. rewrite R. reflexivity.
  - destruct W as [LL W]. apply var_writable in W as (s & Hs & W). rewrite Forall_forall in H.
    pose proof (H s (nth_error_In _ _ Hs) v W) as (j & Ew & Er). cbn [write]. rewrite alternative_nth, Hs.
    assert (HI : (type_id < length l)%nat) by (apply nth_error_Some; congruence).
    assert (N1 : as_int integral_of (JInt (Z.of_nat type_id)) = Some (Z.of_nat type_id)) by (apply as_int_iff; split; [now left|lia]).
    destruct (is_empty s) eqn:EM.
    + eexists. split; [reflexivity|]. cbn [read]. unfold variant_id. cbn [integral]. rewrite N1.
      destruct (Z.leb_spec 0 (Z.of_nat type_id)); [|lia]. destruct (Z.ltb_spec (Z.of_nat type_id) (Z.of_nat (length l))); [|lia]. cbn [negb andb].
      rewrite Nat2Z.id, alternative_nth, Hs, EM. cbn [option_map]. now rewrite (is_empty_default _ _ EM W).
    + rewrite Ew. cbn [bind]. eexists. split; [reflexivity|]. cbn [read]. unfold variant_id. cbn [integral]. rewrite N1.
      destruct (Z.leb_spec 0 (Z.of_nat type_id)); [|lia]. destruct (Z.ltb_spec (Z.of_nat type_id) (Z.of_nat (length l))); [|lia]. cbn [negb andb].
      rewrite Nat2Z.id, alternative_nth, Hs, EM, Er. reflexivity.
Qed.
End Num.

(* ---- reading anything ---- *)
Definition all_shaped := fix go (l : list shape) (vs : list value) : Prop :=
  match l, vs with [], [] => True | s :: l', v :: vs' => has_shape s v /\ go l' vs' | _, _ => False end.
Definition all_named := fix go (l : list (bytes * shape)) (vs : list value) : Prop :=
  match l, vs with [], [] => True | ns :: l', v :: vs' => has_shape (snd ns) v /\ go l' vs' | _, _ => False end.
Definition all_docs := fix go (l : list json) : Prop := match l with [] => True | x :: r => doc_ok x /\ go r end.
Definition all_members := fix go (l : list (bytes * json)) : Prop := match l with [] => True | kx :: r => doc_ok (snd kx) /\ go r end.
Definition all_proper := fix go (l : list shape) : Prop := match l with [] => True | s :: r => proper s /\ go r end.
Definition all_nproper := fix go (l : list (bytes * shape)) : Prop := match l with [] => True | ns :: r => proper (snd ns) /\ go r end.

Lemma all_docs_nth l k x : all_docs l -> nth_error l k = Some x -> doc_ok x.
Proof. revert k; induction l as [|y l IH]; intros [|k] H E; cbn in *; try discriminate; [|destruct H; eauto]. injection E as <-. tauto. Qed.

Lemma all_proper_nth l k x : all_proper l -> nth_error l k = Some x -> proper x.
Proof. revert k; induction l as [|y l IH]; intros [|k] H E; cbn in *; try discriminate; [|destruct H; eauto]. injection E as <-. tauto. Qed.

Lemma default_shape s : proper s -> has_shape s (default s).
Proof.
  induction s using shape_ind'; intros Hp; cbn; try exact I.
  - destruct n; [apply repeat_length|exact I].
  - cbn in Hp. revert Hp. induction H as [|s l Hs Hl IH]; cbn; [auto|]. intros [P1 P2]. split; [apply Hs|apply IH]; assumption.
  - cbn in Hp. revert Hp. induction H as [|s l Hs Hl IH]; cbn; [auto|]. intros [P1 P2]. split; [apply Hs|apply IH]; assumption.
  - destruct l as [|s l]; [now destruct Hp|]. inversion H; subst. destruct Hp as [_ [Hp _]]. auto.
Qed.

Lemma shaped_nth l i v s : nth_error l i = Some s -> has_shape s v -> has_shape (SVar l) (VVar i v).
Proof. revert i; induction l as [|s' l IH]; intros [|i] E H; cbn in *; try discriminate; [now injection E as ->|]. exact (IH i E H). Qed.

Section Any.
Variable integral_of : N -> option Z.
Variable double_of : Z -> N.
Notation rd := (read integral_of double_of).
Definition buffer_any n x old new := buffer_good n x old new \/ buffer_bad n x old new.
Notation Rd := (Reads integral_of double_of buffer_any).
Notation Ms := (Members integral_of double_of buffer_any).
Notation Fs := (Fields integral_of double_of buffer_any).
Notation Es := (Elements integral_of double_of buffer_any).

Definition outcome {A} (r : res (option A)) (P : A -> Prop) (Q : A -> Prop) : Prop :=
  match r with UB => False | Ok (Some v) => P v /\ Q v | Ok None => forall v, ~ P v end.

Definition sound (s : shape) : Prop := proper s -> forall j old, doc_ok j -> has_shape s old -> outcome (rd s j old) (Rd s j old) (has_shape s).

Lemma Members_length l js olds vs : Ms l js olds vs -> length js = count_nonempty l.
Proof.
  unfold count_nonempty. induction 1; cbn; [reflexivity|assumption|].
  destruct (is_empty s) eqn:E; [apply is_empty_iff in E; contradiction|]. cbn. now f_equal.
Qed.

Lemma seq_outcome l : Forall sound l -> all_proper l -> forall n j all olds js i, all_shaped l olds -> length js = count_nonempty l -> all_docs js ->
  (forall k x, nth_error js k = Some x -> (if Nat.eqb n 1 then Ok j else element all (i + k)) = Ok x) ->
  outcome (read_seq rd n j all l olds i) (Ms l js olds) (all_shaped l).
Proof.
  induction 1 as [|s l Hs Hl IH]; intros Hp n j all olds js i Hsh Hlen Hd Hk; destruct olds as [|o olds]; try contradiction.
  - destruct js; [|discriminate]. cbn. split; [constructor|exact I].
  - destruct Hp as [Hp1 Hp2]. destruct Hsh as [Hsh1 Hsh2]. unfold count_nonempty in Hlen. cbn [filter] in Hlen. cbn [read_seq].
    destruct (is_empty s) eqn:EM; cbn [negb] in Hlen.
    + apply is_empty_iff in EM as ->. specialize (IH Hp2 n j all olds js i Hsh2 Hlen Hd Hk). fold (read_seq rd n j all).
      destruct (read_seq rd n j all l olds i) as [[vs|]|]; cbn in *; [|intros vs M; inversion M; subst; [eapply IH; eassumption|congruence]|exact IH].
      destruct IH. split; [now constructor|split; auto].
    + assert (NE : s <> SEmpty) by (intros ->; discriminate).
      destruct js as [|x js]; [discriminate|]. cbn [length] in Hlen. injection Hlen as Hlen. destruct Hd as [Hd1 Hd2].
      pose proof (Hk 0%nat x eq_refl) as K0. rewrite Nat.add_0_r in K0. rewrite K0. cbn [bind].
      specialize (Hs Hp1 x o Hd1 Hsh1). destruct (rd s x o) as [[v|]|]; cbn [thenr outcome] in Hs |- *; [|intros vs M; inversion M; subst; [congruence|eapply Hs; eassumption]|exact Hs].
      fold (read_seq rd n j all).
      assert (Hk' : forall k y, nth_error js k = Some y -> (if Nat.eqb n 1 then Ok j else element all (S i + k)) = Ok y)
        by (intros k y E; specialize (Hk (S k) y E); now rewrite Nat.add_succ_r in Hk).
      specialize (IH Hp2 n j all olds js (S i) Hsh2 Hlen Hd2 Hk').
      destruct (read_seq rd n j all l olds (S i)) as [[vs|]|]; cbn [thenr outcome] in IH |- *; [|intros vs M; inversion M; subst; [congruence|eapply IH; eassumption]|exact IH].
      destruct Hs, IH. split; [now constructor|split; auto].
Qed.

Lemma lookup_find n l : lookup n l = match find (fun kv => bytes_eqb n (fst kv)) l with Some kv => snd kv | None => JNull end.
Proof. induction l as [|[k x] l IH]; cbn; [reflexivity|]. destruct (bytes_eqb n k); auto. Qed.

Lemma member_iff n j x : member n j = Some x <-> Member n j x.
Proof.
  unfold member, Member. split.
  - destruct j; intros E; try discriminate; injection E as <-; [now left|right]. eexists; split; [reflexivity|]. rewrite lookup_find. now destruct (find _ l).
  - intros [[-> ->]|(l & -> & E)]; [reflexivity|]. rewrite lookup_find. destruct (find _ l); now subst.
Qed.

Lemma member_doc n j x : doc_ok j -> member n j = Some x -> doc_ok x.
Proof.
  destruct j; cbn; intros D E; try discriminate; injection E as <-; [exact I|]. induction l as [|[k y] l IH]; cbn in *; [exact I|].
  destruct D. destruct (bytes_eqb n k); auto.
Qed.

Lemma map_outcome l : Forall (fun ns => sound (snd ns)) l -> all_nproper l -> forall j olds, doc_ok j -> all_named l olds ->
  outcome (read_map rd j l olds) (Fs l j olds) (all_named l).
Proof.
  induction 1 as [|[n s] l Hs Hl IH]; intros Hp j olds Hd Hsh; destruct olds as [|o olds]; try contradiction.
  - cbn. split; [constructor|exact I].
  - destruct Hp as [Hp1 Hp2]. destruct Hsh as [Hsh1 Hsh2]. cbn [snd] in *. cbn [read_map]. destruct (member n j) as [x|] eqn:EM.
    + pose proof (member_doc _ _ _ Hd EM) as Hdx. specialize (Hs Hp1 x o Hdx Hsh1).
      assert (UQ : forall y, Member n j y -> y = x) by (intros y Hy; apply member_iff in Hy; congruence).
      destruct (rd s x o) as [[v|]|]; cbn [thenr outcome] in Hs |- *; [| |exact Hs].
      2:{ intros vs M. inversion M; subst. match goal with X : Member _ _ ?y |- _ => assert (y = x) as -> by auto end. eapply Hs; eassumption. }
      fold (read_map rd j). specialize (IH Hp2 j olds Hd Hsh2).
      destruct (read_map rd j l olds) as [[vs|]|]; cbn [thenr outcome] in IH |- *; [|intros vs M; inversion M; subst; eapply IH; eassumption|exact IH].
      destruct Hs, IH. split; [econstructor; eauto; now apply member_iff|split; auto].
    + intros vs M. inversion M; subst. match goal with X : Member _ _ _ |- _ => apply member_iff in X; congruence end.
Qed.

Lemma cont_outcome s : sound s -> proper s -> forall js, all_docs js ->
  outcome (read_cont (fun x => rd s x (default s)) js) (Es s js) (fun vs => Forall (has_shape s) vs).
Proof.
  intros Hs Hp. induction js as [|x js IH]; intros Hd; [cbn; split; constructor|]. destruct Hd as [Hd1 Hd2]. cbn [read_cont].
  specialize (Hs Hp x (default s) Hd1 (default_shape s Hp)).
  destruct (rd s x (default s)) as [[v|]|]; cbn [thenr outcome] in Hs |- *; [|intros vs M; inversion M; subst; eapply Hs; eassumption|exact Hs].
  fold (read_cont (fun x => rd s x (default s))). specialize (IH Hd2).
  destruct (read_cont _ js) as [[vs|]|]; cbn [thenr outcome] in IH |- *; [|intros vs M; inversion M; subst; eapply IH; eassumption|exact IH].
  destruct Hs, IH. split; constructor; auto.
Qed.

Lemma cont_shape s vs : has_shape (SCont s) (VCont vs) <-> Forall (has_shape s) vs.
Proof. cbn. induction vs as [|v vs IH]; [split; constructor|]. rewrite IH. split; [intros [A B]; now constructor|intros A; now inversion A]. Qed.

Lemma to_enum_spec z e : (0 <= z < 2 ^ 32)%Z -> (-2 ^ 31 <= e < 2 ^ 31)%Z /\ (e = z \/ e = z - 2 ^ 32)%Z <-> e = to_enum z.
Proof. intros H. unfold to_enum. destruct (Z.leb_spec z 2147483647); lia. Qed.

Lemma Number_fun j z z' : Number integral_of j z -> Number integral_of j z' -> z = z'.
Proof. intros H H'. apply integral_iff in H, H'. congruence. Qed.

Lemma read_sound s : sound s.
Proof.
  induction s using shape_ind'; intros Hp j old Hd Hsh.
  - cbn [read]. destruct (as_int integral_of j) as [z|] eqn:E; cbn.
    + split; [|exact I]. constructor. now apply as_int_iff.
    + intros v R. inversion R; subst. assert (as_int integral_of j = Some z) by now apply as_int_iff. congruence.
  - cbn [read]. destruct (as_uint integral_of j) as [z|] eqn:E; cbn.
    + split; [|exact I]. apply as_uint_iff in E as [E1 E2]. now constructor.
    + intros v R. inversion R; subst. assert (as_uint integral_of j = Some z) by now apply as_uint_iff. congruence.
  - cbn [read]. destruct (as_uint integral_of j) as [z|] eqn:E; cbn.
    + split; [|exact I]. apply as_uint_iff in E as [E1 E2]. destruct (proj2 (to_enum_spec z (to_enum z) E2) eq_refl) as [E3 E4]. now apply R_enum with z.
    + intros v R. inversion R; subst. assert (as_uint integral_of j = Some z) by now apply as_uint_iff. congruence.
  - cbn [read]. destruct j; cbn; try (intros v R; inversion R); split; constructor.
  - cbn [read]. destruct j; cbn; try (intros v R; inversion R); (split; [|exact I]); constructor. apply c_str_spec.
  - cbn [read]. destruct j; try (cbn; intros v R; inversion R).
    assert (exists b, old = VBuffer b /\ match n with Some k => length b = k | None => True end) as (b & -> & Hb)
      by (cbn in Hsh; destruct n, old; try contradiction; eauto).
    destruct Hd as [Hd1 Hd2]. destruct (c_str_ok s Hd1 Hd2) as [Hc1 Hc2]. destruct (buffer_result n (c_str s) b Hc1 Hc2 Hb) as (ok & new & E & B).
    unfold kind in E. rewrite E. cbn. split.
    + apply R_buffer with (c_str s); [apply c_str_spec|exact B].
    + destruct n as [k|]; [|exact I]. destruct B as [(_ & _ & B)|[B _]]; exact B.
  - cbn. split; [constructor|exact Hsh].
  - cbn [read]. destruct old as [| | | | |olds| |]; try contradiction. change (all_shaped l olds) in Hsh. change (all_proper l) in Hp.
    pose proof (seq_outcome l H Hp) as SO.
    assert (G : match elements (count_nonempty l) j with
                | None => forall js, length js = count_nonempty l -> ~ Wraps j js
                | Some all => exists js, length js = count_nonempty l /\ Wraps j js /\ all_docs js /\
                    (forall js', length js' = count_nonempty l -> Wraps j js' -> js' = js) /\
                    (forall k x, nth_error js k = Some x -> (if Nat.eqb (count_nonempty l) 1 then Ok j else element all (0 + k)) = Ok x)
                end).
    { destruct (count_nonempty l) as [|[|n]]; cbn [elements].
      - exists []. repeat split; cbn; try lia. + intros [|] ? _; [reflexivity|discriminate]. + intros [|] ? ?; discriminate.
      - exists [j]. repeat split; auto. + intros [|x [|]] Hl Hw; try discriminate. cbn in Hw. congruence. + intros [|[|]] x E; cbn in E |- *; congruence.
      - destruct j; try (intros [|x [|y js]] Hl Hw; try discriminate). destruct (Nat.eqb_spec (length l0) (S (S n))).
        + exists l0. split; [assumption|]. split; [destruct l0 as [|x [|y r]]; try discriminate; reflexivity|]. split; [exact Hd|]. split.
          * intros [|x [|y js]] Hl Hw; try discriminate. cbn in Hw. congruence.
          * intros k x E. cbn. unfold element. now rewrite E.
        + intros [|x [|y js]] Hl Hw; try discriminate. cbn in Hw. congruence. }
    destruct (elements (count_nonempty l) j) as [all|].
    + destruct G as (js & G1 & G2 & G3 & G4 & G5). specialize (SO (count_nonempty l) j all olds js 0%nat Hsh G1 G3 G5).
      destruct (read_seq rd (count_nonempty l) j all l olds 0) as [[vs|]|]; cbn [thenr outcome] in SO |- *; [|intros v R|exact SO].
      * destruct SO. split; [econstructor; eauto|assumption].
      * inversion R as [| | | | | | | |? ? js' ? vs' M W| | | | |]; subst. assert (js' = js) as -> by (apply G4; [eapply Members_length; exact M|exact W]). eapply SO; exact M.
    + cbn. intros v R. inversion R; subst. eapply G; [eapply Members_length|]; eassumption.
  - cbn [read]. destruct old as [| | | | |olds| |]; try contradiction. change (all_named l olds) in Hsh. change (all_nproper l) in Hp.
    pose proof (map_outcome l H Hp j olds Hd Hsh) as MO.
    destruct (read_map rd j l olds) as [[vs|]|]; cbn [thenr outcome] in MO |- *; [|intros v R; inversion R; subst; eapply MO; eassumption|exact MO].
    destruct MO. split; [now constructor|assumption].
  - cbn [read]. destruct j; try (cbn; intros v R; inversion R). destruct old as [| | | | | |olds|]; try contradiction.
    pose proof (cont_outcome s IHs Hp l Hd) as CO.
    destruct (read_cont (fun x => rd s x (default s)) l) as [[vs|]|]; cbn [thenr outcome] in CO |- *; [|intros v R; inversion R; subst; eapply CO; eassumption|exact CO].
    destruct CO. split; [now constructor|]. apply cont_shape. apply Forall_app. split; [now apply cont_shape|assumption].
  - cbn [read]. destruct Hp as [_ Hp]. change (all_proper l) in Hp. destruct (variant_id integral_of j) as [id|] eqn:EV.
    + assert (UQ : forall t z, IntNumber integral_of t z -> (j = t \/ exists x, j = JArray [t; x]) -> z = id).
      { intros t z H1 H2. assert (variant_id integral_of j = Some z) by (apply variant_id_iff; eauto). congruence. }
      apply variant_id_iff in EV as (t & Ht & Hj).
      destruct (Z.leb_spec 0 id) as [L0|L0]; destruct (Z.ltb_spec id (Z.of_nat (length l))) as [L1|L1]; cbn [negb andb outcome];
        try (split; [eapply R_var_unknown; eauto; lia|exact Hsh]).
      rewrite alternative_nth. destruct (nth_error l (Z.to_nat id)) as [s|] eqn:En; [|apply nth_error_None in En; lia].
      destruct (is_empty s) eqn:EM.
      * pose proof (proj1 (is_empty_iff s) EM) as Hs. destruct (as_int integral_of j) as [z|] eqn:EI; cbn [option_map outcome].
        -- apply as_int_iff in EI. assert (z = id) as -> by (eapply UQ; eauto). split; [|apply shaped_nth with s; [assumption|subst; exact I]].
           apply R_var_empty; auto. now rewrite Z2Nat.id.
        -- intros v R. inversion R; subst.
           ++ match goal with X : IntNumber _ j _ |- _ => apply as_int_iff in X; congruence end.
           ++ assert (Z.of_nat i = id) as <- by (eapply UQ; eauto). rewrite Nat2Z.id in En. congruence.
           ++ assert (z = id) as -> by (eapply UQ; eauto). lia.
      * assert (NE : s <> SEmpty) by (intros ->; discriminate).
        assert (NR : (forall a b, j <> JArray [a; b]) -> forall v, ~ Rd (SVar l) j old v).
        { intros NA v R. inversion R; subst.
          - assert (Z.of_nat i = id) as <- by (eapply UQ; eauto). rewrite Nat2Z.id in En. congruence.
          - eapply NA; reflexivity.
          - assert (z = id) as -> by (eapply UQ; eauto). lia. }
        destruct j as [| | | | |ja|]; try (cbn [outcome]; apply NR; discriminate). destruct ja as [|a [|b [|]]]; try (cbn [outcome]; apply NR; discriminate).
        destruct Hj as [<-|(x & Hj)]; [destruct Ht as [[?|(? & ? & _)] _]; discriminate|]. injection Hj as <- <-.
        pose proof (proj2 (as_int_iff integral_of a id) Ht) as EA. rewrite EA.
        rewrite Forall_forall in H. destruct Hd as (Hda & Hdb & _).
        pose proof (all_proper_nth l _ s Hp En) as Hps.
        specialize (H s (nth_error_In _ _ En) Hps b (default s) Hdb (default_shape s Hps)).
        destruct (rd s b (default s)) as [[v|]|]; cbn [thenr outcome] in H |- *; [| |exact H].
        -- destruct H. split; [|apply shaped_nth with s; assumption]. apply R_var with s; auto. now rewrite Z2Nat.id.
        -- intros v R. inversion R; subst.
           ++ assert (Z.of_nat i = id) as <- by (eapply UQ; eauto). rewrite Nat2Z.id in En. congruence.
           ++ assert (Z.of_nat i = id) as <- by (eapply UQ; eauto). rewrite Nat2Z.id in En. assert (s0 = s) as -> by congruence. eapply H; eassumption.
           ++ assert (z = id) as -> by (eapply UQ; eauto). lia.
    + cbn. intros v R. inversion R; subst.
      * assert (variant_id integral_of j = Some (Z.of_nat i)) by (apply variant_id_iff; eauto). congruence.
      * assert (variant_id integral_of (JArray [t; x]) = Some (Z.of_nat i)) by (apply variant_id_iff; eauto). congruence.
      * assert (variant_id integral_of j = Some z) by (apply variant_id_iff; eauto). congruence.
Qed.
End Any.

(* ---- only such values survive ---- *)
Definition all_bytes_in := fix go (vs : list value) : Prop := match vs with [] => True | v :: r => bytes_in v /\ go r end.
Definition all_sensible := fix go (l : list shape) : Prop := match l with [] => True | s :: r => sensible s /\ go r end.
Definition all_nsensible := fix go (l : list (bytes * shape)) : Prop := match l with [] => True | ns :: r => sensible (snd ns) /\ go r end.

Section Only.
Variable integral_of : N -> option Z.
Variable double_of : Z -> N.
Notation rd := (read integral_of double_of).

Lemma encode_short b x : base64_encode b = Ok x -> 4 * N.of_nat (length b) < 2 ^ 31.
Proof.
  intros E. destruct (N.lt_ge_cases (4 * N.of_nat (length b)) (2 ^ 31)) as [H|H]; [exact H|].
  assert (X : base64_encode b = UB).
  { unfold base64_encode, base64_encode_gen, encoding_length_padded, fits_int, int_max. rewrite (proj2 (N.leb_gt _ _)); [reflexivity|].
    change (2 ^ 31) with 2147483648 in H. lia. }
  congruence.
Qed.

Definition only (s : shape) : Prop := sensible s -> forall v j, has_shape s v -> bytes_in v -> write s v = Ok j -> rd s j (default s) = Ok (Some v) -> writable s v.

Lemma c_str_nul x : c_str x = x -> ~ In 0 x.
Proof.
  induction x as [|c x IH]; cbn; intros E; [tauto|]. destruct (N.eqb_spec c 0) as [->|NE]; [discriminate|]. injection E as E. intros [->|H]; [congruence|]. exact (IH E H).
Qed.

Lemma thenr_ok {A B} (r : throws A) (f : A -> throws B) b : thenr r f = Ok (Some b) -> exists a, r = Ok (Some a) /\ f a = Ok (Some b).
Proof. destruct r as [[a|]|]; cbn; intros E; try discriminate. eauto. Qed.

Lemma write_seq_only l : Forall only l -> all_sensible l -> forall vs js, all_shaped l vs -> all_bytes_in vs -> write_seq write l vs = Ok js ->
  length js = count_nonempty l /\
  forall n j all i, (forall k x, nth_error js k = Some x -> (if Nat.eqb n 1 then Ok j else element all (i + k)) = Ok x) ->
    read_seq rd n j all l (map default l) i = Ok (Some vs) -> writable (SSeq l) (VSeq vs).
Proof.
  induction 1 as [|s l Hs Hl IH]; intros Sl vs js Sh B E; destruct vs as [|v vs]; try contradiction.
  - cbn in E. injection E as <-. split; [reflexivity|]. intros. exact I.
  - destruct Sl as [S1 S2]. destruct Sh as [Sh1 Sh2]. destruct B as [B1 B2]. unfold count_nonempty in *. cbn [write_seq] in E. cbn [filter map read_seq].
    destruct (is_empty s) eqn:EM.
    + fold (write_seq write) in E. destruct (IH S2 vs js Sh2 B2 E) as (L & R). split; [exact L|]. intros n j all i H Er.
      fold (read_seq rd n j all) in Er. apply thenr_ok in Er as (vs' & Er & X). injection X as X1 X2. subst.
      split; [|exact (R n j all i H Er)]. apply is_empty_iff in EM as ->. exact I.
    + destruct (write s v) as [j0|] eqn:Ew; [|discriminate]. cbn [bind] in E. fold (write_seq write) in E.
      destruct (write_seq write l vs) as [js'|] eqn:Es; [|discriminate]. cbn [bind] in E. injection E as <-.
      destruct (IH S2 vs js' Sh2 B2 Es) as (L & R). split; [cbn; now rewrite L|]. intros n j all i H Er.
      pose proof (H 0%nat j0 eq_refl) as H0. rewrite Nat.add_0_r in H0. rewrite H0 in Er. cbn [bind] in Er.
      apply thenr_ok in Er as (v' & Er1 & Er). fold (read_seq rd n j all) in Er. apply thenr_ok in Er as (vs' & Er2 & X). injection X as X1 X2. subst.
      split; [exact (Hs S1 v j0 Sh1 B1 Ew Er1)|]. apply (R n j all (S i)); [|exact Er2]. intros k x Hk. specialize (H (S k) x Hk). now rewrite Nat.add_succ_r in H.
Qed.

Lemma write_map_only l : Forall (fun ns => only (snd ns)) l -> all_nsensible l -> forall vs acc full, NoDup (map fst acc ++ map fst l) ->
  all_named l vs -> all_bytes_in vs -> write_map write l vs acc = Ok full ->
  exists o, full = acc ++ o /\ map fst o = map fst l /\
    (read_map rd (JObject full) l (map (fun ns => default (snd ns)) l) = Ok (Some vs) ->
     (fix go l vs := match l, vs with [], [] => True | ns :: l', v :: vs' => writable (snd ns) v /\ go l' vs' | _, _ => False end) l vs).
Proof.
  induction 1 as [|[n s] l Hs Hl IH]; intros Sl vs acc full ND Sh B E; destruct vs as [|v vs]; try contradiction.
  - cbn in E. injection E as <-. exists []. rewrite app_nil_r. repeat split.
  - destruct Sl as [S1 S2]. destruct Sh as [Sh1 Sh2]. destruct B as [B1 B2]. cbn [snd fst map] in *. cbn [write_map] in E.
    destruct (write s v) as [j0|] eqn:Ew; [|discriminate]. cbn [bind] in E. fold (write_map write) in E.
    assert (NI : ~ In n (map fst acc)). { apply NoDup_remove_2 in ND. rewrite in_app_iff in ND. tauto. }
    rewrite obj_set_fresh in E by exact NI.
    destruct (IH S2 vs (acc ++ [(n, j0)]) full) as (o & -> & M & R); [rewrite map_app; cbn; rewrite <- app_assoc; exact ND|exact Sh2|exact B2|exact E|].
    exists ((n, j0) :: o). rewrite <- app_assoc in R |- *. cbn [app] in R |- *. split; [reflexivity|]. split; [cbn; now rewrite M|]. intros Er.
    cbn [read_map member] in Er. rewrite lookup_app in Er by exact NI. apply thenr_ok in Er as (v' & Er1 & Er).
    fold (read_map rd) in Er. apply thenr_ok in Er as (vs' & Er2 & X). injection X as X1 X2. subst. split; [exact (Hs S1 v j0 Sh1 B1 Ew Er1)|exact (R Er2)].
Qed.

Lemma write_cont_only s : only s -> sensible s -> forall vs js, has_shape (SCont s) (VCont vs) -> all_bytes_in vs -> write_cont (write s) vs = Ok js ->
  length js = length vs /\
  (read_cont (fun x => rd s x (default s)) js = Ok (Some vs) -> (fix go vs := match vs with [] => True | v :: vs' => writable s v /\ go vs' end) vs).
Proof.
  intros Hs Ss. induction vs as [|v vs IH]; intros js Sh B E; [cbn in E; injection E as <-; repeat split|].
  destruct Sh as [Sh1 Sh2]. destruct B as [B1 B2]. cbn [write_cont] in E. destruct (write s v) as [j0|] eqn:Ew; [|discriminate]. cbn [bind] in E.
  fold (write_cont (write s)) in E. destruct (write_cont (write s) vs) as [js'|] eqn:Es; [|discriminate]. cbn [bind] in E. injection E as <-.
  destruct (IH js' Sh2 B2 eq_refl) as [L R]. split; [cbn; now rewrite L|]. intros Er. cbn [read_cont] in Er. apply thenr_ok in Er as (v' & Er1 & Er).
  fold (read_cont (fun x => rd s x (default s))) in Er. apply thenr_ok in Er as (vs' & Er2 & X). injection X as X1 X2. subst.
  split; [exact (Hs Ss v j0 Sh1 B1 Ew Er1)|exact (R Er2)].
Qed.

Lemma var_shaped l i v : has_shape (SVar l) (VVar i v) -> exists s, nth_error l i = Some s /\ has_shape s v.
Proof. revert i; induction l as [|s l IH]; intros [|i] H; cbn in *; try contradiction; eauto. Qed.
Lemma var_writable' l i v s : nth_error l i = Some s -> writable s v ->
  (fix go l i := match l, i with [], _ => False | s :: _, O => writable s v | _ :: l', S i' => go l' i' end) l i.
Proof. revert i; induction l as [|s' l IH]; intros [|i] E H; cbn in *; try discriminate; [injection E as <-; exact H|]. exact (IH i E H). Qed.
Lemma all_sensible_nth l k x : all_sensible l -> nth_error l k = Some x -> sensible x.
Proof. revert k; induction l as [|y l IH]; intros [|k] H E; cbn in *; try discriminate; [|destruct H; eauto]. injection E as <-. tauto. Qed.

Lemma round_trip_only s : only s.
Proof.
  induction s using shape_ind'; intros Sn v j Sh B Ew Er; destruct v; cbn in Sh; try contradiction; try (destruct n; contradiction).
  - injection Ew as <-. cbn [read] in Er. destruct (as_int integral_of (JInt z)) as [z'|] eqn:E; [|discriminate]. cbn in Er. injection Er as ->.
    apply as_int_iff in E as [_ E]. exact E.
  - injection Ew as <-. cbn [read] in Er. destruct (as_uint integral_of (JInt z)) as [z'|] eqn:E; [|discriminate]. cbn in Er. injection Er as ->.
    apply as_uint_iff in E as [_ E]. exact E.
  - injection Ew as <-. cbn [read] in Er. destruct (as_uint integral_of (JInt z)) as [z'|] eqn:E; [|discriminate]. cbn [option_map] in Er.
    assert (X : to_enum z' = z) by congruence. apply as_uint_iff in E as [E R]. unfold to_enum in X.
    assert (z' = z) as -> by (unfold as_uint in *; apply integral_iff in E; cbn in E; congruence). cbn. destruct (Z.leb_spec z 2147483647); lia.
  - exact I.
  - injection Ew as <-. cbn [read] in Er. cbn. apply c_str_nul. congruence.
  - cbn [write] in Ew. unfold encode_or in Ew. destruct (base64_encode b) as [x|] eqn:E; [|discriminate]. split; [exact B|]. split; [|destruct n; auto].
    exact (encode_short b x E).
  - exact I.
  - cbn [write] in Ew. destruct (write_seq write l l0) as [js|] eqn:E; [|discriminate]. cbn [bind] in Ew. injection Ew as <-.
    destruct (write_seq_only l H Sn l0 js Sh B E) as (L & R). cbn [read default] in Er. unfold elements in Er. rewrite <- L in Er.
    destruct js as [|x [|y js]]; cbn [length bind_sequence_write] in Er.
    + apply thenr_ok in Er as (vs & Er & X). injection X as ->. apply (R 0%nat JNull [] 0%nat); [|exact Er]. intros [|k] z Hk; discriminate.
    + apply thenr_ok in Er as (vs & Er & X). injection X as ->. apply (R 1%nat x [] 0%nat); [|exact Er]. intros [|[|k]] z Hk; cbn in Hk |- *; congruence.
    + rewrite Nat.eqb_refl in Er. apply thenr_ok in Er as (vs & Er & X). injection X as ->. refine (R _ _ _ _ _ Er). intros k z Hk. cbn [Nat.eqb plus]. unfold element. now rewrite Hk.
  - destruct Sn as [ND Sn]. cbn [write] in Ew. destruct (write_map write l l0 []) as [full|] eqn:E; [|discriminate]. cbn [bind] in Ew.
    destruct (write_map_only l H Sn l0 [] full ND Sh B E) as (o & -> & M & R). split; [exact ND|]. cbn [app] in *.
    destruct o as [|kx o].
    + destruct l; [|discriminate]. destruct l0; [exact I|contradiction].
    + injection Ew as <-. cbn [read default] in Er. apply thenr_ok in Er as (vs & Er & X). injection X as ->. exact (R Er).
  - cbn [write] in Ew. destruct (write_cont (write s) l) as [js|] eqn:E; [|discriminate]. cbn [bind] in Ew.
    destruct (write_cont_only s IHs Sn l js Sh B E) as (L & R). destruct js as [|x js]; injection Ew as <-; [discriminate|].
    cbn [read default] in Er. apply thenr_ok in Er as (vs & Er & X). cbn [app] in X. injection X as ->. split; [|exact (R Er)]. intros ->. discriminate.
  - destruct Sn as [LL Sn]. apply var_shaped in Sh as (s & Hs & Sh). split; [exact LL|]. apply (var_writable' l type_id v s Hs).
    rewrite Forall_forall in H. pose proof (H s (nth_error_In _ _ Hs) (all_sensible_nth l type_id s Sn Hs) v) as IH.
    cbn [write] in Ew. rewrite alternative_nth, Hs in Ew.
    assert (HI : (type_id < length l)%nat) by (apply nth_error_Some; congruence).
    assert (N1 : as_int integral_of (JInt (Z.of_nat type_id)) = Some (Z.of_nat type_id)) by (apply as_int_iff; split; [now left|lia]).
    destruct (is_empty s) eqn:EM; [apply is_empty_iff in EM as ->; destruct v; cbn in Sh; try contradiction; exact I|].
    destruct (write s v) as [j0|] eqn:E0; [|discriminate]. cbn [bind] in Ew. injection Ew as <-. cbn [read] in Er. unfold variant_id in Er. cbn [integral] in Er. rewrite N1 in Er.
    destruct (Z.leb_spec 0 (Z.of_nat type_id)); [|lia]. destruct (Z.ltb_spec (Z.of_nat type_id) (Z.of_nat (length l))); [|lia]. cbn [negb andb] in Er.
    rewrite Nat2Z.id, alternative_nth, Hs, EM in Er. apply thenr_ok in Er as (v' & Er & X). injection X as ->. exact (IH j0 Sh B eq_refl Er).
Qed.
End Only.

(* ---- different values are written differently, whether or not they can be read back ---- *)
Definition apart (s : shape) : Prop := sensible s -> forall v w j, has_shape s v -> has_shape s w -> bytes_in v -> bytes_in w -> write s v = Ok j -> write s w = Ok j -> v = w.

Lemma write_seq_apart l : Forall apart l -> all_sensible l -> forall vs ws js, all_shaped l vs -> all_shaped l ws -> all_bytes_in vs -> all_bytes_in ws ->
  write_seq write l vs = Ok js -> write_seq write l ws = Ok js -> vs = ws.
Proof.
  induction 1 as [|s l Hs Hl IH]; intros Sl vs ws js Sv Sw Bv Bw Ev Ew; destruct vs as [|v vs], ws as [|w ws]; try contradiction; [reflexivity|].
  destruct Sl as [S1 S2], Sv as [Sv1 Sv2], Sw as [Sw1 Sw2], Bv as [Bv1 Bv2], Bw as [Bw1 Bw2]. cbn [write_seq] in Ev, Ew. fold (write_seq write) in Ev, Ew.
  destruct (is_empty s) eqn:EM.
  - apply is_empty_iff in EM as ->. destruct v, w; try contradiction. f_equal. exact (IH S2 vs ws js Sv2 Sw2 Bv2 Bw2 Ev Ew).
  - destruct (write s v) as [j1|] eqn:E1; [|discriminate]. destruct (write s w) as [j2|] eqn:E2; [|discriminate]. cbn [bind] in Ev, Ew.
    destruct (write_seq write l vs) as [js1|] eqn:R1; [|discriminate]. destruct (write_seq write l ws) as [js2|] eqn:R2; [|discriminate]. cbn [bind] in Ev, Ew.
    injection Ev as <-. injection Ew as X1 X2. subst j2 js2. f_equal; [exact (Hs S1 v w j1 Sv1 Sw1 Bv1 Bw1 E1 E2)|exact (IH S2 vs ws js1 Sv2 Sw2 Bv2 Bw2 R1 R2)].
Qed.

Lemma write_seq_length l : forall vs js, write_seq write l vs = Ok js -> length js = count_nonempty l.
Proof.
  unfold count_nonempty. induction l as [|s l IH]; intros [|v vs] js E; cbn [write_seq] in E; try discriminate; [injection E as <-; reflexivity|].
  fold (write_seq write) in E. cbn [filter]. destruct (is_empty s); [exact (IH vs js E)|].
  destruct (write s v); [|discriminate]. cbn [bind] in E. destruct (write_seq write l vs) as [r|] eqn:R; [|discriminate]. cbn [bind] in E. injection E as <-. cbn. now rewrite (IH vs r R).
Qed.

Lemma write_map_apart l : Forall (fun ns => apart (snd ns)) l -> all_nsensible l -> forall vs ws acc full, NoDup (map fst acc ++ map fst l) ->
  all_named l vs -> all_named l ws -> all_bytes_in vs -> all_bytes_in ws -> write_map write l vs acc = Ok full -> write_map write l ws acc = Ok full -> vs = ws.
Proof.
  induction 1 as [|[n s] l Hs Hl IH]; intros Sl vs ws acc full ND Sv Sw Bv Bw Ev Ew; destruct vs as [|v vs], ws as [|w ws]; try contradiction; [reflexivity|].
  destruct Sl as [S1 S2], Sv as [Sv1 Sv2], Sw as [Sw1 Sw2], Bv as [Bv1 Bv2], Bw as [Bw1 Bw2]. cbn [snd fst map] in *. cbn [write_map] in Ev, Ew. fold (write_map write) in Ev, Ew.
  destruct (write s v) as [j1|] eqn:E1; [|discriminate]. destruct (write s w) as [j2|] eqn:E2; [|discriminate]. cbn [bind] in Ev, Ew.
  assert (NI : ~ In n (map fst acc)). { apply NoDup_remove_2 in ND. rewrite in_app_iff in ND. tauto. }
  rewrite obj_set_fresh in Ev, Ew by exact NI.
  assert (ND' : forall j : json, NoDup (map fst (acc ++ [(n, j)]) ++ map fst l)) by (intros j; rewrite map_app; cbn; rewrite <- app_assoc; exact ND).
  assert (K : forall vs acc full, NoDup (map fst acc ++ map fst l) -> write_map write l vs acc = Ok full -> exists o, full = acc ++ o).
  { clear. induction l as [|[n s] l IH]; intros vs acc full ND E; destruct vs as [|v vs]; cbn [write_map] in E; try discriminate.
    - injection E as <-. exists []. now rewrite app_nil_r.
    - destruct (write s v) as [j|]; [|discriminate]. cbn [bind] in E. fold (write_map write) in E. cbn in ND.
      assert (NI : ~ In n (map fst acc)). { apply NoDup_remove_2 in ND. rewrite in_app_iff in ND. tauto. }
      rewrite obj_set_fresh in E by exact NI. destruct (IH vs (acc ++ [(n, j)]) full) as (o & ->); [rewrite map_app; cbn; rewrite <- app_assoc; exact ND|exact E|].
      exists ((n, j) :: o). now rewrite <- app_assoc. }
  destruct (K vs _ full (ND' j1) Ev) as (o1 & X1). destruct (K ws _ full (ND' j2) Ew) as (o2 & X2). rewrite <- app_assoc in X1, X2. cbn [app] in X1, X2.
  assert (j1 = j2). { rewrite X1 in X2. apply app_inv_head in X2. congruence. } subst j2.
  f_equal; [exact (Hs S1 v w j1 Sv1 Sw1 Bv1 Bw1 E1 E2)|exact (IH S2 vs ws _ full (ND' j1) Sv2 Sw2 Bv2 Bw2 Ev Ew)].
Qed.

Lemma write_cont_apart s : apart s -> sensible s -> forall vs ws js, has_shape (SCont s) (VCont vs) -> has_shape (SCont s) (VCont ws) -> all_bytes_in vs -> all_bytes_in ws ->
  write_cont (write s) vs = Ok js -> write_cont (write s) ws = Ok js -> vs = ws.
Proof.
  intros Hs Ss. induction vs as [|v vs IH]; intros [|w ws] js Sv Sw Bv Bw Ev Ew; [reflexivity| | |].
  - cbn in Ev. injection Ev as <-. cbn [write_cont] in Ew. destruct (write s w); [|discriminate]. cbn [bind] in Ew. fold (write_cont (write s)) in Ew. destruct (write_cont (write s) ws); discriminate.
  - cbn in Ew. injection Ew as <-. cbn [write_cont] in Ev. destruct (write s v); [|discriminate]. cbn [bind] in Ev. fold (write_cont (write s)) in Ev. destruct (write_cont (write s) vs); discriminate.
  - destruct Sv as [Sv1 Sv2], Sw as [Sw1 Sw2], Bv as [Bv1 Bv2], Bw as [Bw1 Bw2]. cbn [write_cont] in Ev, Ew. fold (write_cont (write s)) in Ev, Ew.
    destruct (write s v) as [j1|] eqn:E1; [|discriminate]. destruct (write s w) as [j2|] eqn:E2; [|discriminate]. cbn [bind] in Ev, Ew.
    destruct (write_cont (write s) vs) as [js1|] eqn:R1; [|discriminate]. destruct (write_cont (write s) ws) as [js2|] eqn:R2; [|discriminate]. cbn [bind] in Ev, Ew.
    injection Ev as <-. injection Ew as X1 X2. subst j2 js2. f_equal; [exact (Hs Ss v w j1 Sv1 Sw1 Bv1 Bw1 E1 E2)|exact (IH ws js1 Sv2 Sw2 Bv2 Bw2 eq_refl R2)].
Qed.

Lemma write_apart s : apart s.
Proof.
  induction s using shape_ind'; intros Sn v w j Sv Sw Bv Bw Ev Ew; destruct v; cbn in Sv; try contradiction; try (destruct n; contradiction);
    destruct w; cbn in Sw; try contradiction; try (destruct n; contradiction).
  1-5: cbn [write] in Ev, Ew; congruence.
  - cbn [write] in Ev, Ew. unfold encode_or in *. destruct (base64_encode b) as [x|] eqn:E1; [|discriminate]. destruct (base64_encode b0) as [y|] eqn:E2; [|discriminate].
    cbn [bind] in Ev, Ew. assert (x = y) as -> by congruence.
    destruct (base64_round_trip b Bv (encode_short _ _ E1)) as (s1 & Ee1 & _ & Ed1 & _). destruct (base64_round_trip b0 Bw (encode_short _ _ E2)) as (s2 & Ee2 & _ & Ed2 & _). specialize (Ed1 []). specialize (Ed2 []). congruence.
  - reflexivity.
  - cbn [write] in Ev, Ew. destruct (write_seq write l l0) as [js1|] eqn:E1; [|discriminate]. destruct (write_seq write l l1) as [js2|] eqn:E2; [|discriminate].
    cbn [bind] in Ev, Ew. assert (js1 = js2) as ->.
    { pose proof (write_seq_length _ _ _ E1) as L1. pose proof (write_seq_length _ _ _ E2) as L2. rewrite <- L2 in L1. assert (X : bind_sequence_write js1 = bind_sequence_write js2) by congruence.
      destruct js1 as [|a [|b js1]], js2 as [|c [|d js2]]; try discriminate; cbn in X; congruence. }
    f_equal. exact (write_seq_apart l H Sn l0 l1 js2 Sv Sw Bv Bw E1 E2).
  - destruct Sn as [ND Sn]. cbn [write] in Ev, Ew. destruct (write_map write l l0 []) as [o1|] eqn:E1; [|discriminate]. destruct (write_map write l l1 []) as [o2|] eqn:E2; [|discriminate].
    cbn [bind] in Ev, Ew. assert (o1 = o2) as -> by (destruct o1, o2; congruence). f_equal. exact (write_map_apart l H Sn l0 l1 [] o2 ND Sv Sw Bv Bw E1 E2).
  - cbn [write] in Ev, Ew. destruct (write_cont (write s) l) as [js1|] eqn:E1; [|discriminate]. destruct (write_cont (write s) l0) as [js2|] eqn:E2; [|discriminate].
    cbn [bind] in Ev, Ew. assert (js1 = js2) as -> by (destruct js1, js2; congruence). f_equal. exact (write_cont_apart s IHs Sn l l0 js2 Sv Sw Bv Bw E1 E2).
  - destruct Sn as [LL Sn]. apply var_shaped in Sv as (s & Hs & Sv). apply var_shaped in Sw as (s' & Hs' & Sw).
    cbn [write] in Ev, Ew. rewrite alternative_nth, Hs in Ev. rewrite alternative_nth, Hs' in Ew.
    assert (type_id = type_id0) as <-.
    { destruct (is_empty s), (is_empty s'); [|destruct (write s' w); [|discriminate]|destruct (write s v); [|discriminate]|destruct (write s' w); [|discriminate]; destruct (write s v); [|discriminate]];
        cbn [bind] in *; try congruence; apply Nat2Z.inj; congruence. }
    assert (s' = s) as -> by congruence. f_equal. destruct (is_empty s) eqn:EM; [apply is_empty_iff in EM as ->; destruct v, w; try contradiction; reflexivity|].
    destruct (write s v) as [j1|] eqn:E1; [|discriminate]. destruct (write s w) as [j2|] eqn:E2; [|discriminate]. cbn [bind] in Ev, Ew. assert (j1 = j2) as <- by congruence.
    rewrite Forall_forall in H. exact (H s (nth_error_In _ _ Hs) (all_sensible_nth l type_id s Sn Hs) v w j1 Sv Sw Bv Bw E1 E2).
Qed.

(* ---- everything else is written ---- *)
Definition all_short := fix go (vs : list value) : Prop := match vs with [] => True | v :: r => short_in v /\ go r end.
Definition total (s : shape) : Prop := forall v, has_shape s v -> short_in v -> exists j, write s v = Ok j.

Lemma write_total s : total s.
Proof.
  induction s using shape_ind'; intros v Sh B; destruct v; cbn in Sh; try contradiction; try (destruct n; contradiction); cbn [write]; try (eexists; reflexivity).
  - destruct B as [B1 B2]. destruct (base64_round_trip b B1 B2) as (x & E & _). unfold encode_or. rewrite E. eexists; reflexivity.
  - assert (G : exists js, write_seq write l l0 = Ok js); [|destruct G as (js & ->); eexists; reflexivity].
    change (all_shaped l l0) in Sh. change (all_short l0) in B. revert l0 Sh B. induction H as [|s l Hs Hl IH]; intros [|v vs] Sh B; try contradiction; [eexists; reflexivity|].
    destruct Sh as [Sh1 Sh2], B as [B1 B2]. cbn [write_seq]. fold (write_seq write). destruct (IH vs Sh2 B2) as (js & E). destruct (is_empty s); [eauto|].
    destruct (Hs v Sh1 B1) as (j & ->). cbn [bind]. rewrite E. eexists; reflexivity.
  - assert (G : exists o, write_map write l l0 [] = Ok o); [|destruct G as (o & ->); eexists; reflexivity].
    change (all_named l l0) in Sh. change (all_short l0) in B. generalize (@nil (bytes * json)). revert l0 Sh B.
    induction H as [|[n s] l Hs Hl IH]; intros [|v vs] Sh B acc; try contradiction; [eexists; reflexivity|].
    destruct Sh as [Sh1 Sh2], B as [B1 B2]. cbn [write_map snd] in *. destruct (Hs v Sh1 B1) as (j & ->). cbn [bind]. exact (IH vs Sh2 B2 _).
  - assert (G : exists js, write_cont (write s) l = Ok js); [|destruct G as (js & ->); eexists; reflexivity].
    change (all_short l) in B. induction l as [|v vs IH]; [eexists; reflexivity|].
    destruct Sh as [Sh1 Sh2], B as [B1 B2]. cbn [write_cont]. fold (write_cont (write s)). destruct (IHs v Sh1 B1) as (j & ->). destruct (IH Sh2 B2) as (js & ->). eexists; reflexivity.
  - apply var_shaped in Sh as (s & Hs & Sh). rewrite alternative_nth, Hs. destruct (is_empty s); [eexists; reflexivity|]. rewrite Forall_forall in H.
    destruct (H s (nth_error_In _ _ Hs) v Sh B) as (j & ->). eexists; reflexivity.
Qed.

Lemma short_bytes v : short_in v -> bytes_in v.
Proof.
  revert v. fix IH 1. intros [| | | | |l|l|]; cbn; try tauto.
  - induction l as [|v l IHl]; [auto|]. intros [A B]. split; [exact (IH v A)|exact (IHl B)].
  - induction l as [|v l IHl]; [auto|]. intros [A B]. split; [exact (IH v A)|exact (IHl B)].
  - apply IH.
Qed.
