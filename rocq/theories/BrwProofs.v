(* Proofs about the messages of a browser and a server, and the claims of C84 for any net whose texts are understood. *)
From Verif Require Import Base StoreModel StoreSpec StoreProofs StoreProps NetModel NetSpec NetProofs NetProps.
From Verif Require Import Base64Model JsonModel JsonSpec JsonProofs AppModel WireModel WireSpec WireProofs JsbModel JsbSpec JsbProofs JsbProps BrwModel BrwSpec.
Open Scope N_scope.

Section Fits.
Variable fits : shape -> value -> Prop.
Variable box : shape -> N -> value.
Variable unbox : shape -> value -> N.
Fixpoint fits_all (l : list shape) (vs : list value) : Prop :=
  match l, vs with [], [] => True | s :: l', v :: vs' => fits s v /\ fits_all l' vs' | _, _ => False end.
Hypothesis fits_seq : forall l vs, fits (SSeq l) (VSeq vs) <-> fits_all l vs.
Hypothesis fits_empty : fits SEmpty VEmpty.
Notation fit := (fit fits box unbox).

Lemma box_fits l ns : Forall2 fit l ns -> exists vs, box_all box l ns = Some vs /\ fits_all l vs /\ unbox_all unbox l vs = ns.
Proof.
  induction 1 as [|s n l ns (A & B) H (vs & E1 & E2 & E3)]; [exists []; cbn; auto|].
  exists (box s n :: vs). cbn. rewrite E1, E3, B. auto.
Qed.
Lemma element_fits e f : field_fits fits box unbox e f -> exists v, element_value box e f = Some v /\ fits (element_shape e) v /\ field_of unbox e v = f.
Proof.
  destruct e as [s|[s| |]|s|], f as [| |[| |]| | |]; cbn; try contradiction; try (intros _; exists VEmpty; cbn; now auto);
    intros (A & B); (eexists; split; [reflexivity|]; split; [exact A|cbn; now rewrite B]).
Qed.
Lemma elements_fit l fs : Forall2 (field_fits fits box unbox) l fs ->
  exists vs, element_values box l fs = Some vs /\ fits_all (map element_shape l) vs /\ fields_of unbox l vs = fs.
Proof.
  induction 1 as [|e f l fs A H (vs & E1 & E2 & E3)]; [exists []; cbn; auto|].
  destruct (element_fits _ _ A) as (v & F1 & F2 & F3). exists (v :: vs). cbn. rewrite F1, E1, F3, E3. auto.
Qed.
Lemma path_fit t p : path_fits fits box unbox t p ->
  exists v, path_value box t p = Some v /\ fits (path_shape t) v /\ path_of_value unbox t v = p.
Proof.
  unfold path_fits, path_value, path_shape, path_of_value, no_keys. destruct p as [[ty ks]|ty ks].
  - cbn [ptype keys]. intros (-> & -> & F). destruct (box_fits _ _ F) as (vs & E1 & E2 & E3). rewrite Nat.eqb_refl, E1. cbn [negb andb option_map].
    destruct (t_keys t) eqn:K.
    + eexists. split; [reflexivity|]. split; [exact fits_empty|]. inversion F. reflexivity.
    + eexists. split; [reflexivity|]. split; [now apply fits_seq|]. now rewrite E3.
  - intros (-> & -> & F). destruct (box_fits _ _ F) as (vs & E1 & E2 & E3). rewrite Nat.eqb_refl, E1. cbn [negb andb option_map].
    eexists. split; [reflexivity|]. split; [now apply fits_seq|]. now rewrite E3.
Qed.
Lemma value_fits t m p fs : mkind m = t_kind t -> mtype m = t_id t -> storage m = FPath p :: fs ->
  path_fits fits box unbox t p -> Forall2 (field_fits fits box unbox) (t_rest t) fs ->
  exists v, value_of box t m = Some v /\ fits (type_shape t) v /\ message_of unbox t v = Some m.
Proof.
  intros K I S Hp Hf. destruct (path_fit _ _ Hp) as (v & A1 & A2 & A3). destruct (elements_fit _ _ Hf) as (vs & B1 & B2 & B3).
  exists (VSeq (v :: vs)). unfold value_of. rewrite S, <- K, <- I, (proj2 (kind_eqb_true _ _) eq_refl), N.eqb_refl, A1, B1. cbn [andb].
  split; [reflexivity|]. split; [apply fits_seq; cbn [fits_all]; auto|]. cbn [message_of]. rewrite A3, B3, <- K, <- I, <- S. now destruct m.
Qed.
(* what the message is located as *)
Lemma located api m : one_type api -> made_of fits box unbox api m ->
  exists i t v, locate box api m = Some (i, v) /\ nth_error api i = Some t /\ In t api /\ fits (type_shape t) v /\ message_of unbox t v = Some m.
Proof.
  intros O (t & H & K & I & p & fs & S & Hp & Hf). destruct (value_fits t m p fs K I S Hp Hf) as (v & V & W & B).
  destruct (locate_in box api m t v H V) as (i & t' & v' & L & T & V').
  assert (t' = t) as -> by (eapply O; eauto using value_of_type, nth_error_In). assert (v' = v) as -> by congruence.
  exists i, t, v. auto.
Qed.
End Fits.

(* more is known of the parts when more is known of the value *)
Section More.
Variables fits more : shape -> value -> Prop.
Variable box : shape -> N -> value.
Variable unbox : shape -> value -> N.
Hypothesis more_seq : forall l vs, more (SSeq l) (VSeq vs) <-> fits_all more l vs.

Lemma parts_more l ns vs : Forall2 (fit fits box unbox) l ns -> box_all box l ns = Some vs -> fits_all more l vs -> Forall2 (fit more box unbox) l ns.
Proof.
  intros F. revert vs. induction F as [|s n l ns (A & B) F IH]; intros vs E H; constructor.
  - cbn in E. destruct (box_all box l ns); [|discriminate]. injection E as <-. destruct H. now split.
  - cbn in E. destruct (box_all box l ns) as [vs'|]; [|discriminate]. injection E as <-. destruct H. now apply (IH vs').
Qed.
Lemma fields_more l fs vs : Forall2 (field_fits fits box unbox) l fs -> element_values box l fs = Some vs -> fits_all more (map element_shape l) vs ->
  Forall2 (field_fits more box unbox) l fs.
Proof.
  intros F. revert vs. induction F as [|e f l fs A F IH]; intros vs E H; constructor; cbn in E; destruct (element_value box e f) as [v|] eqn:V; try discriminate;
    destruct (element_values box l fs) as [vs'|]; try discriminate; injection E as <-; destruct H as (H1 & H2).
  - destruct e as [s|[s| |]|s|], f as [| |[| |]| | |]; cbn in *; try contradiction; auto; destruct A; injection V as <-; now split.
  - now apply (IH vs').
Qed.
Lemma message_more t m p fs v : storage m = FPath p :: fs -> path_fits fits box unbox t p -> Forall2 (field_fits fits box unbox) (t_rest t) fs ->
  value_of box t m = Some v -> more (type_shape t) v -> path_fits more box unbox t p /\ Forall2 (field_fits more box unbox) (t_rest t) fs.
Proof.
  intros S Hp Hf V M. unfold value_of in V. rewrite S in V. destruct (_ && _)%bool; [|discriminate].
  destruct (path_value box t p) as [w|] eqn:W; [|discriminate]. destruct (element_values box (t_rest t) fs) as [vs|] eqn:E; [|discriminate]. injection V as <-.
  unfold type_shape in M. apply more_seq in M. destruct M as (M1 & M2). split; [|now apply (fields_more _ _ vs)].
  unfold path_fits, path_value, path_shape, no_keys in *. destruct p as [[ty ks]|ty ks].
  - cbn [ptype keys] in *. destruct Hp as (C & -> & F). split; auto. split; auto. rewrite C, Nat.eqb_refl in *. cbn [negb andb] in *.
    destruct (box_all box (t_keys t) ks) as [ws|] eqn:B; [|discriminate]. cbn in W.
    destruct (t_keys t) eqn:Kt; [inversion F; constructor|]. injection W as <-. apply more_seq in M1. now apply (parts_more _ _ ws).
  - destruct Hp as (C & -> & F). split; auto. split; auto. rewrite C, Nat.eqb_refl in *. cbn [negb andb] in *.
    destruct (box_all box (t_keys t) ks) as [ws|] eqn:B; [|discriminate]. cbn in W. injection W as <-. apply more_seq in M1. now apply (parts_more _ _ ws).
Qed.
End More.

Lemma js_writable_as_seq P l vs : js_writable_as P (SSeq l) (VSeq vs) <-> fits_all (js_writable_as P) l vs.
Proof. cbn [js_writable_as]. revert vs. induction l as [|s l IH]; intros [|v vs]; cbn; first [tauto|specialize (IH vs); tauto]. Qed.
Lemma js_writable_seq l vs : js_writable (SSeq l) (VSeq vs) <-> fits_all js_writable l vs.
Proof. apply js_writable_as_seq. Qed.
Lemma sayable_seq l vs : sayable (SSeq l) (VSeq vs) <-> fits_all sayable l vs.
Proof. apply js_writable_as_seq. Qed.
Lemma fits_up_seq l vs : fits_up (SSeq l) (VSeq vs) <-> fits_all fits_up l vs.
Proof. unfold fits_up, sayable. cbn [js_writable_as small]. revert vs. induction l as [|s l IH]; intros [|v vs]; cbn; first [tauto|specialize (IH vs); unfold fits_up, sayable; tauto]. Qed.
Lemma fits_down_seq l vs : fits_down (SSeq l) (VSeq vs) <-> fits_all fits_down l vs.
Proof. unfold fits_down, js_writable. cbn [js_writable_as filled]. revert vs. induction l as [|s l IH]; intros [|v vs]; cbn; first [tauto|specialize (IH vs); unfold fits_down, js_writable; tauto]. Qed.

Lemma legible_seq l vs : legible (SSeq l) (VSeq vs) <-> fits_all legible l vs.
Proof. unfold legible, sayable. cbn [js_writable_as filled]. revert vs. induction l as [|s l IH]; intros [|v vs]; cbn; first [tauto|specialize (IH vs); unfold legible, sayable; tauto]. Qed.

Lemma alt_writable P l i s v : nth_error l i = Some s ->
  ((fix go l i := match l, i with [], _ => False | s :: _, O => js_writable_as P s v | _ :: l', S i' => go l' i' end) l i <-> js_writable_as P s v).
Proof. revert i. induction l as [|a l IH]; intros [|i] E; cbn in E; try discriminate; [injection E as ->; tauto|exact (IH i E)]. Qed.
Lemma alt_small l i s v : nth_error l i = Some s ->
  ((fix go l i := match l, i with [], _ => True | s :: _, O => small s v | _ :: l', S i' => go l' i' end) l i <-> small s v).
Proof. revert i. induction l as [|a l IH]; intros [|i] E; cbn in E; try discriminate; [injection E as ->; tauto|exact (IH i E)]. Qed.
Lemma alt_filled l i s v : nth_error l i = Some s ->
  ((fix go l i := match l, i with [], _ => True | s :: _, O => filled s v | _ :: l', S i' => go l' i' end) l i <-> filled s v).
Proof. revert i. induction l as [|a l IH]; intros [|i] E; cbn in E; try discriminate; [injection E as ->; tauto|exact (IH i E)]. Qed.

Section Codec.
Variable box : shape -> N -> value.
Variable unbox : shape -> value -> N.
Variable api : list message_type.
Variable sys : shape.
Variable lenient : list N -> list N.
Variable other_number : jsv -> Z.
Variable like_bytes : list (list N * jsv) -> option (list N).
Variable integral_of : N -> option Z.
Variable double_of : Z -> N.
Variable print : json -> bytes.
Variable parse : bytes -> option json.
Variable stringify : jsv -> bytes.
Variable js_parse : bytes -> option jsv.
Hypothesis Hu : understood lenient stringify parse print js_parse.
Hypothesis one : one_type api.
Hypothesis num : numbered api.

Lemma variant_writable P i t v : nth_error api i = Some t ->
  (js_writable_as P (type_shape t) v <-> js_writable_as P (message_variant sys (shapes api)) (VVar (S (S i)) v)) /\
  (small (message_variant sys (shapes api)) (VVar (S (S i)) v) <-> small (type_shape t) v) /\
  (filled (message_variant sys (shapes api)) (VVar (S (S i)) v) <-> filled (type_shape t) v).
Proof.
  intros T. assert (E : nth_error (SEmpty :: sys :: shapes api) (S (S i)) = Some (type_shape t)) by (cbn; unfold shapes; now rewrite nth_error_map, T).
  split; [|split].
  - unfold message_variant. cbn [js_writable_as]. split; [|intros (_ & W); exact (proj1 (alt_writable P _ _ _ v E) W)]. intros W. split; [|exact (proj2 (alt_writable P _ _ _ v E) W)].
    cbn [length]. unfold shapes. rewrite map_length. unfold numbered in num. change (2 ^ 31) with (Z.to_N (2 ^ 31)). lia.
  - exact (alt_small _ _ _ v E).
  - exact (alt_filled _ _ _ v E).
Qed.

Lemma up_verdict m : made_of sayable box unbox api m ->
  let got := read_text unbox api sys integral_of double_of parse (browser_text box api sys lenient stringify m) in
  (made_of fits_up box unbox api m -> got = NetModel.Message m) /\ (~ made_of fits_up box unbox api m -> got = Twice).
Proof.
  intros M got. pose proof M as (t & H & K & I & p & fs & S & Hp & Hf).
  destruct (value_fits sayable box unbox sayable_seq Logic.I t m p fs K I S Hp Hf) as (v & V & W & B).
  destruct (locate_in box api m t v H V) as (i & t' & v' & L & T & V').
  assert (t' = t) as -> by (eapply one; eauto using value_of_type, nth_error_In). assert (v' = v) as -> by congruence. clear V'.
  destruct (variant_writable well_formed i t v T) as (A1 & A2 & _).
  destruct (C75_from_browser_exact lenient integral_of double_of _ _ (proj1 A1 W)) as (j & Ej & R1 & R2).
  assert (G : got = match read integral_of double_of (message_variant sys (shapes api)) (to_document j) (default (message_variant sys (shapes api))) with
    | Ok (Some (VVar (Datatypes.S (Datatypes.S i)) v)) => match nth_error api i with Some ty => match message_of unbox ty v with Some m => NetModel.Message m | None => Twice end | None => Twice end
    | Ok (Some (VVar _ _)) => Refused | _ => Twice end).
  { unfold got, browser_text, read_text, deserialize, AppModel.from_string. rewrite L, Ej, (proj1 Hu j).
    destruct (read _ _ _ _ _) as [[x|]|]; [destruct x as [ | | | | | | |k x]; try reflexivity; destruct k as [|[|k]]; reflexivity|reflexivity|reflexivity]. }
  split.
  - intros (t2 & H2 & K2 & I2 & p2 & fs2 & S2 & Hp2 & Hf2).
    destruct (value_fits fits_up box unbox fits_up_seq (conj Logic.I Logic.I) t2 m p2 fs2 K2 I2 S2 Hp2 Hf2) as (v2 & V2 & W2 & _).
    assert (t2 = t) as -> by (eapply one; eauto using value_of_type). assert (v2 = v) as -> by congruence.
    rewrite G, R1, T, B; [reflexivity|]. apply A2, W2.
  - intros N. rewrite G, R2; [reflexivity|]. intros Sm. apply N. exists t. split; auto. split; auto. split; auto. exists p, fs. split; auto.
    apply (message_more sayable fits_up box unbox fits_up_seq t m p fs v); auto. split; [exact W|now apply A2].
Qed.

(* what is seen of a message *)
Lemma parts_garbled l ns vs : Forall2 (fit sayable box unbox) l ns -> box_all box l ns = Some vs ->
  forall ns', parts_seen box unbox l ns ns' <-> ns' = unbox_all unbox l (map garbled vs).
Proof.
  intros F. revert vs. induction F as [|s n l ns (A & B) F IH]; intros vs E ns'; cbn in E.
  - injection E as <-. cbn. destruct ns'; split; try tauto; discriminate.
  - destruct (box_all box l ns) as [vs'|]; [|discriminate]. injection E as <-. specialize (IH vs' eq_refl). cbn. destruct ns' as [|n' ns']; [split; [contradiction|discriminate]|]. split.
    + intros ((v & Sv & ->) & R). apply IH in R. subst ns'. now rewrite (seen_garbled s _ A v Sv).
    + intros E. injection E as -> ->. split; [exists (garbled (box s n)); split; auto; now apply (garbled_seen s)|now apply IH].
Qed.
Lemma field_garbled e f v : field_fits sayable box unbox e f -> element_value box e f = Some v -> forall f', field_seen box unbox e f f' <-> f' = field_of unbox e (garbled v).
Proof.
  intros A E f'. destruct e as [s|[s| |]|s|], f as [| |[| |]| | |]; cbn in A, E; try contradiction; try destruct A as (A & B); injection E as <-; cbn;
    (split; [destruct f' as [| |[| |]| | |]; try contradiction; try reflexivity; intros (w & Sw & ->); now rewrite (seen_garbled s _ A w Sw)|
             intros ->; first [exact Logic.I|eexists; split; [eapply garbled_seen; exact A|reflexivity]]]).
Qed.
Lemma fields_garbled l fs vs : Forall2 (field_fits sayable box unbox) l fs -> element_values box l fs = Some vs ->
  forall fs', fields_seen box unbox l fs fs' <-> fs' = fields_of unbox l (map garbled vs).
Proof.
  intros F. revert vs. induction F as [|e f l fs A F IH]; intros vs E fs'; cbn in E.
  - injection E as <-. cbn. destruct fs'; split; try tauto; discriminate.
  - destruct (element_value box e f) as [v|] eqn:V; [|discriminate]. destruct (element_values box l fs) as [vs'|]; [|discriminate]. injection E as <-. specialize (IH vs' eq_refl).
    cbn. destruct fs' as [|f' fs']; [split; [contradiction|discriminate]|]. pose proof (field_garbled e f v A V f') as G. split.
    + intros (X & R). apply G in X. apply IH in R. congruence.
    + intros X. injection X as X R. split; [now apply G|now apply IH].
Qed.
Lemma path_garbled t p v : path_fits sayable box unbox t p -> path_value box t p = Some v -> forall p', path_seen box unbox t p p' <-> p' = path_of_value unbox t (garbled v).
Proof.
  unfold path_fits, path_value, path_seen, path_of_value, no_keys. destruct p as [[ty ks]|ty ks].
  - cbn [ptype keys]. intros (C & -> & F) E p'. rewrite C, Nat.eqb_refl in *. cbn [negb andb] in E. destruct (box_all box (t_keys t) ks) as [vs|] eqn:B; [|discriminate]. cbn [option_map] in E.
    pose proof (parts_garbled _ _ _ F B) as G.
    assert (K : (match garbled v with VSeq vs => unbox_all unbox (t_keys t) vs | _ => [] end) = unbox_all unbox (t_keys t) (map garbled vs)).
    { destruct (t_keys t); injection E as <-; reflexivity. }
    rewrite K. destruct p' as [[ty' ks']|ty' ks']; cbn [ptype keys]; [|split; [contradiction|discriminate]]. rewrite G. split; [intros (-> & ->); reflexivity|intros X; injection X; auto].
  - intros (C & -> & F) E p'. rewrite C, Nat.eqb_refl in *. cbn [negb andb] in E. destruct (box_all box (t_keys t) ks) as [vs|] eqn:B; [|discriminate]. cbn [option_map] in E. injection E as <-.
    pose proof (parts_garbled _ _ _ F B) as G. cbn [garbled].
    destruct p' as [[ty' ks']|ty' ks']; [split; [contradiction|discriminate]|]. rewrite G. split; [intros (-> & ->); reflexivity|intros X; injection X; auto].
Qed.
Lemma message_garbled t m p fs v : In t api -> mkind m = t_kind t -> mtype m = t_id t -> storage m = FPath p :: fs -> path_fits sayable box unbox t p ->
  Forall2 (field_fits sayable box unbox) (t_rest t) fs -> value_of box t m = Some v ->
  exists m', message_of unbox t (garbled v) = Some m' /\ mkind m' = mkind m /\ forall x, seen_as box unbox api m x <-> x = m'.
Proof.
  intros H K I S Hp Hf V. pose proof (value_of_type box t m v V) as Vt.
  assert (V2 := V). unfold value_of in V. rewrite S in V. destruct (_ && _)%bool; [|discriminate].
  destruct (path_value box t p) as [w|] eqn:W; [|discriminate]. destruct (element_values box (t_rest t) fs) as [vs|] eqn:E; [|discriminate]. injection V as <-.
  cbn [garbled map message_of]. eexists. split; [reflexivity|]. split; [symmetry; exact K|].
  pose proof (path_garbled t p w Hp W) as Gp. pose proof (fields_garbled _ _ _ Hf E) as Gf.
  intros x. split.
  - intros (t2 & H2 & O2 & K3 & I3 & p2 & fs2 & p' & fs' & S2 & S3 & Sp & Sf).
    rewrite S in S2. injection S2 as <- <-.
    assert (t2 = t) as -> by (eapply one; eauto).
    apply Gp in Sp. apply Gf in Sf. destruct x as [k ty st]. cbn in *. congruence.
  - intros ->. exists t. do 2 (split; [assumption|]). do 2 (split; [symmetry; assumption|]). exists p, fs. eexists. eexists. split; [exact S|]. split; [reflexivity|]. split; [now apply Gp|now apply Gf].
Qed.
Lemma legible_dec m : api_proper sys api -> made_of sayable box unbox api m ->
  made_of legible box unbox api m \/ ~ made_of legible box unbox api m.
Proof.
  intros Pr M. pose proof M as (t & H & K & I & p & fs & S & Hp & Hf).
  destruct (value_fits sayable box unbox sayable_seq Logic.I t m p fs K I S Hp Hf) as (v & V & W & B).
  assert (Pt : proper (type_shape t)) by (destruct Pr as (_ & Pa); rewrite Forall_forall in Pa; auto).
  assert (D : filled (type_shape t) v \/ ~ filled (type_shape t) v).
  { destruct (all_judged lenient other_number like_bytes (type_shape t) v W) as (j & _ & D). destruct (D _ Pt (default_shape _ Pt)) as [(_ & F)|(_ & F)]; auto. }
  destruct D as [F|F].
  - left. exists t. split; auto. split; auto. split; auto. exists p, fs. split; auto.
    apply (message_more sayable legible box unbox legible_seq t m p fs v); auto. now split.
  - right. intros (t2 & H2 & K2 & I2 & p2 & fs2 & S2 & Hp2 & Hf2).
    destruct (value_fits legible box unbox legible_seq (conj Logic.I Logic.I) t2 m p2 fs2 K2 I2 S2 Hp2 Hf2) as (v2 & V2 & W2 & _).
    assert (t2 = t) as -> by (eapply one; eauto using value_of_type). assert (v2 = v) as -> by congruence. apply F, W2.
Qed.

Lemma down_verdict m : api_proper sys api -> made_of sayable box unbox api m ->
  let got := browser_read unbox api sys lenient other_number like_bytes js_parse (WireModel.text_of box api sys print m) in
  exists m', (forall x, seen_as box unbox api m x <-> x = m') /\ (made_of js_writable box unbox api m -> m' = m) /\ mkind m' = mkind m /\
  (made_of legible box unbox api m -> got = NetModel.Message m') /\ (~ made_of legible box unbox api m -> got = Thrown).
Proof.
  intros (Ps & Pa) M got. pose proof M as (t & H & K & I & p & fs & S & Hp & Hf).
  destruct (value_fits sayable box unbox sayable_seq Logic.I t m p fs K I S Hp Hf) as (v & V & W & B).
  destruct (locate_in box api m t v H V) as (i & t' & v' & L & T & V').
  assert (t' = t) as -> by (eapply one; eauto using value_of_type, nth_error_In). assert (v' = v) as -> by congruence. clear V'.
  destruct (variant_writable well_formed i t v T) as (A1 & _ & A2).
  assert (P : proper (message_variant sys (shapes api))).
  { unfold message_variant. cbn [proper]. split; [discriminate|]. split; [exact Logic.I|]. split; [exact Ps|]. unfold shapes. clear -Pa.
    induction Pa as [|t l H _ IH]; cbn; auto. }
  destruct (all_judged lenient other_number like_bytes _ _ (proj1 A1 W)) as (j & Ej & D). specialize (D _ P (default_shape _ P)). cbn [garbled] in D.
  destruct (message_garbled t m p fs v H K I S Hp Hf V) as (m' & Em & Km & Sm).
  assert (G : got = match bind_from lenient other_number like_bytes (message_variant sys (shapes api)) (from_document lenient j) (default (message_variant sys (shapes api))) with
    | Ok None => Thrown
    | Ok (Some (VVar (Datatypes.S (Datatypes.S i)) v)) => match nth_error api i with Some ty => match message_of unbox ty v with Some m => NetModel.Message m | None => Twice end | None => Twice end
    | Ok (Some (VVar _ _)) => Refused | _ => Twice end).
  { unfold got, browser_read, WireModel.text_of, serialize. rewrite L, Ej, (proj2 Hu j). reflexivity. }
  exists m'. split; [exact Sm|]. split; [|split; [exact Km|]].
  - intros (t2 & H2 & K2 & I2 & p2 & fs2 & S2 & Hp2 & Hf2).
    destruct (value_fits js_writable box unbox js_writable_seq Logic.I t2 m p2 fs2 K2 I2 S2 Hp2 Hf2) as (v2 & V2 & W2 & B2).
    assert (t2 = t) as -> by (eapply one; eauto using value_of_type). assert (v2 = v) as -> by congruence. rewrite (garbled_ascii _ _ W2) in Em. congruence.
  - split.
    + intros (t2 & H2 & K2 & I2 & p2 & fs2 & S2 & Hp2 & Hf2).
      destruct (value_fits legible box unbox legible_seq (conj Logic.I Logic.I) t2 m p2 fs2 K2 I2 S2 Hp2 Hf2) as (v2 & V2 & W2 & _).
      assert (t2 = t) as -> by (eapply one; eauto using value_of_type). assert (v2 = v) as -> by congruence.
      destruct D as [(D & _)|(_ & D)]; [|destruct D; apply A2, W2]. rewrite G, D, T, Em. reflexivity.
    + intros N. destruct D as [(_ & D)|(D & _)]; [|now rewrite G, D]. destruct N. exists t. split; auto. split; auto. split; auto. exists p, fs. split; auto.
      apply (message_more sayable legible box unbox legible_seq t m p fs v); auto. split; [exact W|now apply A2].
Qed.

Lemma made_weaker (F G : shape -> value -> Prop) m : (forall s v, F s v -> G s v) -> made_of F box unbox api m -> made_of G box unbox api m.
Proof.
  intros Hw (t & H & K & I & p & fs & S & Hp & Hf). exists t. split; auto. split; auto. split; auto. exists p, fs. split; auto.
  assert (Wf : forall l ns, Forall2 (fit F box unbox) l ns -> Forall2 (fit G box unbox) l ns).
  { induction 1 as [|s n l ns (A & B) _ IH]; constructor; auto. split; auto. }
  split.
  - destruct p as [q|ty ks]; cbn in *; destruct Hp as (A & B & C); auto.
  - clear -Hf Hw. induction Hf as [|e f l fs A _ IH]; constructor; auto. destruct e as [s|[s| |]|s|], f as [| |[| |]| | |]; cbn in *; auto; destruct A; split; auto.
Qed.
(* whatever a browser hears is a message of a type of the API *)
Lemma browser_kind t m : browser_read unbox api sys lenient other_number like_bytes js_parse t = NetModel.Message m -> exists ty, In ty api /\ mkind m = t_kind ty.
Proof.
  unfold browser_read. destruct (js_parse t) as [j|]; [|discriminate]. destruct (bind_from _ _ _ _ _ _) as [[x|]|]; try discriminate.
  destruct x as [ | | | | | | |k x]; try discriminate. destruct k as [|[|k]]; try discriminate.
  destruct (nth_error api k) as [ty|] eqn:T; [|discriminate]. intros E. exists ty. split; [eapply nth_error_In; eauto|].
  unfold message_of in E. destruct x as [ | | | | |[|y ys]| | ]; try discriminate. now injection E as <-.
Qed.
End Codec.

(* ---- C84 where some messages are lost on the way down and others are read as others ---- *)
Section Lossy.
Context {text : Type} (up_text : nat -> msg -> text) (up_read : text -> incoming) (down_text : msg -> text) (down_read : nat -> text -> incoming)
  {P : Type} (react : P -> msg -> P * list msg) (ssh : StoreModel.shape) (srv : nat) (csh : StoreModel.shape) (cli : nat) (arrives : nat -> msg -> option msg).
Hypothesis up_codec : forall i m, is_upstream m = true -> up_read (up_text i m) = NetModel.Message m.
Hypothesis down_codec : forall i m, is_upstream m = false -> down_read i (down_text m) = match arrives i m with Some m' => NetModel.Message m' | None => Thrown end.
Hypothesis arrives_down : forall i m m', is_upstream m = false -> arrives i m = Some m' -> is_upstream m' = false.
Hypothesis answers_down : forall q m d, In d (snd (react q m)) -> is_upstream d = false.
Hypothesis srv_consumer : exists a, nth_error (actors ssh) srv = Some a /\ consumer a = true.
Notation run := (NetModel.run text up_text up_read down_text down_read P react ssh srv csh cli).
Notation start := (NetModel.start text P).
Variable st0 : state table P.
Hypothesis empty : forall t, stores st0 t = [].
Let inv (uok vok : nat -> Prop) := inv_run up_text up_read down_text down_read react ssh srv csh cli up_codec arrives down_codec arrives_down answers_down srv_consumer uok vok.
Lemma lossy_inv uok vok ls n : run (start st0) ls = Some n -> Forall (fine (text := text) uok vok) ls -> Inv up_text down_text arrives uok vok n.
Proof. intros E F. eapply inv; eauto. now apply inv_start. Qed.
Lemma lossy_none ls : Forall (fine (text := text) (fun _ => False) (fun _ => False)) ls.
Proof. apply Forall_forall. intros [] _; cbn; auto; contradiction. Qed.

Lemma lossy_history l1 i l2 n c :
  run (start st0) (l1 ++ Register _ i :: l2) = Some n -> nth_error (members _ _ n) i = Some c ->
  exists n1 news heard, run (start st0) l1 = Some n1 /\ told _ _ n = told _ _ n1 ++ news /\
    prefix heard news /\ got _ c = map_some (arrives i) heard /\ (at_rest c -> heard = news).
Proof.
  intros E H. destruct (register_since _ _ _ _ _ _ _ _ _ (fun _ => False) (fun _ => False) i l1 l2 _ _ _ E H) as (n1 & news & A & B & C).
  destruct (inv_d _ _ _ _ _ _ _ (lossy_inv _ _ _ _ E (lossy_none _)) _ _ H) as (_ & _ & _ & rest & later & D4 & (heard & D0 & D5) & D6).
  exists n1, news, heard. split; auto. split; auto.
  rewrite C, B, skipn_app, skipn_all, Nat.sub_diag in D5. cbn in D5. split; [exists (rest ++ later); auto|]. split; auto.
  intros (_ & R1 & _ & R2). rewrite R2 in D4. destruct rest; [|discriminate]. rewrite (D6 R1) in D5. cbn in D5. now rewrite app_nil_r in D5.
Qed.
Lemma lossy_shows ls n p : run (start st0) ls = Some n ->
  shown (stores (hub _ _ n)) p = value_after (told _ _ n) p /\
  forall i c, nth_error (members _ _ n) i = Some c -> (forall m, In (Ask _ i m) ls -> is_upstream m = true) ->
    shown (stores (view _ c)) p = value_after (got _ c) p.
Proof.
  intros E. rewrite shown_val. split.
  - pose proof (inv_hub _ _ _ _ _ _ _ (lossy_inv _ _ _ _ E (lossy_none _)) p) as H. unfold vals in H. rewrite H. reflexivity.
  - intros i c H U. rewrite shown_val.
    assert (F : Forall (fine (text := text) (fun _ => False) (fun j => j = i)) ls).
    { apply Forall_forall. intros l L. destruct l; cbn; auto. intros ->. now apply U. }
    pose proof (inv_v _ _ _ _ _ _ _ (lossy_inv _ _ _ _ E F) _ _ H eq_refl p) as V. unfold vals in V. rewrite V. reflexivity.
Qed.
Lemma lossy_requests ls n i c : (forall t, producer_of csh t = cli) ->
  run (start st0) ls = Some n -> nth_error (members _ _ n) i = Some c ->
  (forall t, ~ In (Inject _ i t) ls) -> (forall m, In (Ask _ i m) ls -> is_upstream m = true) ->
  prefix (by_client i (served _ _ n)) (filter goes_up (pushed_at i ls)) /\
  (at_rest c -> by_client i (served _ _ n) = filter goes_up (pushed_at i ls)).
Proof.
  intros HP E H J U.
  assert (F : Forall (fine (text := text) (fun j => j = i) (fun j => j = i)) ls).
  { apply Forall_forall. intros l L. destruct l; cbn; auto; intros ->; [now apply U|exact (J _ L)]. }
  pose proof (lossy_inv _ _ _ _ E F) as I.
  assert (A : asked _ c = filter goes_up (pushed_at i ls)).
  { rewrite (run_asked up_text up_read down_text down_read react ssh srv csh cli up_codec arrives down_codec arrives_down answers_down srv_consumer
       (fun j => j = i) (fun j => j = i) ls HP (start st0) n i c); auto; [|now apply inv_start].
    unfold asked_at. cbn. now destruct i. }
  destruct (inv_u _ _ _ _ _ _ _ I _ _ H eq_refl) as (rest & later & U1 & U2 & U3 & _). rewrite <- A, <- U2. split; [exists (rest ++ later); auto|].
  intros (R1 & _ & R2 & _). rewrite R2 in U1. destruct rest; [|discriminate]. rewrite (U3 R1). cbn. now rewrite app_nil_r.
Qed.
Lemma lossy_healthy ls n : run (start st0) ls = Some n -> (forall i t, ~ In (Inject _ i t) ls) ->
  crashed _ _ n = false /\
  forall i c, nth_error (members _ _ n) i = Some c -> ruined _ c = false /\
    (~ In (DropServer _ i) ls -> ~ In (DropClient _ i) ls -> alive _ c = true /\ at_server _ c <> Gone).
Proof.
  intros E J.
  assert (F : Forall (fine (text := text) (fun _ => True) (fun _ => False)) ls).
  { apply Forall_forall. intros l L. destruct l; cbn; auto; try contradiction. intros _. exact (J _ _ L). }
  pose proof (lossy_inv _ _ _ _ E F) as I. split.
  - exact (run_health up_text up_read down_text down_read react ssh srv csh cli up_codec arrives down_codec arrives_down answers_down srv_consumer (fun _ => True) (fun _ => False)
      ls (fun _ => Logic.I) (start st0) n (inv_start _ _ _ _ _ _ empty) E F eq_refl).
  - intros i c H. split; [exact (proj1 (inv_d _ _ _ _ _ _ _ I _ _ H))|]. intros D1 D2.
    refine (run_up up_text up_read down_text down_read react ssh srv csh cli up_codec arrives down_codec arrives_down answers_down srv_consumer (fun _ => True) (fun _ => False)
      ls i Logic.I (start st0) n c (inv_start _ _ _ _ _ _ empty) E F D1 D2 _ H).
    intros x. cbn. destruct i; discriminate.
Qed.
End Lossy.

(* ---- the same for any texts, as long as every message said survives them or is lost ---- *)
Section Survive.
Variables (up_text : nat -> msg -> bytes) (up_read : bytes -> incoming) (down_text : msg -> bytes) (down_read : nat -> bytes -> incoming).
Variables (ssh csh : StoreModel.shape) (srv cli : nat).
Variable arrives : nat -> msg -> option msg.
Hypothesis arrives_down : forall i m m', is_upstream m = false -> arrives i m = Some m' -> is_upstream m' = false.
Hypothesis srv_consumer : exists a, nth_error (actors ssh) srv = Some a /\ consumer a = true.
Notation faithful := (faithful up_text up_read down_text down_read arrives).
Notation say := (fun i m => inl (i, m)).
Notation tell := (fun m => inl (0%nat, m)).
Let u (i : nat) (m : msg) (_ : is_upstream m = true) : ideal_read up_read (inl (i, m)) = NetModel.Message m := eq_refl.
Let d (i : nat) (m : msg) (_ : is_upstream m = false) : lossy_read arrives down_read i (inl (0%nat, m)) = match arrives i m with Some m' => NetModel.Message m' | None => Thrown end := eq_refl.
Context {P : Type} (react : P -> msg -> P * list msg).
Hypothesis answers_down : forall q m d, In d (snd (react q m)) -> is_upstream d = false.
Notation run := (NetModel.run bytes up_text up_read down_text down_read P react ssh srv csh cli).
Notation start := (NetModel.start bytes P).
Variable st0 : state table P.
Hypothesis empty : forall t, stores st0 t = [].
Let sim ls n E (C : faithful n) := sim up_text up_read down_text down_read react ssh srv csh cli arrives st0 ls n E C.

Lemma history l1 i l2 n c :
  run (start st0) (l1 ++ Register _ i :: l2) = Some n -> faithful n -> nth_error (members _ _ n) i = Some c ->
  exists n1 news heard, run (start st0) l1 = Some n1 /\ told _ _ n = told _ _ n1 ++ news /\
    prefix heard news /\ got _ c = map_some (arrives i) heard /\ (at_rest c -> heard = news).
Proof.
  intros E C H. destruct (sim _ _ E C) as (n' & E' & <-). destruct (pn_nth _ _ _ _ _ H) as (x & X & <-).
  rewrite map_app in E'. cbn [map il] in E'.
  destruct (lossy_history say (ideal_read up_read) tell (lossy_read arrives down_read) react ssh srv csh cli arrives u d arrives_down answers_down srv_consumer st0 empty _ _ _ _ _ E' X)
    as (n1' & news & heard & A & B & G & F & R).
  assert (Q : exists n1, run (start st0) l1 = Some n1).
  { rewrite run_app in E. destruct (run (start st0) l1) as [n1|]; [eauto|discriminate]. }
  destruct Q as (n1 & Q). exists n1, news, heard. split; auto.
  assert (F1 : faithful n1) by (rewrite run_app, Q in E; eapply faithful_run; [exact E|exact C]).
  destruct (WireProofs.sim up_text up_read down_text down_read react ssh srv csh cli arrives st0 l1 n1 Q F1) as (n1x & A' & <-).
  assert (n1x = n1') as -> by congruence. split; auto. split; auto. split; auto. intros Z. apply R. now apply pc_rest in Z.
Qed.
Lemma shows ls n p : run (start st0) ls = Some n -> faithful n ->
  shown (stores (hub _ _ n)) p = value_after (told _ _ n) p /\
  forall i c, nth_error (members _ _ n) i = Some c -> (forall m, In (Ask _ i m) ls -> is_upstream m = true) ->
    shown (stores (view _ c)) p = value_after (got _ c) p.
Proof.
  intros E C. destruct (sim _ _ E C) as (n' & E' & <-).
  destruct (lossy_shows say (ideal_read up_read) tell (lossy_read arrives down_read) react ssh srv csh cli arrives u d arrives_down answers_down srv_consumer st0 empty _ _ p E') as (A & B).
  split; [exact A|]. intros i c H U. destruct (pn_nth _ _ _ _ _ H) as (x & X & <-). apply (B i x X). intros m M. apply U. now apply in_ask.
Qed.
Lemma requests ls n i c : (forall t, producer_of csh t = cli) ->
  run (start st0) ls = Some n -> faithful n -> nth_error (members _ _ n) i = Some c ->
  (forall t, ~ In (Inject _ i t) ls) -> (forall m, In (Ask _ i m) ls -> is_upstream m = true) ->
  prefix (by_client i (served _ _ n)) (filter goes_up (pushed_at i ls)) /\
  (at_rest c -> by_client i (served _ _ n) = filter goes_up (pushed_at i ls)).
Proof.
  intros HP E C H J U. destruct (sim _ _ E C) as (n' & E' & <-). destruct (pn_nth _ _ _ _ _ H) as (x & X & <-).
  destruct (lossy_requests say (ideal_read up_read) tell (lossy_read arrives down_read) react ssh srv csh cli arrives u d arrives_down answers_down srv_consumer st0 empty _ _ _ _ HP E' X) as (A & B).
  - intros t M. destruct (in_inject _ _ _ M) as (t' & M'). exact (J _ M').
  - intros m M. apply U. now apply in_ask.
  - rewrite pushed_il in A, B. split; [exact A|]. intros R. apply B. now apply pc_rest in R.
Qed.
Lemma healthy ls n : run (start st0) ls = Some n -> faithful n -> (forall i t, ~ In (Inject _ i t) ls) ->
  crashed _ _ n = false /\
  forall i c, nth_error (members _ _ n) i = Some c -> ruined _ c = false /\
    (~ In (DropServer _ i) ls -> ~ In (DropClient _ i) ls -> alive _ c = true /\ at_server _ c <> Gone).
Proof.
  intros E C J. destruct (sim _ _ E C) as (n' & E' & <-).
  destruct (lossy_healthy say (ideal_read up_read) tell (lossy_read arrives down_read) react ssh srv csh cli arrives u d arrives_down answers_down srv_consumer st0 empty _ _ E') as (A & B).
  - intros i t M. destruct (in_inject _ _ _ M) as (t' & M'). exact (J _ _ M').
  - split; [exact A|]. intros i c H. destruct (pn_nth _ _ _ _ _ H) as (x & X & <-). destruct (B i x X) as (B1 & B2). split; [exact B1|].
    intros D1 D2. apply B2; intros M; [apply D1; now apply in_drop_server|apply D2; now apply in_drop_client].
Qed.
End Survive.

(* with echo_producer in the server's context *)
Section Echo.
Variables (up_text : nat -> msg -> bytes) (up_read : bytes -> incoming) (down_text : msg -> bytes) (down_read : nat -> bytes -> incoming).
Variables (ssh csh : StoreModel.shape) (srv cli : nat).
Hypothesis srv_consumer : exists a, nth_error (actors ssh) srv = Some a /\ consumer a = true.
Variable modulus : N.
Notation run := (NetModel.run bytes up_text up_read down_text down_read counters (echo_react modulus) ssh srv csh cli).
Notation start := (NetModel.start bytes counters).
Variable st0 : state table counters.
Hypothesis empty : forall t, stores st0 t = [].
Lemma executes ls n (ty : nat -> N) : run (start st0) ls = Some n ->
  Forall request (map snd (served _ _ n)) ->
  (forall m, In m (map snd (served _ _ n)) -> requires_key m = true -> mtype m = ty (path_type m)) ->
  (forall i t, producers st0 i t + N.of_nat (length (served _ _ n)) < modulus) ->
  exists created T, executed (map snd (served _ _ n)) created T /\
    forall p, shown (stores (hub _ _ n)) p = visible (T p).
Proof.
  intros E Q T M.
  destruct (C35_table_partial ssh modulus (map snd (served _ _ n)) ty st0 Q T empty) as (cr & Tb & X1 & X2); [now rewrite map_length|].
  exists cr, Tb. split; auto.
  assert (H : hub _ _ n = fst (StoreModel.run table map_apply map_static_false map_match no_foreign counters (echo_react modulus) ssh st0 (map Push (map snd (served _ _ n))))).
  { eapply run_hub; [exact E|reflexivity]. }
  intros p. rewrite shown_val. unfold val. rewrite H, X2. now destruct (Tb p).
Qed.
End Echo.
