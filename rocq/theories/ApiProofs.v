(* Proofs about the types of a definition's messages. *)
From Verif Require Import Base StoreModel DefModel DefSpec DefProofs JsonModel WireModel WireSpec WireProofs ApiModel ApiSpec.
Open Scope N_scope.

Section Proofs.
Variable key_shape : N -> shape.
Variable entity_shape : ty -> shape.
Variable path_number : list N -> nat.
Notation wire := (wire_type key_shape entity_shape path_number).
Notation make_cp := (make_create_path key_shape).

Lemma create_path_snoc parent k : make_cp (parent ++ [k]) = if is_empty_key key_shape k then (false, parent ++ [k]) else (true, parent).
Proof.
  induction parent as [|x parent IH]; [reflexivity|]. cbn [app make_create_path].
  destruct (parent ++ [k]) as [|y r] eqn:E; [now destruct parent|]. rewrite IH. now destruct (is_empty_key key_shape k).
Qed.
Lemma empty_key k : is_empty_key key_shape k = true <-> key_shape k = SEmpty.
Proof. unfold is_empty_key. destruct (key_shape k); split; congruence. Qed.
Lemma snoc_of {A} (l : list A) : l <> [] -> exists p k, l = p ++ [k].
Proof. intros H. destruct (exists_last H) as (p & k & ->). eauto. Qed.

Lemma key_travels box unbox ks ns :
  Forall2 (travels box unbox) (map key_shape ks) ns <-> fills key_shape (travels box unbox) ks ns.
Proof.
  revert ns. induction ks as [|k ks IH]; intros ns; cbn; split; intros H; inversion H; subst; constructor; auto; now apply IH.
Qed.
Lemma key_count ks ns : length ns = length (map key_shape ks) <-> fills key_shape (fun _ _ => True) ks ns.
Proof.
  rewrite map_length. revert ns. induction ks as [|k ks IH]; intros [|n ns]; cbn; split; intros H; try discriminate; try (now inversion H); try constructor; auto.
  - apply IH. now injection H.
  - inversion H; subst. f_equal. now apply IH.
Qed.

Section Api.
Variables (ps : list producer) (us ds : list message).
Hypothesis api : message_api ps = Some (us, ds).

Lemma create_has_keys : forall a, In a (points ps) -> In Create (declared_actions a) -> ap_path a <> [].
Proof.
  intros a Ia Ic E. unfold message_api in api.
  destruct (all entity_messages (flat_map pr_points ps)) as [ms|] eqn:A; [|discriminate].
  apply all_some in A as [_ F]. rewrite Forall_forall in F. destruct (F a Ia) as (r & R). clear F.
  unfold entity_messages in R. destruct (all action_of (ap_actions a)) as [acts|] eqn:B; [|discriminate].
  destruct (all (upstream (ap_path a) (ap_entity a)) acts) as [ups|] eqn:C; [|discriminate].
  apply actions_declared in B. fold (declared_actions a) in B. subst acts.
  apply all_some in C as [_ F]. rewrite Forall_forall in F. destruct (F _ Ic) as (y & Y). cbn in Y. rewrite E in Y. discriminate.
Qed.
Lemma in_us m : In m us <-> exists a x, In a (points ps) /\ In x (declared_actions a) /\ m = request a x.
Proof.
  destruct (message_api_spec _ _ _ api) as [-> _]. rewrite in_flat_map. split.
  - intros (a & Ia & H). apply in_map_iff in H as (x & <- & Ix). eauto.
  - intros (a & x & Ia & Ix & ->). exists a. split; [exact Ia|]. now apply in_map.
Qed.
Lemma in_ds m : In m ds <-> exists a x, In a (points ps) /\ In x (declared_actions a) /\ In m (answers a x).
Proof.
  destruct (message_api_spec _ _ _ api) as [_ ->]. rewrite in_flat_map. split.
  - intros (a & Ia & H). apply in_flat_map in H as (x & Ix & H). eauto.
  - intros (a & x & Ia & Ix & H). exists a. split; [exact Ia|]. apply in_flat_map. eauto.
Qed.

(* the type of a request, the create path worked out *)
Lemma create_type a p k : ap_path a = p ++ [k] -> wire (request a Create) =
  let n := path_number (ap_path a) in
  if is_empty_key key_shape k then MType UpCreate (N.of_nat n) n false (map key_shape (ap_path a)) [ENoImpl; EPayload (CEntity (entity_shape (ap_entity a))); ENoImpl]
  else MType UpCreate (N.of_nat n) n true (map key_shape p) [ENoImpl; EPayload (CEntity (entity_shape (ap_entity a))); ENoImpl].
Proof. intros E. unfold wire_type. cbn. rewrite E, create_path_snoc. now destruct (is_empty_key key_shape k). Qed.

(* a message of a type, with a condition on its values *)
Section Ok.
Variable ok : shape -> N -> Prop.
Notation fill := (fills key_shape ok).
Notation ask := (can_ask key_shape entity_shape path_number ok).
Notation tell := (can_tell key_shape entity_shape path_number ok).
Definition field_ok (e : element) (f : field) : Prop :=
  match e, f with
  | EUid s, FUid n | EPayload (CEntity s), FPayload (Entity n) | EPrivate s, FPrivate n => ok s n
  | EPayload CNotFound, FPayload NotFound | EPayload CNotInSet, FPayload NotInSet | ENoImpl, NoImpl => True
  | _, _ => False
  end.
Definition path_ok (t : message_type) (p : mpath) : Prop :=
  match p with
  | PPath q => t_create t = false /\ ptype q = t_path t /\ Forall2 ok (t_keys t) (keys q)
  | PCreate ty ks => t_create t = true /\ ty = t_path t /\ Forall2 ok (t_keys t) ks
  end.
Definition has_type (t : message_type) (m : msg) : Prop :=
  mkind m = t_kind t /\ mtype m = t_id t /\ exists p fs, storage m = FPath p :: fs /\ path_ok t p /\ Forall2 field_ok (t_rest t) fs.

Lemma keys_ok ks ns : Forall2 ok (map key_shape ks) ns <-> fill ks ns.
Proof. revert ns. induction ks as [|k ks IH]; intros ns; cbn; split; intros H; inversion H; subst; constructor; auto; now apply IH. Qed.

Ltac rest := repeat match goal with H : Forall2 field_ok _ _ |- _ => inversion H; clear H; subst | H : field_ok _ ?f |- _ => first [is_var f; destruct f as [| |[]| | |]; try now destruct H] end.
Ltac open := match goal with
  | |- forall m, has_type _ m -> _ =>
      intros [k0 ty0 st0] (K & T & p0 & fs0 & S0 & P0 & F0); cbn in K, T, S0, F0; subst; rest;
      destruct p0 as [[pt ks]|pt ks]; destruct P0 as (C0 & T0 & K0); cbn in C0, T0, K0; try discriminate; subst
  end.
Ltac close := repeat (first [reflexivity|eassumption|now apply keys_ok|split|eexists|constructor]).

Lemma request_types a x m : In a (points ps) -> In x (declared_actions a) -> (has_type (wire (request a x)) m <-> ask a x m).
Proof.
  intros Ia Ix. split.
  - revert m. destruct x.
    + destruct (snoc_of _ (create_has_keys a Ia Ix)) as (p & k & E). rewrite (create_type _ _ _ E). cbv zeta.
      destruct (is_empty_key key_shape k) eqn:Ek; open.
      * apply empty_key in Ek. eapply (AskCreateFixed _ _ _ _ a p k ks); auto. now apply keys_ok.
      * eapply (AskCreate _ _ _ _ a p k ks); auto; [|now apply keys_ok]. intros Q. apply empty_key in Q. congruence.
    + open. constructor. now apply keys_ok.
    + open. constructor; auto. now apply keys_ok.
    + open. constructor. now apply keys_ok.
  - intros H. destruct H as [p k ns v E Ek F V|p k ns v E Ek F V|ns F|ns v F V|ns F].
    + rewrite (create_type _ _ _ E). cbv zeta. destruct (is_empty_key key_shape k) eqn:Q; [apply empty_key in Q; congruence|]. close.
    + rewrite (create_type _ _ _ E). cbv zeta. apply empty_key in Ek. rewrite Ek. close.
    + close.
    + close.
    + close.
Qed.
Lemma answer_types a x m : (exists t, In t (answers a x) /\ has_type (wire t) m) <-> tell a x m.
Proof.
  split.
  - intros (t & It & H). revert m H. destruct x; cbn in It; repeat destruct It as [<-|It]; try (now destruct It); open.
    all: try (constructor; auto; now apply keys_ok).
  - intros H. destruct H; [| |eexists; split; [right; left; reflexivity|close]| |]; (eexists; split; [left; reflexivity|close]).
Qed.
Lemma up_types m : (exists t, In t (map wire us) /\ has_type t m) <-> exists a x, In a (points ps) /\ In x (declared_actions a) /\ ask a x m.
Proof.
  split.
  - intros (t & It & H). apply in_map_iff in It as (r & <- & Ir). apply in_us in Ir as (a & x & Ia & Ix & ->).
    exists a, x. repeat split; auto. now apply request_types.
  - intros (a & x & Ia & Ix & H). exists (wire (request a x)). split; [|now apply request_types].
    apply in_map, in_us. eauto.
Qed.
Lemma down_types m : (exists t, In t (map wire ds) /\ has_type t m) <-> exists a x, In a (points ps) /\ In x (declared_actions a) /\ tell a x m.
Proof.
  split.
  - intros (t & It & H). apply in_map_iff in It as (r & <- & Ir). apply in_ds in Ir as (a & x & Ia & Ix & Ir).
    exists a, x. repeat split; auto. apply answer_types. eauto.
  - intros (a & x & Ia & Ix & H). apply answer_types in H as (t & It & H). exists (wire t). split; [|exact H].
    apply in_map, in_ds. eauto.
Qed.
End Ok.

Lemma of_has t m : of_type t m <-> has_type (fun _ _ => True) t m.
Proof.
  assert (A : forall l (ks : list N), length ks = length l <-> Forall2 (fun (_ : shape) (_ : N) => True) l ks).
  { induction l as [|s l IH]; intros [|n ks]; cbn; split; intros H; try discriminate; try (now inversion H); try constructor; auto.
    - apply IH. now injection H.
    - inversion H; subst. f_equal. now apply IH. }
  unfold of_type, has_type. split; intros (K & T & p & fs & S0 & P & F); repeat split; auto; exists p, fs; repeat split; auto.
  - destruct p; destruct P as (? & ? & P); repeat split; auto; now apply A.
  - destruct p; destruct P as (? & ? & P); repeat split; auto; now apply A.
Qed.
Lemma carried_has box unbox l m : carried box unbox l m <-> exists t, In t l /\ has_type (travels box unbox) t m.
Proof. reflexivity. Qed.

Lemma kind_request a x : t_kind (wire (request a x)) = match x with Create => UpCreate | Read => UpRead | Update => UpUpdate | Delete => UpDelete end /\
  t_id (wire (request a x)) = N.of_nat (path_number (ap_path a)).
Proof. unfold wire_type. destruct x; cbn; auto. now destruct (make_cp (ap_path a)). Qed.
Lemma kind_answer a x r : In r (answers a x) -> t_kind (wire r) = match x with Create => DownCreate | Read => DownRead | Update => DownUpdate | Delete => DownDelete end /\
  t_id (wire r) = N.of_nat (path_number (ap_path a)).
Proof. destruct x; cbn; intros H; repeat destruct H as [<-|H]; try (now destruct H); auto. Qed.
Lemma same_point a b : one_each path_number ps -> In a (points ps) -> In b (points ps) ->
  N.of_nat (path_number (ap_path a)) = N.of_nat (path_number (ap_path b)) -> a = b.
Proof. intros (ND & NI) Ia Ib E. apply Nnat.Nat2N.inj in E. eapply map_inj_in; [exact ND|exact Ia|exact Ib|]. now apply NI. Qed.

Lemma up_one_type : one_each path_number ps -> one_type (map wire us).
Proof.
  intros O t t' m I1 I2 (K1 & T1 & _) (K2 & T2 & _).
  apply in_map_iff in I1 as (r & <- & I1). apply in_map_iff in I2 as (r' & <- & I2).
  apply in_us in I1 as (a & x & Ia & _ & ->). apply in_us in I2 as (b & y & Ib & _ & ->).
  destruct (kind_request a x) as (Ka & Ea). destruct (kind_request b y) as (Kb & Eb).
  assert (a = b) as -> by (apply same_point; auto; congruence).
  assert (x = y) as -> by (rewrite Ka in K1; rewrite Kb in K2; rewrite K1 in K2; destruct x, y; congruence). reflexivity.
Qed.
Lemma down_one_type : one_each path_number ps -> one_type (map wire ds).
Proof.
  intros O t t' m I1 I2 (K1 & T1 & p & fs & S1 & _ & F1) (K2 & T2 & p' & fs' & S2 & _ & F2).
  apply in_map_iff in I1 as (r & <- & I1). apply in_map_iff in I2 as (r' & <- & I2).
  apply in_ds in I1 as (a & x & Ia & _ & I1). apply in_ds in I2 as (b & y & Ib & _ & I2).
  destruct (kind_answer _ _ _ I1) as (Ka & Ea). destruct (kind_answer _ _ _ I2) as (Kb & Eb).
  assert (a = b) as -> by (apply same_point; auto; congruence).
  assert (x = y) as -> by (rewrite Ka in K1; rewrite Kb in K2; rewrite K1 in K2; destruct x, y; congruence).
  rewrite S1 in S2. injection S2 as <- <-.
  destruct y; cbn in I1, I2; repeat destruct I1 as [<-|I1]; try (now destruct I1); repeat destruct I2 as [<-|I2]; try (now destruct I2); auto.
  - exfalso. cbn in F1, F2. inversion F1 as [|? f1 ? l1 _ R1]; subst. inversion F2 as [|? f2 ? l2 _ R2]; subst.
    inversion R1 as [|? g1 ? ? G1 _]; subst. inversion R2 as [|? g2 ? ? G2 _]; subst. destruct g1 as [| |[]| | |]; try now destruct G1.
  - exfalso. cbn in F1, F2. inversion F1 as [|? f1 ? l1 _ R1]; subst. inversion F2 as [|? f2 ? l2 _ R2]; subst.
    inversion R1 as [|? g1 ? ? G1 _]; subst. inversion R2 as [|? g2 ? ? G2 _]; subst. destruct g1 as [| |[]| | |]; try now destruct G1.
Qed.
Lemma directions : (forall t, In t (map wire us) -> is_upstream (mk_msg (t_kind t) 0 []) = true) /\
  (forall t, In t (map wire ds) -> is_upstream (mk_msg (t_kind t) 0 []) = false).
Proof.
  split; intros t I; apply in_map_iff in I as (r & <- & I).
  - apply in_us in I as (a & x & _ & _ & ->). destruct (kind_request a x) as (-> & _). now destruct x.
  - apply in_ds in I as (a & x & _ & _ & I). destruct (kind_answer _ _ _ I) as (-> & _). now destruct x.
Qed.
End Api.
End Proofs.
