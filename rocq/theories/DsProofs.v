(* Proofs about the C++ class for a store definition. *)
From Coq Require Import String Permutation.
From Verif Require Import Base RouteSpec RouteModel RouteProofs TrModel TrSpec TrProofs DsModel DsSpec.
Open Scope N_scope.

Lemma comma_list_text l : list_text l (comma_list l).
Proof.
  induction l as [|x r IH]; [constructor|]. destruct r as [|y r]; [constructor|]. change (comma_list (x :: y :: r)) with (x ++ bs ", " ++ comma_list (y :: r)).
  constructor; [exact comma_sp|discriminate|exact IH].
Qed.

Lemma arg_name_inj j k : arg_name j = arg_name k -> j = k.
Proof. intros H. apply var_name_inj in H; [lia|cbn; auto|cbn; auto]. Qed.

(* ---- one initialiser ---- *)

Definition later (k : nat) (ms : list (key * sval)) : Prop := exists m, In m ms /\ (0 < count_args k (args_of (snd m)))%nat.
Lemma later_use_spec n k ms : Forall (member_ok n) ms -> exists b, later_use k ms = Wrote b /\ (b = true <-> later k ms).
Proof.
  induction ms as [|[ky v] r IH]; intros H.
  - exists false. split; [reflexivity|]. split; [discriminate|intros (m & [] & _)].
  - inversion H as [|? ? Hm Hr]; subst. cbn in Hm. destruct v as [ty args| |]; try contradiction. cbn [later_use find_use wbind]. destruct (Nat.ltb_spec 0 (count_args k args)) as [L|L].
    + exists true. split; [reflexivity|]. split; [intros _|reflexivity]. exists (ky, VStore ty args). split; [left; reflexivity|exact L].
    + destruct (IH Hr) as (b & E & B). exists b. split; [exact E|]. rewrite B. split.
      * intros (m & Hm' & K). exists m. split; [right; exact Hm'|exact K].
      * intros (m & [<-|Hm'] & K); [cbn [snd args_of] in K; lia|]. exists m. auto.
Qed.

(* forwarded: the only use in the initialiser and none in those after it *)
Definition last_use (k : nat) (args : list arg) (rest : list (key * sval)) : Prop := count_args k args = 1%nat /\ ~ later k rest.
Definition init_expr (args : list arg) (rest : list (key * sval)) (a : arg) (e : expr) : Prop :=
  denotes a e /\ (forall k, a = AArg k -> (e = Fwd (arg_name k) <-> last_use k args rest)) /\ (forall x, e = Fwd x -> exists k, a = AArg k).

Lemma uses_le d k m : In m (d_members d) -> (uses k (snd m) <= list_sum (map (fun m => uses k (snd m)) (d_members d)))%nat.
Proof.
  induction (d_members d) as [|x r IH]; intros H; [destruct H|]. cbn [map list_sum fold_right]. change (fold_right Nat.add 0%nat) with list_sum. destruct H as [->|H]; [lia|]. specialize (IH H). lia.
Qed.
Lemma total_split d k pre m rest : d_members d = pre ++ m :: rest ->
  (total_uses d k >= uses k (snd m) + list_sum (map (fun m => uses k (snd m)) rest))%nat.
Proof. intros E. unfold total_uses. rewrite E, map_app, list_sum_app. cbn [map list_sum fold_right]. change (fold_right Nat.add 0%nat) with list_sum. lia. Qed.
Lemma later_sum k ms : later k ms -> (0 < list_sum (map (fun m => uses k (snd m)) ms))%nat.
Proof.
  intros (m & Hm & K). induction ms as [|x r IH]; [destruct Hm|]. cbn [map list_sum fold_right]. change (fold_right Nat.add 0%nat) with list_sum. destruct Hm as [->|Hm]; [|specialize (IH Hm); lia].
  destruct (snd m); cbn [args_of uses] in *; try lia; cbv in K; lia.
Qed.

Lemma write_init_arg_spec d pre ky ty args rest a : Forall (member_ok (d_params d)) rest -> d_members d = pre ++ (ky, VStore ty args) :: rest -> In a args -> arg_ok (d_params d) a ->
  exists e, write_init_arg d args rest a = Wrote (expr_text e) /\ init_expr args rest a e.
Proof.
  intros Hr Ed Ha Hk. destruct a as [k|t|]; cbn in Hk; [| |contradiction].
  - cbn [write_init_arg]. destruct (later_use_spec _ k rest Hr) as (b & Eb & Hb). pose proof (total_split d k pre _ _ Ed) as T. cbn [snd uses] in T.
    assert (C : (0 < count_args k args)%nat).
    { unfold count_args. destruct (filter (is_arg k) args) as [|x r] eqn:F; [|cbn; lia]. assert (In (AArg k) (filter (is_arg k) args)) by (apply filter_In; split; [exact Ha|cbn; apply Nat.eqb_refl]). rewrite F in H. destruct H. }
    assert (D : forall fwd : bool, (fwd = true <-> last_use k args rest) -> init_expr args rest (AArg k) (if fwd then Fwd (arg_name k) else Plain (arg_name k))).
    { intros fwd Hf. split; [destruct fwd; reflexivity|]. split.
      - intros k' E. injection E as <-. rewrite <- Hf. destruct fwd; split; congruence.
      - intros x _. eauto. }
    destruct (Nat.eqb_spec (total_uses d k) 1) as [T1|T1].
    + exists (Fwd (arg_name k)). split; [reflexivity|]. apply (D true). split; [intros _|reflexivity]. split; [lia|]. intros L. apply later_sum in L. lia.
    + destruct (Nat.eqb_spec (count_args k args) 1) as [C1|C1].
      * rewrite Eb. cbn [wbind]. exists (if negb b then Fwd (arg_name k) else Plain (arg_name k)). split; [destruct b; reflexivity|]. apply D. unfold last_use. rewrite negb_true_iff.
        split; [intros ->; split; [exact C1|]; intros L; apply Hb in L; discriminate|]. intros (_ & L). destruct b; [|reflexivity]. exfalso. apply L, Hb. reflexivity.
      * exists (Plain (arg_name k)). split; [reflexivity|]. apply (D false). split; [discriminate|]. intros (E & _). contradiction.
  - destruct Hk as [Hk _]. destruct t as [|c t]; [congruence|]. exists (Plain (c :: t)). split; [reflexivity|]. split; [reflexivity|]. split; [discriminate|]. intros x E. discriminate E.
Qed.

Lemma all_wrote_map {A B} (f : A -> wres B) (P : A -> B -> Prop) l : (forall a, In a l -> exists b, f a = Wrote b /\ P a b) -> exists bs, all_wrote (map f l) = Wrote bs /\ Forall2 P l bs.
Proof.
  induction l as [|a r IH]; intros H; [exists []; split; [reflexivity|constructor]|].
  destruct (H a (or_introl eq_refl)) as (b & E & Pb). destruct IH as (bs & Es & Ps); [intros x Hx; apply H; right; exact Hx|].
  exists (b :: bs). cbn [map all_wrote]. rewrite E. cbn [wbind]. rewrite Es. split; [reflexivity|constructor; assumption].
Qed.

Inductive inits_of : list (key * sval) -> list (list N) -> list (list N * list expr) -> Prop :=
| io_nil : inits_of [] [] []
| io_cons ky ty args rest n ns es is : Forall2 (init_expr args rest) args es -> inits_of rest ns is -> inits_of ((ky, VStore ty args) :: rest) (n :: ns) ((n, es) :: is).

Lemma write_inits_spec d : forall ms pre ns, d_members d = pre ++ ms -> Forall (member_ok (d_params d)) ms -> length ns = length ms ->
  exists l is, write_inits d ms ns = Wrote l /\ inits_of ms ns is /\ Forall2 init_text is l.
Proof.
  induction ms as [|[ky v] rest IH]; intros pre ns Ed H L.
  - destruct ns; [|discriminate L]. exists [], []. repeat split; constructor.
  - destruct ns as [|n ns]; [discriminate L|]. inversion H as [|? ? Hm Hr]; subst. cbn in Hm. destruct v as [ty args| |]; try contradiction.
    destruct (IH (pre ++ [(ky, VStore ty args)]) ns) as (l & is & E & I & T); [rewrite <- app_assoc; exact Ed|exact Hr|cbn in L; lia|].
    destruct (all_wrote_map (write_init_arg d args rest) (fun a t => exists e, t = expr_text e /\ init_expr args rest a e) args) as (ts & Et & Ft).
    { intros a Ha. destruct (write_init_arg_spec d pre ky ty args rest a Hr Ed Ha) as (e & E1 & E2); [exact (proj1 (Forall_forall _ _) Hm a Ha)|]. eauto. }
    assert (Ex : exists es, ts = map expr_text es /\ Forall2 (init_expr args rest) args es).
    { clear - Ft. revert Ft. generalize (init_expr args rest). intros P. generalize args. induction ts as [|t ts IH]; intros l F; inversion F as [|a t0 l0 ts0 (e & E & Pe) F']; subst.
      - exists []. split; [reflexivity|constructor].
      - destruct (IH _ F') as (es & -> & G). exists (e :: es). split; [reflexivity|constructor; assumption]. }
    destruct Ex as (es & -> & Fe). cbn [write_inits]. rewrite Et. cbn [wbind]. rewrite E. cbn [wbind].
    eexists. exists ((n, es) :: is). split; [reflexivity|]. split; [constructor; assumption|]. constructor; [|exact T]. exists (comma_list (map expr_text es)). split; [apply comma_list_text|reflexivity].
Qed.

Lemma write_fields_spec n : forall ms ns, Forall (member_ok n) ms -> length ns = length ms ->
  write_fields ms ns = Wrote (flat_map (fun f => fst f ++ bs " " ++ snd f ++ bs ";" ++ nl) (combine (map (fun m => type_of (snd m)) ms) ns)).
Proof.
  induction ms as [|[ky v] r IH]; intros ns H L; destruct ns as [|x ns]; try discriminate L; [reflexivity|].
  inversion H as [|? ? Hm Hr]; subst. cbn in Hm. destruct v as [ty args| |]; try contradiction. cbn [write_fields type_text wbind]. rewrite IH; [|exact Hr|cbn in L; lia]. cbn [wbind map combine flat_map fst snd type_of].
  rewrite <- !app_assoc. reflexivity.
Qed.

Lemma member_names_length ms : forall c, length (member_names ms c) = length ms.
Proof. induction ms as [|[[n|] v] r IH]; intros c; cbn; auto. Qed.
Lemma member_names_named ms : forall c, Forall2 (fun m n => named (fst m) n) ms (member_names ms c).
Proof.
  induction ms as [|[[n|] v] r IH]; intros c; cbn [member_names]; constructor; auto; cbn.
  - reflexivity.
  - destruct (dec_spec c) as (_ & A & B). exists (dec c). auto.
Qed.

Lemma inits_of_fst ms ns is : inits_of ms ns is -> map fst is = ns.
Proof. induction 1; cbn; congruence. Qed.
Lemma Forall2_imp {A B} (P Q : A -> B -> Prop) l m : (forall a b, P a b -> Q a b) -> Forall2 P l m -> Forall2 Q l m.
Proof. intros H. induction 1; constructor; auto. Qed.
Lemma inits_of_denotes ms ns is : inits_of ms ns is -> Forall2 (fun m i => Forall2 denotes (args_of (snd m)) (snd i)) ms is.
Proof. induction 1 as [|ky ty args rest n ns es is H _ IH]; constructor; auto. cbn. eapply Forall2_imp; [|exact H]. intros a e He. apply He. Qed.

(* ---- moves ---- *)

Definition count_used (x : list N) (l : list expr) : nat := length (filter (fun e => bytes_eqb (used e) x) l).
Lemma count_used_perm x l l' : Permutation l l' -> count_used x l = count_used x l'.
Proof.
  unfold count_used. induction 1 as [|e l l' _ IH|e f l|l l' l'' _ A _ B]; cbn; auto.
  - destruct (bytes_eqb (used e) x); cbn; congruence.
  - destruct (bytes_eqb (used e) x), (bytes_eqb (used f) x); reflexivity.
  - congruence.
Qed.

Lemma filter_length_in {A} (f : A -> bool) x l : In x l -> f x = true -> (0 < length (filter f l))%nat.
Proof. intros H E. assert (In x (filter f l)) by (apply filter_In; auto). destruct (filter f l); [destruct H0|cbn; lia]. Qed.

Lemma one_init : forall l M tail, (forall e, In e l -> ~ In (used e) M) -> (forall x, In (Fwd x) l -> count_used x l = 1%nat) ->
  (no_use_after_move (rev (flat_map moved_by l) ++ M) tail) -> no_use_after_move M (l ++ tail).
Proof.
  induction l as [|e r IH]; intros M tail HM HF HT; [exact HT|]. cbn [app no_use_after_move]. split; [apply HM; left; reflexivity|].
  apply IH.
  - intros f Hf K. apply in_app_or in K. destruct K as [K|K]; [|apply (HM f); [right; exact Hf|exact K]].
    destruct e as [x|t]; [|destruct K]. destruct K as [K|[]]. specialize (HF x (or_introl eq_refl)). unfold count_used in HF. cbn [filter used] in HF. rewrite bytes_eqb_refl in HF. cbn [length] in HF.
    pose proof (filter_length_in (fun e => bytes_eqb (used e) x) f r Hf) as Q. cbn beta in Q. assert (Q1 : bytes_eqb (used f) x = true) by (rewrite <- K; apply bytes_eqb_refl). specialize (Q Q1). lia.
  - intros x Hx. specialize (HF x (or_intror Hx)). unfold count_used in *. cbn [filter] in HF. destruct (bytes_eqb (used e) x); [|exact HF]. cbn [length] in HF.
    pose proof (filter_length_in (fun e => bytes_eqb (used e) x) (Fwd x) r Hx (bytes_eqb_refl x)). lia.
  - cbn [flat_map] in HT. rewrite rev_app_distr, <- app_assoc in HT. destruct e; exact HT.
Qed.

Lemma count_used_args k n : forall args es, Forall (arg_ok n) args -> Forall2 denotes args es -> count_used (arg_name k) es = count_args k args.
Proof.
  unfold count_used, count_args. induction args as [|a r IH]; intros es F H; inversion H as [|? e ? es' D R]; subst; [reflexivity|]. inversion F as [|? ? Fa Fr]; subst. cbn [filter].
  assert (E : bytes_eqb (used e) (arg_name k) = is_arg k a).
  { destruct a as [j|t|]; cbn [denotes arg_ok is_arg] in D, Fa |- *; [| |contradiction].
    - rewrite D. destruct (bytes_eqb_spec (arg_name j) (arg_name k)) as [E|E]; destruct (Nat.eqb_spec j k) as [E'|E']; try reflexivity; exfalso; [apply arg_name_inj in E|]; congruence.
    - subst e. cbn [used]. destruct (bytes_eqb_spec t (arg_name k)) as [E|E]; [|reflexivity]. exfalso. apply Fa. exists k. exact E. }
  rewrite E. destruct (is_arg k a); cbn [length]; rewrite (IH es'); auto.
Qed.

(* what has been moved from is not used any more *)
Definition gone (M : list (list N)) (ms : list (key * sval)) : Prop := forall x, In x M -> exists k, x = arg_name k /\ ~ later k ms.

Lemma moves_spec n : forall ms ns is, Forall (member_ok n) ms -> inits_of ms ns is -> forall M orders, gone M ms ->
  Forall2 (@Permutation expr) (map snd is) orders -> no_use_after_move M (concat orders).
Proof.
  intros ms ns is F H. induction H as [|ky ty args rest nm ns es is He _ IH]; intros M orders G P; inversion P as [|? o ? os Po Pos]; subst; [exact I|].
  inversion F as [|? ? Fm Fr]; subst. cbn in Fm. cbn [concat].
  assert (De : Forall2 denotes args es) by (eapply Forall2_imp; [|exact He]; intros a e X; apply X).
  assert (Src : forall e, In e o -> exists a, In a args /\ init_expr args rest a e).
  { intros e Ho. apply (Permutation_in _ (Permutation_sym Po)) in Ho. clear - He Ho. revert He. generalize (init_expr args rest). intros Q HQ. induction HQ as [|a e' l l' Ha _ IH]; [destruct Ho|].
    destruct Ho as [->|Ho]; [exists a; split; [left; reflexivity|exact Ha]|]. destruct (IH Ho) as (b & B1 & B2). exists b. split; [right; exact B1|exact B2]. }
  assert (Fw : forall x, In (Fwd x) o -> exists k, x = arg_name k /\ last_use k args rest).
  { intros x Hx. destruct (Src _ Hx) as (a & Ha & (D & L & A)). destruct (A x eq_refl) as (k & ->). exists k. cbn in D. split; [exact D|]. apply (L k eq_refl). rewrite D. reflexivity. }
  apply one_init.
  - intros e Ho K. destruct (G _ K) as (k & Ek & Nl). destruct (Src e Ho) as (a & Ha & (D & _)). apply Nl. exists (ky, VStore ty args). split; [left; reflexivity|]. cbn.
    apply (filter_length_in _ a); [exact Ha|]. rewrite Forall_forall in Fm. specialize (Fm a Ha). destruct a as [j|t|]; cbn in D, Fm |- *; [| |contradiction].
    + rewrite D in Ek. apply arg_name_inj in Ek. subst. apply Nat.eqb_refl.
    + subst e. cbn in Ek. exfalso. apply Fm. exists k. exact Ek.
  - intros x Hx. destruct (Fw x Hx) as (k & -> & (C & _)). rewrite <- (count_used_perm _ _ _ Po), (count_used_args k n args es Fm De). exact C.
  - apply IH; [exact Fr| |exact Pos]. intros x Hx. apply in_app_or in Hx. destruct Hx as [Hx|Hx].
    + apply in_rev, in_flat_map in Hx. destruct Hx as (e & He' & Hm). destruct e as [y|]; [|destruct Hm]. destruct Hm as [->|[]]. destruct (Fw x He') as (k & E & (_ & L)). exists k. auto.
    + destruct (G x Hx) as (k & E & L). exists k. split; [exact E|]. intros (m & Hm & C). apply L. exists m. split; [right; exact Hm|exact C].
Qed.

Theorem class_spec d : def_ok d -> exists t c ns, write_define d = Wrote t /\ class_text c t /\ c_name c = get_name (d_sym d) /\ same_class d c /\ safe_moves (c_inits c) /\ inits_of (d_members d) ns (c_inits c) /\ ns = member_names (d_members d) (N.of_nat (d_params d)).
Proof.
  intros (Hm & Hb & Hf). set (ns := member_names (d_members d) (N.of_nat (d_params d))).
  assert (L : length ns = length (d_members d)) by apply member_names_length.
  destruct (write_inits_spec d (d_members d) [] ns eq_refl Hf L) as (l & is & Ei & Io & It).
  set (c := {| c_name := get_name (d_sym d); c_fields := combine (map (fun m => type_of (snd m)) (d_members d)) ns; c_params := map arg_name (seq 0 (d_params d)); c_inits := is |}).
  exists (bs "class " ++ get_name (d_sym d) ++ bs " {" ++ nl ++ bs "public:" ++ nl ++ flat_map (fun f => fst f ++ bs " " ++ snd f ++ bs ";" ++ nl) (c_fields c) ++
         (if Nat.eqb (d_params d) 0 then [] else get_name (d_sym d) ++ bs "() = default;" ++ nl) ++
         bs "explicit " ++ get_name (d_sym d) ++ bs "(" ++ comma_list (map (fun k => bs "auto&& " ++ arg_name k) (seq 0 (d_params d))) ++ bs ") " ++ nl ++ bs ": " ++
         comma_list l ++ nl ++ bs "{ }" ++ nl ++ bs "};" ++ nl), c, ns. split.
  { assert (E : write_define d = write_class d).
    { unfold write_define. destruct (d_members d); [congruence|]. destruct (d_base d) as [[]|]; try contradiction; reflexivity. }
    rewrite E. unfold write_class. fold ns. rewrite (write_fields_spec (d_params d) _ ns Hf L). cbn [wbind]. rewrite Ei. reflexivity. }
  split.
  { exists (comma_list (map (fun k => bs "auto&& " ++ arg_name k) (seq 0 (d_params d)))), (comma_list l), l. cbn [c_params c_inits c_name c]. split.
    - rewrite map_map. apply comma_list_text.
    - split; [exact It|]. split; [apply comma_list_text|]. rewrite map_length, seq_length. reflexivity. }
  split; [reflexivity|]. split; [|split; [|split; [exact Io|reflexivity]]].
  - unfold same_class. cbn [c_params c_fields c_inits c]. repeat split.
    + rewrite map_length, seq_length. reflexivity.
    + apply FinFun.Injective_map_NoDup; [intros i j; apply arg_name_inj|apply seq_NoDup].
    + pose proof (member_names_named (d_members d) (N.of_nat (d_params d))) as Q. fold ns in Q. clear - Q. induction Q; cbn; constructor; auto.
    + eapply inits_of_denotes, Io.
    + rewrite (inits_of_fst _ _ _ Io). clear - L. revert L. generalize ns. induction (d_members d) as [|m r IH]; intros ns' L'; destruct ns'; try discriminate L'; [reflexivity|]. cbn. f_equal. apply IH. cbn in L'. lia.
  - intros orders P. eapply (moves_spec (d_params d) _ _ _ Hf Io []); [|exact P]. intros x [].
Qed.

(* ---- names ---- *)

Lemma member_names_from ms : forall c n, In n (member_names ms c) -> In n (asked ms) \/ exists i, n = var_name (bs "anon_") i /\ c <= i.
Proof.
  induction ms as [|[[m|] v] r IH]; intros c n H; cbn [member_names] in H.
  - destruct H.
  - unfold asked. cbn [flat_map fst app]. fold (asked r). destruct H as [->|H]; [left; left; reflexivity|]. destruct (IH c n H) as [K|K]; [left; right; exact K|right; exact K].
  - unfold asked. cbn [flat_map fst app]. fold (asked r). destruct H as [<-|H]; [right; exists c; split; [reflexivity|lia]|]. destruct (IH (c + 1) n H) as [K|(i & E & K)]; [left; exact K|right; exists i; split; [exact E|lia]].
Qed.
Lemma anon_inj i j : var_name (bs "anon_") i = var_name (bs "anon_") j -> i = j.
Proof. intros E. apply app_inv_head in E. destruct (dec_spec i) as (A & _). destruct (dec_spec j) as (B & _). congruence. Qed.
Lemma anon_made_up i : made_up (var_name (bs "anon_") i).
Proof. destruct (dec_spec i) as (_ & A & B). exists (dec i). auto. Qed.
Lemma member_names_nodup ms : forall c, NoDup (asked ms) -> Forall (fun n => ~ made_up n) (asked ms) -> NoDup (member_names ms c).
Proof.
  induction ms as [|[[m|] v] r IH]; intros c Nd F; cbn [member_names]; unfold asked in Nd, F; cbn [flat_map fst app] in Nd, F; try fold (asked r) in Nd; try fold (asked r) in F.
  - constructor.
  - inversion Nd as [|? ? N1 N2]; subst. inversion F as [|? ? F1 F2]; subst. constructor; [|apply IH; assumption]. intros K. apply member_names_from in K. destruct K as [K|(i & -> & _)]; [contradiction|]. apply F1, anon_made_up.
  - constructor; [|apply IH; assumption]. intros K. apply member_names_from in K. destruct K as [K|(i & E & L)].
    + rewrite Forall_forall in F. apply (F _ K), anon_made_up.
    + apply anon_inj in E. lia.
Qed.


Lemma rfind_none c s : rfind c s = None <-> ~ In c s.
Proof.
  induction s as [|x r IH]; cbn; [tauto|]. destruct (rfind c r) as [i|].
  - split; [discriminate|]. intros H. exfalso. assert (~ In c r) by tauto. apply IH in H0. discriminate.
  - destruct (N.eqb_spec x c) as [->|E]; split; intros H; try discriminate; tauto.
Qed.
Lemma rfind_last c q n : ~ In c n -> rfind c (q ++ [c] ++ n) = Some (length q).
Proof.
  intros H. induction q as [|x q IH]; cbn [app rfind length].
  - rewrite (proj2 (rfind_none c n) H), N.eqb_refl. reflexivity.
  - cbn [app] in IH. rewrite IH. reflexivity.
Qed.
Lemma get_name_plain n : ~ In 58 n -> get_name n = n.
Proof. intros H. unfold get_name. rewrite (proj2 (rfind_none 58 n) H). reflexivity. Qed.
Lemma get_name_qualified q n : ~ In 58 n -> (get_name (q ++ [58] ++ n) = n <-> length q = length n).
Proof.
  intros H. unfold get_name. rewrite (rfind_last 58 q n H). cbn [take_back].
  assert (L : length (q ++ [58] ++ n) = (length q + S (length n))%nat) by (rewrite !app_length; reflexivity). rewrite L. split.
  - intros E. apply (f_equal (@length N)) in E. rewrite skipn_length, L in E. lia.
  - intros E. replace (length q + S (length n) - length q)%nat with (length (q ++ [58])) by (rewrite app_length; cbn; lia). rewrite app_assoc, skipn_app, skipn_all, Nat.sub_diag. reflexivity.
Qed.

(* ---- failures ---- *)

Lemma write_inits_variant d : forall ms ns l, write_inits d ms ns = Wrote l -> Forall (fun m => exists ty args, snd m = VStore ty args) ms.
Proof.
  induction ms as [|[ky v] r IH]; intros ns l H; [constructor|]. cbn [write_inits] in H. destruct v as [ty args|alts|k]; [|destruct ns; discriminate H|destruct ns; discriminate H].
  destruct ns as [|n ns]; [discriminate H|]. destruct (all_wrote _) as [x| |]; try discriminate H. cbn [wbind] in H. destruct (write_inits d r ns) as [u| |] eqn:E; try discriminate H.
  constructor; [cbn; eauto|]. eapply IH, E.
Qed.

(* ---- definitions without members ---- *)
Lemma sval_rec' (P : sval -> Prop) : (forall ty args, P (VStore ty args)) -> (forall alts, (forall v, In v alts -> P v) -> P (VVariant alts)) -> (forall k, P (VArg k)) -> forall v, P v.
Proof.
  intros H1 H2 H3. fix IH 1. intros [ty args|alts|k]; [apply H1| |apply H3]. apply H2. induction alts as [|a alts IHl]; [intros v []|]. intros v [<-|Hv]; [apply IH|apply IHl, Hv].
Qed.
Lemma all_wrote_failed {A B} (f : A -> wres B) l v : (forall a, In a l -> f a <> Bad) -> In v l -> f v = Failed -> all_wrote (map f l) = Failed.
Proof.
  induction l as [|a l IH]; intros NB Hi E; [destruct Hi|]. destruct Hi as [->|Hv]; cbn [map all_wrote].
  - rewrite E. reflexivity.
  - destruct (f a) eqn:Ea; [|reflexivity|destruct (NB a (or_introl eq_refl) Ea)]. cbn [wbind]. rewrite IH; auto. intros b Hb. apply NB. now right.
Qed.
Lemma type_text_spec v : (mentions_arg v /\ type_text v = Failed) \/ (~ mentions_arg v /\ exists t, type_text v = Wrote t /\ type_spelled v t).
Proof.
  induction v as [ty args|alts IH|k] using sval_rec'.
  - right. split; [intros H; inversion H|]. exists ty. split; [reflexivity|constructor].
  - assert (D : (exists v, In v alts /\ mentions_arg v /\ type_text v = Failed) \/ (forall v, In v alts -> ~ mentions_arg v /\ exists t, type_text v = Wrote t /\ type_spelled v t)).
    { clear -IH. induction alts as [|a alts IHl]; [right; intros v []|]. destruct IHl as [(v & A & B)|H]; [intros v Hv; apply IH; now right| |].
      - left. exists v. split; [now right|exact B].
      - destruct (IH a (or_introl eq_refl)) as [[A B]|A]; [left; exists a; split; [now left|auto]|]. right. intros v [<-|Hv]; auto. }
    destruct D as [(v & Hv & M & F)|D].
    + left. split; [econstructor; eauto|]. cbn [type_text]. rewrite (all_wrote_failed type_text alts v); auto. intros a Ha. destruct (IH a Ha) as [[_ ->]|(_ & t & -> & _)]; discriminate.
    + right. split; [intros H; inversion H; subst; eapply D; eauto|]. destruct (all_wrote_map type_text type_spelled alts) as (l & E & F); [intros a Ha; apply D, Ha|].
      eexists. cbn [type_text]. rewrite E. cbn [wbind]. split; [reflexivity|]. econstructor; [exact F|apply comma_list_text].
  - left. split; [constructor|reflexivity].
Qed.

