From Verif Require Import Base MatchModel MatchSpec MatchProofs PspModel PspSpec.
Open Scope nat_scope.

(* induction on parameters and nodes together *)
Section Ind.
Variable P : param -> Prop.
Variable Q : pnode -> Prop.
Hypothesis HC : forall c, P (PConst c).
Hypothesis HP : forall p, Forall Q p -> P (PPath p).
Hypothesis HK : forall p, Forall Q p -> P (PKeyAt p).
Hypothesis HL : forall l, Forall P l -> P (PConcat l).
Hypothesis HA : forall f l, Forall P l -> P (PApply f l).
Hypothesis HM : forall p l, Forall Q p -> Forall (fun a => P (snd a)) l -> P (PMatch p l).
Hypothesis HI : forall p l, Forall Q p -> Forall (fun a => P (snd a)) l -> P (PMatchIf p l).
Hypothesis HG : forall l, Forall P l -> Q (Get l).
Hypothesis HT : forall t l, Forall P l -> Q (MatchType t l).
Definition each {A} {R : A -> Prop} (f : forall x, R x) : forall l, Forall R l :=
  fix go l := match l with [] => Forall_nil R | x :: r => Forall_cons x (f x) (go r) end.
Fixpoint param_all (p : param) : P p :=
  match p with
  | PConst c => HC c
  | PPath p => HP p (each node_all p)
  | PKeyAt p => HK p (each node_all p)
  | PConcat l => HL l (each param_all l)
  | PApply f l => HA f l (each param_all l)
  | PMatch p l => HM p l (each node_all p) (each (R := fun a => P (snd a)) (fun a => match a as a return P (snd a) with (_, b) => param_all b end) l)
  | PMatchIf p l => HI p l (each node_all p) (each (R := fun a => P (snd a)) (fun a => match a as a return P (snd a) with (_, b) => param_all b end) l)
  end
with node_all (n : pnode) : Q n :=
  match n with Get l => HG l (each param_all l) | MatchType t l => HT t l (each param_all l) end.
End Ind.

Lemma told_ext {A} (x : ans A) f g : (forall a, f a = g a) -> told x f = told x g.
Proof. intros H. destruct x; cbn; auto. Qed.
Lemma told_bind {A B} (x : ans A) (k : A -> ans B) fn : told (bind x k) fn = told x (fun a => told (k a) fn).
Proof. now destruct x. Qed.
Lemma bind_assoc {A B C} (x : ans A) (f : A -> ans B) (g : B -> ans C) : bind (bind x f) g = bind x (fun a => bind (f a) g).
Proof. now destruct x. Qed.

Lemma look_told s ks fn : match_path s ks fn = told (look s ks) fn.
Proof. unfold look. destruct (path_once ks s) as [R|(v & R)]; rewrite !R; reflexivity. Qed.

Lemma leads_cons ty ko ap ctx n p s : leads ty ko ap ctx (n :: p) s = bind (leads ty ko ap ctx p s) (go_on ty ko ap ctx n s).
Proof. reflexivity. Qed.
Lemma go_on_get ty ko ap ctx l s c : go_on ty ko ap ctx (Get l) s c = bind (all_of (fun q => means ty ko ap ctx q (ctx s c)) l) (fun xs => look c (map ko xs)).
Proof. reflexivity. Qed.
Lemma go_on_type ty ko ap ctx t l s c : go_on ty ko ap ctx (MatchType t l) s c = bind (go_on ty ko ap ctx (Get l) s c) (fun v => match t with Some t' => if Nat.eqb t' (ty v) then Is v else Nothing | None => Nothing end).
Proof. rewrite go_on_get, bind_assoc. reflexivity. Qed.
Lemma means_path ty ko ap ctx p s : means ty ko ap ctx (PPath p) s = bind (leads ty ko ap ctx p s) (fun v => Is [Val v]).
Proof. reflexivity. Qed.
Lemma means_key_at ty ko ap ctx p s : means ty ko ap ctx (PKeyAt p) s = bind (leads ty ko ap ctx p s) (fun v => Is [Val v]).
Proof. reflexivity. Qed.
Lemma means_match ty ko ap ctx p l s : means ty ko ap ctx (PMatch p l) s = match leads ty ko ap ctx p s with
  | Is v => fold_right (fun a rest => if fits ty (fst a) v then means ty ko ap ctx (snd a) s else rest) Fails l | Nothing | Undef => Undef | Fails => Fails end.
Proof. reflexivity. Qed.
Lemma means_match_if ty ko ap ctx p l s : means ty ko ap ctx (PMatchIf p l) s = match leads ty ko ap ctx p s with
  | Is v => if existsb (fun a => match fst a with Always true => true | _ => false end) l
            then fold_right (fun a rest => if passes (fst a) v then means ty ko ap ctx (snd a) s else rest) Fails l else Fails
  | Nothing | Undef => Undef | Fails => Fails end.
Proof. reflexivity. Qed.

Section Proofs.
Variable type_of : store -> nat.
Variable key_of : value -> key.
Variable apply : nat -> list value -> value.
Notation run_param := (run_param type_of key_of apply).
Notation run_node := (run_node type_of key_of apply).
Notation means := (means type_of key_of apply in_place).
Notation go_on := (go_on type_of key_of apply in_place).
Notation leads := (leads type_of key_of apply in_place).
Notation runs s next l := (fold_right (fun q next => run_param q s next) next l).

Definition okp (p : param) : Prop := forall s next params, runs s next (flatten p) params = told (means p s) (fun xs => next (params ++ xs)).
Definition okn (n : pnode) : Prop := forall s root fn, run_node (flatten_node n) s fn = told (go_on n root s) fn.

Lemma ok_list l : Forall okp l -> forall s next params, runs s next (flat_map flatten l) params = told (all_of (fun q => means q s) l) (fun xs => next (params ++ xs)).
Proof.
  induction 1 as [|p l OP _ IH]; intros s next params; cbn; [now rewrite app_nil_r|]. rewrite fold_right_app, OP. rewrite told_bind. apply told_ext. intros a.
  rewrite IH, told_bind. apply told_ext. intros b. cbn. now rewrite app_assoc.
Qed.

Lemma ok_forward p : Forall okn p -> forall root s fn, path_impl run_node (map flatten_node p) s fn = told (fold_left (fun c n => bind c (go_on n root)) p (Is s)) fn.
Proof.
  assert (FN : forall q x, (forall root, fold_left (fun c n => bind c (go_on n root)) q x = bind x (fun s => fold_left (fun c n => bind c (go_on n root)) q (Is s)))).
  { intros q x root. destruct x as [s| | |]; [reflexivity| | |]; cbn; (induction q as [|n q IH]; [reflexivity|exact IH]). }
  assert (G : forall m p, length p <= m -> Forall okn p -> forall root s fn, path_impl run_node (map flatten_node p) s fn = told (fold_left (fun c n => bind c (go_on n root)) p (Is s)) fn).
  { clear p. induction m as [|m IH]; intros p L F root s fn.
    - destruct p; [reflexivity|cbn in L; lia].
    - destruct p as [|p1 [|p2 [|p3 p]]]; cbn [map path_impl fold_left].
      + reflexivity.
      + inversion F; subst. rewrite (H1 s root). reflexivity.
      + inversion F as [|? ? O1 F1]; subst. inversion F1 as [|? ? O2 F2]; subst. rewrite (O1 s root). cbn [bind]. rewrite told_bind. apply told_ext. intros a. apply O2.
      + inversion F as [|? ? O1 F1]; subst. inversion F1 as [|? ? O2 F2]; subst. inversion F2 as [|? ? O3 F3]; subst. rewrite (O1 s root). cbn [bind].
        rewrite FN. rewrite !bind_assoc. rewrite told_bind. apply told_ext. intros a. rewrite (O2 a root), told_bind. apply told_ext. intros b. rewrite (O3 b root), told_bind. apply told_ext. intros c.
        apply IH; [cbn in L; lia|exact F3]. }
  intros F. now apply (G (length p)).
Qed.
Lemma ok_path p : Forall okn p -> forall s fn, path_impl run_node (rev (map flatten_node p)) s fn = told (leads p s) fn.
Proof.
  intros F s fn. rewrite <- map_rev, (ok_forward (rev p)) with (root := s).
  - unfold PspSpec.leads. rewrite fold_left_rev_right with (f := fun n c => bind c (go_on n s)) || rewrite <- fold_left_rev_right. rewrite rev_involutive. reflexivity.
  - apply Forall_rev. exact F.
Qed.

Lemma with_told p find go s : Forall okn p -> with_branch (path_impl run_node (rev (map flatten_node p)) s (fun v => Some [Seen v])) find go =
  match leads p s with Is v => match find v with Some i => go i | None => None end | Nothing | Undef => Some [Undefined] | Fails => None end.
Proof. intros F. rewrite ok_path by exact F. destruct (leads p s); reflexivity. Qed.

Lemma all_okp : forall p, okp p.
Proof.
  apply (param_all okp okn).
  - intros c s next params. reflexivity.
  - intros p F s next params. cbn [flatten fold_right PspModel.run_param]. rewrite ok_path by exact F. rewrite means_path, told_bind. reflexivity.
  - intros p F s next params. cbn [flatten fold_right PspModel.run_param]. rewrite ok_path by exact F. cbn [PspSpec.means]. rewrite told_bind. reflexivity.
  - intros l F s next params. apply ok_list. exact F.
  - intros f l F s next params. cbn [flatten fold_right PspModel.run_param]. rewrite ok_list by exact F. cbn [PspSpec.means]. rewrite told_bind. reflexivity.
  - intros p l F FL s next params. cbn [flatten fold_right PspModel.run_param]. rewrite with_told by exact F. rewrite means_match. destruct (leads p s) as [v| | |]; try reflexivity. cbn [told].
    rewrite map_map. cbn [fst]. induction FL as [|[t a] l OA _ IH]; [reflexivity|]. cbn [map find_type fold_right at_with fst snd]. cbn [fst snd] in OA. fold (fits type_of t v).
    replace (match t with Some _ => is_type type_of t v | None => true end) with (fits type_of t v) by (destruct t; reflexivity).
    destruct (fits type_of t v); [exact (OA s (fun rs => next (params ++ rs)) [])|]. rewrite <- IH. destruct (find_type type_of (map (fun x => fst x) l) v); reflexivity.
  - intros p l F FL s next params. cbn [flatten fold_right PspModel.run_param]. rewrite with_told by exact F. rewrite means_match_if. destruct (leads p s) as [v| | |]; try reflexivity. cbn [told].
    rewrite map_map. cbn [fst]. unfold find_test. replace (existsb (fun t => match t with Always true => true | _ => false end) (map (fun x => fst x) l)) with (existsb (fun a : test * param => match fst a with Always true => true | _ => false end) l).
    2:{ clear. induction l as [|a l IH]; [reflexivity|]. cbn. now rewrite IH. }
    destruct (existsb _ l); [|reflexivity]. induction FL as [|[t a] l OA _ IH]; [reflexivity|]. cbn [map fold_right at_with fst snd]. cbn [fst snd] in OA.
    destruct (passes t v); [exact (OA s (fun rs => next (params ++ rs)) [])|]. rewrite <- IH. match goal with |- match option_map S ?x with _ => _ end = _ => destruct x end; reflexivity.
  - intros l F s root fn. cbn [flatten_node PspModel.run_node]. rewrite ok_list by exact F. cbn [PspSpec.go_on]. rewrite told_bind. apply told_ext. intros xs. cbn [app]. apply look_told.
  - intros t l F s root fn. cbn [flatten_node PspModel.run_node]. rewrite ok_list by exact F. cbn [PspSpec.go_on]. rewrite told_bind. apply told_ext. intros xs. cbn [app]. rewrite look_told, told_bind. apply told_ext. intros v.
    destruct t as [t|]; cbn; [destruct (Nat.eqb t (type_of v)); reflexivity|reflexivity].
Qed.
Lemma all_okn : forall n, okn n.
Proof.
  intros [l|t l] s root fn; cbn [flatten_node PspModel.run_node]; (rewrite ok_list by (apply Forall_forall; intros; apply all_okp)); cbn [PspSpec.go_on]; rewrite told_bind; apply told_ext; intros xs; cbn [app]; rewrite look_told; [reflexivity|].
  rewrite told_bind. apply told_ext. intros v. destruct t as [t|]; cbn; [destruct (Nat.eqb t (type_of v)); reflexivity|reflexivity].
Qed.
End Proofs.

(* parameters that do not look at the store *)
Section Closed.
Variable type_of : store -> nat.
Variable key_of : value -> key.
Variable apply : nat -> list value -> value.
Lemma all_of_ext {A} (f g : A -> ans (list value)) l : (forall x, In x l -> f x = g x) -> all_of f l = all_of g l.
Proof. induction l as [|x l IH]; intros H; [reflexivity|]. unfold all_of in *. cbn [fold_right]. rewrite (H x (or_introl eq_refl)), IH by (intros; apply H; now right). reflexivity. Qed.

Lemma closed_same : forall p, closed p = true -> forall ctx1 ctx2 s1 s2, means type_of key_of apply ctx1 p s1 = means type_of key_of apply ctx2 p s2.
Proof.
  apply (param_all (fun p => closed p = true -> forall ctx1 ctx2 s1 s2, means type_of key_of apply ctx1 p s1 = means type_of key_of apply ctx2 p s2) (fun _ => True)); try (intros; exact I); try discriminate; try reflexivity.
  - intros l F C ctx1 ctx2 s1 s2. cbn in *. apply all_of_ext. intros x Hx. rewrite Forall_forall in F. rewrite forallb_forall in C. auto.
  - intros f l F C ctx1 ctx2 s1 s2. cbn in *. f_equal. apply all_of_ext. intros x Hx. rewrite Forall_forall in F. rewrite forallb_forall in C. auto.
Qed.
Lemma closed_node_same n : closed_node n = true -> forall ctx1 ctx2 s1 s2 c, go_on type_of key_of apply ctx1 n s1 c = go_on type_of key_of apply ctx2 n s2 c.
Proof.
  intros C ctx1 ctx2 s1 s2 c. destruct n as [l|t l]; cbn in *; rewrite forallb_forall in C; f_equal; apply all_of_ext; intros x Hx; apply closed_same; auto.
Qed.

Definition same_p (p : param) : Prop := rooted p = true -> forall s, means type_of key_of apply in_place p s = means type_of key_of apply in_store p s.
Definition same_n (n : pnode) : Prop := rooted_node n = true -> forall s, go_on type_of key_of apply in_place n s s = go_on type_of key_of apply in_store n s s.
Lemma same_path p : Forall same_n p -> match rev (map (fun n => (rooted_node n, closed_node n)) p) with [] => true | (r, _) :: rest => r && forallb snd rest end = true ->
  forall s, leads type_of key_of apply in_place p s = leads type_of key_of apply in_store p s.
Proof.
  intros F R s. unfold leads. rewrite <- (rev_involutive p) in F |- *. rewrite <- map_rev in R. apply Forall_rev in F. rewrite rev_involutive in F. set (q := rev p) in *. clearbody q. rewrite !fold_left_rev_right.
  destruct q as [|n q]; [reflexivity|]. cbn [map fold_left bind] in R |- *. apply andb_true_iff in R as [R C]. inversion F; subst. rewrite H1 by exact R. clear -C. generalize (go_on type_of key_of apply in_store n s s). induction q as [|m q IH]; intros x; [reflexivity|].
  cbn [map forallb snd] in C. apply andb_true_iff in C as [C1 C2]. cbn [fold_left]. rewrite IH by exact C2. f_equal. destruct x as [c| | |]; cbn; [apply closed_node_same; exact C1|reflexivity..].
Qed.
Lemma rooted_same : forall p, same_p p.
Proof.
  apply (param_all same_p same_n).
  - intros c _ s. reflexivity.
  - intros p F R s. rewrite !means_path. now rewrite same_path.
  - intros p F R s. rewrite !means_key_at. now rewrite same_path.
  - intros l F R s. cbn in *. rewrite Forall_forall in F. rewrite forallb_forall in R. apply all_of_ext. intros x Hx. now apply F; auto.
  - intros f l F R s. cbn in *. rewrite Forall_forall in F. rewrite forallb_forall in R. f_equal. apply all_of_ext. intros x Hx. now apply F; auto.
  - intros p l F FL R s. cbn [rooted] in R. apply andb_true_iff in R as [R1 R2]. rewrite !means_match. rewrite same_path by assumption.
    destruct (leads type_of key_of apply in_store p s) as [v| | |]; try reflexivity. induction FL as [|a l O _ IH]; [reflexivity|]. cbn in R2 |- *. apply andb_true_iff in R2 as [R2 R3]. rewrite IH by exact R3. destruct (fits type_of (fst a) v); [|reflexivity]. now apply O.
  - intros p l F FL R s. cbn [rooted] in R. apply andb_true_iff in R as [R1 R2]. rewrite !means_match_if. rewrite same_path by assumption.
    destruct (leads type_of key_of apply in_store p s) as [v| | |]; try reflexivity. destruct (existsb _ l); [|reflexivity]. induction FL as [|a l O _ IH]; [reflexivity|]. cbn in R2 |- *. apply andb_true_iff in R2 as [R2 R3]. rewrite IH by exact R3. destruct (passes (fst a) v); [|reflexivity]. now apply O.
  - intros l F R s. cbn in *. rewrite Forall_forall in F. rewrite forallb_forall in R. f_equal. apply all_of_ext. intros x Hx. now apply F; auto.
  - intros t l F R s. cbn in *. rewrite Forall_forall in F. rewrite forallb_forall in R. f_equal. apply all_of_ext. intros x Hx. now apply F; auto.
Qed.
End Closed.
