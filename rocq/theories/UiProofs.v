From Coq Require Import String Lia Arith.
From Verif Require Import Base UiModel UiSpec.
Open Scope nat_scope.

(* ---- keys ---- *)
Lemma key_eqb_refl k : key_eqb k k = true.
Proof. destruct k; cbn; apply bytes_eqb_refl. Qed.
Lemma key_eqb_eq a b : key_eqb a b = true -> a = b.
Proof. destruct a, b; cbn; try discriminate; destruct (bytes_eqb_spec n n0); congruence. Qed.
Lemma key_eqb_sym a b : key_eqb a b = key_eqb b a.
Proof.
  destruct (key_eqb a b) eqn:E; [apply key_eqb_eq in E; subst; symmetry; apply key_eqb_refl|].
  destruct (key_eqb b a) eqn:E'; [apply key_eqb_eq in E'; subst; rewrite key_eqb_refl in E; discriminate|reflexivity].
Qed.

Lemma lookup_unset k k' l : lookup k' (unset k l) = if key_eqb k k' then None else lookup k' l.
Proof.
  unfold unset. induction l as [|[k0 b] l IH]; cbn; [destruct (key_eqb k k'); reflexivity|].
  destruct (key_eqb k k0) eqn:E0; cbn.
  - apply key_eqb_eq in E0; subst k0. rewrite IH, (key_eqb_sym k' k). destruct (key_eqb k k'); reflexivity.
  - destruct (key_eqb k' k0) eqn:E1.
    + apply key_eqb_eq in E1; subst k0. rewrite E0; reflexivity.
    + exact IH.
Qed.

(* ---- the heap ---- *)
Lemma length_modify h i f : length (modify h i f) = length h.
Proof. revert i; induction h; intros [|i]; cbn; auto. Qed.
Lemma nth_modify h i f j : nth_error (modify h i f) j = if Nat.eqb i j then option_map f (nth_error h j) else nth_error h j.
Proof. revert i j; induction h; intros [|i] [|j]; cbn; auto. destruct (i =? j); reflexivity. Qed.
Lemma nth_modify_same h i f n : nth_error h i = Some n -> nth_error (modify h i f) i = Some (f n).
Proof. intros E. rewrite nth_modify, Nat.eqb_refl, E. reflexivity. Qed.
Lemma nth_modify_other h i f j : i <> j -> nth_error (modify h i f) j = nth_error h j.
Proof. intros E. rewrite nth_modify. apply Nat.eqb_neq in E. rewrite E. reflexivity. Qed.
Lemma modify_id h i f n : nth_error h i = Some n -> f n = n -> modify h i f = h.
Proof. revert i; induction h; intros [|i]; cbn; try congruence; intros; f_equal; eauto; congruence. Qed.
Lemma nth_lt {A} (l : list A) i x : nth_error l i = Some x -> i < length l.
Proof. intros E. apply nth_error_Some. congruence. Qed.
Lemma length_create h k : length (create h k) = S (length h).
Proof. unfold create. rewrite app_length. cbn. lia. Qed.
Lemma nth_create_new h k : nth_error (create h k) (length h) = Some (mk_node None k [] []).
Proof. unfold create. rewrite nth_error_app2 by lia. rewrite Nat.sub_diag. reflexivity. Qed.
Lemma nth_create_old h k i : i < length h -> nth_error (create h k) i = nth_error h i.
Proof. intros. unfold create. apply nth_error_app1. assumption. Qed.

(* putting a node without a parent into p *)
Lemma adopt g p c m n : nth_error g c = Some m -> parent m = None -> nth_error g p = Some n -> p <> c ->
  let g' := append_child g p c in
  length g' = length g /\ nth_error g' c = Some (set_parent (Some p) m) /\ nth_error g' p = Some (set_kids (kids n ++ [c]) n)
  /\ forall i, i <> p -> i <> c -> nth_error g' i = nth_error g i.
Proof.
  intros Ec Em Ep N. unfold append_child, detach, parent_of. rewrite Ec, Em. cbn zeta. rewrite !length_modify.
  split; [reflexivity|]. split; [|split].
  - erewrite nth_modify_same; [reflexivity|]. rewrite nth_modify_other by assumption. exact Ec.
  - rewrite nth_modify_other by congruence. erewrite nth_modify_same; [reflexivity|exact Ep].
  - intros i A B. rewrite !nth_modify_other by congruence. reflexivity.
Qed.
(* taking a node from t into p *)
Lemma adopt_from g p c m n t tn : nth_error g c = Some m -> parent m = Some t -> nth_error g p = Some n -> nth_error g t = Some tn ->
  p <> c -> t <> p -> t <> c ->
  let g' := append_child g p c in
  length g' = length g /\ nth_error g' c = Some (set_parent (Some p) m) /\ nth_error g' p = Some (set_kids (kids n ++ [c]) n)
  /\ (exists tn', nth_error g' t = Some tn' /\ parent tn' = parent tn /\ kind_of tn' = kind_of tn)
  /\ forall i, i <> p -> i <> c -> i <> t -> nth_error g' i = nth_error g i.
Proof.
  intros Ec Em Ep Et N1 N2 N3. unfold append_child, detach, parent_of. rewrite Ec, Em. cbn zeta. rewrite !length_modify.
  split; [reflexivity|]. split; [|split; [|split]].
  - erewrite nth_modify_same; [|rewrite nth_modify_other by assumption; erewrite nth_modify_same; [reflexivity|];
                               rewrite nth_modify_other by congruence; exact Ec]. reflexivity.
  - rewrite nth_modify_other by congruence. erewrite nth_modify_same; [reflexivity|].
    rewrite !nth_modify_other by congruence. exact Ep.
  - eexists. split; [|split].
    + do 3 rewrite nth_modify_other by congruence. erewrite nth_modify_same; [reflexivity|exact Et].
    + reflexivity.
    + reflexivity.
  - intros i A B C. rewrite !nth_modify_other by congruence. reflexivity.
Qed.

(* a new node in p *)
Lemma new_child h k p n : nth_error h p = Some n ->
  let h' := append_child (create h k) p (length h) in
  length h' = S (length h) /\ nth_error h' (length h) = Some (mk_node (Some p) k [] [])
  /\ nth_error h' p = Some (set_kids (kids n ++ [length h]) n)
  /\ forall i, i < length h -> i <> p -> nth_error h' i = nth_error h i.
Proof.
  intros E. pose proof (nth_lt _ _ _ E) as L.
  destruct (adopt (create h k) p (length h) _ n (nth_create_new h k) eq_refl) as (A & B & C & D).
  - rewrite nth_create_old; assumption.
  - lia.
  - cbn zeta. rewrite A, length_create. split; [reflexivity|]. split; [exact B|]. split; [exact C|].
    intros i Hi Hp. rewrite D by lia. apply nth_create_old; assumption.
Qed.

(* h' grew out of h; of the old nodes only p may have changed *)
Record ext (h h' : heap) (p : nat) (n n' : node) : Prop := {
  e_len : length h <= length h';
  e_old : forall i, i < length h -> i <> p -> nth_error h' i = nth_error h i;
  e_p : nth_error h' p = Some n';
  e_parent : parent n' = parent n;
  e_kind : kind_of n' = kind_of n }.
Lemma ext_trans h1 h2 h3 p n1 n2 n3 : ext h1 h2 p n1 n2 -> ext h2 h3 p n2 n3 -> ext h1 h3 p n1 n3.
Proof.
  intros [A1 B1 C1 D1 E1] [A2 B2 C2 D2 E2]. split; try congruence; try lia.
  intros i Hi Hp. rewrite B2 by (try assumption; lia). apply B1; assumption.
Qed.
Lemma ext_refl h p n : nth_error h p = Some n -> ext h h p n n.
Proof. intros E. split; auto. Qed.

(* ---- what is shown depends only on the nodes that take part ---- *)
Scheme shows_mut := Induction for shows Sort Prop with shows_all_mut := Induction for shows_all Sort Prop.
Combined Scheme shows_both from shows_mut, shows_all_mut.

Lemma shows_frame (P Q : nat -> Prop) h h' :
  (forall i, P i -> i < length h -> nth_error h' i = nth_error h i /\ Q i) ->
  (forall q i t, shows P h q i t -> shows Q h' q i t) /\ (forall q l ts, shows_all P h q l ts -> shows_all Q h' q l ts).
Proof.
  intros E.
  assert ((forall q i t (H : shows P h q i t), shows Q h' q i t) /\ (forall q l ts (H : shows_all P h q l ts), shows_all Q h' q l ts)) as X;
    [|exact X].
  apply (shows_both P h (fun q i t _ => shows Q h' q i t) (fun q l ts _ => shows_all Q h' q l ts)); intros.
  - destruct (E id p (nth_lt _ _ _ e)) as [A B]. econstructor; eauto; congruence.
  - destruct (E id p (nth_lt _ _ _ e)) as [A B]. econstructor; eauto; congruence.
  - destruct (E id p (nth_lt _ _ _ e)) as [A B]. econstructor; eauto; congruence.
  - constructor.
  - constructor; assumption.
Qed.
Lemma shows_all_frame (P Q : nat -> Prop) h h' q l ts :
  (forall i, P i -> i < length h -> nth_error h' i = nth_error h i /\ Q i) -> shows_all P h q l ts -> shows_all Q h' q l ts.
Proof. intros E. apply (shows_frame P Q h h' E). Qed.

(* the root is taken to another parent *)
Lemma shows_away (P : nat -> Prop) h h' id n t q' :
  nth_error h id = Some n -> parent n = Some t -> ~ P t ->
  (forall i, P i -> i <> id -> nth_error h' i = nth_error h i) -> nth_error h' id = Some (set_parent q' n) ->
  forall tr, shows P h (Some t) id tr -> shows P h' q' id tr.
Proof.
  intros En Ep NP E E' tr H.
  assert ((forall q i tr (H : shows P h q i tr), q <> Some t -> shows P h' q i tr)
          /\ (forall q l ts (H : shows_all P h q l ts), q <> Some t -> shows_all P h' q l ts)) as X.
  { apply (shows_both P h (fun q i tr _ => q <> Some t -> shows P h' q i tr) (fun q l ts _ => q <> Some t -> shows_all P h' q l ts));
      intros; try (constructor; auto; fail);
      (assert (id0 <> id) by (intros ->; congruence)); econstructor; eauto; try (rewrite E by assumption; eassumption).
    apply H0; intros X. injection X as X. congruence. }
  inversion H; subst.
  - assert (n0 = n) as -> by congruence. econstructor; eauto.
    apply X; [assumption|]. intros Y. injection Y as Y. congruence.
  - assert (n0 = n) as -> by congruence. econstructor; eauto.
  - assert (n0 = n) as -> by congruence. econstructor; eauto.
Qed.

Lemma shows_all_app P h q l1 l2 t1 t2 : shows_all P h q l1 t1 -> shows_all P h q l2 t2 -> shows_all P h q (l1 ++ l2) (t1 ++ t2).
Proof. induction 1; cbn; auto. intros. constructor; auto. Qed.
Lemma shows_P P h q i t : shows P h q i t -> P i /\ i < length h.
Proof. destruct 1; split; auto; eapply nth_lt; eauto. Qed.
Lemma shows_all_P P h q l ts : shows_all P h q l ts -> forall i, In i l -> P i /\ i < length h.
Proof. induction 1; cbn; [tauto|]. intros i [->|I]; [eapply shows_P; eauto|auto]. Qed.

Section Proofs.
Variable st : Type.

(* ---- induction ---- *)
Definition pspec_ind' (P : pspec st -> Prop) (H1 : forall b, P (QConst b)) (H2 : forall f, P (QPath f))
  (H3 : forall l, Forall P l -> P (QConcat l)) (H4 : forall c l, Forall P l -> P (QBranch c l)) : forall v, P v :=
  fix go v :=
    let gos := fix gos (l : list (pspec st)) : Forall P l := match l with [] => Forall_nil _ | x :: r => Forall_cons _ (go x) (gos r) end in
    match v with QConst b => H1 b | QPath f => H2 f | QConcat l => H3 l (gos l) | QBranch c l => H4 c l (gos l) end.
Definition tspec_ind' (P : tspec st -> Prop) (H1 : forall b, P (TConst b)) (H2 : forall f, P (TPath f))
  (H3 : forall l, Forall P l -> P (TConcat l)) : forall v, P v :=
  fix go v :=
    let gos := fix gos (l : list (tspec st)) : Forall P l := match l with [] => Forall_nil _ | x :: r => Forall_cons _ (go x) (gos r) end in
    match v with TConst b => H1 b | TPath f => H2 f | TConcat l => H3 l (gos l) end.
Definition spec_ind' (P : spec st -> Prop)
  (H1 : forall nm l, Forall P l -> P (Element nm l)) (H2 : forall k v, P (Attribute k v)) (H3 : forall k f, P (AddIf k f))
  (H4 : forall n f, P (AddClassWhen n f)) (H5 : forall t, P (TextNode t)) (H6 : forall b, P (InnerHtml b))
  (H7 : forall c l, Forall P l -> P (Match c l)) (H8 : forall f b, P b -> P (ForEach f b)) (H9 : forall n, P (Listener n))
  (H10 : P FileInput) (H11 : P Noop) : forall s, P s :=
  fix go s :=
    let gos := fix gos (l : list (spec st)) : Forall P l := match l with [] => Forall_nil _ | x :: r => Forall_cons _ (go x) (gos r) end in
    match s with
    | Element nm l => H1 nm l (gos l) | Attribute k v => H2 k v | AddIf k f => H3 k f | AddClassWhen n f => H4 n f
    | TextNode t => H5 t | InnerHtml b => H6 b | Match c l => H7 c l (gos l) | ForEach f b => H8 f b (go b)
    | Listener n => H9 n | FileInput => H10 | Noop => H11
    end.

(* ---- text of attributes ---- *)
Definition ok_res {A} (o : option A) : res A := match o with Some a => Ok a | None => UB end.
Lemma concat_app x (l1 l2 : list (param st)) :
  params_concat (l1 ++ l2) x = (let! a := params_concat l1 x in let! b := params_concat l2 x in Ok (a ++ b)).
Proof.
  unfold params_concat. induction l1 as [|p l1 IH]; cbn.
  - destruct (concat_with (param_text x) l2); reflexivity.
  - destruct (param_text x p); cbn; [|reflexivity]. rewrite IH.
    destruct (concat_with (param_text x) l1); cbn; [|reflexivity]. destruct (concat_with (param_text x) l2); cbn; [|reflexivity].
    rewrite app_assoc. reflexivity.
Qed.
Lemma concat_one x (p : param st) : params_concat [p] x = param_text x p.
Proof. unfold params_concat. cbn. destruct (param_text x p); cbn; [|reflexivity]. rewrite app_nil_r. reflexivity. Qed.
Lemma params_text x (v : pspec st) : params_concat (flatten_param_node v) x = ok_res (text_of x v).
Proof.
  induction v as [b|f|l IH|c l IH] using pspec_ind'.
  - apply concat_one.
  - apply concat_one.
  - cbn [flatten_param_node text_of]. induction IH as [|v l Hv _ IH]; [reflexivity|].
    cbn [flat_map map]. rewrite concat_app, Hv, IH. cbn [opt_concat fold_right]. fold (opt_concat (map (text_of x) l)).
    destruct (text_of x v); cbn [ok_res bind]; [|reflexivity].
    destruct (opt_concat (map (text_of x) l)); reflexivity.
  - cbn [flatten_param_node text_of]. rewrite concat_one. cbn [param_text]. unfold pick. destruct (c x) as [i|]; [|reflexivity].
    revert i. induction IH as [|v l Hv _ IH]; intros [|i]; try reflexivity.
    + exact Hv.
    + apply IH.
Qed.
Lemma const_text (v : pspec st) : is_const (flatten_param_node v) = true -> exists b, forall x, text_of x v = Some b.
Proof.
  intros E. destruct (flatten_param_node v) as [|[b|f|c l] [|? ?]] eqn:F; try discriminate.
  exists b. intros x. pose proof (params_text x v) as H. rewrite F in H. cbn in H. rewrite app_nil_r in H.
  destruct (text_of x v); cbn in H; congruence.
Qed.

(* ---- text nodes as lists of atoms ---- *)
Definition atom : Type := bytes + (st -> option bytes).
Fixpoint atoms (t : tspec st) : list atom :=
  match t with TConst b => [inl b] | TPath f => [inr f] | TConcat l => flat_map atoms l end.
Definition atom_action (a : atom) : action st := match a with inl b => TextStatic b | inr f => TextPath f end.
Definition atom_text (x : st) (a : atom) : bytes := match a with inl b => b | inr f => match f x with Some b => b | None => [] end end.
Lemma atoms_flatten t : flatten_text_node t = map atom_action (atoms t).
Proof.
  induction t as [b|f|l IH] using tspec_ind'; try reflexivity. cbn.
  induction IH as [|t l H _ IH]; [reflexivity|]. cbn. rewrite map_app, H, IH. reflexivity.
Qed.
Lemma atoms_texts x t : texts x t = map (atom_text x) (atoms t).
Proof.
  induction t as [b|f|l IH] using tspec_ind'; try reflexivity. cbn.
  induction IH as [|t l H _ IH]; [reflexivity|]. cbn. rewrite map_app, H, IH. reflexivity.
Qed.
Lemma atoms_count t : count t = length (atoms t).
Proof.
  induction t as [b|f|l IH] using tspec_ind'; try reflexivity. cbn.
  induction IH as [|t l H _ IH]; [reflexivity|]. cbn [map flat_map list_sum fold_right].
  rewrite app_length, H. f_equal. exact IH.
Qed.
Definition atom_resolves (x : st) (a : atom) : Prop := match a with inl _ => True | inr f => f x <> None end.
Lemma atoms_resolve x t : tresolves t x -> Forall (atom_resolves x) (atoms t).
Proof.
  induction t as [b|f|l IH] using tspec_ind'; cbn.
  - repeat constructor.
  - repeat constructor; assumption.
  - induction IH as [|t l H _ IH]; cbn; [constructor|]. intros [A B]. apply Forall_app. auto.
Qed.

(* ---- slots ---- *)
Lemma slot_ext (s : spec st) x sl sl' : (forall k, sl k = sl' k) -> forall k, slot s x sl k = slot s x sl' k.
Proof.
  intros E k. destruct s; cbn; auto.
  - destruct (text_of x v); auto. unfold set. destruct (key_eqb k0 k); auto.
  - destruct (f x); auto. unfold set. destruct (key_eqb k0 k); auto.
  - unfold set. destruct (key_eqb (Class n) k); auto.
Qed.
Lemma slots_ext (l : list (spec st)) x sl sl' : (forall k, sl k = sl' k) ->
  forall k, fold_left (fun sl c => slot c x sl) l sl k = fold_left (fun sl c => slot c x sl) l sl' k.
Proof. revert sl sl'. induction l; intros sl sl' E k; cbn; [apply E|]. apply IHl. apply slot_ext. exact E. Qed.
Lemma slot_other (s : spec st) x sl k : ~ In k (key_of s) -> slot s x sl k = sl k.
Proof.
  intros N. destruct s; cbn in *; auto.
  - destruct (text_of x v); auto. unfold set. destruct (key_eqb k0 k) eqn:E; auto. apply key_eqb_eq in E; subst. tauto.
  - destruct (f x); auto. unfold set. destruct (key_eqb k0 k) eqn:E; auto. apply key_eqb_eq in E; subst. tauto.
  - unfold set. destruct (key_eqb (Class n) k) eqn:E; auto. apply key_eqb_eq in E; subst. tauto.
Qed.
Lemma lookup_put h p k v n k' : nth_error h p = Some n ->
  exists n', nth_error (put_slot h p k v) p = Some n' /\ parent n' = parent n /\ kind_of n' = kind_of n /\ kids n' = kids n
             /\ lookup k' (slots n') = set k v (fun k => lookup k (slots n)) k'.
Proof.
  intros E. unfold put_slot. eexists. split; [apply nth_modify_same; exact E|]. repeat split.
  unfold set. destruct v; cbn.
  - rewrite lookup_unset, (key_eqb_sym k' k). destruct (key_eqb k k'); reflexivity.
  - apply lookup_unset.
Qed.

(* ---- what a renderer knows of the document ---- *)
Definition static (s : spec st) : bool := match s with Attribute _ v => is_const (flatten_param_node v) | _ => false end.
Definition slot_act (s : spec st) : option (key * (st -> res (option (option bytes)))) :=
  match s with
  | Attribute k v => Some (k, fun s => let! b := params_concat (flatten_param_node v) s in Ok (Some (Some b)))
  | AddIf k f => Some (k, fun s => Ok (option_map (fun b : bool => if b then Some [] else None) (f s)))
  | AddClassWhen n f => Some (Class n, fun s => Ok (Some (if f s then Some [] else None)))
  | _ => None
  end.
Definition defined (s : spec st) (x : st) : Prop := match s with Attribute _ v => text_of x v <> None | _ => True end.
Lemma slot_act_flatten s k f : slot_act s = Some (k, f) -> flatten_spec s = [SetSlot (static s) k f] /\ key_of s = [k].
Proof. destruct s; cbn; intros E; try discriminate; injection E as <- <-; split; reflexivity. Qed.
Lemma slot_act_value s k f x : slot_act s = Some (k, f) -> defined s x ->
  exists v, f x = Ok v /\ forall sl k', slot s x sl k' = match v with Some v => set k v sl k' | None => sl k' end.
Proof.
  destruct s; cbn; intros E D; try discriminate; injection E as <- <-.
  - rewrite params_text. destruct (text_of x v); [|congruence]. cbn. eexists; split; reflexivity.
  - destruct (f0 x); cbn; eexists; split; reflexivity.
  - eexists; split; reflexivity.
Qed.

Definition held (l : list (spec st)) (sl : key -> option bytes) : Prop :=
  (forall s, In s l -> static s = true -> forall k, In k (key_of s) -> forall x, sl k = slot s x none k)
  /\ (forall k, ~ In k (flat_map key_of l) -> sl k = None).

Inductive ltext (h : heap) (q : option nat) : list atom -> list (rnode st) -> list nat -> Prop :=
| XNil : ltext h q [] [] []
| XConst b id n l rs ids : nth_error h id = Some n -> parent n = q -> kind_of n = KText b -> ltext h q l rs ids ->
    ltext h q (inl b :: l) (RStatic :: rs) (id :: ids)
| XPath f id n b l rs ids : nth_error h id = Some n -> parent n = q -> kind_of n = KText b -> ltext h q l rs ids ->
    ltext h q (inr f :: l) (RText id f :: rs) (id :: ids).

(* the parent of the nodes, the element the specification was rendered in, what the renderer keeps, the nodes in the element,
   all nodes that belong to it *)
Inductive live (h : heap) : option nat -> nat -> spec st -> list (rnode st) -> list nat -> list nat -> Prop :=
| LElem q p nm l id n rs F : nth_error h id = Some n -> parent n = q -> kind_of n = KElem nm -> held l (fun k => lookup k (slots n)) ->
    lives h id l rs (kids n) F -> live h q p (Element nm l) (RStatic :: rs ++ [RStatic]) [id] (id :: F)
| LSlot q p s k f : slot_act s = Some (k, f) -> live h q p s [if static s then RStatic else RSlot p k f] [] []
| LText q p t rs ids : ltext h q (atoms t) rs ids -> live h q p (TextNode t) rs ids ids
| LHtmlNil q p : live h q p (InnerHtml []) [RStatic] [] []
| LHtml q p b id n : b <> [] -> nth_error h id = Some n -> parent n = q -> kind_of n = KRaw b -> live h q p (InnerHtml b) [RStatic] [id] [id]
| LMatch p c alts b cs rss temp tn id Fs : nth_error h temp = Some tn -> nth_error cs b = Some id -> lalts h p temp b 0 alts rss cs Fs ->
    live h (Some p) p (Match c alts) [RBranch p (Some b) (map Some cs) c rss] [id] (temp :: List.concat Fs)
| LEach p f body ids F : incl ids F -> (forall i, In i ids -> nth_error h i <> None) ->
    live h (Some p) p (ForEach f body) [REach p f (flatten_spec body)] ids F
| LListen q p n : live h q p (Listener n) [RStatic] [] []
| LFile q p id : nth_error h id = Some (mk_node q (KElem (bs "input")) [style_none; type_file] []) -> live h q p FileInput [RStatic] [id] [id]
| LNoop q p : live h q p Noop [] [] []
with lives (h : heap) : nat -> list (spec st) -> list (rnode st) -> list nat -> list nat -> Prop :=
| LivesNil p : lives h p [] [] [] []
| LivesCons p s l rs rs' ids ids' F F' : live h (Some p) p s rs ids F -> lives h p l rs' ids' F' ->
    lives h p (s :: l) (rs ++ rs') (ids ++ ids') (F ++ F')
with lalts (h : heap) : nat -> nat -> nat -> nat -> list (spec st) -> list (list (rnode st)) -> list nat -> list (list nat) -> Prop :=
| LaltsNil p temp b j : lalts h p temp b j [] [] [] []
| LaltsCons p temp b j a l q rs rss id cs F Fs :
    (if Nat.eqb j b then q = Some p else q = None \/ q = Some temp) -> live h q temp a rs [id] F ->
    lalts h p temp b (S j) l rss cs Fs -> lalts h p temp b j (a :: l) (rs :: rss) (id :: cs) (F :: Fs).
Scheme live_mut := Induction for live Sort Prop with lives_mut := Induction for lives Sort Prop with lalts_mut := Induction for lalts Sort Prop.
Combined Scheme live_all from live_mut, lives_mut, lalts_mut.

Lemma ltext_frame h h' q l rs ids : (forall i, In i ids -> nth_error h' i = nth_error h i) -> ltext h q l rs ids -> ltext h' q l rs ids.
Proof.
  intros E H. induction H; [constructor| |]; (econstructor; eauto; [rewrite E by (cbn; auto); eassumption|]); apply IHltext;
    intros; apply E; cbn; auto.
Qed.
Lemma live_frame h h' :
  (forall q p s rs ids F, live h q p s rs ids F -> (forall i, In i F -> nth_error h' i = nth_error h i) -> live h' q p s rs ids F)
  /\ (forall p l rs ids F, lives h p l rs ids F -> (forall i, In i F -> nth_error h' i = nth_error h i) -> lives h' p l rs ids F)
  /\ (forall p t b j l rss cs Fs, lalts h p t b j l rss cs Fs -> (forall i, In i (List.concat Fs) -> nth_error h' i = nth_error h i) ->
      lalts h' p t b j l rss cs Fs).
Proof.
  pose (P := fun q p s rs ids F (_ : live h q p s rs ids F) => (forall i, In i F -> nth_error h' i = nth_error h i) -> live h' q p s rs ids F).
  pose (P0 := fun p l rs ids F (_ : lives h p l rs ids F) => (forall i, In i F -> nth_error h' i = nth_error h i) -> lives h' p l rs ids F).
  pose (P1 := fun p t b j l rss cs Fs (_ : lalts h p t b j l rss cs Fs) =>
    (forall i, In i (List.concat Fs) -> nth_error h' i = nth_error h i) -> lalts h' p t b j l rss cs Fs).
  assert ((forall q p s rs ids F (H : live h q p s rs ids F), P q p s rs ids F H)
          /\ (forall p l rs ids F (H : lives h p l rs ids F), P0 p l rs ids F H)
          /\ (forall p t b j l rss cs Fs (H : lalts h p t b j l rss cs Fs), P1 p t b j l rss cs Fs H)) as X; [|exact X].
  apply (live_all h P P0 P1); unfold P, P0, P1; clear P P0 P1; intros.
  - econstructor; eauto; [rewrite H0 by (cbn; auto); eassumption|]. apply H. intros; apply H0; cbn; auto.
  - constructor; assumption.
  - constructor. eapply ltext_frame; eauto.
  - constructor.
  - econstructor; eauto. rewrite H by (cbn; auto); eassumption.
  - econstructor; eauto; [rewrite H0 by (cbn; auto); eassumption|]. apply H. intros; apply H0; cbn; auto.
  - constructor; auto. intros j J. rewrite H by auto. auto.
  - constructor.
  - constructor. rewrite H by (cbn; auto); eassumption.
  - constructor.
  - constructor.
  - constructor; [apply H|apply H0]; intros; apply H1; apply in_or_app; auto.
  - constructor.
  - econstructor; eauto; [apply H|apply H0]; intros; apply H1; cbn; apply in_or_app; auto.
Qed.

(* ---- rendering ---- *)
Implicit Types (s : spec st) (x : st).
Lemma run_app (a b : list (action st)) x h p :
  run (a ++ b) x h p = (let* (h, p, r1) := run a x h p in let* (h, p, r2) := run b x h p in Fine (h, p, r1 ++ r2)).
Proof.
  unfold run. revert h p. induction a as [|c a IH]; intros h p; cbn.
  - destruct (run_with (fun a => act a x) b h p) as [[[h' p'] r]| |]; reflexivity.
  - destruct (act c x h p) as [[[h1 p1] r1]| |]; cbn; auto. rewrite IH.
    destruct (run_with (fun a => act a x) a h1 p1) as [[[h2 p2] r2]| |]; cbn; auto.
    destruct (run_with (fun a => act a x) b h2 p2) as [[[h3 p3] r3]| |]; cbn; auto.
Qed.

Lemma quiet_content s x : quiet s = true -> content s x = [].
Proof. destruct s; cbn; congruence. Qed.
Lemma quiet_slotless_empties s : quiet s = true -> empties s = false.
Proof. destruct s; cbn; congruence. Qed.
Lemma repeatable_slot s x sl : repeatable s = true -> slot s x sl = sl.
Proof. destruct s; cbn; congruence. Qed.
Lemma repeatable_empties s : repeatable s = true -> empties s = false.
Proof. destruct s; cbn; congruence. Qed.
Lemma renders_defined s x : renders s x -> defined s x.
Proof. destruct s; cbn; auto. Qed.
Lemma updates_defined s x : updates s x -> defined s x.
Proof. destruct s; cbn; auto. Qed.

Definition R (s : spec st) : Prop := forall x h p n,
  renders s x -> nth_error h p = Some n -> (empties s = true -> kids n = []) ->
  exists h' rs new n',
    run (flatten_spec s) x h p = Fine (h', p, rs) /\ ext h h' p n n' /\ kids n' = kids n ++ new
    /\ (forall k, lookup k (slots n') = slot s x (fun k => lookup k (slots n)) k)
    /\ shows_all (fun i => length h <= i) h' (Some p) new (content s x)
    /\ (updatable s -> updates s x ->
        exists F, live h' (Some p) p s rs new F /\ NoDup F /\ forall i, In i F -> length h <= i < length h').

Lemma NoDup_app_intro {A} (l1 l2 : list A) : NoDup l1 -> NoDup l2 -> (forall a, In a l1 -> ~ In a l2) -> NoDup (l1 ++ l2).
Proof.
  induction 1; cbn; auto. intros N D. constructor.
  - rewrite in_app_iff. intros [I|I]; [auto|]. apply (D x); cbn; auto.
  - apply IHNoDup; [exact N|]. intros a I. apply D. cbn; auto.
Qed.

Lemma R_list l : Forall R l -> forall x h p n,
  fold_right (fun c P => renders c x /\ P) True l -> nth_error h p = Some n -> first_among l = true ->
  (kids n = [] \/ forallb (fun c => negb (empties c)) l = true) ->
  exists h' rs new n',
    run (flat_map flatten_spec l) x h p = Fine (h', p, rs) /\ ext h h' p n n' /\ kids n' = kids n ++ new
    /\ (forall k, lookup k (slots n') = fold_left (fun sl c => slot c x sl) l (fun k => lookup k (slots n)) k)
    /\ shows_all (fun i => length h <= i) h' (Some p) new (flat_map (fun c => content c x) l)
    /\ (fold_right (fun c P => updatable c /\ P) True l -> fold_right (fun c P => updates c x /\ P) True l ->
        exists F, lives h' p l rs new F /\ NoDup F /\ forall i, In i F -> length h <= i < length h').
Proof.
  induction 1 as [|s l Rs _ IH]; intros x h p n W E FA K.
  - exists h, [], [], n. split; [reflexivity|]. split; [apply ext_refl; exact E|]. split; [symmetry; apply app_nil_r|].
    split; [reflexivity|]. split; [constructor|]. intros _ _. exists []. split; [constructor|]. split; [constructor|]. cbn; tauto.
  - cbn in W. destruct W as [Ws Wl]. cbn in FA. apply andb_prop in FA. destruct FA as [FA1 FA2].
    destruct (Rs x h p n Ws E) as (h1 & r1 & new1 & n1 & E1 & X1 & K1 & S1 & V1 & L1).
    { intros Em. destruct K as [K|K]; [exact K|]. cbn in K. rewrite Em in K. discriminate. }
    destruct (IH x h1 p n1 Wl (e_p _ _ _ _ _ X1) FA2) as (h2 & r2 & new2 & n2 & E2 & X2 & K2 & S2 & V2 & L2).
    { destruct (quiet s) eqn:Q; [|right; exact FA1].
      rewrite (quiet_content s x Q) in V1. inversion V1; subst. rewrite K1, app_nil_r.
      destruct K as [K|K]; [left; exact K|right]. cbn in K. apply andb_prop in K. tauto. }
    pose proof (nth_lt _ _ _ E) as Lp. pose proof (e_len _ _ _ _ _ X1) as G1. pose proof (e_len _ _ _ _ _ X2) as G2.
    exists h2, (r1 ++ r2), (new1 ++ new2), n2. split; [|split; [|split; [|split; [|split]]]].
    + cbn [flat_map]. rewrite run_app, E1. cbn [obind]. rewrite E2. reflexivity.
    + eapply ext_trans; eassumption.
    + rewrite K2, K1, app_assoc. reflexivity.
    + intros k. rewrite S2. cbn [fold_left]. apply slots_ext. exact S1.
    + cbn [flat_map]. apply shows_all_app.
      * eapply shows_all_frame; [|exact V1]. intros i Hi Hl; cbn beta in *. split; [|exact Hi]. apply (e_old _ _ _ _ _ X2); lia.
      * eapply shows_all_frame; [|exact V2]. intros i Hi Hl; cbn beta in *. split; [reflexivity|lia].
    + cbn. intros [U1 U2] [D1 D2]. destruct (L1 U1 D1) as (F1 & A1 & B1 & C1). destruct (L2 U2 D2) as (F2 & A2 & B2 & C2).
      exists (F1 ++ F2). split; [|split].
      * constructor; [|exact A2]. apply (proj1 (live_frame h1 h2)); [exact A1|]. intros i I. apply C1 in I. apply (e_old _ _ _ _ _ X2); lia.
      * apply NoDup_app_intro; auto. intros i I1 I2. apply C1 in I1. apply C2 in I2. lia.
      * intros i I. apply in_app_or in I. destruct I as [I|I]; [apply C1 in I|apply C2 in I]; lia.
Qed.

Lemma R_each body : R body -> repeatable body = true -> forall items h p n,
  Forall (renders body) items -> nth_error h p = Some n ->
  exists h' new n',
    each_with (fun x h => let* (h, _, _) := run (flatten_spec body) x h p in Fine h) items h = Fine h'
    /\ ext h h' p n n' /\ kids n' = kids n ++ new /\ (forall k, lookup k (slots n') = lookup k (slots n))
    /\ shows_all (fun i => length h <= i) h' (Some p) new (flat_map (content body) items).
Proof.
  intros Rb Rp. induction items as [|x items IH]; intros h p n W E.
  - exists h, [], n. split; [reflexivity|]. split; [apply ext_refl; exact E|]. split; [symmetry; apply app_nil_r|].
    split; [reflexivity|constructor].
  - inversion W; subst.
    destruct (Rb x h p n H1 E) as (h1 & r1 & new1 & n1 & E1 & X1 & K1 & S1 & V1 & _).
    { rewrite (repeatable_empties _ Rp). discriminate. }
    destruct (IH h1 p n1 H2 (e_p _ _ _ _ _ X1)) as (h2 & new2 & n2 & E2 & X2 & K2 & S2 & V2).
    pose proof (nth_lt _ _ _ E) as Lp. pose proof (e_len _ _ _ _ _ X1) as G1.
    exists h2, (new1 ++ new2), n2. split; [|split; [|split; [|split]]].
    + cbn [each_with]. rewrite E1. cbn [obind]. exact E2.
    + eapply ext_trans; eassumption.
    + rewrite K2, K1, app_assoc. reflexivity.
    + intros k. rewrite S2, S1. rewrite (repeatable_slot _ _ _ Rp). reflexivity.
    + cbn [flat_map]. apply shows_all_app.
      * eapply shows_all_frame; [|exact V1]. intros i Hi Hl; cbn beta in *. split; [|exact Hi]. apply (e_old _ _ _ _ _ X2); lia.
      * eapply shows_all_frame; [|exact V2]. intros i Hi Hl; cbn beta in *. split; [reflexivity|lia].
Qed.

(* every alternative leaves one node in the span *)
Lemma one_content s x : renders s x -> one_node s x -> exists t, content s x = [t].
Proof.
  revert x. induction s using spec_ind'; intros x W O; cbn in *; try tauto; try (eexists; reflexivity).
  - rewrite atoms_texts, map_map. rewrite atoms_count in O. destruct (atoms t) as [|a [|? ?]]; try discriminate. eexists; reflexivity.
  - destruct W as [I W]. destruct (c x) as [i|]; [|congruence]. cbn in I. clear O.
    revert i I. induction H as [|a l Ha _ IH]; intros i I; [cbn in I; lia|]. cbn in W. destruct W as [[Wa Oa] W].
    destruct i as [|i]; [apply Ha; assumption|]. apply IH; [exact W|]. cbn in I. lia.
Qed.
Lemma one_not_empties s x : one_node s x -> empties s = false.
Proof. destruct s; cbn; tauto. Qed.

Lemma R_alts alts : Forall R alts -> forall x h t tn,
  fold_right (fun a P => (renders a x /\ one_node a x) /\ P) True alts -> nth_error h t = Some tn ->
  exists h' cs rss tn' trs,
    alternatives_with (run_with (fun a => act a x)) t (map flatten_spec alts) h = Fine (h', map Some cs, rss)
    /\ ext h h' t tn tn' /\ map (fun a => content a x) alts = map (fun tr => [tr]) trs
    /\ shows_all (fun i => length h <= i) h' (Some t) cs trs
    /\ (fold_right (fun a P => (updatable a /\ lasting a) /\ P) True alts -> fold_right (fun a P => updates a x /\ P) True alts ->
        exists Fs, (forall p b j, j + length alts <= b -> lalts h' p t b j alts rss cs Fs) /\ NoDup (List.concat Fs)
                   /\ forall i, In i (List.concat Fs) -> length h <= i < length h').
Proof.
  induction 1 as [|a l Ra _ IH]; intros x h t tn W E.
  - exists h, [], [], tn, []. split; [reflexivity|]. split; [apply ext_refl; exact E|]. split; [reflexivity|]. split; [constructor|].
    intros _ _. exists []. split; [constructor|]. split; [constructor|]. cbn; tauto.
  - cbn in W. destruct W as [[Wa Oa] Wl].
    destruct (Ra x h t tn Wa E) as (h1 & r1 & new1 & n1 & E1 & X1 & K1 & _ & V1 & L1).
    { rewrite (one_not_empties _ _ Oa). discriminate. }
    destruct (one_content a x Wa Oa) as [tr Etr]. rewrite Etr in V1. inversion V1 as [|? id ? ids ? Vid Vnil]; subst. inversion Vnil; subst.
    destruct (IH x h1 t n1 Wl (e_p _ _ _ _ _ X1)) as (h2 & cs & rss & n2 & trs & E2 & X2 & T2 & V2 & L2).
    pose proof (nth_lt _ _ _ E) as Lp. pose proof (e_len _ _ _ _ _ X1) as G1. pose proof (e_len _ _ _ _ _ X2) as G2.
    exists h2, (id :: cs), (r1 :: rss), n2, (tr :: trs). split; [|split; [|split; [|split]]].
    + cbn [map alternatives_with]. unfold run in E1. rewrite E1. cbn [obind].
      assert (last_child h1 t = Some id) as ->.
      { unfold last_child, kids_at. rewrite (e_p _ _ _ _ _ X1), K1, rev_app_distr. reflexivity. }
      rewrite E2. reflexivity.
    + eapply ext_trans; eassumption.
    + cbn [map]. rewrite Etr, T2. reflexivity.
    + constructor.
      * eapply (proj1 (shows_frame _ _ h1 h2 _)); [exact Vid].
      * eapply shows_all_frame; [|exact V2]. intros i Hi Hl; cbn beta in *. split; [reflexivity|lia].
    + cbn. intros [[U1 La] U2] [D1 D2]. destruct (L1 U1 D1) as (F1 & A1 & B1 & C1). destruct (L2 U2 D2) as (F2 & A2 & B2 & C2).
      exists (F1 :: F2). split; [|split].
      * intros p b j J. apply LaltsCons with (q := Some t).
        -- destruct (Nat.eqb_spec j b); [lia|auto].
        -- apply (proj1 (live_frame h1 h2)); [|intros i I; apply C1 in I; apply (e_old _ _ _ _ _ X2); lia].
           destruct a; cbn in La; try tauto; inversion A1; subst; econstructor; eauto.
        -- apply A2. lia.
      * cbn. apply NoDup_app_intro; auto. intros i I1 I2. apply C1 in I1. apply C2 in I2. lia.
      * cbn. intros i I. apply in_app_or in I. destruct I as [I|I]; [apply C1 in I|apply C2 in I]; lia.
  Unshelve. intros i Hi Hl; cbn beta in *. split; [|exact Hi]. apply (e_old _ _ _ _ _ X2); lia.
Qed.

Lemma NoDup_app_remove_l {A} (l1 l2 : list A) : NoDup (l1 ++ l2) -> NoDup l2.
Proof. induction l1; cbn; auto. inversion 1; auto. Qed.
Lemma NoDup_app_remove_r {A} (l1 l2 : list A) : NoDup (l1 ++ l2) -> NoDup l1.
Proof. induction l1; cbn; [constructor|]. inversion 1; subst. constructor; auto. intros I. apply H2. apply in_or_app; auto. Qed.
Lemma NoDup_app_disj {A} (l1 l2 : list A) a : NoDup (l1 ++ l2) -> In a l1 -> In a l2 -> False.
Proof.
  induction l1; cbn; [tauto|]. inversion 1; subst. intros [->|I] J; [|auto]. apply H2. apply in_or_app; auto.
Qed.
Lemma set_parent_same n : set_parent (parent n) n = n.
Proof. destruct n; reflexivity. Qed.
Lemma ltext_root h q l rs ids id : ltext h q l rs ids -> In id ids -> exists n, nth_error h id = Some n /\ parent n = q.
Proof. induction 1; cbn; [tauto| |]; (intros [->|I]; [eauto|auto]). Qed.
Lemma live_root h q p s rs id F : live h q p s rs [id] F -> lasting s -> In id F /\ exists n, nth_error h id = Some n /\ parent n = q.
Proof.
  intros H L. inversion H; subst; cbn in L; try tauto; try (split; [cbn; auto|eauto]; fail).
  - split; [cbn; auto|]. eapply ltext_root; eauto. cbn; auto.
Qed.

(* only the parent of the root changes *)
Lemma live_reparent h h' q q' p s rs id F n : live h q p s rs [id] F -> lasting s -> NoDup F ->
  nth_error h id = Some n -> nth_error h' id = Some (set_parent q' n) -> (forall i, In i F -> i <> id -> nth_error h' i = nth_error h i) ->
  live h' q' p s rs [id] F.
Proof.
  intros H L ND En En' Fr. inversion H; subst; cbn in L; try tauto.
  - inversion ND; subst. assert (n0 = n) as -> by congruence.
    apply LElem with (n := set_parent q' n); auto.
    apply (proj1 (proj2 (live_frame h h'))); [assumption|]. intros i I. apply Fr; [cbn; auto|]. intros ->; tauto.
  - constructor. match goal with X : ltext _ _ _ _ _ |- _ => inversion X; subst end;
      match goal with X : ltext _ _ _ _ [] |- _ => inversion X; subst end;
      (assert (n0 = n) as -> by congruence); econstructor; try exact En'; try reflexivity; try eassumption; constructor.
  - constructor. rewrite En'. f_equal. assert (n = mk_node q (KElem (bs "input")) [style_none; type_file] []) as -> by congruence. reflexivity.
Qed.

Lemma lalts_move h h' p t b i l rss cs Fs j : lalts h p t b j l rss cs Fs -> Forall lasting l -> NoDup (List.concat Fs) ->
  (forall k id Fk n, nth_error cs k = Some id -> nth_error Fs k = Some Fk -> nth_error h id = Some n ->
     (forall m, In m Fk -> m <> id -> nth_error h' m = nth_error h m)
     /\ nth_error h' id = Some (set_parent (if Nat.eqb (j + k) i then Some p else if Nat.eqb (j + k) b then None else parent n) n)) ->
  lalts h' p t i j l rss cs Fs.
Proof.
  intros H. induction H as [p t b j|p t b j a l q rs rss id cs F Fs Hq La Ll IH]; intros Ls ND Fr; [constructor|].
  inversion Ls as [|? ? L1 L2]; subst.
  destruct (live_root _ _ _ _ _ _ _ La L1) as [Iid (n & En & Ep)].
  destruct (Fr 0 id F n eq_refl eq_refl En) as [A B]. rewrite Nat.add_0_r in B.
  cbn in ND.
  assert (NDF : NoDup F) by (eapply NoDup_app_remove_r; eauto).
  eapply LaltsCons; [|eapply live_reparent; [exact La|exact L1|exact NDF|exact En|exact B|exact A]|].
  - destruct (Nat.eqb j i); [reflexivity|]. destruct (Nat.eqb j b) eqn:Eb; [auto|]. rewrite Ep. exact Hq.
  - apply IH; [exact L2|eapply NoDup_app_remove_l; eauto|].
    intros k id' Fk n' E1 E2 E3. destruct (Fr (S k) id' Fk n' E1 E2 E3) as [A' B']. split; [exact A'|].
    rewrite Nat.add_succ_r in B'. exact B'.
Qed.
Lemma lalts_nth h p t b j l rss cs Fs k : lalts h p t b j l rss cs Fs -> Forall lasting l -> k < length l ->
  exists id Fk n, nth_error cs k = Some id /\ nth_error Fs k = Some Fk /\ In id Fk /\ nth_error h id = Some n
    /\ (if Nat.eqb (j + k) b then parent n = Some p else parent n = None \/ parent n = Some t).
Proof.
  intros H. revert k. induction H as [p t b j|p t b j a l q rs rss id cs F Fs Hq La Ll IH]; intros k Ls Lk; [cbn in Lk; lia|].
  inversion Ls as [|? ? L1 L2]; subst. destruct k as [|k].
  - destruct (live_root _ _ _ _ _ _ _ La L1) as [Iid (n & En & Ep)]. exists id, F, n. rewrite Nat.add_0_r, Ep. auto.
  - destruct (IH k L2) as (id' & Fk & n & X). { cbn in Lk; lia. } exists id', Fk, n. rewrite Nat.add_succ_r. exact X.
Qed.
Lemma lalts_length h p t b j l rss cs Fs : lalts h p t b j l rss cs Fs -> length cs = length l /\ length Fs = length l.
Proof. induction 1; cbn; intuition lia. Qed.
Lemma concat_disjoint {A} (Ls : list (list A)) a i j L1 L2 : NoDup (List.concat Ls) -> nth_error Ls i = Some L1 -> nth_error Ls j = Some L2 ->
  In a L1 -> In a L2 -> i = j.
Proof.
  revert i j. induction Ls as [|L Ls IH]; intros i j ND E1 E2 I1 I2; [destruct i; discriminate|].
  assert (X : forall k L', nth_error Ls k = Some L' -> In a L' -> In a L -> False).
  { intros k L' E I I'. cbn in ND. revert ND I'. clear - E I. intros ND I'.
    assert (In a (List.concat Ls)) as J by (apply in_concat; exists L'; split; [eapply nth_error_In; eauto|exact I]).
    apply in_split in I'. destruct I' as (u & v & ->). rewrite <- app_assoc in ND. cbn in ND. apply NoDup_remove_2 in ND.
    apply ND. rewrite !in_app_iff. auto. }
  destruct i, j; cbn in E1, E2.
  - reflexivity.
  - exfalso. injection E1 as ->. eauto.
  - exfalso. injection E2 as ->. eauto.
  - f_equal. apply IH; auto. cbn in ND. eapply NoDup_app_remove_l; eauto.
Qed.
Lemma in_concat_nth {A} (Ls : list (list A)) i L a : nth_error Ls i = Some L -> In a L -> In a (List.concat Ls).
Proof. intros E I. apply in_concat. exists L. split; [eapply nth_error_In; eauto|exact I]. Qed.

Lemma shows_all_nth P h q l ts i id : shows_all P h q l ts -> nth_error l i = Some id -> exists t, nth_error ts i = Some t /\ shows P h q id t.
Proof.
  intros H. revert i. induction H; intros [|i] E; cbn in *; try discriminate; auto. injection E as <-. eauto.
Qed.
Lemma nth_of_map {A B} (f : A -> B) d l i : nth i (map f l) d = match nth_error l i with Some a => f a | None => d end.
Proof. revert i. induction l; intros [|i]; cbn; auto. Qed.
Lemma fold_Forall {A} (P : A -> Prop) l : fold_right (fun a Q => P a /\ Q) True l <-> Forall P l.
Proof. induction l; cbn; split; intros; auto; [destruct H; constructor; tauto|inversion H; tauto]. Qed.

Lemma atom_run x l h p n : nth_error h p = Some n ->
  exists h' rs new n', run (map atom_action l) x h p = Fine (h', p, rs) /\ ext h h' p n n' /\ kids n' = kids n ++ new
    /\ slots n' = slots n /\ shows_all (fun i => length h <= i) h' (Some p) new (map TText (map (atom_text x) l))
    /\ ltext h' (Some p) l rs new /\ NoDup new.
Proof.
  revert h n. induction l as [|a l IH]; intros h n E.
  - exists h, [], [], n. split; [reflexivity|]. split; [apply ext_refl; exact E|]. split; [symmetry; apply app_nil_r|].
    repeat (split; [reflexivity || constructor|]). constructor.
  - pose proof (nth_lt _ _ _ E) as Lp.
    set (b := atom_text x a).
    destruct (new_child h (KText b) p n E) as (A & B & C & D).
    set (h1 := append_child (create h (KText b)) p (length h)) in *.
    destruct (IH h1 _ C) as (h2 & rs & new & n2 & E2 & X2 & K2 & S2 & V2 & L2 & N2).
    pose proof (e_len _ _ _ _ _ X2) as G2.
    assert (B2 : nth_error h2 (length h) = Some (mk_node (Some p) (KText b) [] [])).
    { rewrite (e_old _ _ _ _ _ X2) by lia. exact B. }
    exists h2, ((match a with inl _ => RStatic | inr f => RText (length h) f end) :: rs), (length h :: new), n2.
    split; [|split; [|split; [|split; [|split; [|split]]]]].
    + change (map atom_action (a :: l)) with ([atom_action a] ++ map atom_action l). rewrite run_app.
      assert (run [atom_action a] x h p = Fine (h1, p, [match a with inl _ => RStatic | inr f => RText (length h) f end])) as ->.
      { destruct a as [c|f]; reflexivity. }
      cbn [obind]. rewrite E2. reflexivity.
    + destruct X2 as [X21 X22 X23 X24 X25]. split; auto; [lia|]. intros i Hi Hp. rewrite X22 by lia. apply D; lia.
    + rewrite K2. cbn. rewrite <- app_assoc. reflexivity.
    + exact S2.
    + cbn [map]. constructor.
      * eapply ShowsText; [|exact B2|reflexivity|reflexivity]. lia.
      * eapply shows_all_frame; [|exact V2]. intros i Hi Hl; cbn beta in *. split; [reflexivity|lia].
    + destruct a as [c|f]; econstructor; try exact B2; try reflexivity; assumption.
    + constructor; [|exact N2]. intros I. destruct (shows_all_P _ _ _ _ _ V2 _ I) as [Y _]. lia.
Qed.

(* ---- the slots of an element ---- *)
Lemma static_slot s x y sl sl' k : static s = true -> In k (key_of s) -> slot s x sl k = slot s y sl' k.
Proof.
  destruct s; cbn; try discriminate. intros E [<-|[]]. destruct (const_text _ E) as [b B]. rewrite !B. unfold set. rewrite key_eqb_refl. reflexivity.
Qed.
Lemma fold_slot_other l x sl k : ~ In k (flat_map key_of l) -> fold_left (fun sl c => slot c x sl) l sl k = sl k.
Proof.
  revert sl. induction l as [|s l IH]; intros sl N; cbn; [reflexivity|]. cbn in N. rewrite in_app_iff in N.
  rewrite IH by tauto. apply slot_other. tauto.
Qed.
Lemma fold_slot_in l x s sl k : NoDup (flat_map key_of l) -> In s l -> In k (key_of s) ->
  exists sl', sl' k = sl k /\ fold_left (fun sl c => slot c x sl) l sl k = slot s x sl' k.
Proof.
  revert sl. induction l as [|c l IH]; intros sl ND I Ik; cbn in *; [tauto|].
  assert (ND' := NoDup_app_remove_l _ _ ND).
  destruct I as [->|I].
  - exists sl. split; [reflexivity|]. rewrite fold_slot_other; [reflexivity|].
    intros J. destruct s; cbn in *; try tauto; destruct Ik as [<-|[]]; inversion ND; tauto.
  - destruct (IH (slot c x sl) ND' I Ik) as (sl' & A & B). exists sl'. split; [|exact B]. rewrite A. apply slot_other.
    intros J. assert (In k (flat_map key_of l)) by (apply in_flat_map; eauto).
    destruct c; cbn in *; try tauto; destruct J as [<-|[]]; inversion ND; tauto.
Qed.
Lemma held_fold l x sl : NoDup (flat_map key_of l) -> (forall k, sl k = fold_left (fun sl c => slot c x sl) l none k) -> held l sl.
Proof.
  intros ND E. split.
  - intros s I St k Ik y. rewrite E. destruct (fold_slot_in l x s none k ND I Ik) as (sl' & _ & ->). apply static_slot; assumption.
  - intros k N. rewrite E. apply fold_slot_other. exact N.
Qed.

Lemma clear_empty h p n : nth_error h p = Some n -> kids n = [] -> clear h p = h.
Proof.
  intros E K. unfold clear, kids_at. rewrite E, K. cbn. eapply modify_id; [exact E|]. destruct n; cbn in *. subst. reflexivity.
Qed.

Lemma R_element nm l : Forall R l -> R (Element nm l).
Proof.
  intros IH x h p n W E Em. pose proof (nth_lt _ _ _ E) as Lp.
  cbn in W. destruct W as [FA W].
  destruct (new_child h (KElem nm) p n E) as (A & B & C & D).
  set (h1 := append_child (create h (KElem nm)) p (length h)) in *.
  destruct (R_list l IH x h1 (length h) _ W B FA) as (h2 & rs & new & n2 & E2 & X2 & K2 & S2 & V2 & L2); [left; reflexivity|].
  pose proof (e_len _ _ _ _ _ X2) as G2. cbn [kids app] in K2.
  assert (Cp : nth_error h2 p = Some (set_kids (kids n ++ [length h]) n)) by (rewrite (e_old _ _ _ _ _ X2) by lia; exact C).
  exists h2, (RStatic :: rs ++ [RStatic]), [length h], (set_kids (kids n ++ [length h]) n).
  split; [|split; [|split; [|split; [|split]]]].
  + cbn [flatten_spec]. rewrite run_app.
    assert (run [Begin nm] x h p = Fine (h1, length h, [RStatic])) as -> by reflexivity. cbn [obind].
    rewrite run_app, E2. cbn [obind]. unfold run. cbn [run_with act]. unfold parent_of. rewrite (e_p _ _ _ _ _ X2), (e_parent _ _ _ _ _ X2).
    reflexivity.
  + split; auto; [lia|]. intros i Hi Hp. rewrite (e_old _ _ _ _ _ X2) by lia. apply D; lia.
  + reflexivity.
  + reflexivity.
  + cbn [content]. constructor; [|constructor]. econstructor.
    * lia.
    * exact (e_p _ _ _ _ _ X2).
    * rewrite (e_parent _ _ _ _ _ X2). reflexivity.
    * rewrite (e_kind _ _ _ _ _ X2). reflexivity.
    * intros k. rewrite S2. reflexivity.
    * rewrite K2. eapply shows_all_frame; [|exact V2]. intros i Hi Hl; cbn beta in *. split; [reflexivity|lia].
  + cbn. intros (_ & OE & NDk & U) Up. destruct (L2 U Up) as (F & LF & NF & BF).
    exists (length h :: F). split; [|split].
    * econstructor; [exact (e_p _ _ _ _ _ X2)|rewrite (e_parent _ _ _ _ _ X2); reflexivity|rewrite (e_kind _ _ _ _ _ X2); reflexivity| |].
      -- apply (held_fold l x); [exact NDk|]. intros k. rewrite S2. reflexivity.
      -- rewrite K2. exact LF.
    * constructor; [|exact NF]. intros I. apply BF in I. lia.
    * intros i [<-|I]; [lia|]. apply BF in I. lia.
Qed.
Lemma R_slot s k f : slot_act s = Some (k, f) -> R s.
Proof.
  intros A x h p n W E Em. pose proof (nth_lt _ _ _ E) as Lp.
  destruct (slot_act_flatten _ _ _ A) as [Ef Ek]. destruct (slot_act_value _ _ _ x A (renders_defined _ _ W)) as (v & Ev & Es).
  assert (content s x = []) as C by (destruct s; cbn in *; congruence).
  exists (apply_slot h p k v), [if static s then RStatic else RSlot p k f], [], 
    (match v with Some v => set_slots (match v with Some b => (k, b) :: unset k (slots n) | None => unset k (slots n) end) n | None => n end).
  assert (X : nth_error (apply_slot h p k v) p
     = Some (match v with Some v => set_slots (match v with Some b => (k, b) :: unset k (slots n) | None => unset k (slots n) end) n | None => n end)).
  { destruct v as [v|]; cbn [apply_slot]; [|exact E]. unfold put_slot. exact (nth_modify_same _ _ _ _ E). }
  split; [|split; [|split; [|split; [|split]]]].
  - rewrite Ef. unfold run. cbn [run_with act]. rewrite Ev. reflexivity.
  - split.
    + destruct v; cbn; [unfold put_slot; rewrite length_modify|]; lia.
    + intros i Hi Hp. destruct v; cbn; [unfold put_slot; rewrite nth_modify_other by congruence|]; reflexivity.
    + exact X.
    + destruct v; reflexivity.
    + destruct v; reflexivity.
  - destruct v; cbn; rewrite app_nil_r; reflexivity.
  - intros k'. rewrite Es. destruct v as [v|]; [|reflexivity].
    destruct (lookup_put h p k v n k' E) as (n' & E' & _ & _ & _ & H). cbn [apply_slot] in X. rewrite X in E'. injection E' as <-. exact H.
  - rewrite C. constructor.
  - intros _ _. exists []. split; [constructor; exact A|]. split; [constructor|]. cbn; tauto.
Qed.
Lemma R_text t : R (TextNode t).
Proof.
  intros x h p n W E Em.
  destruct (atom_run x (atoms t) h p n E) as (h' & rs & new & n' & A & B & C & D & V & L & N).
  exists h', rs, new, n'. cbn [flatten_spec content slot]. rewrite atoms_flatten, atoms_texts.
  split; [exact A|]. split; [exact B|]. split; [exact C|]. split; [intros k; rewrite D; reflexivity|]. split; [exact V|].
  intros _ _. exists new. split; [constructor; exact L|]. split; [exact N|]. apply (shows_all_P _ _ _ _ _ V).
Qed.
Lemma R_html b : R (InnerHtml b).
Proof.
  intros x h p n W E Em. pose proof (nth_lt _ _ _ E) as Lp. specialize (Em eq_refl).
  unfold run. cbn [flatten_spec run_with act obind]. unfold set_inner_html. rewrite (clear_empty h p n E Em).
  destruct b as [|b0 b'].
  - exists h, [RStatic], [], n. split; [reflexivity|]. split; [apply ext_refl; exact E|]. split; [symmetry; apply app_nil_r|].
    split; [reflexivity|]. split; [constructor|]. intros _ _. exists []. split; [constructor|]. split; [constructor|]. cbn; tauto.
  - set (b := b0 :: b'). destruct (new_child h (KRaw b) p n E) as (A & B & C & D).
    set (h1 := append_child (create h (KRaw b)) p (length h)) in *.
    exists h1, [RStatic], [length h], (set_kids (kids n ++ [length h]) n).
    split; [reflexivity|]. split; [|split; [reflexivity|split; [reflexivity|split]]].
    + split; auto. lia.
    + cbn [content b]. constructor; [|constructor]. eapply ShowsRaw; [|exact B|reflexivity|reflexivity]. lia.
    + intros _ _. exists [length h]. split; [|split].
      * eapply LHtml; [discriminate|exact B|reflexivity|reflexivity].
      * repeat constructor. cbn; tauto.
      * intros i [<-|[]]. lia.
Qed.
Lemma R_file : R FileInput.
Proof.
  intros x h p n W E Em. pose proof (nth_lt _ _ _ E) as Lp.
  set (h0 := modify (create h (KElem (bs "input"))) (length h) (set_slots [style_none; type_file])).
  assert (E0 : nth_error h0 (length h) = Some (mk_node None (KElem (bs "input")) [style_none; type_file] [])).
  { unfold h0. rewrite (nth_modify_same _ _ _ _ (nth_create_new h _)). reflexivity. }
  assert (O0 : forall i, i < length h -> nth_error h0 i = nth_error h i).
  { intros i Hi. unfold h0. rewrite nth_modify_other by lia. apply nth_create_old. exact Hi. }
  assert (L0 : length h0 = S (length h)) by (unfold h0; rewrite length_modify; apply length_create).
  destruct (adopt h0 p (length h) _ n E0 eq_refl) as (A & B & C & D); [rewrite O0; assumption|lia|].
  exists (append_child h0 p (length h)), [RStatic], [length h], (set_kids (kids n ++ [length h]) n).
  split; [reflexivity|]. split; [|split; [reflexivity|split; [reflexivity|split]]].
  - split; auto; [lia|]. intros i Hi Hp. rewrite D by lia. apply O0. exact Hi.
  - cbn [content]. constructor; [|constructor]. econstructor; [lia|exact B|reflexivity|reflexivity| |constructor].
    intros k. cbn [slots set_parent lookup style_none type_file]. unfold set, none.
    rewrite !(key_eqb_sym k). destruct (key_eqb (Property _) k) eqn:E1.
    + apply key_eqb_eq in E1. subst k. reflexivity.
    + reflexivity.
  - intros _ _. exists [length h]. split; [constructor; exact B|]. split; [repeat constructor; cbn; tauto|]. intros i [<-|[]]; lia.
Qed.
Lemma R_for_each f body : R body -> R (ForEach f body).
Proof.
  intros IH x h p n W E Em. pose proof (nth_lt _ _ _ E) as Lp. specialize (Em eq_refl). cbn in W. destruct W as [Rp W].
  assert (X : exists h' new n',
    match f x with
    | Some items => each_with (fun y h => let* (h, _, _) := run (flatten_spec body) y h p in Fine h) items h
    | None => Fine h end = Fine h'
    /\ ext h h' p n n' /\ kids n' = kids n ++ new /\ (forall k, lookup k (slots n') = lookup k (slots n))
    /\ shows_all (fun i => length h <= i) h' (Some p) new (content (ForEach f body) x)).
  { cbn [content]. destruct (f x) as [items|].
    - apply R_each; assumption.
    - exists h, [], n. split; [reflexivity|]. split; [apply ext_refl; exact E|]. split; [symmetry; apply app_nil_r|]. split; [reflexivity|constructor]. }
  destruct X as (h' & new & n' & A & B & C & D & V).
  exists h', [REach p f (flatten_spec body)], new, n'.
  split; [|split; [exact B|split; [exact C|split; [exact D|split; [exact V|]]]]].
  - unfold run at 1. cbn [flatten_spec run_with act]. rewrite (clear_empty h p n E Em).
    match type of A with ?L = _ => transitivity (let* (h2, q, r) := (let* h2 := L in Fine (h2, p, REach p f (flatten_spec body))) in
       let* (h3, q, xs) := Fine (h2, q, []) in Fine (h3, q, r :: xs)) end; [reflexivity|]. rewrite A. reflexivity.
  - intros _ _. exists (seq (length h) (length h' - length h)). split; [constructor|split; [apply seq_NoDup|]].
    + intros i I. apply in_seq. destruct (shows_all_P _ _ _ _ _ V i I). lia.
    + intros i I. apply nth_error_Some. destruct (shows_all_P _ _ _ _ _ V i I). lia.
    + intros i I. apply in_seq in I. pose proof (e_len _ _ _ _ _ B). lia.
Qed.
Lemma map_single_nth {A B} (f : A -> list B) l trs i tr : map f l = map (fun t => [t]) trs -> nth_error trs i = Some tr -> nth i (map f l) [] = [tr].
Proof. intros -> E. rewrite nth_of_map, E. reflexivity. Qed.
Lemma shows_all_length P h q l ts : shows_all P h q l ts -> length l = length ts.
Proof. induction 1; cbn; auto. Qed.

Lemma R_match c alts : Forall R alts -> R (Match c alts).
Proof.
  intros IH x h p n W E Em. pose proof (nth_lt _ _ _ E) as Lp. cbn in W. destruct W as [Ir W].
  set (h0 := create h (KElem (bs "span"))).
  destruct (R_alts alts IH x h0 (length h) _ W (nth_create_new h _)) as (h1 & cs & rss & tn & trs & E1 & X1 & T1 & V1 & L1).
  assert (L0 : length h0 = S (length h)) by apply length_create.
  pose proof (e_len _ _ _ _ _ X1) as G1.
  assert (O1 : forall i, i < length h -> nth_error h1 i = nth_error h i).
  { intros i Hi. rewrite (e_old _ _ _ _ _ X1) by lia. apply nth_create_old. exact Hi. }
  assert (Ecs : length cs = length alts).
  { rewrite (shows_all_length _ _ _ _ _ V1). erewrite <- (map_length (fun tr => [tr]) trs), <- T1, map_length. reflexivity. }
  unfold run. cbn [flatten_spec run_with act obind]. fold h0. rewrite E1. cbn [obind]. destruct (c x) as [i|] eqn:Ec.
  - cbn in Ir. destruct (nth_error cs i) as [id|] eqn:Eid; [|apply nth_error_None in Eid; lia].
    destruct (shows_all_nth _ _ _ _ _ _ _ V1 Eid) as (tr & Etr & Vid).
    destruct (shows_P _ _ _ _ _ Vid) as [Pid _]. rewrite L0 in Pid.
    assert (exists m, nth_error h1 id = Some m /\ parent m = Some (length h)) as (m & Em' & Pm) by (inversion Vid; subst; eauto).
    destruct (adopt_from h1 p id m n (length h) tn Em' Pm) as (A & B & C & (tn' & D & _) & F);
      [rewrite O1; assumption|exact (e_p _ _ _ _ _ X1)|lia|lia|lia|].
    set (h2 := append_child h1 p id) in *.
    exists h2, [RBranch p (Some i) (map Some cs) c rss], [id], (set_kids (kids n ++ [id]) n).
    split; [|split; [|split; [reflexivity|split; [reflexivity|split]]]].
    + cbn [update_branch]. rewrite nth_error_map, Eid. reflexivity.
    + split; auto; [lia|]. intros j Hj Hp. rewrite F by lia. apply O1; exact Hj.
    + cbn [content]. rewrite Ec, (map_single_nth _ _ _ _ _ T1 Etr). constructor; [|constructor].
      assert (Y : shows (fun j => length h0 <= j) h2 (Some p) id tr).
      { eapply (shows_away _ h1 h2 id m (length h) (Some p)); eauto; [cbn beta; lia|]. intros j Hj Hne; cbn beta in *. apply F; lia. }
      eapply (proj1 (shows_frame _ _ h2 h2 _)); exact Y.
    + cbn. intros U [_ Up]. destruct (L1 U Up) as (Fs & La & NF & BF).
      exists (length h :: List.concat Fs). split; [|split].
      * eapply LMatch; [exact D|exact Eid|]. specialize (La p (length alts) 0 (le_n _)).
        destruct (lalts_length _ _ _ _ _ _ _ _ _ La) as [_ EFs].
        assert (Ls : Forall lasting alts). { apply fold_Forall in U. eapply Forall_impl; [|exact U]. cbn; tauto. }
        destruct (lalts_nth _ _ _ _ _ _ _ _ _ i La Ls Ir) as (id0 & Fi & m0 & N1 & N2 & N3 & _). assert (id0 = id) as -> by congruence.
        eapply lalts_move; [exact La|exact Ls|exact NF|]. intros k id' Fk n' M1 M2 M3.
        assert (Ik : forall j, In j Fk -> S (length h) <= j).
        { intros j J. specialize (BF j (in_concat_nth _ _ _ _ M2 J)). lia. }
        destruct (lalts_nth _ _ _ _ _ _ _ _ _ k La Ls) as (id1 & Fk1 & n1 & Q1 & Q2 & Q3 & _).
        { rewrite <- Ecs. apply (nth_lt _ _ _ M1). }
        assert (id1 = id') as -> by congruence. assert (Fk1 = Fk) as -> by congruence.
        cbn [plus]. destruct (Nat.eqb_spec k i) as [->|Nk].
        -- assert (id' = id) as -> by congruence. assert (n' = m) as -> by congruence. split; [|exact B].
           intros j J Nj. specialize (Ik j J). apply F; lia.
        -- assert (Dj : forall j, In j Fk -> j <> id). { intros j J ->. apply Nk. eapply concat_disjoint; eauto. }
           split.
           ++ intros j J _. pose proof (Ik j J). pose proof (Dj j J). apply F; lia.
           ++ pose proof (Ik id' Q3). pose proof (Dj id' Q3). rewrite F by lia.
              assert (k < length alts) by (rewrite <- Ecs; apply (nth_lt _ _ _ M1)). destruct (Nat.eqb_spec k (length alts)); [lia|].
              rewrite set_parent_same. exact M3.
      * constructor; [|exact NF]. intros I. apply BF in I. lia.
      * rewrite A. intros j [<-|I]; [lia|]. apply BF in I. lia.
  - exists h1, [RBranch p None (map Some cs) c rss], [], n.
    split; [reflexivity|]. split; [|split; [symmetry; apply app_nil_r|split; [reflexivity|split]]].
    + split; auto; [lia|rewrite O1; assumption].
    + cbn [content]. rewrite Ec. constructor.
    + cbn. rewrite Ec. intros _ [(i & X & _) _]. discriminate.
  Unshelve. intros j Hj Hl; cbn beta in *. split; [reflexivity|lia].
Qed.

Theorem R_all s : R s.
Proof.
  induction s as [nm l IH|k v|k f|nm f|t|b|c alts IH|f body IH|nm| |] using spec_ind'.
  - apply R_element; assumption.
  - eapply R_slot; reflexivity.
  - eapply R_slot; reflexivity.
  - eapply R_slot; reflexivity.
  - apply R_text.
  - apply R_html.
  - apply R_match; assumption.
  - apply R_for_each; assumption.
  - intros x h p n W E Em. exists h, [RStatic], [], n. split; [reflexivity|]. split; [apply ext_refl; exact E|]. split; [symmetry; apply app_nil_r|].
    split; [reflexivity|]. split; [constructor|]. intros _ _. exists []. split; [constructor|]. split; [constructor|]. cbn; tauto.
  - apply R_file.
  - intros x h p n W E Em. exists h, [], [], n. split; [reflexivity|]. split; [apply ext_refl; exact E|]. split; [symmetry; apply app_nil_r|].
    split; [reflexivity|]. split; [constructor|]. intros _ _. exists []. split; [constructor|]. split; [constructor|]. cbn; tauto.
Qed.

(* ---- updates ---- *)
Lemma update_app x (a b : list (rnode st)) h :
  update_with (update_node x) (a ++ b) h
  = (let* (h, a') := update_with (update_node x) a h in let* (h, b') := update_with (update_node x) b h in Fine (h, a' ++ b')).
Proof.
  revert h. induction a as [|c a IH]; intros h; cbn.
  - destruct (update_with (update_node x) b h) as [[h' r]| |]; reflexivity.
  - destruct (update_node x c h) as [[h1 c']| |]; cbn; auto. rewrite IH.
    destruct (update_with (update_node x) a h1) as [[h2 a']| |]; cbn; auto.
    destruct (update_with (update_node x) b h2) as [[h3 b']| |]; cbn; auto.
Qed.
Lemma quiet_ids h q p s rs ids F : live h q p s rs ids F -> quiet s = true -> ids = [].
Proof. intros H Q. inversion H; subst; cbn in Q; congruence. Qed.
Lemma quiet_lives h p l rs ids F : lives h p l rs ids F -> forallb quiet l = true -> ids = [].
Proof.
  induction 1; cbn; [reflexivity|]. intros Q. apply andb_prop in Q. destruct Q as [Q1 Q2].
  rewrite (quiet_ids _ _ _ _ _ _ _ H Q1), (IHlives Q2). reflexivity.
Qed.
Lemma live_slot h q p s k f rs ids F : slot_act s = Some (k, f) -> live h q p s rs ids F ->
  rs = [if static s then RStatic else RSlot p k f] /\ ids = [] /\ F = [].
Proof.
  intros A H. inversion H; subst; cbn in A; try discriminate; auto.
  match goal with X : slot_act s = Some _ |- _ => rewrite A in X; injection X as <- <- end. auto.
Qed.

(* nodes that stay in place when the store changes *)
Definition solid (s : spec st) : Prop :=
  match s with Element _ _ | TextNode _ | InnerHtml _ | FileInput | Listener _ | Noop => True | _ => False end.
Lemma lasting_solid s : lasting s -> solid s.
Proof. destruct s; cbn; auto. Qed.

Definition UC (s : spec st) : Prop := forall x h q p rs ids F,
  solid s -> live h q p s rs ids F -> updatable s -> updates s x -> NoDup F -> (forall i, In i F -> i < length h) ->
  exists h' rs' F',
    update_with (update_node x) rs h = Fine (h', rs') /\ length h <= length h'
    /\ (forall i, i < length h -> ~ In i F -> nth_error h' i = nth_error h i)
    /\ (forall i, In i F' -> In i F \/ length h <= i < length h') /\ NoDup F'
    /\ live h' q p s rs' ids F'
    /\ (resolves s x -> shows_all (fun i => In i F') h' q ids (content s x)).

Definition UG (s : spec st) : Prop := forall x h p n rs ids F pre post,
  live h (Some p) p s rs ids F -> updatable s -> updates s x -> nth_error h p = Some n -> kids n = pre ++ ids ++ post ->
  NoDup F -> ~ In p F -> (forall i, In i F -> i < length h) -> (forall i, In i (pre ++ post) -> ~ In i F) ->
  (is_each s = true -> pre = [] /\ post = []) ->
  exists h' rs' ids' F' n',
    update_with (update_node x) rs h = Fine (h', rs') /\ length h <= length h'
    /\ (forall i, i < length h -> i <> p -> ~ In i F -> nth_error h' i = nth_error h i)
    /\ nth_error h' p = Some n' /\ parent n' = parent n /\ kind_of n' = kind_of n /\ kids n' = pre ++ ids' ++ post
    /\ (forall i, In i F' -> In i F \/ length h <= i < length h') /\ NoDup F'
    /\ live h' (Some p) p s rs' ids' F'
    /\ (forall k, ~ In k (key_of s) \/ static s = true -> lookup k (slots n') = lookup k (slots n))
    /\ (resolves s x -> static s = false -> forall k, In k (key_of s) -> lookup k (slots n') = slot s x none k)
    /\ (resolves s x -> shows_all (fun i => In i F') h' (Some p) ids' (content s x)).

Lemma UG_of_UC s : solid s -> UC s -> UG s.
Proof.
  intros So U x h p n rs ids F pre post L Ua Up E K ND Np Bd _ _.
  destruct (U x h (Some p) p rs ids F So L Ua Up ND Bd) as (h' & rs' & F' & A & B & C & D & N & L' & V).
  exists h', rs', ids, F', n. rewrite (C p (nth_lt _ _ _ E) Np).
  split; [exact A|]. split; [exact B|]. split; [auto|]. split; [exact E|]. split; [reflexivity|]. split; [reflexivity|]. split; [exact K|].
  split; [exact D|]. split; [exact N|]. split; [exact L'|]. split; [reflexivity|].
  split; [|exact V]. intros _ _ k I. destruct s; cbn in *; tauto.
Qed.

Lemma live_incl h :
  (forall q p s rs ids F, live h q p s rs ids F -> incl ids F)
  /\ (forall p l rs ids F, lives h p l rs ids F -> incl ids F)
  /\ (forall p t b j l rss cs Fs, lalts h p t b j l rss cs Fs -> incl cs (List.concat Fs)).
Proof.
  pose (P := fun (q : option nat) (p : nat) (s : spec st) (rs : list (rnode st)) ids F (_ : live h q p s rs ids F) => incl ids F).
  pose (P0 := fun (p : nat) l rs ids F (_ : lives h p l rs ids F) => incl ids F).
  pose (P1 := fun (p t b j : nat) l rss cs Fs (_ : lalts h p t b j l rss cs Fs) => incl cs (List.concat Fs)).
  assert ((forall q p s rs ids F (H : live h q p s rs ids F), P q p s rs ids F H)
          /\ (forall p l rs ids F (H : lives h p l rs ids F), P0 p l rs ids F H)
          /\ (forall p t b j l rss cs Fs (H : lalts h p t b j l rss cs Fs), P1 p t b j l rss cs Fs H)) as X; [|exact X].
  apply (live_all h P P0 P1); unfold P, P0, P1; clear P P0 P1; intros; intros z I; cbn in *; auto; try tauto.
  - destruct I as [<-|[]]. right. apply H. eapply nth_error_In; eauto.
  - apply in_app_or in I. apply in_or_app. destruct I; [left; apply H|right; apply H0]; assumption.
  - apply in_or_app. destruct I as [<-|I]; [left; apply H; cbn; auto|right; apply H0; assumption].
Qed.

(* a list of children *)
Lemma UL l : Forall UG l -> forall x h p n rs ids F pre post,
  lives h p l rs ids F -> Forall updatable l -> Forall (fun c => updates c x) l -> only_each l = true -> NoDup (flat_map key_of l) ->
  nth_error h p = Some n -> kids n = pre ++ ids ++ post -> NoDup F -> ~ In p F -> (forall i, In i F -> i < length h) ->
  (forall i, In i (pre ++ post) -> ~ In i F) ->
  (existsb is_each l = true -> pre = [] /\ post = []) ->
  exists h' rs' ids' F' n',
    update_with (update_node x) rs h = Fine (h', rs') /\ length h <= length h'
    /\ (forall i, i < length h -> i <> p -> ~ In i F -> nth_error h' i = nth_error h i)
    /\ nth_error h' p = Some n' /\ parent n' = parent n /\ kind_of n' = kind_of n /\ kids n' = pre ++ ids' ++ post
    /\ (forall i, In i F' -> In i F \/ length h <= i < length h') /\ NoDup F'
    /\ lives h' p l rs' ids' F'
    /\ (forall k, ~ In k (flat_map key_of l) -> lookup k (slots n') = lookup k (slots n))
    /\ (forall s k, In s l -> static s = true -> In k (key_of s) -> lookup k (slots n') = lookup k (slots n))
    /\ (Forall (fun c => resolves c x) l -> forall s k, In s l -> static s = false -> In k (key_of s) -> lookup k (slots n') = slot s x none k)
    /\ (Forall (fun c => resolves c x) l -> shows_all (fun i => In i F') h' (Some p) ids' (flat_map (fun c => content c x) l)).
Proof.
  induction 1 as [|s l Us _ IH]; intros x h p n rs ids F pre post L Ua Up OE NK E K ND Np Bd Dj Ea.
  - inversion L; subst. exists h, [], [], [], n. split; [reflexivity|]. split; [lia|]. split; [reflexivity|]. split; [exact E|].
    split; [reflexivity|]. split; [reflexivity|]. split; [exact K|]. split; [cbn; tauto|]. split; [constructor|]. split; [constructor|].
    split; [reflexivity|]. split; [cbn; tauto|]. split; [cbn; tauto|]. constructor.
  - inversion L as [|? ? ? rs1 rs2 ids1 ids2 F1 F2 L1 L2]; subst. clear L.
    inversion Ua as [|? ? Ua1 Ua2]; subst. inversion Up as [|? ? Up1 Up2]; subst.
    cbn in OE. apply andb_prop in OE. destruct OE as [OE1 OE2].
    assert (ND1 := NoDup_app_remove_r _ _ ND). assert (ND2 := NoDup_app_remove_l _ _ ND).
    cbn in NK. assert (NK2 := NoDup_app_remove_l _ _ NK).
    rewrite in_app_iff in Np.
    destruct (Us x h p n rs1 ids1 F1 pre (ids2 ++ post) L1 Ua1 Up1 E) as
      (h1 & rs1' & ids1' & F1' & n1 & A1 & G1 & C1 & P1 & Pp1 & Pk1 & K1 & I1 & N1 & L1' & S1 & T1 & V1).
    { rewrite K, <- !app_assoc. reflexivity. }
    { exact ND1. }
    { tauto. }
    { intros i I. apply Bd. apply in_or_app. auto. }
    { intros i I J. rewrite !in_app_iff in I. destruct I as [I|[I|I]].
      - apply (Dj i); apply in_or_app; auto.
      - apply (proj1 (proj2 (live_incl h)) _ _ _ _ _ L2) in I. exact (NoDup_app_disj _ _ _ ND J I).
      - apply (Dj i); apply in_or_app; auto. }
    { intros Is. rewrite Is in OE1. destruct Ea as [-> ->]; [cbn; rewrite Is; reflexivity|].
      rewrite (quiet_lives _ _ _ _ _ _ L2 OE1). auto. }
    assert (Fr2 : forall i, In i F2 -> nth_error h1 i = nth_error h i).
    { intros i I. apply C1.
      - apply Bd. apply in_or_app; auto.
      - intros ->. tauto.
      - intros J. exact (NoDup_app_disj _ _ _ ND J I). }
    pose proof (proj1 (proj2 (live_frame h h1)) _ _ _ _ _ L2 Fr2) as L2h.
    destruct (IH x h1 p n1 rs2 ids2 F2 (pre ++ ids1') post L2h Ua2 Up2 OE2 NK2 P1) as
      (h2 & rs2' & ids2' & F2' & n2 & A2 & G2 & C2 & P2 & Pp2 & Pk2 & K2 & I2 & N2 & L2' & S2 & St2 & T2 & V2).
    { rewrite K1, <- !app_assoc. reflexivity. }
    { exact ND2. }
    { tauto. }
    { intros i I. assert (i < length h) by (apply Bd; apply in_or_app; auto). lia. }
    { intros i I J. rewrite !in_app_iff in I. destruct I as [[I|I]|I].
      - apply (Dj i); apply in_or_app; auto.
      - apply (proj1 (live_incl h1) _ _ _ _ _ _ L1') in I. apply I1 in I. destruct I as [I|I].
        + exact (NoDup_app_disj _ _ _ ND I J).
        + assert (i < length h) by (apply Bd; apply in_or_app; auto). lia.
      - apply (Dj i); apply in_or_app; auto. }
    { intros Es. destruct Ea as [-> ->]; [cbn; rewrite Es; apply orb_true_r|]. split; [|reflexivity].
      destruct (is_each s) eqn:Is.
      - exfalso. clear - OE1 Es. apply existsb_exists in Es. destruct Es as (c & I & Ic). rewrite forallb_forall in OE1. specialize (OE1 c I).
        destruct c; discriminate.
      - destruct (quiet s) eqn:Qs; [rewrite (quiet_ids _ _ _ _ _ _ _ L1' Qs); reflexivity|].
        exfalso. clear - OE1 Es. apply existsb_exists in Es. destruct Es as (c & I & Ic). rewrite forallb_forall in OE1. specialize (OE1 c I).
        rewrite Ic in OE1. discriminate. }
    assert (Lp := nth_lt _ _ _ E).
    assert (Fr1 : forall i, In i F1' -> nth_error h2 i = nth_error h1 i).
    { intros i I. specialize (I1 i I). apply C2.
      - destruct I1 as [J|J]; [|lia]. assert (i < length h) by (apply Bd; apply in_or_app; auto). lia.
      - intros ->. destruct I1 as [J|J]; [tauto|lia].
      - intros J. destruct I1 as [I1|I1]; [exact (NoDup_app_disj _ _ _ ND I1 J)|].
        assert (i < length h) by (apply Bd; apply in_or_app; auto). lia. }
    exists h2, (rs1' ++ rs2'), (ids1' ++ ids2'), (F1' ++ F2'), n2.
    split; [|split; [lia|]].
    { rewrite update_app, A1. cbn [obind]. rewrite A2. reflexivity. }
    split.
    { intros i Hi Hp Hn. rewrite in_app_iff in Hn. rewrite C2 by (try tauto; lia). apply C1; tauto. }
    split; [exact P2|]. split; [congruence|]. split; [congruence|]. split; [rewrite K2, <- !app_assoc; reflexivity|].
    split.
    { intros i I. rewrite in_app_iff in *. destruct I as [I|I]; [apply I1 in I|apply I2 in I]; intuition lia. }
    split.
    { apply NoDup_app_intro; auto. intros i J1 J2. specialize (I1 i J1). specialize (I2 i J2).
      destruct I1 as [I1|I1], I2 as [I2|I2].
      - exact (NoDup_app_disj _ _ _ ND I1 I2).
      - assert (i < length h) by (apply Bd; apply in_or_app; auto). lia.
      - assert (i < length h) by (apply Bd; apply in_or_app; auto). lia.
      - lia. }
    split; [constructor; [apply (proj1 (live_frame h1 h2)); assumption|exact L2']|].
    split.
    { intros k Nk. cbn in Nk. rewrite in_app_iff in Nk. rewrite S2 by tauto. apply S1. tauto. }
    assert (DK : forall c k, In c l -> In k (key_of c) -> ~ In k (key_of s)).
    { intros c k I Ik J. refine (NoDup_app_disj _ _ k NK J _). apply in_flat_map. eauto. }
    assert (DK' : forall k, In k (key_of s) -> ~ In k (flat_map key_of l)).
    { intros k I J. exact (NoDup_app_disj _ _ k NK I J). }
    split.
    { intros c k [<-|I] St Ik.
      - rewrite S2 by auto. apply S1; auto.
      - rewrite (St2 c k I St Ik). apply S1. left. eapply DK; eauto. }
    split.
    { intros Rs c k I St Ik. inversion Rs as [|? ? Rs1 Rs2]; subst. destruct I as [<-|I].
      - rewrite S2 by auto. apply T1; auto.
      - apply T2; auto. }
    intros Rs. inversion Rs as [|? ? Rs1 Rs2]; subst. cbn [flat_map]. apply shows_all_app.
    + eapply shows_all_frame; [|exact (V1 Rs1)]. intros i Hi Hl; cbn beta in *. split; [apply Fr1; exact Hi|apply in_or_app; auto].
    + eapply shows_all_frame; [|exact (V2 Rs2)]. intros i Hi Hl; cbn beta in *. split; [reflexivity|apply in_or_app; auto].
Qed.

Lemma slot_point s x sl sl' k : sl k = sl' k -> slot s x sl k = slot s x sl' k.
Proof.
  intros E. destruct s; cbn; auto.
  - destruct (text_of x v); auto. unfold set. destruct (key_eqb k0 k); auto.
  - destruct (f x); auto. unfold set. destruct (key_eqb k0 k); auto.
  - unfold set. destruct (key_eqb (Class n) k); auto.
Qed.

Lemma UC_element nm l : Forall UG l -> UC (Element nm l).
Proof.
  intros IH x h q p rs ids F _ L Ua Up ND Bd.
  inversion L; subst; [|discriminate]. rename n into n0. clear L.
  cbn in Ua, Up. destruct Ua as (FA & OE & NK & Ua). apply fold_Forall in Ua. apply fold_Forall in Up.
  inversion ND as [|? ? Nid ND0]; subst.
  match goal with X : nth_error h id = Some n0 |- _ => rename X into E end.
  match goal with X : held l _ |- _ => rename X into Hd end.
  match goal with X : lives h id l _ _ _ |- _ => rename X into Lv end.
  destruct (UL l IH x h id n0 rs0 (kids n0) F0 [] [] Lv Ua Up OE NK E) as
    (h' & rs' & ids' & F' & n' & A & G & C & P & Pp & Pk & K & I & N & L' & S & St & T & V).
  { cbn. rewrite app_nil_r. reflexivity. }
  { exact ND0. }
  { exact Nid. }
  { intros i J. apply Bd. cbn; auto. }
  { cbn. tauto. }
  { auto. }
  cbn in K. rewrite app_nil_r in K.
  assert (Bid : id < length h) by (apply Bd; cbn; auto).
  assert (Nid' : ~ In id F'). { intros J. apply I in J. destruct J as [J|J]; [tauto|lia]. }
  exists h', (RStatic :: rs' ++ [RStatic]), (id :: F').
  split; [|split; [exact G|]].
  { change (RStatic :: rs0 ++ [RStatic]) with ([RStatic] ++ rs0 ++ [RStatic]). rewrite update_app. cbn [update_with update_node obind].
    rewrite update_app, A. reflexivity. }
  split. { intros i Hi Hn. cbn in Hn. apply C; [exact Hi| |]; intros J; apply Hn; auto. }
  split. { intros i [<-|J]; [cbn; auto|]. apply I in J. cbn. tauto. }
  split. { constructor; assumption. }
  assert (Hd' : held l (fun k => lookup k (slots n'))).
  { destruct Hd as [H1 H2]. split.
    - intros s Is Ss k Ik y. rewrite (St s k Is Ss Ik). apply H1; assumption.
    - intros k Nk. rewrite S by exact Nk. apply H2. exact Nk. }
  split.
  { apply LElem with (n := n'); auto; try congruence. }
  intros Rs. cbn in Rs. apply fold_Forall in Rs. cbn [content]. constructor; [|constructor].
  eapply ShowsElem; [cbn; auto|exact P|congruence|congruence| |].
  - intros k. destruct Hd' as [H1 H2].
    destruct (in_dec (fun a b => ltac:(destruct (key_eqb a b) eqn:Eab; [left; apply key_eqb_eq; exact Eab|right; intros ->; rewrite key_eqb_refl in Eab; discriminate])) k (flat_map key_of l)) as [Ik|Nk].
    + apply in_flat_map in Ik. destruct Ik as (s & Is & Ik).
      destruct (fold_slot_in l x s none k NK Is Ik) as (sl' & B1 & ->).
      rewrite (slot_point s x sl' none k B1). destruct (static s) eqn:Ss; [apply H1|apply T]; assumption.
    + rewrite fold_slot_other by exact Nk. apply H2. exact Nk.
  - rewrite K. eapply shows_all_frame; [|exact (V Rs)]. intros i Hi Hl; cbn beta in *. split; [reflexivity|cbn; auto].
Qed.

Lemma UC_text t : UC (TextNode t).
Proof.
  intros x h q p rs ids F _ L _ _ ND Bd. inversion L; subst; [discriminate|]. clear L.
  match goal with X : ltext _ _ _ _ _ |- _ => rename X into Lt end.
  assert (X : exists h', update_with (update_node x) rs h = Fine (h', rs) /\ length h' = length h
     /\ (forall i, ~ In i F -> nth_error h' i = nth_error h i) /\ ltext h' q (atoms t) rs F
     /\ (Forall (atom_resolves x) (atoms t) -> shows_all (fun i => In i F) h' q F (map TText (map (atom_text x) (atoms t))))).
  { clear Bd. revert h Lt ND. generalize (atoms t). intros l. revert rs F. induction l as [|a l IH]; intros rs ids h Lt ND.
    - inversion Lt; subst. exists h. split; [reflexivity|]. split; [reflexivity|]. split; [reflexivity|]. split; [constructor|constructor].
    - inversion Lt; subst.
      + inversion ND as [|? ? Nid ND0]; subst.
        match goal with Y : ltext _ _ l _ _ |- _ => destruct (IH _ _ _ Y ND0) as (h' & A & B & C & D & V) end.
        exists h'. split; [cbn; rewrite A; reflexivity|]. split; [exact B|]. split; [intros i Hi; apply C; cbn in Hi; tauto|].
        assert (nth_error h' id = Some n) as E' by (rewrite C; assumption).
        split; [econstructor; eauto|]. intros Rs. inversion Rs; subst. cbn [map]. constructor.
        * eapply ShowsText; [cbn; auto|exact E'|reflexivity|assumption].
        * eapply shows_all_frame; [|apply V; assumption]. intros i Hi Hl; cbn beta in *. split; [reflexivity|cbn; auto].
      + inversion ND as [|? ? Nid ND0]; subst.
        set (h1 := match f x with Some b => modify h id (set_kind (KText b)) | None => h end).
        assert (O1 : forall i, i <> id -> nth_error h1 i = nth_error h i).
        { intros i Hi. unfold h1. destruct (f x); [apply nth_modify_other; congruence|reflexivity]. }
        assert (L1 : length h1 = length h) by (unfold h1; destruct (f x); [apply length_modify|reflexivity]).
        assert (E1 : exists n1, nth_error h1 id = Some n1 /\ parent n1 = parent n
                  /\ kind_of n1 = KText (match f x with Some b => b | None => b end)).
        { unfold h1. destruct (f x) as [b'|].
          - eexists. split; [apply nth_modify_same; eassumption|]. split; reflexivity.
          - exists n. auto. }
        destruct E1 as (n1 & E1 & P1 & K1).
        match goal with Y : ltext h _ l _ _ |- _ => assert (Y1 : ltext h1 (parent n) l rs0 ids0) end.
        { eapply ltext_frame; [|eassumption]. intros i Hi. apply O1. intros ->. tauto. }
        destruct (IH _ _ _ Y1 ND0) as (h' & A & B & C & D & V).
        assert (nth_error h' id = Some n1) as E' by (rewrite C; assumption).
        exists h'. split; [|split; [lia|split; [|split]]].
        * cbn [update_with update_node obind]. fold h1. rewrite A. reflexivity.
        * intros i Hi. cbn in Hi. rewrite C by tauto. apply O1. intros ->. tauto.
        * econstructor; [exact E'|congruence|exact K1|]. exact D.
        * intros Rs. inversion Rs as [|? ? Rs1 Rs2]; subst. cbn in Rs1. cbn [map]. constructor.
          -- eapply ShowsText; [cbn; auto|exact E'|congruence|]. rewrite K1. cbn. destruct (f x); [reflexivity|tauto].
          -- eapply shows_all_frame; [|apply V; assumption]. intros i Hi Hl; cbn beta in *. split; [reflexivity|cbn; auto]. }
  destruct X as (h' & A & B & C & D & V). exists h', rs, F. split; [exact A|]. split; [lia|]. split; [auto|]. split; [auto|]. split; [exact ND|].
  split; [constructor; exact D|]. intros Rs. cbn [content]. rewrite atoms_texts. apply V. apply atoms_resolve. exact Rs.
Qed.
Lemma UC_still s : solid s -> match s with Element _ _ | TextNode _ => False | _ => True end -> UC s.
Proof.
  intros So Ns x h q p rs ids F _ L Ua Up ND Bd.
  assert (X : update_with (update_node x) rs h = Fine (h, rs) /\ shows_all (fun i => In i F) h q ids (content s x)).
  { inversion L; subst; cbn in So, Ns; try tauto; try (split; [reflexivity|constructor]; fail).
    - destruct s; cbn in *; try tauto; discriminate.
    - split; [reflexivity|]. cbn [content]. destruct b; [congruence|]. constructor; [|constructor].
      eapply ShowsRaw; [cbn; auto|eassumption|reflexivity|assumption].
    - split; [reflexivity|]. cbn [content]. constructor; [|constructor]. econstructor; [cbn; auto|eassumption|reflexivity|reflexivity| |constructor].
      intros k. cbn [slots lookup style_none type_file]. unfold set, none.
      rewrite !(key_eqb_sym k). destruct (key_eqb (Property _) k) eqn:E1.
      + apply key_eqb_eq in E1. subst k. reflexivity.
      + reflexivity. }
  destruct X as [A V]. exists h, rs, F. split; [exact A|]. split; [lia|]. split; [auto|]. split; [auto|]. split; [exact ND|]. split; [exact L|]. auto.
Qed.

Lemma UG_slot s k f : slot_act s = Some (k, f) -> UG s.
Proof.
  intros A x h p n rs ids F pre post L Ua Up E K ND Np Bd Dj Ea.
  destruct (live_slot _ _ _ _ _ _ _ _ _ A L) as (-> & -> & ->). destruct (slot_act_flatten _ _ _ A) as [_ Ek].
  destruct (slot_act_value _ _ _ x A (updates_defined _ _ Up)) as (v & Ev & Es).
  assert (C : content s x = []) by (destruct s; cbn in A |- *; congruence).
  assert (V : forall h', shows_all (fun i => In i []) h' (Some p) [] (content s x)) by (intros; rewrite C; constructor).
  destruct (static s) eqn:St.
  - exists h, [RStatic], [], [], n. split; [reflexivity|]. split; [lia|]. split; [reflexivity|]. split; [exact E|]. split; [reflexivity|].
    split; [reflexivity|]. split; [exact K|]. split; [cbn; tauto|]. split; [constructor|].
    split; [replace [RStatic] with [if static s then RStatic else RSlot p k f] by (rewrite St; reflexivity); constructor; exact A|].
    split; [reflexivity|]. split; [discriminate|]. auto.
  - set (h' := apply_slot h p k v).
    assert (X : exists n', nth_error h' p = Some n' /\ parent n' = parent n /\ kind_of n' = kind_of n /\ kids n' = kids n
                /\ forall k', lookup k' (slots n') = match v with Some v => set k v (fun k => lookup k (slots n)) k' | None => lookup k' (slots n) end).
    { unfold h', apply_slot. destruct v as [v|].
      - destruct (lookup_put h p k v n k E) as (n' & B1 & B2 & B3 & B4 & _). exists n'. repeat (split; [assumption|]).
        intros k'. destruct (lookup_put h p k v n k' E) as (n2 & D1 & _ & _ & _ & D5). congruence.
      - exists n. auto. }
    destruct X as (n' & P & Pp & Pk & Pq & Sl).
    exists h', [RSlot p k f], [], [], n'. split; [cbn; rewrite Ev; reflexivity|].
    split; [unfold h', apply_slot, put_slot; destruct v; [rewrite length_modify|]; lia|].
    split; [intros i Hi Hp _; unfold h', apply_slot, put_slot; destruct v; [apply nth_modify_other; congruence|reflexivity]|].
    split; [exact P|]. split; [exact Pp|]. split; [exact Pk|]. split; [congruence|]. split; [cbn; tauto|]. split; [constructor|].
    split; [replace [RSlot p k f] with [if static s then RStatic else RSlot p k f] by (rewrite St; reflexivity); constructor; exact A|].
    split; [|split].
    + intros k' [Nk|X]; [|discriminate]. rewrite Ek in Nk. rewrite Sl. destruct v; [|reflexivity]. unfold set.
      destruct (key_eqb k k') eqn:Q; [apply key_eqb_eq in Q; subst; cbn in Nk; tauto|reflexivity].
    + intros Rs _ k' Ik. rewrite Ek in Ik. destruct Ik as [<-|[]]. rewrite Sl, Es. destruct v as [v|].
      * unfold set. rewrite key_eqb_refl. reflexivity.
      * exfalso. clear - A Ev Rs Up. destruct s; cbn in *; try discriminate; injection A as <- <-; try discriminate.
        -- rewrite params_text in Ev. destruct (text_of x v); discriminate.
        -- destruct (f0 x); [discriminate|tauto].
    + auto.
Qed.

Lemma orphan l : forall h i, nth_error (fold_left (fun h c => modify h c (set_parent None)) l h) i
  = if existsb (Nat.eqb i) l then option_map (set_parent None) (nth_error h i) else nth_error h i.
Proof.
  induction l as [|c l IH]; intros h i; cbn; [reflexivity|]. rewrite IH, nth_modify, (Nat.eqb_sym i c).
  destruct (Nat.eqb c i); cbn; [|reflexivity]. destruct (existsb (Nat.eqb i) l); [|reflexivity]. destruct (nth_error h i); reflexivity.
Qed.
Lemma orphan_length l : forall h, length (fold_left (fun h c => modify h c (set_parent None)) l h) = length h.
Proof. induction l; intros h; cbn; [reflexivity|]. rewrite IHl. apply length_modify. Qed.
Lemma clear_spec h p n : nth_error h p = Some n -> ~ In p (kids n) ->
  length (clear h p) = length h /\ nth_error (clear h p) p = Some (set_kids [] n)
  /\ forall i, i <> p -> ~ In i (kids n) -> nth_error (clear h p) i = nth_error h i.
Proof.
  intros E N. unfold clear, kids_at. rewrite E. rewrite length_modify, orphan_length. split; [reflexivity|].
  assert (X : forall i, ~ In i (kids n) -> existsb (Nat.eqb i) (kids n) = false).
  { intros i Ni. destruct (existsb (Nat.eqb i) (kids n)) eqn:Q; [|reflexivity]. apply existsb_exists in Q. destruct Q as (j & J & Q).
    apply Nat.eqb_eq in Q. subst. tauto. }
  split.
  - apply nth_modify_same. rewrite orphan, (X p N). exact E.
  - intros i Hp Hi. rewrite nth_modify_other by congruence. rewrite orphan, (X i Hi). reflexivity.
Qed.

Lemma UG_each f body : UG (ForEach f body).
Proof.
  intros x h p n rs ids F pre post L Ua Up E K ND Np Bd Dj Ea. destruct (Ea eq_refl) as [-> ->]. cbn in K. rewrite app_nil_r in K.
  inversion L; subst; [discriminate|].
  match goal with X : incl _ F |- _ => rename X into Inc end.
  assert (Npk : ~ In p (kids n)) by (intros I; apply Np; apply Inc; exact I).
  destruct (clear_spec h p n E Npk) as (Lc & Ec & Oc). cbn in Ua, Up.
  assert (X : exists h' new n',
    match f x with
    | Some items => each_with (fun y h => let* (h, _, _) := run (flatten_spec body) y h p in Fine h) items (clear h p)
    | None => Fine (clear h p) end = Fine h'
    /\ ext (clear h p) h' p (set_kids [] n) n' /\ kids n' = new /\ (forall k, lookup k (slots n') = lookup k (slots n))
    /\ shows_all (fun i => length h <= i) h' (Some p) new (content (ForEach f body) x)).
  { cbn [content]. destruct (f x) as [items|].
    - destruct (R_each body (R_all body) Ua items (clear h p) p _ Up Ec) as (h' & new & n' & A & B & C & D & V).
      exists h', new, n'. rewrite Lc in V. auto.
    - exists (clear h p), [], (set_kids [] n). split; [reflexivity|]. split; [apply ext_refl; exact Ec|]. repeat (split; [reflexivity|]). constructor. }
  destruct X as (h' & new & n' & A & B & C & D & V). pose proof (e_len _ _ _ _ _ B) as G. rewrite Lc in G.
  exists h', [REach p f (flatten_spec body)], new, (seq (length h) (length h' - length h)), n'.
  split; [cbn [update_with update_node]; rewrite A; reflexivity|].
  split; [exact G|].
  split. { intros i Hi Hp Hn. rewrite (e_old _ _ _ _ _ B) by lia. apply Oc; [exact Hp|]. intros I. apply Hn. apply Inc. exact I. }
  split; [exact (e_p _ _ _ _ _ B)|]. split; [exact (e_parent _ _ _ _ _ B)|]. split; [exact (e_kind _ _ _ _ _ B)|].
  split; [cbn; rewrite app_nil_r; exact C|].
  split; [intros i I; apply in_seq in I; right; lia|]. split; [apply seq_NoDup|].
  assert (Y : forall i, In i new -> length h <= i < length h') by (intros i I; exact (shows_all_P _ _ _ _ _ V i I)).
  split. { constructor; [intros i I; apply in_seq; specialize (Y i I); lia|]. intros i I. apply nth_error_Some. specialize (Y i I). lia. }
  split; [intros k _; apply D|]. split; [cbn; tauto|].
  intros _. eapply shows_all_frame; [|exact V]. intros i Hi Hl; cbn beta in *. split; [reflexivity|]. apply in_seq. lia.
Qed.

(* all alternatives are updated, the one shown and the others *)
Lemma UA alts : Forall UC alts -> forall x h p t b j rss cs Fs,
  lalts h p t b j alts rss cs Fs -> Forall (fun a => updatable a /\ lasting a) alts -> Forall (fun a => updates a x) alts ->
  NoDup (List.concat Fs) -> (forall i, In i (List.concat Fs) -> i < length h) ->
  exists h' rss' Fs',
    update_all_with (update_with (update_node x)) rss h = Fine (h', rss') /\ length h <= length h'
    /\ (forall i, i < length h -> ~ In i (List.concat Fs) -> nth_error h' i = nth_error h i)
    /\ (forall i, In i (List.concat Fs') -> In i (List.concat Fs) \/ length h <= i < length h') /\ NoDup (List.concat Fs')
    /\ lalts h' p t b j alts rss' cs Fs'
    /\ (forall k a id, nth_error alts k = Some a -> nth_error cs k = Some id -> j + k = b -> resolves a x ->
        shows_all (fun i => In i (List.concat Fs')) h' (Some p) [id] (content a x)).
Proof.
  induction 1 as [|a l Ua _ IH]; intros x h p t b j rss cs Fs L W Up ND Bd.
  - inversion L; subst. exists h, [], []. split; [reflexivity|]. split; [lia|]. split; [reflexivity|]. split; [cbn; tauto|]. split; [constructor|].
    split; [constructor|]. intros [|k]; discriminate.
  - inversion L as [|? ? ? ? ? ? q rs0 rss0 id cs0 F0 Fs0 Hq L1 L2]; subst. clear L.
    inversion W as [|? ? [W1 La] W2]; subst. inversion Up as [|? ? Up1 Up2]; subst. cbn in ND, Bd.
    assert (ND1 := NoDup_app_remove_r _ _ ND). assert (ND2 := NoDup_app_remove_l _ _ ND).
    destruct (Ua x h q t rs0 [id] F0 (lasting_solid _ La) L1 W1 Up1 ND1) as (h1 & rs1 & F1 & A1 & G1 & C1 & I1 & N1 & L1' & V1).
    { intros i I. apply Bd. apply in_or_app; auto. }
    assert (L2h : lalts h1 p t b (S j) l rss0 cs0 Fs0).
    { apply (proj2 (proj2 (live_frame h h1))); [exact L2|]. intros i I. apply C1; [apply Bd; apply in_or_app; auto|].
      intros J. exact (NoDup_app_disj _ _ _ ND J I). }
    destruct (IH x h1 p t b (S j) rss0 cs0 Fs0 L2h W2 Up2 ND2) as (h2 & rss2 & Fs2 & A2 & G2 & C2 & I2 & N2 & L2' & V2).
    { intros i I. assert (i < length h) by (apply Bd; apply in_or_app; auto). lia. }
    assert (Fr : forall i, In i F1 -> nth_error h2 i = nth_error h1 i).
    { intros i I. specialize (I1 i I). apply C2.
      - destruct I1 as [J|J]; [|lia]. assert (i < length h) by (apply Bd; apply in_or_app; auto). lia.
      - intros J. destruct I1 as [I1|I1]; [exact (NoDup_app_disj _ _ _ ND I1 J)|].
        assert (i < length h) by (apply Bd; apply in_or_app; auto). lia. }
    exists h2, (rs1 :: rss2), (F1 :: Fs2). split; [|split; [lia|]].
    { cbn [update_all_with]. rewrite A1. cbn [obind]. rewrite A2. reflexivity. }
    split. { intros i Hi Hn. cbn in Hn. rewrite in_app_iff in Hn. rewrite C2 by (try tauto; lia). apply C1; tauto. }
    split. { cbn. intros i I. rewrite in_app_iff in *. destruct I as [I|I]; [apply I1 in I|apply I2 in I]; intuition lia. }
    split.
    { cbn. apply NoDup_app_intro; auto. intros i J1 J2. specialize (I1 i J1). specialize (I2 i J2).
      destruct I1 as [I1|I1], I2 as [I2|I2].
      - exact (NoDup_app_disj _ _ _ ND I1 I2).
      - assert (i < length h) by (apply Bd; apply in_or_app; auto). lia.
      - assert (i < length h) by (apply Bd; apply in_or_app; auto). lia.
      - lia. }
    split. { econstructor; [exact Hq|apply (proj1 (live_frame h1 h2)); assumption|exact L2']. }
    intros [|k] a' id' Ea Eid Ej Rs; cbn in Ea, Eid.
    + injection Ea as <-. injection Eid as <-. rewrite Nat.add_0_r in Ej. subst b. rewrite Nat.eqb_refl in Hq. subst q.
      eapply shows_all_frame; [|exact (V1 Rs)]. intros i Hi Hl; cbn beta in *. split; [apply Fr; exact Hi|cbn; apply in_or_app; auto].
    + eapply shows_all_frame; [|apply (V2 k a' id' Ea Eid); [lia|exact Rs]]. intros i Hi Hl; cbn beta in *.
      split; [reflexivity|cbn; apply in_or_app; auto].
Qed.

Lemma swap_single new old l1 l2 : ~ In old l1 -> ~ In old l2 ->
  map (fun y => if Nat.eqb y old then new else y) (l1 ++ [old] ++ l2) = l1 ++ [new] ++ l2.
Proof.
  intros N1 N2. rewrite map_app. cbn. rewrite Nat.eqb_refl.
  assert (X : forall l, ~ In old l -> map (fun y => if Nat.eqb y old then new else y) l = l).
  { induction l as [|a l IH]; cbn; intros N; [reflexivity|]. destruct (Nat.eqb_spec a old); [subst; tauto|]. rewrite IH by tauto. reflexivity. }
  rewrite (X _ N1), (X _ N2). reflexivity.
Qed.
Lemma swap_nodes h p n new old m o t tn pre post :
  nth_error h p = Some n -> kids n = pre ++ [old] ++ post -> ~ In old (pre ++ post) ->
  nth_error h old = Some o -> parent o = Some p -> nth_error h new = Some m -> (parent m = None \/ parent m = Some t) ->
  nth_error h t = Some tn -> new <> old -> new <> p -> old <> p -> t <> p -> t <> new -> t <> old ->
  exists h', replace_child h p new old = Fine h' /\ length h' = length h
    /\ nth_error h' p = Some (set_kids (pre ++ [new] ++ post) n) /\ nth_error h' old = Some (set_parent None o)
    /\ nth_error h' new = Some (set_parent (Some p) m) /\ (exists tn', nth_error h' t = Some tn')
    /\ forall i, i <> p -> i <> old -> i <> new -> i <> t -> nth_error h' i = nth_error h i.
Proof.
  intros Ep K No Eo Po En Pm Et N1 N2 N3 N4 N5 N6. rewrite in_app_iff in No.
  unfold replace_child, parent_of. rewrite Eo, Po, Nat.eqb_refl. destruct (Nat.eqb_spec new old); [tauto|].
  assert (X : exists m', nth_error (detach h new) new = Some m' /\ set_parent (Some p) m' = set_parent (Some p) m
      /\ length (detach h new) = length h /\ (exists tn', nth_error (detach h new) t = Some tn')
      /\ forall i, i <> new -> i <> t -> nth_error (detach h new) i = nth_error h i).
  { unfold detach, parent_of. rewrite En. destruct Pm as [-> | ->].
    - exists m. split; [exact En|]. split; [reflexivity|]. split; [reflexivity|]. split; [eauto|auto].
    - eexists. split; [apply nth_modify_same; rewrite nth_modify_other by congruence; exact En|]. split; [reflexivity|].
      split; [rewrite !length_modify; reflexivity|].
      split; [eexists; rewrite nth_modify_other by congruence; apply nth_modify_same; exact Et|].
      intros i A B. rewrite !nth_modify_other by congruence. reflexivity. }
  destruct X as (m' & Em' & Sm & Ld & (tn' & Et') & Od). set (g := detach h new) in *.
  eexists. split; [reflexivity|]. rewrite !length_modify. split; [exact Ld|].
  split; [|split; [|split; [|split]]].
  - do 2 rewrite nth_modify_other by congruence. erewrite nth_modify_same; [|rewrite Od by congruence; exact Ep].
    unfold swap_kid. rewrite K, swap_single by tauto. reflexivity.
  - rewrite nth_modify_other by congruence. erewrite nth_modify_same; [reflexivity|].
    rewrite nth_modify_other by congruence. rewrite Od by congruence. exact Eo.
  - erewrite nth_modify_same; [rewrite Sm; reflexivity|]. do 2 rewrite nth_modify_other by congruence. exact Em'.
  - exists tn'. do 3 rewrite nth_modify_other by congruence. exact Et'.
  - intros i A B C D. do 3 rewrite nth_modify_other by congruence. apply Od; assumption.
Qed.

Lemma UG_match c alts : Forall UC alts -> UG (Match c alts).
Proof.
  intros IH x h p n rs ids F pre post L Ua Up E K ND Np Bd Dj Ea.
  inversion L; subst; [discriminate|]. clear L.
  match goal with X : nth_error h temp = Some _ |- _ => rename X into Et end.
  match goal with X : nth_error cs b = Some id |- _ => rename X into Eid end.
  match goal with X : lalts _ _ _ _ _ _ _ _ _ |- _ => rename X into La end.
  cbn in Ua, Up. destruct Up as [(i & Ci & Ii) Up]. apply fold_Forall in Ua. apply fold_Forall in Up.
  assert (Ls : Forall lasting alts) by (eapply Forall_impl; [|exact Ua]; cbn; tauto).
  inversion ND as [|? ? Nt NF]; subst. cbn in Np, Bd.
  destruct (lalts_length _ _ _ _ _ _ _ _ _ La) as [Lcs LFs].
  assert (Lb : b < length alts) by (rewrite <- Lcs; apply (nth_lt _ _ _ Eid)).
  destruct (lalts_nth _ _ _ _ _ _ _ _ _ b La Ls Lb) as (id0 & Fb & o & M1 & M2 & M3 & M4 & M5).
  assert (id0 = id) as -> by congruence. cbn [plus] in M5. rewrite Nat.eqb_refl in M5.
  destruct (lalts_nth _ _ _ _ _ _ _ _ _ i La Ls Ii) as (new & Fi & m & Q1 & Q2 & Q3 & Q4 & Q5). cbn [plus] in Q5.
  assert (Iid : In id (List.concat Fs)) by exact (in_concat_nth _ _ _ _ M2 M3).
  assert (Inew : In new (List.concat Fs)) by exact (in_concat_nth _ _ _ _ Q2 Q3).
  assert (X : exists h1 n1 tn1, update_branch h p (Some b) (map Some cs) (Some i) = Fine h1 /\ length h1 = length h
     /\ (forall j, j <> p -> ~ In j (temp :: List.concat Fs) -> nth_error h1 j = nth_error h j)
     /\ nth_error h1 p = Some n1 /\ n1 = set_kids (pre ++ [new] ++ post) n /\ nth_error h1 temp = Some tn1
     /\ lalts h1 p temp i 0 alts rss cs Fs).
  { cbn [update_branch]. destruct (Nat.eqb_spec i b) as [->|Nib].
    - assert (new = id) as -> by congruence. exists h, n, tn. split; [reflexivity|]. split; [reflexivity|]. split; [reflexivity|].
      split; [exact E|]. split; [rewrite <- K; destruct n; reflexivity|]. split; [exact Et|exact La].
    - rewrite !nth_error_map, Q1, Eid. cbn [option_map].
      assert (Nno : new <> id). { intros ->. apply Nib. eapply concat_disjoint; eauto. }
      destruct (swap_nodes h p n new id m o temp tn pre post E K) as (h1 & S1 & S2 & S3 & S4 & S5 & (tn1 & S6) & S7); auto.
      { intros J. apply (Dj id J). cbn; auto. }
      { intros ->. tauto. }
      { intros ->. tauto. }
      { intros ->. tauto. }
      { intros ->. tauto. }
      exists h1, (set_kids (pre ++ [new] ++ post) n), tn1. split; [exact S1|]. split; [exact S2|].
      split. { intros j Jp Jn. cbn in Jn. apply S7; [exact Jp| | |]; intros ->; tauto. }
      split; [exact S3|]. split; [reflexivity|]. split; [exact S6|].
      eapply lalts_move; [exact La|exact Ls|exact NF|]. intros k id' Fk n' R1 R2 R3. cbn [plus].
      assert (Lk : k < length alts) by (rewrite <- Lcs; apply (nth_lt _ _ _ R1)).
      destruct (lalts_nth _ _ _ _ _ _ _ _ _ k La Ls Lk) as (id1 & Fk1 & n1 & U1 & U2 & U3 & _).
      assert (id1 = id') as -> by congruence. assert (Fk1 = Fk) as -> by congruence.
      assert (Dk : forall y, In y Fk -> y <> p /\ y <> temp).
      { intros y Y. pose proof (in_concat_nth _ _ _ _ R2 Y). split; intros ->; tauto. }
      destruct (Nat.eqb_spec k i) as [->|Nki]; [|destruct (Nat.eqb_spec k b) as [->|Nkb]].
      + assert (id' = new) as -> by congruence. assert (n' = m) as -> by congruence. assert (Fk = Fi) as -> by congruence. split; [|exact S5].
        intros y Y Ny. destruct (Dk y Y). apply S7; auto. intros ->. apply Nib. exact (concat_disjoint _ _ _ _ _ _ NF R2 M2 Y M3).
      + assert (id' = id) as -> by congruence. assert (n' = o) as -> by congruence. assert (Fk = Fb) as -> by congruence. split; [|exact S4].
        intros y Y Ny. destruct (Dk y Y). apply S7; auto. intros ->. apply Nib. symmetry. exact (concat_disjoint _ _ _ _ _ _ NF R2 Q2 Y Q3).
      + assert (Z : forall y, In y Fk -> nth_error h1 y = nth_error h y).
        { intros y Y. destruct (Dk y Y). apply S7; auto; intros ->.
          - apply Nkb. exact (concat_disjoint _ _ _ _ _ _ NF R2 M2 Y M3).
          - apply Nki. exact (concat_disjoint _ _ _ _ _ _ NF R2 Q2 Y Q3). }
        split; [auto|]. rewrite set_parent_same, (Z id' U3). exact R3. }
  destruct X as (h1 & n1 & tn1 & B1 & B2 & B3 & B4 & B5 & B6 & B7).
  destruct (UA alts IH x h1 p temp i 0 rss cs Fs B7 Ua Up NF) as (h2 & rss2 & Fs2 & A2 & G2 & C2 & I2 & N2 & L2 & V2).
  { intros j J. rewrite B2. apply Bd. auto. }
  assert (Lp := nth_lt _ _ _ E). assert (Lt := nth_lt _ _ _ Et).
  assert (P2 : nth_error h2 p = Some n1). { rewrite C2; [exact B4|lia|tauto]. }
  exists h2, [RBranch p (Some i) (map Some cs) c rss2], [new], (temp :: List.concat Fs2), n1.
  split. { cbn [update_with update_node]. rewrite Ci. rewrite B1. cbn [obind]. rewrite A2. reflexivity. }
  split; [lia|].
  split. { intros j J1 J2 J3. rewrite C2; [apply B3; assumption|lia|]. cbn in J3. tauto. }
  split; [exact P2|]. subst n1. split; [reflexivity|]. split; [reflexivity|]. split; [reflexivity|].
  rewrite B2 in I2.
  split. { intros j [<-|J]; [cbn; auto|]. apply I2 in J. cbn. tauto. }
  split. { constructor; [|exact N2]. intros J. apply I2 in J. destruct J as [J|J]; [tauto|lia]. }
  split. { eapply LMatch; [rewrite C2; [exact B6|lia|exact Nt]|exact Q1|exact L2]. }
  split; [reflexivity|]. split; [cbn; tauto|].
  intros Rs. cbn [resolves] in Rs. cbn [content]. rewrite Ci in Rs |- *. rewrite nth_of_map in Rs. rewrite nth_of_map.
  destruct (nth_error alts i) as [a|] eqn:Eal; [|apply nth_error_None in Eal; lia].
  eapply shows_all_frame; [|exact (V2 i a new Eal Q1 eq_refl Rs)]. intros j Hj Hl; cbn beta in *. split; [reflexivity|cbn; auto].
Qed.

Theorem U_all s : UG s /\ UC s.
Proof.
  induction s as [nm l IH|k v|k f|nm f|t|b|c alts IH|f body IH|nm| |] using spec_ind'.
  - assert (X : UC (Element nm l)) by (apply UC_element; eapply Forall_impl; [|exact IH]; cbn; tauto).
    split; [apply UG_of_UC; [exact I|exact X]|exact X].
  - split; [eapply UG_slot; reflexivity|intros ? ? ? ? ? ? ? []].
  - split; [eapply UG_slot; reflexivity|intros ? ? ? ? ? ? ? []].
  - split; [eapply UG_slot; reflexivity|intros ? ? ? ? ? ? ? []].
  - split; [apply UG_of_UC; [exact I|]|]; apply UC_text.
  - split; [apply UG_of_UC; [exact I|]|]; (apply UC_still; exact I).
  - split; [|intros ? ? ? ? ? ? ? []]. apply UG_match. eapply Forall_impl; [|exact IH]; cbn; tauto.
  - split; [apply UG_each|intros ? ? ? ? ? ? ? []].
  - split; [apply UG_of_UC; [exact I|]|]; (apply UC_still; exact I).
  - split; [apply UG_of_UC; [exact I|]|]; (apply UC_still; exact I).
  - split; [apply UG_of_UC; [exact I|]|]; (apply UC_still; exact I).
Qed.
End Proofs.
