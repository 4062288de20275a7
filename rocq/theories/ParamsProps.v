(* C54: parameter views behave like lists. *)
From Verif Require Import Base ParamsModel.

(* the same program on plain lists *)
Fixpoint listed (e : expr) : list param :=
  match e with Empty => [] | Append x e => listed e ++ [x] | Concat e1 e2 => listed e1 ++ listed e2 end.
(* a value without a state: there is nothing to remember *)
Definition stateless (x : param) : Prop := match x with Ref _ _ => True | Val _ st => st = fresh end.
Definition is_ref (x : param) : bool := match x with Ref _ _ => true | _ => false end.
Definition forget (x : param) : param := match x with Val T _ => Val T fresh | r => r end.

(* the view p stands for the list l *)
Definition Stands (p : view) (l : list param) : Prop :=
  length (get_storage p) = storage_size p /\ (storage p = None <-> storage_size p = 0) /\
  map (hydrate p) (xs p) = map (fun x => Some (forget x)) l /\ storage_size p = length (filter is_ref l).

Lemma all_some_map {A} (l : list A) : all_some (map Some l) = Some l.
Proof. induction l as [|x l IH]; cbn; [reflexivity|]. rewrite IH. reflexivity. Qed.

Lemma hydrate_app n l p b x y : hydrate p x = Some y -> hydrate (mk_view n l (Some (get_storage p ++ b))) x = Some y.
Proof.
  destruct x as [pos T|T]; cbn; [|auto]. unfold get_storage. destruct (storage p) as [a|]; [|discriminate].
  destruct (nth_error a pos) as [v|] eqn:E; [|discriminate]. intros H. rewrite nth_error_app1, E; [exact H|]. apply nth_error_Some. congruence.
Qed.

Lemma hydrate_offset n l p a x y : hydrate p x = Some y -> hydrate (mk_view n l (Some (a ++ get_storage p))) (offset_entry (length a) x) = Some y.
Proof.
  destruct x as [pos T|T]; cbn; [|auto]. unfold get_storage. destruct (storage p) as [b|]; [|discriminate].
  intros H. rewrite nth_error_app2 by lia. replace (pos + length a - length a) with pos by lia. exact H.
Qed.

Lemma map_hydrate (p : view) (f : entry -> entry) (q : view) l r :
  (forall x y, hydrate p x = Some y -> hydrate q (f x) = Some y) -> map (hydrate p) l = map (fun x => Some (forget x)) r ->
  map (hydrate q) (map f l) = map (fun x => Some (forget x)) r.
Proof.
  intros H. revert r. induction l as [|x l IH]; intros [|y r] E; try discriminate; [reflexivity|]. cbn in *.
  injection E as E1 E2. rewrite (H _ _ E1), (IH _ E2). reflexivity.
Qed.

Lemma append_stands x p l : Stands p l -> exists q, params_view_append x p = Some q /\ Stands q (l ++ [x]).
Proof.
  intros (HL & HN & HM & HC). unfold params_view_append, construct. assert (C : length (filter is_ref (l ++ [x])) = storage_size p + (if is_ref x then 1 else 0)).
  { rewrite filter_app, app_length, HC. destruct x; reflexivity. }
  destruct (Nat.ltb_spec 0 (storage_size p)) as [L|L].
  - destruct (storage p) as [a|] eqn:E. 2:{ exfalso. assert (storage_size p = 0) by (apply HN; reflexivity). lia. }
    assert (G : get_storage p = a) by (unfold get_storage; rewrite E; reflexivity). rewrite G in HL. destruct x as [T v|T v].
    + rewrite app_length, HL. cbn [length]. rewrite Nat.eqb_refl. eexists. split; [reflexivity|]. unfold Stands. cbn [storage_size storage xs].
      split; [cbn; rewrite app_length, HL; reflexivity|]. split; [split; [discriminate|lia]|]. split; [|rewrite C; reflexivity].
      rewrite !map_app. f_equal.
      * rewrite <- (map_id (xs p)). apply (map_hydrate p (fun x => x)); [|exact HM]. intros x y Hx. rewrite <- G. apply hydrate_app. exact Hx.
      * cbn. rewrite nth_error_app2, HL, Nat.sub_diag by lia. reflexivity.
    + rewrite HL, Nat.eqb_refl. eexists. split; [reflexivity|]. unfold Stands. cbn [storage_size storage xs].
      split; [cbn; exact HL|]. split; [split; [discriminate|lia]|]. split; [|rewrite C; cbn; lia].
      rewrite !map_app. f_equal. rewrite <- (map_id (xs p)). apply (map_hydrate p (fun x => x)); [|exact HM].
      intros x y Hx. rewrite <- (app_nil_r a), <- G. apply hydrate_app. exact Hx.
  - assert (S0 : storage_size p = 0) by lia. assert (E : storage p = None) by (apply HN; exact S0). destruct x as [T v|T v].
    + cbn [length Nat.eqb]. eexists. split; [reflexivity|]. unfold Stands. cbn [storage_size storage xs]. split; [reflexivity|]. split; [split; discriminate|].
      split; [|rewrite C, S0; reflexivity]. rewrite !map_app. f_equal. rewrite <- (map_id (xs p)). apply (map_hydrate p (fun x => x)); [|exact HM].
      intros x y Hx. destruct x; cbn in *; [rewrite E in Hx; discriminate|exact Hx].
    + eexists. split; [reflexivity|]. unfold Stands. cbn [storage_size storage xs]. split; [cbn; lia|]. split; [split; auto|].
      split; [|rewrite C; cbn; lia]. rewrite !map_app. f_equal. rewrite <- (map_id (xs p)). apply (map_hydrate p (fun x => x)); [|exact HM].
      intros x y Hx. destruct x; cbn in *; [rewrite E in Hx; discriminate|exact Hx].
Qed.

Lemma concat_stands p q l r : Stands p l -> Stands q r -> exists v, params_view_concat p q = Some v /\ Stands v (l ++ r).
Proof.
  intros (HL & HN & HM & HC) (HL' & HN' & HM' & HC'). unfold params_view_concat, construct.
  assert (C : length (filter is_ref (l ++ r)) = storage_size p + storage_size q) by (rewrite filter_app, app_length; congruence).
  assert (W : forall n l', map (hydrate (mk_view n l' (Some (get_storage p ++ get_storage q)))) (xs p ++ map (offset_entry (storage_size p)) (xs q)) = map (fun x => Some (forget x)) (l ++ r)).
  { intros n l'. rewrite !map_app. f_equal.
    - rewrite <- (map_id (xs p)). apply (map_hydrate p (fun x => x)); [|exact HM]. intros x y Hx. apply hydrate_app. exact Hx.
    - apply (map_hydrate q); [|exact HM']. intros x y Hx. rewrite <- HL. apply hydrate_offset. exact Hx. }
  destruct (Nat.ltb_spec 0 (storage_size p + storage_size q)) as [L|L].
  - rewrite app_length, HL, HL', Nat.eqb_refl. eexists. split; [reflexivity|]. unfold Stands. cbn [storage_size storage xs].
    split; [cbn; rewrite app_length; lia|]. split; [split; [discriminate|lia]|]. split; [apply W|symmetry; exact C].
  - eexists. split; [reflexivity|]. unfold Stands. cbn [storage_size storage xs]. split; [reflexivity|]. split; [split; auto|]. split; [|lia].
    rewrite <- (W 0 []). apply map_ext. intros x. assert (S0 : storage_size p = 0) by lia. assert (S1 : storage_size q = 0) by lia.
    unfold get_storage. rewrite (proj2 HN S0), (proj2 HN' S1). destruct x as [[|pos] T|T]; reflexivity.
Qed.

Lemma eval_stands e : exists p, eval e = Some p /\ Stands p (listed e).
Proof.
  induction e as [|x e (p & E & S)|e1 (p & E & S) e2 (q & E' & S')]; cbn.
  - exists make_params_view. split; [reflexivity|]. repeat split.
  - rewrite E. apply append_stands. exact S.
  - rewrite E, E'. apply concat_stands; assumption.
Qed.

(* every program compiles, and unpacks to its list: references to the same objects, with their types, in order *)
Theorem C54_list : forall e, Forall stateless (listed e) -> exists p, eval e = Some p /\ unpack p = Some (listed e).
Proof.
  intros e F. destruct (eval_stands e) as (p & E & _ & _ & HM & _). exists p. split; [exact E|]. unfold unpack. rewrite HM.
  rewrite <- (all_some_map (listed e)). f_equal. apply map_ext_in. intros x Hx. rewrite Forall_forall in F. apply F in Hx. destruct x; cbn in *; subst; reflexivity.
Qed.
(* only the references are stored *)
Theorem C54_size : forall e p, eval e = Some p -> length (get_storage p) = length (filter is_ref (listed e)).
Proof. intros e p E. destruct (eval_stands e) as (q & E' & HL & _ & _ & HC). replace p with q by congruence. congruence. Qed.

(* a value that has a state compiles too, and is replaced by a fresh one *)
Theorem C54_stateful_refuted : exists e p l, eval e = Some p /\ unpack p = Some l /\ l <> listed e.
Proof. exists (Append (Val 3 7%N) Empty). do 2 eexists. split; [reflexivity|]. split; [reflexivity|]. discriminate. Qed.
Theorem C54_stateful : forall e, exists p, eval e = Some p /\ unpack p = Some (map forget (listed e)).
Proof.
  intros e. destruct (eval_stands e) as (p & E & _ & _ & HM & _). exists p. split; [exact E|]. unfold unpack. rewrite HM.
  rewrite <- all_some_map, map_map. reflexivity.
Qed.
Print Assumptions C54_list.
Print Assumptions C54_size.
Print Assumptions C54_stateful_refuted.
Print Assumptions C54_stateful.

(* example: references and values mixed, concatenated both ways *)
Definition left_ := Append (Ref 2 200%N) (Append (Val 5 fresh) (Append (Ref 1 100%N) Empty)).
Definition right_ := Append (Ref 3 300%N) (Append (Val 6 fresh) Empty).
Example concatenated : option_map unpack (eval (Concat left_ (Concat right_ left_)))
  = Some (Some [Ref 1 100; Val 5 0; Ref 2 200; Val 6 0; Ref 3 300; Ref 1 100; Val 5 0; Ref 2 200]%N).
Proof. vm_compute. reflexivity. Qed.
Example positions : option_map xs (eval (Concat left_ right_)) = Some [Placeholder 0 1; Type_ 5; Placeholder 1 2; Type_ 6; Placeholder 2 3].
Proof. vm_compute. reflexivity. Qed.
