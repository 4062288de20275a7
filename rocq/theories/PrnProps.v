(* C107: printed values can be told apart. *)
From Coq Require Import String.
From Verif Require Import Base PrnModel PrnSpec.
Open Scope N_scope.

(* what comes behind the text of a value inside of another *)
Definition stop (r : list N) : Prop :=
  match r with [] => True | c :: r => punctuation c /\ c <> 61 \/ c = 32 /\ match r with d :: _ => d = 61 | [] => False end end.

Lemma leaf_stop t t' r s : Forall (fun c => ~ punctuation c) t -> Forall (fun c => ~ punctuation c) t' -> stop r -> stop s -> t ++ r = t' ++ s -> t = t' /\ r = s.
Proof.
  revert t'. induction t as [|c t IH]; intros [|c' t'] F F' R S E; cbn [app] in E.
  - auto.
  - exfalso. subst r. inversion F' as [|? ? A B e]; subst. cbn [stop app] in R. destruct R as [[R _]|[-> R]]; [contradiction|].
    destruct t' as [|d t']; cbn [app] in R.
    + destruct s as [|d s]; [contradiction|]. subst d. cbn [stop] in S. destruct S as [[_ S]|[S _]]; [congruence|discriminate].
    + subst d. inversion B as [|? ? B1 B2 e]; subst. apply B1. unfold punctuation. auto.
  - exfalso. subst s. inversion F as [|? ? A B e]; subst. cbn [stop app] in S. destruct S as [[S _]|[-> S]]; [contradiction|].
    destruct t as [|d t]; cbn [app] in S.
    + destruct r as [|d r]; [contradiction|]. subst d. cbn [stop] in R. destruct R as [[_ R]|[R _]]; [congruence|discriminate].
    + subst d. inversion B as [|? ? B1 B2 e]; subst. apply B1. unfold punctuation. auto.
  - injection E as -> E. inversion F; inversion F'; subst. destruct (IH t') as [-> ->]; auto.
Qed.

Fixpoint size (v : val) : nat :=
  match v with
  | Seq l | Set_ l => S (fold_right (fun x n => size x + n)%nat 0%nat l)
  | Just v => S (size v)
  | Map l => S (fold_right (fun p n => size (fst p) + size (snd p) + n)%nat 0%nat l)
  | Pair a b => S (size a + size b)
  | _ => 1%nat
  end.

Definition told (u : val) : Prop := forall v r s, type_of u = type_of v -> plain u -> plain v -> stop r -> stop s -> print u ++ r = print v ++ s -> u = v /\ r = s.

Ltac lit := change (bs ", ") with [44; 32] in *; change (bs " => ") with [32; 61; 62; 32] in *; change (bs "(") with [40] in *; change (bs ")") with [41] in *; change (bs "{") with [123] in *; change (bs "}") with [125] in *;
  change (bs "just(") with [106; 117; 115; 116; 40] in *; change (bs "nothing") with [110; 111; 116; 104; 105; 110; 103] in *.
(* a list up to a closing bracket *)
Lemma list_told l c (C : punctuation c /\ c <> 61 /\ c <> 44) : Forall told l -> forall l' r s, map type_of l = map type_of l' -> Forall plain l -> Forall plain l' ->
  joined (map print l) ++ c :: r = joined (map print l') ++ c :: s -> l = l' /\ r = s.
Proof.
  intros H. assert (SC : forall r, stop (c :: r)) by (intros r; left; tauto). assert (S44 : forall r, stop (44 :: r)) by (intros r; left; unfold punctuation; split; [auto|discriminate]).
  induction H as [|u l T H IH]; intros [|v l'] r s E P P' Q; try discriminate.
  - cbn in Q. injection Q as ->. auto.
  - cbn [map] in E. injection E as E1 E2. inversion P as [|? ? P1 P2 e]; subst. inversion P' as [|? ? P1' P2' e]; subst.
    destruct l as [|u2 l], l' as [|v2 l']; try discriminate; cbn [map joined] in Q.
    + apply (T v) in Q as [-> Q]; auto. injection Q as ->. auto.
    + rewrite <- !app_assoc in Q. apply (T v) in Q as [-> Q]; auto; lit; cbn [app]; auto. lit; cbn [app] in Q. injection Q as Q. destruct (IH (v2 :: l') r s E2 P2 P2' Q) as [-> ->]. auto.
Qed.
Lemma map_told l : Forall (fun p => told (fst p) /\ told (snd p)) l -> forall l' r s, map (fun p => (type_of (fst p), type_of (snd p))) l = map (fun p => (type_of (fst p), type_of (snd p))) l' ->
  Forall (fun p => plain (fst p) /\ plain (snd p)) l -> Forall (fun p => plain (fst p) /\ plain (snd p)) l' ->
  joined (map (fun p => print (fst p) ++ bs " => " ++ print (snd p)) l) ++ 125 :: r = joined (map (fun p => print (fst p) ++ bs " => " ++ print (snd p)) l') ++ 125 :: s -> l = l' /\ r = s.
Proof.
  assert (SC : forall r, stop (125 :: r)) by (intros r; left; unfold punctuation; split; [auto|discriminate]).
  assert (S44 : forall r, stop (44 :: r)) by (intros r; left; unfold punctuation; split; [auto|discriminate]). assert (SA : forall r, stop (32 :: 61 :: r)) by (intros r; right; auto).
  intros H. induction H as [|[a b] l [TA TB] H IH]; intros [|[a' b'] l'] r s E P P' Q; try discriminate.
  - cbn in Q. injection Q as ->. auto.
  - cbn [map fst snd] in *. injection E as E1 E2 E3. inversion P as [|? ? [P1 P2] P3 e]; subst. inversion P' as [|? ? [P1' P2'] P3' e]; subst. cbn [fst snd] in *.
    destruct l as [|u2 l], l' as [|v2 l']; try discriminate.
    + cbn [map joined fst snd] in Q. rewrite <- !app_assoc in Q. apply (TA a') in Q as [-> Q]; auto; lit; cbn [app]; auto. lit; cbn [app] in Q. injection Q as Q. apply (TB b') in Q as [-> Q]; auto. injection Q as ->. auto.
    + remember (u2 :: l) as L1 eqn:E1'. remember (v2 :: l') as L2 eqn:E2'. cbn [map fst snd] in Q. remember (map (fun p => print (fst p) ++ bs " => " ++ print (snd p)) L1) as J1 eqn:EJ1. remember (map (fun p => print (fst p) ++ bs " => " ++ print (snd p)) L2) as J2 eqn:EJ2.
      assert (K1 : exists y r, J1 = y :: r) by (subst; cbn [map]; eauto). assert (K2 : exists y r, J2 = y :: r) by (subst; cbn [map]; eauto).
      assert (J : forall x J, (exists y r, J = y :: r) -> joined (x :: J) = x ++ bs ", " ++ joined J) by (intros x J (y & r' & ->); reflexivity).
      rewrite (J _ J1 K1), (J _ J2 K2) in Q. clear J K1 K2.
      rewrite <- !app_assoc in Q. apply (TA a') in Q as [-> Q]; auto; lit; cbn [app]; auto. lit; cbn [app] in Q. injection Q as Q. apply (TB b') in Q as [-> Q]; auto. injection Q as Q. subst J1 J2.
      destruct (IH L2 r s E3 P3 P3' Q) as [-> ->]. auto.
Qed.
Lemma all_told : forall n u, (size u <= n)%nat -> told u.
Proof.
  induction n as [|n IH]; intros u L; [destruct u; cbn in L; lia|]. intros v r s E P P' R S Q.
  destruct u as [t|l|u| |l|t|a b|t|l]; destruct v as [t'|l'|v| |l'|t'|a' b'|t'|l']; cbn [type_of] in E; try discriminate; cbn [print] in Q; inversion P as [? A|? A|? A| |? A| |? ? A B| |? A]; subst; inversion P' as [? A'|? A'|? A'| |? A'| |? ? A' B'| |? A']; subst.
  - destruct (leaf_stop t t' r s) as [-> ->]; auto.
  - injection E as E. rewrite <- !app_assoc in Q. lit; cbn [app] in Q. injection Q as Q. destruct (list_told l 41 ltac:(unfold punctuation; intuition discriminate)) with (l' := l') (r := r) (s := s) as [-> ->]; auto.
    cbn [size] in L. clear - IH L. induction l as [|x l IHl]; constructor; cbn [fold_right] in L; [apply IH; lia|apply IHl; lia].
  - injection E as E. rewrite <- !app_assoc in Q. lit; cbn [app] in Q. injection Q as Q. cbn [size] in L. apply (IH u ltac:(lia) v _ _ E A A') in Q as [-> X]; try (left; unfold punctuation; split; [auto|discriminate]). injection X as ->. auto.
  - lit; cbn [app] in Q. injection Q as ->. auto.
  - injection E as E. rewrite <- !app_assoc in Q. lit; cbn [app] in Q. injection Q as Q. destruct (map_told l) with (l' := l') (r := r) (s := s) as [-> ->]; auto.
    cbn [size] in L. clear - IH L. induction l as [|x l IHl]; constructor; cbn [fold_right] in L; [split; apply IH; lia|apply IHl; lia].
  - injection E as ->. apply app_inv_head in Q. auto.
  - injection E as E1 E2. rewrite <- !app_assoc in Q. lit; cbn [app] in Q. injection Q as Q. cbn [size] in L.
    apply (IH a ltac:(lia) a' _ _ E1 A A') in Q as [-> X]; try (left; unfold punctuation; split; [auto|discriminate]). injection X as X.
    apply (IH b ltac:(lia) b' _ _ E2 B B') in X as [-> Y]; try (left; unfold punctuation; split; [auto|discriminate]). injection Y as ->. auto.
  - injection E as ->. apply app_inv_head in Q. auto.
  - injection E as E. rewrite <- !app_assoc in Q. lit; cbn [app] in Q. injection Q as Q. destruct (list_told l 125 ltac:(unfold punctuation; intuition discriminate)) with (l' := l') (r := r) (s := s) as [-> ->]; auto.
    cbn [size] in L. clear - IH L. induction l as [|x l IHl]; constructor; cbn [fold_right] in L; [apply IH; lia|apply IHl; lia].
Qed.

(* C107.  Two values of one type that are written in the same way are the same, if there is no punctuation in the texts of their leaves. *)
Theorem C107_told_partial : forall u v, type_of u = type_of v -> plain u -> plain v -> print u = print v -> u = v.
Proof.
  intros u v E P P' Q. destruct (all_told (size u) u (le_n _) v [] [] E P P' I I) as [X _]; [now rewrite !app_nil_r|exact X].
Qed.
Print Assumptions C107_told_partial.

(* with a comma in a string it is not so *)
Theorem C107_told_refuted : exists u v, type_of u = type_of v /\ print u = print v /\ u <> v.
Proof.
  exists (Seq [Leaf (bs "a, b"); Leaf (bs "c")]), (Seq [Leaf (bs "a"); Leaf (bs "b, c")]). split; [reflexivity|]. split; [reflexivity|]. intros H. discriminate H.
Qed.
Print Assumptions C107_told_refuted.
(* nor of values of different types: a pair and a tuple, or a string that looks like a tuple *)
Theorem C107_types_refuted : exists u v w, plain u /\ plain v /\ print u = print v /\ print w = print u /\ type_of u <> type_of v /\ type_of w <> type_of u /\ type_of w <> type_of v.
Proof.
  exists (Seq [Leaf (bs "1"); Leaf (bs "2")]), (Pair (Leaf (bs "1")) (Leaf (bs "2"))), (Leaf (bs "(1, 2)")).
  assert (F : forall c, c = 49 \/ c = 50 -> plain (Leaf [c])).
  { intros c C. constructor. constructor; [|constructor]. unfold punctuation. lia. }
  split; [constructor; constructor; [apply F; auto|constructor; [apply F; auto|constructor]]|]. split; [constructor; apply F; auto|].
  split; [reflexivity|]. split; [reflexivity|]. split; [discriminate|]. split; discriminate.
Qed.
Print Assumptions C107_types_refuted.

(* a string of Hana is written in quotes up to its first NUL, so that two of them (which are of different types) are told apart if they have none *)
Theorem C107_string : forall s, (~ In 0 s -> print (Str s) = 34 :: s ++ [34]) /\ forall t r, s = t ++ 0 :: r -> ~ In 0 t -> print (Str s) = 34 :: t ++ [34].
Proof.
  assert (A : forall s, ~ In 0 s -> c_str s = s).
  { induction s as [|c s IH]; intros H; cbn [c_str]; [reflexivity|]. destruct (N.eqb_spec c 0) as [->|_]; [destruct H; now left|]. f_equal. apply IH. intros X. apply H. now right. }
  intros s. split; [intros H; cbn [print]; now rewrite A|]. intros t r -> H. cbn [print]. replace (c_str (t ++ 0 :: r)) with t; [reflexivity|].
  induction t as [|c t IH]; cbn [c_str app]; [reflexivity|]. destruct (N.eqb_spec c 0) as [->|_]; [destruct H; now left|]. f_equal. apply IH. intros X. apply H. now right.
Qed.
Print Assumptions C107_string.
Example C107_string_ex : print (Str [97; 10; 98; 0; 99]) = [34; 97; 10; 98; 34].
Proof. reflexivity. Qed.

(* the two messages of main.cpp:100-110 that are printed *)
Definition tuple_message := Seq [Leaf (bs "This"); Leaf (bs "is a tuple with"); Leaf (bs "6"); Leaf (bs "elements"); Str (bs "I'm a compile time string!"); Leaf (bs "Last")].
Definition map_message := Map [(Str (bs "key_1"), Leaf (bs "value1")); (Str (bs "key_2"), Leaf (bs "value2")); (Str (bs "key_3"), Just (Leaf (bs "5"))); (Str (bs "key_4"), Nothing);
  (Str (bs "key_5"), Seq [Leaf (bs "1"); Leaf (bs "2"); Leaf (bs "3"); Leaf (bs "4"); Leaf (bs "tuple")])].
Example C107_ex : print tuple_message = bs "(This, is a tuple with, 6, elements, " ++ [34] ++ bs "I'm a compile time string!" ++ [34] ++ bs ", Last)" /\ plain tuple_message /\ plain map_message.
Proof.
  assert (F : forall t, forallb (fun c => negb ((c =? 44) || (c =? 41) || (c =? 125) || (c =? 61))) t = true -> plain (Leaf t)).
  { intros t H. constructor. apply Forall_forall. intros c Hc. rewrite forallb_forall in H. specialize (H c Hc). unfold punctuation. lia. }
  split; [reflexivity|]. split; [unfold tuple_message|unfold map_message]; repeat first [apply F; reflexivity|constructor; cbn [fst snd]].
Qed.
Example C107_ex_map : print map_message = [123; 34] ++ bs "key_1" ++ [34] ++ bs " => value1, " ++ [34] ++ bs "key_2" ++ [34] ++ bs " => value2, " ++ [34] ++ bs "key_3" ++ [34] ++ bs " => just(5), " ++ [34] ++ bs "key_4" ++ [34] ++ bs " => nothing, " ++
    [34] ++ bs "key_5" ++ [34] ++ bs " => (1, 2, 3, 4, tuple)}"
  /\ print (Set_ [Pair (Leaf (bs "a")) (Const (bs "7")); Seq []]) = bs "{(a, 7), ()}".
Proof. split; reflexivity. Qed.

(* what is printed is what the grammar says: brackets around sequences, braces around sets and maps *)
Theorem C107_shown : forall v, Shown v (print v).
Proof.
  assert (LI : forall l, Listed l (joined l)).
  { induction l as [|x l IH]; [constructor|]. destruct l as [|y l]; [constructor|]. change (joined (x :: y :: l)) with (x ++ [44; 32] ++ joined (y :: l)). constructor; [discriminate|exact IH]. }
  fix IH 1. intros [t|l|v| |l|t|a b|s|l]; cbn [print].
  - constructor.
  - apply (S_seq l (map print l)); [|apply LI]. induction l as [|x l F]; constructor; [apply IH|exact F].
  - apply (S_just v). apply IH.
  - exact S_nothing.
  - apply (S_map l (map (fun p => print (fst p) ++ bs " => " ++ print (snd p)) l)); [|apply LI].
    induction l as [|[x y] l F]; constructor; [|exact F]. cbn [fst snd]. exists (print x), (print y). split; [apply IH|]. split; [apply IH|reflexivity].
  - constructor.
  - apply (S_pair a b); apply IH.
  - assert (K : exists r, s = c_str s ++ r /\ ~ In 0 (c_str s) /\ (r = [] \/ hd 1 r = 0)).
    { induction s as [|c s [r (E & N & H)]]; [exists []; repeat split; auto|]. cbn. destruct (N.eqb_spec c 0) as [->|Hc].
      - exists (0 :: s). repeat split; auto.
      - exists r. split; [cbn; f_equal; exact E|]. split; [intros [->|HI]; auto|exact H]. }
    destruct K as (r & E & N & H). eapply S_str; eauto.
  - apply (S_set l (map print l)); [|apply LI]. induction l as [|x l F]; constructor; [apply IH|exact F].
Qed.
Print Assumptions C107_shown.
