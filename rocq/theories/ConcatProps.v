(* C45: string concatenation. *)
From Coq Require Import String.
From Verif Require Import Base ConcatModel.
Open Scope N_scope.

(* ---- Spec: the characters of a view ---- *)
Inductive Chars : view -> bytes -> Prop :=
| Ch_str s : Chars (Str s) s
| Ch_arr l s : CharsAll l s -> Chars (Arr l) s
with CharsAll : list view -> bytes -> Prop :=
| Ch_nil : CharsAll [] []
| Ch_cons v l s r : Chars v s -> CharsAll l r -> CharsAll (v :: l) (s ++ r).

(* p is the beginning of s from position i on *)
Definition prefix_at (p : bytes) (i : nat) (s : bytes) : Prop := exists pre post, s = pre ++ p ++ post /\ length pre = i.

(* ---- Proofs ---- *)
Fixpoint flat (v : view) : bytes := match v with Str s => s | Arr l => flat_map flat l end.

Section ViewInd.
Variable P : view -> Prop.
Hypothesis HS : forall s, P (Str s).
Hypothesis HA : forall l, Forall P l -> P (Arr l).
Fixpoint view_ind' (v : view) : P v :=
  match v with
  | Str s => HS s
  | Arr l => HA l ((fix go l : Forall P l := match l with [] => Forall_nil P | x :: r => Forall_cons x (view_ind' x) (go r) end) l)
  end.
End ViewInd.

Scheme chars_ind := Induction for Chars Sort Prop with charsall_ind := Induction for CharsAll Sort Prop.

Lemma chars_flat v s : Chars v s <-> s = flat v.
Proof.
  split.
  - intros H. induction H using chars_ind with (P0 := fun l s _ => s = flat_map flat l); cbn; congruence.
  - intros ->. induction v using view_ind'; cbn; [constructor|]. constructor. induction H; cbn; constructor; auto.
Qed.

Definition small (s : bytes) : Prop := N.of_nat (length s) < 2 ^ 64.

Lemma size_t_id n : n < 2 ^ 64 -> size_t n = n.
Proof. apply N.mod_small. Qed.

Lemma small_app s r : small (s ++ r) -> small s /\ small r.
Proof. unfold small. rewrite app_length. lia. Qed.

Lemma vlength_flat v : small (flat v) -> vlength v = N.of_nat (length (flat v)).
Proof.
  induction v using view_ind'; cbn; intros Hs; [reflexivity|]. induction H as [|v l Hv Hl IH]; cbn in *; [reflexivity|].
  destruct (small_app _ _ Hs) as [S1 S2]. rewrite Hv, IH by assumption. rewrite app_length, Nat2N.inj_add. apply size_t_id.
  unfold small in Hs. rewrite app_length in Hs. lia.
Qed.

Lemma put_app pre x post c i : length pre = N.to_nat i -> put i c (pre ++ x :: post) = Ok (pre ++ c :: post).
Proof.
  intros L. unfold put. rewrite app_length. cbn [length]. destruct (N.ltb_spec i (N.of_nat (length pre + S (length post)))); [|lia].
  f_equal. rewrite firstn_app, firstn_all2 by lia. replace (N.to_nat i - length pre)%nat with 0%nat by lia. cbn [firstn]. rewrite app_nil_r. f_equal. f_equal.
  rewrite skipn_app, skipn_all2 by lia. replace (S (N.to_nat i) - length pre)%nat with 1%nat by lia. reflexivity.
Qed.

Lemma put_end m i c : length m = N.to_nat i -> put i c m = UB.
Proof. intros L. unfold put. destruct (N.ltb_spec i (N.of_nat (length m))); [lia|reflexivity]. Qed.

Lemma std_copy_ok s : forall pre old post i, length pre = N.to_nat i -> length old = length s -> std_copy s i (pre ++ old ++ post) = Ok (pre ++ s ++ post).
Proof.
  induction s as [|c s IH]; intros pre [|o old] post i L1 L2; try discriminate; [reflexivity|]. cbn [std_copy app]. rewrite put_app by exact L1. cbn [bind].
  injection L2 as L2. specialize (IH (pre ++ [c]) old post (i + 1)). rewrite <- !app_assoc in IH. cbn [app] in IH. apply IH; [rewrite app_length; cbn; lia|exact L2].
Qed.

Lemma copy_ok v : small (flat v) -> forall pre old post i, length pre = N.to_nat i -> length old = length (flat v) ->
  copy v i (pre ++ old ++ post) = Ok (pre ++ flat v ++ post).
Proof.
  induction v using view_ind'; cbn; intros Hs; [apply std_copy_ok|]. induction H as [|v l Hv Hl IH]; cbn in *; intros pre old post i L1 L2.
  - destruct old; [reflexivity|discriminate].
  - destruct (small_app _ _ Hs) as [S1 S2]. rewrite app_length in L2.
    rewrite <- (firstn_skipn (length (flat v)) old). rewrite <- app_assoc. rewrite Hv; auto; [|rewrite firstn_length; lia]. cbn [bind].
    rewrite vlength_flat by exact S1. unfold advance. rewrite !app_length, skipn_length.
    destruct (N.leb_spec (i + N.of_nat (length (flat v))) (N.of_nat (length pre + (length (flat v) + (length old - length (flat v) + length post))))); [|lia].
    cbn [bind]. specialize (IH S2 (pre ++ flat v) (skipn (length (flat v)) old) post (i + N.of_nat (length (flat v)))). rewrite <- !app_assoc in IH.
    fold (copy_all copy). rewrite IH; [now rewrite <- app_assoc|rewrite app_length; lia|rewrite skipn_length; lia].
Qed.

Lemma get_app pre c post i : length pre = N.to_nat i -> get i (pre ++ c :: post) = Ok c.
Proof. intros L. unfold get. rewrite <- L, nth_error_app2, Nat.sub_diag by lia. reflexivity. Qed.
Lemma get_end m i : (length m <= N.to_nat i)%nat -> get i m = UB.
Proof. intros L. unfold get. now apply nth_error_None in L as ->. Qed.

(* comparing from a position inside: Ok true iff it is a prefix there; no undefined behaviour if long enough *)
Lemma std_equal_spec s : forall pre rest i, length pre = N.to_nat i ->
  (std_equal s i (pre ++ rest) = Ok true <-> exists post, rest = s ++ post) /\ ((length s <= length rest)%nat -> std_equal s i (pre ++ rest) <> UB).
Proof.
  induction s as [|c s IH]; intros pre rest i L; cbn [std_equal].
  - split; [|discriminate]. split; [intros _; now exists rest|reflexivity].
  - destruct rest as [|x rest].
    + rewrite get_end by (rewrite app_nil_r; lia). cbn. split; [|lia]. split; [discriminate|intros (post & E); discriminate].
    + rewrite get_app by exact L. cbn [bind]. destruct (N.eqb_spec c x) as [->|Hx].
      * destruct (IH (pre ++ [x]) rest (i + 1)) as [A B]; [rewrite app_length; cbn; lia|]. rewrite <- app_assoc in A, B. cbn [app] in A, B. split.
        -- rewrite A. split; intros (post & E); exists post; [now rewrite E|]. now injection E as ->.
        -- cbn. intros Hl. apply B. lia.
      * split; [|discriminate]. split; [discriminate|intros (post & E)]. cbn in E. congruence.
Qed.

Lemma equal_all_false l i m : equal_all equal l i m false = Ok false.
Proof. revert i; induction l; intros i; cbn; auto. Qed.

Lemma equal_spec v : small (flat v) -> forall pre rest i, length pre = N.to_nat i ->
  (equal v i (pre ++ rest) = Ok true <-> exists post, rest = flat v ++ post) /\ ((length (flat v) <= length rest)%nat -> equal v i (pre ++ rest) <> UB).
Proof.
  induction v using view_ind'; cbn [flat equal]; intros Hs; [apply std_equal_spec|]. induction H as [|v l Hv Hl IH]; intros pre rest i L.
  - cbn. split; [|discriminate]. split; [intros _; now exists rest|reflexivity].
  - cbn [flat_map] in *. destruct (small_app _ _ Hs) as [S1 S2]. cbn [equal_all]. destruct (Hv S1 pre rest i L) as [A B].
    rewrite vlength_flat by exact S1. fold (equal_all equal).
    destruct (equal v i (pre ++ rest)) as [[|]|] eqn:E; cbn [bind].
    + destruct (proj1 A eq_refl) as (post & ->). unfold advance. rewrite !app_length.
      destruct (N.leb_spec (i + N.of_nat (length (flat v))) (N.of_nat (length pre + (length (flat v) + length post)))); [|lia]. cbn [bind].
      destruct (IH S2 (pre ++ flat v) post (i + N.of_nat (length (flat v)))) as [A' B']; [rewrite app_length; lia|]. rewrite <- app_assoc in A', B'. split.
      * rewrite A'. split; intros (q & E'); exists q; [now rewrite E', app_assoc|]. rewrite <- app_assoc in E'. now apply app_inv_head in E'.
      * intros Hl'. rewrite ?app_length in Hl'. apply B'. lia.
    + split.
      * split; [|intros (q & ->); rewrite <- app_assoc in A; assert (Ok false = Ok true) by (apply A; eauto); discriminate].
        unfold advance. destruct (_ <=? _); cbn [bind]; [rewrite equal_all_false|]; discriminate.
      * rewrite app_length. intros Hl'. unfold advance. rewrite app_length. destruct (N.leb_spec (i + N.of_nat (length (flat v))) (N.of_nat (length pre + length rest))); [|lia].
        cbn [bind]. rewrite equal_all_false. discriminate.
    + split; [|rewrite app_length; intros Hl'; exfalso; apply B; [lia|reflexivity]].
      split; [discriminate|intros (q & ->)]. rewrite <- app_assoc in A. assert (@UB bool = Ok true) by (apply A; eauto). discriminate.
Qed.

Lemma copy_fit : forall s i m, (length m < N.to_nat i + length s)%nat -> (N.to_nat i <= length m)%nat -> std_copy s i m = UB.
Proof.
  induction s as [|c s IH]; intros i m H1 H2; cbn [length std_copy] in *; [lia|].
  destruct (Nat.eq_dec (length m) (N.to_nat i)) as [E|NE]; [now rewrite put_end|].
  unfold put. destruct (N.ltb_spec i (N.of_nat (length m))); [|lia]. cbn [bind].
  assert (L : length (firstn (N.to_nat i) m ++ c :: skipn (S (N.to_nat i)) m) = length m) by (rewrite app_length, firstn_length; cbn [length]; rewrite skipn_length; lia).
  apply IH; rewrite L; lia.
Qed.

(* ---- C45 ---- *)

(* length is the number of characters, of every nesting (short of 2^64 characters) *)
Theorem C45_length : forall v s, Chars v s -> N.of_nat (length s) < 2 ^ 64 -> vlength v = N.of_nat (length s).
Proof. intros v s H Hs. apply chars_flat in H as ->. now apply vlength_flat. Qed.
Print Assumptions C45_length.

(* every view has its characters, and only those *)
Theorem C45_chars : forall v, exists s, Chars v s /\ forall s', Chars v s' -> s' = s.
Proof. intros v. exists (flat v). split; [now apply chars_flat|]. intros s' H. now apply chars_flat. Qed.
Print Assumptions C45_chars.

(* copying into a string replaces exactly as many characters at that position, and nothing else *)
Theorem C45_copy : forall v s pre old post, Chars v s -> N.of_nat (length s) < 2 ^ 64 -> length old = length s ->
  copy v (N.of_nat (length pre)) (pre ++ old ++ post) = Ok (pre ++ s ++ post).
Proof. intros v s pre old post H Hs L. apply chars_flat in H as ->. apply copy_ok; auto. lia. Qed.
Print Assumptions C45_copy.

Theorem C45_to_string : forall v s, Chars v s -> N.of_nat (length s) < 2 ^ 64 -> to_string v = Ok s.
Proof.
  intros v s H Hs. apply chars_flat in H as ->. unfold to_string. rewrite vlength_flat, Nat2N.id by exact Hs.
  pose proof (copy_ok v Hs [] (repeat 0 (length (flat v))) [] 0 eq_refl (repeat_length _ _)) as E. cbn [app] in E. now rewrite !app_nil_r in E.
Qed.
Print Assumptions C45_to_string.

(* make_string_concat_view: the characters of its arguments one after the other *)
Theorem C45_make : forall l s, Chars (make_string_concat_view l) s <-> CharsAll l s.
Proof.
  intros l s. assert (A : CharsAll l s <-> s = flat_map flat l).
  { rewrite <- (chars_flat (Arr l)). split; [now constructor|intros X; now inversion X]. }
  rewrite A, chars_flat. destruct l as [|v [|w l]]; cbn; try tauto. now rewrite app_nil_r.
Qed.
Print Assumptions C45_make.

(* the view that was made of nothing has no characters *)
Theorem C45_empty : forall s, Chars empty_view s <-> s = [].
Proof. intros s. rewrite chars_flat. reflexivity. Qed.
Print Assumptions C45_empty.

(* equal(itr) is true iff the characters are those that follow itr.
   Full statement: true iff the view and the string have the same characters; it is false, see below. *)
Theorem C45_equal_partial : forall v s pre rest, Chars v s -> N.of_nat (length s) < 2 ^ 64 ->
  (equal v (N.of_nat (length pre)) (pre ++ rest) = Ok true <-> prefix_at s (length pre) (pre ++ rest)) /\
  ((length s <= length rest)%nat -> exists b, equal v (N.of_nat (length pre)) (pre ++ rest) = Ok b).
Proof.
  intros v s pre rest H Hs. apply chars_flat in H as ->. destruct (equal_spec v Hs pre rest (N.of_nat (length pre))) as [A B]; [lia|]. split.
  - rewrite A. unfold prefix_at. split.
    + intros (post & ->). exists pre, post. auto.
    + intros (pre' & post & E & L). exists post. clear A B Hs. revert pre E L. induction pre' as [|c pre' IH]; intros [|d pre] E L; try discriminate; [exact E|].
      cbn in E. injection E as _ E. injection L as L. eauto.
  - intros Hl. specialize (B Hl). destruct (equal v (N.of_nat (length pre)) (pre ++ rest)); [eauto|congruence].
Qed.
Print Assumptions C45_equal_partial.

(* for a string of the same length it is equality *)
Theorem C45_equal_same_length : forall v s t, Chars v s -> N.of_nat (length s) < 2 ^ 64 -> length t = length s ->
  exists b, equal v 0 t = Ok b /\ (b = true <-> t = s).
Proof.
  intros v s t H Hs L. destruct (C45_equal_partial v s [] t H Hs) as [A B]. cbn [app length] in A, B. destruct B as (b & E); [lia|]. change (N.of_nat 0) with 0 in *.
  exists b. split; [exact E|]. rewrite E in A. split.
  - intros ->. destruct (proj1 A eq_refl) as (pre & post & -> & Lp). destruct pre; [|discriminate]. cbn in *. rewrite app_length in L.
    destruct post; [now rewrite app_nil_r|cbn in L; lia].
  - intros ->. assert (Ok b = Ok true) by (apply A; exists [], []; rewrite app_nil_r; auto). congruence.
Qed.
Print Assumptions C45_equal_same_length.

(* It is no equality: a view equals every longer string it begins, and comparing with a shorter one reads past its end *)
Theorem C45_equal_refuted : exists v s t, Chars v s /\ s <> t /\ equal v 0 t = Ok true.
Proof. exists (Arr [Str (bs "a"%string); Str (bs "b"%string)]), (bs "ab"%string), (bs "abc"%string). split; [now apply chars_flat|]. split; [discriminate|reflexivity]. Qed.
Print Assumptions C45_equal_refuted.
Theorem C45_equal_past_end_refuted : exists v t, equal v 0 t = UB.
Proof. exists (Str (bs "ab"%string)), (bs "a"%string). reflexivity. Qed.
Print Assumptions C45_equal_past_end_refuted.

(* string_concat: the characters of all strings in order; those given as char pointers end at the first NUL *)
Lemma total_spec l : small (List.concat l) -> total l = N.of_nat (length (List.concat l)).
Proof.
  induction l as [|s l IH]; cbn; intros H; [reflexivity|]. destruct (small_app _ _ H) as [H1 H2]. rewrite IH by exact H2. rewrite app_length, Nat2N.inj_add.
  apply size_t_id. unfold small in H. rewrite app_length in H. lia.
Qed.
Lemma concat_into_ok l : forall pre old i, length pre = N.to_nat i -> length old = length (List.concat l) -> concat_into l i (pre ++ old) = Ok (pre ++ List.concat l).
Proof.
  induction l as [|s l IH]; cbn [List.concat concat_into]; intros pre old i L1 L2; [destruct old; [reflexivity|discriminate]|]. rewrite app_length in L2.
  rewrite <- (firstn_skipn (length s) old). rewrite std_copy_ok; [|exact L1|rewrite firstn_length; lia]. cbn [bind]. unfold advance. rewrite !app_length, skipn_length.
  destruct (N.leb_spec (i + N.of_nat (length s)) (N.of_nat (length pre + (length s + (length old - length s))))); [|lia]. cbn [bind].
  rewrite app_assoc, IH; [now rewrite <- app_assoc|rewrite app_length; lia|rewrite skipn_length; lia].
Qed.
(* the text that a string stands for: a string that is only a pointer ends at the first NUL *)
Inductive Text : source -> bytes -> Prop :=
| T_sized s : Text (Sized s) s
| T_pointer s rest : ~ In 0 s -> (rest = [] \/ exists r, rest = 0 :: r) -> Text (CharPtr (s ++ rest)) s.
Lemma text_chars x s : Text x s -> chars x = s.
Proof.
  destruct 1 as [s|s rest H R]; [reflexivity|]. cbn. induction s as [|c s IH]; cbn.
  - destruct R as [->|(r & ->)]; reflexivity.
  - destruct (N.eqb_spec c 0) as [->|H0]; [exfalso; apply H; now left|]. rewrite IH; [reflexivity|]. intros X. apply H. now right.
Qed.
Theorem C45_string_concat_text : forall l ss, Forall2 Text l ss -> N.of_nat (length (List.concat ss)) < 2 ^ 64 -> string_concat l = Ok (List.concat ss).
Proof.
  intros l ss H. assert (map chars l = ss) as <- by (induction H; cbn; [reflexivity|f_equal; [now apply text_chars|assumption]]).
  intros L. unfold string_concat. rewrite total_spec, Nat2N.id by exact L. apply (concat_into_ok (map chars l) []); [reflexivity|apply repeat_length].
Qed.
Print Assumptions C45_string_concat_text.
(* every string stands for one text *)
Theorem C45_text : forall x, exists s, Text x s /\ forall s', Text x s' -> s' = s.
Proof.
  intros [s|s].
  - exists s. split; [constructor|]. intros s' H. now inversion H.
  - exists (c_chars s). split; [|intros s' H; apply text_chars in H; now rewrite <- H].
    assert (exists rest, s = c_chars s ++ rest /\ ~ In 0 (c_chars s) /\ (rest = [] \/ exists r, rest = 0 :: r)) as (rest & E & H & R).
    { induction s as [|c s (rest & E & H & R)]; cbn; [exists []; repeat split; auto|]. destruct (N.eqb_spec c 0) as [->|H0].
      - exists (0 :: s). repeat split; [intros []|]. right. now exists s.
      - exists rest. cbn. rewrite <- E. repeat split; auto. intros [X|X]; auto. }
    rewrite E at 1. now constructor.
Qed.
Print Assumptions C45_text.
Theorem C45_string_concat : forall l, N.of_nat (length (List.concat (map chars l))) < 2 ^ 64 -> string_concat l = Ok (List.concat (map chars l)).
Proof.
  intros l H. unfold string_concat. rewrite total_spec, Nat2N.id by exact H. apply (concat_into_ok (map chars l) []); [reflexivity|apply repeat_length].
Qed.
Print Assumptions C45_string_concat.

(* mpdef::string_join: splitting is not needed to say what a join is: the first string, then each other one after a delimiter *)
Theorem C45_join : forall d s1 sN, string_join d s1 sN = s1 ++ flat_map (fun s => d ++ s) sN.
Proof.
  intros d s1 sN. unfold string_join.
  assert (F : forall l a, fold_left (fun a b : bytes => a ++ b) l a = a ++ List.concat l).
  { induction l as [|x l IH]; intros a; cbn; [now rewrite app_nil_r|]. now rewrite IH, app_assoc. }
  assert (I : forall l x, List.concat (intersperse d (x :: l)) = x ++ flat_map (fun s => d ++ s) l).
  { induction l as [|y l IH]; intros x; [cbn; now rewrite app_nil_r|]. change (intersperse d (x :: y :: l)) with (x :: d :: intersperse d (y :: l)). cbn [List.concat]. rewrite IH. cbn. now rewrite <- !app_assoc. }
  destruct sN as [|y sN]; [cbn; now rewrite app_nil_r|]. change (intersperse d (s1 :: y :: sN)) with (s1 :: d :: intersperse d (y :: sN)). cbn [fold_left]. rewrite F, I. cbn. now rewrite <- !app_assoc.
Qed.
Print Assumptions C45_join.

Example C45_ex : let v := make_string_concat_view [Str (bs "Hello"%string); Arr [Str (bs ", "%string); Arr []; Str (bs "World"%string)]; Str (bs "!"%string)] in
  vlength v = 13 /\ to_string v = Ok (bs "Hello, World!"%string) /\ equal v 0 (bs "Hello, World!"%string) = Ok true /\ equal v 0 (bs "Hello. World!"%string) = Ok false /\
  copy v 2 (repeat 46 16) = Ok (bs "..Hello, World!."%string) /\ copy v 4 (repeat 46 16) = UB /\
  string_concat [Sized (bs "a"%string); CharPtr [98; 0; 99]; Sized [0; 100]] = Ok [97; 98; 0; 100] /\
  string_join (bs ", "%string) (bs "a"%string) [bs "b"%string; bs "c"%string] = bs "a, b, c"%string.
Proof. vm_compute. repeat split. Qed.
