(* Proofs about the lists of actions of trees of views. *)
From Verif Require Import Base VwModel VwSpec.
Open Scope nat_scope.

Section Ind.
Variable P : spec -> Prop.
Hypothesis HP : forall t l, Forall P l -> P (Pair t l).
Hypothesis HM : forall p alts, Forall (fun a => P (snd a)) alts -> P (Match p alts).
Hypothesis HL : forall x, P (Leaf x).
Fixpoint spec_ind' (s : spec) : P s :=
  match s with
  | Pair t l => HP t l ((fix go l := match l return Forall P l with [] => Forall_nil _ | x :: r => Forall_cons _ (spec_ind' x) (go r) end) l)
  | Match p alts => HM p alts ((fix go l := match l return Forall (fun a => P (snd a)) l with [] => Forall_nil _ | x :: r => Forall_cons _ (spec_ind' (snd x)) (go r) end) alts)
  | Leaf x => HL x
  end.
End Ind.

Lemma each_some {A B} (f : A -> option B) l fs : each (map f l) = Some fs <-> Forall2 (fun x y => f x = Some y) l fs.
Proof.
  revert fs. induction l as [|x l IH]; intros fs; cbn [map each].
  - split; [intros E; injection E as <-; constructor|]. intros F. inversion F; subst. reflexivity.
  - split.
    + destruct (f x) eqn:E; [|discriminate]. destruct (each (map f l)) as [ys|]; [|discriminate]. intros K. injection K as <-. constructor; [exact E|]. now apply IH.
    + intros F. inversion F as [|? y ? ys E F']; subst. rewrite E. apply IH in F'. now rewrite F'.
Qed.

(* what a list of actions is made of *)
Definition alt_flat (a : nat * spec) (b : nat * list action) : Prop := fst a = fst b /\ flatten_spec (snd a) = Some (snd b).
Lemma alts_some alts fs : each (map (fun a => match flatten_spec (snd a) with Some f => Some (fst a, f) | None => None end) alts) = Some fs <-> Forall2 alt_flat alts fs.
Proof.
  rewrite each_some. split; induction 1 as [|a b l l' H F IH]; constructor; auto; unfold alt_flat in *.
  - destruct (flatten_spec (snd a)); [|discriminate]. injection H as <-. auto.
  - destruct b as [n f], H as [H1 H2]. cbn in *. now rewrite H1, H2.
Qed.
Lemma flatten_pair t ty i cs l : flatten_spec (Pair t (ty :: i :: cs)) = Some l <->
  exists fs, Forall2 (fun c f => flatten_spec c = Some f) cs fs /\ l = Begin t ty i :: concat fs ++ [End t ty].
Proof.
  cbn [flatten_spec]. split.
  - destruct (each _) as [fs|] eqn:E; [|discriminate]. apply each_some in E. intros K. injection K as <-. exists fs. split; [exact E|]. cbn. rewrite concat_app. reflexivity.
  - intros (fs & F & ->). apply each_some in F. rewrite F. cbn. now rewrite concat_app.
Qed.
Lemma flatten_match p alts l : flatten_spec (Match p alts) = Some l <-> exists fs, Forall2 alt_flat alts fs /\ l = [Branch p fs].
Proof.
  cbn [flatten_spec]. split.
  - destruct (each _) as [fs|] eqn:E; [|discriminate]. apply alts_some in E. intros K. injection K as <-. eauto.
  - intros (fs & F & ->). apply alts_some in F. now rewrite F.
Qed.
Lemma short_pair t l x : flatten_spec (Pair t l) = Some x -> exists ty i cs, l = ty :: i :: cs.
Proof. destruct l as [|ty [|i cs]]; try discriminate. eauto. Qed.

Lemma compiles s : (exists l, flatten_spec s = Some l) <-> complete s.
Proof.
  induction s as [t l IH|p alts IH|x] using spec_ind'.
  - split.
    + intros (x & E). destruct (short_pair _ _ _ E) as (ty & i & cs & ->). apply flatten_pair in E as (fs & F & _). constructor. inversion IH as [|? ? _ IH']; subst. inversion IH' as [|? ? _ IH2]; subst.
      clear -F IH2. induction F as [|c f cs fs E F IH]; constructor; inversion IH2; subst; [|auto]. apply H1. eauto.
    + intros C. inversion C as [? ty i cs F| |]; subst. inversion IH as [|? ? _ IH']; subst. inversion IH' as [|? ? _ IH2]; subst.
      assert (X : exists fs, Forall2 (fun c f => flatten_spec c = Some f) cs fs).
      { clear -F IH2. induction cs as [|c cs IH]; [exists []; constructor|]. inversion F as [|? ? K F']; subst. inversion IH2 as [|? ? E E']; subst. destruct (IH F' E') as (fs & G). apply E in K as (f & K).
        exists (f :: fs). constructor; auto. }
      destruct X as (fs & X). eexists. apply flatten_pair. eauto.
  - split.
    + intros (x & E). apply flatten_match in E as (fs & F & _). constructor. clear -F IH. induction F as [|c f cs fs E F IHF]; constructor; inversion IH; subst; [|auto]. apply H1. destruct E. eauto.
    + intros C. inversion C as [|? ? F|]; subst.
      assert (X : exists fs, Forall2 alt_flat alts fs).
      { clear -F IH. induction alts as [|c cs IHc]; [exists []; constructor|]. inversion F as [|? ? K F']; subst. inversion IH as [|? ? E E']; subst. destruct (IHc E' F') as (fs & G). apply E in K as (f & K).
        exists ((fst c, f) :: fs). constructor; [split; auto|auto]. }
      destruct X as (fs & X). eexists. apply flatten_match. eauto.
  - split; [constructor|]. intros _. cbn. eauto.
Qed.

Lemma leads_flat s : forall l, flatten_spec s = Some l -> forall o r o', leads o r o' -> leads o (l ++ r) o'.
Proof.
  induction s as [t l IH|p alts IH|x] using spec_ind'; intros x' E o r o' K.
  - destruct (short_pair _ _ _ E) as (ty & i & cs & ->). apply flatten_pair in E as (fs & F & ->). cbn [app]. constructor. rewrite <- app_assoc.
    inversion IH as [|? ? _ IH']; subst. inversion IH' as [|? ? _ IH2]; subst. assert (K2 : leads ((t, ty) :: o) ([End t ty] ++ r) o') by (cbn; now constructor).
    revert K2. generalize ([End t ty] ++ r) ((t, ty) :: o). clear -F IH2. induction F as [|c f cs fs E F IH]; intros l o K; [exact K|]. inversion IH2 as [|? ? Hc Hcs]; subst.
    cbn [concat]. rewrite <- app_assoc. apply Hc; auto.
  - apply flatten_match in E as (fs & F & ->). cbn [app]. constructor; [|exact K]. clear -F IH. induction F as [|c f cs fs (_ & E) F IHF]; constructor; inversion IH as [|? ? Hc Hcs]; subst; [|auto].
    rewrite <- (app_nil_r (snd f)). apply Hc; [exact E|constructor].
  - injection E as <-. cbn. now constructor.
Qed.

Lemma outlined_flat s : forall l, flatten_spec s = Some l -> forall d r rs, outlined d r rs -> outlined d (l ++ r) (outline d s ++ rs).
Proof.
  induction s as [t l IH|p alts IH|x] using spec_ind'; intros x' E d r rs K.
  - destruct (short_pair _ _ _ E) as (ty & i & cs & ->). apply flatten_pair in E as (fs & F & ->). cbn [app outline]. constructor. rewrite <- app_assoc.
    inversion IH as [|? ? _ IH']; subst. inversion IH' as [|? ? _ IH2]; subst. assert (K2 : outlined (S d) ([End t ty] ++ r) rs) by (cbn; now constructor).
    revert K2. generalize ([End t ty] ++ r) (S d). clear -F IH2. induction F as [|c f cs fs E F IH]; intros l d K; [exact K|]. inversion IH2 as [|? ? Hc Hcs]; subst.
    cbn [concat flat_map]. rewrite <- !app_assoc. apply Hc; auto.
  - apply flatten_match in E as (fs & F & ->). cbn [app outline]. constructor; [|exact K]. clear -F IH. induction F as [|c f cs fs (E1 & E) F IHF]; cbn [map]; constructor; inversion IH as [|? ? Hc Hcs]; subst; [|auto].
    cbn. split; [auto|]. rewrite <- (app_nil_r (snd f)), <- (app_nil_r (outline 0 (snd c))). apply Hc; [exact E|constructor].
  - injection E as <-. cbn. now constructor.
Qed.

(* no list of actions is the start of another *)
Lemma starts s l : flatten_spec s = Some l -> exists a l', l = a :: l' /\ forall t ty, a <> End t ty.
Proof.
  destruct s as [t c|p alts|x]; intros E.
  - destruct (short_pair _ _ _ E) as (ty & i & cs & ->). apply flatten_pair in E as (fs & _ & ->). eexists _, _. split; [reflexivity|discriminate].
  - apply flatten_match in E as (fs & _ & ->). eexists _, _. split; [reflexivity|discriminate].
  - injection E as <-. eexists _, _. split; [reflexivity|discriminate].
Qed.
Definition alone (s : spec) : Prop := forall s' l l' r r', flatten_spec s = Some l -> flatten_spec s' = Some l' -> l ++ r = l' ++ r' -> s = s' /\ r = r'.
Lemma determined_all cs fs : Forall alone cs -> Forall2 (fun c f => flatten_spec c = Some f) cs fs -> forall cs' fs' t ty r r', Forall2 (fun c f => flatten_spec c = Some f) cs' fs' ->
  concat fs ++ End t ty :: r = concat fs' ++ End t ty :: r' -> cs = cs' /\ r = r'.
Proof.
  intros A F. induction F as [|c f cs fs E F IH]; intros cs' fs' t ty r r' F' K.
  - destruct F' as [|c' f' cs' fs' E' F']; cbn in K; [injection K as <-; auto|]. destruct (starts _ _ E') as (a & l' & -> & Na). cbn in K. injection K as K _. now destruct (Na t ty).
  - inversion A as [|? ? Ac Acs]; subst. destruct F' as [|c' f' cs' fs' E' F']; cbn [concat] in K.
    + destruct (starts _ _ E) as (a & l' & -> & Na). cbn in K. injection K as K _. now destruct (Na t ty).
    + rewrite <- !app_assoc in K. destruct (Ac _ _ _ _ _ E E' K) as (-> & K2). destruct (IH Acs _ _ _ _ _ _ F' K2) as (-> & ->). auto.
Qed.
Lemma determined s : alone s.
Proof.
  induction s as [t l IH|p alts IH|x] using spec_ind'; intros s' a a' r r' E E' K.
  - destruct (short_pair _ _ _ E) as (ty & i & cs & ->). apply flatten_pair in E as (fs & F & ->). destruct s' as [t' l'|p' alts'|x'].
    2: { apply flatten_match in E' as (fs' & _ & ->). discriminate K. }
    2: { injection E' as <-. discriminate K. }
    destruct (short_pair _ _ _ E') as (ty' & i' & cs' & ->). apply flatten_pair in E' as (fs' & F' & ->). cbn [app] in K. injection K as -> -> -> K. rewrite <- !app_assoc in K. cbn [app] in K.
    inversion IH as [|? ? _ IH']; subst. inversion IH' as [|? ? _ IH2]; subst. destruct (determined_all _ _ IH2 F _ _ _ _ _ _ F' K) as (-> & ->). auto.
  - apply flatten_match in E as (fs & F & ->). destruct s' as [t' l'|p' alts'|x'].
    1: { destruct (short_pair _ _ _ E') as (ty' & i' & cs' & ->). apply flatten_pair in E' as (fs' & F' & ->). discriminate K. }
    2: { injection E' as <-. discriminate K. }
    apply flatten_match in E' as (fs' & F' & ->). cbn in K. injection K as -> -> ->. split; [f_equal|reflexivity].
    revert alts' F'. clear -F IH. induction F as [|c f cs fs (E1 & E) F IHF]; intros alts' F'; inversion F' as [|c' ? cs' ? (E1' & E') F'']; subst; [reflexivity|].
    inversion IH as [|? ? Hc Hcs]; subst. f_equal; [|auto]. destruct c as [n c], c' as [n' c']. cbn in *. destruct (Hc c' _ _ [] [] E E' eq_refl) as (-> & _). congruence.
  - injection E as <-. destruct s' as [t' l'|p' alts'|x'].
    1: { destruct (short_pair _ _ _ E') as (ty' & i' & cs' & ->). apply flatten_pair in E' as (fs' & F' & ->). discriminate K. }
    1: { apply flatten_match in E' as (fs' & _ & ->). discriminate K. }
    injection E' as <-. cbn in K. injection K as -> ->. auto.
Qed.
