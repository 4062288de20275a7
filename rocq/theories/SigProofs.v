From Coq Require Import String.
From Verif Require Import Base Base64Spec ShaModel ShaSpec ShaProofs ShaProps RouteModel RouteSpec RouteProofs JsonModel JsonSpec JsonProofs SigModel SigSpec.
Open Scope N_scope.

(* ---- induction ---- *)
Section Ind.
Variable P : ctype -> Prop.
Hypothesis Hfund : forall f, P (CFund f).
Hypothesis Hother : forall n, P (COther n).
Hypothesis Hempty : forall n, P (CEmpty n).
Hypothesis Htype : forall n, P (CTypeOf n).
Hypothesis Hconst : forall c, P (CConst c).
Hypothesis Hchars : forall s, P (CChars s).
Hypothesis Htuple : forall l, Forall P l -> P (CTuple l).
Hypothesis Hpair : forall a b, P a -> P b -> P (CPair a b).
Hypothesis Hjust : forall t, P t -> P (CJust t).
Hypothesis Hentity : forall n l, Forall (fun m => P (snd m)) l -> P (CEntity n l).
Hypothesis Hmap : forall l, Forall (fun m => P (snd m)) l -> P (CMap l).
Hypothesis Hvariant : forall l, Forall P l -> P (CVariant l).
Hypothesis Hcont : forall k t, P t -> P (CCont k t).
Hypothesis Hstring : P CString.
Hypothesis Htext : P CText.
Hypothesis Huid : P CUid.
Fixpoint ctype_ind' (t : ctype) : P t :=
  let all := fix go (l : list ctype) : Forall P l := match l with [] => Forall_nil P | x :: r => Forall_cons x (ctype_ind' x) (go r) end in
  let alls := fix go (l : list (list N * ctype)) : Forall (fun m => P (snd m)) l :=
    match l with [] => Forall_nil _ | x :: r => Forall_cons x (ctype_ind' (snd x)) (go r) end in
  match t with
  | CFund f => Hfund f | COther n => Hother n | CEmpty n => Hempty n | CTypeOf n => Htype n | CConst c => Hconst c | CChars s => Hchars s
  | CTuple l => Htuple l (all l) | CPair a b => Hpair a b (ctype_ind' a) (ctype_ind' b) | CJust t => Hjust t (ctype_ind' t)
  | CEntity n l => Hentity n l (alls l) | CMap l => Hmap l (alls l) | CVariant l => Hvariant l (all l)
  | CCont k t => Hcont k t (ctype_ind' t) | CString => Hstring | CText => Htext | CUid => Huid
  end.
End Ind.

Section TagInd.
Variable P : tag -> Prop.
Hypothesis Hseq : forall l, Forall P l -> P (GSeq l).
Hypothesis Hmap : forall l, Forall (fun m => P (snd m)) l -> P (GMap l).
Hypothesis Hvar : forall l, Forall P l -> P (GVar l).
Hypothesis Hconst : forall c, P (GConst c).
Hypothesis Htype : forall n, P (GType n).
Hypothesis Hchars : forall s, P (GChars s).
Hypothesis Hcont : forall g, P g -> P (GCont g).
Hypothesis Hbuffer : P GBuffer.
Hypothesis Hstring : P GString.
Hypothesis Hdynamic : P GDynamic.
Hypothesis Hname : forall n, P (GName n).
Fixpoint tag_ind' (g : tag) : P g :=
  let all := fix go (l : list tag) : Forall P l := match l with [] => Forall_nil P | x :: r => Forall_cons x (tag_ind' x) (go r) end in
  match g with
  | GSeq l => Hseq l (all l)
  | GMap l => Hmap l ((fix go (l : list (list N * tag)) : Forall (fun m => P (snd m)) l :=
                         match l with [] => Forall_nil _ | x :: r => Forall_cons x (tag_ind' (snd x)) (go r) end) l)
  | GVar l => Hvar l (all l) | GConst c => Hconst c | GType n => Htype n | GChars s => Hchars s | GCont g => Hcont g (tag_ind' g)
  | GBuffer => Hbuffer | GString => Hstring | GDynamic => Hdynamic | GName n => Hname n
  end.
End TagInd.

(* ---- the text can be read back ---- *)

Definition plain (c : N) : Prop := c <> 44 /\ c <> 60 /\ c <> 62.
Definition ends (r : list N) : Prop := match r with [] => True | c :: _ => ~ plain c end.

Lemma split_word : forall a b r r', Forall plain a -> Forall plain b -> ends r -> ends r' -> a ++ r = b ++ r' -> a = b /\ r = r'.
Proof.
  induction a as [|x a IH]; intros [|y b] r r' Ha Hb Er Er' E; cbn in E.
  - auto.
  - exfalso. inversion Hb; subst. cbn in Er. contradiction.
  - exfalso. inversion Ha; subst. cbn in Er'. contradiction.
  - injection E as -> E. inversion Ha; inversion Hb; subst. destruct (IH b r r') as [-> ->]; auto.
Qed.

(* decimal numbers *)
Lemma digit_plain s : Forall digit s -> Forall plain s.
Proof. apply Forall_impl. unfold digit, plain. intros c H. lia. Qed.
Lemma dec_inj a b : dec a = dec b -> a = b.
Proof. intros E. destruct (dec_spec a) as (A & _), (dec_spec b) as (B & _). rewrite E in A. congruence. Qed.
Lemma dec_head n : exists c r, dec n = c :: r /\ digit c.
Proof. destruct (dec_spec n) as (_ & D & Hne). destruct (dec n) as [|c r]; [congruence|]. inversion D; subst. eauto. Qed.
Lemma to_string_inj x y : std_to_string x = std_to_string y -> x = y.
Proof.
  assert (M : forall n r, dec n <> 45 :: r).
  { intros n r E. destruct (dec_head n) as (c & t & E' & D). rewrite E' in E. injection E as -> _. unfold digit in D. lia. }
  assert (A : forall z, (0 <= z)%Z -> std_to_string z = dec (Z.to_N z)) by (intros [|p|p] H; [reflexivity|reflexivity|lia]).
  assert (B : forall z, (z < 0)%Z -> std_to_string z = 45 :: dec (Z.to_N (- z))) by (intros [|p|p] H; [lia|lia|reflexivity]).
  intros E. destruct (Z_lt_le_dec x 0) as [X|X], (Z_lt_le_dec y 0) as [Y|Y].
  - rewrite (B x X), (B y Y) in E. injection E as E. apply dec_inj in E. lia.
  - rewrite (B x X), (A y Y) in E. symmetry in E. exfalso. exact (M _ _ E).
  - rewrite (A x X), (B y Y) in E. exfalso. exact (M _ _ E).
  - rewrite (A x X), (A y Y) in E. apply dec_inj in E. lia.
Qed.
Lemma to_string_plain z : Forall plain (std_to_string z).
Proof.
  unfold std_to_string. destruct z; try (apply digit_plain; apply dec_spec).
  constructor; [unfold plain; lia|]. apply digit_plain, dec_spec.
Qed.
Lemma to_string_head z : exists c r, std_to_string z = c :: r /\ (digit c \/ c = 45).
Proof.
  unfold std_to_string. destruct z as [|p|p].
  - destruct (dec_head (Z.to_N 0)) as (c & r & -> & D). eauto.
  - destruct (dec_head (Z.to_N (Z.pos p))) as (c & r & -> & D). eauto.
  - eauto.
Qed.
Lemma const_plain c : Forall plain (const_text c).
Proof. destruct c as [z|[]]; [apply to_string_plain| |]; cbn; repeat constructor; unfold plain; lia. Qed.
Lemma const_inj c d : const_text c = const_text d -> c = d.
Proof.
  destruct c as [x|x], d as [y|y]; cbn [const_text]; intros E.
  - f_equal. now apply to_string_inj.
  - exfalso. destruct (to_string_head x) as (c & r & E' & D). rewrite E' in E. unfold digit in D. destruct y; cbn in E; injection E as -> _; lia.
  - exfalso. destruct (to_string_head y) as (c & r & E' & D). rewrite E' in E. unfold digit in D. destruct x; cbn in E; injection E as <- _; lia.
  - destruct x, y; try reflexivity; discriminate E.
Qed.

(* characters *)
Definition escape_length (l : list N) : nat := match l with 92 :: 120 :: _ => 4 | 92 :: _ => 2 | _ => 1 end.
Lemma escaped_length c r : is_byte c -> escape_length (escaped c ++ r) = length (escaped c).
Proof.
  intros H. unfold escaped.
  destruct (N.eqb_spec c 39); [reflexivity|]. destruct (N.eqb_spec c 92); [reflexivity|]. destruct (N.eqb_spec c 34); [reflexivity|].
  destruct (N.eqb_spec c 9); [reflexivity|]. destruct (N.eqb_spec c 10); [reflexivity|].
  destruct ((32 <=? c) && (c <? 127)); [|reflexivity]. cbn [app escape_length length].
  destruct c as [|p]; [reflexivity|]. do 7 (destruct p as [p|p|]; try reflexivity; try lia).
Qed.
Lemma escaped_inj c d : is_byte c -> is_byte d -> escaped c = escaped d -> c = d.
Proof.
  intros Hc Hd E.
  assert (A : forallb (fun c => forallb (fun d => negb (bytes_eqb (escaped c) (escaped d)) || (c =? d)) all_byte_values) all_byte_values = true)
    by (vm_compute; reflexivity).
  rewrite forallb_forall in A. specialize (A c (in_all_byte_values c Hc)). rewrite forallb_forall in A.
  specialize (A d (in_all_byte_values d Hd)). rewrite E, bytes_eqb_refl in A. cbn in A. now apply N.eqb_eq in A.
Qed.
Lemma app_same {A} : forall (a b r r' : list A), length a = length b -> a ++ r = b ++ r' -> a = b /\ r = r'.
Proof. induction a as [|x a IH]; intros [|y b] r r' L E; cbn in *; try discriminate; [auto|]. injection E as -> E. destruct (IH b r r') as [-> ->]; auto. Qed.
Lemma char_text_inj c d r r' : is_byte c -> is_byte d -> char_text c ++ r = char_text d ++ r' -> c = d /\ r = r'.
Proof.
  intros Hc Hd E. unfold char_text in E. rewrite <- !app_assoc in E. cbn [app] in E. injection E as E.
  assert (L : length (escaped c) = length (escaped d)).
  { rewrite <- (escaped_length c (39 :: r) Hc), <- (escaped_length d (39 :: r') Hd). now rewrite E. }
  destruct (app_same _ _ _ _ L E) as [E1 E2]. injection E2 as E2. split; [now apply escaped_inj|assumption].
Qed.

(* lists of arguments *)
Lemma commas {A} (f : A -> list N) : forall l l' r r',
  (forall x, In x l \/ In x l' -> exists c t, f x = c :: t /\ c <> 62) ->
  (forall x y r r', In x l -> In y l' -> ends r -> ends r' -> f x ++ r = f y ++ r' -> x = y /\ r = r') ->
  comma_separated (map f l) ++ 62 :: r = comma_separated (map f l') ++ 62 :: r' -> l = l' /\ r = r'.
Proof.
  induction l as [|x l IH]; intros l' r r' NE INJ E.
  - destruct l' as [|y l']; [cbn in E; injection E as ->; auto|]. exfalso.
    destruct (NE y (or_intror (or_introl eq_refl))) as (c & t & Ec & Hc). cbn [map comma_separated app] in E.
    destruct (map f l'); rewrite Ec in E; cbn in E; injection E as E _; congruence.
  - destruct l' as [|y l'].
    { exfalso. destruct (NE x (or_introl (or_introl eq_refl))) as (c & t & Ec & Hc). cbn [map comma_separated app] in E.
      destruct (map f l); rewrite Ec in E; cbn in E; injection E as E _; congruence. }
    assert (D : forall z m s, exists s', comma_separated (map f (z :: m)) ++ 62 :: s = f z ++ s' /\ ends s' /\
              (m = [] /\ s' = 62 :: s \/ m <> [] /\ s' = 44 :: 32 :: comma_separated (map f m) ++ 62 :: s)).
    { intros z m s. destruct m as [|w m].
      - exists (62 :: s). repeat split; auto. cbn. unfold plain. lia.
      - exists (44 :: 32 :: comma_separated (map f (w :: m)) ++ 62 :: s). split; [|split; [cbn; unfold plain; lia|right; split; [discriminate|reflexivity]]].
        cbn [map]. change (comma_separated (f z :: f w :: map f m)) with (f z ++ bs ", " ++ comma_separated (map f (w :: m))).
        rewrite <- !app_assoc. reflexivity. }
    destruct (D x l r) as (s & E1 & S1 & C1), (D y l' r') as (s' & E2 & S2 & C2). rewrite E1, E2 in E.
    destruct (INJ x y s s') as [-> ES]; cbn; auto.
    destruct C1 as [[-> ->]|[N1 ->]], C2 as [[-> ->]|[N2 ->]]; try discriminate ES.
    + injection ES as ->. auto.
    + injection ES as ES. destruct (IH l' r r') as [-> ->]; auto.
      * intros z [H|H]; apply NE; cbn; auto.
      * intros z w t t' H1 H2. apply INJ; cbn; auto.
Qed.

(* tags whose names are names *)
Fixpoint good (g : tag) : Prop :=
  match g with
  | GSeq l | GVar l => (fix go l := match l with [] => True | x :: r => good x /\ go r end) l
  | GMap l => (fix go (l : list (list N * tag)) := match l with [] => True | m :: r => (all_bytes (fst m) /\ good (snd m)) /\ go r end) l
  | GConst _ | GBuffer | GString | GDynamic => True
  | GType n => type_name n
  | GChars s => all_bytes s
  | GCont g => good g
  | GName n => type_name n /\ forall r, n <> bs "nbdl::_b::tag::" ++ r
  end.
Lemma good_all l : (fix go l := match l with [] => True | x :: r => good x /\ go r end) l <-> Forall good l.
Proof. induction l as [|x l IH]; [split; auto|]. rewrite Forall_cons_iff, <- IH. reflexivity. Qed.
Lemma good_members l : (fix go (l : list (list N * tag)) := match l with [] => True | m :: r => (all_bytes (fst m) /\ good (snd m)) /\ go r end) l
  <-> Forall (fun m => all_bytes (fst m) /\ good (snd m)) l.
Proof. induction l as [|x l IH]; [split; auto|]. rewrite Forall_cons_iff, <- IH. reflexivity. Qed.

(* a text is a word and what follows it *)
Definition word (g : tag) : list N :=
  match g with
  | GSeq _ => bs "nbdl::_b::tag::sequence" | GMap _ => bs "nbdl::_b::tag::map" | GVar _ => bs "nbdl::_b::tag::variant"
  | GConst _ => bs "nbdl::_b::tag::constant" | GType _ => bs "nbdl::_b::tag::type" | GChars _ => bs "nbdl::_b::tag::ct_string"
  | GCont _ => bs "nbdl::_b::tag::container" | GBuffer => bs "nbdl::_b::tag::buffer" | GString => bs "nbdl::_b::tag::string"
  | GDynamic => bs "nbdl::_b::tag::dynamic_buffer" | GName n => n
  end.
Definition node_text (m : list N * tag) : list N :=
  template (bs "map_node") [template (bs "ct_string") (map char_text (fst m)); tag_text (snd m)].
Definition args (g : tag) : option (list (list N)) :=
  match g with
  | GSeq l | GVar l => Some (map tag_text l)
  | GMap l => Some (map node_text l)
  | GConst c => Some [const_text c] | GType n => Some [n] | GChars s => Some (map char_text s) | GCont g => Some [tag_text g]
  | _ => None
  end.
Definition after (a : option (list (list N))) : list N := match a with Some l => 60 :: comma_separated l ++ [62] | None => [] end.
Lemma tag_text_eq g : tag_text g = word g ++ after (args g).
Proof. destruct g; cbn [tag_text word args after]; unfold template; try reflexivity; now rewrite app_nil_r. Qed.
Lemma plain_bs s : forallb (fun c => negb ((c =? 44) || (c =? 60) || (c =? 62))) s = true -> Forall plain s.
Proof. intros H. rewrite forallb_forall in H. apply Forall_forall. intros c Hc. specialize (H c Hc). unfold plain. lia. Qed.
Lemma word_plain g : good g -> Forall plain (word g).
Proof. destruct g; cbn [good word]; intros H; try (apply plain_bs; vm_compute; reflexivity). exact (proj2 (proj2 (proj1 H))). Qed.
Lemma after_ends a r : ends r -> ends (after a ++ r).
Proof. destruct a; cbn; auto. unfold plain. lia. Qed.
Lemma bs_app x y : bs (x ++ y) = bs x ++ bs y.
Proof. induction x as [|c x IH]; [reflexivity|]. cbn. now rewrite IH. Qed.
(* what kind a tag is *)
Definition kind (g : tag) : nat :=
  match g with GSeq _ => 0 | GMap _ => 1 | GVar _ => 2 | GConst _ => 3 | GType _ => 4 | GChars _ => 5 | GCont _ => 6 | GBuffer => 7 | GString => 8
             | GDynamic => 9 | GName _ => 10 end.
Lemma word_kind g h : good g -> good h -> word g = word h -> kind g = kind h.
Proof.
  assert (N : forall g h n, g = GName n -> good g -> (kind h < 10)%nat -> word g <> word h).
  { intros g0 h0 n -> [_ G] K E. cbn [word] in E. destruct h0; cbn in K; try lia; cbn [word] in E; eapply G; rewrite E; cbn; reflexivity. }
  intros Gg Gh E. destruct (Nat.ltb_spec (kind g) 10) as [Kg|Kg], (Nat.ltb_spec (kind h) 10) as [Kh|Kh].
  - clear N Gg Gh. destruct g, h; try reflexivity; try (cbn in Kg, Kh; lia); discriminate E.
  - destruct h; cbn in Kh; try lia. exfalso. exact (N (GName name) g name eq_refl Gh Kg (eq_sym E)).
  - destruct g; cbn in Kg; try lia. exfalso. exact (N (GName name) h name eq_refl Gg Kh E).
  - destruct g; cbn in Kg; try lia. destruct h; cbn in Kh; try lia. reflexivity.
Qed.
Lemma text_head g : good g -> exists c t, tag_text g = c :: t /\ c <> 62.
Proof.
  intros G. rewrite tag_text_eq. pose proof (word_plain g G) as W. destruct (word g) as [|c t] eqn:E.
  - destruct g; try discriminate E. cbn in E. destruct G as [[NE _] _]. congruence.
  - inversion W; subst. exists c, (t ++ after (args g)). split; [reflexivity|]. unfold plain in *. lia.
Qed.
Lemma char_head c : exists x t, char_text c = x :: t /\ x <> 62.
Proof. exists 39, (escaped c ++ [39]). split; [reflexivity|lia]. Qed.
Lemma chars_inj s s' r r' : all_bytes s -> all_bytes s' ->
  comma_separated (map char_text s) ++ 62 :: r = comma_separated (map char_text s') ++ 62 :: r' -> s = s' /\ r = r'.
Proof.
  intros H H' E. unfold all_bytes in *. rewrite Forall_forall in H, H'. apply (commas char_text s s' r r') in E; auto.
  - intros x _. apply char_head.
  - intros x y q q' Hx Hy _ _. apply char_text_inj; auto.
Qed.
(* one argument *)
Lemma after_one x r : after (Some [x]) ++ r = 60 :: x ++ 62 :: r.
Proof. cbn. now rewrite <- app_assoc. Qed.
Lemma after_many l r : after (Some l) ++ r = 60 :: comma_separated l ++ 62 :: r.
Proof. cbn. now rewrite <- app_assoc. Qed.
Lemma gt_ends r : ends (62 :: r). Proof. cbn. unfold plain. lia. Qed.
Lemma comma_ends r : ends (44 :: r). Proof. cbn. unfold plain. lia. Qed.

Lemma node_text_eq k g r : node_text (k, g) ++ r =
  bs "nbdl::_b::tag::map_node" ++ 60 :: bs "nbdl::_b::tag::ct_string" ++ 60 :: comma_separated (map char_text k) ++ 62 :: 44 :: 32 :: tag_text g ++ 62 :: r.
Proof. unfold node_text, template. cbn [fst snd comma_separated]. rewrite <- !app_assoc. reflexivity. Qed.

Theorem text_inj : forall g g' r r', good g -> good g' -> ends r -> ends r' -> tag_text g ++ r = tag_text g' ++ r' -> g = g' /\ r = r'.
Proof.
  induction g using tag_ind'; intros g' r r' G G' R R' E; rewrite (tag_text_eq g'), tag_text_eq, <- !app_assoc in E;
    apply split_word in E; auto using word_plain, after_ends; destruct E as [W E];
    pose proof (word_kind _ _ G G' W) as K; destruct g'; cbn in K; try discriminate K; clear K; cbn [args] in E;
    rewrite ?after_one, ?after_many in E; try (injection E as E).
  - cbn [good] in G, G'. rewrite good_all in G, G'. rewrite Forall_forall in H, G, G'. apply commas in E.
    + destruct E as [-> ->]. auto.
    + intros x [Hx|Hx]; apply text_head; auto.
    + intros x y s s' Hx Hy S S'. apply H; auto.
  - cbn [good] in G, G'. rewrite good_members in G, G'. rewrite Forall_forall in H, G, G'. apply commas in E.
    + destruct E as [-> ->]. auto.
    + intros [k g] _. eexists _, _. split; [cbn; reflexivity|]. lia.
    + intros [k x] [k' y] s s' Hx Hy S S' E2. rewrite !node_text_eq in E2. apply app_same in E2; [|reflexivity]. destruct E2 as [_ E2].
      injection E2 as E2.
      destruct (G _ Hx) as [B Gx], (G' _ Hy) as [B' Gy]. cbn in B, Gx, B', Gy.
      destruct (chars_inj k k' _ _ B B' E2) as [-> E3]. injection E3 as E3.
      destruct (H _ Hx y _ _ Gx Gy (gt_ends s) (gt_ends s') E3) as [E4 E5]. cbn in E4. injection E5 as ->. subst. auto.
  - cbn [good] in G, G'. rewrite good_all in G, G'. rewrite Forall_forall in H, G, G'. apply commas in E.
    + destruct E as [-> ->]. auto.
    + intros x [Hx|Hx]; apply text_head; auto.
    + intros x y s s' Hx Hy S S'. apply H; auto.
  - apply split_word in E; auto using const_plain, gt_ends. destruct E as [E1 E2]. injection E2 as ->. apply const_inj in E1. subst. auto.
  - cbn [good] in G, G'. destruct G as (_ & _ & G), G' as (_ & _ & G'). apply split_word in E; auto using gt_ends. destruct E as [-> E2]. injection E2 as ->. auto.
  - cbn [good] in G, G'. apply chars_inj in E; auto. destruct E as [-> ->]. auto.
  - cbn [good] in G, G'. destruct (IHg g' (62 :: r) (62 :: r')) as [-> E2]; auto using gt_ends. injection E2 as ->. auto.
  - auto.
  - auto.
  - auto.
  - cbn [word] in W. subst. auto.
Qed.

Theorem helper_inj f g f' g' : good f -> good g -> good f' -> good g' -> helper_text [f; g] = helper_text [f'; g'] -> f = f' /\ g = g'.
Proof.
  intros Gf Gg Gf' Gg' E. unfold helper_text in E. apply app_same in E; [|reflexivity]. destruct E as [_ E]. cbn [map comma_separated] in E.
  rewrite <- !app_assoc in E. apply text_inj in E; auto using comma_ends; [|cbn; unfold plain; lia|cbn; unfold plain; lia]. destruct E as [-> E].
  split; [reflexivity|]. cbn [bs app] in E. injection E as E.
  apply text_inj in E; auto; try (cbn; unfold plain; lia). tauto.
Qed.

(* ---- tags of types ---- *)

Lemma tags_Forall2 l : forall gs, tags bind_tag_of l = Some gs <-> Forall2 (fun t g => bind_tag_of t = Some g) l gs.
Proof.
  induction l as [|t l IH]; intros gs; cbn [tags].
  - split; intros H; [injection H as <-; constructor|inversion H; reflexivity].
  - split; intros H.
    + destruct (bind_tag_of t) eqn:E; [|discriminate]. destruct (tags bind_tag_of l) eqn:E2; [|discriminate]. injection H as <-.
      constructor; auto. now apply IH.
    + inversion H; subst. rewrite H2. rewrite (proj2 (IH l') H4). reflexivity.
Qed.
Lemma member_tags_Forall2 l : forall gs, member_tags bind_tag_of l = Some gs <->
  Forall2 (fun m n => fst m = fst n /\ bind_tag_of (snd m) = Some (snd n)) l gs.
Proof.
  induction l as [|[k t] l IH]; intros gs; cbn [member_tags].
  - split; intros H; [injection H as <-; constructor|inversion H; reflexivity].
  - split; intros H.
    + destruct (bind_tag_of t) eqn:E; [|discriminate]. destruct (member_tags bind_tag_of l) eqn:E2; [|discriminate]. injection H as <-.
      constructor; auto. now apply IH.
    + inversion H; subst. destruct y as [k' g], H2 as [A B]. cbn in A, B. subst. rewrite B. rewrite (proj2 (IH l') H4). reflexivity.
Qed.

Definition View (t : ctype) (g : tag) : Prop :=
  match g with
  | GSeq gs => exists l, Sequence t l /\ Forall2 (fun t g => bind_tag_of t = Some g) l gs
  | GMap gs => exists l, t = CMap l /\ Forall2 (fun m n => fst m = fst n /\ bind_tag_of (snd m) = Some (snd n)) l gs
  | GVar gs => exists l, t = CVariant l /\ Forall2 (fun t g => bind_tag_of t = Some g) l gs
  | GConst c => t = CConst c
  | GType n => t = CTypeOf n
  | GChars s => t = CChars s
  | GCont g => exists k e, t = CCont k e /\ ~ Bytes t /\ (forall n, ~ FixedBytes t n) /\ bind_tag_of e = Some g
  | GBuffer => exists n, FixedBytes t n
  | GString => t = CText
  | GDynamic => Bytes t
  | GName n => t = CEmpty n \/ exists f, t = CFund f /\ n = fund_name f
  end.

Lemma one_byte_spec t : one_byte t = true <-> char_type t.
Proof.
  unfold char_type. split; intros H.
  - destruct t as [f| | | | | | | | | | | | | | |]; try discriminate H. destruct f; try discriminate H; cbn; auto.
  - cbn in H. destruct H as [<-|[<-|[<-|[]]]]; reflexivity.
Qed.
Lemma one_byte_array_spec t : one_byte_array t = true <-> char_type t \/ t = CFund FBool.
Proof.
  rewrite <- one_byte_spec. split; intros H.
  - destruct t as [f| | | | | | | | | | | | | | |]; try discriminate H. destruct f; try discriminate H; cbn; auto.
  - destruct H as [H| ->]; [|reflexivity]. destruct t as [f| | | | | | | | | | | | | | |]; try discriminate H. destruct f; try discriminate H; reflexivity.
Qed.

Lemma view t g : bind_tag_of t = Some g <-> View t g.
Proof.
  split.
  - intros E. destruct t; cbn [bind_tag_of] in E; try discriminate E; try (injection E as <-; cbn; eauto; fail).
    + destruct (tags bind_tag_of l) as [gs|] eqn:E2; [|discriminate]. injection E as <-. exists l. split; [constructor|]. now apply tags_Forall2.
    + destruct (bind_tag_of t1) eqn:E1; [|discriminate]. destruct (bind_tag_of t2) eqn:E2; [|discriminate]. injection E as <-.
      exists [t1; t2]. split; [constructor|]. repeat constructor; auto.
    + destruct (bind_tag_of t) eqn:E1; [|discriminate]. injection E as <-. exists [t]. split; [constructor|]. repeat constructor; auto.
    + destruct (member_tags bind_tag_of l) as [gs|] eqn:E2; [|discriminate]. injection E as <-. exists l. split; [reflexivity|]. now apply member_tags_Forall2.
    + destruct (tags bind_tag_of l) as [gs|] eqn:E2; [|discriminate]. injection E as <-. exists l. split; [reflexivity|]. now apply tags_Forall2.
    + destruct k.
      * destruct (one_byte t) eqn:O.
        -- injection E as <-. constructor. now apply one_byte_spec.
        -- destruct (bind_tag_of t) eqn:E1; [|discriminate]. injection E as <-. exists Vector, t. repeat split; auto.
           ++ intros B. inversion B as [|t' HC]; subst. apply one_byte_spec in HC. congruence.
           ++ intros n B. inversion B.
      * destruct (bind_tag_of t) eqn:E1; [|discriminate]. injection E as <-. exists List, t. repeat split; auto; intros; intros B; inversion B.
      * destruct (one_byte_array t) eqn:O.
        -- injection E as <-. exists n. constructor. now apply one_byte_array_spec.
        -- destruct (bind_tag_of t) eqn:E1; [|discriminate]. injection E as <-. exists (Array n), t. repeat split; auto.
           ++ intros B. inversion B.
           ++ intros m B. inversion B as [|m' t' HC]; subst. apply one_byte_array_spec in HC. congruence.
    + injection E as <-. constructor.
    + injection E as <-. exists 16%nat. constructor.
  - destruct g; cbn [View]; intros H.
    + destruct H as (m & Q & F). inversion Q; subst; cbn [bind_tag_of].
      * apply tags_Forall2 in F. now rewrite F.
      * inversion F; subst. inversion H3; subst. inversion H5; subst. now rewrite H1, H2.
      * inversion F; subst. inversion H3; subst. now rewrite H1.
    + destruct H as (m & -> & F). cbn [bind_tag_of]. apply member_tags_Forall2 in F. now rewrite F.
    + destruct H as (m & -> & F). cbn [bind_tag_of]. apply tags_Forall2 in F. now rewrite F.
    + now subst.
    + now subst.
    + now subst.
    + destruct H as (k & e & -> & B & X & E). cbn [bind_tag_of]. destruct k.
      * destruct (one_byte e) eqn:O; [exfalso; apply B; constructor; now apply one_byte_spec|]. now rewrite E.
      * now rewrite E.
      * destruct (one_byte_array e) eqn:O; [exfalso; apply (X n); constructor; now apply one_byte_array_spec|]. now rewrite E.
    + destruct H as (n & X). inversion X; subst; [reflexivity|]. cbn [bind_tag_of]. rewrite (proj2 (one_byte_array_spec t0) H). reflexivity.
    + now subst.
    + inversion H; subst; [reflexivity|]. cbn [bind_tag_of]. rewrite (proj2 (one_byte_spec t0) H0). reflexivity.
    + destruct H as [->|(f & -> & ->)]; reflexivity.
Qed.

Lemma part_trans u t w : Part u t -> Part t w -> Part u w.
Proof.
  intros H K. induction K; auto.
  - eapply P_tuple; eauto.
  - now apply P_first.
  - now apply P_second.
  - now apply P_just.
  - eapply P_entity; eauto.
  - eapply P_map; eauto.
  - eapply P_variant; eauto.
  - now apply P_element.
Qed.
Lemma named_part t u : named t -> Part u t -> named u.
Proof.
  intros (A & B & C & D) P. refine (conj _ (conj _ (conj _ _))).
  - intros n H. apply A. eapply part_trans; eauto.
  - intros n H. apply B. eapply part_trans; eauto.
  - intros n H. apply C. eapply part_trans; eauto.
  - intros l H. apply D. eapply part_trans; eauto.
Qed.
Lemma sequence_part t l u : Sequence t l -> In u l -> Part u t.
Proof. intros Q I. inversion Q; subst; cbn in I; [econstructor; eauto; constructor| |]. 
  - destruct I as [<-|[<-|[]]]; [apply P_first|apply P_second]; constructor.
  - destruct I as [<-|[]]. apply P_just. constructor.
Qed.

Lemma fund_name_inj f g : fund_name f = fund_name g -> f = g.
Proof. destruct f, g; intros E; try reflexivity; discriminate E. Qed.

Lemma Forall2_in_l {A B} (R : A -> B -> Prop) l m x : Forall2 R l m -> In x l -> exists y, In y m /\ R x y.
Proof. intros F. induction F; intros I; [contradiction|]. destruct I as [->|I]; [exists y; split; cbn; auto|]. destruct (IHF I) as (z & Z & Q). exists z. cbn. auto. Qed.

Theorem tag_alike : forall g t u, named t -> named u -> bind_tag_of t = Some g -> bind_tag_of u = Some g -> Alike t u.
Proof.
  assert (L : forall gs, Forall (fun g => forall t u, named t -> named u -> bind_tag_of t = Some g -> bind_tag_of u = Some g -> Alike t u) gs ->
    forall l m, Forall named l -> Forall named m -> Forall2 (fun t g => bind_tag_of t = Some g) l gs -> Forall2 (fun t g => bind_tag_of t = Some g) m gs ->
    Forall2 Alike l m).
  { induction gs as [|g gs IH]; intros H l m Nl Nm F1 F2; inversion F1; subst; inversion F2; subst; [constructor|].
    inversion H; inversion Nl; inversion Nm; subst. constructor; auto. }
  induction g using tag_ind'; intros t u Nt Nu Et Eu; apply view in Et, Eu; cbn [View] in Et, Eu.
  - destruct Et as (a & Qa & Fa), Eu as (b & Qb & Fb). apply (A_seq t u a b Qa Qb). apply (L l); auto; apply Forall_forall; intros x I.
    + apply (named_part t x Nt). eapply sequence_part; eauto.
    + apply (named_part u x Nu). eapply sequence_part; eauto.
  - destruct Et as (a & -> & Fa), Eu as (b & -> & Fb).
    assert (K : Forall2 (fun x y => fst x = fst y) a b /\ Forall2 Alike (map snd a) (map snd b)).
    { assert (Na : Forall (fun m => named (snd m)) a) by (apply Forall_forall; intros [k x] I; eapply named_part; [exact Nt|]; eapply P_map; eauto; constructor).
      assert (Nb : Forall (fun m => named (snd m)) b) by (apply Forall_forall; intros [k x] I; eapply named_part; [exact Nu|]; eapply P_map; eauto; constructor).
      clear Nt Nu L. revert a b Fa Fb Na Nb. induction l as [|[k g] l IH]; intros a b Fa Fb Na Nb; inversion Fa; subst; inversion Fb; subst; [split; constructor|].
      inversion H; inversion Na; inversion Nb; subst. destruct (IH H7 l0 l1 H4 H6) as [A B]; auto.
      destruct H3 as [P1 P2], H5 as [Q1 Q2]. split; constructor; auto. congruence. }
    apply A_map; apply K.
  - destruct Et as (a & -> & Fa), Eu as (b & -> & Fb). apply A_variant. apply (L l); auto; apply Forall_forall; intros x I.
    + eapply named_part; [exact Nt|]. eapply P_variant; eauto. constructor.
    + eapply named_part; [exact Nu|]. eapply P_variant; eauto. constructor.
  - subst. constructor.
  - subst. constructor.
  - subst. constructor.
  - destruct Et as (k & e & -> & B & X & E), Eu as (k' & e' & -> & B' & X' & E'). apply A_cont; auto.
    apply IHg; auto; [eapply named_part; [exact Nt|]|eapply named_part; [exact Nu|]]; apply P_element; constructor.
  - destruct Et as (n & X), Eu as (m & Y). eapply A_fixed; eauto.
  - subst. constructor.
  - now apply A_bytes.
  - destruct Et as [->|(f & -> & ->)], Eu as [->|(f' & -> & E)].
    + constructor.
    + exfalso. apply (proj2 (proj2 (proj1 Nt n (P_self _))) f'). exact E.
    + exfalso. apply (proj2 (proj2 (proj1 Nu _ (P_self _))) f). reflexivity.
    + apply fund_name_inj in E. subst. constructor.
Qed.

Section AlikeInd.
Variable P : ctype -> ctype -> Prop.
Hypothesis H1 : forall f, P (CFund f) (CFund f).
Hypothesis H2 : forall n, P (CEmpty n) (CEmpty n).
Hypothesis H3 : forall n, P (CTypeOf n) (CTypeOf n).
Hypothesis H4 : forall c, P (CConst c) (CConst c).
Hypothesis H5 : forall s, P (CChars s) (CChars s).
Hypothesis H6 : P CText CText.
Hypothesis H7 : forall t u, Bytes t -> Bytes u -> P t u.
Hypothesis H8 : forall t u n m, FixedBytes t n -> FixedBytes u m -> P t u.
Hypothesis H9 : forall t u l m, Sequence t l -> Sequence u m -> Forall2 P l m -> P t u.
Hypothesis H10 : forall l m, Forall2 (fun a b => fst a = fst b) l m -> Forall2 P (map snd l) (map snd m) -> P (CMap l) (CMap m).
Hypothesis H11 : forall l m, Forall2 P l m -> P (CVariant l) (CVariant m).
Hypothesis H12 : forall k j t u, ~ Bytes (CCont k t) -> ~ Bytes (CCont j u) -> (forall n, ~ FixedBytes (CCont k t) n) -> (forall n, ~ FixedBytes (CCont j u) n) ->
  P t u -> P (CCont k t) (CCont j u).
Fixpoint alike_ind' t u (a : Alike t u) : P t u :=
  let all := fix go l m (f : Forall2 Alike l m) : Forall2 P l m :=
    match f with Forall2_nil _ => Forall2_nil P | Forall2_cons x y a f' => Forall2_cons x y (alike_ind' x y a) (go _ _ f') end in
  match a with
  | A_fund f => H1 f | A_empty n => H2 n | A_type n => H3 n | A_const c => H4 c | A_chars s => H5 s | A_text => H6
  | A_bytes t u b c => H7 t u b c | A_fixed t u n m b c => H8 t u n m b c
  | A_seq t u l m q r f => H9 t u l m q r (all l m f)
  | A_map l m e f => H10 l m e (all _ _ f)
  | A_variant l m f => H11 l m (all l m f)
  | A_cont k j t u b c x y a => H12 k j t u b c x y (alike_ind' t u a)
  end.
End AlikeInd.

Lemma alike_sym : forall t u, Alike t u -> Alike u t.
Proof.
  intros t u A. induction A using alike_ind'; try (constructor; fail).
  - now apply A_bytes.
  - eapply A_fixed; eauto.
  - eapply A_seq; eauto. clear H H0. induction H1; constructor; auto.
  - apply A_map; [clear H0; induction H; constructor; auto|clear H; induction H0; constructor; auto].
  - apply A_variant. induction H; constructor; auto.
  - now apply A_cont.
Qed.

Theorem alike_tag : forall t u, Alike t u -> forall g, bind_tag_of t = Some g -> bind_tag_of u = Some g.
Proof.
  assert (L : forall l m gs, Forall2 (fun t u => forall g, bind_tag_of t = Some g -> bind_tag_of u = Some g) l m ->
    Forall2 (fun t g => bind_tag_of t = Some g) l gs -> Forall2 (fun t g => bind_tag_of t = Some g) m gs).
  { intros l m gs F. revert gs. induction F; intros gs G; inversion G; subst; constructor; auto. }
  intros t u A. induction A using alike_ind'; intros g E; auto.
  - assert (g = GDynamic) by (inversion H; subst; cbn in E; [congruence|]; rewrite (proj2 (one_byte_spec t0) H1) in E; congruence).
    subst. now apply view.
  - assert (g = GBuffer) by (inversion H; subst; cbn in E; [congruence|]; rewrite (proj2 (one_byte_array_spec t0) H1) in E; congruence).
    subst. apply view. cbn. eauto.
  - apply view in E. assert (K : exists gs, g = GSeq gs /\ Forall2 (fun t g => bind_tag_of t = Some g) l gs).
    { apply view in E. inversion H; subst; cbn [bind_tag_of] in E.
      - destruct (tags bind_tag_of l) eqn:E2; [|discriminate]. injection E as <-. eexists. split; [reflexivity|]. now apply tags_Forall2.
      - destruct (bind_tag_of a) eqn:E1; [|discriminate]. destruct (bind_tag_of b) eqn:E2; [|discriminate]. injection E as <-.
        eexists. split; [reflexivity|]. repeat constructor; auto.
      - destruct (bind_tag_of t0) eqn:E1; [|discriminate]. injection E as <-. eexists. split; [reflexivity|]. repeat constructor; auto. }
    destruct K as (gs & -> & F). apply view. cbn. eauto.
  - cbn [bind_tag_of] in *. destruct (member_tags bind_tag_of l) as [gs|] eqn:E2; [|discriminate]. injection E as <-.
    replace (member_tags bind_tag_of m) with (Some gs); [reflexivity|]. symmetry. apply member_tags_Forall2. apply member_tags_Forall2 in E2.
    clear L. revert gs E2 H0. induction H; intros gs G F; inversion G; subst; constructor.
    + cbn in F. inversion F; subst. destruct H3. split; [congruence|auto].
    + cbn in F. inversion F; subst. auto.
  - cbn [bind_tag_of] in *. destruct (tags bind_tag_of l) as [gs|] eqn:E2; [|discriminate]. injection E as <-.
    replace (tags bind_tag_of m) with (Some gs); [reflexivity|]. symmetry. apply tags_Forall2. apply tags_Forall2 in E2. eauto.
  - apply view. apply view in E. assert (K : exists g', g = GCont g' /\ bind_tag_of t = Some g').
    { apply view in E. cbn [bind_tag_of] in E. destruct k.
      - destruct (one_byte t) eqn:O; [exfalso; apply H; constructor; now apply one_byte_spec|]. destruct (bind_tag_of t); [|discriminate]. injection E as <-. eauto.
      - destruct (bind_tag_of t); [|discriminate]. injection E as <-. eauto.
      - destruct (one_byte_array t) eqn:O; [exfalso; apply (H1 n); constructor; now apply one_byte_array_spec|].
        destruct (bind_tag_of t); [|discriminate]. injection E as <-. eauto. }
    destruct K as (g' & -> & Eg). cbn. exists j, u. auto.
Qed.

Lemma fund_good f : type_name (fund_name f) /\ forall r, fund_name f <> bs "nbdl::_b::tag::" ++ r.
Proof.
  split; [|intros r; destruct f; discriminate].
  split; [destruct f; discriminate|]. split.
  - unfold all_bytes, is_byte. apply Forall_forall. intros c I. assert (K : forallb (fun c => c <? 256) (fund_name f) = true) by (destruct f; vm_compute; reflexivity).
    rewrite forallb_forall in K. specialize (K c I). lia.
  - apply plain_bs. destruct f; vm_compute; reflexivity.
Qed.

Theorem tag_good : forall g t, named t -> bind_tag_of t = Some g -> good g.
Proof.
  assert (L : forall gs, Forall (fun g => forall t, named t -> bind_tag_of t = Some g -> good g) gs ->
    forall l, Forall named l -> Forall2 (fun t g => bind_tag_of t = Some g) l gs -> Forall good gs).
  { induction gs as [|g gs IH]; intros H l Nl F; inversion F; subst; constructor; inversion H; inversion Nl; subst; eauto. }
  induction g using tag_ind'; intros t Nt E; apply view in E; cbn [View] in E; cbn [good]; auto.
  - destruct E as (a & Q & F). apply good_all. apply (L l H a); auto. apply Forall_forall. intros x I. apply (named_part t x Nt). eapply sequence_part; eauto.
  - destruct E as (a & -> & F). apply good_members.
    assert (Na : Forall (fun m => all_bytes (fst m) /\ named (snd m)) a).
    { apply Forall_forall. intros [k x] I. split; [exact (proj2 (proj2 (proj2 Nt)) a (P_self _) k x I)|].
      eapply named_part; [exact Nt|]. eapply P_map; eauto. constructor. }
    clear Nt L. revert a F Na. induction H as [|[k g] l Hg Hl IH]; intros a F Na; inversion F as [|m n a' l' [Ek Eg] F']; subst; constructor;
      inversion Na as [|m' a'' [Bm Nm] Na']; subst.
    + rewrite <- Ek. split; [assumption|]. exact (Hg (snd m) Nm Eg).
    + exact (IH a' F' Na').
  - destruct E as (a & -> & F). apply good_all. apply (L l H a); auto. apply Forall_forall. intros x I.
    eapply named_part; [exact Nt|]. eapply P_variant; eauto. constructor.
  - subst. exact (proj1 (proj2 Nt) n (P_self _)).
  - subst. exact (proj1 (proj2 (proj2 Nt)) s (P_self _)).
  - destruct E as (k & e & -> & _ & _ & E). apply (IHg e); auto. eapply named_part; [exact Nt|]. apply P_element. constructor.
  - destruct E as [->|(f & -> & ->)]; [|apply fund_good]. destruct (proj1 Nt n (P_self _)) as (A & B & _). auto.
Qed.

(* ---- the signature ---- *)

Lemma signed_text_eq f t m : signed_text f t = Some m <-> exists g, bind_tag_of t = Some g /\ m = helper_text [GChars f; g].
Proof.
  unfold signed_text. cbn [bind_tag_of]. destruct (bind_tag_of t) as [g|]; split; intros H.
  - injection H as <-. eauto.
  - destruct H as (g' & E & ->). injection E as ->. reflexivity.
  - discriminate.
  - destruct H as (g' & E & _). discriminate.
Qed.

Theorem same_text f f' t u m m' : all_bytes f -> all_bytes f' -> named t -> named u ->
  signed_text f t = Some m -> signed_text f' u = Some m' -> (m = m' <-> f = f' /\ Alike t u).
Proof.
  intros Bf Bf' Nt Nu E E'. apply signed_text_eq in E as (g & Eg & ->), E' as (g' & Eg' & ->). split.
  - intros H. apply helper_inj in H; eauto using tag_good. destruct H as [H ->]. injection H as ->. split; [reflexivity|]. eapply tag_alike; eauto.
  - intros [-> A]. rewrite (alike_tag t u A g Eg) in Eg'. injection Eg' as ->. reflexivity.
Qed.

Lemma comma_bytes l : Forall all_bytes l -> all_bytes (comma_separated l).
Proof.
  induction 1 as [|x l Hx Hl IH]; [constructor|]. destruct l as [|y l]; [exact Hx|].
  change (all_bytes (x ++ bs ", " ++ comma_separated (y :: l))). apply Forall_app. split; [exact Hx|]. apply Forall_app. split; [|exact IH].
  repeat constructor; unfold is_byte; cbn; lia.
Qed.
Lemma bs_bytes s : all_bytes (bs s).
Proof.
  induction s as [|c s IH]; [constructor|]. constructor; auto. destruct c as [[] [] [] [] [] [] [] []]; unfold is_byte; cbn; lia.
Qed.
Lemma template_bytes n l : all_bytes n -> Forall all_bytes l -> all_bytes (template n l).
Proof. intros Hn Hl. unfold template. unfold all_bytes in *. rewrite !Forall_app. repeat split; auto using bs_bytes; [apply bs_bytes|apply bs_bytes|now apply comma_bytes|apply bs_bytes]. Qed.
Lemma char_bytes c : is_byte c -> all_bytes (char_text c).
Proof.
  intros H. assert (A : forallb (fun c => forallb (fun x => x <? 256) (char_text c)) all_byte_values = true) by (vm_compute; reflexivity).
  rewrite forallb_forall in A. specialize (A c (in_all_byte_values c H)). rewrite forallb_forall in A. apply Forall_forall. intros x I. specialize (A x I). unfold is_byte. lia.
Qed.
Lemma chars_bytes s : all_bytes s -> Forall all_bytes (map char_text s).
Proof. intros H. induction H; constructor; auto. now apply char_bytes. Qed.
Lemma digits_bytes s : Forall digit s -> all_bytes s.
Proof. apply Forall_impl. unfold digit, is_byte. intros c H. lia. Qed.
Lemma const_bytes c : all_bytes (const_text c).
Proof.
  destruct c as [z|[]]; [|apply bs_bytes|apply bs_bytes]. cbn [const_text]. unfold std_to_string. destruct z; try (apply digits_bytes, dec_spec).
  constructor; [unfold is_byte; lia|]. apply digits_bytes, dec_spec.
Qed.
Lemma tag_bytes g : good g -> all_bytes (tag_text g).
Proof.
  induction g using tag_ind'; cbn [good tag_text]; intros G; try apply bs_bytes.
  - apply good_all in G. apply template_bytes; [apply bs_bytes|]. rewrite Forall_forall in *. intros x I. apply in_map_iff in I as (y & <- & I). auto.
  - apply good_members in G. apply template_bytes; [apply bs_bytes|]. rewrite Forall_forall in *. intros x I. apply in_map_iff in I as (y & <- & I).
    apply template_bytes; [apply bs_bytes|]. destruct (G y I) as [Gk Gy]. constructor; [apply template_bytes; [apply bs_bytes|now apply chars_bytes]|]. constructor; [auto|constructor].
  - apply good_all in G. apply template_bytes; [apply bs_bytes|]. rewrite Forall_forall in *. intros x I. apply in_map_iff in I as (y & <- & I). auto.
  - apply template_bytes; [apply bs_bytes|]. constructor; [apply const_bytes|constructor].
  - apply template_bytes; [apply bs_bytes|]. constructor; [apply G|constructor].
  - apply template_bytes; [apply bs_bytes|]. now apply chars_bytes.
  - apply template_bytes; [apply bs_bytes|]. constructor; [auto|constructor].
  - apply G.
Qed.
Lemma signed_bytes f t m : all_bytes f -> named t -> signed_text f t = Some m -> all_bytes m.
Proof.
  intros Bf Nt E. apply signed_text_eq in E as (g & Eg & ->). unfold helper_text. unfold all_bytes. rewrite !Forall_app. repeat split; try apply bs_bytes.
  apply comma_bytes. constructor; [apply tag_bytes; exact Bf|]. constructor; [apply tag_bytes; eapply tag_good; eauto|constructor].
Qed.

Theorem signature_sha1 f t m : all_bytes f -> named t -> signed_text f t = Some m -> N.of_nat (length m) < 2 ^ 61 -> api_signature f t = Some (sha1 m).
Proof.
  intros Bf Nt E L. unfold api_signature. rewrite E. cbn [option_map]. f_equal.
  pose proof (C24_sha1 [m] (repeat 0 64)) as S. cbn [concat fold_left] in S. rewrite app_nil_r in S. apply S; auto. eapply signed_bytes; eauto.
Qed.

(* twenty bytes *)
Lemma word_bytes_bytes x : all_bytes (word_bytes x).
Proof. unfold word_bytes. repeat constructor; unfold is_byte; rewrite (N.land_ones _ 8); apply N.mod_lt; discriminate. Qed.
Lemma finish_bytes ctx : length (finish ctx) = 20%nat /\ all_bytes (finish ctx).
Proof.
  unfold finish. destruct (if Nat.ltb 56 _ then _ else _) as [d b]. cbv zeta. rewrite !app_length. split; [reflexivity|].
  unfold all_bytes. rewrite !Forall_app. repeat split; apply word_bytes_bytes.
Qed.

Fixpoint strings (n : nat) : list (list N) := match n with O => [[]] | S n => flat_map (fun s => map (fun c => c :: s) all_byte_values) (strings n) end.
Lemma in_strings n : forall s, length s = n -> all_bytes s -> In s (strings n).
Proof.
  induction n as [|n IH]; intros [|c s] L B; try discriminate L; [left; reflexivity|]. cbn [strings]. inversion B; subst. apply in_flat_map.
  exists s. split; [apply IH; auto|]. apply in_map_iff. exists c. split; [reflexivity|]. now apply in_all_byte_values.
Qed.

(* two of more values than there are results have the same *)
Lemma dup_dec (l : list (nat * list N)) : (exists i j x, i <> j /\ In (i, x) l /\ In (j, x) l) \/ (NoDup (map fst l) -> NoDup (map snd l)).
Proof.
  induction l as [|[i x] l IH]; [right; intros; constructor|]. destruct IH as [(a & b & y & D & A & B)|IH]; [left; exists a, b, y; cbn; auto|].
  destruct (in_dec (list_eq_dec N.eq_dec) x (map snd l)) as [I|I].
  - apply in_map_iff in I as ([j y] & E & I). cbn in E. subst. destruct (Nat.eq_dec i j) as [->|D].
    + right. cbn. intros N. inversion N; subst. exfalso. apply H1. apply in_map_iff. exists (j, x). auto.
    + left. exists i, j, x. cbn. auto.
  - right. cbn. intros N. inversion N; subst. constructor; auto.
Qed.
Lemma pigeon (f : nat -> list N) (all : list (list N)) : (forall n, In (f n) all) -> exists i j, i <> j /\ f i = f j.
Proof.
  intros H. set (l := map (fun n => (n, f n)) (seq 0 (S (length all)))).
  assert (F : map fst l = seq 0 (S (length all))) by (unfold l; rewrite map_map; cbn [fst]; apply map_id).
  destruct (dup_dec l) as [(i & j & x & D & A & B)|N].
  - unfold l in A, B. apply in_map_iff in A as (a & A & _), B as (b & B & _). injection A as -> <-. injection B as -> B. exists i, j. auto.
  - exfalso. assert (L : (length (map snd l) <= length all)%nat).
    { apply NoDup_incl_length; [apply N; rewrite F; apply seq_NoDup|]. intros x I. apply in_map_iff in I as ([n y] & E & I). cbn in E. subst.
      unfold l in I. apply in_map_iff in I as (k & E & _). injection E as -> <-. apply H. }
    rewrite map_length in L. unfold l in L. rewrite map_length, seq_length in L. lia.
Qed.

Fixpoint lists (n : nat) : ctype := match n with O => CFund FInt | S n => CCont List (lists n) end.
Lemma lists_named n : named (lists n).
Proof.
  assert (A : forall n u, Part u (lists n) -> u = CFund FInt \/ exists v, u = CCont List v).
  { clear n. induction n as [|n IH]; intros u P; cbn [lists] in P; inversion P; subst; eauto. }
  refine (conj _ (conj _ (conj _ _))).
  - intros x P. destruct (A _ _ P) as [E|(v & E)]; discriminate E.
  - intros x P. destruct (A _ _ P) as [E|(v & E)]; discriminate E.
  - intros x P. destruct (A _ _ P) as [E|(v & E)]; discriminate E.
  - intros x P. destruct (A _ _ P) as [E|(v & E)]; discriminate E.
Qed.
Lemma lists_tag : forall n, exists g, bind_tag_of (lists n) = Some g.
Proof. induction n as [|n [g IH]]; [eexists; reflexivity|]. cbn [lists bind_tag_of]. rewrite IH. eexists. reflexivity. Qed.
Lemma lists_alike : forall i j, Alike (lists i) (lists j) -> i = j.
Proof.
  induction i as [|i IH]; intros [|j] A; auto.
  - exfalso. inversion A; subst; try (match goal with H : Bytes _ |- _ => inversion H end); try (match goal with H : FixedBytes _ _ |- _ => inversion H end);
      match goal with H : Sequence _ _ |- _ => inversion H end.
  - exfalso. inversion A; subst; try (match goal with H : Bytes _ |- _ => inversion H; fail end); try (match goal with H : FixedBytes _ _ |- _ => inversion H; fail end);
      match goal with H : Sequence _ _ |- _ => inversion H; fail end.
  - f_equal. apply IH. cbn [lists] in A. inversion A; subst; auto; try (match goal with H : Bytes _ |- _ => inversion H; fail end);
      try (match goal with H : FixedBytes _ _ |- _ => inversion H; fail end); match goal with H : Sequence _ _ |- _ => inversion H; fail end.
Qed.
Theorem two_alike_by_chance f : exists t u d, named t /\ named u /\ ~ Alike t u /\ api_signature f t = Some d /\ api_signature f u = Some d.
Proof.
  destruct (pigeon (fun n => match api_signature f (lists n) with Some d => d | None => repeat 0 20 end) (strings 20)) as (i & j & D & E).
  - intros n. destruct (api_signature f (lists n)) as [d|] eqn:E; apply in_strings.
    + unfold api_signature in E. destruct (signed_text f (lists n)); [|discriminate]. injection E as <-. apply finish_bytes.
    + unfold api_signature in E. destruct (signed_text f (lists n)); [|discriminate]. injection E as <-. apply finish_bytes.
    + reflexivity.
    + apply Forall_forall. intros x I. apply repeat_spec in I. subst. unfold is_byte. lia.
  - assert (A : forall n, exists d, api_signature f (lists n) = Some d).
    { intros n. destruct (lists_tag n) as (g & G). unfold api_signature, signed_text. rewrite G. eexists. reflexivity. }
    destruct (A i) as (d & Ei), (A j) as (d' & Ej). rewrite Ei, Ej in E. subst d'. exists (lists i), (lists j), d.
    split; [apply lists_named|]. split; [apply lists_named|]. split; [|auto]. intros H. apply D. now apply lists_alike.
Qed.

(* ---- which types have one ---- *)
Definition unsigned (u : ctype) : Prop := (exists n, u = COther n) \/ exists n l, u = CEntity n l.
Theorem tag_exists : forall t, (exists g, bind_tag_of t = Some g) <-> forall u, Part u t -> ~ unsigned u.
Proof.
  assert (K : forall t, bind_tag_of t = None -> exists u, Part u t /\ unsigned u).
  { induction t using ctype_ind'; cbn [bind_tag_of]; intros E; try discriminate E.
    - exists (COther n). split; [constructor|left; eauto].
    - assert (T : tags bind_tag_of l = None) by (destruct (tags bind_tag_of l); [discriminate|reflexivity]). clear E.
      assert (X : exists t u, In t l /\ Part u t /\ unsigned u).
      { induction H as [|t l Ht Hl IH]; cbn [tags] in T; [discriminate|]. destruct (bind_tag_of t) eqn:E.
        - destruct (tags bind_tag_of l) eqn:E2; [discriminate|]. destruct IH as (t' & u & I & P & U); auto. exists t', u. cbn. auto.
        - destruct (Ht eq_refl) as (u & P & U). exists t, u. cbn. auto. }
      destruct X as (t & u & I & P & U). exists u. split; [eapply P_tuple; eauto|assumption].
    - destruct (bind_tag_of t1) eqn:E1.
      + destruct (bind_tag_of t2) eqn:E2; [discriminate|]. destruct (IHt2 eq_refl) as (u & P & U). exists u. split; [now apply P_second|assumption].
      + destruct (IHt1 eq_refl) as (u & P & U). exists u. split; [now apply P_first|assumption].
    - destruct (bind_tag_of t) eqn:E1; [discriminate|]. destruct (IHt eq_refl) as (u & P & U). exists u. split; [now apply P_just|assumption].
    - exists (CEntity n l). split; [constructor|right; eauto].
    - assert (T : member_tags bind_tag_of l = None) by (destruct (member_tags bind_tag_of l); [discriminate|reflexivity]). clear E.
      assert (X : exists k t u, In (k, t) l /\ Part u t /\ unsigned u).
      { induction H as [|[k t] l Ht Hl IH]; cbn [member_tags] in T; [discriminate|]. cbn in Ht. destruct (bind_tag_of t) eqn:E.
        - destruct (member_tags bind_tag_of l) eqn:E2; [discriminate|]. destruct IH as (k' & t' & u & I & P & U); auto. exists k', t', u. cbn. auto.
        - destruct (Ht eq_refl) as (u & P & U). exists k, t, u. cbn. auto. }
      destruct X as (k & t & u & I & P & U). exists u. split; [eapply P_map; eauto|assumption].
    - assert (T : tags bind_tag_of l = None) by (destruct (tags bind_tag_of l); [discriminate|reflexivity]). clear E.
      assert (X : exists t u, In t l /\ Part u t /\ unsigned u).
      { induction H as [|t l Ht Hl IH]; cbn [tags] in T; [discriminate|]. destruct (bind_tag_of t) eqn:E.
        - destruct (tags bind_tag_of l) eqn:E2; [discriminate|]. destruct IH as (t' & u & I & P & U); auto. exists t', u. cbn. auto.
        - destruct (Ht eq_refl) as (u & P & U). exists t, u. cbn. auto. }
      destruct X as (t & u & I & P & U). exists u. split; [eapply P_variant; eauto|assumption].
    - assert (T : bind_tag_of t = None).
      { destruct k; [destruct (one_byte t); [discriminate|]| |destruct (one_byte_array t); [discriminate|]]; destruct (bind_tag_of t); auto; discriminate. }
      destruct (IHt T) as (u & P & U). exists u. split; [now apply P_element|assumption]. }
  assert (J : forall u t, Part u t -> unsigned u -> bind_tag_of t = None).
  { intros u t P. induction P; intros U.
    - destruct U as [(n & ->)|(n & l & ->)]; reflexivity.
    - cbn [bind_tag_of]. replace (tags bind_tag_of l) with (@None (list tag)); [reflexivity|]. symmetry.
      specialize (IHP U). clear P. induction l as [|x l IH]; [contradiction|]. cbn [tags]. destruct H as [->|H]; [now rewrite IHP|]. rewrite (IH H). now destruct (bind_tag_of x).
    - cbn [bind_tag_of]. now rewrite (IHP U).
    - cbn [bind_tag_of]. rewrite (IHP U). now destruct (bind_tag_of a).
    - cbn [bind_tag_of]. now rewrite (IHP U).
    - reflexivity.
    - cbn [bind_tag_of]. replace (member_tags bind_tag_of l) with (@None (list (list N * tag))); [reflexivity|]. symmetry.
      specialize (IHP U). clear P. induction l as [|[k' x] l IH]; [contradiction|]. cbn [member_tags]. destruct H as [H|H]; [injection H as -> ->; now rewrite IHP|].
      rewrite (IH H). now destruct (bind_tag_of x).
    - cbn [bind_tag_of]. replace (tags bind_tag_of l) with (@None (list tag)); [reflexivity|]. symmetry.
      specialize (IHP U). clear P. induction l as [|x l IH]; [contradiction|]. cbn [tags]. destruct H as [->|H]; [now rewrite IHP|]. rewrite (IH H). now destruct (bind_tag_of x).
    - specialize (IHP U). cbn [bind_tag_of].
      assert (O : one_byte_array t = false).
      { destruct t as [f| | | | | | | | | | | | | | |]; try reflexivity; cbn in IHP; try discriminate IHP. }
      assert (O' : one_byte t = false) by (destruct t as [f| | | | | | | | | | | | | | |]; try reflexivity; destruct f; try reflexivity; discriminate O).
      destruct k; [rewrite O'| |rewrite O]; now rewrite IHP. }
  intros t. split.
  - intros (g & E) u P U. rewrite (J u t P U) in E. discriminate.
  - intros H. destruct (bind_tag_of t) as [g|] eqn:E; [eauto|]. exfalso. destruct (K t E) as (u & P & U). exact (H u P U).
Qed.

(* ---- how alike types are bound ---- *)
Lemma sequence_sizes t l : Sequence t l -> sizes t = flat_map sizes l.
Proof. intros Q. inversion Q; subst; cbn; rewrite ?app_nil_r; reflexivity. Qed.
Lemma bytes_sizes t : Bytes t -> sizes t = [].
Proof. intros B. inversion B as [|e C]; subst; [reflexivity|]. destruct C as [<-|[<-|[<-|[]]]]; reflexivity. Qed.
Lemma fixed_sizes t n : FixedBytes t n -> sizes t = [n].
Proof. intros B. inversion B as [|m e C]; subst; [reflexivity|]. destruct C as [[<-|[<-|[<-|[]]]]|E]; [| | |rewrite E]; reflexivity. Qed.
Lemma cont_sizes k t : (forall n, ~ FixedBytes (CCont k t) n) -> sizes (CCont k t) = sizes t.
Proof.
  intros X. destruct k; [reflexivity|reflexivity|]. destruct t as [f| | | | | | | | | | | | | | |]; try reflexivity.
  assert (F : forall f, one_byte_array (CFund f) = true -> FixedBytes (CCont (Array n) (CFund f)) n) by (intros g G; constructor; now apply one_byte_array_spec).
  destruct f; try reflexivity; exfalso; eapply X; apply F; reflexivity.
Qed.
Lemma Forall2_flat_length {A B} (R : A -> A -> Prop) (f : A -> list B) l m :
  (forall x y, R x y -> length (f x) = length (f y)) -> Forall2 R l m -> length (flat_map f l) = length (flat_map f m).
Proof. intros H F. induction F as [|x y l m Hxy F IH]; [reflexivity|]. cbn. rewrite !app_length. now rewrite (H x y Hxy), IH. Qed.
Lemma flat_snd (l : list (list N * ctype)) : flat_map (fun m => sizes (snd m)) l = flat_map sizes (map snd l).
Proof. induction l as [|x l IH]; [reflexivity|]. cbn. now rewrite IH. Qed.
Lemma alike_sizes : forall t u, Alike t u -> length (sizes t) = length (sizes u).
Proof.
  intros t u A. induction A using alike_ind'; try reflexivity.
  - now rewrite !bytes_sizes.
  - now rewrite (fixed_sizes t n), (fixed_sizes u m).
  - rewrite (sequence_sizes t l), (sequence_sizes u m) by assumption. eapply Forall2_flat_length; [|eassumption]. auto.
  - cbn. rewrite !flat_snd. eapply Forall2_flat_length; [|eassumption]. auto.
  - cbn. eapply Forall2_flat_length; [|eassumption]. auto.
  - rewrite !cont_sizes by assumption. assumption.
Qed.

Definition agree (t u : ctype) : Prop := forall s s', sizes t = sizes u -> shape_of t = Some s -> shape_of u = Some s' -> s = s'.
Lemma shapes_agree l m : Forall2 Alike l m -> Forall2 agree l m -> forall a b, flat_map sizes l = flat_map sizes m ->
  shapes shape_of l = Some a -> shapes shape_of m = Some b -> a = b.
Proof.
  intros A G. revert A. induction G as [|t u l m H G IH]; intros A a b E Ea Eb; cbn [shapes] in *; [congruence|].
  inversion A; subst. cbn in E. apply app_same in E; [|now apply alike_sizes]. destruct E as [E1 E2].
  destruct (shape_of t) as [x|] eqn:X; [|discriminate]. destruct (shape_of u) as [y|] eqn:Y; [|discriminate].
  destruct (shapes shape_of l) as [xs|] eqn:XS; [|discriminate]. destruct (shapes shape_of m) as [ys|] eqn:YS; [|discriminate].
  injection Ea as <-. injection Eb as <-. f_equal; auto.
Qed.
Lemma member_shapes_eq l a : member_shapes shape_of l = Some a -> map fst a = map fst l /\ shapes shape_of (map snd l) = Some (map snd a).
Proof.
  revert a. induction l as [|[k t] l IH]; intros a E; cbn in E; [injection E as <-; auto|]. destruct (shape_of t) as [x|] eqn:X; [|discriminate].
  destruct (member_shapes shape_of l) as [r|] eqn:R; [|discriminate]. injection E as <-. destruct (IH r eq_refl) as [A B]. cbn. rewrite X, B. split; [now f_equal|reflexivity].
Qed.
Lemma pairs_eq {A B} (l m : list (A * B)) : map fst l = map fst m -> map snd l = map snd m -> l = m.
Proof. revert m. induction l as [|[a b] l IH]; intros [|[c d] m] E F; cbn in *; try discriminate; [reflexivity|]. injection E as -> E. injection F as -> F. f_equal. auto. Qed.
Lemma sequence_shape t l s : Sequence t l -> shape_of t = Some s ->
  (l = [] /\ s = SEmpty) \/ (l <> [] /\ exists a, shapes shape_of l = Some a /\ s = SSeq a).
Proof.
  intros Q E. inversion Q; subst; cbn [shape_of] in E.
  - destruct l as [|x l]; [left; split; congruence|]. right. split; [discriminate|]. destruct (shapes shape_of (x :: l)) as [a|]; [|discriminate]. injection E as <-. eauto.
  - right. split; [discriminate|]. cbn [shapes]. destruct (shape_of a); [|discriminate]. destruct (shape_of b); [|discriminate]. injection E as <-. eauto.
  - right. split; [discriminate|]. cbn [shapes]. destruct (shape_of t0); [|discriminate]. injection E as <-. eauto.
Qed.
Lemma bytes_shape t : Bytes t -> shape_of t = Some (SBuffer None).
Proof. intros B. inversion B as [|e C]; subst; [reflexivity|]. cbn [shape_of]. now rewrite (proj2 (one_byte_spec e) C). Qed.
Lemma fixed_shape t n : FixedBytes t n -> shape_of t = Some (SBuffer (Some n)).
Proof. intros B. inversion B as [|m e C]; subst; [reflexivity|]. cbn [shape_of]. now rewrite (proj2 (one_byte_array_spec e) C). Qed.
Lemma cont_shape k t s : ~ Bytes (CCont k t) -> (forall n, ~ FixedBytes (CCont k t) n) -> shape_of (CCont k t) = Some s ->
  exists e, shape_of t = Some e /\ s = SCont e.
Proof.
  intros B X E. assert (K : elements_of (shape_of t) = Some s).
  { cbn [shape_of] in E. destruct k; auto.
    - destruct (one_byte t) eqn:O; [exfalso; apply B; constructor; now apply one_byte_spec|assumption].
    - destruct (one_byte_array t) eqn:O; [exfalso; apply (X n); constructor; now apply one_byte_array_spec|discriminate]. }
  unfold elements_of in K. destruct (shape_of t) as [e|]; [|discriminate]. exists e. split; [reflexivity|]. destruct e; try discriminate; congruence.
Qed.
Theorem alike_shape : forall t u, Alike t u -> agree t u.
Proof.
  assert (L : forall l m, Forall2 (fun t u => Alike t u /\ agree t u) l m -> Forall2 Alike l m /\ Forall2 agree l m).
  { intros l m F. induction F as [|x y l m [A B] F [IH1 IH2]]; split; constructor; auto. }
  intros t u A. cut (Alike t u /\ agree t u); [tauto|]. induction A using alike_ind'; unfold agree in *.
  - split; [constructor|congruence].
  - split; [constructor|congruence].
  - split; [constructor|congruence].
  - split; [constructor|congruence].
  - split; [constructor|congruence].
  - split; [constructor|congruence].
  - split; [now apply A_bytes|]. intros s s' _ E E'. rewrite bytes_shape in E, E' by assumption. congruence.
  - split; [eapply A_fixed; eauto|]. intros s s' Z E E'. rewrite (fixed_sizes t n), (fixed_sizes u m) in Z by assumption.
    rewrite (fixed_shape t n) in E by assumption. rewrite (fixed_shape u m) in E' by assumption. congruence.
  - destruct (L l m H1) as [F G]. split; [eapply A_seq; eauto|]. intros s s' Z E E'.
    rewrite (sequence_sizes t l), (sequence_sizes u m) in Z by assumption.
    destruct (sequence_shape t l s H E) as [[-> ->]|(N1 & a & Ea & ->)], (sequence_shape u m s' H0 E') as [[-> ->]|(N2 & b & Eb & ->)].
    + reflexivity.
    + inversion F. subst. congruence.
    + inversion F. subst. congruence.
    + f_equal. exact (shapes_agree l m F G a b Z Ea Eb).
  - destruct (L _ _ H0) as [F G]. split; [now apply A_map|]. intros s s' Z E E'. cbn [sizes] in Z. rewrite !flat_snd in Z. cbn [shape_of] in E, E'.
    destruct (member_shapes shape_of l) as [a|] eqn:Ea; [|discriminate]. destruct (member_shapes shape_of m) as [b|] eqn:Eb; [|discriminate].
    injection E as <-. injection E' as <-. f_equal. destruct (member_shapes_eq l a Ea) as [A1 A2], (member_shapes_eq m b Eb) as [B1 B2].
    apply pairs_eq; [|exact (shapes_agree _ _ F G _ _ Z A2 B2)]. rewrite A1, B1. clear -H. induction H; cbn; f_equal; auto.
  - destruct (L l m H) as [F G]. split; [now apply A_variant|]. intros s s' Z E E'. cbn [sizes] in Z. cbn [shape_of] in E, E'.
    destruct (shapes shape_of l) as [a|] eqn:Ea; [|discriminate]. destruct (shapes shape_of m) as [b|] eqn:Eb; [|discriminate].
    injection E as <-. injection E' as <-. f_equal. exact (shapes_agree l m F G a b Z Ea Eb).
  - destruct IHA as [A G]. split; [now apply A_cont|]. intros s s' Z E E'. rewrite !cont_sizes in Z by assumption.
    destruct (cont_shape k t s H H1 E) as (e & Ee & ->), (cont_shape j u s' H0 H2 E') as (e' & Ee' & ->). f_equal. eauto.
Qed.

(* ---- characters ---- *)

Lemma hex_digit n : n < 16 -> nth_error (bs "0123456789ABCDEF") (N.to_nat n) = Some (hex n).
Proof.
  intros H. rewrite <- (N2Nat.id n) at 2. assert (K : (N.to_nat n < 16)%nat) by lia. revert K. generalize (N.to_nat n). clear n H. intros n H.
  do 16 (destruct n as [|n]; [reflexivity|]). lia.
Qed.
Lemma escaped_literal c : is_byte c -> Literal c (escaped c).
Proof.
  intros B. unfold escaped.
  destruct (N.eqb_spec c 39) as [->|N1]; [apply (L_marked 39); vm_compute; tauto|].
  destruct (N.eqb_spec c 92) as [->|N2]; [apply (L_marked 92); vm_compute; tauto|].
  destruct (N.eqb_spec c 34) as [->|N3]; [apply (L_marked 34); vm_compute; tauto|].
  destruct (N.eqb_spec c 9) as [->|N4]; [exact L_tab|].
  destruct (N.eqb_spec c 10) as [->|N5]; [exact L_newline|].
  destruct ((32 <=? c) && (c <? 127)) eqn:E.
  - apply L_plain; [lia|]. cbn. intuition.
  - unfold is_byte in B. pose proof (N.div_mod c 16). pose proof (N.mod_lt c 16). assert (D : c / 16 < 16) by (apply N.div_lt_upper_bound; lia).
    assert (Ec : c = N.of_nat (16 * N.to_nat (c / 16) + N.to_nat (c mod 16))) by lia.
    pose proof (L_hex (N.to_nat (c / 16)) (N.to_nat (c mod 16)) _ _ (hex_digit _ D) (hex_digit (c mod 16) ltac:(lia))) as X. cbv zeta in X. rewrite <- Ec in X. apply X; lia.
Qed.

(* ---- how the JSON binder treats a type ---- *)
Lemma shapes_forall2 l r : shapes shape_of l = Some r <-> Forall2 (fun t s => shape_of t = Some s) l r.
Proof.
  revert r. induction l as [|t l IH]; intros r; cbn [shapes].
  - split; [intros E; injection E as <-; constructor|]. intros F. now inversion F.
  - split.
    + destruct (shape_of t) as [s|] eqn:E; [|discriminate]. destruct (shapes shape_of l) as [q|] eqn:Q; [|discriminate]. intros X. injection X as <-. constructor; auto. now apply IH.
    + intros F. inversion F as [|? s ? q A B]; subst. rewrite A. apply IH in B. now rewrite B.
Qed.
Lemma member_shapes_forall2 l r : member_shapes shape_of l = Some r <-> Forall2 (fun a b => fst a = fst b) l r /\ Forall2 (fun t s => shape_of t = Some s) (map snd l) (map snd r).
Proof.
  revert r. induction l as [|[k t] l IH]; intros r; cbn [member_shapes map].
  - split; [intros E; injection E as <-; repeat constructor|]. intros [F _]. now inversion F.
  - split.
    + destruct (shape_of t) as [s|] eqn:E; [|discriminate]. destruct (member_shapes shape_of l) as [q|] eqn:Q; [|discriminate]. intros X. injection X as <-.
      destruct (proj1 (IH q) eq_refl) as [A B]. split; constructor; auto.
    + intros [F G]. destruct r as [|[k' s] q]; [now inversion F|]. inversion F as [|? ? ? ? A B]; subst. cbn in *. inversion G as [|? ? ? ? C D]; subst. rewrite C.
      rewrite (proj2 (IH q) (conj B D)). reflexivity.
Qed.
Lemma forall2_bound l r : Forall (fun t => forall s, shape_of t = Some s <-> BoundAs t s) l -> (Forall2 (fun t s => shape_of t = Some s) l r <-> Forall2 BoundAs l r).
Proof.
  intros H. revert r. induction H as [|t l H _ IH]; intros r; split; intros F; inversion F; subst; constructor; try (now apply H); now apply IH.
Qed.
Ltac tear := repeat match goal with
  | X : _ \/ _ |- _ => destruct X | X : _ /\ _ |- _ => destruct X | X : exists _, _ |- _ => destruct X
  | X : Bytes _ |- _ => inversion X; clear X | X : FixedBytes _ _ |- _ => inversion X; clear X | X : Sequence _ _ |- _ => inversion X; clear X end; subst; try congruence; try reflexivity.
Lemma shape_bound t : forall s, shape_of t = Some s <-> BoundAs t s.
Proof.
  induction t using ctype_ind'; intros sh.
  - split; [intros E; destruct f; cbn in E; try discriminate; injection E as <-; constructor|]. intros B. inversion B; tear.
  - split; [discriminate|]. intros B. inversion B; tear.
  - split; [intros E; injection E as <-; apply J_empty; eauto|]. intros B. inversion B; tear.
  - split; [intros E; injection E as <-; apply J_empty; eauto|]. intros B. inversion B; tear.
  - split; [intros E; injection E as <-; apply J_empty; eauto|]. intros B. inversion B; tear.
  - split; [intros E; injection E as <-; apply J_empty; left; eauto|]. intros B. inversion B; tear.
  - destruct l as [|t l]; [split; [intros E; injection E as <-; apply J_empty; auto|]; intros B; inversion B; tear|].
    cbn [shape_of]. remember (t :: l) as tl eqn:Q. split.
    + destruct (shapes shape_of tl) as [r|] eqn:E; [|discriminate]. intros X. injection X as <-. apply shapes_forall2 in E. apply (J_seq _ tl); [constructor|congruence|]. now apply forall2_bound.
    + intros B. inversion B; tear. apply forall2_bound in H2; [|assumption]. apply shapes_forall2 in H2. now rewrite H2.
  - cbn [shape_of]. split.
    + destruct (shape_of t1) as [x|] eqn:E1; [|discriminate]. destruct (shape_of t2) as [y|] eqn:E2; [|discriminate]. intros X. injection X as <-.
      apply (J_seq _ [t1; t2]); [constructor|discriminate|]. constructor; [now apply IHt1|]. constructor; [now apply IHt2|constructor].
    + intros B. inversion B; tear. inversion H1 as [|? x ? q A F]; subst. inversion F as [|? y ? q' A' F']; subst. inversion F'; subst. apply IHt1 in A. apply IHt2 in A'. now rewrite A, A'.
  - cbn [shape_of]. split.
    + destruct (shape_of t) as [x|] eqn:E1; [|discriminate]. intros X. injection X as <-. apply (J_seq _ [t]); [constructor|discriminate|]. constructor; [now apply IHt|constructor].
    + intros B. inversion B; tear. inversion H1 as [|? x ? q A F]; subst. inversion F; subst. apply IHt in A. now rewrite A.
  - assert (M : Forall (fun t => forall s, shape_of t = Some s <-> BoundAs t s) (map snd l)) by now apply Forall_map. cbn [shape_of]. split.
    + destruct (member_shapes shape_of l) as [r|] eqn:E; [|discriminate]. intros X. injection X as <-. apply member_shapes_forall2 in E as [A B]. apply (J_members _ l); eauto. now apply forall2_bound.
    + intros B. inversion B; tear. all: match goal with X : _ = _ |- _ => try (injection X as ->) end; try subst.
      all: match goal with F : Forall2 (fun a b => fst a = fst b) _ _, G : Forall2 BoundAs _ _ |- _ => apply forall2_bound in G; [|assumption]; rewrite (proj2 (member_shapes_forall2 _ _) (conj F G)); reflexivity end.
  - assert (M : Forall (fun t => forall s, shape_of t = Some s <-> BoundAs t s) (map snd l)) by now apply Forall_map. cbn [shape_of]. split.
    + destruct (member_shapes shape_of l) as [r|] eqn:E; [|discriminate]. intros X. injection X as <-. apply member_shapes_forall2 in E as [A B]. apply (J_members _ l); eauto. now apply forall2_bound.
    + intros B. inversion B; tear. all: match goal with X : _ = _ |- _ => try (injection X as ->) end; try subst.
      all: match goal with F : Forall2 (fun a b => fst a = fst b) _ _, G : Forall2 BoundAs _ _ |- _ => apply forall2_bound in G; [|assumption]; rewrite (proj2 (member_shapes_forall2 _ _) (conj F G)); reflexivity end.
  - cbn [shape_of]. split.
    + destruct (shapes shape_of l) as [r|] eqn:E; [|discriminate]. intros X. injection X as <-. apply shapes_forall2 in E. apply J_variant. now apply forall2_bound.
    + intros B. inversion B; tear. apply forall2_bound in H1; [|assumption]. apply shapes_forall2 in H1. now rewrite H1.
  - assert (EL : elements_of (shape_of t) = Some sh <-> exists e, sh = SCont e /\ BoundAs t e /\ e <> SEmpty).
    { unfold elements_of. destruct (shape_of t) as [e|] eqn:E.
      - assert (Be : BoundAs t e) by now apply IHt. split.
        + intros X. exists e. destruct e; try discriminate; injection X as <-; repeat split; auto; discriminate.
        + intros (e' & -> & B & N). apply IHt in B. injection B as <-. destruct e; congruence.
      - split; [discriminate|]. intros (e & -> & B & _). apply IHt in B. discriminate. }
    destruct k as [| |n]; cbn [shape_of].
    + destruct (one_byte t) eqn:O.
      * assert (C : char_type t) by now apply one_byte_spec. split; [intros X; injection X as <-; now apply J_bytes, B_vector|].
        intros B. inversion B; tear; try contradiction.
      * assert (C : ~ char_type t) by (intros C; apply one_byte_spec in C; congruence). rewrite EL. split.
        -- intros (e & -> & B & N). apply J_cont; auto.
        -- intros B. inversion B; tear; try contradiction. eauto.
    + rewrite EL. split; [intros (e & -> & B & N); apply J_cont; auto|]. intros B. inversion B; tear. eauto.
    + destruct (one_byte_array t) eqn:O.
      * apply one_byte_array_spec in O. split; [intros X; injection X as <-; now apply J_fixed, X_array|]. intros B. inversion B; tear.
      * split; [discriminate|]. intros B. assert (O' : ~ (char_type t \/ t = CFund FBool)) by (intros X; apply one_byte_array_spec in X; congruence). inversion B; tear; exfalso; auto.
  - split; [intros E; injection E as <-; apply J_bytes; constructor|]. intros B. inversion B; tear.
  - split; [intros E; injection E as <-; constructor|]. intros B. inversion B; tear.
  - split; [intros E; injection E as <-; apply J_fixed; constructor|]. intros B. inversion B; tear.
Qed.
