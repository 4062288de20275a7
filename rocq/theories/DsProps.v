(* C72: the C++ class for a store definition. *)
From Coq Require Import String Permutation.
From Verif Require Import Base RouteSpec TrModel TrSpec TrProofs DsModel DsSpec DsProofs.
Open Scope N_scope.

(* PARTIAL: the full statement has the unqualified name of the symbol for the name of the class, and also covers members that are
   variants; both are refuted below. *)
Theorem C72_class_partial d : def_ok d ->
  exists t c, write_define d = Wrote t /\ class_text c t /\ (~ In 58 (d_sym d) -> c_name c = d_sym d) /\ same_class d c /\ safe_moves (c_inits c) /\
  (NoDup (asked (d_members d)) -> Forall (fun n => ~ made_up n) (asked (d_members d)) -> NoDup (map snd (c_fields c))).
Proof.
  intros H. destruct (class_spec d H) as (t & c & ns & A & B & C & D & E & Io & F). exists t, c. split; [exact A|]. split; [exact B|]. split; [|split; [exact D|split; [exact E|]]].
  - intros K. rewrite C. apply get_name_plain, K.
  - destruct D as (_ & _ & _ & _ & _ & D). intros N1 N2. rewrite <- D, (inits_of_fst _ _ _ Io), F. apply member_names_nodup; assumption.
Qed.
Print Assumptions C72_class_partial.

(* An argument is forwarded where it is used last, if it is used once there, and nowhere else. *)
Theorem C72_forwarded d : def_ok d -> exists t c, write_define d = Wrote t /\ class_text c t /\ same_class d c /\
  forall pre m post ipre i ipost, d_members d = pre ++ m :: post -> c_inits c = ipre ++ i :: ipost -> length ipre = length pre ->
    forall k, In (AArg k) (args_of (snd m)) ->
      (In (Fwd (arg_name k)) (snd i) <-> (length (filter (is_arg k) (args_of (snd m))) = 1%nat /\ forall m', In m' post -> ~ In (AArg k) (args_of (snd m')))).
Proof.
  intros H. destruct (class_spec d H) as (t & c & ns & A & B & C & D & E & Io & _). exists t, c. split; [exact A|]. split; [exact B|]. split; [exact D|].
  destruct H as (_ & _ & Hf). revert Io Hf. generalize (d_members d) (c_inits c). intros ms is Io Hf pre m post. revert ms ns is Io Hf.
  induction pre as [|m0 pre IH]; intros ms ns is Io Hf ipre i ipost Em Ei L k Hk.
  - destruct ipre; [|discriminate L]. cbn in Em, Ei. subst ms. inversion Io as [|ky ty args rest n ns' es is' He Ir E1 E2 E3]; subst. injection E3 as E3 E3'. subst. cbn [snd args_of] in *. inversion Hf as [|? ? Hm Hr]; subst.
    assert (La : last_use k args post <-> (length (filter (is_arg k) args) = 1%nat /\ forall m', In m' post -> ~ In (AArg k) (args_of (snd m')))).
    { unfold last_use. split; intros (A1 & A2); (split; [exact A1|]).
      - intros m' Hm' K. apply A2. exists m'. split; [exact Hm'|]. eapply filter_length_in; [exact K|]. cbn. apply Nat.eqb_refl.
      - intros (m' & Hm' & K). apply (A2 m' Hm'). unfold count_args in K. destruct (filter (is_arg k) (args_of (snd m'))) as [|x r] eqn:F; [cbn in K; lia|].
        assert (X : In x (filter (is_arg k) (args_of (snd m')))) by (rewrite F; left; reflexivity). apply filter_In in X. destruct X as [X1 X2]. destruct x; try discriminate X2. cbn in X2. apply Nat.eqb_eq in X2. subst. exact X1. }
    rewrite <- La. split.
    + intros F. assert (S : exists a, In a args /\ init_expr args post a (Fwd (arg_name k))).
      { clear - He F. revert He. generalize (init_expr args post). intros Q HQ. induction HQ as [|a e l l' Ha _ IH]; [destruct F|]. destruct F as [->|F]; [exists a; split; [left; reflexivity|exact Ha]|]. destruct (IH F) as (b & B1 & B2). exists b. split; [right; exact B1|exact B2]. }
      destruct S as (a & _ & (S1 & S2 & S3)). destruct (S3 _ eq_refl) as (j & ->). cbn in S1. apply arg_name_inj in S1. subst j. apply (S2 k eq_refl). reflexivity.
    + intros Lu. assert (S : exists e, In e es /\ init_expr args post (AArg k) e).
      { clear - He Hk. revert He. generalize (init_expr args post). intros Q HQ. induction HQ as [|a e l l' Ha _ IH]; [destruct Hk|]. destruct Hk as [->|Hk]; [exists e; split; [left; reflexivity|exact Ha]|]. destruct (IH Hk) as (b & B1 & B2). exists b. split; [right; exact B1|exact B2]. }
      destruct S as (e & Se & (_ & S2 & _)). apply (S2 k eq_refl) in Lu. subst e. exact Se.
  - destruct ipre as [|i0 ipre]; [discriminate L|]. cbn in Em, Ei. inversion Io as [|ky ty args rest n ns' es is' He Ir E1 E2 E3]; subst; [discriminate|]. injection E1 as E1 E1'. injection E3 as E3 E3'. subst. inversion Hf; subst.
    eapply IH; [exact Ir|assumption|reflexivity|reflexivity|cbn in L; lia|exact Hk].
Qed.
Print Assumptions C72_forwarded.

Definition d_ex : def := {| d_sym := bs "app_state"; d_params := 3; d_base := None; d_members :=
  [(KMember (bs "user"), VStore (bs "ns::user") [AArg 0; AArg 1]); (KOther, VStore (bs "ns::log") [AArg 1; AText (bs "7"); AArg 1]); (KOther, VStore (bs "ns::net") [AArg 2; AArg 0])] |}.
Example C72_ex : def_ok d_ex /\ write_define d_ex = Wrote (bs "class app_state {
public:
ns::user user;
ns::log anon_3;
ns::net anon_4;
app_state() = default;
explicit app_state(auto&& arg_0, auto&& arg_1, auto&& arg_2) 
: user(arg_0, arg_1), anon_3(arg_1, 7, arg_1), anon_4(static_cast<decltype(arg_2)>(arg_2), static_cast<decltype(arg_0)>(arg_0))
{ }
};
").
Proof.
  split; [|vm_compute; reflexivity]. split; [discriminate|]. split; [exact I|]. repeat constructor; cbn; try lia; try discriminate.
  intros (k & E). discriminate E.
Qed.

(* Without members: nothing composed is a tag, and a store or a variant of stores is a class of its own over its type; an argument has no type. *)
Theorem C72_no_members d : d_members d = [] -> ~ In 58 (d_sym d) ->
  match d_base d with
  | None => write_define d = Wrote (tag_text (d_sym d))
  | Some v => (mentions_arg v /\ forall t, write_define d <> Wrote t) \/ (~ mentions_arg v /\ exists ty, type_spelled v ty /\ write_define d = Wrote (alias_text (d_sym d) ty))
  end.
Proof.
  intros Hm Hs. unfold write_define. rewrite Hm. destruct (d_base d) as [v|]; [|now rewrite get_name_plain by exact Hs].
  destruct (type_text_spec v) as [[M F]|(M & t & F & S)].
  - left. split; [exact M|]. intros t E. destruct v; try discriminate E; unfold write_alias in E; rewrite F in E; discriminate E.
  - right. split; [exact M|]. exists t. split; [exact S|]. destruct v; [| |destruct M; constructor]; unfold write_alias; rewrite F; cbn [wbind]; rewrite get_name_plain by exact Hs; reflexivity.
Qed.
Print Assumptions C72_no_members.
Example C72_no_members_ex :
  write_define {| d_sym := bs "root"; d_params := 1; d_base := Some (VVariant [VStore (bs "a") [AArg 0]; VVariant []; VStore (bs "b<int>") []]); d_members := [] |} =
    Wrote (alias_text (bs "root") (bs "::nbdl::variant_holder<a, ::nbdl::variant_holder<>, b<int>>")) /\
  write_define {| d_sym := bs "t"; d_params := 0; d_base := None; d_members := [] |} = Wrote (bs "struct t { };" ++ nl).
Proof. vm_compute. split; reflexivity. Qed.

(* ---- where it fails ---- *)

(* The name of a qualified symbol: right exactly when what is before the last colon is as long as what is after it. *)
Theorem C72_name_refuted : (forall q n, ~ In 58 n -> (get_name (q ++ [58] ++ n) = n <-> length q = length n)) /\
  exists s n, unqualified s n /\ get_name s <> n.
Proof.
  split; [exact get_name_qualified|]. exists (bs "my::store"), (bs "store"). split.
  - split; [cbn; intuition discriminate|]. right. exists (bs "my:"). reflexivity.
  - vm_compute. discriminate.
Qed.
Print Assumptions C72_name_refuted.
Example C72_name_ex : write_define {| d_sym := bs "my::store"; d_params := 0; d_base := None; d_members := [] |} = Wrote (bs "struct ore { };" ++ nl).
Proof. vm_compute. reflexivity. Qed.

(* A definition that is a single store forgets how to initialise it. *)
Theorem C72_single_refuted sym n ty args args' : write_define {| d_sym := sym; d_params := n; d_base := Some (VStore ty args); d_members := [] |} =
  write_define {| d_sym := sym; d_params := n; d_base := Some (VStore ty args'); d_members := [] |}.
Proof. reflexivity. Qed.
Print Assumptions C72_single_refuted.

(* A member that is a variant is never translated, and it can be undefined behaviour to try. *)
Theorem C72_variant_refuted : (forall d ky alts, In (ky, VVariant alts) (d_members d) -> forall t, write_define d <> Wrote t) /\
  (exists d, write_define d = Bad /\ d_base d = None /\ (forall m, In m (d_members d) -> forall k, snd m <> VArg k)).
Proof.
  split.
  - intros d ky alts H t E. unfold write_define in E. destruct (d_members d) as [|m ms] eqn:Em; [destruct H|].
    assert (W : write_class d = Wrote t) by (destruct (d_base d) as [[]|]; try discriminate E; exact E). unfold write_class in W. rewrite Em in W.
    destruct (write_fields _ _); try discriminate W. cbn [wbind] in W. destruct (write_inits d (m :: ms) _) as [l| |] eqn:Ei; try discriminate W.
    apply write_inits_variant in Ei. rewrite Forall_forall in Ei. destruct (Ei _ H) as (? & ? & Q). discriminate Q.
  - exists {| d_sym := bs "s"; d_params := 1; d_base := None; d_members := [(KOther, VStore (bs "a") [AArg 0]); (KOther, VVariant [VStore (bs "b") [AArg 0]])] |}.
    split; [vm_compute; reflexivity|]. split; [reflexivity|]. intros m [<-|[<-|[]]] k; discriminate.
Qed.
Print Assumptions C72_variant_refuted.

(* contexts, which are definitions of members with names: always a class *)
Theorem C72_context : forall name formals ms, ms <> [] -> ~ In 58 name -> Forall (fun m => Forall (arg_ok formals) (m_args m)) ms ->
  exists t c, write_define (context_def name formals ms) = Wrote t /\ class_text c t /\ c_name c = name /\ context_class formals ms c /\ safe_moves (c_inits c).
Proof.
  intros name formals ms Hn Hs Ha. destruct (C72_class_partial (context_def name formals ms)) as (t & c & A & B & C & (_ & _ & D1 & D2 & D3 & D4) & E & _).
  - split; [cbn; destruct ms; [congruence|discriminate]|]. split; [exact I|]. cbn. apply Forall_map. exact Ha.
  - exists t, c. split; [exact A|]. split; [exact B|]. split; [exact (C Hs)|]. split; [|exact E]. split; [exact D1|].
    assert (F : c_fields c = map (fun m => (m_type m, m_name m)) ms).
    { clear -D2. cbn in D2. revert D2. generalize (c_fields c). induction ms as [|m ms IH]; intros l D2; inversion D2 as [|? ? ? ? (H1 & H2) H3]; subst; [reflexivity|]. cbn.
      rewrite <- (IH _ H3). cbn in H1, H2. rewrite H1, <- H2. now destruct y. }
    split; [exact F|]. rewrite F, map_map in D4. cbn [snd] in D4. clear -D3 D4. cbn in D3. revert D3 D4. generalize (c_inits c).
    induction ms as [|m ms IH]; intros l D3 D4; inversion D3 as [|? ? ? ? H1 H3]; subst; [constructor|]. cbn in D4. injection D4 as X Y. constructor; [split; [exact X|exact H1]|now apply IH].
Qed.
Print Assumptions C72_context.
(* the example of the test *)
Example C72_context_ex : write_define (context_def (bs "my_context") 2
  [{| m_name := bs "foo"; m_type := bs "int"; m_args := [AText (bs "42")] |}; {| m_name := bs "baz"; m_type := bs "int"; m_args := [AArg 0] |};
   {| m_name := bs "boo"; m_type := bs "std::string"; m_args := [AArg 1] |}]) = Wrote (bs "class my_context {
public:
int foo;
int baz;
std::string boo;
my_context() = default;
explicit my_context(auto&& arg_0, auto&& arg_1) 
: foo(42), baz(static_cast<decltype(arg_0)>(arg_0)), boo(static_cast<decltype(arg_1)>(arg_1))
{ }
};
").
Proof. vm_compute. reflexivity. Qed.

(* What is written for the operation nbdl.context takes the constructors of a class that is not its base, whatever it is for. *)
Theorem C72_context_op_refuted : forall sym impl, exists base alias, write_context_op sym impl = over_text (get_name sym) base alias /\ base <> alias.
Proof.
  intros sym impl. exists (bs "nbdl::context_alias<" ++ impl ++ bs ", /*is_moveable=*/false>"), (bs "nbdl::context_alias<" ++ impl ++ bs ">"). split.
  - unfold write_context_op, over_text. rewrite <- !app_assoc. reflexivity.
  - intros E. apply (f_equal (@length N)) in E. rewrite !app_length in E. cbn in E. lia.
Qed.
Print Assumptions C72_context_op_refuted.
