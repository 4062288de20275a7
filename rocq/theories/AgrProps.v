(* C34: the calls that StoreModel.v gives for messages are those of the step machine of LifeModel.v. *)
From Verif Require Import Base StoreModel AgrSpec AgrProofs.
From Verif Require LifeModel LifeSpec.
Open Scope nat_scope.

(* for all stores, shapes and producers which answer with messages for the consumers: a whole life of the context ends without
   undefined behaviour, and the messages and notifications in it are the ones of push, in this order *)
Theorem C34_machine : forall S apply static_false look foreign fresh P X react (start : option X -> P) sh args ms,
  (forall t, producer_of sh t < length (actors sh)) -> (forall p m d, In d (snd (react p m)) -> is_upstream d = false) -> length args = length (actors sh) ->
  exists n, let s := LifeModel.exec S apply static_false look foreign fresh P X (plain_shape P X react start sh) (length (actors sh)) n
                       (LifeModel.life S P X (plain_shape P X react start sh) (length (actors sh)) args ms) in
    LifeModel.ub S P X s = false /\ LifeModel.todo S P X s = [] /\
    filter LifeSpec.delivery (LifeModel.log S P X s) =
    map (call_of X) (snd (run S apply static_false look foreign P react sh {| stores := fresh; producers := fun i => start (nth i args None) |} (map Push ms))).
Proof.
  intros S apply static_false look foreign fresh P X react start sh args ms Hp Ha La.
  exact (whole S apply static_false look foreign fresh P X react start sh Hp Ha args ms La).
Qed.
Print Assumptions C34_machine.

(* a match by an actor, in a machine whose stores and actors are those of [st]: the calls are those of context_match, and the
   function of the actor goes on with what context_match finds *)
Theorem C34_match : forall S apply static_false look foreign fresh P X react (start : option X -> P) sh st s f i p k r st' e o,
  (forall t, producer_of sh t < length (actors sh)) -> (forall q m d, In d (snd (react q m)) -> is_upstream d = false) ->
  LifeModel.ub S P X s = false -> LifeModel.stores S P X s = Some f -> (forall t, f t = stores st t) ->
  (forall j, j < length (actors sh) -> LifeModel.state S P X s j = Some (producers st j)) ->
  LifeModel.todo S P X s = LifeModel.Run i (LifeModel.Look p k) :: r ->
  context_match S apply static_false look foreign P react sh st p = (st', e, o) ->
  exists n f', let s' := LifeModel.exec S apply static_false look foreign fresh P X (plain_shape P X react start sh) (length (actors sh)) n s in
    LifeModel.ub S P X s' = false /\ LifeModel.todo S P X s' = LifeModel.Run i (k o) :: r /\
    LifeModel.stores S P X s' = Some f' /\ (forall t, f' t = stores st' t) /\
    (forall j, j < length (actors sh) -> LifeModel.state S P X s' j = Some (producers st' j)) /\
    filter LifeSpec.delivery (LifeModel.log S P X s') = filter LifeSpec.delivery (LifeModel.log S P X s) ++ map (call_of X) e.
Proof.
  intros S apply static_false look foreign fresh P X react start sh st s f i p k r st' e o Hp Ha U Hf Hs Hst T E.
  pose proof (look_go S apply static_false look foreign fresh P X react start sh Hp Ha i p k st s r (conj U (conj (ex_intro _ f (conj Hf Hs)) Hst)) T) as G.
  rewrite E in G. destruct G as (n & (A1 & (f' & A2 & A3) & A4) & B & C). exists n, f'. cbv zeta. auto 7.
Qed.
Print Assumptions C34_match.

(* echo_producer is such a producer *)
Lemma echo_down : forall md p m d, In d (snd (echo_react md p m)) -> is_upstream d = false.
Proof.
  intros md p m d H. unfold echo_react in H. destruct (requires_key m); cbn [snd] in H.
  - destruct (to_downstream_with_key m _ None) as [x|] eqn:E; [|destruct H]. destruct H as [<-|[]]. unfold to_downstream_with_key in E.
    repeat match type of E with context [match ?x with _ => _ end] => destruct x; try discriminate end; injection E as <-; reflexivity.
  - destruct (to_downstream m None) as [x|] eqn:E; [|destruct H]. destruct H as [<-|[]]. unfold to_downstream in E.
    repeat match type of E with context [match ?x with _ => _ end] => destruct x; try discriminate end; injection E as <-; reflexivity.
Qed.
Example C34_machine_ex :
  let sh := {| actors := [{| consumer := false; state_consumer := false |}; {| consumer := true; state_consumer := true |}; {| consumer := true; state_consumer := false |}];
               producer_of := fun _ => 0; listeners_of := fun _ => [1] |} in
  let start := fun _ : option unit => (fun _ : N => 0%N) in
  let p1 := mk_path 0 [1%N] in
  let made := make_downstream_create 0%N (PPath p1) None (Entity 5) None in
  let create := make_upstream_create 0%N (PCreate 0 []) None (Entity 5) None in
  let gone := make_downstream_delete 0%N (PPath p1) None None in
  let s := LifeModel.exec table map_apply map_static_false map_match (fun s m => (s, [mk_path 1 []])) (fun _ => []) counters unit (plain_shape counters unit (echo_react 256) start sh) 3 200
             (LifeModel.life table counters unit (plain_shape counters unit (echo_react 256) start sh) 3 [None; None; None] [create; gone]) in
  (forall t, producer_of sh t < length (actors sh)) /\
  LifeModel.todo table counters unit s = [] /\
  filter LifeSpec.delivery (LifeModel.log table counters unit s) =
    [LifeModel.GotUp 0 create; LifeModel.Notified 1 p1; LifeModel.GotDown 1 made; LifeModel.GotDown 2 made; LifeModel.Notified 1 (mk_path 1 []);
     LifeModel.Notified 1 p1; LifeModel.GotDown 1 gone; LifeModel.GotDown 2 gone; LifeModel.Notified 1 (mk_path 1 [])].
Proof. split; [intros t; cbn; lia|]. split; vm_compute; reflexivity. Qed.
(* a store which always asks: the producer gets a read, and the actor sees that the path is not resolved *)
Example C34_match_ex :
  let sh := {| actors := [{| consumer := false; state_consumer := false |}; {| consumer := true; state_consumer := true |}]; producer_of := fun _ => 0; listeners_of := fun _ => [] |} in
  let p1 := mk_path 0 [1%N] in
  let k := fun o => match o with Unresolved => LifeModel.Set_ 7 LifeModel.Ret | _ => LifeModel.Ret end in
  let s0 := LifeModel.Build_machine unit nat unit (Some (fun _ => tt)) (fun _ => Some 0) [LifeModel.Run 1 (LifeModel.Look p1 k)] [] false in
  let s := LifeModel.exec unit (fun u _ => (u, false)) (fun _ => true) (fun _ _ => TriggerRead) (fun u _ => (u, [])) (fun _ => tt) nat unit
             (plain_shape nat unit (fun n _ => (n + 1, [])) (fun _ => 0) sh) 2 20 s0 in
  LifeModel.log unit nat unit s = [LifeModel.GotUp 0 (make_upstream_read 0 (PPath p1) None)] /\
  LifeModel.state unit nat unit s 1 = Some 7 /\ LifeModel.state unit nat unit s 0 = Some 1 /\ LifeModel.todo unit nat unit s = [].
Proof. vm_compute. repeat split. Qed.
