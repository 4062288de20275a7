(* The context of StoreModel.v, in which producers answer in one go and consumers only listen, as a context of
   LifeModel.v, in which all actors are programs. *)
From Verif Require Import Base StoreModel.
From Verif Require LifeModel.
Open Scope nat_scope.

Section Plain.
Variable P : Type.
Variable X : Type.
Variable react : P -> msg -> P * list msg.
Variable start : option X -> P.

(* apply these messages *)
Definition say (ms : list msg) : LifeModel.prog P := fold_right LifeModel.Push LifeModel.Ret ms.
Definition plain (a : actor) : LifeModel.kind P X :=
  LifeModel.Build_kind P X true (consumer a) (state_consumer a) (fun x => (start x, LifeModel.Ret)) LifeModel.Ret LifeModel.Ret
    (fun m => LifeModel.Get (fun p => LifeModel.Set_ (fst (react p m)) (say (snd (react p m)))))
    (fun _ => LifeModel.Ret) (fun _ => LifeModel.Ret) LifeModel.Ret.
Definition plain_shape (sh : shape) : LifeModel.shape P X :=
  LifeModel.Build_shape P X (fun i => plain (nth i (actors sh) {| consumer := false; state_consumer := false |})) (producer_of sh) (listeners_of sh).

(* a call, without the stores at its moment *)
Definition call_of {S} (e : event S) : LifeModel.event X :=
  match e with
  | ToProducer i m _ => LifeModel.GotUp i m
  | ToConsumer i m _ => LifeModel.GotDown i m
  | Notify i p _ => LifeModel.Notified i p
  end.
End Plain.
