(* What is expected of the life of a context; stated on the calls that its actors get. *)
From Verif Require Import Base StoreModel LifeModel.
Open Scope nat_scope.

(* constructed, initialised and destroyed: the calls that are no messages *)
Definition lifecycle {X} (e : event X) : bool :=
  match e with
  | Constructed _ _ | StoresMade | InitedProducer _ | InitedConsumer _ | StoresDropped | Destructed _ => true
  | _ => false
  end.

(* each actor is constructed with its argument, then the stores; the producers are initialised, then the consumers; the
   stores are destroyed and then the actors, in the reverse order *)
Definition whole_life {X} (args : list (option X)) (producers consumers : list nat) : list (event X) :=
  map (fun x => Constructed (fst x) (snd x)) (combine (seq 0 (length args)) args) ++ [StoresMade] ++
  map InitedProducer producers ++ map InitedConsumer consumers ++ [StoresDropped] ++
  map Destructed (rev (seq 0 (length args))).

Definition prefix {E} (a b : list E) : Prop := exists c, a ++ c = b.

(* messages and notifications *)
Definition delivery {X} (e : event X) : bool :=
  match e with GotUp _ _ | GotDown _ _ | Notified _ _ => true | _ => false end.

(* every call that satisfies [p] comes after the call [e] *)
Definition only_after {X} (e : event X) (p : event X -> bool) (l : list (event X)) : Prop :=
  forall l1 x l2, l = l1 ++ x :: l2 -> p x = true -> In e l1.

(* the messages that actor [i] got as a consumer *)
Definition heard {X} (i : nat) (l : list (event X)) : list msg :=
  flat_map (fun e => match e with GotDown j m => if Nat.eqb j i then [m] else [] | _ => [] end) l.
(* the messages that were for the consumers, in the order in which the context had them *)
Definition accepted {X} (l : list (event X)) : list msg :=
  flat_map (fun e => match e with Accepted m | Answered m => [m] | _ => [] end) l.
(* without the context's own answers to reads *)
Definition applied {X} (l : list (event X)) : list msg :=
  flat_map (fun e => match e with Accepted m => [m] | _ => [] end) l.

(* a function that does not use the handle *)
Fixpoint quiet {A} (p : prog A) : Prop :=
  match p with
  | Ret => True
  | Get k => forall a, quiet (k a)
  | Set_ _ k => quiet k
  | Push _ _ | Look _ _ => False
  end.
(* a function that applies no messages *)
Fixpoint tame {A} (p : prog A) : Prop :=
  match p with
  | Ret => True
  | Get k => forall a, tame (k a)
  | Set_ _ k => tame k
  | Push _ _ => False
  | Look _ k => forall o, tame (k o)
  end.
(* a function, called when its object has the members [a], comes to use the handle *)
Fixpoint uses {A} (a : A) (p : prog A) : Prop :=
  match p with
  | Ret => False
  | Get k => uses a (k a)
  | Set_ a' k => uses a' k
  | Push _ _ | Look _ _ => True
  end.

(* what is known of the entity at [p] after one more message: created and updated entities replace what was known, one that
   was read does not *)
Definition learn (p : path) (v : option payload) (m : msg) : option payload :=
  match path_of m with
  | Some q => if path_eqb q p then
                match mkind m with
                | DownCreate | DownUpdate => Some (payload_of m)
                | DownRead => match v with None => Some (payload_of m) | Some x => Some x end
                | DownDelete => None
                | _ => v
                end
              else v
  | None => v
  end.
Definition known (p : path) (l : list msg) : option payload := fold_left (learn p) l None.
