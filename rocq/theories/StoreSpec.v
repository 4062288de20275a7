(* What C32-C36 talk about. *)
From Verif Require Import Base StoreModel.
Open Scope N_scope.

(* ---- C32: the table a history of messages stands for ---- *)
Definition about (p : path) (m : msg) : bool := match path_of m with Some q => path_eqb p q | None => false end.
Definition deletes (p : path) (m : msg) : bool := about p m && match mkind m with DownDelete => true | _ => false end.

(* the messages after the last deletion of p *)
Fixpoint since_delete (p : path) (h : list msg) : list msg :=
  match h with
  | [] => []
  | m :: r => if existsb (deletes p) r then since_delete p r else if deletes p m then r else m :: r
  end.

Definition writes (p : path) (h : list msg) : list payload :=
  flat_map (fun m => if about p m then match mkind m with DownCreate | DownUpdate => [payload_of m] | _ => [] end else []) h.
Definition answers (p : path) (h : list msg) : list payload :=
  flat_map (fun m => if about p m then match mkind m with DownRead => [payload_of m] | _ => [] end else []) h.
Definition requested (p : path) (h : list msg) : bool :=
  existsb (fun m => about p m && match mkind m with UpRead => true | _ => false end) h.

Inductive entry := Absent | Pending | Present (v : payload).

(* the last create or update counts; without one the first answer; without that only a request *)
Definition entry_of (p : path) (h : list msg) : entry :=
  let s := since_delete p h in
  match rev (writes p s), answers p s with
  | v :: _, _ => Present v
  | [], v :: _ => Present v
  | [], [] => if requested p s then Pending else Absent
  end.

(* does m, coming after h, change the table in the eyes of the store's users *)
Definition changes (h : list msg) (m : msg) : bool :=
  match path_of m with
  | None => false
  | Some p => match mkind m with
              | DownCreate | DownUpdate | DownDelete => true
              | DownRead => match entry_of p h with Present _ => false | _ => true end
              | _ => false
              end
  end.

Definition seen (o : outcome) : entry :=
  match o with Resolved NotInSet => Absent | Unresolved => Pending | TriggerRead => Pending | Resolved v => Present v end.

(* no message carries the tag not_in_set as its payload *)
Definition proper (m : msg) : Prop := payload_of m <> NotInSet.

(* ---- C33-C35: who is told what ---- *)
Definition is_send {S} (e : event S) : bool := match e with Notify _ _ _ => false | _ => true end.
Definition is_read_to_producer {S} (e : event S) : bool := match e with ToProducer _ m _ => is_read m | _ => false end.
Definition is_to_producer {S} (e : event S) : bool := match e with ToProducer _ _ _ => true | _ => false end.
(* the indices of the actors with a property, in order *)
Definition indices (f : actor -> bool) (l : list actor) : list nat :=
  filter (fun i => match nth_error l i with Some a => f a | None => false end) (seq 0 (length l)).

(* ---- C35: executing requests on an abstract table ---- *)
Definition upd (T : path -> option payload) (q : path) (v : option payload) : path -> option payload :=
  fun p => if path_eqb p q then v else T p.

(* [executed reqs created T]: T is the result of the requests when the creates get the paths [created], all different *)
Inductive executed : list msg -> list path -> (path -> option payload) -> Prop :=
| executed_nil : executed [] [] (fun _ => None)
| executed_create h ks T ty t parent u v pr k :
    executed h ks T -> ~ In (mk_path t (parent ++ [k])) ks ->
    executed (h ++ [make_upstream_create ty (PCreate t parent) u v pr]) (ks ++ [mk_path t (parent ++ [k])])
             (upd T (mk_path t (parent ++ [k])) (Some v))
| executed_update h ks T ty q u v :
    executed h ks T -> executed (h ++ [make_upstream_update ty (PPath q) u v]) ks (upd T q (Some v))
| executed_delete h ks T ty q u :
    executed h ks T -> executed (h ++ [make_upstream_delete ty (PPath q) u]) ks (upd T q None).

Inductive request : msg -> Prop :=
| request_create ty t parent u v pr : request (make_upstream_create ty (PCreate t parent) u v pr)
| request_update ty q u v : request (make_upstream_update ty (PPath q) u v)
| request_delete ty q u : request (make_upstream_delete ty (PPath q) u).

(* ---- C35: the keys that are really given ---- *)
(* how many creates of the C++ type [ty] go to the producer [i] *)
Fixpoint creates_like (producer : nat -> nat) (ty : N) (i : nat) (h : list msg) : N :=
  match h with
  | [] => 0
  | m :: h =>
      (match mkind m, storage m with
       | UpCreate, FPath (PCreate t' _) :: _ => if (mtype m =? ty) && Nat.eqb (producer t') i then 1 else 0
       | _, _ => 0
       end) + creates_like producer ty i h
  end.
(* [numbered reqs created T]: creates are given as key how many creates of the same C++ type there were, this one included; equal paths overwrite each other *)
Inductive numbered (producer : nat -> nat) (modulus : N) : list msg -> list path -> (path -> option payload) -> Prop :=
| numbered_nil : numbered producer modulus [] [] (fun _ => None)
| numbered_create h ks T ty t parent u v pr k :
    numbered producer modulus h ks T -> k = (creates_like producer ty (producer t) h + 1) mod modulus ->
    numbered producer modulus (h ++ [make_upstream_create ty (PCreate t parent) u v pr]) (ks ++ [mk_path t (parent ++ [k])]) (upd T (mk_path t (parent ++ [k])) (Some v))
| numbered_update h ks T ty q u v :
    numbered producer modulus h ks T -> numbered producer modulus (h ++ [make_upstream_update ty (PPath q) u v]) ks (upd T q (Some v))
| numbered_delete h ks T ty q u :
    numbered producer modulus h ks T -> numbered producer modulus (h ++ [make_upstream_delete ty (PPath q) u]) ks (upd T q None).
