(* Model of /repo/include/nbdl/delta.hpp and local_version.hpp.
   An entity (Bindable) is the list of its members; members are of one type V with an equality test [eqb]
   (hana::equal); in C++ the members may have different types, which only restricts the lists that occur. *)
From Verif Require Import Base.

Section Delta.
Context {V : Type}.
Variable eqb : V -> V -> bool.

Definition entity := list V.
(* delta.hpp:21-43: one optional (variant of nothing and the member) per member *)
Definition delta := list (option V).

(* delta.hpp:30: a default constructed delta has nothing in every member *)
Definition empty_delta (n : nat) : delta := repeat None n.

(* delta.hpp:48-60 *)
Definition make_delta1 (e : entity) : delta := map Some e.

(* delta.hpp:62-79: make_delta(e1, e2); both are the same type so have the same number of members *)
Fixpoint make_delta (e1 e2 : entity) : delta :=
  match e1, e2 with
  | x :: r1, y :: r2 => (if negb (eqb x y) then Some x else None) :: make_delta r1 r2
  | _, _ => []
  end.

(* delta.hpp:85-119: apply_delta on an entity; the fold expression goes over the members in order *)
Fixpoint apply_delta (d : delta) (e : entity) : entity * bool :=
  match d, e with
  | o :: d', x :: e' =>
      let (e2, changed) := apply_delta d' e' in
      match o with
      | None => (x :: e2, changed)
      | Some v => if negb (eqb v x) then (v :: e2, true) else (x :: e2, changed)
      end
  | _, _ => (e, false)
  end.

(* delta.hpp:85-119 with a delta as the target (bind_sequence of a delta, 122-133, exposes its optionals).  A value is
   compared with an optional; if they are not equal the optional is assigned.  Either way it then holds the value.
   The result is never used (local_version.hpp:42, 58, 75). *)
Fixpoint merge_delta (d : delta) (p : delta) : delta :=
  match d, p with
  | o :: d', x :: p' => (match o with None => x | Some v => Some v end) :: merge_delta d' p'
  | _, _ => p
  end.

(* ---- local_version ---- *)
(* nbdl::uid values; the unordered_set local_uids is a duplicate free list *)
Record store := { value : entity; pending : delta; local_uids : list N }.

(* local_version.hpp:103-107 *)
Definition make_store (e : entity) : store := {| value := e; pending := empty_delta (length e); local_uids := [] |}.

Definition uid_insert (u : N) (l : list N) : list N := if existsb (N.eqb u) l then l else u :: l.
Definition uid_erase (u : N) (l : list N) : list N := filter (fun x => negb (N.eqb u x)) l.

(* local_version.hpp:36-44 *)
Definition apply_local_delta (s : store) (u : N) (d : delta) : store * bool :=
  let (v, r) := apply_delta d (value s) in
  ({| value := v; pending := merge_delta d (pending s); local_uids := uid_insert u (local_uids s) |}, r).

(* local_version.hpp:46-78 *)
Definition apply_confirmed_delta (s : store) (u : N) (d : delta) : store * bool :=
  if existsb (N.eqb u) (local_uids s) then
    let p := merge_delta d (pending s) in
    let l := uid_erase u (local_uids s) in
    match l with
    | [] => let (v, r) := apply_delta p (value s) in
            ({| value := v; pending := empty_delta (length (pending s)); local_uids := [] |}, r)
    | _ => ({| value := value s; pending := p; local_uids := l |}, false)
    end
  else
    let (v, r) := apply_delta d (value s) in
    ({| value := v; pending := merge_delta d (pending s); local_uids := local_uids s |}, r).

(* local_version.hpp:110-168: an update is confirmed iff message::is_confirmed; a payload that is not a delta is
   assigned to the value by apply_action *)
Inductive op :=
| Local (u : N) (d : delta)
| Confirmed (u : N) (d : delta)
| Replace (e : entity).

Definition step (s : store) (o : op) : store :=
  match o with
  | Local u d => fst (apply_local_delta s u d)
  | Confirmed u d => fst (apply_confirmed_delta s u d)
  | Replace e => {| value := e; pending := pending s; local_uids := local_uids s |}
  end.

Definition run (s : store) (ops : list op) : store := fold_left step ops s.
End Delta.
Arguments op : clear implicits.
Arguments store : clear implicits.
