(* What it means that an entity tree is stored, which placeholders a statement has, and what a join tree is. *)
From Coq Require Import String.
From Verif Require Import Base SqlModel.
Open Scope N_scope.

(* the value members and their columns *)
Inductive Values : list (bytes * member) -> list column -> Prop :=
| V_nil : Values [] []
| V_value n v ms cs : Values ms cs -> Values ((n, Value v) :: ms) ((n, Data v) :: cs)
| V_child n e ms cs : Values ms cs -> Values ((n, Child e) :: ms) cs
| V_many n es ms cs : Values ms cs -> Values ((n, Many es) :: ms) cs.

(* [Stored lg e fks p ps]: e has its row at position p of the log, with the columns fks before those of its own; ps are the
   positions of all rows of the tree.  The rows of the children come before, and their keys are in the columns of this row; the
   rows of the containers come after and have the key of this row. *)
Inductive Stored (lg : log) : entity -> list column -> nat -> list nat -> Prop :=
| St t ms fks p k ids vals before after :
    ChildrenStored lg p ms ids before -> Values ms vals -> nth_error lg p = Some ((t, fks ++ ids ++ vals), k) ->
    ManyStored lg p [(t ++ bs "_id"%string, Key k)] ms after ->
    Stored lg (Entity t ms) fks p (before ++ p :: after)
with ChildrenStored (lg : log) : nat -> list (bytes * member) -> list column -> list nat -> Prop :=
| CS_nil p : ChildrenStored lg p [] [] []
| CS_child p n e ms q qs r k ids ps : Stored lg e [] q qs -> Forall (fun q => (q < p)%nat) qs -> nth_error lg q = Some (r, k) ->
    ChildrenStored lg p ms ids ps -> ChildrenStored lg p ((n, Child e) :: ms) ((n ++ bs "_id"%string, Key k) :: ids) (qs ++ ps)
| CS_value p n v ms ids ps : ChildrenStored lg p ms ids ps -> ChildrenStored lg p ((n, Value v) :: ms) ids ps
| CS_many p n es ms ids ps : ChildrenStored lg p ms ids ps -> ChildrenStored lg p ((n, Many es) :: ms) ids ps
with ManyStored (lg : log) : nat -> list column -> list (bytes * member) -> list nat -> Prop :=
| MS_nil p fks : ManyStored lg p fks [] []
| MS_many p fks n es ms ps qs : EachStored lg p fks es ps -> ManyStored lg p fks ms qs -> ManyStored lg p fks ((n, Many es) :: ms) (ps ++ qs)
| MS_value p fks n v ms ps : ManyStored lg p fks ms ps -> ManyStored lg p fks ((n, Value v) :: ms) ps
| MS_child p fks n e ms ps : ManyStored lg p fks ms ps -> ManyStored lg p fks ((n, Child e) :: ms) ps
with EachStored (lg : log) : nat -> list column -> list entity -> list nat -> Prop :=
| ES_nil p fks : EachStored lg p fks [] []
| ES_cons p fks e es q qs ps : Stored lg e fks q qs -> Forall (fun q => (p < q)%nat) qs -> EachStored lg p fks es ps -> EachStored lg p fks (e :: es) (qs ++ ps).

(* how many rows the tree has *)
Fixpoint rows (e : entity) : nat :=
  match e with
  | Entity _ ms => S ((fix go (ms : list (bytes * member)) : nat :=
      match ms with
      | [] => 0%nat
      | (_, Value _) :: r => go r
      | (_, Child e) :: r => (rows e + go r)%nat
      | (_, Many es) :: r => ((fix all es := match es with [] => 0%nat | e :: q => (rows e + all q)%nat end) es + go r)%nat
      end) ms)
  end.

(* the number of ? outside of quotes *)
Fixpoint placeholders (quoted : bool) (s : bytes) : nat :=
  match s with
  | [] => 0
  | c :: r => if c =? 34 then placeholders (negb quoted) r
              else if (c =? 63) && negb quoted then S (placeholders quoted r) else placeholders quoted r
  end.

(* column1=? AND column2=? AND ... *)
Fixpoint conjunction (l : list bytes) : bytes :=
  match l with [] => [] | [n] => n ++ bs "=?"%string | n :: r => n ++ bs "=? AND "%string ++ conjunction r end.

(* the aliases of the tree below an entity: path from the root and type *)
Inductive Below : bytes -> etype -> bytes -> bytes -> etype -> bytes -> Prop :=
| B_here alias t ms n e : In (n, TChild e) ms -> Below alias (EType t ms) alias n e (alias ++ bs "."%string ++ n)
| B_there alias t ms n e parent n' e' a : In (n, TChild e) ms -> Below (alias ++ bs "."%string ++ n) e parent n' e' a -> Below alias (EType t ms) parent n' e' a.

(* the aliases a FROM and its JOINs introduce, in order: each join refers to one introduced before *)
Fixpoint ordered (seen : list bytes) (l : list join) : Prop :=
  match l with [] => True | j :: r => In (j_parent j) seen /\ ordered (j_alias j :: seen) r end.

(* something holds for all names of tables and members of a tree *)
Fixpoint all_names (Q : bytes -> Prop) (e : etype) : Prop :=
  match e with
  | EType t ms => Q t /\ (fix go (ms : list (bytes * mtype)) : Prop :=
      match ms with
      | [] => True
      | (n, TValue) :: r => Q n /\ go r
      | (n, TChild e) :: r => Q n /\ all_names Q e /\ go r
      | (n, TMany e) :: r => Q n /\ all_names Q e /\ go r
      end) ms
  end.
(* the members of each entity have distinct names *)
Fixpoint distinct (e : etype) : Prop :=
  match e with
  | EType t ms => NoDup (map fst ms) /\ (fix go (ms : list (bytes * mtype)) : Prop :=
      match ms with [] => True | (_, TValue) :: r => go r | (_, TChild e) :: r => distinct e /\ go r | (_, TMany e) :: r => distinct e /\ go r end) ms
  end.
Definition value_member (e : etype) (c : bytes) : Prop := match e with EType _ ms => In (c, TValue) ms end.

(* ---- the text of a SELECT ---- *)
Inductive listed (sep : bytes) : list bytes -> bytes -> Prop :=
| listed_one x : listed sep [x] x
| listed_more x l t : listed sep l t -> listed sep (x :: l) (x ++ sep ++ t).
Definition column_text (c : bytes * bytes) : bytes := bs """"%string ++ fst c ++ bs """."""%string ++ snd c ++ bs """"%string.
Definition join_text (j : join) : bytes :=
  bs " JOIN """%string ++ j_table j ++ bs """ AS """%string ++ j_alias j ++ bs """ ON """%string ++ j_parent j ++ bs """."""%string ++ j_member j
  ++ bs "_id"" = """%string ++ j_alias j ++ bs """."""%string ++ j_table j ++ bs "_id"""%string.

(* the statements of SQL that are meant, written out *)
Definition commas (l : list bytes) : bytes := concat (match l with [] => [] | x :: r => x :: map (cons 44) r end).
Definition quoted (n : bytes) : bytes := [34] ++ n ++ [34].
Definition insert_sql (t : bytes) (names : list bytes) : bytes :=
  bs "INSERT INTO "%string ++ quoted t ++ bs " ("%string ++ commas (map quoted names) ++ bs ") VALUES ("%string ++ commas (map (fun _ => [63]) names) ++ bs ");"%string.
(* the conditions should be joined by AND, see C50 *)
Definition update_sql (t : bytes) (names keys : list bytes) : bytes :=
  bs "UPDATE "%string ++ quoted t ++ bs " SET "%string ++ commas (map (fun n => quoted n ++ [61; 63]) names) ++ bs " WHERE "%string ++
  commas (map (fun n => quoted n ++ [61; 63]) keys) ++ bs " LIMIT 1;"%string.
