(* What a SELECT means: the text of a query, and its rows by nested loops over the rows that were inserted. *)
From Coq Require Import String.
From Verif Require Import Base SqlModel SqlSpec.
Open Scope N_scope.

(* a column of the table or join with an alias *)
Definition name := (bytes * bytes)%type.
Record jn := Jn { jn_table : bytes; jn_alias : bytes; jn_left : name; jn_right : name }.
(* SELECT columns FROM from joins WHERE where = ? *)
Record query := Query { q_columns : list name; q_from : bytes; q_joins : list jn; q_where : name }.

(* its text *)
Definition quoted (x : bytes) : bytes := bs """"%string ++ x ++ bs """"%string.
Definition name_text (n : name) : bytes := quoted (fst n) ++ bs "."%string ++ quoted (snd n).
Fixpoint separated (d : bytes) (l : list bytes) : bytes := match l with [] => [] | [x] => x | x :: r => x ++ d ++ separated d r end.
Definition jn_text (j : jn) : bytes :=
  bs " JOIN "%string ++ quoted (jn_table j) ++ bs " AS "%string ++ quoted (jn_alias j) ++ bs " ON "%string ++ name_text (jn_left j) ++ bs " = "%string ++ name_text (jn_right j).
Definition query_text (q : query) : bytes :=
  bs "SELECT "%string ++ separated (bs ","%string) (map name_text (q_columns q)) ++ bs " FROM "%string ++ quoted (q_from q) ++
  separated (bs " "%string) (map jn_text (q_joins q)) ++ bs " WHERE "%string ++ name_text (q_where q) ++ bs "=?;"%string.

(* a row with its key; the key is in the column of the table's name and _id *)
Definition tuple := (row * N)%type.
Fixpoint look {A} (k : bytes) (l : list (bytes * A)) : option A :=
  match l with [] => None | (k', x) :: r => if bytes_eqb k k' then Some x else look k r end.
Definition cell_of (t : tuple) (c : bytes) : option cell :=
  if bytes_eqb c (fst (fst t) ++ bs "_id"%string) then Some (Key (snd t)) else look c (snd (fst t)).
Definition cell_eqb (x y : option cell) : bool :=
  match x, y with Some (Data a), Some (Data b) | Some (Key a), Some (Key b) => a =? b | _, _ => false end.

Definition env := list (bytes * tuple).
Definition value (v : env) (n : name) : option cell := match look (fst n) v with Some t => cell_of t (snd n) | None => None end.
Fixpoint join_rows (lg : log) (js : list jn) (v : env) : list env :=
  match js with
  | [] => [v]
  | j :: r => flat_map (fun t => let v' := v ++ [(jn_alias j, t)] in
                if bytes_eqb (fst (fst t)) (jn_table j) && cell_eqb (value v' (jn_left j)) (value v' (jn_right j)) then join_rows lg r v' else []) lg
  end.
Definition rows_of (lg : log) (q : query) (x : cell) : list (list (option cell)) :=
  flat_map (fun t => if bytes_eqb (fst (fst t)) (q_from q)
                     then flat_map (fun v => if cell_eqb (value v (q_where q)) (Some x) then [map (value v) (q_columns q)] else []) (join_rows lg (q_joins q) [(q_from q, t)])
                     else []) lg.

(* an entity is of the type *)
Inductive Instance : entity -> etype -> Prop :=
| In_entity t ms ts : Members ms ts -> Instance (Entity t ms) (EType t ts)
with Members : list (bytes * member) -> list (bytes * mtype) -> Prop :=
| Me_nil : Members [] []
| Me_value n v ms ts : Members ms ts -> Members ((n, Value v) :: ms) ((n, TValue) :: ts)
| Me_child n e ty ms ts : Instance e ty -> Members ms ts -> Members ((n, Child e) :: ms) ((n, TChild ty) :: ts)
| Me_many n es ty ms ts : Each es ty -> Members ms ts -> Members ((n, Many es) :: ms) ((n, TMany ty) :: ts)
with Each : list entity -> etype -> Prop :=
| Ea_nil ty : Each [] ty
| Ea_cons e es ty : Instance e ty -> Each es ty -> Each (e :: es) ty.

(* the entity at a path below the one with the alias *)
Inductive EntityAt : bytes -> entity -> bytes -> entity -> Prop :=
| EA_here a e : EntityAt a e a e
| EA_child a t ms n e b x : In (n, Child e) ms -> EntityAt (a ++ bs "."%string ++ n) e b x -> EntityAt a (Entity t ms) b x.
Definition has_value (e : entity) (c : bytes) (v : N) : Prop := match e with Entity _ ms => In (c, Value v) ms end.

(* a table has each column once: its key, the keys of children, the values *)
Definition column_names (ms : list (bytes * mtype)) : list bytes :=
  flat_map (fun nm => match snd nm with TValue => [fst nm] | TChild _ => [fst nm ++ bs "_id"%string] | TMany _ => [] end) ms.
Fixpoint columns_ok (e : etype) : Prop :=
  match e with
  | EType t ms => NoDup ((t ++ bs "_id"%string) :: column_names ms) /\ (fix go (ms : list (bytes * mtype)) : Prop :=
      match ms with [] => True | (_, TChild e) :: r => columns_ok e /\ go r | _ :: r => go r end) ms
  end.

(* no two rows of a table have the same key *)
Definition keys_distinct (lg : log) : Prop := forall i j t c c' k, nth_error lg i = Some ((t, c), k) -> nth_error lg j = Some ((t, c'), k) -> i = j.

(* UPDATE table SET each of set = ? WHERE where = ? LIMIT 1 *)
Record change := Change { u_table : bytes; u_set : list bytes; u_where : bytes }.
Definition change_text (u : change) : bytes :=
  bs "UPDATE "%string ++ quoted (u_table u) ++ bs " SET "%string ++ separated (bs ","%string) (map (fun c => quoted c ++ bs "=?"%string) (u_set u)) ++
  bs " WHERE "%string ++ quoted (u_where u) ++ bs "=? LIMIT 1;"%string.
(* the first row of the table whose column has the value gets the new values *)
Definition set_cells (new : list column) (r : row) : row := (fst r, map (fun c => (fst c, match look (fst c) new with Some x => x | None => snd c end)) (snd r)).
Fixpoint changed (u : change) (new : list cell) (x : cell) (lg : log) : log :=
  match lg with
  | [] => []
  | (r, k) :: rest => if bytes_eqb (fst r) (u_table u) && cell_eqb (cell_of (r, k) (u_where u)) (Some x)
                      then (set_cells (combine (u_set u) new) r, k) :: rest else (r, k) :: changed u new x rest
  end.
Definition entity_values (e : entity) : list column :=
  match e with Entity _ ms => flat_map (fun nm => match snd nm with Value v => [(fst nm, Data v)] | _ => [] end) ms end.
(* all members are values *)
Definition only_values (ty : etype) : Prop := match ty with EType _ ms => Forall (fun nm => snd nm = TValue) ms end.
