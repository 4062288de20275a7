(* Model of /repo/include/nbdl/sql_db: inserting an entity tree (insert.hpp), the text of statements (statement/) and the
   aliases, columns and joins of a SELECT (statement/detail/table_alias_list.hpp).  Names are byte strings; an entity is the
   list of its members in the order of NBDL_ENTITY (traits.hpp:78-85 selects among them by kind).  Keys are uint32
   (key.hpp:26), so moving a key leaves it as it was. *)
From Coq Require Import String.
From Verif Require Import Base.
Open Scope N_scope.

(* a value bound to a statement: data of a column or a key (primary_key<T>) *)
Inductive cell := Data (v : N) | Key (k : N).
Definition column := (bytes * cell)%type.

(* traits.hpp:63-76: a member is a value, an entity of its own table, or a container of such *)
Inductive entity := Entity (table : bytes) (members : list (bytes * member))
with member := Value (v : N) | Child (e : entity) | Many (l : list entity).

Definition table (e : entity) : bytes := let (t, _) := e in t.
(* plus "_id", traits.hpp:87-91 *)
Definition key_name (n : bytes) : bytes := n ++ bs "_id"%string.

Definition row := (bytes * list column)%type.
(* the inserts so far with the keys the database returned *)
Definition log := list (row * N).

Section Insert.
(* db_insert: which key the database returns *)
Variable db : log -> row -> N.
(* in which order the compiler evaluates n function arguments: the inserts of insert.hpp:69-74 are arguments of make_tuple *)
Variable order : nat -> list nat.

Definition act := log -> N * log.
Definition call (r : row) : act := fun l => let k := db l r in (k, l ++ [(r, k)]).

(* evaluate the i-th arguments in some order, remembering which result is whose *)
Fixpoint evaluate (is : list nat) (acts : list act) (l : log) : list (nat * N) * log :=
  match is with
  | [] => ([], l)
  | i :: r => match nth_error acts i with
              | None => evaluate r acts l
              | Some a => let (k, l1) := a l in let (ks, l2) := evaluate r acts l1 in ((i, k) :: ks, l2)
              end
  end.
Definition result (ks : list (nat * N)) (i : nat) : N := match find (fun ik => Nat.eqb (fst ik) i) ks with Some ik => snd ik | None => 0 end.

Definition values (ms : list (bytes * member)) : list column :=
  flat_map (fun nm => match snd nm with Value v => [(fst nm, Data v)] | _ => [] end) ms.
(* insert of the children, insert.hpp:67-75 *)
Definition child_acts (ins : entity -> list column -> act) := fix go (ms : list (bytes * member)) : list (bytes * act) :=
  match ms with [] => [] | (n, Child e) :: r => (n, ins e []) :: go r | _ :: r => go r end.
(* EntityContainer, insert.hpp:119-134 *)
Definition insert_each (ins : entity -> list column -> act) (fks : list column) := fix go (es : list entity) (l : log) : log :=
  match es with [] => l | e :: r => go r (snd (ins e fks l)) end.
(* insert.hpp:101-113 *)
Definition insert_many (ins : entity -> list column -> act) (fks : list column) := fix go (ms : list (bytes * member)) (l : log) : log :=
  match ms with [] => l | (_, Many es) :: r => go r (insert_each ins fks es l) | _ :: r => go r l end.

Fixpoint number (i : nat) (l : list bytes) : list (bytes * nat) := match l with [] => [] | n :: r => (n, i) :: number (S i) r end.

(* insert_impl<Entity>::apply, insert.hpp:53-117 *)
Fixpoint insert (e : entity) (keys : list column) (l : log) {struct e} : N * log :=
  match e with
  | Entity t ms =>
      let acts := child_acts insert ms in
      let (ks, l1) := evaluate (order (length acts)) (map snd acts) l in
      let child_ids := map (fun ni => (key_name (fst ni), Key (result ks (snd ni)))) (number 0 (map fst acts)) in
      let (id, l2) := call (t, keys ++ child_ids ++ values ms) l1 in
      (id, insert_many insert [(key_name t, Key id)] ms l2)
  end.
End Insert.

(* ---- statement text ---- *)
Definition str (s : string) : bytes := bs s.
(* identifier_quote, detail/string_sum.hpp:33-39 *)
Definition quote (n : bytes) : bytes := str """" ++ n ++ str """".
(* string_sum_join, detail/string_sum.hpp:25-29; no text for no strings: that call does not compile *)
Definition sum_join (d : bytes) (l : list bytes) : option bytes :=
  match l with [] => None | x :: r => Some (x ++ flat_map (fun y => d ++ y) r) end.

(* column_name_list and placeholder_list, statement/insert.hpp:36-55 *)
Definition column_name_list (l : list bytes) : option bytes :=
  match l with [] => None | n :: r => Some ((str """" ++ n) ++ flat_map (fun m => str """,""" ++ m) r ++ str """") end.
Definition placeholder_list (n : nat) : option bytes :=
  match n with O => None | S k => Some (str "?" ++ flat_map (fun _ => str ",?") (List.seq 0 k)) end.
(* statement::insert, statement/insert.hpp:58-74 *)
Definition insert_statement (t : bytes) (cols : list column) : option (bytes * list cell) :=
  match column_name_list (map fst cols), placeholder_list (length cols) with
  | Some names, Some places => Some (str "INSERT INTO """ ++ t ++ str """ (" ++ names ++ str ") VALUES (" ++ places ++ str ");", map snd cols)
  | _, _ => None
  end.

(* column_value_list, statement/update.hpp:37-45: used for the new values and for the keys *)
Definition column_value_list (l : list bytes) : option bytes :=
  match l with [] => None | n :: r => Some ((str """" ++ n) ++ flat_map (fun m => str """=?,""" ++ m) r ++ str """=?") end.
(* statement::update, statement/update.hpp:48-70 *)
Definition update_statement (t : bytes) (cols keys : list column) : option (bytes * list cell) :=
  match column_value_list (map fst cols), column_value_list (map fst keys) with
  | Some c, Some k => Some (str "UPDATE """ ++ t ++ str """ SET " ++ c ++ str " WHERE " ++ k ++ str " LIMIT 1;", map snd cols ++ map snd keys)
  | _, _ => None
  end.

(* criteria_list, statement/select.hpp:31-39; the names come quoted *)
Definition criteria_list (l : list bytes) : option bytes :=
  match l with [] => None | n :: r => Some (n ++ flat_map (fun m => str "=?," ++ m) r ++ str "=?") end.
(* statement::select, statement/select.hpp:42-60 *)
Definition select_statement (t columns joins : bytes) (keys : list column) : option (bytes * list cell) :=
  match criteria_list (map fst keys) with
  | Some k => Some (str "SELECT " ++ columns ++ str " FROM " ++ quote t ++ joins ++ str " WHERE " ++ k ++ str ";", map snd keys)
  | None => None
  end.

(* ---- aliases ---- *)
(* the type of an entity *)
Inductive etype := EType (t : bytes) (members : list (bytes * mtype))
with mtype := TValue | TChild (e : etype) | TMany (e : etype).
Definition etable (e : etype) : bytes := let (t, _) := e in t.

(* concat_table_alias, table_alias_list.hpp:50-53 *)
Definition dot (p n : bytes) : bytes := p ++ str "." ++ n.
(* concat_table_alias_member_name, table_alias_list.hpp:98-105 *)
Definition qualified (alias n : bytes) : bytes := quote alias ++ str "." ++ quote n.

(* one JOIN: the member, its entity's table, its alias and the alias of its parent *)
Record join := Join { j_member : bytes; j_table : bytes; j_alias : bytes; j_parent : bytes }.

Definition child_types {R} (f : bytes -> etype -> R) := fix go (ms : list (bytes * mtype)) : list R :=
  match ms with [] => [] | (n, TChild e) :: r => f n e :: go r | _ :: r => go r end.

(* member_alias_list_impl, table_alias_list.hpp:55-93: first the members, then what is below each *)
Fixpoint alias_list (prefix : bytes) (e : etype) {struct e} : list join :=
  match e with
  | EType _ ms => child_types (fun n e => Join n (etable e) (dot prefix n) prefix) ms
                  ++ List.concat (child_types (fun n e => alias_list (dot prefix n) e) ms)
  end.
Definition table_alias_list (e : etype) : list join := alias_list (etable e) e.

(* aliased_column_name_list, table_alias_list.hpp:107-113: names of the value members *)
Definition value_names (ms : list (bytes * mtype)) : list bytes :=
  flat_map (fun nm => match snd nm with TValue => [fst nm] | _ => [] end) ms.
Definition own_columns (alias : bytes) (e : etype) : list (bytes * bytes) :=
  match e with EType _ ms => map (fun n => (alias, n)) (value_names ms) end.
(* aliased_column_names_impl, table_alias_list.hpp:115-140 *)
Fixpoint columns_below (prefix : bytes) (e : etype) {struct e} : list (bytes * bytes) :=
  match e with
  | EType _ ms => List.concat (child_types (fun n e => own_columns (dot prefix n) e) ms)
                  ++ List.concat (child_types (fun n e => columns_below (dot prefix n) e) ms)
  end.
(* aliased_column_names, table_alias_list.hpp:145-155: alias and name *)
Definition aliased_columns (e : etype) : list (bytes * bytes) := own_columns (etable e) e ++ columns_below (etable e) e.

(* columns_clause, table_alias_list.hpp:160-166 *)
Definition columns_clause (e : etype) : option bytes := sum_join (str ",") (map (fun an => qualified (fst an) (snd an)) (aliased_columns e)).
(* join_clause, join_clauses, table_alias_list.hpp:173-193 *)
Definition join_clause (j : join) : bytes :=
  str " JOIN " ++ quote (j_table j) ++ str " AS " ++ quote (j_alias j) ++ str " ON "
  ++ qualified (j_parent j) (key_name (j_member j)) ++ str " = " ++ qualified (j_alias j) (key_name (j_table j)).
Definition join_clauses (e : etype) : option bytes := sum_join (str " ") (map join_clause (table_alias_list e)).
(* select_primary_key_name, table_alias_list.hpp:211-218 *)
Definition primary_key_name (e : etype) : bytes := qualified (etable e) (key_name (etable e)).

(* sql_db::select with statement::select, select.hpp:40-60 *)
Definition has_many (e : etype) : bool := match e with EType _ ms => existsb (fun nm => match snd nm with TMany _ => true | _ => false end) ms end.
Definition select (e : etype) (keys : list column) : option (bytes * list cell) :=
  if has_many e then None else
  match columns_clause e, join_clauses e with
  | Some c, Some j => select_statement (etable e) c j keys
  | _, _ => None
  end.
