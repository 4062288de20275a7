(* Model of how written text gets its source locations, /repo/tool/heavy_plugins/lib/Nbdl/NbdlTranslateCpp.cpp:58-115. *)
From Verif Require Import Base.
Open Scope N_scope.

(* None: the invalid location, that of a new writer *)
Definition loc := option N.

(* What a member function of the writer does with the buffer and the location: OS << s, Flush() and { auto L = MakeLocRAII(l); ... } *)
Inductive act := Txt (s : list N) | Fl | At (l : loc) (b : acts)
with acts := ANil | ACons (a : act) (b : acts).

(* CurLoc, OutputBuffer and what LexerWriter has been given *)
Record lst := { cur : loc; buf : list N; out : list (loc * list N) }.
Definition new_writer : lst := {| cur := None; buf := []; out := [] |}.

(* 110-115 Flush *)
Definition flush (s : lst) : lst := match buf s with [] => s | b => {| cur := cur s; buf := []; out := out s ++ [(cur s, b)] |} end.
Definition set_cur (l : loc) (s : lst) : lst := {| cur := l; buf := buf s; out := out s |}.

(* 66-83: the constructor keeps CurLoc and sets it; the destructor sets it back and then calls Flush *)
Fixpoint run_act (a : act) (s : lst) : lst :=
  match a with
  | Txt t => {| cur := cur s; buf := buf s ++ t; out := out s |}
  | Fl => flush s
  | At l b => flush (set_cur (cur s) (run_acts b (set_cur l s)))
  end
with run_acts (b : acts) (s : lst) : lst :=
  match b with ANil => s | ACons a r => run_acts r (run_act a s) end.

(* 347-350 Visit(Operation): what any operation does around what it writes *)
Definition visit_op (l : loc) (b : acts) : acts := ACons Fl (ACons (At l b) ANil).
