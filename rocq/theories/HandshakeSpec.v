(* What cookie headers and handshake requests mean. *)
From Coq Require Import String.
From Verif Require Import Base HandshakeModel.
Open Scope N_scope.

(* a Cookie header (RFC 6265, 4.2.1): name=value pairs separated by "; " *)
Definition cookie : Type := list N * list N.
Definition cookie_text (c : cookie) : list N := fst c ++ 61 :: snd c.
Fixpoint cookie_header (l : list cookie) : list N :=
  match l with [] => [] | [c] => cookie_text c | c :: r => cookie_text c ++ 59 :: 32 :: cookie_header r end.
(* names have no '=' or ';' and do not begin with white space; values have no ';' *)
Definition cookie_ok (c : cookie) : Prop :=
  ~ In 61 (fst c) /\ ~ In 59 (fst c) /\ ~ In 59 (snd c) /\ (match fst c with x :: _ => x <> 32 /\ ~ (9 <= x <= 13) | [] => False end).

(* the same with any white space in front of each cookie *)
Definition white (c : N) : Prop := c = 32 \/ c = 9 \/ c = 10 \/ c = 11 \/ c = 12 \/ c = 13.
Fixpoint spaced_header (l : list (list N * cookie)) : list N :=
  match l with [] => [] | [(w, c)] => w ++ cookie_text c | (w, c) :: r => (w ++ cookie_text c) ++ 59 :: spaced_header r end.

(* the value of the first cookie of that name *)
Definition cookie_value (name : list N) (l : list cookie) : list N :=
  match find (fun c => bytes_eqb (fst c) name) l with Some c => snd c | None => [] end.

(* the lines of a header block, as they are sent *)
Definition header_lines (l : list (list N)) : list N := flat_map (fun h => h ++ crlf) l ++ crlf.

(* a header line: name, colon, value *)
Definition header : Type := list N * list N.
Definition header_text (h : header) : list N := fst h ++ 58 :: snd h.
(* no line feed, no colon in the name, the name is ASCII, and line and CR LF fit in 256 bytes *)
Definition header_ok (h : header) : Prop :=
  ~ In 10 (fst h) /\ ~ In 10 (snd h) /\ ~ In 58 (fst h) /\ Forall (fun c => c < 128) (fst h) /\ (length (header_text h) <= 254)%nat.

Definition lower_ascii (c : N) : N := if (N.ltb 64 c && N.ltb c 91)%bool then c + 32 else c.
Fixpoint no_leading_spaces (s : list N) : list N :=
  match s with 32 :: r => no_leading_spaces r | _ => s end.
(* the value of the last header of that name in lower case, without leading spaces *)
Definition last_value (name : list N) (l : list header) : list N :=
  match find (fun h => bytes_eqb (map lower_ascii (fst h)) name) (rev l) with Some h => no_leading_spaces (snd h) | None => [] end.

(* a line ends at the first CR followed by LF; either may be in the line alone *)
Definition no_crlf (line : list N) : Prop := forall a b, line <> a ++ 13 :: 10 :: b.

(* any line: the name is what is before the first colon, or all of it; the value is what is after that colon *)
Fixpoint name_of (line : list N) : list N := match line with [] => [] | c :: r => if N.eqb c 58 then [] else c :: name_of r end.
Fixpoint value_of (line : list N) : option (list N) := match line with [] => None | c :: r => if N.eqb c 58 then Some r else value_of r end.
(* what the server makes of a line: it does not fit in the buffer, reading it is undefined, or it can be read *)
Inductive verdict := Fine | Long | Harmful.
Definition called (name line : list N) : bool := bytes_eqb (map lower_ascii (name_of line)) name.
Definition judge (line : list N) : verdict :=
  if Nat.ltb 254 (length line) then Long
  else if forallb (fun c => N.ltb c 128) (name_of line)
       then match value_of line with
            | None => if called (bs "sec-websocket-key") line || called (bs "cookies") line then Harmful else Fine
            | Some _ => Fine
            end
       else Harmful.
(* the first line that is not fine decides *)
Fixpoint judge_all (lines : list (list N)) : verdict :=
  match lines with [] => Fine | l :: r => match judge l with Fine => judge_all r | v => v end end.
Definition last_called (name : list N) (lines : list (list N)) : list N :=
  match find (called name) (rev lines) with
  | Some l => match value_of l with Some v => no_leading_spaces v | None => [] end
  | None => []
  end.

(* ---- any header string, well formed or not ---- *)
(* nbdl_auth: from the start of a cookie on; [past_end]: the end is dereferenced *)
Inductive auth_says : list N -> list N -> bool -> Prop :=
| auth_empty : auth_says [] [] false
| auth_found v rest : v <> [] -> ~ In 59 v -> (rest = [] \/ exists r, rest = 59 :: r) -> auth_says (bs "nbdl_auth=" ++ v ++ rest) v false
| auth_bare : auth_says (bs "nbdl_auth=") [] true
| auth_last x : x <> [] -> ~ In 59 x -> (forall r, x <> bs "nbdl_auth=" ++ r) -> auth_says x [] true
(* the character after the semicolon is skipped, whatever it is *)
| auth_next x any rest v past_end : ~ In 59 x -> (x = bs "nbdl_auth=" \/ forall r, x <> bs "nbdl_auth=" ++ r) -> rest <> [] ->
    auth_says rest v past_end -> auth_says (x ++ 59 :: any :: rest) v past_end
| auth_stop x rest : ~ In 59 x -> (x = bs "nbdl_auth=" \/ forall r, x <> bs "nbdl_auth=" ++ r) -> (length rest <= 1)%nat ->
    auth_says (x ++ 59 :: rest) [] false.

(* NBDL_SESS: white space, a name up to '=', a value up to ';' *)
Inductive session_says : list N -> list N -> Prop :=
| session_empty : session_says [] []
| session_found w v rest : Forall white w -> ~ In 59 v -> (rest = [] \/ exists r, rest = 59 :: r) -> session_says (w ++ bs "NBDL_SESS=" ++ v ++ rest) v
(* without '=', or without ';' after it, this was the last one *)
| session_no_value w x : Forall white w -> ~ In 61 x -> session_says (w ++ x) []
| session_last w name v : Forall white w -> (forall a r, name = a :: r -> ~ white a) -> ~ In 61 name -> name <> bs "NBDL_SESS" -> ~ In 59 v ->
    session_says (w ++ name ++ 61 :: v) []
| session_next w name v rest x : Forall white w -> (forall a r, name = a :: r -> ~ white a) -> ~ In 61 name -> name <> bs "NBDL_SESS" -> ~ In 59 v ->
    session_says rest x -> session_says (w ++ name ++ 61 :: v ++ 59 :: rest) x.
