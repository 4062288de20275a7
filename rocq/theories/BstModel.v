(* Model of /repo/include/nbdl/ext/beast_ws.hpp:98-173, connect, read_message and write_message, as the client of an application uses them
   (/repo/include/nbdl/app/client_connection.hpp:72-96).  The operations of Asio and Beast are parameters: they complete with an error or
   with what they should give, async_resolve with at least one address, async_read with a whole message appended to the buffer. *)
From Coq Require Import String.
From Verif Require Import Base AppModel.
Open Scope N_scope.

Definition address := N.
(* what is asked of the network; what the pipeline ends with: None, or the error *)
Inductive action := Lookup (host service : bytes) | Dial (a : address) | Shake (host target : bytes) | Told (r : option N).
Inductive phase := Looking | Dialling | Shaking | Settled.
(* completions *)
Inductive completion := Looked (r : N + (address * list address)) | Dialled (r : option N) | Shook (r : option N).

Record session := mk_session { at_phase : phase; host : bytes; acts : list action }.

(* beast_ws.hpp:101-111: the first stage begins *)
Definition connect (h service : bytes) : session := mk_session Looking h [Lookup h service].
(* an error skips the stages that are left (full_duplex), client_connection.hpp:82-90 tells whatever it is *)
Definition settle (s : session) (r : option N) : session := mk_session Settled (host s) (acts s ++ [Told r]).
Definition complete (s : session) (c : completion) : option session :=
  match at_phase s, c with
  | Looking, Looked (inl e) => Some (settle s (Some e))                                                         (* 111-116 *)
  | Looking, Looked (inr (a, _)) => Some (mk_session Dialling (host s) (acts s ++ [Dial a]))                    (* 114, 118-121 *)
  | Dialling, Dialled (Some e) => Some (settle s (Some e))                                                      (* 121-124 *)
  | Dialling, Dialled None => Some (mk_session Shaking (host s) (acts s ++ [Shake (host s) (bs "/")]))          (* 126-129 *)
  | Shaking, Shook r => Some (settle s r)                                                                       (* 130-133 *)
  | _, _ => None
  end.
Fixpoint complete_all (s : session) (l : list completion) : option session :=
  match l with [] => Some s | c :: r => match complete s c with Some s' => complete_all s' r | None => None end end.
(* client_connection.hpp:72-92 *)
Definition open (addr : bytes) : session := let (h, p) := connect_to addr in connect h p.

(* ---- read_message_fn, beast_ws.hpp:140-158 ---- *)
Record reader := mk_reader { body : bytes; buffer : bytes }.
Definition fresh : reader := mk_reader [] [].
(* what arrives in the buffer, and the error if there is one *)
Definition arrival : Type := bytes * option N.
(* what the next stage gets: a reference to the body, shown as its contents, or the error *)
Inductive given := Body (x : bytes) | Error (e : N).

(* body.resize(n): cut off, or filled up with zeros *)
Definition resize (n : nat) (b : bytes) : bytes := firstn n b ++ repeat 0 (n - length b).
(* std::copy over the beginning of the body: writing behind its end is undefined *)
Definition copy_over (src dst : bytes) : res bytes := if (length src <=? length dst)%nat then Ok (src ++ skipn (length src) dst) else UB.
Definition read (r : reader) (a : arrival) : res (reader * given) :=
  let data := buffer r ++ fst a in
  let! b := copy_over data (resize (length data) (body r)) in
  Ok (mk_reader b (skipn (length data) data), match snd a with None => Body b | Some e => Error e end).
Fixpoint reads (r : reader) (l : list arrival) : res (reader * list given) :=
  match l with
  | [] => Ok (r, [])
  | a :: q => let! x := read r a in let! y := reads (fst x) q in Ok (fst y, snd x :: snd y)
  end.

(* ---- write_message, beast_ws.hpp:164-173 ---- *)
(* a text and how async_write completes: what the stream carried as one message, and what the next stage gets, a reference to the text or the error *)
Definition write (t : bytes) (r : option N) : list bytes * given :=
  match r with None => ([t], Body t) | Some e => ([], Error e) end.
Fixpoint writes (l : list (bytes * option N)) : list bytes * list given :=
  match l with [] => ([], []) | (t, r) :: q => let w := write t r in let x := writes q in (fst w ++ fst x, snd w :: snd x) end.
