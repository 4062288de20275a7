(* Model of the web user interface: /repo/include/nbdl/webui/detail/flatten_spec.hpp, detail/dom_manips.hpp, renderer.hpp, html.hpp
   and /repo/include/nbdl/ui_helper.hpp, ui_helper/params_concat.hpp, ui_helper/match_branch.hpp.  A specification is made of
   types; a path of the store is a function of the store that gives nothing when the path does not resolve (match_path_spec.hpp).
   The document is modelled as a heap of nodes after the DOM standard.  Simplified: the text node of a path is made when it is
   rendered rather than with the renderer; what is set with setAttribute("class") and with classList is kept apart; markup set
   as inner HTML is one opaque node; event listeners have no effect on the document; a node is never put into its own subtree.
   A call of the JavaScript API that throws is Throws, an access outside of an array is Undefined. *)
From Coq Require Import String.
From Verif Require Import Base.
Open Scope nat_scope.

Inductive out (A : Type) := Fine (a : A) | Throws | Undefined.
Arguments Fine {A} a. Arguments Throws {A}. Arguments Undefined {A}.
Definition obind {A B} (x : out A) (k : A -> out B) : out B :=
  match x with Fine a => k a | Throws => Throws | Undefined => Undefined end.
Notation "'let*' x ':=' e 'in' k" := (obind e (fun x => k)) (at level 200, x pattern, e at level 100, k at level 200).
Definition lift {A} (r : res A) : out A := match r with Ok a => Fine a | UB => Undefined end.

(* what an element has besides its children: attributes, properties and classes, by name *)
Inductive key := Attr (n : bytes) | Property (n : bytes) | Class (n : bytes).
Definition key_eqb (a b : key) : bool :=
  match a, b with
  | Attr x, Attr y | Property x, Property y | Class x, Class y => bytes_eqb x y
  | _, _ => false
  end.

(* ---- the document ---- *)
Inductive kind := KElem (name : bytes) | KText (b : bytes) | KRaw (b : bytes).
Record node := mk_node { parent : option nat; kind_of : kind; slots : list (key * bytes); kids : list nat }.
Definition heap := list node.

Definition set_parent (q : option nat) (n : node) : node := mk_node q (kind_of n) (slots n) (kids n).
Definition set_kind (k : kind) (n : node) : node := mk_node (parent n) k (slots n) (kids n).
Definition set_slots (l : list (key * bytes)) (n : node) : node := mk_node (parent n) (kind_of n) l (kids n).
Definition set_kids (l : list nat) (n : node) : node := mk_node (parent n) (kind_of n) (slots n) l.

Fixpoint modify (h : heap) (i : nat) (f : node -> node) : heap :=
  match h, i with
  | [], _ => []
  | n :: r, O => f n :: r
  | n :: r, S j => n :: modify r j f
  end.
Definition parent_of (h : heap) (i : nat) : option nat := match nth_error h i with Some n => parent n | None => None end.
Definition kids_at (h : heap) (i : nat) : list nat := match nth_error h i with Some n => kids n | None => [] end.

(* document.createElement, document.createTextNode: the new node is the last of the heap *)
Definition create (h : heap) (k : kind) : heap := h ++ [mk_node None k [] []].

Definition remove_kid (c : nat) (n : node) : node := set_kids (filter (fun x => negb (Nat.eqb x c)) (kids n)) n.
Definition detach (h : heap) (c : nat) : heap :=
  match parent_of h c with
  | Some q => modify (modify h q (remove_kid c)) c (set_parent None)
  | None => h
  end.
(* Node.appendChild: a node that is somewhere else is taken from there *)
Definition append_child (h : heap) (p c : nat) : heap :=
  let h := detach h c in modify (modify h p (fun n => set_kids (kids n ++ [c]) n)) c (set_parent (Some p)).
Definition swap_kid (new old : nat) (n : node) : node := set_kids (map (fun x => if Nat.eqb x old then new else x) (kids n)) n.
(* Node.replaceChild: throws when old is not a child of p *)
Definition replace_child (h : heap) (p new old : nat) : out heap :=
  match parent_of h old with
  | Some q => if Nat.eqb q p
              then if Nat.eqb new old then Fine h
                   else let h := detach h new in
                        Fine (modify (modify (modify h p (swap_kid new old)) old (set_parent None)) new (set_parent (Some p)))
              else Throws
  | None => Throws
  end.
(* setting innerHTML *)
Definition clear (h : heap) (p : nat) : heap :=
  modify (fold_left (fun h c => modify h c (set_parent None)) (kids_at h p) h) p (set_kids []).
Definition set_inner_html (h : heap) (p : nat) (b : bytes) : heap :=
  let h := clear h p in match b with [] => h | _ => append_child (create h (KRaw b)) p (length h) end.
Definition last_child (h : heap) (p : nat) : option nat := match rev (kids_at h p) with [] => None | x :: _ => Some x end.

Fixpoint lookup (k : key) (l : list (key * bytes)) : option bytes :=
  match l with [] => None | (k', b) :: r => if key_eqb k k' then Some b else lookup k r end.
Definition unset (k : key) (l : list (key * bytes)) : list (key * bytes) := filter (fun e => negb (key_eqb k (fst e))) l.
(* setAttribute, classList.add, val::set and their opposites *)
Definition put_slot (h : heap) (p : nat) (k : key) (v : option bytes) : heap :=
  modify h p (fun n => set_slots (match v with Some b => (k, b) :: unset k (slots n) | None => unset k (slots n) end) n).

Section Ui.
(* states of the store *)
Variable st : Type.

(* ---- parameters of attributes ---- *)
(* a string constant, a path, ui_spec::concat, a match *)
Inductive pspec :=
| QConst (b : bytes) | QPath (f : st -> option bytes) | QConcat (l : list pspec) | QBranch (c : st -> option nat) (alts : list pspec).
Inductive param := PConst (b : bytes) | PPath (f : st -> option bytes) | PBranch (c : st -> option nat) (alts : list (list param)).

(* ui_helper.hpp:64-108 flatten_param_node; key_at is a path; apply is not turned into text anywhere and does not compile *)
Fixpoint flatten_param_node (n : pspec) : list param :=
  match n with
  | QConst b => [PConst b]
  | QPath f => [PPath f]
  | QConcat l => flat_map flatten_param_node l
  | QBranch c alts => [PBranch c (map flatten_param_node alts)]
  end.

(* params_concat.hpp:46-100: what the concatenation of the views gives as a string (see ConcatModel) *)
Definition concat_with (f : param -> res bytes) := fix go (l : list param) : res bytes :=
  match l with [] => Ok [] | p :: r => let! a := f p in let! b := go r in Ok (a ++ b) end.
Definition select_with {A R} (f : A -> R) (none : R) := fix go (l : list A) (i : nat) : R :=
  match l, i with x :: _, O => f x | _ :: r, S j => go r j | [], _ => none end.
Fixpoint param_text (s : st) (p : param) : res bytes :=
  match p with
  | PConst b => Ok b
  | PPath f => Ok (match f s with Some b => b | None => [] end)                 (* 59-74 *)
  | PBranch c alts =>                                                           (* 78-90; match_branch.hpp:76-81, 94-101 *)
      match c s with Some i => select_with (concat_with (param_text s)) UB alts i | None => UB end
  end.
Definition params_concat (l : list param) (s : st) : res bytes := concat_with (param_text s) l.

(* ---- specifications ---- *)
Inductive tspec := TConst (b : bytes) | TPath (f : st -> option bytes) | TConcat (l : list tspec).
Inductive spec :=
| Element (name : bytes) (l : list spec)
| Attribute (k : key) (v : pspec)                       (* html::attribute and set_property *)
| AddIf (k : key) (f : st -> option bool)               (* add_attribute_if, add_class_if: the predicate of what is at the path *)
| AddClassWhen (n : bytes) (f : st -> bool)             (* whether the path resolves to the type *)
| TextNode (t : tspec)
| InnerHtml (b : bytes)                                 (* unsafe_set_inner_html *)
| Match (c : st -> option nat) (alts : list spec)       (* ui_spec::match, match_if: get_branch_index, match_branch.hpp:25-61 *)
| ForEach (f : st -> option (list st)) (body : spec)    (* the stores of a store_range *)
| Listener (n : bytes)                                  (* event_attribute *)
| FileInput                                             (* hidden_file_input *)
| Noop.

(* the actions of a renderer; a static one is an action_fn, the others are mut_action_fn *)
Inductive action :=
| Begin (name : bytes) | End
| SetSlot (static : bool) (k : key) (f : st -> res (option (option bytes)))  (* Ok None: left alone; Some None: removed *)
| TextStatic (b : bytes) | TextPath (f : st -> option bytes)
| Html (b : bytes)
| Branch (c : st -> option nat) (alts : list (list action))
| Each (f : st -> option (list st)) (body : list action)
| Listen (n : bytes) | AddFileInput.

(* flatten_text_node, flatten_spec.hpp:57-83 *)
Fixpoint flatten_text_node (t : tspec) : list action :=
  match t with TConst b => [TextStatic b] | TPath f => [TextPath f] | TConcat l => flat_map flatten_text_node l end.

(* one string constant: the first of the two specialisations, dom_manips.hpp:127-147 *)
Definition is_const (l : list param) : bool := match l with [PConst _] => true | _ => false end.

(* flatten_spec_fn, flatten_spec.hpp:85-162 *)
Fixpoint flatten_spec (s : spec) : list action :=
  match s with
  | Element n l => [Begin n] ++ flat_map flatten_spec l ++ [End]                                  (* 36-55 *)
  | Attribute k v =>                                                                              (* 98-108 *)
      let ps := flatten_param_node v in [SetSlot (is_const ps) k (fun s => let! b := params_concat ps s in Ok (Some (Some b)))]
  | AddIf k f => [SetSlot false k (fun s => Ok (option_map (fun b : bool => if b then Some [] else None) (f s)))]
  | AddClassWhen n f => [SetSlot false (Class n) (fun s => Ok (Some (if f s then Some [] else None)))]
  | TextNode t => flatten_text_node t
  | InnerHtml b => [Html b]
  | Match c alts => [Branch c (map flatten_spec alts)]                                            (* ui_helper.hpp:28-53 *)
  | ForEach f body => [Each f (flatten_spec body)]                                                (* ui_helper.hpp:112-130 *)
  | Listener n => [Listen n]
  | FileInput => [AddFileInput]
  | Noop => []
  end.

(* ---- rendering ---- *)
(* what a renderer keeps of each action; the node_containers of a branch may be null *)
Inductive rnode :=
| RStatic
| RSlot (el : nat) (k : key) (f : st -> res (option (option bytes)))
| RText (el : nat) (f : st -> option bytes)
| RBranch (parent_el : nat) (branch_id : option nat) (containers : list (option nat)) (c : st -> option nat) (subs : list (list rnode))
| REach (el : nat) (f : st -> option (list st)) (body : list action).

Definition apply_slot (h : heap) (p : nat) (k : key) (v : option (option bytes)) : heap :=
  match v with Some v => put_slot h p k v | None => h end.

(* update_branch, dom_manips.hpp:354-382; [None] is static_cast<std::size_t>(-1) *)
Definition update_branch (h : heap) (parent_el : nat) (branch_id : option nat) (containers : list (option nat)) (index : option nat) : out heap :=
  match index, branch_id with
  | None, None => Fine h
  | None, Some _ => Undefined                                   (* node_containers[-1] *)
  | Some i, Some b =>
      if Nat.eqb i b then Fine h
      else match nth_error containers i, nth_error containers b with
           | Some (Some new), Some (Some old) => replace_child h parent_el new old
           | Some _, Some _ => Throws                           (* null is no node *)
           | _, _ => Undefined
           end
  | Some i, None =>
      match nth_error containers i with
      | Some (Some new) => Fine (append_child h parent_el new)
      | Some None => Throws
      | None => Undefined
      end
  end.

(* renderer_impl::render, renderer.hpp:120-129 *)
Definition run_with (act : action -> heap -> nat -> out (heap * nat * rnode)) :=
  fix go (l : list action) (h : heap) (p : nat) : out (heap * nat * list rnode) :=
  match l with
  | [] => Fine (h, p, [])
  | a :: r => let* (h, p, x) := act a h p in let* (h, p, xs) := go r h p in Fine (h, p, x :: xs)
  end.
(* dom_manips.hpp:408-413 *)
Definition alternatives_with (run : list action -> heap -> nat -> out (heap * nat * list rnode)) (temp_span : nat) :=
  fix go (alts : list (list action)) (h : heap) : out (heap * list (option nat) * list (list rnode)) :=
  match alts with
  | [] => Fine (h, [], [])
  | a :: r => let* (h, _, rs) := run a h temp_span in
              let c := last_child h temp_span in
              let* (h, cs, rss) := go r h in Fine (h, c :: cs, rs :: rss)
  end.
(* dom_manips.hpp:640-666; the renderers of the items are never updated, only replaced *)
Definition each_with (run : st -> heap -> out heap) :=
  fix go (items : list st) (h : heap) : out heap :=
  match items with [] => Fine h | s :: r => let* h := run s h in go r h end.

Definition style_none : key * bytes := (Property (bs "style.display"), bs "none").
Definition type_file : key * bytes := (Attr (bs "type"), bs "file").

(* operator() of the actions, dom_manips.hpp:99-746: the element for the next action *)
Fixpoint act (a : action) (s : st) (h : heap) (p : nat) {struct a} : out (heap * nat * rnode) :=
  match a with
  | Begin n => let el := length h in Fine (append_child (create h (KElem n)) p el, el, RStatic)       (* 99-111 *)
  | End => match parent_of h p with Some q => Fine (h, q, RStatic) | None => Throws end               (* 113-121 *)
  | SetSlot static k f =>                                                                             (* 127-233, 473-598 *)
      let* v := lift (f s) in Fine (apply_slot h p k v, p, if static then RStatic else RSlot p k f)
  | TextStatic b => Fine (append_child (create h (KText b)) p (length h), p, RStatic)                 (* 239-250 *)
  | TextPath f =>                                                                                     (* 258-289 *)
      let el := length h in
      let b := match f s with Some b => b | None => [] end in
      Fine (append_child (create h (KText b)) p el, p, RText el f)
  | Html b => Fine (set_inner_html h p b, p, RStatic)                                                 (* 424-433 *)
  | Branch c alts =>                                                                                  (* 400-417 *)
      let temp_span := length h in
      let h := create h (KElem (bs "span")) in
      let* (h, cs, rss) := alternatives_with (run_with (fun a => act a s)) temp_span alts h in
      let* h := update_branch h p None cs (c s) in
      Fine (h, p, RBranch p (c s) cs c rss)
  | Each f body =>                                                                                    (* 632-666 *)
      let h := clear h p in
      let* h := match f s with
                | Some items => each_with (fun x h => let* (h, _, _) := run_with (fun a => act a x) body h p in Fine h) items h
                | None => Fine h
                end in
      Fine (h, p, REach p f body)
  | Listen _ => Fine (h, p, RStatic)                                                                  (* 444-471 *)
  | AddFileInput =>                                                                                   (* 686-746 *)
      let el := length h in
      let h := modify (create h (KElem (bs "input"))) el (set_slots [style_none; type_file]) in
      Fine (append_child h p el, p, RStatic)
  end.
Definition run (l : list action) (s : st) (h : heap) (p : nat) : out (heap * nat * list rnode) := run_with (fun a => act a s) l h p.

(* ---- updating ---- *)
Definition update_with (upd : rnode -> heap -> out (heap * rnode)) :=
  fix go (l : list rnode) (h : heap) : out (heap * list rnode) :=
  match l with
  | [] => Fine (h, [])
  | x :: r => let* (h, x) := upd x h in let* (h, xs) := go r h in Fine (h, x :: xs)
  end.
Definition update_all_with (upd : list rnode -> heap -> out (heap * list rnode)) :=
  fix go (l : list (list rnode)) (h : heap) : out (heap * list (list rnode)) :=
  match l with
  | [] => Fine (h, [])
  | x :: r => let* (h, x) := upd x h in let* (h, xs) := go r h in Fine (h, x :: xs)
  end.

Fixpoint update_node (s : st) (x : rnode) (h : heap) {struct x} : out (heap * rnode) :=
  match x with
  | RStatic => Fine (h, x)
  | RSlot el k f => let* v := lift (f s) in Fine (apply_slot h el k v, x)
  | RText el f => Fine (match f s with Some b => modify h el (set_kind (KText b)) | None => h end, x)  (* 291-297 *)
  | RBranch p b cs c subs =>                                                                          (* 384-393 *)
      let* h := update_branch h p b cs (c s) in
      let* (h, subs) := update_all_with (update_with (update_node s)) subs h in
      Fine (h, RBranch p (c s) cs c subs)
  | REach el f body =>                                                                                (* 640-666 *)
      let h := clear h el in
      let* h := match f s with
                | Some items => each_with (fun x h => let* (h, _, _) := run body x h el in Fine h) items h
                | None => Fine h
                end in
      Fine (h, x)
  end.

(* renderer_impl, renderer.hpp:73-163: made for an element it renders at once (110-118) *)
Record renderer := mk_renderer { is_destroyed : bool; render_pipe : list rnode }.
Definition make_renderer (s : spec) (x : st) (h : heap) (p : nat) : out (heap * renderer) :=
  let* (h, _, rs) := run (flatten_spec s) x h p in Fine (h, mk_renderer false rs).
(* 131-145, called for every change of the store (notify_state_change, 179-187) *)
Definition update (x : st) (h : heap) (r : renderer) : out (heap * renderer) :=
  if is_destroyed r then Fine (h, r)
  else let* (h, rs) := update_with (update_node x) (render_pipe r) h in Fine (h, mk_renderer false rs).
(* 147-162 *)
Definition destroy (r : renderer) : renderer := mk_renderer true (render_pipe r).

(* what happens to a renderer: the store changed to some state, or it is destroyed *)
Inductive event := Changed (x : st) | Destroyed.
Fixpoint live_through (l : list event) (h : heap) (r : renderer) : out (heap * renderer) :=
  match l with
  | [] => Fine (h, r)
  | Changed x :: l' => let* (h, r) := update x h r in live_through l' h r
  | Destroyed :: l' => live_through l' h (destroy r)
  end.
End Ui.
Arguments QConst {st} b. Arguments QPath {st} f. Arguments QConcat {st} l. Arguments QBranch {st} c alts.
Arguments PConst {st} b. Arguments PPath {st} f. Arguments PBranch {st} c alts.
Arguments TConst {st} b. Arguments TPath {st} f. Arguments TConcat {st} l.
Arguments Element {st} name l. Arguments Attribute {st} k v. Arguments AddIf {st} k f. Arguments AddClassWhen {st} n f.
Arguments TextNode {st} t. Arguments InnerHtml {st} b. Arguments Match {st} c alts. Arguments ForEach {st} f body.
Arguments Listener {st} n. Arguments FileInput {st}. Arguments Noop {st}.
Arguments Begin {st} name. Arguments End {st}. Arguments SetSlot {st} static k f. Arguments TextStatic {st} b.
Arguments TextPath {st} f. Arguments Html {st} b. Arguments Branch {st} c alts. Arguments Each {st} f body.
Arguments Listen {st} n. Arguments AddFileInput {st}.
Arguments RStatic {st}. Arguments RSlot {st} el k f. Arguments RText {st} el f.
Arguments RBranch {st} parent_el branch_id containers c subs. Arguments REach {st} el f body.
Arguments flatten_param_node {st} n. Arguments param_text {st} s p. Arguments params_concat {st} l s. Arguments concat_with {st} f l.
Arguments is_const {st} l. Arguments flatten_text_node {st} t. Arguments flatten_spec {st} s.
Arguments run_with {st} act l h p. Arguments alternatives_with {st} run temp_span alts h. Arguments each_with {st} run items h.
Arguments act {st} a s h p. Arguments run {st} l s h p. Arguments update_with {st} upd l h. Arguments update_all_with {st} upd l h.
Arguments update_node {st} s x h. Arguments make_renderer {st} s x h p. Arguments update {st} x h r. Arguments destroy {st} r.
Arguments Changed {st} x. Arguments Destroyed {st}. Arguments live_through {st} l h r.
Arguments mk_renderer {st} is_destroyed render_pipe. Arguments is_destroyed {st} r. Arguments render_pipe {st} r.
