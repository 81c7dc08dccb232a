(** * OwnSpec: exact reference counts. *)
From Verif Require Import Base Time Parsers Engine Own.

(** The references that live objects hold. *)
Definition refs (h : jheap) : list nat :=
  flat_map (fun s => match s with Some o => children (j_cell o) | None => [] end) h.
Definition rc_of (h : jheap) (x : nat) : nat :=
  match nth_error h x with Some (Some o) => j_rc o | _ => 0 end.
Definition alive (h : jheap) (x : nat) : Prop := exists o, nth_error h x = Some (Some o).
Definition times (x : nat) (l : list nat) : nat := count_occ Nat.eq_dec l x.

(** [held]: the references held outside of the heap (by the application, by the rulebase for
    its tags, by a C variable), each as often as it is held. Every object is counted exactly:
    its count is the number of references to it, no object without a reference is alive, and
    nothing refers to a freed object. *)
Definition exact (h : jheap) (held : list nat) : Prop :=
  (forall x, rc_of h x = times x (refs h) + times x held) /\ (forall x, alive h x -> 1 <= rc_of h x).

(** ** Rulebases in which nothing gets lost *)
Inductive leads (cx : ctx) : nat -> nat -> Prop :=
| leads_self : forall a, leads cx a a
| leads_field : forall a n p b, get_node (c_nodes cx) a = EOk n -> In p (n_parsers n) -> leads cx (p_child p) b -> leads cx a b.
(** [p] is one of the fields behind position [a] of a rule (or alternative). *)
Definition field_from (cx : ctx) (a : nat) (p : prs) : Prop :=
  exists b n, leads cx a b /\ get_node (c_nodes cx) b = EOk n /\ In p (n_parsers n).
Definition no_dot (cx : ctx) (a : nat) : Prop := forall p, field_from cx a p -> p_name p <> Some (L ".").
(** No two fields named "." stand one behind the other. *)
Definition one_dot (cx : ctx) (a : nat) : Prop :=
  forall p, field_from cx a p -> p_name p = Some (L ".") -> no_dot cx (p_child p).
(** No field has a user-defined type, and no "parser" part of a repeat has two fields "."
    in a row. *)
Definition tidy (cx : ctx) : Prop :=
  forall a n p, get_node (c_nodes cx) a = EOk n -> In p (n_parsers n) ->
  match p_kind p with
  | KCustom _ => False
  | KRepeat pn _ _ => one_dot cx pn
  | KSimple _ => True
  end.

(** ** Objects *)
Definition cell_of (h : jheap) (x : nat) : option jcell :=
  match nth_error h x with Some (Some o) => Some (j_cell o) | _ => None end.
(** No object contains itself, however deep. *)
Definition acyclic (h : jheap) : Prop :=
  exists rank : nat -> nat, forall x c y, cell_of h x = Some c -> In y (children c) -> rank y < rank x.
(** The same objects, with the same contents and counts. *)
Definition same_memory (h h' : jheap) : Prop :=
  forall x, match nth_error h x with Some o => o | None => None end = match nth_error h' x with Some o => o | None => None end.

(** ** An application: for every message a new event object, one call, and the event given up
    again. [tg]: the tags array of a node. *)
Fixpoint serve (e : env) (cx : ctx) (fuel : nat) (tg : nat -> option nat) (msgs : list text) (h : jheap)
  : er (list bool * list nat * jheap) :=
  match msgs with
  | [] => EOk ([], [], h)
  | m :: msgs' =>
      let (ev, h1) := jalloc h (CObj []) in
      do* (ok, h2, lost) := normalizeH e cx m fuel tg ev h1 in
      do* h3 := jput h2 (Some ev) in
      do* (oks, losts, h4) := serve e cx fuel tg msgs' h3 in
      EOk (ok :: oks, lost ++ losts, h4)
  end.
(** The heap of a context that has just been loaded: the tags of its nodes. *)
Fixpoint tags_heap (ns : list (option node)) (h : jheap) : list (option nat) * jheap :=
  match ns with
  | [] => ([], h)
  | n :: ns' =>
      let (x, h1) := match n with
                     | Some n => match n_tags n with Some t => jnew t h | None => (None, h) end
                     | None => (None, h)
                     end in
      let (xs, h2) := tags_heap ns' h1 in (x :: xs, h2)
  end.
Definition tags_at (xs : list (option nat)) (n : nat) : option nat := match nth_error xs n with Some x => x | None => None end.
Definition rulebase_refs (xs : list (option nat)) : list nat := flat_map opt_list xs.
Definition live (h : jheap) : nat := List.length (filter (fun s => match s with Some _ => true | None => false end) h).

(** ** Values *)
(** The JSON value that can be read from an object reference. *)
Inductive reads (h : jheap) : option nat -> json -> Prop :=
| rd_null : reads h None JNull
| rd_leaf : forall i v, cell_of h i = Some (CLeaf v) -> match v with JNull | JArr _ | JObj _ => False | _ => True end -> reads h (Some i) v
| rd_arr : forall i xs l, cell_of h i = Some (CArr xs) -> reads_list h xs l -> reads h (Some i) (JArr l)
| rd_obj : forall i ms o, cell_of h i = Some (CObj ms) -> reads_mems h ms o -> reads h (Some i) (JObj o)
with reads_list (h : jheap) : list (option nat) -> list json -> Prop :=
| rl_nil : reads_list h [] []
| rl_cons : forall x xs v l, reads h x v -> reads_list h xs l -> reads_list h (x :: xs) (v :: l)
with reads_mems (h : jheap) : list (text * option nat) -> fields -> Prop :=
| rm_nil : reads_mems h [] []
| rm_cons : forall k x ms v o, reads h x v -> reads_mems h ms o -> reads_mems h ((k, x) :: ms) ((k, v) :: o).
(** What an application sees that makes an event, calls, reads the event and gives it up, for
    one message after the other: the answers and the events. *)
Inductive session (e : env) (cx : ctx) (fuel : nat) (tg : nat -> option nat) : jheap -> list text -> list (bool * fields) -> jheap -> Prop :=
| session_end : forall h, session e cx fuel tg h [] [] h
| session_call : forall h m ms ev h1 ok h2 lost o h3 outs h4,
    jalloc h (CObj []) = (ev, h1) -> normalizeH e cx m fuel tg ev h1 = EOk (ok, h2, lost) -> reads h2 (Some ev) (JObj o) ->
    jput h2 (Some ev) = EOk h3 -> session e cx fuel tg h3 ms outs h4 ->
    session e cx fuel tg h (m :: ms) ((ok, o) :: outs) h4.
