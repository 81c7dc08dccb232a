(** * GraphSpec: what a sound rule graph is. Uses only the data types of Engine.v. *)
From Verif Require Import Base Parsers Engine.
From Coq Require Import Permutation.

(** [live h i n]: node [i] of the heap is allocated and holds [n]. *)
Definition live (h : list (option node)) (i : nat) (n : node) : Prop := nth_error h i = Some (Some n).

(** The nodes a parser holds a reference to: the node it leads to, and for repeat the two
    inner graphs. *)
Definition targets (p : prs) : list nat :=
  p_child p :: match p_kind p with KRepeat a b _ => [a; b] | _ => [] end.
Definition node_targets (o : option node) : list nat :=
  match o with Some n => flat_map targets (n_parsers n) | None => [] end.
(** All references held by allocated nodes, with multiplicity. *)
Definition edges (h : list (option node)) : list nat := flat_map node_targets h.

Definition occurrences (i : nat) (l : list nat) : Z := Z.of_nat (count_occ Nat.eq_dec l i).

(** Reference counts are exact, every reference leads to an allocated node, nothing allocated
    is unreferenced, and there is no cycle (a rank that falls along every reference).
    [owners] are the references held from outside: the root and the type graphs. *)
Definition refcounts_exact (h : list (option node)) (owners : list nat) : Prop :=
  forall i n, live h i n -> n_refcnt n = occurrences i (edges h ++ owners).
Definition no_dangling (h : list (option node)) (owners : list nat) : Prop :=
  forall i, In i (edges h ++ owners) -> exists n, live h i n.
Definition no_garbage (h : list (option node)) (owners : list nat) : Prop :=
  forall i n, live h i n -> In i (edges h ++ owners).
Definition acyclic (h : list (option node)) : Prop :=
  exists rk : nat -> nat, forall i n p t, live h i n -> In p (n_parsers n) -> In t (targets p) -> rk t < rk i.

Definition owners (cx : ctx) : list nat := c_root cx :: map snd (c_types cx).
Definition sound_graph (cx : ctx) : Prop :=
  refcounts_exact (c_nodes cx) (owners cx) /\ no_dangling (c_nodes cx) (owners cx) /\
  no_garbage (c_nodes cx) (owners cx) /\ acyclic (c_nodes cx).

Definition all_freed (h : list (option node)) : Prop := Forall (fun o => o = None) h.

(** ** Configurations *)
(** Number of objects (field definitions) in a configuration, at any depth. *)
Fixpoint objects (j : json) : nat :=
  match j with
  | JArr l => (fix go l := match l with [] => 0 | x :: l' => objects x + go l' end) l
  | JObj l => S ((fix go l := match l with [] => 0 | x :: l' => objects (snd x) + go l' end) l)
  | _ => 0
  end.
(** No object has two members with the same name (libfastjson keeps only one). *)
Fixpoint unique_keys (j : json) : Prop :=
  match j with
  | JArr l => (fix go l := match l with [] => True | x :: l' => unique_keys x /\ go l' end) l
  | JObj l => NoDup (map fst l) /\
              (fix go l := match l with [] => True | x :: l' => unique_keys (snd x) /\ go l' end) l
  | _ => True
  end.
(** Every node can take [K] more fields (a node holds at most 255). *)
Definition has_room (cx : ctx) (K : nat) : Prop :=
  K <= 255 /\ forall i n, live (c_nodes cx) i n -> List.length (n_parsers n) + K <= 255.

(** As [sound_graph], but some references [lost] may be held by nobody any more (leaked). *)
Definition safe_graph_with (cx : ctx) (lost : list nat) : Prop :=
  refcounts_exact (c_nodes cx) (lost ++ owners cx) /\ no_dangling (c_nodes cx) (lost ++ owners cx) /\
  no_garbage (c_nodes cx) (lost ++ owners cx) /\ acyclic (c_nodes cx).
Definition safe_graph (cx : ctx) : Prop := exists lost, safe_graph_with cx lost.
