(** * SimSpec: contexts with the same rules.

    Two contexts hold the same rules if they agree in everything the normalizer uses of the
    rules: the graph (its parsers, rule ends and tags), the user-defined types, the
    annotations. They may differ in where the rules stood (file and line), in statistics
    counters, in the prefix in force and in the position of the reader. *)
From Verif Require Import Base Parsers Engine.

Definition alike_node (n n' : node) : Prop :=
  n_parsers n = n_parsers n' /\ n_term n = n_term n' /\ n_tags n = n_tags n' /\ n_refcnt n = n_refcnt n'.
Definition alike_slot (a b : option node) : Prop :=
  match a, b with Some n, Some n' => alike_node n n' | None, None => True | _, _ => False end.
Definition same_graph (c c' : ctx) : Prop :=
  Forall2 alike_slot (c_nodes c) (c_nodes c') /\ c_root c = c_root c' /\ c_types c = c_types c'.
Definition same_rules (c c' : ctx) : Prop := same_graph c c' /\ c_annots c = c_annots c'.
