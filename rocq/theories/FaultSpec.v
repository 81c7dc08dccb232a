(** * FaultSpec: the ways in which normalizing a message can misbehave (a specification). *)
From Verif Require Import Base Parsers Engine EngineSpec SafetySpec EngineWf.

Section Faults.
Variables (cx : ctx) (e : env) (msg : text).

(** A cee-syslog field, and "@cee:" in the message, not at its beginning (see C08). *)
Definition cee_inside : Prop :=
  exists p k, in_graph cx p /\ p_kind p = KSimple MCee /\ 1 <= k /\ firstn 5 (skipn k msg) = L "@cee:".

(** A repeat field whose separator stores a field: the separator is run without an object to
    store into. *)
Definition named_separator : Prop :=
  exists rp pn wn permit b n p,
    in_graph cx rp /\ p_kind rp = KRepeat pn wn permit /\
    reach_node cx wn b /\ node_at cx b n /\ In p (n_parsers n) /\ p_name p <> None.

(** An annotation without a field name or with an empty value. *)
Definition empty_annotation : Prop :=
  exists tag ops nm v, In (tag, ops) (c_annots cx) /\ In (AopAdd nm v) ops /\ (nm = None \/ v = None).

(** The rulebase has the empty rule, or a literal field without text: the reconstructed rule
    is empty. *)
Definition empty_mockup : Prop :=
  (exists n, node_at cx (c_root cx) n /\ n_term n = true) \/
  (exists p l, in_graph cx p /\ p_kind p = KSimple (MLiteral l) /\ forall c, In c l -> c = NUL).

Inductive fault : ub -> Prop :=
| ft_endless : fault OutOfFuel
| ft_field : forall u, exposed cx e msg u -> fault u
| ft_cee_offset : cee_inside -> fault OobOffset
| ft_cee_read : cee_inside -> fault OobRead
| ft_separator : named_separator -> fault NullDeref
| ft_annotation : empty_annotation -> fault NullDeref
| ft_mockup : opt_rule (c_opts cx) = true -> empty_mockup -> fault OobWrite.
End Faults.

(** None of the causes, for whatever message: *)
Definition no_traps (cx : ctx) : Prop :=
  fields_usable cx /\ (forall p, in_graph cx p -> p_kind p <> KSimple MCee) /\
  (forall rp pn wn permit, in_graph cx rp -> p_kind rp = KRepeat pn wn permit -> silent cx wn) /\
  (forall tag ops nm v, In (tag, ops) (c_annots cx) -> In (AopAdd nm v) ops -> nm <> None /\ v <> None) /\
  opt_rule (c_opts cx) = false.
