(** * EngineWf: rulebases on which the normalizer cannot go wrong (a specification). *)
From Verif Require Import Base Parsers Engine EngineSpec SafetySpec.

(** The field always takes at least one byte. *)
Definition consuming (m : motif) : bool :=
  match m with
  | MLiteral (c :: _) => negb (ceq c NUL)
  | MLiteral [] | MRest | MCharSep _ | MNVList _ _ | MLEA _ | MJson | MCee | MNoData _ => false
  | _ => true
  end.

Section Wf.
Variable cx : ctx.

Definition valid (i : nat) : Prop := exists n, node_at cx i n.
(** a graph whose start is not already a rule end *)
Definition starter (i : nat) : Prop := exists n, node_at cx i n /\ n_term n = false.

(** a graph that takes at least one byte *)
Inductive productive : nat -> Prop :=
| prod_node : forall i n, node_at cx i n -> n_term n = false -> Forall prod_prs (n_parsers n) -> productive i
with prod_prs : prs -> Prop :=
| pp_simple : forall p m, p_kind p = KSimple m -> consuming m = true -> prod_prs p
| pp_custom : forall p ti nm tn, p_kind p = KCustom ti -> nth_error (c_types cx) ti = Some (nm, tn) -> productive tn -> prod_prs p
| pp_repeat : forall p pn wn, p_kind p = KRepeat pn wn false -> productive pn -> prod_prs p.

(** a graph that stores no field *)
Definition silent (i : nat) : Prop :=
  forall b n, reach_node cx i b -> node_at cx b n -> Forall (fun p => p_name p = None) (n_parsers n).

(** One field of a node of rank [r]: everything it refers to exists and has a smaller rank
    (no recursion through children, user-defined types or repeat); the repeated and the
    separating parser of a repeat take something. *)
Definition field_ok (rk : nat -> nat) (r : nat) (p : prs) : Prop :=
  valid (p_child p) /\ rk (p_child p) < r /\
  match p_kind p with
  | KSimple m => m <> MCee
  | KCustom ti => exists nm tn, nth_error (c_types cx) ti = Some (nm, tn) /\ starter tn /\ rk tn < r
  | KRepeat pn wn _ => starter pn /\ rk pn < r /\ productive wn /\ rk wn < r /\ silent wn
  end.

Definition graph_ok (rk : nat -> nat) : Prop :=
  valid (c_root cx) /\ forall i n, node_at cx i n -> Forall (field_ok rk (rk i)) (n_parsers n).

(** A field of the rulebase. *)
Definition in_graph (p : prs) : Prop := exists i n, node_at cx i n /\ In p (n_parsers n).

(** Some field of the rulebase is exposed to [u] somewhere in the message. *)
Definition exposed (e : env) (msg : text) (u : ub) : Prop :=
  exists p m k, in_graph p /\ p_kind p = KSimple m /\ hazard e m (named p) (skipn k msg) u.

(** No op-quoted-string without a name, no field whose configuration was incomplete. *)
Definition fields_usable : Prop := forall p m, in_graph p -> p_kind p = KSimple m -> m_ok m (named p).

(** Everything needed to report a success. *)
Definition report_ok : Prop :=
  (forall tag ops op, In (tag, ops) (c_annots cx) -> In op ops -> exists n v, op = AopAdd (Some n) (Some v)) /\
  (opt_loc (c_opts cx) = true -> forall i n, node_at cx i n -> n_term n = true -> n_file n <> None) /\
  (opt_rule (c_opts cx) = true -> starter (c_root cx) /\
     forall i n p, node_at cx i n -> In p (n_parsers n) -> exists c, In c (mockup_of p) /\ c <> NUL).
End Wf.
