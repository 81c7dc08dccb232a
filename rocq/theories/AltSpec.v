(** * AltSpec: rules with alternatives, and what they mean.

    Uses the data types of the model, the meaning of a single field ([complete], [means]:
    BuiltSpec.v) and the splitting of a rule text into field descriptions ([rule_confs]:
    RuleSpec.v); nothing of how graphs are built. *)
From Verif Require Import Base Parsers Engine Pdag Samp GraphSpec RuleSpec BuiltSpec.

(** A rule with alternatives is a list of steps; a step is the list of the fields it offers. *)
Definition astep : Type := list json.
Definition arule : Type := list astep.

(** The steps a field description stands for: one field; or [{"type":"alternative",
    "parser":[..]}], one step that offers the fields of the list; or an array of fields, one
    step each. *)
Inductive steps_of (e : env) : json -> arule -> Prop :=
| so_field : forall conf, complete e [] conf -> steps_of e conf [[conf]]
| so_alternative : forall l ps, jget (JObj l) "type" = Some (JStr (L "alternative")) -> jget (JObj l) "parser" = Some (JArr ps) ->
    ps <> [] -> Forall (complete e []) ps -> steps_of e (JObj l) [ps]
| so_sequence : forall l, Forall (complete e []) l -> steps_of e (JArr l) (map (fun c => [c]) l).

(** The steps of a rule text. *)
Definition rule_steps (e : env) (t : text) (ss : arule) : Prop :=
  exists cs sss, rule_confs e t cs /\ Forall2 (steps_of e) cs sss /\ ss = List.concat sss.

(** The rule matches a message: one of the fields of each step can be chosen so that these
    fields, one after the other, take all of the message. *)
Definition arule_matches (e : env) (ss : arule) (msg : text) : Prop :=
  exists cs fs, Forall2 (fun c s => In c s) cs ss /\ Forall2 (means e) cs fs /\ rule_matches e fs msg.

(** Steps are the same if they offer the same fields. *)
Definition same_step (s1 s2 : astep) : Prop := forall c, In c s1 <-> In c s2.
Definition same_steps (r1 r2 : arule) : Prop := Forall2 same_step r1 r2.
(** Where two rules part, after the same steps, they have no field in common. *)
Definition compatible (r1 r2 : arule) : Prop :=
  forall p1 s1 q1 p2 s2 q2, r1 = p1 ++ s1 :: q1 -> r2 = p2 ++ s2 :: q2 -> same_steps p1 p2 ->
    same_step s1 s2 \/ forall c, In c s1 -> ~ In c s2.

(** The number of fields of the widest step. *)
Definition width (r : arule) : nat := fold_right Nat.max 0 (map (@List.length json) r).
(** The rules fit: at most 255 fields at one place. *)
Definition rules_fit (rs : list arule) : Prop := fold_right Nat.add 0 (map width rs) <= 255.

(** [abuilt e rs cx]: the context was built from a fresh one by adding the rule texts with the
    steps [rs] (no user-defined types). *)
Inductive abuilt (e : env) : list (arule * rule_info) -> ctx -> Prop :=
| ab_init : forall o, abuilt e [] (initCtx o)
| ab_rule : forall rs cx t ss tags cx', abuilt e rs cx -> rule_steps e t ss ->
    addSampToTree e cx t (c_root cx) tags = EOk cx' ->
    abuilt e (rs ++ [(ss, (tags, Some (c_file cx), c_line cx))]) cx'
| ab_other : forall rs cx cx', abuilt e rs cx ->
    c_nodes cx' = c_nodes cx -> c_root cx' = c_root cx -> c_types cx' = c_types cx -> abuilt e rs cx'.
(** A context ready for use: optimized or not. *)
Definition aready (e : env) (q : list prs -> list prs) (rs : list (arule * rule_info)) (cx : ctx) : Prop :=
  abuilt e rs cx \/ exists cx0, abuilt e rs cx0 /\ optimize q cx0 = EOk cx.
