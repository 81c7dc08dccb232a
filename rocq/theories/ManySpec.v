(** * ManySpec: rulebases with any number of rules and user-defined types.

    What a rule of such a rulebase takes. A user-defined type takes what one of its rules
    takes; the code does not remember where that ended but goes on at the furthest position
    any attempt so far got to (C56_refuted), so it is only said that the next field starts
    at or behind that end. Uses [rfield], [stored], [report] (OneSpec.v) and the result of a
    single field parser ([run_motif]); no graphs, nothing of the normalizer. *)
From Verif Require Import Base Parsers Engine Pdag Samp EngineSpec RuleSpec BuiltSpec LineSpec LoadSpec SafetySpec EngineWf OneSpec.

(** A rule: where it belongs (the rulebase or a type), its fields, its tags. *)
Definition mrule : Type := (place * rfields * list text)%type.

Section Meaning.
Variable e : env.
Variable rules : list mrule.
Variable msg : text.
(** [takes f named from to v]: the field takes the message from [from], the next field starts
    at [to], and its value is [v]. *)
Inductive takes : rfield -> bool -> nat -> nat -> json -> Prop :=
| tk_plain : forall m named from n v, from <= List.length msg ->
    run_motif e m named from (skipn from msg) = Ok (n, v) -> takes (RPlain m) named from (from + n) v
| tk_type : forall T fs tags named from last to vs, In (Some T, fs, tags) rules ->
    takes_all fs from last vs -> last <= to -> takes (RType T) named from to (JObj (stored [] vs))
with takes_all : rfields -> nat -> nat -> list (option text * json) -> Prop :=
| ta_nil : forall from, takes_all [] from from []
| ta_cons : forall f nm fs from mid v to vs, takes f (has_name nm) from mid v ->
    takes_all fs mid to vs -> takes_all ((f, nm) :: fs) from to ((nm, v) :: vs).
(** from the beginning to the end of the message *)
Definition takes_message (fs : rfields) (vs : list (option text * json)) : Prop := takes_all fs 0 (List.length msg) vs.
End Meaning.

(** ** From lines to rules *)
Section Reads.
Variable e : env.
(** A field of a built-in type or of a user-defined type with one of the names [names]. *)
Inductive flat_reads (names : list text) (conf : json) : rfield * option text -> Prop :=
| fr_plain : forall m nm, flat_field e (known names) conf = Some (KSimple m, nm) -> flat_reads names conf (RPlain m, nm)
| fr_type : forall ti T nm, flat_field e (known names) conf = Some (KCustom ti, nm) -> nth_error names ti = Some T -> flat_reads names conf (RType T, nm).
Definition add_name (T : text) (names : list text) : list text :=
  if in_dec (list_eq_dec ascii_dec) T names then names else names ++ [T].
(** [reads_lines names p ls rs]: with the types [names] declared and the prefix [p] in force the
    lines [ls] hold the rules [rs]. A type may have several rules and may use itself. *)
Inductive reads_lines : list text -> option text -> list (text * N) -> list mrule -> Prop :=
| rl_nil : forall names p, reads_lines names p [] []
| rl_rule : forall names p tags r cs fs n ls rs, Forall good_tag tags -> r <> [] -> rule_confs e (in_force p ++ r) cs -> Forall2 (flat_reads names) cs fs ->
    reads_lines names p ls rs -> reads_lines names p ((rule_line tags r, n) :: ls) ((None, fs, tags) :: rs)
| rl_type : forall names p T r cs fs n ls rs, type_name T -> r <> [] -> rule_confs e r cs -> cs <> [] -> Forall2 (flat_reads (add_name T names)) cs fs ->
    reads_lines (add_name T names) p ls rs -> reads_lines names p ((type_line T r, n) :: ls) ((Some T, fs, []) :: rs)
| rl_prefix : forall names p t n ls rs, reads_lines names (Some t) ls rs -> reads_lines names p ((L "prefix=" ++ t, n) :: ls) rs
| rl_extend : forall names p t n ls rs, reads_lines names (Some (p ++ t)) ls rs -> reads_lines names (Some p) ((L "extendprefix=" ++ t, n) :: ls) rs.
End Reads.

(** Every message without NUL byte: a success has a rule of the rulebase that takes the whole
    message, its values are in the object, and the tags are those of a rule that takes the whole
    message too (this rule, or one whose fields are the beginning of it); a rule without
    user-defined types that takes the message is enough for success; on failure the message and
    the rest of it are reported. *)
Definition sound_and_complete (e : env) (o : opts) (cx : ctx) (rules : list mrule) : Prop :=
  forall msg nf js0 ok out cx', ~ In NUL msg -> normalize nf e cx msg js0 = EOk (ok, out, cx') ->
  (ok = true -> exists fs tags0 vs fs1 tags vs1 vs2,
     In (None, fs, tags0) rules /\ takes_message e rules msg fs vs /\
     In (None, fs1, tags) rules /\ takes_message e rules msg fs1 vs1 /\
     (forall x, stored x vs = stored (stored x vs2) vs1) /\
     (opt_rule o = false -> opt_loc o = false -> out = report o tags msg (stored js0 vs))) /\
  (forall fs tags vs, In (None, fs, tags) rules -> (forall f, In f fs -> exists m, fst f = RPlain m) ->
     takes_message e rules msg fs vs -> ok = true) /\
  (ok = false -> exists k, k <= List.length msg /\ out = failure_report msg k js0).

Scheme takes_mut := Minimality for takes Sort Prop
with takes_all_mut := Minimality for takes_all Sort Prop.

(** ** Rulebases that always have an answer *)
(** A rule of a type uses another type (or itself) only if that has a smaller rank, or behind a
    field that always takes at least one byte. *)
Definition grounded (rules : list mrule) : Prop := exists R : text -> nat,
  forall T fs tags pre T' nm post, In (Some T, fs, tags) rules -> fs = pre ++ (RType T', nm) :: post ->
  R T' < R T \/ exists m nm', In (RPlain m, nm') pre /\ consuming m = true.
(** Every field has its parameters (an op-quoted-string has a name), none is cee-syslog. *)
Definition sane_rules (rules : list mrule) : Prop :=
  forall key fs tags m nm, In (key, fs, tags) rules -> In (RPlain m, nm) fs -> m_ok m (has_name nm) /\ m <> MCee.
