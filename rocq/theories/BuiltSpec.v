(** * BuiltSpec: contexts built by adding rules, and the list of rules they stand for. *)
From Verif Require Import Base Parsers Engine Pdag Samp GraphSpec RuleSpec.

(** Rules are added to the main rulebase ([None]) or to a user-defined type ([Some name]). *)
Definition place : Type := option text.
Definition root_of (cx : ctx) (key : place) : option nat :=
  match key with
  | None => Some (c_root cx)
  | Some nm => option_map snd (find (fun t => text_eqb (fst t) nm) (c_types cx))
  end.

(** A rule as loaded: where to, its fields, and tags, file and line. *)
Definition rule : Type := (place * list json * rule_info)%type.

(** Of several rules with the same fields at the same place, the one loaded last counts. *)
Definition rule_now (rs : list rule) (key : place) (cs : list json) (inf : rule_info) : Prop :=
  exists rs1 rs2, rs = rs1 ++ (key, cs, inf) :: rs2 /\ forall i, ~ In (key, cs, i) rs2.

(** A field that can be used: a complete simple field or a known user-defined type. *)
Definition complete (e : env) (types : list (text * nat)) (conf : json) : Prop :=
  exists k nm, flat_field e types conf = Some (k, nm).

(** No field of that type can be made, whatever the graph: ln_pdagAddParser refuses. *)
Definition refused (e : env) (types : list (text * nat)) (conf : json) : Prop :=
  forall cx d, c_types cx = types -> addParser e cx d conf = EOk (cx, None).
(** A rule text with an error; [cs] are the fields before the error. *)
Inductive faulty (e : env) (types : list (text * nat)) : text -> list json -> Prop :=
| fa_syntax : forall t lit rest k, literal_part t = (lit, rest) -> rest <> [] -> fieldDescr e rest = Bad k -> faulty e types t (literals e lit)
| fa_type : forall t lit rest rest' conf, literal_part t = (lit, rest) -> rest <> [] -> fieldDescr e rest = Ok (rest', conf) ->
    refused e types conf -> faulty e types t (literals e lit)
| fa_later : forall t lit rest rest' conf cs, literal_part t = (lit, rest) -> rest <> [] -> fieldDescr e rest = Ok (rest', conf) ->
    faulty e types rest' cs -> faulty e types t (literals e lit ++ conf :: cs).

(** [built e k rs cx]: the context [cx] was built from a fresh one by [k] calls of
    [addSampToTree] (the rule lines), of which [rs] were without error. *)
Inductive built (e : env) : nat -> list rule -> ctx -> Prop :=
| built_init : forall o, built e 0 [] (initCtx o)
| built_rule : forall k rs cx t cs key r tags cx', built e k rs cx -> root_of cx key = Some r ->
    rule_confs e t cs -> Forall (complete e (c_types cx)) cs -> addSampToTree e cx t r tags = EOk cx' ->
    built e (S k) (rs ++ [(key, cs, (tags, Some (c_file cx), c_line cx))]) cx'
| built_error : forall k rs cx t cs key r tags cx', built e k rs cx -> root_of cx key = Some r ->
    faulty e (c_types cx) t cs -> Forall (complete e (c_types cx)) cs -> addSampToTree e cx t r tags = EOk cx' ->
    built e (S k) rs cx'
| built_type : forall k rs cx nm, built e k rs cx -> root_of cx (Some nm) = None ->
    built e k rs (set_types (fst (newPDAG cx)) (c_types cx ++ [(nm, snd (newPDAG cx))]))
| built_other : forall k rs cx cx', built e k rs cx ->
    c_nodes cx' = c_nodes cx -> c_root cx' = c_root cx -> c_types cx' = c_types cx -> built e k rs cx'.

(** Meaning of a configuration as a simple field. *)
Definition means (e : env) (conf : json) (f : field) : Prop := forall types, flat_field e types conf = Some (KSimple (fst f), snd f).

(** A context ready for use: built from the rules [rs], optimized or not. *)
Definition ready (e : env) (q : list prs -> list prs) (k : nat) (rs : list rule) (cx : ctx) : Prop :=
  built e k rs cx \/ exists cx0, built e k rs cx0 /\ optimize q cx0 = EOk cx.

(** The rule matches the message. *)
Definition loaded_rule_matches (e : env) (r : rule) (msg : text) : Prop :=
  exists fs, Forall2 (means e) (snd (fst r)) fs /\ rule_matches e fs msg.
(** libfastjson prints no NUL bytes. *)
Definition prints_no_nul (e : env) : Prop := forall j, ~ In NUL (json_show e j).

(** What is assumed of qsort(3) for the order of the result: it sorts whenever the comparison
    function is consistent on the elements, that is, orders them by some number. *)
Definition consistent (l : list prs) : Prop :=
  exists key : prs -> Z, forall x y, In x l -> In y l -> Z.sgn (parserCmp x y) = Z.sgn (key x - key y).
Inductive in_order : list prs -> Prop :=
| io_nil : in_order []
| io_cons : forall p l, (forall q, In q l -> (parserCmp p q <= 0)%Z) -> in_order l -> in_order (p :: l).
Definition sorts (q : list prs -> list prs) : Prop := forall l, consistent l -> in_order (q l).
