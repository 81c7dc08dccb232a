(** * RuleSpec: what a rule is, and what it means that a rule graph holds a rule.

    Uses the data types of the model, the result of a single field parser ([run_motif]), the
    construction of a single field ([newParser]) and the splitting of a rule text into fields
    ([literal_part], [fieldDescr]); nothing of how graphs are built. *)
From Verif Require Import Base Parsers Engine Pdag Samp GraphSpec.

(** A field: what it runs, and the name its value is stored under. *)
Definition field : Type := (motif * option text)%type.

(** The fields [fs] one after the other take the message from position [from] to [to]. *)
Inductive fields_take (e : env) (msg : text) : list field -> nat -> nat -> Prop :=
| ft_nil : forall i, fields_take e msg [] i i
| ft_cons : forall m nm fs from n v to, from <= List.length msg ->
    run_motif e m (match nm with Some _ => true | None => false end) from (skipn from msg) = Ok (n, v) ->
    fields_take e msg fs (from + n) to -> fields_take e msg ((m, nm) :: fs) from to.
(** A rule matches a message: its fields take all of it. *)
Definition rule_matches (e : env) (fs : list field) (msg : text) : Prop :=
  fields_take e msg fs 0 (List.length msg).

(** The field a configuration stands for ([types] are the user-defined types known); fields
    with inner graphs (repeat) and incomplete ones have none. *)
Definition flat_field (e : env) (types : list (text * nat)) (conf : json) : option (kind * option text) :=
  match newParser e (fun _ _ _ => EUb OutOfFuel) (set_types (initCtx {| opt_orig := false; opt_rule := false; opt_loc := false |}) types) conf with
  | EOk (_, Some p) => match p_kind p with
                       | KRepeat _ _ _ | KSimple (MNoData _) => None
                       | k => Some (k, p_name p)
                       end
  | _ => None
  end.

(** A rule text stands for a list of field configurations: literal text for one literal per
    character, a field description for the configuration it gives. *)
Definition literals (e : env) (lit : text) : list json := map literal_conf (cstr (drop_nul (unescape e lit))).
Inductive rule_confs (e : env) : text -> list json -> Prop :=
| rc_nil : rule_confs e [] []
| rc_last : forall rule lit, rule <> [] -> literal_part rule = (lit, []) -> rule_confs e rule (literals e lit)
| rc_field : forall rule lit rest rest' conf cs, literal_part rule = (lit, rest) -> rest <> [] ->
    fieldDescr e rest = Ok (rest', conf) -> rule_confs e rest' cs ->
    rule_confs e rule (literals e lit ++ conf :: cs).

(** [path h i ps j]: the parsers [ps] lead from node [i] to node [j]. *)
Inductive path (h : list (option node)) : nat -> list prs -> nat -> Prop :=
| path_nil : forall i, path h i [] i
| path_cons : forall i n p ps j, live h i n -> In p (n_parsers n) -> path h (p_child p) ps j -> path h i (p :: ps) j.

(** Tags, file and line of a rule. *)
Definition rule_info : Type := (option json * option text * N)%type.

(** The graph below [r] holds the rule with the fields [ps]. *)
Definition holds_rule (cx : ctx) (r : nat) (ps : list prs) (inf : rule_info) : Prop :=
  exists b n, path (c_nodes cx) r ps b /\ live (c_nodes cx) b n /\ n_term n = true /\ inf = (n_tags n, n_file n, n_line n).

Definition confs (ps : list prs) : list json := map p_conf ps.
Definition labels (ps : list prs) : list (kind * option text) := map (fun p => (p_kind p, p_name p)) ps.
Definition simple_fields (fs : list field) : list (kind * option text) := map (fun f => (KSimple (fst f), snd f)) fs.

(** ** Rules up to the way literal text is cut into pieces *)
Inductive atom : Type := AChar (c : ascii) | AField (k : kind) (nm : option text).
Definition atoms_of (l : kind * option text) : list atom :=
  match l with
  | (KSimple (MLiteral t), None) => map AChar t
  | (k, nm) => [AField k nm]
  end.
Definition atoms (ls : list (kind * option text)) : list atom := flat_map atoms_of ls.
(** The graph below [r] holds the rule with the atoms [l]. *)
Definition holds_atoms (cx : ctx) (r : nat) (l : list atom) (inf : rule_info) : Prop :=
  exists ps, holds_rule cx r ps inf /\ atoms (labels ps) = l.
