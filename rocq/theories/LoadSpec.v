(** * LoadSpec: rulebase texts and what they stand for. *)
From Verif Require Import Base Parsers Engine Pdag Samp RuleSpec BuiltSpec LineSpec SimSpec.

(** ** Texts made of lines, comment lines and empty lines *)
Inductive item : Type := Blank | Comment (x : text) | Line (w : text).
Definition write_item (i : item) : text :=
  match i with Blank => [LF] | Comment x => "#"%char :: x ++ [LF] | Line w => w ++ [LF] end.
Definition write (l : list item) : text := flat_map write_item l.
Definition good_item (isfile : bool) (i : item) : Prop :=
  match i with
  | Blank => True
  | Comment x => ~ In LF x
  | Line w => entry w /\ in_field w = false /\ (isfile = true -> ~ In LF w)
  end.
Definition is_line (i : item) : bool := match i with Line _ => true | _ => false end.

(** Contexts that hold the same rules and treat what is loaded next in the same way. *)
Definition same_load (c c' : ctx) : Prop :=
  same_rules c c' /\ c_prefix c = c_prefix c' /\ c_opts c = c_opts c' /\ c_version c = c_version c'.
(** The same outcome of loading: the same verdict and the same rules, or the same failure. *)
Definition same_outcome (x y : er (ctx * bool)) : Prop :=
  match x, y with
  | EOk (c, ok), EOk (c', ok') => same_load c c' /\ ok = ok'
  | EUb u, EUb u' => u = u'
  | _, _ => False
  end.

(** ** Rule lines *)
(** Tags as written before the colon of a rule. *)
Fixpoint comma (l : list text) : text :=
  match l with [] => [] | [t] => t | t :: l' => t ++ ","%char :: comma l' end.
Definition good_tag (t : text) : Prop := t <> [] /\ ~ In ","%char t /\ ~ In ":"%char t /\ ~ In NUL t.
Definition tag_list (l : list text) : option json := match l with [] => None | _ => Some (JArr (map JStr l)) end.
Definition rule_line (tags : list text) (r : text) : text := L "rule=" ++ comma tags ++ ":"%char :: r.

(** The prefix in force. *)
Definition in_force (p : option text) : text := match p with Some t => t | None => [] end.

(** A line that adds no rule: an annotation, a line of unknown type, a line without type. *)
Definition idle (l : text) : Prop :=
  (exists u, l = L "annotate=" ++ u) \/
  (exists ty u, l = ty ++ "="%char :: u /\ ~ In "="%char ty /\ ~ In ty (map L ["prefix"; "extendprefix"; "rule"; "type"; "annotate"; "include"]%string)) \/
  (exists u, l = "="%char :: u).

(** [reads_rules e good file p ls k rs]: with the prefix [p] in force, the lines [ls] of [file]
    contain [k] rule lines, of which [rs] are without error; their fields are all [good] (of
    a rule in error: the fields before the error). *)
Inductive reads_rules (e : env) (good : json -> Prop) (file : text) : option text -> list (text * N) -> nat -> list rule -> Prop :=
| rr_nil : forall p, reads_rules e good file p [] 0 []
| rr_rule : forall p tags r cs n ls k rs, Forall good_tag tags -> r <> [] -> rule_confs e (in_force p ++ r) cs -> Forall good cs ->
    reads_rules e good file p ls k rs -> reads_rules e good file p ((rule_line tags r, n) :: ls) (S k) ((None, cs, (tag_list tags, Some file, n)) :: rs)
| rr_error : forall p tags r cs n ls k rs, Forall good_tag tags -> r <> [] -> faulty e [] (in_force p ++ r) cs -> Forall good cs ->
    reads_rules e good file p ls k rs -> reads_rules e good file p ((rule_line tags r, n) :: ls) (S k) rs
| rr_prefix : forall p t n ls k rs, reads_rules e good file (Some t) ls k rs -> reads_rules e good file p ((L "prefix=" ++ t, n) :: ls) k rs
| rr_extend : forall p t n ls k rs, reads_rules e good file (Some (p ++ t)) ls k rs -> reads_rules e good file (Some p) ((L "extendprefix=" ++ t, n) :: ls) k rs
| rr_idle : forall p l n ls k rs, idle l -> reads_rules e good file p ls k rs -> reads_rules e good file p ((l, n) :: ls) k rs.

(** Fields of the built-in types (no user-defined types, no repeat): complete ones, and among
    them those without known problems: not cee-syslog, op-quoted-string only with a name. *)
Definition builtin (e : env) (conf : json) : Prop := complete e [] conf.
Definition usable (e : env) (conf : json) : Prop :=
  exists m nm, flat_field e [] conf = Some (KSimple m, nm) /\ m <> MCee /\ (m = MOpQuoted -> nm <> None).

(** ** Prefixes *)
(** Lines with prefix and extendprefix, and the same lines written without. *)
Inductive pline : Type := Prefix (t : text) | Extend (t : text) | Rule (tags : list text) (r : text) | Other (l : text).
Definition written (l : pline) : text :=
  match l with
  | Prefix t => L "prefix=" ++ t
  | Extend t => L "extendprefix=" ++ t
  | Rule tags r => rule_line tags r
  | Other l => l
  end.
Fixpoint expand (p : option text) (ls : list pline) : list text :=
  match ls with
  | [] => []
  | Prefix t :: ls' => expand (Some t) ls'
  | Extend t :: ls' => expand (Some (in_force p ++ t)) ls'
  | Rule tags r :: ls' => rule_line tags (in_force p ++ r) :: expand p ls'
  | Other l :: ls' => l :: expand p ls'
  end.
(** No extendprefix before a prefix; rules not empty; other lines: types and lines that add
    no rule. *)
Fixpoint good_plines (p : option text) (ls : list pline) : Prop :=
  match ls with
  | [] => True
  | Prefix t :: ls' => good_plines (Some t) ls'
  | Extend t :: ls' => p <> None /\ good_plines (Some (in_force p ++ t)) ls'
  | Rule tags r :: ls' => Forall good_tag tags /\ r <> [] /\ good_plines p ls'
  | Other l :: ls' => (idle l \/ exists u, l = L "type=" ++ u) /\ good_plines p ls'
  end.

(** A line written on one line. *)
Definition good_line (w : text) : Prop := entry w /\ ~ In LF w /\ in_field w = false.
Definition write_lines (l : list text) : text := flat_map (fun w => w ++ [LF]) l.
(** The same verdict and the same rules, or the same failure. *)
Definition same_rules_loaded (x y : er (ctx * bool)) : Prop :=
  match x, y with
  | EOk (c, ok), EOk (c', ok') => same_rules c c' /\ c_opts c = c_opts c' /\ ok = ok'
  | EUb u, EUb u' => u = u'
  | _, _ => False
  end.

(** ** Literal text *)
(** Literal text in a rule: a percent sign is written twice. *)
Definition write_literal (t : text) : text := flat_map (fun c => if ceq c "%" then ["%"; "%"]%char else [c]) t.
(** The escape sequences of libestr all start with a backslash. *)
Definition unescapes (e : env) : Prop := forall t, ~ In "\"%char t -> unescape e t = t.
