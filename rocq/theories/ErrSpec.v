(** * ErrSpec: what an application expects of the error messages. Nothing of Err.v but the
    record of a message. *)
From Verif Require Import Base Parsers Engine Pdag Samp GraphSpec RuleSpec LineSpec LoadSpec OneSpec Err.

(** A field description without a name: a percent sign, blanks, a colon. *)
Definition nameless_field (rule : text) : Prop :=
  exists a ws b, rule = a ++ "%"%char :: ws ++ ":"%char :: b /\ Forall (fun c => isspace c = true) ws.

(** The rulebase has a rule end with these tags that stands at this place of this file. *)
Definition recorded (cx : ctx) (tags : option json) (file : text) (line : N) : Prop :=
  exists i n, live (c_nodes cx) i n /\ n_term n = true /\ n_tags n = tags /\ n_file n = Some file /\ n_line n = line.

(** The messages of the lines, one line after the other. *)
Fixpoint reported (e : env) (badint : json -> bool) (load : ctx -> text -> er (ctx * bool)) (m_load : ctx -> text -> list message)
  (afuel : nat) (cx : ctx) (ls : list (text * N)) : list message :=
  match ls with
  | [] => []
  | (l, n) :: ls' =>
      m_processSamp e badint m_load afuel (set_pos cx (c_file cx) n) l ++
      match processSamp e load afuel (set_pos cx (c_file cx) n) l with
      | EOk (cx', true) => reported e badint load m_load afuel cx' ls'
      | _ => []
      end
  end.

(** Field configurations of the kind %NAME:TYPE% and %NAME:TYPE:EXTRADATA%, with a type name of
    the documentation, and extra data where it is needed. *)
Definition types_alone : list text := map L ["date-rfc3164"; "date-rfc5424"; "number"; "float"; "hexnumber"; "kernel-timestamp"; "whitespace"; "ipv4"; "ipv6"; "word"; "alpha"; "rest";
  "op-quoted-string"; "quoted-string"; "date-iso"; "time-24hr"; "time-12hr"; "duration"; "cisco-interface-spec"; "json"; "cee-syslog"; "mac48"; "cef"; "v2-iptables"; "name-value-list"; "checkpoint-lea"; "string"]%string.
Definition types_extra : list text := map L ["string-to"; "char-to"; "char-sep"]%string.
Inductive plain_conf (names : list text) : json -> Prop :=
| pc_literal : forall c, plain_conf names (literal_conf c)
| pc_alone : forall nm T, In T types_alone -> ~ In NUL nm -> nm <> L "-" \/ T <> L "string" -> plain_conf names (JObj (str_obj [("name"%string, nm); ("type"%string, T)]))
| pc_extra : forall nm T x, In T types_extra -> ~ In NUL nm -> plain_conf names (JObj (str_obj [("name"%string, nm); ("type"%string, T); ("extradata"%string, x)]))
| pc_custom : forall nm T, In T names -> hd NUL T = "@"%char -> ~ In NUL nm -> ~ In NUL T -> plain_conf names (JObj (str_obj [("name"%string, nm); ("type"%string, T)])).

(** Rulebase lines in which nothing is wrong: rules, prefixes and user-defined types, with
    fields of this kind only; a user-defined type is declared before it is used. [clean names
    p ls]: the types [names] are declared, the prefix [p] is in force. *)
Inductive clean (e : env) : list text -> option text -> list (text * N) -> Prop :=
| cl_nil : forall names p, clean e names p []
| cl_rule : forall names p tags r cs n ls, Forall good_tag tags -> r <> [] -> ~ In "{"%char (in_force p ++ r) ->
    rule_confs e (in_force p ++ r) cs -> Forall (plain_conf names) cs ->
    clean e names p ls -> clean e names p ((rule_line tags r, n) :: ls)
| cl_type : forall names p T r cs n ls, type_name T -> r <> [] -> ~ In "{"%char r -> rule_confs e r cs -> Forall (plain_conf (T :: names)) cs ->
    clean e (T :: names) p ls -> clean e names p ((type_line T r, n) :: ls)
| cl_prefix : forall names p t n ls, clean e names (Some t) ls -> clean e names p ((L "prefix=" ++ t, n) :: ls)
| cl_extend : forall names p t n ls, clean e names (Some (p ++ t)) ls -> clean e names (Some p) ((L "extendprefix=" ++ t, n) :: ls).
