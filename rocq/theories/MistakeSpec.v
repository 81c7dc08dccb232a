(** * MistakeSpec: what is wrong with the description of a field (a specification; from the
      documentation of the field types, /repo/doc/configuration.rst). *)
From Verif Require Import Base Parsers Engine Pdag Samp RuleSpec LoadSpec OneSpec TrapSpec.

Definition one_of (s : text) (l : list string) : Prop := Exists (fun x => s = L x) l.
(** the same, in capitals or not *)
Definition one_of_any_case (s : text) (l : list string) : Prop := Exists (fun x => caseeq s (L x) = true) l.

(** The built-in types, except alternative. *)
Definition type_names : list string :=
  ["literal"; "repeat"; "date-rfc3164"; "date-rfc5424"; "number"; "float"; "hexnumber"; "kernel-timestamp";
   "whitespace"; "ipv4"; "ipv6"; "word"; "alpha"; "rest"; "op-quoted-string"; "quoted-string"; "date-iso";
   "time-24hr"; "time-12hr"; "duration"; "cisco-interface-spec"; "json"; "cee-syslog"; "mac48"; "cef";
   "v2-iptables"; "name-value-list"; "checkpoint-lea"; "string-to"; "char-to"; "char-sep"; "string"]%string.

Section Mistakes.
Variable e : env.
(** the user-defined types known at this place *)
Variable names : list text.

Definition typed (l : fields) (T : text) : Prop := exists v, obj_get l (L "type") = Some v /\ jstring e v = Some T.
(** the member [k] of [l], read as a string *)
Definition says_of (l : fields) (k : string) (s : text) : Prop := exists v, obj_get l (L k) = Some v /\ jstring e v = Some s.

(** members a type cannot do without *)
Definition needs : list (string * string) :=
  [("literal", "text"); ("string-to", "extradata"); ("char-to", "extradata"); ("char-sep", "extradata"); ("repeat", "parser"); ("repeat", "while")]%string.
(** members with a fixed choice of values *)
Definition choices : list (string * string * list string) :=
  [("number", "format", ["number"; "string"]); ("float", "format", ["number"; "string"]); ("hexnumber", "format", ["number"; "string"]);
   ("date-rfc3164", "format", ["string"; "timestamp-unix"; "timestamp-unix-ms"]); ("date-rfc5424", "format", ["string"; "timestamp-unix"; "timestamp-unix-ms"])]%string.
(** the same for "string", in any case *)
Definition string_choices : list (string * list string) :=
  [("quoting.mode", ["auto"; "none"; "required"]); ("quoting.escape.mode", ["none"; "backslash"; "double"; "both"]); ("matching.mode", ["strict"; "lazy"])]%string.
(** members that are known to types that look for unknown ones *)
Definition members : list (string * list string) :=
  [("number", ["format"; "maxval"]); ("float", ["format"]); ("hexnumber", ["format"; "maxval"]); ("date-rfc3164", ["format"]); ("date-rfc5424", ["format"])]%string.
Definition members_any_case : list (string * list string * list string) :=
  [("string", [], ["quoting.mode"; "quoting.escape.mode"; "quoting.char.begin"; "quoting.char.end"; "matching.permitted"; "matching.mode"]);
   ("repeat", ["parser"; "while"], ["option.permitMismatchInParser"])]%string.

Inductive wrong : json -> Prop :=
(* neither object nor array *)
| wr_kind : forall j, (forall l, j <> JObj l) -> (forall l, j <> JArr l) -> wrong j
(* no type, an unknown type, an unknown user-defined type *)
| wr_untyped : forall l, obj_get l (L "type") = None -> wrong (JObj l)
| wr_type : forall l T, typed l T -> T <> L "alternative" -> ~ one_of T type_names -> ~ (exists T', T = "@"%char :: T' /\ In T names) -> wrong (JObj l)
(* an alternative without an array of fields *)
| wr_alternative : forall l, typed l (L "alternative") -> (forall ps, obj_get l (L "parser") <> Some (JArr ps)) -> wrong (JObj l)
(* a missing member *)
| wr_missing : forall l T k, In (T, k) needs -> typed l (L T) -> obj_get l (L k) = None -> wrong (JObj l)
(* a value that is none of those *)
| wr_choice : forall l T k vs s, In (T, k, vs) choices -> typed l (L T) -> says_of l k s -> ~ one_of s vs -> wrong (JObj l)
| wr_string_choice : forall l k' k vs v s, In (k, vs) string_choices -> typed l (L "string") -> In (k', v) l -> caseeq k' (L k) = true -> jstring e v = Some s -> ~ one_of_any_case s vs -> wrong (JObj l)
(* not exactly one character *)
| wr_nv_char : forall l k v, In k ["extradata"; "separator"; "assignator"]%string -> typed l (L "name-value-list") -> obj_get l (L k) = Some v -> (forall c, v <> JStr [c]) -> wrong (JObj l)
| wr_lea_char : forall l s, typed l (L "checkpoint-lea") -> says_of l "terminator" s -> List.length s <> 1 -> wrong (JObj l)
| wr_quote_char : forall l k v s, typed l (L "string") -> In (k, v) l -> one_of_any_case k ["quoting.char.begin"; "quoting.char.end"]%string -> jstring e v = Some s -> List.length s <> 1 -> wrong (JObj l)
(* the characters a string may have: neither a string nor an array; an unknown class *)
| wr_permitted : forall l k v, typed l (L "string") -> In (k, v) l -> caseeq k (L "matching.permitted") = true -> (forall s, v <> JStr s) -> (forall a, v <> JArr a) -> wrong (JObj l)
| wr_class : forall l k a m k' v s, typed l (L "string") -> In (k, JArr a) l -> caseeq k (L "matching.permitted") = true -> In (JObj m) a -> In (k', v) m -> caseeq k' (L "class") = true ->
    jstring e v = Some s -> ~ one_of_any_case s ["digit"; "hexdigit"; "alpha"; "alnum"]%string -> wrong (JObj l)
(* an unknown member *)
| wr_member : forall l T ms k v, In (T, ms) members -> typed l (L T) -> In (k, v) l -> ~ one_of k ("type" :: "name" :: "priority" :: ms)%string -> wrong (JObj l)
| wr_member_any_case : forall l T es ms k v, In (T, es, ms) members_any_case -> typed l (L T) -> In (k, v) l -> ~ one_of k ("type" :: "name" :: "priority" :: es)%string -> ~ one_of_any_case k ms -> wrong (JObj l)
(* repeat: one of several fields to be repeated has the name "." *)
| wr_dot : forall l fs f s, typed l (L "repeat") -> In (L "parser", JArr fs) l -> 2 <= List.length fs -> In (JObj f) fs -> says_of f "name" s -> s = L "." -> wrong (JObj l).

(** Somewhere inside of a description: in an element of an array of fields, in the fields of an
    alternative or of a repeat. *)
Inductive somewhere (P : json -> Prop) : json -> Prop :=
| mi_here : forall j, P j -> somewhere P j
| mi_elem : forall l j, In j l -> somewhere P j -> somewhere P (JArr l)
| mi_alternative : forall l ps j, typed l (L "alternative") -> obj_get l (L "parser") = Some (JArr ps) -> In j ps -> somewhere P j -> somewhere P (JObj l)
| mi_repeat : forall l k j, typed l (L "repeat") -> In (k, j) l -> k = L "parser" \/ k = L "while" -> somewhere P j -> somewhere P (JObj l).
Definition mistaken : json -> Prop := somewhere wrong.

(** What is reported as well, although the documentation allows it: a field of the type string
    or repeat with the name "-"; an alternative as one of several fields; a maxval that
    [badint] takes for no integer. *)
Variable badint : json -> bool.
Inductive quirk : json -> Prop :=
| qu_dash : forall l T, In T ["string"; "repeat"]%string -> typed l (L T) -> says_of l "name" (L "-") -> quirk (JObj l)
| qu_maxval : forall l T v, In T ["number"; "hexnumber"]%string -> typed l (L T) -> obj_get l (L "maxval") = Some v -> badint v = true -> quirk (JObj l)
| qu_array : forall ps l, In (JObj l) ps -> typed l (L "alternative") -> quirk (JArr ps)
| qu_nested : forall m ps l, typed m (L "alternative") -> obj_get m (L "parser") = Some (JArr ps) -> In (JObj l) ps -> typed l (L "alternative") -> quirk (JObj m).
(** no null values, no key twice in an object *)
Definition regular (conf : json) : Prop := ~ within conf JNull /\ forall l, within conf (JObj l) -> NoDup (map fst l).
End Mistakes.

(** [upto e names p ls names' p']: when the lines [ls] have been read with the user-defined
    types [names] and the prefix [p], there are the types [names'] and the prefix [p']. *)
Inductive upto : list text -> option text -> list (text * N) -> list text -> option text -> Prop :=
| up_nil : forall names p, upto names p [] names p
| up_rule : forall names p tags r n ls names' p', Forall good_tag tags -> r <> [] -> upto names p ls names' p' -> upto names p ((rule_line tags r, n) :: ls) names' p'
| up_type : forall names p T r n ls names' p', type_name T -> r <> [] -> upto (T :: names) p ls names' p' -> upto names p ((type_line T r, n) :: ls) names' p'
| up_prefix : forall names p t n ls names' p', upto names (Some t) ls names' p' -> upto names p ((L "prefix=" ++ t, n) :: ls) names' p'
| up_extend : forall names p t n ls names' p', upto names (Some (p ++ t)) ls names' p' -> upto names (Some p) ((L "extendprefix=" ++ t, n) :: ls) names' p'
| up_idle : forall names p l n ls names' p', idle l -> upto names p ls names' p' -> upto names p ((l, n) :: ls) names' p'.

(** A line with a mistake: the rule of a rule line (behind the prefix), or of a type line (the
    type itself is known), is a sequence of literals and field descriptions, and one of the
    descriptions is mistaken. *)
Inductive bad_line (e : env) (names : list text) (p : option text) : text -> Prop :=
| bl_rule : forall tags r cs conf, Forall good_tag tags -> r <> [] -> rule_confs e (in_force p ++ r) cs -> In conf cs -> mistaken e names conf -> bad_line e names p (rule_line tags r)
| bl_type : forall T r cs conf, type_name T -> r <> [] -> rule_confs e r cs -> In conf cs -> mistaken e (T :: names) conf -> bad_line e names p (type_line T r).
