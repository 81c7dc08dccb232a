(** * TypeSpec: what field a configuration (a JSON object) stands for.

    The field types by name, their parameters and defaults. Uses only the list of field kinds
    of the model ([motif]); their meaning is given by the specifications of the field types
    (FieldSpec.v, FieldSpec2.v, DateSpec.v). *)
From Verif Require Import Base Parsers.

Definition value (l : fields) (k : string) : option json :=
  option_map snd (find (fun kv => text_eqb (L k) (fst kv)) l).
Definition text_at (l : fields) (k : string) (s : text) : Prop := value l k = Some (JStr s) /\ ~ In NUL s.
Definition absent (l : fields) (k : string) : Prop := value l k = None.
(** A parameter that is given as text, if at all. *)
Definition textual (l : fields) (k : string) : Prop := absent l k \/ exists s, text_at l k s.

(** The name: no name, or "-", means that the value is not stored. *)
Inductive field_name (l : fields) : option text -> Prop :=
| fn_none : absent l "name" -> field_name l None
| fn_dash : text_at l "name" (L "-") -> field_name l None
| fn_name : forall s, text_at l "name" s -> s <> L "-" -> field_name l (Some s).

(** Types without parameters. *)
Definition plain_types : list (string * motif) :=
  [("word", MWord); ("alpha", MAlpha); ("rest", MRest); ("whitespace", MWhitespace);
   ("ipv4", MIPv4); ("ipv6", MIPv6); ("mac48", MMac48);
   ("quoted-string", MQuoted); ("op-quoted-string", MOpQuoted);
   ("kernel-timestamp", MKernelTs); ("date-iso", MISODate); ("time-24hr", MTime24);
   ("time-12hr", MTime12); ("duration", MDuration); ("cisco-interface-spec", MCisco);
   ("json", MJson); ("cee-syslog", MCee); ("cef", MCEF); ("v2-iptables", MIptables)]%string.

(** "format" of numbers and dates; anything unknown is like "string". *)
Inductive format (names : list (string * fmt)) (l : fields) : fmt -> Prop :=
| fo_none : absent l "format" -> format names l FmtString
| fo_named : forall n f, text_at l "format" (L n) -> In (n, f) names -> format names l f
| fo_other : forall s, text_at l "format" s -> (forall n f, In (n, f) names -> s <> L n) -> format names l FmtString.
Definition number_formats : list (string * fmt) := [("number", FmtNumber); ("string", FmtString)]%string.
Definition date_formats : list (string * fmt) :=
  [("timestamp-unix", FmtTsUx); ("timestamp-unix-ms", FmtTsUxMs); ("string", FmtString)]%string.
(** "maxval"; 0 is no limit. *)
Inductive maxval (l : fields) : Z -> Prop :=
| mv_none : absent l "maxval" -> maxval l 0
| mv_int : forall z, value l "maxval" = Some (JInt z) -> maxval l z.
(** A parameter of one byte; NUL stands for "not given". *)
Inductive one_byte (l : fields) (k : string) : ascii -> Prop :=
| ob_none : absent l k -> one_byte l k NUL
| ob_given : forall c, value l k = Some (JStr [c]) -> one_byte l k c.
(** The separator of a name-value list: "separator", else "extradata". *)
Inductive nv_separator (l : fields) : ascii -> Prop :=
| ns_sep : forall c, value l "separator" = Some (JStr [c]) -> (exists d, one_byte l "extradata" d) -> nv_separator l c
| ns_extra : forall c, absent l "separator" -> one_byte l "extradata" c -> nv_separator l c.

Inductive kind_of (l : fields) : string -> motif -> Prop :=
| ko_plain : forall typ m, In (typ, m) plain_types -> kind_of l typ m
| ko_literal : forall s, text_at l "text" s -> kind_of l "literal" (MLiteral s)
| ko_3164 : forall f, textual l "name" -> format date_formats l f -> kind_of l "date-rfc3164" (MRFC3164 f)
| ko_5424 : forall f, textual l "name" -> format date_formats l f -> kind_of l "date-rfc5424" (MRFC5424 f)
| ko_number : forall f z, textual l "name" -> format number_formats l f -> maxval l z -> kind_of l "number" (MNumber f z)
| ko_hex : forall f z, textual l "name" -> format number_formats l f -> maxval l z -> (0 <= z < 2 ^ 64)%Z -> kind_of l "hexnumber" (MHex f z)
| ko_float : forall f, textual l "name" -> format number_formats l f -> kind_of l "float" (MFloat f)
| ko_to : forall s, text_at l "extradata" s -> kind_of l "string-to" (MStringTo s)
| ko_charto : forall s, text_at l "extradata" s -> kind_of l "char-to" (MCharTo s)
| ko_charsep : forall s, text_at l "extradata" s -> kind_of l "char-sep" (MCharSep s)
| ko_nv : forall s a, nv_separator l s -> one_byte l "assignator" a -> kind_of l "name-value-list" (MNVList s a)
| ko_lea : forall c, one_byte l "terminator" c -> (text_at l "terminator" [c] \/ absent l "terminator") -> kind_of l "checkpoint-lea" (MLEA c).

(** ** Type string: parameter names and keywords in any case *)
Definition same_but_case (a : text) (b : string) : Prop := map tolower a = map tolower (L b).
Definition given (l : fields) (k : string) (v : json) : Prop := exists k', In (k', v) l /\ same_but_case k' k.
Definition not_given (l : fields) (k : string) : Prop := forall k' v, In (k', v) l -> ~ same_but_case k' k.
(** A parameter with a fixed choice of keywords. *)
Inductive choice {A} (l : fields) (k : string) (words : list (string * A)) (default : A) : A -> Prop :=
| ch_none : not_given l k -> choice l k words default default
| ch_word : forall s w a, given l k (JStr s) -> ~ In NUL s -> same_but_case s w -> In (w, a) words -> choice l k words default a.
Inductive quote_char (l : fields) (k : string) : ascii -> Prop :=
| qc_none : not_given l k -> quote_char l k """"
| qc_char : forall c, given l k (JStr [c]) -> c <> NUL -> quote_char l k c.
(** Character classes *)
Inductive class_has : text -> ascii -> Prop :=
| cl_digit : forall s c, same_but_case s "digit" -> isdigit c = true -> class_has s c
| cl_hexdigit : forall s c, same_but_case s "hexdigit" -> isxdigit c = true -> class_has s c
| cl_alpha : forall s c, same_but_case s "alpha" -> isalpha c = true -> class_has s c
| cl_alnum : forall s c, same_but_case s "alnum" -> isalnum c = true -> class_has s c.
(** "matching.permitted": a string of characters, or an array of objects with members
    "chars" and "class". *)
Inductive permits : json -> ascii -> Prop :=
| pe_string : forall s c, In c s -> permits (JStr s) c
| pe_chars : forall a m k s c, In (JObj m) a -> In (k, JStr s) m -> same_but_case k "chars" -> In c s -> permits (JArr a) c
| pe_class : forall a m k s c, In (JObj m) a -> In (k, JStr s) m -> same_but_case k "class" -> class_has s c -> permits (JArr a) c.
Definition ascii7 (s : text) : Prop := forall c, In c s -> (code c < 128)%N /\ c <> NUL.
Definition good_permitted (v : json) : Prop :=
  (exists s, v = JStr s /\ ascii7 s) \/
  (exists a, v = JArr a /\ forall x, In x a -> exists m, x = JObj m /\ forall k y, In (k, y) m -> exists s, y = JStr s /\ ascii7 s).
Definition string_options (l : fields) (cfg : strcfg) : Prop :=
  choice l "quoting.mode" [("auto", QAuto); ("none", QNone); ("required", QReqd)]%string QAuto (s_quote cfg) /\
  (exists b d, choice l "quoting.escape.mode" [("none", (false, false)); ("backslash", (true, false)); ("double", (false, true)); ("both", (true, true))]%string (true, true) (b, d) /\
     match s_quote cfg with QNone => s_escbs cfg = false /\ s_escdbl cfg = false | _ => s_escbs cfg = b /\ s_escdbl cfg = d end) /\
  quote_char l "quoting.char.begin" (s_qb cfg) /\ quote_char l "quoting.char.end" (s_qe cfg) /\
  choice l "matching.mode" [("strict", true); ("lazy", false)]%string true (s_exact cfg) /\
  ((not_given l "matching.permitted" /\ s_perm cfg = None) \/
   exists v p, given l "matching.permitted" v /\ s_perm cfg = Some p /\ forall c, In c p <-> permits v c).
(** Parameters of type string that are all right. *)
Definition good_string_options (l : fields) : Prop :=
  (exists q, choice l "quoting.mode" [("auto", QAuto); ("none", QNone); ("required", QReqd)]%string QAuto q) /\
  (exists b, choice l "quoting.escape.mode" [("none", (false, false)); ("backslash", (true, false)); ("double", (false, true)); ("both", (true, true))]%string (true, true) b) /\
  (exists c, quote_char l "quoting.char.begin" c) /\ (exists c, quote_char l "quoting.char.end" c) /\
  (exists b, choice l "matching.mode" [("strict", true); ("lazy", false)]%string true b) /\
  (not_given l "matching.permitted" \/ exists v, given l "matching.permitted" v /\ good_permitted v).

(** ** Names of all types, and their built-in priority (smaller comes first) *)
Definition type_priorities : list (string * Z) :=
  [("literal", 4); ("repeat", 4); ("date-rfc3164", 8); ("date-rfc5424", 8); ("number", 16); ("float", 16); ("hexnumber", 16);
   ("kernel-timestamp", 16); ("whitespace", 4); ("ipv4", 4); ("ipv6", 4); ("word", 32); ("alpha", 32); ("rest", 255);
   ("op-quoted-string", 64); ("quoted-string", 64); ("date-iso", 8); ("time-24hr", 8); ("time-12hr", 8); ("duration", 16);
   ("cisco-interface-spec", 4); ("name-value-list", 8); ("json", 4); ("cee-syslog", 4); ("mac48", 16); ("cef", 4);
   ("checkpoint-lea", 4); ("v2-iptables", 4); ("string-to", 32); ("char-to", 32); ("char-sep", 32); ("string", 32)]%string%Z.
(** A user-defined type has priority 16. *)
Definition custom_priority : Z := 16.
