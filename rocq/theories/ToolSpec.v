(** * ToolSpec: what the command line tool is to do.

    Uses the library call [normalize], the encoders and the printing of a JSON value; nothing
    of the tool's own loops. *)
From Verif Require Import Base Parsers Engine Pdag Samp Enc Tool.

(** An input of lines: each followed by a line feed. *)
Definition as_input (ls : list text) : text := flat_map (fun l => l ++ [chr 10]) ls.
Definition is_line (l : text) : Prop := ~ In (chr 10) l.

(** The lines of an input: if the last line has no line feed, its last byte is missing. *)
Inductive tool_lines : text -> list text -> Prop :=
| tl_terminated : forall ls, Forall is_line ls -> tool_lines (as_input ls) ls
| tl_unterminated : forall ls l c, Forall is_line ls -> is_line (l ++ [c]) -> tool_lines (as_input ls ++ l ++ [c]) (ls ++ [l]).

(** The message in a line: a carriage return at the end does not belong to it. *)
Inductive line_text : text -> text -> Prop :=
| lt_cr : forall l, line_text (l ++ [chr 13]) l
| lt_plain : forall l, (forall l', l <> l' ++ [chr 13]) -> line_text l l.

(** The event has the tag asked for. *)
Definition has_tag (e : env) (o : fields) (tag : option text) : Prop :=
  match tag with
  | None => True
  | Some t => exists l x s, obj_get o (L "event.tags") = Some (JArr l) /\ In x l /\ jstring e x = Some s /\ cstr s = cstr t
  end.

(** What is printed for an event. *)
Definition event_text (e : env) (s : settings) (o : fields) (msg : text) (out : text) : Prop :=
  match s_fmt s with
  | f_raw => out = cstr msg
  | f_json => out = cstr (json_show e (JObj (if s_flatTags s then o else obj_del o (L "event.tags"))))
  | f_syslog => exists r t, fmtEventToRFC5424 e (JObj o) = Ok (r, t) /\ out = drop_nul t
  | f_xml => exists r t, fmtEventToXML e (JObj o) = Ok (r, t) /\ out = drop_nul t
  | f_csv => exists r t, fmtEventToCSV e (JObj o) (s_encFmt s) = Ok (r, t) /\ out = drop_nul t
  end.

(** A line is parsed, unparsed, or dropped because the event lacks the tag. *)
Inductive fate : Type := Parsed | Unparsed | Dropped.
(** [line_result fuel e s cx nbr l f out]: the fate of the line with number [nbr], and what is
    printed for it. *)
Definition line_result (fuel : nat) (e : env) (s : settings) (cx : ctx) (nbr : N) (l : text) (f : fate) (out : text) : Prop :=
  exists msg ok o cx', line_text l msg /\ normalize fuel e cx (cstr msg) [] = EOk (ok, o, cx') /\
  match f with
  | Dropped => ~ has_tag e o (s_tag s) /\ out = []
  | Parsed => has_tag e o (s_tag s) /\ obj_get o (L "unparsed-data") = None /\
      (s_parsed s = true -> exists t, event_text e s o msg t /\ out = t ++ [chr 10]) /\ (s_parsed s = false -> out = [])
  | Unparsed => has_tag e o (s_tag s) /\ obj_get o (L "unparsed-data") <> None /\
      (s_unparsed s = true -> exists t, event_text e s (if s_lineNbr s then obj_add o (L "lognormalizer.line_nbr") (JInt (Z.of_N nbr)) else o) msg t /\ out = t ++ [chr 10]) /\
      (s_unparsed s = false -> out = [])
  end.

(** The results of the lines numbered from [nbr] + 1 on. *)
Inductive results (fuel : nat) (e : env) (s : settings) (cx : ctx) : N -> list text -> list (fate * text) -> Prop :=
| rs_nil : forall nbr, results fuel e s cx nbr [] []
| rs_cons : forall nbr l ls f out rs, line_result fuel e s cx (nbr + 1) l f out -> results fuel e s cx (nbr + 1) ls rs ->
    results fuel e s cx nbr (l :: ls) ((f, out) :: rs).

(** How many lines met that fate. *)
Definition same_fate (a b : fate) : bool := match a, b with Parsed, Parsed | Unparsed, Unparsed | Dropped, Dropped => true | _, _ => false end.
Definition number (f : fate) (rs : list (fate * text)) : N := N.of_nat (List.length (filter (fun r => same_fate f (fst r)) rs)).

(** The settings with other record options, and with no tag asked for. *)
Definition with_records (p u : bool) (s : settings) : settings :=
  {| s_parsed := p; s_unparsed := u; s_summary := s_summary s; s_nbrUnparsed := s_nbrUnparsed s; s_lineNbr := s_lineNbr s;
     s_flatTags := s_flatTags s; s_encFmt := s_encFmt s; s_tag := s_tag s; s_fmt := s_fmt s |}.
Definition without_tag (s : settings) : settings :=
  {| s_parsed := s_parsed s; s_unparsed := s_unparsed s; s_summary := s_summary s; s_nbrUnparsed := s_nbrUnparsed s; s_lineNbr := s_lineNbr s;
     s_flatTags := s_flatTags s; s_encFmt := s_encFmt s; s_tag := None; s_fmt := s_fmt s |}.

(** ** What the options say
    The last option that says something counts; [d] holds if none does. *)
Definition last_word {A} (says : option_ -> option A) (d : A) (l : list option_) : A :=
  fold_left (fun r o => match says o with Some a => a | None => r end) l d.
Definition formats : list (string * outfmt) :=
  [("json", f_json); ("xml", f_xml); ("cee-syslog", f_syslog); ("csv", f_csv); ("raw", f_raw)]%string.
Definition format_named (a : text) : option outfmt :=
  option_map snd (find (fun x => text_eqb a (L (fst x))) formats).
Definition wanted (l : list option_) : settings :=
  {| s_parsed := last_word (fun o => match o with o_p => Some true | o_P => Some false | _ => None end) true l;
     s_unparsed := last_word (fun o => match o with o_p => Some false | o_P => Some true | _ => None end) true l;
     s_summary := existsb (fun o => match o with o_H => true | _ => false end) l;
     s_nbrUnparsed := existsb (fun o => match o with o_U => true | _ => false end) l;
     s_lineNbr := existsb (fun o => match o with o_L => true | _ => false end) l;
     s_flatTags := existsb (fun o => match o with o_T => true | _ => false end) l;
     s_encFmt := last_word (fun o => match o with o_E a => Some (Some a) | _ => None end) None l;
     s_tag := last_word (fun o => match o with o_t a => Some (Some a) | _ => None end) None l;
     s_fmt := last_word (fun o => match o with o_e a => format_named a | _ => None end) f_json l |}.
Definition generic (name : string) (o : option_) : bool := match o with o_o a => text_eqb a (L name) | _ => false end.
Definition wanted_opts (l : list option_) : opts :=
  {| opt_orig := existsb (generic "addOriginalMsg") l; opt_rule := existsb (generic "addRule") l; opt_loc := existsb (generic "addRuleLocation") l |}.
(** -h, an unknown option, or an unknown argument of -o *)
Definition bad_option (o : option_) : bool :=
  match o with
  | o_help => true
  | o_o a => negb (existsb (fun n => text_eqb a (L n)) ["allowRegex"; "addExecPath"; "addOriginalMsg"; "addRule"; "addRuleLocation"]%string)
  | _ => false
  end.
(** The rulebase: only -r, or only -R, and the last of them counts. *)
Definition rb_file (l : list option_) : option text := last_word (fun o => match o with o_r a => Some (Some a) | _ => None end) None l.
Definition rb_string (l : list option_) : option text := last_word (fun o => match o with o_R a => Some (Some a) | _ => None end) None l.
