(** * Tool: the command line tool, lognormalizer.c.

    Simplifications: memory allocation does not fail; [verbose] is 0 (no debug output); the
    counters and the line number are unbounded numbers (the code: unsigned 64 bit and int);
    the options that write the graph or statistics to files (-d, -s, -S, -x) and -V are in
    Tool2.v; stdin is the sequence of bytes that fgetc delivers before EOF; what goes to
    stderr is given as the list of the messages with their numbers. *)
From Verif Require Import Base Time Parsers Engine Pdag Samp Enc.

(** lognormalizer.c 69 [outfmt] *)
Inductive outfmt : Type := f_syslog | f_json | f_xml | f_csv | f_raw.

(** lognormalizer.c 53-69: the static variables set by the options. *)
Record settings : Type := {
  s_parsed : bool;              (* recOutput & OUTPUT_PARSED_RECS *)
  s_unparsed : bool;            (* recOutput & OUTPUT_UNPARSED_RECS *)
  s_summary : bool;             (* outputSummaryLine *)
  s_nbrUnparsed : bool;         (* outputNbrUnparsed *)
  s_lineNbr : bool;             (* addErrLineNbr *)
  s_flatTags : bool;            (* flatTags *)
  s_encFmt : option text;       (* encFmt *)
  s_tag : option text;          (* mandatoryTag *)
  s_fmt : outfmt                (* outfmt *)
}.

(** lognormalizer.c 184-201, the loop: the bytes up to and with the next line feed, or to the
    end of the input; and what remains. *)
Fixpoint get_line (t : text) : text * text :=
  match t with
  | [] => ([], [])
  | c :: t' => if ceq c (chr 10) then ([c], t') else let '(l, r) := get_line t' in (c :: l, r)
  end.

(** lognormalizer.c 203-207: the last byte is cut off, whatever it is; then a carriage
    return. *)
Definition chop (raw : text) : text :=
  let l := removelast raw in
  match rev l with
  | c :: _ => if ceq c (chr 13) then removelast l else l
  | [] => l
  end.

(** lognormalizer.c 177-209 [read_line]: the buffer up to its end mark (that the caller reads
    as a C string), and the input that remains; [None]: NULL. *)
Definition read_line (inp : text) : option (text * text) :=
  match inp with
  | [] => None
  | _ => let '(raw, rest) := get_line inp in Some (chop raw, rest)
  end.

(** lognormalizer.c 91-138 [outputEvent]: what is printed. [rawmsg] is the line buffer. The
    encoders always set [*str]; es_str2cstr drops NUL bytes. *)
Definition outputEvent (e : env) (s : settings) (o : fields) (rawmsg : text) : er text :=
  let str (r : res (Z * text)) : er text :=
    match r with Ok (_, t) => EOk (drop_nul t) | Bad _ => EUb NullDeref | Ub u => EUb u end in
  do* t := match s_fmt s with
           | f_raw => EOk rawmsg
           | f_json => EOk (json_show e (JObj (if s_flatTags s then o else obj_del o (L "event.tags"))))
           | f_syslog => str (fmtEventToRFC5424 e (JObj o))
           | f_xml => str (fmtEventToXML e (JObj o))
           | f_csv => str (fmtEventToCSV e (JObj o) (s_encFmt s))
           end in
  EOk (cstr t ++ [chr 10]).

(** lognormalizer.c 151-158, the loop of eventHasTag, from the last element to the first;
    strcmp with the NULL of a null element is a crash. *)
Fixpoint find_tag (e : env) (tag : text) (l : list json) : er bool :=
  match l with
  | [] => EOk false
  | t :: l' => match jstring e t with
               | None => EUb NullDeref
               | Some s => if text_eqb (cstr tag) (cstr s) then EOk true else find_tag e tag l'
               end
  end.

(** lognormalizer.c 141-163 [eventHasTag] *)
Definition eventHasTag (e : env) (o : fields) (tag : option text) : er bool :=
  match tag with
  | None => EOk true
  | Some tag =>
      match obj_get o (L "event.tags") with
      | Some (JArr l) => find_tag e tag (rev l)
      | _ => EOk false
      end
  end.

(** lognormalizer.c 165-175 [amendLineNbr] *)
Definition amendLineNbr (s : settings) (o : fields) (nbr : N) : fields :=
  if s_lineNbr s then obj_add o (L "lognormalizer.line_nbr") (JInt (Z.of_N nbr)) else o.

(** lognormalizer.c 217-219: the counters *)
Record counts : Type := { n_parsed : N; n_unparsed : N; n_wrong : N }.
Definition no_counts : counts := {| n_parsed := 0; n_unparsed := 0; n_wrong := 0 |}.

(** lognormalizer.c 231-254, the loop body for one line: what is printed, the counters, the
    context. [line] is the buffer, the message its C string. *)
Definition one_line (fuel : nat) (e : env) (s : settings) (cx : ctx) (k : counts) (nbr : N) (line : text)
  : er (text * counts * ctx) :=
  do* (_, o, cx) := normalize fuel e cx (cstr line) [] in
  do* tagged := eventHasTag e o (s_tag s) in
  if tagged then
    match obj_get o (L "unparsed-data") with
    | None =>
        let k := {| n_parsed := N.succ (n_parsed k); n_unparsed := n_unparsed k; n_wrong := n_wrong k |} in
        if s_parsed s then do* out := outputEvent e s o line in EOk (out, k, cx) else EOk ([], k, cx)
    | Some _ =>
        let k := {| n_parsed := n_parsed k; n_unparsed := N.succ (n_unparsed k); n_wrong := n_wrong k |} in
        let o := amendLineNbr s o nbr in
        if s_unparsed s then do* out := outputEvent e s o line in EOk (out, k, cx) else EOk ([], k, cx)
    end
  else EOk ([], {| n_parsed := n_parsed k; n_unparsed := n_unparsed k; n_wrong := N.succ (n_wrong k) |}, cx).

(** lognormalizer.c 228-255, the loop over the input; [n] bounds the number of lines. *)
Fixpoint tool_loop (n : nat) (fuel : nat) (e : env) (s : settings) (cx : ctx) (k : counts) (nbr : N) (inp : text)
  : er (text * counts * ctx) :=
  match n with
  | O => EUb OutOfFuel
  | S n' =>
      match read_line inp with
      | None => EOk ([], k, cx)
      | Some (line, rest) =>
          do* (out, k, cx) := one_line fuel e s cx k (N.succ nbr) line in
          do* (out', k, cx) := tool_loop n' fuel e s cx k (N.succ nbr) rest in
          EOk (out ++ out', k, cx)
      end
  end.

(** What is written to stderr. *)
Inductive note : Type :=
| unparsable (n : N)                        (* "%llu unparsable entries" *)
| wrong_tag (n : N)                         (* "%llu entries with wrong tag dropped" *)
| summary (processed parsed unparsed : N)   (* "%llu records processed, %llu parsed, %llu unparsed" *)
| complaint (t : string).                   (* the messages of main *)

(** lognormalizer.c 213-265 [normalize]: stdout and stderr. *)
Definition tool_normalize (fuel : nat) (e : env) (s : settings) (cx : ctx) (inp : text) : er (text * list note * ctx) :=
  do* (out, k, cx) := tool_loop (S (List.length inp)) fuel e s cx no_counts 0 inp in
  EOk (out,
       (if s_nbrUnparsed s && N.ltb 0 (n_unparsed k) then [unparsable (n_unparsed k)] else [])
       ++ (if N.ltb 0 (n_wrong k) then [wrong_tag (n_wrong k)] else [])
       ++ (if s_summary s then [summary (n_parsed k + n_unparsed k) (n_parsed k) (n_unparsed k)] else []),
       cx).

(** ** main *)
(** The options, as getopt delivers them (an option character it does not know: [o_help]). *)
Inductive option_ : Type :=
| o_E (a : text) | o_p | o_P | o_H | o_U | o_L | o_T | o_e (a : text)
| o_r (a : text) | o_R (a : text) | o_t (a : text) | o_o (a : text) | o_help.

(** lognormalizer.c 351-356: what the options set. [m_used] is usedRB: 0 none, 1 file,
    2 string, -1 both. *)
Record mstate : Type := { m_set : settings; m_opts : opts; m_repo : option text; m_used : Z }.

Definition start_settings : settings :=
  {| s_parsed := true; s_unparsed := true; s_summary := false; s_nbrUnparsed := false; s_lineNbr := false;
     s_flatTags := false; s_encFmt := None; s_tag := None; s_fmt := f_json |}.
Definition start_state : mstate :=
  {| m_set := start_settings; m_opts := {| opt_orig := false; opt_rule := false; opt_loc := false |};
     m_repo := None; m_used := 0 |}.

(** lognormalizer.c 289-306 [handle_generic_option]: [None]: exit(1). allowRegex and
    addExecPath concern code that is not modelled (version 1 rulebases, advanced statistics). *)
Definition generic_option (o : opts) (a : text) : option opts :=
  if text_eqb a (L "allowRegex") then Some o
  else if text_eqb a (L "addExecPath") then Some o
  else if text_eqb a (L "addOriginalMsg") then Some {| opt_orig := true; opt_rule := opt_rule o; opt_loc := opt_loc o |}
  else if text_eqb a (L "addRule") then Some {| opt_orig := opt_orig o; opt_rule := true; opt_loc := opt_loc o |}
  else if text_eqb a (L "addRuleLocation") then Some {| opt_orig := opt_orig o; opt_rule := opt_rule o; opt_loc := true |}
  else None.

(** lognormalizer.c 364-472, the switch: [None]: the program ends with exit code 1. *)
Definition one_option (m : mstate) (o : option_) : option mstate :=
  let s := m_set m in
  let put (s : settings) := Some {| m_set := s; m_opts := m_opts m; m_repo := m_repo m; m_used := m_used m |} in
  let fmt (f : outfmt) := put {| s_parsed := s_parsed s; s_unparsed := s_unparsed s; s_summary := s_summary s; s_nbrUnparsed := s_nbrUnparsed s;
           s_lineNbr := s_lineNbr s; s_flatTags := s_flatTags s; s_encFmt := s_encFmt s; s_tag := s_tag s; s_fmt := f |} in
  let rec (p u : bool) := put {| s_parsed := p; s_unparsed := u; s_summary := s_summary s; s_nbrUnparsed := s_nbrUnparsed s;
           s_lineNbr := s_lineNbr s; s_flatTags := s_flatTags s; s_encFmt := s_encFmt s; s_tag := s_tag s; s_fmt := s_fmt s |} in
  let rb (bad used : Z) (a : text) :=
    Some (if Z.eqb (m_used m) bad
          then {| m_set := s; m_opts := m_opts m; m_repo := m_repo m; m_used := (-1)%Z |}
          else {| m_set := s; m_opts := m_opts m; m_repo := Some a; m_used := used |}) in
  match o with
  | o_E a => put {| s_parsed := s_parsed s; s_unparsed := s_unparsed s; s_summary := s_summary s; s_nbrUnparsed := s_nbrUnparsed s;
           s_lineNbr := s_lineNbr s; s_flatTags := s_flatTags s; s_encFmt := Some a; s_tag := s_tag s; s_fmt := s_fmt s |}
  | o_p => rec true false
  | o_P => rec false true
  | o_H => put {| s_parsed := s_parsed s; s_unparsed := s_unparsed s; s_summary := true; s_nbrUnparsed := s_nbrUnparsed s;
           s_lineNbr := s_lineNbr s; s_flatTags := s_flatTags s; s_encFmt := s_encFmt s; s_tag := s_tag s; s_fmt := s_fmt s |}
  | o_U => put {| s_parsed := s_parsed s; s_unparsed := s_unparsed s; s_summary := s_summary s; s_nbrUnparsed := true;
           s_lineNbr := s_lineNbr s; s_flatTags := s_flatTags s; s_encFmt := s_encFmt s; s_tag := s_tag s; s_fmt := s_fmt s |}
  | o_L => put {| s_parsed := s_parsed s; s_unparsed := s_unparsed s; s_summary := s_summary s; s_nbrUnparsed := s_nbrUnparsed s;
           s_lineNbr := true; s_flatTags := s_flatTags s; s_encFmt := s_encFmt s; s_tag := s_tag s; s_fmt := s_fmt s |}
  | o_T => put {| s_parsed := s_parsed s; s_unparsed := s_unparsed s; s_summary := s_summary s; s_nbrUnparsed := s_nbrUnparsed s;
           s_lineNbr := s_lineNbr s; s_flatTags := true; s_encFmt := s_encFmt s; s_tag := s_tag s; s_fmt := s_fmt s |}
  | o_e a => if text_eqb a (L "json") then fmt f_json
             else if text_eqb a (L "xml") then fmt f_xml
             else if text_eqb a (L "cee-syslog") then fmt f_syslog
             else if text_eqb a (L "csv") then fmt f_csv
             else if text_eqb a (L "raw") then fmt f_raw
             else Some m
  | o_r a => rb 2%Z 1%Z a
  | o_R a => rb 1%Z 2%Z a
  | o_t a => put {| s_parsed := s_parsed s; s_unparsed := s_unparsed s; s_summary := s_summary s; s_nbrUnparsed := s_nbrUnparsed s;
           s_lineNbr := s_lineNbr s; s_flatTags := s_flatTags s; s_encFmt := s_encFmt s; s_tag := Some a; s_fmt := s_fmt s |}
  | o_o a => match generic_option (m_opts m) a with
             | Some os => Some {| m_set := s; m_opts := os; m_repo := m_repo m; m_used := m_used m |}
             | None => None
             end
  | o_help => None
  end.
Fixpoint options (m : mstate) (l : list option_) : option mstate :=
  match l with
  | [] => Some m
  | o :: l' => match one_option m o with Some m' => options m' l' | None => None end
  end.

(** lognormalizer.c 345-535 [main]: exit code, stdout, stderr. *)
Definition tool (lfuel fuel : nat) (e : env) (qsort : list prs -> list prs) (l : list option_) (inp : text)
  : er (Z * text * list note) :=
  match options start_state l with
  | None => EOk (1%Z, [], [complaint "usage or invalid option"])
  | Some m =>
      match m_repo m with
      | None => EOk (1%Z, [], [complaint "Samples repository or String must be given (-r or -R)"])
      | Some rb =>
          if Z.eqb (m_used m) (-1) then EOk (1%Z, [], [complaint "Only use one rulebase (-r or -R)"])
          else
            do* (cx, ok) := if Z.eqb (m_used m) 1 then loadFile e qsort lfuel (initCtx (m_opts m)) rb
                            else loadString e qsort lfuel (initCtx (m_opts m)) rb in
            if negb ok then EOk (1%Z, [], [complaint "fatal error: cannot load rulebase"])
            else do* (out, err, _) := tool_normalize fuel e (m_set m) cx inp in EOk (0%Z, out, err)
      end
  end.
