(** * Err: the error messages of loading a rulebase, the calls of ln_errprintf in
      /repo/src/samp.c, pdag.c and parser.c, and /repo/src/lognorm.c 84-137 [ln_errprintf].

    One function [m_f] for each function [f] of Pdag.v and Samp.v that can report something:
    the messages, in order, of the run of [f] with the same arguments, in case [f] returns.
    They follow the control flow of [f] and use [f] itself for the state in between.
    Simplifications: "%s" of a JSON value that is NULL is not printed (those calls crash
    before, in [f]); what strerror says is not modelled ([b_errno] tells that it is appended);
    [badint v] tells whether json_object_get_int64 sets errno for [v]. v1 rulebases are left
    out. *)
From Coq Require DecimalString.
From Verif Require Import Base Time Parsers Engine Pdag Samp.

(** A message before ln_errprintf adds file and line. [b_open]: the text comes from the buffer
    of an es_str_t, that has no end mark, and vsnprintf reads on behind it. *)
Record body : Type := { b_text : text; b_open : bool; b_errno : bool }.
Definition say (s : string) (arg : text) : body := {| b_text := L s ++ cstr arg; b_open := false; b_errno := false |}.
Definition quote (s : string) (arg : text) : body := {| b_text := L s ++ cstr arg ++ L "'"; b_open := false; b_errno := false |}.
Definition say_open (s : string) (arg : text) : body := {| b_text := L s ++ arg; b_open := true; b_errno := false |}.
Definition say_errno (s : string) (arg : text) : body := {| b_text := L s ++ cstr arg; b_open := false; b_errno := true |}.

Section Err.
Variable e : env.
Variable badint : json -> bool.

(** ** Field constructors *)
(** parser.c 456-474, 744-762, 840-865, 956-971, 1050-1075; see [fmt_conf]. [who] is the type
    name as the message has it, [colon] what stands between it and the parameter. *)
Fixpoint m_fmt (who colon : string) (fmtof : text -> option fmt) (usemax : bool) (l : fields) : list body :=
  match l with
  | [] => []
  | (k, v) :: l' =>
      (if (usemax && text_eqb k (L "maxval"))%bool then
         if badint v then [say_errno "param 'maxval' must be integer but is: " (json_show e v)] else []
       else if text_eqb k (L "format") then
         match jstring e v with
         | Some s => match fmtof s with Some _ => [] | None => [say ("invalid value for " ++ who ++ ":format ") s] end
         | None => []
         end
       else if (text_eqb k (L "name") && match jstring e v with Some s => text_eqb s (L "-") | None => false end)%bool then []
       else [say ("invalid param for " ++ who ++ colon) k])
      ++ m_fmt who colon fmtof usemax l'
  end.

(** parser.c 1273-1277, 1383-1387, 1467-1471, 1554-1558; see [extradata]. *)
Definition m_need (key msg : string) (l : fields) : list body :=
  match obj_get l (L key) with None => [say msg []] | Some _ => [] end.

(** parser.c 2647-2684; see [nv_conf]. *)
Definition m_nv (l : fields) : list body :=
  let bad (k : string) := match obj_get l (L k) with
                          | Some v => match one_char v with Some _ => false | None => true end
                          | None => false end in
  if bad "extradata"%string then [say "name-value-list's extradata should only be 1 character" []]
  else if bad "separator"%string then [say "name-value-list's 'separator' field should only be 1 character" []]
  else if bad "assignator"%string then [say "name-value-list's 'assignator' field should only be 1 character" []]
  else [].

(** parser.c 3153-3167; see [lea_conf]. *)
Fixpoint m_lea (l : fields) : list body :=
  match l with
  | [] => []
  | (k, v) :: l' =>
      if text_eqb k (L "terminator") then
        match jstring e v with
        | Some [c] => m_lea l'
        | Some s => [quote "terminator must be exactly one character but is: '" s]
        | None => []
        end
      else m_lea l'
  end.

(** parser.c 3427-3447; see [perm_members], [perm_array]. *)
Definition known_class (s : text) : bool :=
  (caseeq s (L "digit") || caseeq s (L "hexdigit") || caseeq s (L "alpha") || caseeq s (L "alnum"))%bool.
Fixpoint m_perm (l : fields) : list body :=
  match l with
  | [] => []
  | (k, v) :: l' =>
      (if (negb (caseeq k (L "chars")) && caseeq k (L "class"))%bool then
         match jstring e v with
         | Some s => if known_class s then [] else [quote "invalid character class '" s]
         | None => []
         end
       else []) ++ m_perm l'
  end.
Definition m_perm_array (l : list json) : list body :=
  flat_map (fun j => match j with JObj m => m_perm m | _ => [] end) l.

(** parser.c 3587-3668; see [string_conf]. *)
Fixpoint m_string (l : fields) : list body :=
  match l with
  | [] => []
  | (k, v) :: l' =>
      let s := match jstring e v with Some s => s | None => [] end in
      let one msg := match s with [_] => m_string l' | _ => [quote msg s] end in
      if caseeq k (L "quoting.mode") then
        if (caseeq s (L "auto") || caseeq s (L "none") || caseeq s (L "required"))%bool then m_string l'
        else [say "invalid quoting.mode for string parser: " s]
      else if caseeq k (L "quoting.escape.mode") then
        if (caseeq s (L "none") || caseeq s (L "backslash") || caseeq s (L "double") || caseeq s (L "both"))%bool then m_string l'
        else [say "invalid quoting.escape.mode for string parser: " s]
      else if caseeq k (L "quoting.char.begin") then one "quoting.char.begin must be exactly one character but is: '"%string
      else if caseeq k (L "quoting.char.end") then one "quoting.char.end must be exactly one character but is: '"%string
      else if caseeq k (L "matching.permitted") then
        match v with
        | JStr _ => []
        | JArr a => m_perm_array a
        | _ => [say "matching.permitted is invalid object type, given as '" (json_show e v)]
        end ++ m_string l'
      else if caseeq k (L "matching.mode") then
        if (caseeq s (L "strict") || caseeq s (L "lazy"))%bool then m_string l'
        else [say "invalid matching.mode for string parser: " s]
      else say "invalid param for hexnumber: " (json_show e v) :: m_string l'
  end.

(** The constructors of the table pdag.c 70-103 (types without inner graphs); see
    [simple_type]. *)
Definition m_simple (typ : text) (l : fields) : list body :=
  if text_eqb typ (L "literal") then m_need "text" "literal type needs 'text' parameter" l
  else if text_eqb typ (L "date-rfc3164") then m_fmt "date-rfc3164" " " fmt_date false l
  else if text_eqb typ (L "date-rfc5424") then m_fmt "date-rfc5424" " " fmt_date false l
  else if text_eqb typ (L "number") then m_fmt "number" ": " fmt_num true l
  else if text_eqb typ (L "float") then m_fmt "float" ": " fmt_num false l
  else if text_eqb typ (L "hexnumber") then m_fmt "hexnumber" ": " fmt_num true l
  else if text_eqb typ (L "name-value-list") then m_nv l
  else if text_eqb typ (L "checkpoint-lea") then m_lea l
  else if text_eqb typ (L "string-to") then m_need "extradata" "string-to type needs 'extradata' parameter" l
  else if text_eqb typ (L "char-to") then m_need "extradata" "char-to type needs 'extradata' parameter" l
  else if text_eqb typ (L "char-sep") then m_need "extradata" "char-separated type needs 'extradata' parameter" l
  else if text_eqb typ (L "string") then m_string l
  else [].

(** ** Adding parsers *)
Section Add.
(** [addp], [m_addp]: ln_pdagAddParser for the inner graphs of repeat, and its messages. *)
Variable addp : ctx -> nat -> json -> er (ctx * option (option nat)).
Variable m_addp : ctx -> nat -> json -> list body.

(** parser.c 3184-3210; see [chkNoDupeDot]. *)
Definition m_dots (v : json) : list body :=
  match chkNoDupeDot e v with
  | EOk false => [say "'repeat' parser supports dot name only if single parser is used in 'parser' part, invalid construct: " (json_show e v)]
  | _ => []
  end.

(** parser.c 3296-3336, the loop and the test behind it; see [repeat_conf],
    [construct_repeat]. *)
Fixpoint m_repeat_conf (l : fields) (pn wn : option nat) (permit : bool) (cx : ctx) : list body :=
  match l with
  | [] => []
  | (k, v) :: l' =>
      let inner cx' n (cont : ctx -> list body) :=
        m_addp cx' n v ++
        match addp cx' n v with
        | EOk (cx', Some (Some en)) => cont (set_nodes cx' (upd_node (c_nodes cx') en set_term))
        | _ => []
        end in
      if text_eqb k (L "parser") then
        match chkNoDupeDot e v with
        | EOk true => let '(cx, n) := newPDAG cx in inner cx n (m_repeat_conf l' (Some n) wn permit)
        | _ => m_dots v
        end
      else if text_eqb k (L "while") then
        let '(cx, n) := newPDAG cx in inner cx n (m_repeat_conf l' pn (Some n) permit)
      else if caseeq k (L "option.permitMismatchInParser") then m_repeat_conf l' pn wn permit cx
      else say "invalid param for hexnumber: " (json_show e v) :: m_repeat_conf l' pn wn permit cx
  end.
Definition m_repeat (l : fields) (cx : ctx) : list body :=
  m_repeat_conf l None None false cx ++
  match repeat_conf e addp l None None false cx with
  | EOk (_, Some _, Some _, _) => []
  | _ => [say "repeat parser needs 'parser','while' parameters" []]
  end.

(** pdag.c 212-233, 266; see [newParser]. *)
Definition m_newParser (cx : ctx) (conf : json) : list body :=
  match jget conf "type" with
  | None | Some JNull => [say "parser type missing in config: " (json_show e conf)]
  | Some tv =>
      match jstring e tv with
      | None => []
      | Some typ =>
          let custom := match typ with c :: _ => ceq c "@" | [] => false end in
          let name := match jget conf "name" with
                      | None | Some JNull => None
                      | Some v => match jstring e v with
                                  | Some s => if text_eqb s (L "-") then None else Some s
                                  | None => None end
                      end in
          let rest := match conf with JObj l => l | _ => [] end in
          let rest := obj_del (obj_del rest (L "type")) (L "priority") in
          let rest := match name with Some _ => obj_del rest (L "name") | None => rest end in
          if custom then
            match findType (c_types cx) typ 0 with
            | None => [quote "unknown user-defined type '" typ]
            | Some _ => []
            end
          else if text_eqb typ (L "repeat") then m_repeat rest cx
          else match simple_type e typ [] with
               | None => [quote "invalid field type '" typ]
               | Some _ => m_simple typ rest
               end
      end
  end.

(** pdag.c 899-938; see [addParsers_loop]. *)
Fixpoint m_addParsers_loop (inner : ctx -> amode -> option nat -> json -> option nat -> ares)
  (m_inner : ctx -> amode -> option nat -> json -> option nat -> list body)
  (cx : ctx) (mode : amode) (l : list json) (dag next pnext : option nat) : list body :=
  match l with
  | [] => []
  | j :: l' =>
      let r :=
        match j with
        | JArr _ =>
            do* (cx, r) := inner cx mode dag j next in
            EOk (cx, match r with
                     | None => None
                     | Some (ld, nx) => Some (match mode with Seq => ld | Alt => dag end, nx)
                     end)
        | _ => do* (cx, r) := addInstance e addp cx j dag next in
               EOk (cx, match r with None => None | Some nx => Some (dag, Some nx) end)
        end in
      match j with JArr _ => m_inner cx mode dag j next | _ => m_newParser cx j end ++
      match r with
      | EOk (cx, Some (dag, next)) =>
          match mode with
          | Seq => m_addParsers_loop inner m_inner cx mode l' next None next
          | Alt => m_addParsers_loop inner m_inner cx mode l' dag next pnext
          end
      | _ => []
      end
  end.

(** json_type_to_name of the value of "parser" *)
Definition type_name_of (o : option json) : text :=
  match o with
  | None | Some JNull => L "null" | Some (JBool _) => L "boolean" | Some (JDouble _) => L "double"
  | Some (JInt _) => L "int" | Some (JObj _) => L "object" | Some (JArr _) => L "array" | Some (JStr _) => L "string"
  end.

(** pdag.c 944-983; see [addInternal_step]. *)
Definition m_addInternal_step (inner : ctx -> amode -> option nat -> json -> option nat -> ares)
  (m_inner : ctx -> amode -> option nat -> json -> option nat -> list body)
  (cx : ctx) (mode : amode) (dag : option nat) (conf : json) (next : option nat) : list body :=
  match conf with
  | JObj _ =>
      match jget conf "type" with
      | None => []
      | Some tv =>
          match jstring e tv with
          | None => []
          | Some typ =>
              if text_eqb typ (L "alternative") then
                match jget conf "parser" with
                | Some (JArr ps) => m_addParsers_loop inner m_inner cx Alt ps dag next next
                | o => [say "alternative type needs array of parsers. Object: '" (json_show e conf ++ L "', type is " ++ type_name_of o)]
                end
              else m_newParser cx conf
          end
      end
  | JArr l => m_addParsers_loop inner m_inner cx Seq l dag next next
  | _ => [quote "bug: prscnf object of wrong type. Object: '" (json_show e conf)]
  end.
End Add.

(** The recursion; see [addInternal]. *)
Fixpoint m_addInternal (fuel : nat) (cx : ctx) (mode : amode) (dag : option nat) (conf : json)
  (next : option nat) : list body :=
  match fuel with
  | O => []
  | S f =>
      m_addInternal_step
        (fun cx d j => do* (cx, r) := addInternal e f cx Seq (Some d) j None in
                       EOk (cx, match r with None => None | Some (en, _) => Some en end))
        (fun cx d j => m_addInternal f cx Seq (Some d) j None)
        (addInternal e f) (m_addInternal f) cx mode dag conf next
  end.
(** pdag.c 989-996; see [addParser]. *)
Definition m_addParser (cx : ctx) (dag : nat) (conf : json) : list body :=
  m_addInternal (S (jdepth conf)) cx Seq (Some dag) conf None.

(** ** Rules *)
(** samp.c 75-130; see [parseLegacyFieldDescr]. "missing colon" (samp.c 92) cannot happen: the
    loop before stopped at a ':'. *)
Definition m_parseLegacyFieldDescr (u : text) : list body :=
  let n := scan (fun c => negb (ceq c ":")) u in
  if N.leb 1023 (N.of_nat n) then [say_open "field name too long in: " u]
  else if Nat.eqb n (List.length u) then [say_open "field definition wrong in: " u]
  else if Nat.eqb n 0 then []
  else
    let v := skipn (S n) u in
    let w := skipn (scan (fun c => negb (ceq c ":" || ceq c "{" || ceq c "%")) v) v in
    match w with
    | [] => [say_open "premature end (missing %?) in: " u]
    | c :: _ =>
        if ceq c "{" then
          match json_tok e w with
          | Some (JNull, _) | None => [say_open "invalid json in '" (w ++ L "'")]
          | Some _ => []
          end
        else []
    end.

(** samp.c 219-235; see [fieldDescr]. *)
Definition m_fieldDescr (u : text) : list body :=
  let u := skipn 1 u in
  let u := skipn (scan isspace u) u in
  match u with
  | [] => []
  | c :: _ =>
      if (ceq c "{" || ceq c "[")%bool then
        let bad k := [say_open "invalid json in '" (skipn k u ++ L "'")] in
        match json_tok e u with
        | None => bad (json_erroff e u)
        | Some (JNull, k) => bad k
        | Some (_, k) =>
            match skipn k u with
            | d :: _ => if ceq d "%" then [] else bad k
            | [] => bad k
            end
        end
      else m_parseLegacyFieldDescr u
  end.

(** samp.c 322-327; see [add_literals]. *)
Fixpoint m_add_literals (cx : ctx) (dag : option nat) (l : text) : list body :=
  match l, dag with
  | c :: l', Some d =>
      m_addParser cx d (literal_conf c) ++
      match addParser e cx d (literal_conf c) with
      | EOk (cx, Some dag') => m_add_literals cx dag' l'
      | _ => []
      end
  | _, _ => []
  end.

(** samp.c 353-376; see [add_rule]. *)
Fixpoint m_add_rule (fuel : nat) (cx : ctx) (dag : option nat) (rule : text) : list body :=
  match fuel with
  | O => []
  | S f =>
      match rule with
      | [] => []
      | _ =>
          let '(lit, rest) := literal_part rule in
          let lit := cstr (drop_nul (unescape e lit)) in
          m_add_literals cx dag lit ++
          match add_literals e cx dag lit with
          | EOk (cx, Some dag) =>
              match rest with
              | [] => []
              | _ =>
                  m_fieldDescr rest ++
                  match fieldDescr e rest, dag with
                  | Ok (rest', conf), Some d =>
                      m_addParser cx d conf ++
                      match addParser e cx d conf with
                      | EOk (cx, Some dag) => m_add_rule f cx dag rest'
                      | _ => []
                      end
                  | _, _ => []
                  end
              end
          | _ => []
          end
      end
  end.

(** samp.c 353-389; see [addSampToTree]. *)
Definition m_addSampToTree (cx : ctx) (rule : text) (dag : nat) : list body :=
  m_add_rule (S (List.length rule)) cx (Some dag) rule.

(** ** Lines *)
(** samp.c 556-581; see [processRule]. *)
Definition m_processRule (cx : ctx) (u : text) : list body :=
  match processTags u None None with
  | EOk (Some (_, [])) => [say "error: actual message sample part is missing" []]
  | EOk (Some (_, sample)) =>
      m_addSampToTree cx ((match c_prefix cx with Some p => p | None => [] end) ++ sample) (c_root cx)
  | _ => []
  end.

(** samp.c 590-604; see [getTypeName]: of the name at most 1023 bytes are looked at. *)
Definition m_getTypeName (u : text) : list body :=
  if negb (ceq (lrd u 0) "@") then [say "user-defined type name must start with '@'" []]
  else if existsb isspace (firstn (Nat.min (scan (fun c => negb (ceq c ":")) u) (N.to_nat 1023)) u)
  then [say "user-defined type name must not contain whitespace" []] else [].

(** samp.c 626-660; see [processType]. *)
Definition m_processType (cx : ctx) (u : text) : list body :=
  match getTypeName u with
  | None => m_getTypeName u
  | Some (_, []) => [say "error: actual message sample part is missing in type def" []]
  | Some (nm, sample) =>
      let '(cx, nd) :=
        match findType (c_types cx) nm 0 with
        | Some i => (cx, match nth_error (c_types cx) i with Some (_, d) => d | None => 0 end)
        | None => let '(cx', d) := newPDAG cx in (set_types cx' (c_types cx' ++ [(nm, d)]), d)
        end in
      m_addSampToTree cx sample nd
  end.

(** samp.c 741-755; see [getAnnotationOp]. *)
Definition m_getAnnotationOp (u : text) : list body :=
  let v := skipn (scan isspace u) u in
  match v with
  | c :: _ => if (ceq c "#" || ceq c "+")%bool then [] else [say "invalid annotate operation '" ([c] ++ L "': " ++ v)]
  | [] => []
  end.
Fixpoint m_annot_loop (fuel : nat) (u : text) : list body :=
  match fuel with
  | O => []
  | S f =>
      match u with
      | [] => []
      | _ => m_getAnnotationOp u ++
             match getAnnotationOp u with
             | AFail => []
             | AStay => m_annot_loop f u
             | AOps _ rest => m_annot_loop f rest
             end
      end
  end.
(** samp.c 795-821; see [processAnnotate]. *)
Definition m_processAnnotate (fuel : nat) (u : text) : list body :=
  let n := scan isFieldNameChar u in
  let v := skipn n u in
  let v := skipn (scan isspace v) v in
  match v, firstn n u with
  | c :: v, _ :: _ => if negb (ceq c ":") then [] else m_annot_loop fuel v
  | _, _ => []
  end.

(** A message as the application sees it: lognorm.c 127-133 adds ctx->conf_file and
    ctx->conf_ln_nbr. *)
Record message : Type := { m_file : text; m_line : N; m_body : body }.
Definition at_pos (cx : ctx) (l : list body) : list message :=
  map (fun b => {| m_file := c_file cx; m_line := c_line cx; m_body := b |}) l.

Section Line.
Variable m_load : ctx -> text -> list message.
Variable afuel : nat.
(** samp.c 863-905; see [processSamp]. *)
Definition m_processSamp (cx : ctx) (line : text) : list message :=
  match getLineType line with
  | None => []
  | Some (ty, u) =>
      if text_eqb ty (L "prefix") then []
      else if text_eqb ty (L "extendprefix") then []
      else if text_eqb ty (L "rule") then at_pos cx (m_processRule cx u)
      else if text_eqb ty (L "type") then at_pos cx (m_processType cx u)
      else if text_eqb ty (L "annotate") then at_pos cx (m_processAnnotate afuel u)
      else if text_eqb ty (L "include") then
        match include_name u with EOk f => m_load cx f | _ => [] end
      else at_pos cx [quote "invalid record type detected: '" (drop_nul ty)]
  end.
End Line.

(** ** Reading lines *)
(** samp.c 966-978: the message of the check for a runaway rule; see [runaway]. *)
Definition typo : body := say "line has 'rule=' at begin of line, which does look like a typo in the previous lines (unmatched % character) and is forbidden. If valid, please re-format the rule to start with other characters. Rule ignored." [].
Fixpoint m_runaway (fuel : nat) (inp : text) : list body :=
  match fuel with
  | O => []
  | S f =>
      match inp with
      | [] => []
      | c :: inp' =>
          if ceq c (chr 10) then m_runaway f inp'
          else if ceq c "#" then m_runaway f (skip_line inp)
          else if Nat.ltb (List.length inp) 5 then []
          else if text_eqb (firstn 5 inp) (L "rule=") then [typo] else []
      end
  end.

(** samp.c 1001-1062; see [sampRead]. Only whether the buffer is empty matters here. *)
Fixpoint m_sampRead (fuel : nat) (isfile : bool) (inp : text) (empty : bool) (cnt : N)
  (inParser : bool) (ln : N) : list (N * body) :=
  match fuel with
  | O => []
  | S f =>
      match inp with
      | [] => []
      | c :: inp' =>
          if is_eof_char e isfile c then []
          else if ceq c (chr 10) then
            let ln := ((ln + 1) mod 2 ^ 32)%N in
            let ra := (inParser && isfile && runaway (S (List.length inp')) inp')%bool in
            let ms := if (inParser && isfile)%bool then map (pair ln) (m_runaway (S (List.length inp')) inp') else [] in
            let inParser := (inParser && negb ra)%bool in
            let empty := if ra then true else empty in
            let cnt := if ra then 0%N else cnt in
            ms ++ (if (empty || inParser)%bool then m_sampRead f isfile inp' empty cnt inParser ln else [])
          else if (ceq c "#" && empty)%bool then
            m_sampRead f isfile (skip_line inp') true 0 inParser ((ln + 1) mod 2 ^ 32)
          else
            let inParser := if ceq c "%" then negb inParser else inParser in
            if N.leb (64 * 1024) (cnt + 1) then [(ln, say "line is too long" [])]
            else m_sampRead f isfile inp' false (cnt + 1) inParser ln
      end
  end.

(** The loop over the lines; see [load_lines]. *)
Fixpoint m_load_lines (load : ctx -> text -> er (ctx * bool)) (m_load : ctx -> text -> list message)
  (afuel fuel : nat) (isfile : bool) (cx : ctx) (inp : text) : list message :=
  match fuel with
  | O => []
  | S f =>
      map (fun x => {| m_file := c_file cx; m_line := fst x; m_body := snd x |})
          (m_sampRead (S (S (List.length inp))) isfile inp true 0 false (c_line cx)) ++
      match sampRead e (S (S (List.length inp))) isfile inp [] 0 false (c_line cx) with
      | RFuel | RR (RNone _ _) => []
      | RTooLong inp' ln => m_load_lines load m_load afuel f isfile (set_pos cx (c_file cx) ln) inp'
      | RR (RLine line inp' eof ln) =>
          m_processSamp m_load afuel (set_pos cx (c_file cx) ln) line ++
          match processSamp e load afuel (set_pos cx (c_file cx) ln) line with
          | EOk (cx, true) => if eof then [] else m_load_lines load m_load afuel f isfile cx inp'
          | _ => []
          end
      end
  end.

Variable qsort : list prs -> list prs.

(** samp.c 1100-1150; see [loadSamples]. Of the two messages for a file that cannot be opened
    the first is modelled (the second, samp.c 1116, depends on LIBLOGNORM_RULEBASES). The
    number of the version in the message is left out. *)
Fixpoint m_loadSamples (fuel : nat) (level : nat) (cx : ctx) (file : text) : list message :=
  match fuel with
  | O => []
  | S f =>
      let cx := set_pos cx file 0 in
      match files e file with
      | None => at_pos cx [{| b_text := L "cannot open rulebase '" ++ cstr file ++ L "'"; b_open := false; b_errno := true |}]
      | Some [] => at_pos cx [say_errno "error determining version of " file]
      | Some content =>
          let is2 := text_eqb (firstn 10 content) version2 in
          let version := if is2 then 2%N else 1%N in
          if (negb (N.eqb (c_version cx) 0) && negb (N.eqb version (c_version cx)))%bool
          then at_pos cx [say_errno "rulebase '" file]
          else if negb is2 then []
          else m_load_lines (loadSamples e qsort f (S level)) (m_loadSamples f (S level)) f (S (List.length content)) true
                 (set_pos (set_version cx 2) file 1) (skipn 10 content)
      end
  end.

(** liblognorm.c 176-190, samp.c 1183-1205; see [loadString], [loadFile]. *)
Definition m_loadString (fuel : nat) (cx : ctx) (s : text) : list message :=
  let s := cstr s in
  m_load_lines (loadSamples e qsort fuel 2) (m_loadSamples fuel 2) fuel (S (List.length s)) false
    (set_pos (set_version cx 2) (L "--NO-FILE--") 0) s.
Definition m_loadFile (fuel : nat) (cx : ctx) (file : text) : list message := m_loadSamples fuel 1 cx file.
End Err.

(** ** Delivery *)
(** The error callback and the two cookies of a context: liblognorm.c 133-157. *)
Record callbacks : Type := { cb_err : bool; cb_errCookie : nat; cb_dbgCookie : nat }.
Definition no_callbacks : callbacks := {| cb_err := false; cb_errCookie := 0; cb_dbgCookie := 0 |}.
(** liblognorm.c 135-143 [ln_setDebugCB] *)
Definition setDebugCB (c : callbacks) (cookie : nat) : callbacks :=
  {| cb_err := cb_err c; cb_errCookie := cb_errCookie c; cb_dbgCookie := cookie |}.
(** liblognorm.c 147-157 [ln_setErrMsgCB] *)
Definition setErrMsgCB (c : callbacks) (cookie : nat) : callbacks :=
  {| cb_err := true; cb_errCookie := cookie; cb_dbgCookie := cb_dbgCookie c |}.

(** vsnprintf into a buffer of [size] bytes *)
Definition cut (size : N) (t : text) : text := firstn (N.to_nat (size - 1)) t.
(** lognorm.c 106-115: a formatted message that does not fit into 8K ends with "...\n". *)
Definition fit8k (t : text) : text :=
  if N.leb 8192 (N.of_nat (List.length t)) then firstn (N.to_nat 8187) t ++ L "..." ++ [chr 10] else t.
(** decimal digits of %d (line numbers below 2^31) *)
Definition digits := fun n : N => L (DecimalString.NilZero.string_of_uint (N.to_uint n)).
(** lognorm.c 92-137 [ln_errprintf]: the call of the callback: cookie, text, length. [errno]
    is what strerror says, if it is asked. *)
Definition errprintf (c : callbacks) (file : option text) (line : N) (t : text) (errno : option text)
  : option (nat * text * N) :=
  if negb (cb_err c) then None
  else
    let msg := fit8k t in
    let len := N.of_nat (List.length msg) in
    let '(msg, len) :=
      match errno with
      | None => (msg, len)
      | Some s => let m := msg ++ L ": " ++ cut 1023 s in (cut 9216 m, N.of_nat (List.length m))
      end in
    let '(msg, len) :=
      match file with
      | None => (msg, len)
      | Some f => let m := L "rulebase file " ++ cstr f ++ L "[" ++ digits line ++ L "]: " ++ msg in
                  (cut 9216 m, N.of_nat (List.length m))
      end in
    Some (cb_dbgCookie c, msg, len).
