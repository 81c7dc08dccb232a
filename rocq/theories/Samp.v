(** * Samp: reading a rulebase, /repo/src/samp.c, and the load functions of
      /repo/src/liblognorm.c 160-190. The error messages (ln_errprintf) are in Err.v, here only
      their effect on control flow. *)
From Verif Require Import Base Time Parsers Engine Pdag.

Section Samp.
Variable e : env.

(** Read of a byte of a line buffer: NUL-terminated by samp.c 1056. *)
Definition lrd (line : text) (i : nat) : ascii :=
  match nth_error line i with Some c => c | None => NUL end.

(** ** Fields and literals of a rule *)

(** es_str2cstr(s, NULL): NUL bytes are dropped. *)
Definition drop_nul (t : text) : text := filter (fun c => negb (ceq c NUL)) t.
(** es_str2cstr(s, " "): NUL bytes become blanks. *)
Definition nul_blank (t : text) : text := map (fun c => if ceq c NUL then " "%char else c) t.

(** Trim trailing white space: samp.c 104-106. *)
Fixpoint rtrim (t : text) : text :=
  match t with
  | [] => []
  | c :: t' => match rtrim t' with
               | [] => if isspace c then [] else [c]
               | r => c :: r
               end
  end.

Definition str_obj (l : list (string * text)) : fields := map (fun kv => (L (fst kv), JStr (snd kv))) l.

(** samp.c 51-182 [ln_parseLegacyFieldDescr]. [u] is the rule text from bufOffs on; the
    result is what remains and the configuration. The rule text is an es_str without
    terminating NUL: reading behind it is reported as a use of uninitialised memory.
    [Bad] = error return. *)
Definition parseLegacyFieldDescr (u : text) : res (text * json) :=
  let n := scan (fun c => negb (ceq c ":")) u in
  check (negb (N.leb 1023 (N.of_nat n))) ;;                    (* 75-78 *)
  check (negb (Nat.eqb n (List.length u))) ;;                  (* 79-82 *)
  check (negb (Nat.eqb n 0)) ;;                                (* 84-86 *)
  let name := cstr (firstn n u) in
  let u := skipn (S n) u in
  (* 98-112: the type *)
  let j := scan (fun c => negb (ceq c ":" || ceq c "{" || ceq c "%")) u in
  let ftype := drop_nul (rtrim (firstn j u)) in
  let u := skipn j u in
  match u with
  | [] => Bad 0                                                (* 114-117 *)
  | c :: _ =>
      (* 122-130: JSON parameters *)
      let '(js, u) :=
        if ceq c "{" then
          match json_tok e u with
          | Some (j, k) => (Some j, skipn k u)
          | None => (None, skipn (json_erroff e u) u)
          end
        else (None, u) in
      match u with
      | [] => Ub UninitRead                                    (* 132: buf[i], i == lenBuf *)
      | c :: u' =>
          let '(ed, u) :=
            if ceq c "%" then (None, u')
            else let k := scan (fun c => negb (ceq c "%")) u' in
                 (Some (unescape e (firstn k u')), skipn (S k) u') in
          let o := str_obj [("name"%string, name); ("type"%string, ftype)] in
          let o := match ed with
                   | Some x => obj_add o (L "extradata") (JStr (cstr (nul_blank x)))
                   | None => o end in
          let o := match js with
                   | Some (JObj l) => fold_left (fun o kv => obj_add o (fst kv) (snd kv)) l o
                   | _ => o end in
          Ok (u, JObj o)
      end
  end.

(** samp.c 199-240 [addFieldDescr] up to the call of ln_pdagAddParser; [u] starts with
    the '%'. *)
Definition fieldDescr (u : text) : res (text * json) :=
  let u := skipn 1 u in
  let u := skipn (scan isspace u) u in
  match u with
  | [] => Ub UninitRead                                        (* 219: buf[lenBuf] *)
  | c :: _ =>
      if (ceq c "{" || ceq c "[")%bool then
        match json_tok e u with
        | Some (JNull, _) | None => Bad 0
        | Some (j, k) =>
            match skipn k u with
            | d :: u' => if ceq d "%" then Ok (u', j) else Bad 0
            | [] => Bad 0
            end
        end
      else parseLegacyFieldDescr u
  end.

(** samp.c 290-309: the literal up to the next field; text and what remains. *)
Fixpoint literal_part (u : text) : text * text :=
  match u with
  | [] => ([], [])
  | c :: u' =>
      if ceq c "%" then
        match u' with
        | [] => ([], [])                              (* lone '%' at the end *)
        | d :: u'' => if ceq d "%" then let '(l, r) := literal_part u'' in (d :: l, r)
                      else ([], u)                    (* field start *)
        end
      else let '(l, r) := literal_part u' in (c :: l, r)
  end.

(** samp.c 248-263 [newLiteralParserJSONConf] *)
Definition literal_conf (c : ascii) : json :=
  JObj [(L "type", JStr (L "literal")); (L "text", JStr [c])].

(** samp.c 322-327: one parser per character. *)
Fixpoint add_literals (cx : ctx) (dag : option nat) (l : text) : er (ctx * option (option nat)) :=
  match l with
  | [] => EOk (cx, Some dag)
  | c :: l' =>
      match dag with
      | None => EUb NullDeref
      | Some d =>
          do* (cx, r) := addParser e cx d (literal_conf c) in
          match r with
          | None => EOk (cx, None)
          | Some dag' => add_literals cx dag' l'
          end
      end
  end.

(** samp.c 353-376: the loop of [addSampToTree]. Result: end node, or None = error. *)
Fixpoint add_rule (fuel : nat) (cx : ctx) (dag : option nat) (rule : text)
  : er (ctx * option (option nat)) :=
  match fuel with
  | O => EUb OutOfFuel
  | S f =>
      match rule with
      | [] => EOk (cx, Some dag)
      | _ =>
          let '(lit, rest) := literal_part rule in
          do* (cx, r) := add_literals cx dag (cstr (drop_nul (unescape e lit))) in
          match r with
          | None => EOk (cx, None)
          | Some dag =>
              match rest with
              | [] => EOk (cx, Some dag)
              | _ =>
                  match fieldDescr rest with
                  | Ub u => EUb u
                  | Bad _ => EOk (cx, None)
                  | Ok (rest', conf) =>
                      match dag with
                      | None => EUb NullDeref
                      | Some d =>
                          do* (cx, r) := addParser e cx d conf in
                          match r with
                          | None => EOk (cx, None)
                          | Some dag => add_rule f cx dag rest'
                          end
                      end
                  end
              end
          end
      end
  end.

(** samp.c 377-382: the end of a rule. *)
Definition set_terminal (tags : option json) (file : text) (line : N) (n : node) : node :=
  {| n_parsers := n_parsers n; n_term := true; n_tags := tags; n_refcnt := n_refcnt n;
     n_file := Some file; n_line := line; n_called := n_called n; n_backtracked := n_backtracked n |}.

(** samp.c 353-389 [addSampToTree]; its return code is ignored by every caller. *)
Definition addSampToTree (cx : ctx) (rule : text) (dag : nat) (tags : option json) : er ctx :=
  do* (cx, r) := add_rule (S (List.length rule)) cx (Some dag) rule in
  match r with
  | None => EOk cx
  | Some None => EUb NullDeref
  | Some (Some en) =>
      do* _ := get_node (c_nodes cx) en in
      EOk (set_nodes cx (upd_node (c_nodes cx) en (set_terminal tags (c_file cx) (c_line cx))))
  end.

(** ** Lines *)

Definition set_prefix (cx : ctx) (p : option text) : ctx :=
  {| c_nodes := c_nodes cx; c_root := c_root cx; c_types := c_types cx; c_annots := c_annots cx;
     c_prefix := p; c_opts := c_opts cx; c_version := c_version cx; c_file := c_file cx;
     c_line := c_line cx |}.
Definition set_annots (cx : ctx) (a : list annot) : ctx :=
  {| c_nodes := c_nodes cx; c_root := c_root cx; c_types := c_types cx; c_annots := a;
     c_prefix := c_prefix cx; c_opts := c_opts cx; c_version := c_version cx; c_file := c_file cx;
     c_line := c_line cx |}.
Definition set_types (cx : ctx) (t : list (text * nat)) : ctx :=
  {| c_nodes := c_nodes cx; c_root := c_root cx; c_types := t; c_annots := c_annots cx;
     c_prefix := c_prefix cx; c_opts := c_opts cx; c_version := c_version cx; c_file := c_file cx;
     c_line := c_line cx |}.
Definition set_pos (cx : ctx) (f : text) (l : N) : ctx :=
  {| c_nodes := c_nodes cx; c_root := c_root cx; c_types := c_types cx; c_annots := c_annots cx;
     c_prefix := c_prefix cx; c_opts := c_opts cx; c_version := c_version cx; c_file := f;
     c_line := l |}.
Definition set_version (cx : ctx) (v : N) : ctx :=
  {| c_nodes := c_nodes cx; c_root := c_root cx; c_types := c_types cx; c_annots := c_annots cx;
     c_prefix := c_prefix cx; c_opts := c_opts cx; c_version := v; c_file := c_file cx;
     c_line := c_line cx |}.

(** samp.c 469-487 [addTagStrToBucket], 503-541 [processTags]: [cur] is str (None = NULL).
    Result: tags in order and what is behind the ':'; None = no ':' found. *)
Fixpoint processTags (u : text) (cur : option text) (bucket : option (list json))
  : er (option (option (list json) * text)) :=
  let add s b := Some ((match b with Some l => l | None => [] end) ++ [JStr (drop_nul s)]) in
  match u with
  | [] => EOk None
  | c :: u' =>
      if ceq c ":" then
        EOk (Some (match cur with Some s => add s bucket | None => bucket end, u'))
      else if ceq c "," then
        match cur with
        | None => EUb NullDeref                      (* es_str2cstr(NULL) *)
        | Some s => processTags u' None (add s bucket)
        end
      else processTags u' (Some ((match cur with Some s => s | None => [] end) ++ [c])) bucket
  end.

(** samp.c 556-581 [processRule]; [u] is the line behind "rule=". *)
Definition processRule (cx : ctx) (u : text) : er ctx :=
  do* r := processTags u None None in
  match r with
  | None => EOk cx
  | Some (_, []) => EOk cx
  | Some (tags, sample) =>
      let rule := (match c_prefix cx with Some p => p | None => [] end) ++ sample in
      addSampToTree cx rule (c_root cx) (option_map JArr tags)
  end.

(** samp.c 584-618 [getTypeName]: name and what is behind the ':'. *)
Definition getTypeName (u : text) : option (text * text) :=
  let n := scan (fun c => negb (ceq c ":")) u in
  let nm := firstn n u in
  if (ceq (lrd u 0) "@" && negb (existsb isspace nm) && Nat.ltb n (List.length u)
      && N.ltb (N.of_nat n) 1024)%bool
  then Some (cstr nm, skipn (S n) u) else None.

(** samp.c 626-660 [processType] with pdag.c 136-170 [ln_pdagFindType] (bAdd = 1). *)
Definition processType (cx : ctx) (u : text) : er ctx :=
  match getTypeName u with
  | None | Some (_, []) => EOk cx
  | Some (nm, sample) =>
      let '(cx, nd) :=
        match findType (c_types cx) nm 0 with
        | Some i => (cx, match nth_error (c_types cx) i with Some (_, d) => d | None => 0 end)
        | None => let '(cx', d) := newPDAG cx in (set_types cx' (c_types cx' ++ [(nm, d)]), d)
        end in
      addSampToTree cx sample nd None
  end.

Definition isFieldNameChar (c : ascii) : bool := (isalnum c || ceq c "_" || ceq c ".")%bool.
Definition opt_text (t : text) : option text := match t with [] => None | _ => Some t end.

(** samp.c 725-783 [getAnnotationOp]. [u] is the line from offs on. *)
Inductive aopres := AFail | AStay | AOps (op : option aop) (rest : text).
Definition getAnnotationOp (u : text) : aopres :=
  let v := skipn (scan isspace u) u in
  match v with
  | [] => AStay                                       (* 736-739: *offs is NOT advanced *)
  | c :: v =>
      if ceq c "#" then AOps None []
      else if negb (ceq c "+") then AFail
      else match v with
           | [] => AFail
           | _ =>
               let n := scan isFieldNameChar v in
               let name := firstn n v in
               match skipn n v with
               | [] => AFail
               | c :: w =>
                   if negb (ceq c "=") then AFail else
                   let w := skipn (scan isspace w) w in
                   match w with
                   | q :: w =>
                       if negb (ceq q """") then AFail else
                       let k := scan (fun c => negb (ceq c """")) w in
                       AOps (Some (AopAdd (opt_text name) (opt_text (firstn k w)))) (skipn (S k) w)
                   | [] => AFail
                   end
               end
           end
  end.

(** samp.c 814-816: [while(offs < lenBuf) getAnnotationOp(..)]; None = error. *)
Fixpoint annot_loop (fuel : nat) (u : text) (ops : list aop) : er (option (list aop)) :=
  match fuel with
  | O => EUb OutOfFuel
  | S f =>
      match u with
      | [] => EOk (Some ops)
      | _ => match getAnnotationOp u with
             | AFail => EOk None
             | AStay => annot_loop f u ops            (* nothing changes: loops forever *)
             | AOps None rest => annot_loop f rest ops
             | AOps (Some op) rest => annot_loop f rest (addAnnotOp ops op)
             end
      end
  end.

(** samp.c 795-821 [processAnnotate] *)
Definition processAnnotate (fuel : nat) (cx : ctx) (u : text) : er ctx :=
  let n := scan isFieldNameChar u in
  let tag := firstn n u in
  let v := skipn n u in
  let v := skipn (scan isspace v) v in
  match v, tag with
  | c :: v, _ :: _ =>
      if negb (ceq c ":") then EOk cx
      else do* r := annot_loop fuel v [] in
           match r with
           | None => EOk cx
           | Some ops => EOk (set_annots cx (addAnnotToSet (c_annots cx) (tag, ops)))
           end
  | _, _ => EOk cx
  end.

(** samp.c 401-418 [getLineType]: None when nothing stands before the '='. *)
Definition getLineType (line : text) : option (text * text) :=
  let n := scan (fun c => negb (ceq c "=")) line in
  match firstn n line with
  | [] => None
  | ty => Some (ty, skipn (S n) line)
  end.

(** samp.c 836-844: every white space byte but the one at index 0 becomes a NUL. *)
Definition include_name (u : text) : er text :=
  match cstr u with
  | [] => EUb OobRead
  | c :: t => EOk (cstr (c :: map (fun c => if isspace c then NUL else c) t))
  end.

Section Line.
(** [load cx file]: ln_loadSamples for an included file; [true] = return code 0. *)
Variable load : ctx -> text -> er (ctx * bool).
Variable afuel : nat.

(** samp.c 863-905 [ln_processSamp]: [true] = return code 0. *)
Definition processSamp (cx : ctx) (line : text) : er (ctx * bool) :=
  match getLineType line with
  | None => EOk (cx, true)
  | Some (ty, u) =>
      if text_eqb ty (L "prefix") then EOk (set_prefix cx (Some u), true)
      else if text_eqb ty (L "extendprefix") then
        match c_prefix cx with
        | None => EUb NullDeref                       (* es_addBuf on a NULL string *)
        | Some p => EOk (set_prefix cx (Some (p ++ u)), true)
        end
      else if text_eqb ty (L "rule") then do* cx := processRule cx u in EOk (cx, true)
      else if text_eqb ty (L "type") then do* cx := processType cx u in EOk (cx, true)
      else if text_eqb ty (L "annotate") then
        do* cx := processAnnotate afuel cx u in EOk (cx, true)
      else if text_eqb ty (L "include") then
        (* samp.c 830-857 [processInclude] *)
        do* f := include_name u in
        do* (cx', ok) := load cx f in
        EOk (set_pos cx' (c_file cx) (c_line cx), ok)
      else EOk (cx, true)
  end.
End Line.

(** ** Reading lines *)

(** samp.c 924-933 [ln_sampSkipCommentLine]: what is behind the line feed. *)
Fixpoint skip_line (inp : text) : text :=
  match inp with
  | [] => []
  | c :: inp' => if ceq c (chr 10) then inp' else skip_line inp'
  end.

(** samp.c 941-984 [ln_sampChkRunawayRule] (file input). *)
Fixpoint runaway (fuel : nat) (inp : text) : bool :=
  match fuel with
  | O => false
  | S f =>
      match inp with
      | [] => false
      | c :: inp' =>
          if ceq c (chr 10) then runaway f inp'
          else if ceq c "#" then runaway f (skip_line inp)
          else if Nat.ltb (List.length inp) 5 then true     (* 966: r is still 1 *)
          else text_eqb (firstn 5 inp) (L "rule=")
      end
  end.

(** samp.c 912-921 [ln_sampReadChar] for string input: a byte 0xFF is EOF where char is
    signed. *)
Definition is_eof_char (isfile : bool) (c : ascii) : bool :=
  (negb isfile && char_signed e && ceq c (chr 255))%bool.

(** Result of reading one line. *)
Inductive rdline :=
| RLine (line : text) (inp : text) (eof : bool) (ln : N)
| RNone (inp : text) (ln : N).       (* EOF with an empty buffer, isEof = 1 *)
Inductive rdres := RR (r : rdline) | RTooLong (inp : text) (ln : N) | RFuel.

(** samp.c 1001-1062 [ln_sampRead] up to the call of ln_processSamp. [buf] is the line so
    far, reversed; [cnt] its length. *)
Fixpoint sampRead (fuel : nat) (isfile : bool) (inp : text) (buf : text) (cnt : N)
  (inParser : bool) (ln : N) : rdres :=
  match fuel with
  | O => RFuel
  | S f =>
      let at_eof inp := match buf with
                    | [] => RR (RNone inp ln)
                    | _ => RR (RLine (rev buf) inp true ln)
                    end in
      match inp with
      | [] => at_eof []
      | c :: inp' =>
          if is_eof_char isfile c then at_eof inp'
          else if ceq c (chr 10) then
            let ln := ((ln + 1) mod 2 ^ 32)%N in
            let ra := (inParser && isfile && runaway (S (List.length inp')) inp')%bool in
            let inParser := (inParser && negb ra)%bool in
            let buf := if ra then [] else buf in
            let cnt := if ra then 0%N else cnt in
            match buf with
            | [] => sampRead f isfile inp' buf cnt inParser ln
            | _ => if inParser then sampRead f isfile inp' buf cnt inParser ln
                   else RR (RLine (rev buf) inp' false ln)
            end
          else if (ceq c "#" && match buf with [] => true | _ => false end)%bool then
            sampRead f isfile (skip_line inp') [] 0 inParser ((ln + 1) mod 2 ^ 32)
          else
            let inParser := if ceq c "%" then negb inParser else inParser in
            if N.leb (64 * 1024) (cnt + 1) then RTooLong inp' ln
            else sampRead f isfile inp' (c :: buf) (cnt + 1) inParser ln
      end
  end.

(** The loop [while(!isEof) ln_sampRead(..)] of ln_sampLoad and ln_sampLoadFromString. *)
Fixpoint load_lines (load : ctx -> text -> er (ctx * bool)) (afuel fuel : nat) (isfile : bool)
  (cx : ctx) (inp : text) : er (ctx * bool) :=
  match fuel with
  | O => EUb OutOfFuel
  | S f =>
      match sampRead (S (S (List.length inp))) isfile inp [] 0 false (c_line cx) with
      | RFuel => EUb OutOfFuel
      | RTooLong inp' ln => load_lines load afuel f isfile (set_pos cx (c_file cx) ln) inp'
      | RR (RNone _ ln) => EOk (set_pos cx (c_file cx) ln, true)
      | RR (RLine line inp' eof ln) =>
          do* (cx, ok) := processSamp load afuel (set_pos cx (c_file cx) ln) line in
          if negb ok then EOk (cx, false)
          else if eof then EOk (cx, true)
          else load_lines load afuel f isfile cx inp'
      end
  end.

Variable qsort : list prs -> list prs.

(** samp.c 1066-1079 [checkVersion]: the first line, at most 63 bytes (fgets). *)
Definition version2 : text := L "version=2" ++ [chr 10].

(** liblognorm.c 160-174 [ln_loadSamples] and samp.c 1137-1180 [ln_sampLoad];
    [level] is include_level after the increment; [fuel] bounds include nesting and lines. *)
Fixpoint loadSamples (fuel : nat) (level : nat) (cx : ctx) (file : text) : er (ctx * bool) :=
  match fuel with
  | O => EUb OutOfFuel
  | S f =>
      let cx := set_pos cx file 0 in
      match files e file with
      | None => EOk (cx, false)
      | Some [] => EOk (cx, false)                        (* fgets returns NULL *)
      | Some content =>
          let is2 := text_eqb (firstn 10 content) version2 in
          let version := if is2 then 2%N else 1%N in
          if (negb (N.eqb (c_version cx) 0) && negb (N.eqb version (c_version cx)))%bool
          then EOk (cx, false)
          else if negb is2 then EUb V1Engine
          else
            let cx := set_pos (set_version cx 2) file 1 in
            do* (cx, ok) := load_lines (loadSamples f (S level)) f (S (List.length content)) true cx
                                       (skipn 10 content) in
            if negb ok then EOk (cx, false)
            else if Nat.eqb level 1 then do* cx := optimize qsort cx in EOk (cx, true)
            else EOk (cx, true)
      end
  end.

(** liblognorm.c 176-190 [ln_loadSamplesFromString], samp.c 1183-1205
    [ln_sampLoadFromString]. *)
Definition loadString (fuel : nat) (cx : ctx) (s : text) : er (ctx * bool) :=
  let s := cstr s in
  let cx := set_pos (set_version cx 2) (L "--NO-FILE--") 0 in
  do* (cx, ok) := load_lines (loadSamples fuel 2) fuel (S (List.length s)) false cx s in
  if negb ok then EOk (cx, false)
  else do* cx := optimize qsort cx in EOk (cx, true).

(** Top-level ln_loadSamples. *)
Definition loadFile (fuel : nat) (cx : ctx) (file : text) : er (ctx * bool) :=
  loadSamples fuel 1 cx file.

End Samp.
