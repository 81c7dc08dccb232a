(** * Pdag: building, optimizing and deleting the parse DAG, /repo/src/pdag.c 106-530,
      800-1000, and the field constructors of /repo/src/parser.c. *)
From Verif Require Import Base Time Parsers Engine.

(** strcasecmp(a, b) == 0 *)
Definition caseeq (a b : text) : bool := text_eqb (map tolower a) (map tolower b).

(** Structural equality of configurations. The code compares the printed forms
    (pdag.c 857-858); libfastjson prints equal values equally and different ones
    differently. *)
Fixpoint json_eqb (a b : json) {struct a} : bool :=
  match a, b with
  | JNull, JNull => true
  | JBool x, JBool y => Bool.eqb x y
  | JInt x, JInt y => Z.eqb x y
  | JDouble x, JDouble y => text_eqb x y
  | JStr x, JStr y => text_eqb x y
  | JArr l, JArr m =>
      (fix go l m := match l, m with
                     | [], [] => true
                     | x :: l', y :: m' => (json_eqb x y && go l' m')%bool
                     | _, _ => false
                     end) l m
  | JObj l, JObj m =>
      (fix go l m := match l, m with
                     | [], [] => true
                     | (k, x) :: l', (k', y) :: m' => (text_eqb k k' && json_eqb x y && go l' m')%bool
                     | _, _ => false
                     end) l m
  | _, _ => false
  end.

(** json_object_object_get_ex: [None] = no such member (or not an object). *)
Definition jget (j : json) (k : string) : option json :=
  match j with JObj l => obj_get l (L k) | _ => None end.

(** ** Heap of nodes *)

(** pdag.c 281-293 [ln_newPDAG] *)
Definition new_node : node :=
  {| n_parsers := []; n_term := false; n_tags := None; n_refcnt := 1; n_file := None;
     n_line := 0; n_called := 0; n_backtracked := 0 |}.

Definition newPDAG (cx : ctx) : ctx * nat :=
  (set_nodes cx (c_nodes cx ++ [Some new_node]), List.length (c_nodes cx)).

Definition set_parsers (n : node) (ps : list prs) : node :=
  {| n_parsers := ps; n_term := n_term n; n_tags := n_tags n; n_refcnt := n_refcnt n;
     n_file := n_file n; n_line := n_line n; n_called := n_called n; n_backtracked := n_backtracked n |}.
Definition set_refcnt (n : node) (r : Z) : node :=
  {| n_parsers := n_parsers n; n_term := n_term n; n_tags := n_tags n; n_refcnt := r;
     n_file := n_file n; n_line := n_line n; n_called := n_called n; n_backtracked := n_backtracked n |}.
Definition set_term (n : node) : node :=
  {| n_parsers := n_parsers n; n_term := true; n_tags := n_tags n; n_refcnt := n_refcnt n;
     n_file := n_file n; n_line := n_line n; n_called := n_called n; n_backtracked := n_backtracked n |}.

Definition free_nth (h : list (option node)) (i : nat) : list (option node) :=
  upd_nth h i (fun _ => None).
(** free(): freeing what is not allocated (double free) is reported like a use after free. *)
Definition free_node (h : list (option node)) (i : nat) : er (list (option node)) :=
  do* _ := get_node h i in EOk (free_nth h i).

(** pdag.c 299-331 [pdagDeletePrs] and [ln_pdagDelete], with parser.c 3343-3351
    [ln_destructRepeat]. *)
Fixpoint pdagDelete (fuel : nat) (h : list (option node)) (i : nat) : er (list (option node)) :=
  match fuel with
  | O => EUb OutOfFuel
  | S f =>
      do* n := get_node h i in
      let r := (n_refcnt n - 1)%Z in
      let h := upd_node h i (fun n => set_refcnt n r) in
      if Z.ltb 0 r then EOk h
      else
        do* h := (fix del (ps : list prs) (h : list (option node)) : er (list (option node)) :=
                    match ps with
                    | [] => EOk h
                    | p :: ps' =>
                        do* h := pdagDelete f h (p_child p) in
                        do* h := match p_kind p with
                                 | KRepeat a b _ => do* h := pdagDelete f h a in pdagDelete f h b
                                 | _ => EOk h
                                 end in
                        del ps' h
                    end) (n_parsers n) h in
        free_node h i
  end.

(** Every call is given fuel for a walk over the whole heap. *)
Definition heap_fuel (h : list (option node)) : nat := S (List.length h).

(** ** Field constructors *)

Section Construct.
Variable e : env.

(** [strcmp]/[strdup] of json_object_get_string(val): NULL crashes. *)
Definition need_str (v : json) : er text :=
  match jstring e v with Some s => EOk s | None => EUb NullDeref end.

(** json_object_get_int64 *)
Definition get_int64 (v : json) : Z :=
  match v with
  | JInt z => z
  | JBool b => if b then 1%Z else 0%Z
  | JNull => 0%Z
  | _ => json_num e v
  end.

(** The common loop of the constructors with a "format" (and a "maxval") parameter:
    parser.c 442-480, 731-768 (dates), 829-871 (number), 942-977 (float), 1039-1081
    (hexnumber). [fmtof] maps the accepted format names. *)
Fixpoint fmt_conf (fmtof : text -> option fmt) (usemax : bool) (l : fields) (f : fmt) (mx : Z)
  : er (fmt * Z) :=
  match l with
  | [] => EOk (f, mx)
  | (k, v) :: l' =>
      if (usemax && text_eqb k (L "maxval"))%bool then fmt_conf fmtof usemax l' f (get_int64 v)
      else if text_eqb k (L "format") then
        do* s := need_str v in
        fmt_conf fmtof usemax l' (match fmtof s with Some f' => f' | None => f end) mx
      else if text_eqb k (L "name") then
        do* _ := need_str v in fmt_conf fmtof usemax l' f mx
      else fmt_conf fmtof usemax l' f mx
  end.

Definition fmt_num (s : text) : option fmt :=
  if text_eqb s (L "number") then Some FmtNumber
  else if text_eqb s (L "string") then Some FmtString else None.
Definition fmt_date (s : text) : option fmt :=
  if text_eqb s (L "timestamp-unix") then Some FmtTsUx
  else if text_eqb s (L "timestamp-unix-ms") then Some FmtTsUxMs
  else if text_eqb s (L "string") then Some FmtString else None.

(** parser.c 1266-1284, 1376-1395, 1548-1567: types that need "extradata". *)
Definition extradata (typ : string) (l : fields) (mk : text -> motif) : er motif :=
  match obj_get l (L "extradata") with
  | None => EOk (MNoData (L typ))
  | Some v => do* s := need_str v in EOk (mk s)
  end.

(** json_object_get_string_len == 1: a string of one byte (non-strings have length 0). *)
Definition one_char (v : json) : option ascii :=
  match v with JStr [c] => Some c | _ => None end.

(** parser.c 2639-2690 [ln_constructNameValue]: None = failure. *)
Definition nv_conf (l : fields) : option (ascii * ascii) :=
  let step (k : string) (cur : option ascii) : option (option ascii) :=
    match obj_get l (L k) with
    | None => Some cur
    | Some v => match one_char v with Some c => Some (Some c) | None => None end
    end in
  match step "extradata"%string None with
  | None => None
  | Some s =>
      match step "separator"%string s with
      | None => None
      | Some s =>
          match step "assignator"%string None with
          | None => None
          | Some a => Some (match s with Some c => c | None => NUL end,
                            match a with Some c => c | None => NUL end)
          end
      end
  end.

(** parser.c 3143-3170 [ln_constructCheckpointLEA]; a bad terminator ends the loop. *)
Fixpoint lea_conf (l : fields) (t : ascii) : er ascii :=
  match l with
  | [] => EOk t
  | (k, v) :: l' =>
      if text_eqb k (L "terminator") then
        do* s := need_str v in
        match s with [c] => lea_conf l' c | _ => EOk t end
      else lea_conf l' t
  end.

(** parser.c 3390-3399 [stringAddPermittedCharArr] (3372-3381 [stringSetPermittedChar]:
    [perm_chars[(unsigned)c]] with a negative char is far outside the table). *)
Definition add_perm (p : text) (s : text) : er text :=
  if (char_signed e && existsb (fun c => N.leb 128 (code c)) s)%bool then EUb OobWrite
  else EOk (p ++ s).

(** all bytes from [lo], [n] of them: parser.c 3400-3409 [stringAddPermittedFromTo] *)
Fixpoint chars_from (lo : N) (n : nat) : text :=
  match n with O => [] | S n' => chr lo :: chars_from (lo + 1) n' end.

(** parser.c 3429-3444: character classes *)
Definition class_chars (s : text) : text :=
  if caseeq s (L "digit") then L "0123456789"
  else if caseeq s (L "hexdigit") then L "0123456789aAbBcCdDeEfF"
  else if caseeq s (L "alpha") then chars_from 97 26 ++ chars_from 65 26
  else if caseeq s (L "alnum") then L "0123456789" ++ chars_from 97 26 ++ chars_from 65 26
  else [].

Fixpoint perm_members (l : fields) (p : text) : er text :=
  match l with
  | [] => EOk p
  | (k, v) :: l' =>
      do* p := if caseeq k (L "chars") then
                 match jstring e v with None => EOk p | Some s => add_perm p s end
               else if caseeq k (L "class") then
                 do* s := need_str v in add_perm p (class_chars s)
               else EOk p in
      perm_members l' p
  end.

(** parser.c 3419-3451 [stringAddPermittedCharsViaArray]; elements that are no objects are
    reported as an invalid read (json_object_iter_begin on them). *)
Fixpoint perm_array (l : list json) (p : text) : er text :=
  match l with
  | [] => EOk p
  | JObj m :: l' => do* p := perm_members m p in perm_array l' p
  | _ :: _ => EUb UninitRead
  end.

(** parser.c 3573-3676 [ln_constructString]; None = failure (LN_BADCONFIG). *)
Fixpoint string_conf (l : fields) (c : strcfg) : er (option strcfg) :=
  match l with
  | [] => EOk (Some c)
  | (k, v) :: l' =>
      if caseeq k (L "quoting.mode") then
        do* s := need_str v in
        let set q := {| s_quote := q; s_escbs := s_escbs c; s_escdbl := s_escdbl c; s_exact := s_exact c;
                        s_qb := s_qb c; s_qe := s_qe c; s_perm := s_perm c |} in
        if caseeq s (L "auto") then string_conf l' (set QAuto)
        else if caseeq s (L "none") then string_conf l' (set QNone)
        else if caseeq s (L "required") then string_conf l' (set QReqd)
        else EOk None
      else if caseeq k (L "quoting.escape.mode") then
        do* s := need_str v in
        let set a b := {| s_quote := s_quote c; s_escbs := a; s_escdbl := b; s_exact := s_exact c;
                          s_qb := s_qb c; s_qe := s_qe c; s_perm := s_perm c |} in
        if caseeq s (L "none") then string_conf l' (set false false)
        else if caseeq s (L "backslash") then string_conf l' (set true false)
        else if caseeq s (L "double") then string_conf l' (set false true)
        else if caseeq s (L "both") then string_conf l' (set true true)
        else EOk None
      else if caseeq k (L "quoting.char.begin") then
        do* s := need_str v in
        match s with
        | [q] => string_conf l' {| s_quote := s_quote c; s_escbs := s_escbs c; s_escdbl := s_escdbl c;
                                   s_exact := s_exact c; s_qb := q; s_qe := s_qe c; s_perm := s_perm c |}
        | _ => EOk None
        end
      else if caseeq k (L "quoting.char.end") then
        do* s := need_str v in
        match s with
        | [q] => string_conf l' {| s_quote := s_quote c; s_escbs := s_escbs c; s_escdbl := s_escdbl c;
                                   s_exact := s_exact c; s_qb := s_qb c; s_qe := q; s_perm := s_perm c |}
        | _ => EOk None
        end
      else if caseeq k (L "matching.permitted") then
        do* p := match v with
                 | JStr s => add_perm [] (cstr s)
                 | JArr a => perm_array a []
                 | _ => EOk []
                 end in
        string_conf l' {| s_quote := s_quote c; s_escbs := s_escbs c; s_escdbl := s_escdbl c;
                          s_exact := s_exact c; s_qb := s_qb c; s_qe := s_qe c; s_perm := Some p |}
      else if caseeq k (L "matching.mode") then
        do* s := need_str v in
        let set x := {| s_quote := s_quote c; s_escbs := s_escbs c; s_escdbl := s_escdbl c; s_exact := x;
                        s_qb := s_qb c; s_qe := s_qe c; s_perm := s_perm c |} in
        if caseeq s (L "strict") then string_conf l' (set true)
        else if caseeq s (L "lazy") then string_conf l' (set false)
        else EOk None
      else string_conf l' c
  end.

Definition strcfg0 : strcfg :=
  {| s_quote := QAuto; s_escbs := true; s_escdbl := true; s_exact := true;
     s_qb := """"%char; s_qe := """"%char; s_perm := None |}.

Definition construct_string (l : fields) : er motif :=
  do* c := string_conf l strcfg0 in
  match c with
  | None => EOk (MNoData (L "string"))
  | Some c => EOk (MString (match s_quote c with
                            | QNone => {| s_quote := QNone; s_escbs := false; s_escdbl := false;
                                          s_exact := s_exact c; s_qb := s_qb c; s_qe := s_qe c;
                                          s_perm := s_perm c |}
                            | _ => c end))
  end.

(** parser.c 3184-3210 [chkNoDupeDotInParserDefs] *)
Definition is_dot (j : json) : er nat :=
  match jget j "name" with
  | None | Some JNull => EOk 0
  | Some v => do* s := need_str v in EOk (if text_eqb s (L ".") then 1 else 0)
  end.
Fixpoint count_dots (l : list json) : er nat :=
  match l with
  | [] => EOk 0
  | j :: l' => do* a := is_dot j in do* b := count_dots l' in EOk (a + b)
  end.
Definition chkNoDupeDot (v : json) : er bool :=
  match v with
  | JArr l => do* d := count_dots l in
              EOk (negb (Nat.ltb 1 (List.length l) && Nat.ltb 0 d))
  | _ => EOk true
  end.

(** ** Types without inner graphs: table entry (pdag.c 70-103), constructor, priority.
    [None] = unknown type name (repeat is handled in [newParser]). *)
Definition simple_type (typ : text) (l : fields) : option (Z * er motif) :=
  if text_eqb typ (L "literal") then
    Some (4%Z, match obj_get l (L "text") with   (* parser.c 1460-1481 *)
               | None => EOk (MNoData (L "literal"))
               | Some v => do* s := need_str v in EOk (MLiteral s)
               end)
  else if text_eqb typ (L "date-rfc3164") then
    Some (8%Z, do* (f, _) := fmt_conf fmt_date false l FmtString 0 in EOk (MRFC3164 f))
  else if text_eqb typ (L "date-rfc5424") then
    Some (8%Z, do* (f, _) := fmt_conf fmt_date false l FmtString 0 in EOk (MRFC5424 f))
  else if text_eqb typ (L "number") then
    Some (16%Z, do* (f, m) := fmt_conf fmt_num true l FmtString 0 in EOk (MNumber f m))
  else if text_eqb typ (L "float") then
    Some (16%Z, do* (f, _) := fmt_conf fmt_num false l FmtString 0 in EOk (MFloat f))
  else if text_eqb typ (L "hexnumber") then
    Some (16%Z, do* (f, m) := fmt_conf fmt_num true l FmtString 0 in
                EOk (MHex f (m mod 2 ^ 64)%Z))  (* uint64_t maxval *)
  else if text_eqb typ (L "kernel-timestamp") then Some (16%Z, EOk MKernelTs)
  else if text_eqb typ (L "whitespace") then Some (4%Z, EOk MWhitespace)
  else if text_eqb typ (L "ipv4") then Some (4%Z, EOk MIPv4)
  else if text_eqb typ (L "ipv6") then Some (4%Z, EOk MIPv6)
  else if text_eqb typ (L "word") then Some (32%Z, EOk MWord)
  else if text_eqb typ (L "alpha") then Some (32%Z, EOk MAlpha)
  else if text_eqb typ (L "rest") then Some (255%Z, EOk MRest)
  else if text_eqb typ (L "op-quoted-string") then Some (64%Z, EOk MOpQuoted)
  else if text_eqb typ (L "quoted-string") then Some (64%Z, EOk MQuoted)
  else if text_eqb typ (L "date-iso") then Some (8%Z, EOk MISODate)
  else if text_eqb typ (L "time-24hr") then Some (8%Z, EOk MTime24)
  else if text_eqb typ (L "time-12hr") then Some (8%Z, EOk MTime12)
  else if text_eqb typ (L "duration") then Some (16%Z, EOk MDuration)
  else if text_eqb typ (L "cisco-interface-spec") then Some (4%Z, EOk MCisco)
  else if text_eqb typ (L "json") then Some (4%Z, EOk MJson)
  else if text_eqb typ (L "cee-syslog") then Some (4%Z, EOk MCee)
  else if text_eqb typ (L "mac48") then Some (16%Z, EOk MMac48)
  else if text_eqb typ (L "cef") then Some (4%Z, EOk MCEF)
  else if text_eqb typ (L "v2-iptables") then Some (4%Z, EOk MIptables)
  else if text_eqb typ (L "name-value-list") then
    Some (8%Z, EOk (match nv_conf l with
                    | Some (s, a) => MNVList s a
                    | None => MNoData (L "name-value-list") end))
  else if text_eqb typ (L "checkpoint-lea") then
    Some (4%Z, do* t := lea_conf l NUL in EOk (MLEA t))
  else if text_eqb typ (L "string-to") then Some (32%Z, extradata "string-to" l MStringTo)
  else if text_eqb typ (L "char-to") then Some (32%Z, extradata "char-to" l MCharTo)
  else if text_eqb typ (L "char-sep") then Some (32%Z, extradata "char-sep" l MCharSep)
  else if text_eqb typ (L "string") then Some (32%Z, construct_string l)
  else None.

(** ** Adding parsers *)

(** pdag.c 136-150 [ln_pdagFindType] without adding: index of the type. *)
Fixpoint findType (ts : list (text * nat)) (name : text) (i : nat) : option nat :=
  match ts with
  | [] => None
  | (n, _) :: ts' => if text_eqb n name then Some i else findType ts' name (S i)
  end.

(** pdag.c 228-230: json_object_get_int clamps to int. *)
Definition get_int (v : json) : Z :=
  Z.max (- 2 ^ 31) (Z.min (2 ^ 31 - 1) (get_int64 v)).

(** pdag.c 250: [((assignedPrio << 8) & 0xffffff00) | (parserPrio & 0xff)] as int (the
    shift wraps as every compiler does it; table priorities are 0..255). *)
Definition mk_prio (assigned prio : Z) : Z := wrap 32 (assigned * 256 + prio).

Definition kind_prsid_eq (a b : kind) : bool := text_eqb (parserName a) (parserName b).

(** Modes of pdag.c 897-898. *)
Inductive amode := Seq | Alt.

(** Result of the adding functions: new context and, unless the return code is not 0,
    the new [*pdag] and [*nextnode] ([None] inside = NULL). *)
Definition ares := er (ctx * option (option nat * option nat)).

Section AddParser.
(** [addp cx dag conf]: [ln_pdagAddParser] for the inner graphs of repeat; the result is the
    end node. *)
Variable addp : ctx -> nat -> json -> er (ctx * option (option nat)).

(** parser.c 3296-3342 [ln_constructRepeat]: loop over the members; [pn], [wn] are
    data->parser and data->while_cond. [false] = CHKR/BADCONFIG jumped to done. *)
Fixpoint repeat_conf (l : fields) (pn wn : option nat) (permit : bool) (cx : ctx)
  : er (ctx * option nat * option nat * bool) :=
  match l with
  | [] => EOk (cx, pn, wn, permit)
  | (k, v) :: l' =>
      let inner cx' n (cont : ctx -> er (ctx * option nat * option nat * bool))
                (stop : ctx -> er (ctx * option nat * option nat * bool)) :=
        do* (cx', en) := addp cx' n v in
        match en with
        | None => stop cx'
        | Some None => EUb NullDeref
        | Some (Some en) => cont (set_nodes cx' (upd_node (c_nodes cx') en set_term))
        end in
      if text_eqb k (L "parser") then
        do* good := chkNoDupeDot v in
        if negb good then EOk (cx, pn, wn, permit)
        else let '(cx, n) := newPDAG cx in
             inner cx n (repeat_conf l' (Some n) wn permit) (fun cx' => EOk (cx', Some n, wn, permit))
      else if text_eqb k (L "while") then
        let '(cx, n) := newPDAG cx in
        inner cx n (repeat_conf l' pn (Some n) permit) (fun cx' => EOk (cx', pn, Some n, permit))
      else if caseeq k (L "option.permitMismatchInParser") then
        repeat_conf l' pn wn (match v with
                              | JBool b => b
                              | JInt z => negb (Z.eqb z 0)
                              | JStr s => negb (Nat.eqb (List.length s) 0)
                              | _ => false end) cx
      else repeat_conf l' pn wn permit cx
  end.

Definition construct_repeat (l : fields) (cx : ctx) : er (ctx * kind) :=
  do* (cx, pn, wn, permit) := repeat_conf l None None false cx in
  match pn, wn with
  | Some p, Some w => EOk (cx, KRepeat p w permit)
  | _, _ => (* 3335: the half-built data is destructed, parser_data stays NULL *)
      let del (h : list (option node)) o :=
        match o with None => EOk h | Some n => pdagDelete (heap_fuel h) h n end in
      do* h := del (c_nodes cx) pn in
      do* h := del h wn in
      EOk (set_nodes cx h, KSimple (MNoData (L "repeat")))
  end.

(** pdag.c 198-279 [ln_newParser]; the child is filled in by the caller. None = NULL. *)
Definition newParser (cx : ctx) (conf : json) : er (ctx * option prs) :=
  match jget conf "type" with
  | None | Some JNull => EOk (cx, None)
  | Some tv =>
      do* typ := need_str tv in
      let custom := match typ with c :: _ => ceq c "@" | [] => false end in
      let cust := if custom then findType (c_types cx) typ 0 else None in
      let known := if custom then match cust with Some _ => true | None => false end
                   else text_eqb typ (L "repeat") || match simple_type typ [] with Some _ => true | None => false end in
      if negb known then EOk (cx, None)
      else
        do* name := match jget conf "name" with
                    | None | Some JNull => EOk None
                    | Some v => do* s := need_str v in
                                EOk (if text_eqb s (L "-") then None else Some s)
                    end in
        let assigned := match jget conf "priority" with
                        | None | Some JNull => 30000%Z | Some v => get_int v end in
        let rest := match conf with JObj l => l | _ => [] end in
        let rest := obj_del (obj_del rest (L "type")) (L "priority") in
        let rest := match name with Some _ => obj_del rest (L "name") | None => rest end in
        do* (cx, k, prio) :=
          match cust with
          | Some ti => EOk (cx, KCustom ti, 16%Z)
          | None =>
              if text_eqb typ (L "repeat") then
                do* (cx, k) := construct_repeat rest cx in EOk (cx, k, 4%Z)
              else match simple_type typ rest with
                   | Some (prio, m) => do* m := m in EOk (cx, KSimple m, prio)
                   | None => EUb NullDeref   (* excluded by [known] *)
                   end
          end in
        EOk (cx, Some {| p_kind := k; p_name := name; p_conf := conf;
                         p_prio := mk_prio assigned prio; p_child := 0 |})
  end.

(** pdag.c 851-870: search for an identical parser. *)
Fixpoint find_same (ps : list prs) (k : kind) (conf : json) : option nat :=
  match ps with
  | [] => None
  | p :: ps' => if (kind_prsid_eq (p_kind p) k && json_eqb (p_conf p) conf)%bool
                then Some (p_child p) else find_same ps' k conf
  end.

(** nparsers is a uint8_t (pdag.h 39, 108): the 256th parser makes it 0. *)
Definition push_parser (ps : list prs) (p : prs) : list prs :=
  if Nat.eqb (List.length ps) 255 then [] else ps ++ [p].

(** pdag.c 836-887 [ln_pdagAddParserInstance]; [dag = None] is NULL. Result as [ares]
    without the pdag part. *)
Definition addInstance (cx : ctx) (conf : json) (dag : option nat) (next : option nat)
  : er (ctx * option nat) :=
  do* (cx, op) := newParser cx conf in
  match op with
  | None => EOk (cx, None)
  | Some p =>
      match dag with
      | None => EUb NullDeref
      | Some d =>
          do* n := get_node (c_nodes cx) d in
          match find_same (n_parsers n) (p_kind p) conf with
          | Some child =>
              (* 868: pdagDeletePrs of the new parser: destructs its data *)
              do* h := match p_kind p with
                       | KRepeat a b _ =>
                           do* h := pdagDelete (heap_fuel (c_nodes cx)) (c_nodes cx) a in
                           pdagDelete (heap_fuel h) h b
                       | _ => EOk (c_nodes cx)
                       end in
              EOk (set_nodes cx h, Some child)
          | None =>
              do* (cx, nn) :=
                match next with
                | None => let '(cx, nn) := newPDAG cx in EOk (cx, nn)
                | Some nn =>
                    do* m := get_node (c_nodes cx) nn in
                    EOk (set_nodes cx (upd_node (c_nodes cx) nn
                                         (fun m => set_refcnt m (n_refcnt m + 1))), nn)
                end in
              let p := {| p_kind := p_kind p; p_name := p_name p; p_conf := p_conf p;
                          p_prio := p_prio p; p_child := nn |} in
              EOk (set_nodes cx (upd_node (c_nodes cx) d
                                   (fun n => set_parsers n (push_parser (n_parsers n) p))), Some nn)
          end
      end
  end.

(** pdag.c 899-938 [ln_pdagAddParsers], the loop; [inner] is [ln_pdagAddParserInternal].
    [next] is the local nextnode, [pnext] is [*p_nextnode]. *)
Fixpoint addParsers_loop (inner : ctx -> amode -> option nat -> json -> option nat -> ares)
  (cx : ctx) (mode : amode) (l : list json) (dag next pnext : option nat) : ares :=
  match l with
  | [] => match mode with
          | Seq => EOk (cx, Some (dag, pnext))
          | Alt => EOk (cx, Some (next, pnext))
          end
  | j :: l' =>
      do* (cx, r) :=
        match j with
        | JArr _ =>
            do* (cx, r) := inner cx mode dag j next in
            EOk (cx, match r with
                     | None => None
                     | Some (ld, nx) => Some (match mode with Seq => ld | Alt => dag end, nx)
                     end)
        | _ => do* (cx, r) := addInstance cx j dag next in
               EOk (cx, match r with None => None | Some nx => Some (dag, Some nx) end)
        end in
      match r with
      | None => EOk (cx, None)
      | Some (dag, next) =>
          match mode with
          | Seq => addParsers_loop inner cx mode l' next None next
          | Alt => addParsers_loop inner cx mode l' dag next pnext
          end
      end
  end.

(** pdag.c 944-983 [ln_pdagAddParserInternal] *)
Definition addInternal_step (inner : ctx -> amode -> option nat -> json -> option nat -> ares)
  (cx : ctx) (mode : amode) (dag : option nat) (conf : json) (next : option nat) : ares :=
  match conf with
  | JObj l =>
      match jget conf "type" with
      | None | Some JNull => EUb NullDeref      (* strcmp(NULL, ..) *)
      | Some tv =>
          do* typ := need_str tv in
          if text_eqb typ (L "alternative") then
            match jget conf "parser" with
            | Some (JArr ps) => addParsers_loop inner cx Alt ps dag next next
            | _ => EOk (cx, None)
            end
          else
            do* (cx, r) := addInstance cx conf dag next in
            EOk (cx, match r with
                     | None => None
                     | Some nx => Some (match mode with Seq => Some nx | Alt => dag end, Some nx)
                     end)
      end
  | JArr l => addParsers_loop inner cx Seq l dag next next
  | _ => EOk (cx, None)
  end.
End AddParser.

(** The recursion (nested arrays, inner graphs of repeat), bounded by the nesting depth of
    the configuration. *)
Fixpoint addInternal (fuel : nat) (cx : ctx) (mode : amode) (dag : option nat) (conf : json)
  (next : option nat) : ares :=
  match fuel with
  | O => EUb OutOfFuel
  | S f =>
      addInternal_step
        (fun cx d j => do* (cx, r) := addInternal f cx Seq (Some d) j None in
                       EOk (cx, match r with None => None | Some (en, _) => Some en end))
        (addInternal f) cx mode dag conf next
  end.

Fixpoint jdepth (j : json) : nat :=
  match j with
  | JArr l => S (fold_right (fun x m => Nat.max (jdepth x) m) 0 l)
  | JObj l => S (fold_right (fun x m => Nat.max (jdepth (snd x)) m) 0 l)
  | _ => 0
  end.

(** pdag.c 989-996 [ln_pdagAddParser]: new context and the new [*pdag], or None. *)
Definition addParser (cx : ctx) (dag : nat) (conf : json) : er (ctx * option (option nat)) :=
  do* (cx, r) := addInternal (S (jdepth conf)) cx Seq (Some dag) conf None in
  EOk (cx, match r with None => None | Some (d, _) => Some d end).

End Construct.

(** ** Optimizer *)

Definition is_lit (p : prs) : bool := text_eqb (parserName (p_kind p)) (L "literal").
Definition unnamed (p : prs) : bool := match p_name p with None => true | Some _ => false end.

(** pdag.c 344-374 [optLitPathCompact] on a parser [p]; returns the changed heap and
    parser. The node taken out has reference count 1, so ln_pdagDelete frees it. *)
Fixpoint optLitPathCompact (fuel : nat) (h : list (option node)) (p : prs)
  : er (list (option node) * prs) :=
  match fuel with
  | O => EUb OutOfFuel
  | S f =>
      if negb (is_lit p && unnamed p) then EOk (h, p) else
      do* n := get_node h (p_child p) in
      if (n_term n || negb (Z.eqb (n_refcnt n) 1))%bool then EOk (h, p) else
      match n_parsers n with
      | [q] =>
          if negb (is_lit q && unnamed q) then EOk (h, p) else
          do* m := get_node h (p_child q) in
          if negb (Z.eqb (n_refcnt m) 1) then EOk (h, p) else
          match p_kind p, p_kind q with
          | KSimple (MLiteral a), KSimple (MLiteral b) =>
              optLitPathCompact f (free_nth h (p_child p))
                {| p_kind := KSimple (MLiteral (combineLiteral a b)); p_name := p_name p;
                   p_conf := p_conf p; p_prio := p_prio p; p_child := p_child q |}
          | _, _ => EUb NullDeref
          end
      | _ => EOk (h, p)
      end
  end.

(** pdag.c 378-384 [qsort_parserCmp]: [p1->prio - p2->prio] in int. *)
Definition parserCmp (p1 p2 : prs) : Z := wrap 32 (p_prio p1 - p_prio p2).

Section Optimize.
(** qsort(3): an arbitrary function on the parser table; what it is assumed to do is stated
    in the theorems. *)
Variable qsort : list prs -> list prs.

(** pdag.c 386-418 [ln_pdagComponentOptimize] *)
Fixpoint componentOptimize (fuel : nat) (h : list (option node)) (nd : nat)
  : er (list (option node)) :=
  match fuel with
  | O => EUb OutOfFuel
  | S f =>
      do* n := get_node h nd in
      let ps := if Nat.ltb 1 (List.length (n_parsers n)) then qsort (n_parsers n) else n_parsers n in
      let h := upd_node h nd (fun n => set_parsers n ps) in
      (fix go (done todo : list prs) (h : list (option node)) : er (list (option node)) :=
         match todo with
         | [] => EOk h
         | p :: todo' =>
             do* (h, p') := optLitPathCompact (heap_fuel h) h p in
             let h := upd_node h nd (fun n => set_parsers n (done ++ p' :: todo')) in
             do* h := componentOptimize f h (p_child p') in
             go (done ++ [p']) todo' h
         end) [] ps h
  end.

(** pdag.c 464-508 [ln_pdagComponentSetIDs], 420-428 [deleteComponentID]: what it reads. It
    visits every node below the component, and asks every literal field for its data, which
    are missing if the constructor failed. The identifiers themselves are in Stat.v; nothing
    but the statistics output shows them. *)
Fixpoint componentReadIDs (fuel : nat) (h : list (option node)) (nd : nat) : er unit :=
  match fuel with
  | O => EUb OutOfFuel
  | S f =>
      do* n := get_node h nd in
      fold_right (fun p r =>
        if (is_lit p && match p_kind p with KSimple (MNoData _) => true | _ => false end)%bool
        then EUb NullDeref
        else do* _ := componentReadIDs f h (p_child p) in r) (EOk tt) (n_parsers n)
  end.

Fixpoint optimize_all (h : list (option node)) (l : list nat) : er (list (option node)) :=
  match l with
  | [] => EOk h
  | i :: l' =>
      do* h := componentOptimize (heap_fuel h) h i in
      do* _ := componentReadIDs (heap_fuel h) h i in
      optimize_all h l'
  end.

(** pdag.c 515-534 [ln_pdagOptimize] (debug output not modelled). *)
Definition optimize (cx : ctx) : er ctx :=
  do* h := optimize_all (c_nodes cx) (map snd (c_types cx) ++ [c_root cx]) in
  EOk (set_nodes cx h).
End Optimize.

(** liblognorm.c 61-93 [ln_initCtx] *)
Definition initCtx (o : opts) : ctx :=
  {| c_nodes := [Some new_node]; c_root := 0; c_types := []; c_annots := []; c_prefix := None;
     c_opts := o; c_version := 0; c_file := []; c_line := 0 |}.

Fixpoint delete_all (h : list (option node)) (l : list nat) : er (list (option node)) :=
  match l with
  | [] => EOk h
  | i :: l' => do* h := pdagDelete (heap_fuel h) h i in delete_all h l'
  end.

(** liblognorm.c 100-130 [ln_exitCtx]: the graph part; the result is the heap left over. *)
Definition exitCtx (cx : ctx) : er (list (option node)) :=
  delete_all (c_nodes cx) (c_root cx :: map snd (c_types cx)).
