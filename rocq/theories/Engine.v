(** * Engine: the parse DAG and the normalizer, /repo/src/pdag.c 1196-1718,
      the repeat field of /repo/src/parser.c 3212-3295, /repo/src/annot.c. *)
From Verif Require Import Base Time Parsers.

(** Outcome of engine functions: a value or undefined behaviour. *)
Inductive er (A : Type) : Type := EOk (a : A) | EUb (u : ub).
Arguments EOk {A} a.
Arguments EUb {A} u.
Definition ebind {A B} (x : er A) (f : A -> er B) : er B :=
  match x with EOk a => f a | EUb u => EUb u end.
Notation "'do*' x ':=' e 'in' k" := (ebind e (fun x => k))
  (at level 200, x pattern, e at level 100, k at level 200, right associativity).

(** ** Data (pdag.h 80-125) *)

(** What a parser instance runs. A node is named by its index in the node heap. *)
Inductive kind : Type :=
| KSimple (m : motif)
| KRepeat (parser while : nat) (permit : bool)  (* parser.c 3176-3181 struct data_Repeat *)
| KCustom (ti : nat).                            (* index into ctx->type_pdags *)

(** pdag.h 80-88 [struct ln_parser_s]. [p_conf] is the configuration JSON; the code keeps
    its printed form and compares the printed forms. *)
Record prs : Type := {
  p_kind : kind;
  p_name : option text;
  p_conf : json;
  p_prio : Z;
  p_child : nat;
}.

(** pdag.h 105-125 [struct ln_pdag]. rb_id (display only) and stats.terminated are not
    modelled. *)
Record node : Type := {
  n_parsers : list prs;
  n_term : bool;
  n_tags : option json;
  n_refcnt : Z;
  n_file : option text;
  n_line : N;
  n_called : N;
  n_backtracked : N;
}.

(** annot.h: an operation (only "add" exists in practice: annot.c 196-203); [None] is a NULL
    string. *)
Inductive aop := AopAdd (name value : option text) | AopRm (name : option text).
Definition annot := (text * list aop)%type.

(** liblognorm.h 60-67: the option bits that matter here. *)
Record opts : Type := { opt_orig : bool; opt_rule : bool; opt_loc : bool }.

(** lognorm.h [struct ln_ctx_s]: the parts the v2 engine uses. [c_nodes] is the heap of
    graph nodes, [None] = freed. *)
Record ctx : Type := {
  c_nodes : list (option node);
  c_root : nat;
  c_types : list (text * nat);
  c_annots : list annot;
  c_prefix : option text;
  c_opts : opts;
  c_version : N;
  c_file : text;
  c_line : N;
}.

(** Access to a node: freed or wild ids are use after free. *)
Definition get_node (h : list (option node)) (i : nat) : er node :=
  match nth_error h i with
  | Some (Some n) => EOk n
  | _ => EUb UseAfterFree
  end.

(** ** The normalizer *)

(** State threaded through [ln_normalizeRec]: npb->parsedTo, the json object being filled
    ([None] = NULL), *endNode, npb->rule (appended text) and the statistics events
    (node id, true = called / false = backtracked). *)
Record rst : Type := {
  r_pt : nat;
  r_js : option fields;
  r_end : option nat;
  r_rule : text;
  r_log : list (nat * bool);
}.

Definition set_pt (s : rst) (v : nat) : rst :=
  {| r_pt := v; r_js := r_js s; r_end := r_end s; r_rule := r_rule s; r_log := r_log s |}.
Definition set_js (s : rst) (v : option fields) : rst :=
  {| r_pt := r_pt s; r_js := v; r_end := r_end s; r_rule := r_rule s; r_log := r_log s |}.
Definition set_end (s : rst) (v : option nat) : rst :=
  {| r_pt := r_pt s; r_js := r_js s; r_end := v; r_rule := r_rule s; r_log := r_log s |}.
Definition set_rule (s : rst) (v : text) : rst :=
  {| r_pt := r_pt s; r_js := r_js s; r_end := r_end s; r_rule := v; r_log := r_log s |}.
Definition set_log (s : rst) (v : list (nat * bool)) : rst :=
  {| r_pt := r_pt s; r_js := r_js s; r_end := r_end s; r_rule := r_rule s; r_log := v |}.

(** pdag.c 1322-1391 [fixJSON]. *)
Definition fixJSON (p : prs) (v : json) (js : option fields) : er (option fields) :=
  match p_name p with
  | None => EOk js
  | Some nm =>
      if text_eqb nm (L ".") then
        match v with
        | JObj [] => EOk js
        | JObj l => match js with
                    | None => EUb NullDeref
                    | Some o => EOk (Some (fold_left (fun o kv => obj_add o (fst kv) (snd kv)) l o))
                    end
        | _ => match js with None => EUb NullDeref | Some o => EOk (Some (obj_add_new o nm v)) end
        end
      else
        let v' := match v with
                  | JObj [(k, x)] => if text_eqb k (L "..") then x else v
                  | _ => v
                  end in
        match js with None => EUb NullDeref | Some o => EOk (Some (obj_add_new o nm v')) end
  end.

(** pdag.c 70-103: the names of the parser table. *)
Definition motif_name (m : motif) : text :=
  match m with
  | MLiteral _ => L "literal" | MRFC3164 _ => L "date-rfc3164" | MRFC5424 _ => L "date-rfc5424"
  | MNumber _ _ => L "number" | MFloat _ => L "float" | MHex _ _ => L "hexnumber"
  | MKernelTs => L "kernel-timestamp" | MWhitespace => L "whitespace" | MIPv4 => L "ipv4"
  | MIPv6 => L "ipv6" | MWord => L "word" | MAlpha => L "alpha" | MRest => L "rest"
  | MOpQuoted => L "op-quoted-string" | MQuoted => L "quoted-string" | MISODate => L "date-iso"
  | MTime24 => L "time-24hr" | MTime12 => L "time-12hr" | MDuration => L "duration"
  | MCisco => L "cisco-interface-spec" | MNVList _ _ => L "name-value-list" | MJson => L "json"
  | MCee => L "cee-syslog" | MMac48 => L "mac48" | MCEF => L "cef" | MLEA _ => L "checkpoint-lea"
  | MIptables => L "v2-iptables" | MStringTo _ => L "string-to" | MCharTo _ => L "char-to"
  | MCharSep _ => L "char-sep" | MString _ => L "string" | MNoData t => t
  end.

(** pdag.c 106-116 [parserName] *)
Definition parserName (k : kind) : text :=
  match k with
  | KSimple m => motif_name m
  | KRepeat _ _ _ => L "repeat"
  | KCustom _ => L "USER-DEFINED"
  end.

(** pdag.c 1492-1513 [add_rule_to_mockup]: what is appended to npb->rule
    (pdag.c 1473-1482 [add_str_reversed] inlined). *)
Definition mockup_of (p : prs) : text :=
  match p_kind p with
  | KSimple (MLiteral l) => rev l
  | k => L "%" ++ rev (parserName k) ++ L ":" ++
         (match p_name p with None => L "-" | Some n => rev n end) ++ L "%"
  end.

(** parser.c 3252-3264: the value of the last member named "." replaces the object. *)
Fixpoint dot_value (l : fields) (dflt : json) : json :=
  match l with
  | [] => dflt
  | (k, v) :: l' => dot_value l' (if text_eqb k (L ".") then v else dflt)
  end.

Section Normalize.
Variable e : env.
Variable cx : ctx.
Variable msg : text.

Section Step.
(** [rec node offs partial state]: the recursive call of [ln_normalizeRec]. *)
Variable rec : nat -> nat -> bool -> rst -> er (bool * rst).

(** parser.c 3212-3295: the do-while loop of [ln_v2_parseRepeat]. Result: None = failure,
    Some (position reached, value). endNode and json are locals of the C function. *)
Fixpoint repeat_loop (fuel : nat) (pn wn : nat) (permit : bool) (strt lkg : nat)
  (arr : option (list json)) (s : rst) : er (option (nat * json) * rst) :=
  match fuel with
  | O => EUb OutOfFuel
  | S f =>
      let done pos a s' :=
        EOk (Some (pos, match a with Some l => JArr l | None => JNull end), s') in
      do* (ok, s1) := rec pn strt true (set_end (set_js s (Some [])) None) in
      if negb ok then
        (if permit then done lkg arr s1 else EOk (None, s1))
      else
        let strt := r_pt s1 in
        let obj := match r_js s1 with Some o => o | None => [] end in
        let arr := Some ((match arr with Some l => l | None => [] end)
                         ++ [dot_value obj (JObj obj)]) in
        do* (ok, s2) := rec wn strt true (set_end (set_js (set_pt s1 0) None) None) in
        if ok then repeat_loop f pn wn permit (r_pt s2) strt arr s2
        else done strt arr s2
  end.

(** pdag.c 1395-1470 [tryParser]; the result is the position behind the match
    ([i + parsed], pdag.c 1575) and the value. npb->parsedTo, json and endNode of the caller
    are restored (the last two are not passed down by the C code). *)
Definition tryParser (rf : nat) (p : prs) (offs : nat) (s : rst)
  : er (option (nat * json) * rst) :=
  let restore s' := set_end (set_js (set_pt s' (r_pt s)) (r_js s)) (r_end s) in
  let want := match p_name p with Some _ => true | None => false end in
  match p_kind p with
  | KCustom ti =>
      match nth_error (c_types cx) ti with
      | None => EUb OobIndex
      | Some (_, tn) =>
          do* (ok, s1) := rec tn offs true (set_end (set_js s (Some [])) None) in
          EOk (if ok then Some (r_pt s1, JObj (match r_js s1 with Some o => o | None => [] end))
               else None, restore s1)
      end
  | KRepeat pn wn permit =>
      do* (o, s1) := repeat_loop rf pn wn permit offs offs None s in
      EOk (match o with
           | Some (pos, v) => Some (pos, if want then v else JNull)
           | None => None end, restore s1)
  | KSimple m =>
      if Nat.ltb (List.length msg) offs then EUb OobOffset
      else match run_motif e m want offs (skipn offs msg) with
           | Ok (n, v) => EOk (Some (offs + n, v), s)
           | Bad _ => EOk (None, s)
           | Ub u => EUb u
           end
  end.

(** pdag.c 1560-1605: the loop over the parsers of a node. [lpt] is the local parsedTo. *)
Fixpoint parser_loop (rf : nat) (nd : nat) (ps : list prs) (offs : nat) (partial : bool)
  (lpt : nat) (s : rst) : er (bool * rst) :=
  match ps with
  | [] => EOk (false, s)
  | p :: ps' =>
      do* (o, s1) := tryParser rf p offs s in
      match o with
      | None => parser_loop rf nd ps' offs partial lpt (set_pt s1 (Nat.max (r_pt s1) lpt))
      | Some (pos, v) =>
          do* (ok, s2) := rec (p_child p) pos partial s1 in
          if ok then
            do* js := fixJSON p v (r_js s2) in
            let s3 := set_js s2 js in
            let s3 := if opt_rule (c_opts cx) then set_rule s3 (r_rule s3 ++ mockup_of p) else s3 in
            EOk (true, set_pt s3 (Nat.max (r_pt s3) pos))
          else
            let s3 := set_log s2 ((nd, false) :: r_log s2) in
            parser_loop rf nd ps' offs partial pos (set_pt s3 (Nat.max (r_pt s3) pos))
      end
  end.

(** pdag.c 1533-1620 [ln_normalizeRec], one level. *)
Definition norm_step (rf : nat) (nd offs : nat) (partial : bool) (s : rst) : er (bool * rst) :=
  do* n := get_node (c_nodes cx) nd in
  let s := set_log s ((nd, true) :: r_log s) in
  do* (ok, s1) := parser_loop rf nd (n_parsers n) offs partial (r_pt s) s in
  if (n_term n && (Nat.eqb offs (List.length msg) || partial))%bool
  then EOk (true, set_end s1 (Some nd))
  else EOk (ok, s1).
End Step.

(** pdag.c 1533-1620 [ln_normalizeRec]; the fuel bounds recursion depth and the rounds of
    each repeat loop; when it runs out the result says so. *)
Fixpoint normalizeRec (fuel : nat) (nd offs : nat) (partial : bool) (s : rst)
  : er (bool * rst) :=
  match fuel with
  | O => EUb OutOfFuel
  | S f => norm_step (normalizeRec f) f nd offs partial s
  end.

End Normalize.

(** ** annot.c *)

(** annot.c 68-82 [ln_findAnnot] *)
Fixpoint findAnnot (as_ : list annot) (tag : text) : option (list aop) :=
  match as_ with
  | [] => None
  | (t, ops) :: as' => if text_eqb t tag then Some ops else findAnnot as' tag
  end.

(** annot.c 162-181 [ln_addAnnotOp]: prepend. *)
Definition addAnnotOp (ops : list aop) (op : aop) : list aop := op :: ops.

(** annot.c 92-108 [ln_combineAnnot] *)
Definition combineAnnot (ops add : list aop) : list aop := fold_left addAnnotOp add ops.

(** annot.c 111-126 [ln_addAnnotToSet] *)
Fixpoint combine_in (as_ : list annot) (tag : text) (add : list aop) : list annot :=
  match as_ with
  | [] => []
  | (t, ops) :: as' => if text_eqb t tag then (t, combineAnnot ops add) :: as'
                       else (t, ops) :: combine_in as' tag add
  end.
Definition addAnnotToSet (as_ : list annot) (a : annot) : list annot :=
  match findAnnot as_ (fst a) with
  | None => a :: as_
  | Some _ => combine_in as_ (fst a) (snd a)
  end.

(** annot.c 196-203: one operation on the event; ln_es_str2cstr dereferences its
    argument (internal.h 88-103). json_object_new_string/object_add see C strings. *)
Definition annot_op (o : fields) (op : aop) : er fields :=
  match op with
  | AopAdd (Some n) (Some v) => EOk (obj_add o (cstr n) (JStr (cstr v)))
  | AopAdd _ _ => EUb NullDeref
  | AopRm _ => EOk o
  end.

Fixpoint annot_ops (ops : list aop) (o : fields) : er fields :=
  match ops with
  | [] => EOk o
  | op :: ops' => do* o' := annot_op o op in annot_ops ops' o'
  end.

(** annot.c 187-210 [ln_annotateEventWithTag] *)
Definition annotateEventWithTag (as_ : list annot) (o : fields) (tag : text) : er fields :=
  match findAnnot as_ tag with
  | None => EOk o
  | Some ops => annot_ops ops o
  end.

Fixpoint annotate_tags (as_ : list annot) (tags : list text) (o : fields) : er fields :=
  match tags with
  | [] => EOk o
  | t :: ts => do* o' := annotateEventWithTag as_ o t in annotate_tags as_ ts o'
  end.

(** The tags of a tag bucket as C strings (they are always strings: samp.c 400-435). *)
Definition tag_texts (j : json) : list text :=
  match j with
  | JArr l => map (fun x => match x with JStr s => cstr s | _ => [] end) l
  | _ => []
  end.

(** annot.c 213-239 [ln_annotate]: from the last tag to the first. *)
Definition annotate (as_ : list annot) (tags : json) (o : fields) : er fields :=
  match as_ with
  | [] => EOk o
  | _ => annotate_tags as_ (rev (tag_texts tags)) o
  end.

(** ** ln_normalize *)

(** pdag.c 1236-1261, 1296-1298: the metadata object. es_str2cstr (nulEsc NULL) drops NUL
    bytes; strrev on the empty string reads and writes at index -1 (strlen-1 wraps). *)
Definition add_metadata (cx : ctx) (n : node) (rule : text) (o : fields) : er fields :=
  do* m1 := if opt_rule (c_opts cx) then
              match filter (fun c => negb (ceq c NUL)) rule with
              | [] => EUb OobWrite
              | r => EOk [(L "mockup", JStr (rev r))]
              end
            else EOk [] in
  do* m2 := if opt_loc (c_opts cx) then
              match n_file n with
              | None => EUb NullDeref
              | Some f => EOk [(L "location", JObj [(L "file", JStr (cstr f));
                                                   (L "line", JInt (wrap 32 (Z.of_N (n_line n))))])]
              end
            else EOk [] in
  match m1 ++ m2 with
  | [] => EOk o
  | m => EOk (obj_add o (L "metadata") (JObj [(L "rule", JObj m)]))
  end.

(** Statistics counters (pdag.h 117-121), unsigned int. *)
Definition bump (n : node) (called : bool) : node :=
  {| n_parsers := n_parsers n; n_term := n_term n; n_tags := n_tags n; n_refcnt := n_refcnt n;
     n_file := n_file n; n_line := n_line n;
     n_called := if called then ((n_called n + 1) mod 2 ^ 32)%N else n_called n;
     n_backtracked := if called then n_backtracked n else ((n_backtracked n + 1) mod 2 ^ 32)%N |}.

Fixpoint upd_nth {A} (l : list A) (i : nat) (f : A -> A) : list A :=
  match l, i with
  | [], _ => []
  | x :: l', O => f x :: l'
  | x :: l', S i' => x :: upd_nth l' i' f
  end.

Definition upd_node (h : list (option node)) (i : nat) (f : node -> node) : list (option node) :=
  upd_nth h i (option_map f).

Definition set_nodes (cx : ctx) (h : list (option node)) : ctx :=
  {| c_nodes := h; c_root := c_root cx; c_types := c_types cx; c_annots := c_annots cx;
     c_prefix := c_prefix cx; c_opts := c_opts cx; c_version := c_version cx;
     c_file := c_file cx; c_line := c_line cx |}.

Definition apply_log (cx : ctx) (log : list (nat * bool)) : ctx :=
  set_nodes cx (fold_left (fun h x => upd_node h (fst x) (fun n => bump n (snd x)))
                          (rev log) (c_nodes cx)).

(** pdag.c 1621-1718 [ln_normalize] (version 2; ADVANCED_STATS off). [js0] is the object
    the caller passed in (empty if *json_p was NULL). Result: success?, the event, and the
    context with updated counters. *)
Definition normalize (fuel : nat) (e : env) (cx : ctx) (msg : text) (js0 : fields)
  : er (bool * fields * ctx) :=
  do* (ok, s) := normalizeRec e cx msg fuel (c_root cx) 0 false
       {| r_pt := 0; r_js := Some js0; r_end := None; r_rule := []; r_log := [] |} in
  let cx' := apply_log cx (r_log s) in
  let o := match r_js s with Some o => o | None => [] end in
  if ok then
    match r_end s with
    | None => EUb NullDeref
    | Some en =>
        do* n := get_node (c_nodes cx) en in
        do* o := match n_tags n with
                 | None => EOk o
                 | Some tags => annotate (c_annots cx) tags (obj_add o (L "event.tags") tags)
                 end in
        let o := if opt_orig (c_opts cx) then obj_add o (L "originalmsg") (JStr msg) else o in
        do* o := add_metadata cx n (r_rule s) o in
        EOk (true, o, cx')
    end
  else if Nat.ltb (List.length msg) (r_pt s) then EUb OobRead
  else
    let o := obj_add o (L "originalmsg") (JStr msg) in
    EOk (false, obj_add o (L "unparsed-data") (JStr (cstr (skipn (r_pt s) msg))), cx').
