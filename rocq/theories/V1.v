(** * V1: the engine for rulebases that do not start with "version=2".
    /repo/src/v1_ptree.c, v1_samp.c, v1_liblognorm.c, v1_parser.c, and the dispatch in
    samp.c 1081-1160 and pdag.c 1619-1633.

    Not modelled: the field type regex (it needs FEATURE_REGEXP, which is off by default, and
    is an unknown type without it); the statistics counters and the display functions;
    lengths of 2^31 bytes and more (the code keeps the number of unparsed bytes in an int).
    Allocation never fails. *)
From Verif Require Import Base Time Parsers Engine Pdag Samp.

(** ** Fields *)

(** The parser functions, v1_samp.c 152-262. *)
Inductive vkind : Type :=
| KDate3164 | KDate5424 | KNumber | KFloat | KHex | KKernelTs | KWhitespace | KIPv4 | KIPv6
| KWord | KAlpha | KRest | KOpQuoted | KQuoted | KISODate | KTime24 | KTime12 | KDuration
| KCisco | KJson | KCee | KMac48 | KNVList | KCEF | KLEA | KV2Ipt | KIptables
| KStringTo | KCharTo | KCharSep
| KTokenized | KRecursive | KDescent | KInterpret | KSuffixed | KNamedSuffixed.

(** v1_samp.c 152-262: the type names. *)
Definition vtypes : list (string * vkind) :=
  [("date-rfc3164", KDate3164); ("date-rfc5424", KDate5424); ("number", KNumber);
   ("float", KFloat); ("hexnumber", KHex); ("kernel-timestamp", KKernelTs);
   ("whitespace", KWhitespace); ("ipv4", KIPv4); ("ipv6", KIPv6); ("word", KWord);
   ("alpha", KAlpha); ("rest", KRest); ("op-quoted-string", KOpQuoted);
   ("quoted-string", KQuoted); ("date-iso", KISODate); ("time-24hr", KTime24);
   ("time-12hr", KTime12); ("duration", KDuration); ("cisco-interface-spec", KCisco);
   ("json", KJson); ("cee-syslog", KCee); ("mac48", KMac48); ("name-value-list", KNVList);
   ("cef", KCEF); ("checkpoint-lea", KLEA); ("v2-iptables", KV2Ipt); ("iptables", KIptables);
   ("string-to", KStringTo); ("char-to", KCharTo); ("char-sep", KCharSep);
   ("tokenized", KTokenized); ("recursive", KRecursive); ("descent", KDescent);
   ("interpret", KInterpret); ("suffixed", KSuffixed); ("named_suffixed", KNamedSuffixed)]%string.

Fixpoint vtype_find (l : list (string * vkind)) (ty : text) : option vkind :=
  match l with
  | [] => None
  | (n, k) :: l' => if text_eqb ty (L n) then Some k else vtype_find l' ty
  end.

(** Identity of the parser function pointer: the position in the table. *)
Definition vkind_id (k : vkind) : nat :=
  match k with
  | KDate3164 => 0 | KDate5424 => 1 | KNumber => 2 | KFloat => 3 | KHex => 4 | KKernelTs => 5
  | KWhitespace => 6 | KIPv4 => 7 | KIPv6 => 8 | KWord => 9 | KAlpha => 10 | KRest => 11
  | KOpQuoted => 12 | KQuoted => 13 | KISODate => 14 | KTime24 => 15 | KTime12 => 16
  | KDuration => 17 | KCisco => 18 | KJson => 19 | KCee => 20 | KMac48 => 21 | KNVList => 22
  | KCEF => 23 | KLEA => 24 | KV2Ipt => 25 | KIptables => 26 | KStringTo => 27 | KCharTo => 28
  | KCharSep => 29 | KTokenized => 30 | KRecursive => 31 | KDescent => 32 | KInterpret => 33
  | KSuffixed => 34 | KNamedSuffixed => 35
  end.
Definition vkind_eqb (a b : vkind) : bool := Nat.eqb (vkind_id a) (vkind_id b).

(** v1_ptree.h 50-75 [ln_fieldList_t]: name, parser (isIPTables is [KIptables]), data and
    raw_data. *)
Record vfield : Type := {
  vf_name : text;
  vf_kind : vkind;
  vf_data : option text;
  vf_raw : option text;
}.

Definition opt_text_eqb (a b : option text) : bool :=
  match a, b with
  | None, None => true
  | Some x, Some y => text_eqb x y
  | _, _ => false
  end.

(** v1_ptree.c 371-376: the fields that are merged. *)
Definition vfield_same (a b : vfield) : bool :=
  (text_eqb (vf_name a) (vf_name b) && vkind_eqb (vf_kind a) (vf_kind b)
   && opt_text_eqb (vf_raw a) (vf_raw b))%bool.

(** ** The tree *)

(** v1_ptree.h 77-105 [struct ln_ptree]: common prefix, isTerminal, tags, field list in
    order, and the literal branches (the array subtree[256], as the list of its non-NULL
    entries). *)
Inductive vtree : Type :=
| VNode (pfx : text) (term : bool) (tags : option json)
        (flds : list (vfield * vtree)) (lits : list (ascii * vtree)).

(** v1_ptree.c 57-69 [ln_newPTree] *)
Definition vnew : vtree := VNode [] false None [] [].

(** lenPrefix is an unsigned short. *)
Definition short (n : nat) : nat := N.to_nat (N.of_nat n mod 65536).

(** v1_ptree.c 117-138 [setPrefix]: [len] = lenBuf - offs; the bytes are copied from the
    start of [buf], whatever offs is. *)
Definition setPrefix (buf : text) (len : nat) : text := firstn (short len) buf.

(** Length of the longest common prefix: the loops v1_ptree.c 308-314 and 659-666. *)
Fixpoint cpl (a b : text) : nat :=
  match a, b with
  | x :: a', y :: b' => if ceq x y then S (cpl a' b') else 0
  | _, _ => 0
  end.

Definition is_nil {A} (l : list A) : bool := match l with [] => true | _ => false end.

(** v1_ptree.c 171-176 [isTrueLeaf], 146-162 [isLeaf] *)
Definition isTrueLeaf (t : vtree) : bool :=
  match t with VNode p tm _ fs ls => (is_nil p && is_nil fs && is_nil ls && negb tm)%bool end.

Section Build.
(** What is done with the node the literal leads to; returns that node changed. *)
Variable k : vtree -> er vtree.
(** The whole literal. *)
Variable full : text.

(** v1_ptree.c 293-356 [ln_buildPTree] with 180-215 [ln_addPTree] and 228-287 [splitTree];
    [s] is the literal from offs on. The C code returns a pointer to the node reached and
    the caller goes on from there: [k]. Result: the node [t] with everything changed. *)
Fixpoint build (t : vtree) (s : text) {struct t} : er vtree :=
  match t with
  | VNode p tm tg fs ls =>
      let n := cpl s p in
      match skipn n s, skipn n p with
      | [], [] => k t                                                   (* case 1.1 *)
      | [], pc :: p' =>                                                 (* case 1.2 *)
          k (VNode (firstn n p) false None [] [(pc, VNode p' tm tg fs ls)])
      | c :: s', pc :: p' =>                                            (* case 2 *)
          do* ch := k (VNode (setPrefix s' (List.length s')) false None [] []) in
          EOk (VNode (firstn n p) false None [] [(pc, VNode p' tm tg fs ls); (c, ch)])
      | c :: s', [] =>
          do* r := (fix go (l : list (ascii * vtree)) : er (option (list (ascii * vtree))) :=
             match l with
             | [] => EOk None
             | (c', t') :: l' =>
                 if ceq c c' then do* t'' := build t' s' in EOk (Some ((c', t'') :: l'))
                 else do* r := go l' in EOk (option_map (cons (c', t')) r)
             end) ls in
          match r with
          | Some ls' => EOk (VNode p tm tg fs ls')                      (* case 3.2 *)
          | None =>                                                     (* case 3.1 *)
              if isTrueLeaf t then k (VNode (setPrefix full (List.length (c :: s'))) tm tg fs ls)
              else do* ch := k (VNode (setPrefix s' (List.length s')) false None [] []) in
                   EOk (VNode p tm tg fs (ls ++ [(c, ch)]))
          end
      end
  end.
End Build.

(** v1_ptree.c 359-399 [ln_addFDescrToPTree]; [k] as above. *)
Fixpoint addFDescr (k : vtree -> er vtree) (f : vfield) (fs : list (vfield * vtree))
  : er (list (vfield * vtree)) :=
  match fs with
  | [] => do* t := k vnew in EOk [(f, t)]
  | (g, t) :: fs' =>
      if vfield_same g f then do* t' := k t in EOk ((g, t') :: fs')
      else do* r := addFDescr k f fs' in EOk ((g, t) :: r)
  end.

Section V1.
Variable e : env.

(** ** Rules *)

(** v1_samp.c 94-304 [ln_v1_parseFieldDescr]; [u] is the rule behind the '%'. [Bad] = error
    return. Reading behind the rule (v1_samp.c 134) is reported as a use of uninitialised
    memory. *)
Definition vfieldDescr (u : text) : res (vfield * text) :=
  let u := skipn (scan isspace u) u in
  let n := scan (fun c => negb (ceq c ":")) u in
  match firstn n u with
  | [] => Bad 0
  | name =>
      match skipn n u with
      | [] => Ub UninitRead
      | _ :: u =>
          let m := scan (fun c => negb (ceq c ":" || ceq c "%")) u in
          let ty := rtrim (firstn m u) in
          match skipn m u with
          | [] => Bad 0
          | c :: u =>
              match vtype_find vtypes ty with
              | None => Bad 0
              | Some kd =>
                  if ceq c "%" then
                    Ok ({| vf_name := name; vf_kind := kd; vf_data := None; vf_raw := None |}, u)
                  else
                    let d := scan (fun c => negb (ceq c "%")) u in
                    Ok ({| vf_name := name; vf_kind := kd;
                           vf_data := Some (unescape e (firstn d u));
                           vf_raw := Some (firstn d u) |}, skipn (S d) u)
              end
          end
      end
  end.

(** v1_samp.c 392-393 *)
Definition vterminal (tags : option json) (t : vtree) : vtree :=
  match t with VNode p _ _ fs ls => VNode p true tags fs ls end.

(** v1_samp.c 365-401 [addSampToTree], 321-352 [parseLiteral], 80-91 [addFieldDescr]. A rule
    with a faulty field is given up where it stands: the nodes made so far remain. *)
Fixpoint vadd (fuel : nat) (tags : option json) (rule : text) (t : vtree) : er vtree :=
  match fuel with
  | O => EUb OutOfFuel
  | S f =>
      match rule with
      | [] => EOk (vterminal tags t)
      | _ =>
          let '(lit, rest) := literal_part rule in
          let lit := unescape e lit in
          build (fun t =>
            match rest with
            | [] => EOk (vterminal tags t)
            | _ :: u =>
                match vfieldDescr u with
                | Ub x => EUb x
                | Bad _ => EOk t
                | Ok (fd, rest') =>
                    match t with
                    | VNode p tm tg fs ls =>
                        do* fs' := addFDescr (fun t' =>
                           match rest' with
                           | [] => build (fun t'' => EOk (vterminal tags t'')) [] t' []
                           | _ => vadd f tags rest' t'
                           end) fd fs in
                        EOk (VNode p tm tg fs' ls)
                    end
                end
            end) lit t lit
      end
  end.

Definition vaddSamp (tags : option json) (rule : text) (t : vtree) : er vtree :=
  vadd (S (List.length rule)) tags rule t.

(** ** Field parsers that differ from those of the v2 engine *)

(** v1_ptree.c 760-767: the value is NULL, so the consumed bytes are stored (strndup). *)
Definition vtext (t : text) (r : pres) : pres :=
  let* (n, _) := r in Ok (n, JStr (cstr (firstn n t))).

(** v1_parser.c 524-543 [ln_parseNumber] *)
Definition v1_number (t : text) : pres :=
  let n := scan isdigit t in
  check (negb (Nat.eqb n 0)) ;;
  Ok (n, JNull).

(** v1_parser.c 548-580 [ln_parseFloat] *)
Definition v1_float (t : text) : pres :=
  let* c := rd t 0 in
  let i := if ceq c "-" then 1 else 0 in
  let i := i + float_loop false (skipn i t) in
  check (negb (Nat.eqb i 0)) ;;
  Ok (i, JNull).

(** v1_parser.c 588-611 [ln_parseHexNumber] *)
Definition v1_hex (t : text) : pres :=
  let* c0 := rd t 0 in
  check (ceq c0 "0") ;;
  let* c1 := rd t 1 in
  check (ceq c1 "x") ;;
  let i := 2 + scan isxdigit (skipn 2 t) in
  let* c := rd t i in
  check (isspace c) ;;
  Ok (i, JNull).

(** v1_parser.c 1877-1911 [ln_parseQuotedString]: the value is what stands between the
    quotes. *)
Definition v1_quoted (t : text) : pres :=
  check (negb (Nat.ltb (List.length t) 2)) ;;
  let* c := rd t 0 in
  check (ceq c """") ;;
  let i := 1 + scan (fun c => negb (ceq c """")) (skipn 1 t) in
  check (negb (Nat.eqb i (List.length t))) ;;
  let* q := rd t i in
  check (ceq q """") ;;
  Ok (i + 1, JStr (cstr (firstn (i - 1) (skipn 1 t)))).

(** v1_parser.c 819-846, 856-879: [c[i] != cTerm] compares a char with an unsigned char; a
    byte of 128 and more never equals the terminator where char is signed. *)
Definition is_cterm (term : ascii) (c : ascii) : bool :=
  (ceq c term && (negb (char_signed e) || N.ltb (code c) 128))%bool.

(** The terminator: the only byte of the extra data (checked by assert() only). *)
Definition cterm_of (d : option text) : res ascii :=
  match d with
  | None => Ub NullDeref
  | Some [] => if asserts_on e then Ub AssertFail else Ub UninitRead
  | Some [c] => Ok c
  | Some (c :: _) => if asserts_on e then Ub AssertFail else Ok c
  end.

(** v1_parser.c 819-846 [ln_parseCharTo] *)
Definition v1_charto (d : option text) (t : text) : pres :=
  let* term := cterm_of d in
  let i := scan (fun c => negb (is_cterm term c)) t in
  check (negb (Nat.eqb i 0)) ;;
  check (negb (Nat.eqb i (List.length t))) ;;
  Ok (i, JNull).

(** v1_parser.c 856-879 [ln_parseCharSeparated] *)
Definition v1_charsep (d : option text) (t : text) : pres :=
  let* term := cterm_of d in
  Ok (scan (fun c => negb (is_cterm term c)) t, JNull).

(** v1_parser.c 735-776 [ln_parseStringTo]: the code of the v2 type. Simplification: an
    extra data with NUL bytes (the code drops them but counts them), and an empty one on a
    message with NUL bytes, are reported as reads behind the search string. *)
Definition v1_stringto (d : option text) (t : text) : pres :=
  match d with
  | None => if asserts_on e then Ub AssertFail else Ub NullDeref
  | Some s =>
      if (existsb (ceq NUL) s || (is_nil s && existsb (ceq NUL) t))%bool then Ub OobLit
      else parseStringTo s false t
  end.

(** v1_parser.c 1978-2112 [ln_parseCiscoInterfaceSpec]: the code of the v2 type, except that
    nothing is stored when the message ends behind the first port (2034, value stays NULL).
    The v1 number parser computes no value, so there is nothing to overflow. *)
Definition wrapping : env :=
  {| wraps := true; asserts_on := asserts_on e; char_signed := char_signed e;
     cur_year := cur_year e; json_tok := json_tok e; json_show := json_show e;
     json_num := json_num e; json_erroff := json_erroff e; unescape := unescape e;
     files := files e |}.
Definition v1_cisco (t : text) : pres :=
  let* (n, v) := parseCisco wrapping true t in
  match v with
  | JObj o => match obj_get o (L "ip2"), obj_get o (L "user") with
              | None, None => if Nat.eqb n (List.length t) then vtext t (Ok (n, JNull)) else Ok (n, v)
              | _, _ => Ok (n, v)
              end
  | _ => Ok (n, v)
  end.

(** v1_parser.c 2620-2661 [parseNameValue], 2732-2761 [ln_parseNameValue]: both stages at
    once. *)
Fixpoint v1_nv (fuel : nat) (u : text) (o : fields) : res fields :=
  match fuel with
  | O => Ub OutOfFuel
  | S f =>
      match u with
      | [] => Ok o
      | _ =>
          let n := scan isValidNameChar u in
          check (negb (Nat.eqb n 0)) ;;
          let* c := rd u n in
          check (ceq c "=") ;;
          let v := skipn (S n) u in
          let m := scan (fun c => negb (isspace c)) v in
          let w := skipn m v in
          v1_nv f (skipn (scan isspace w) w) (obj_add o (firstn n u) (JStr (firstn m v)))
      end
  end.
Definition v1_nvlist (t : text) : pres :=
  let* o := v1_nv (S (List.length t)) t [] in Ok (List.length t, JObj o).

(** v1_parser.c 2827-2874 [cefParseExtensionValue] *)
Fixpoint v1_cef_val (u : text) (i last : nat) (hadSP inEsc : bool) : res (nat * nat) :=
  match u with
  | [] => Ok (i, last)
  | c :: u' =>
      if inEsc then
        check (ceq c "=" || ceq c "\" || ceq c "r" || ceq c "n")%bool ;;
        v1_cef_val u' (S i) last hadSP false
      else if ceq c "=" then Ok (i, last)
      else if ceq c "\" then v1_cef_val u' (S i) last hadSP true
      else if ceq c " " then v1_cef_val u' (S i) last true false
      else if hadSP then v1_cef_val u' (S i) i false false
      else v1_cef_val u' (S i) last false false
  end.

(** v1_parser.c 2934-2958: copy of a value; [None] elements are uninitialised bytes. *)
Fixpoint v1_cef_unesc (len : nat) (u : text) : list (option ascii) :=
  match len, u with
  | S len', c :: u' =>
      if ceq c "\" then
        let '(x, u'') := match u' with x :: u'' => (x, u'') | [] => (NUL, []) end in
        (if ceq x "=" then Some "="%char
         else if ceq x "n" then Some (chr 10)
         else if ceq x "r" then Some (chr 13)
         else if ceq x "\" then Some "\"%char
         else None) :: v1_cef_unesc (len' - 1) u''
      else Some c :: v1_cef_unesc len' u'
  | _, _ => []
  end.

(** v1_parser.c 2907-2974 [cefParseExtensions]; [store] is [jroot != NULL]. *)
Fixpoint v1_cef_ext (fuel : nat) (t : text) (i : nat) (store : bool) (o : fields) : res fields :=
  match fuel with
  | O => Ub OutOfFuel
  | S f =>
      let n := List.length t in
      if negb (Nat.ltb i n) then Ok o else
      let i := i + scan (ceq " ") (skipn i t) in
      let iName := i in
      let* lenName := cef_name (skipn i t) in
      let i := i + lenName in
      check (Nat.ltb (i + 1) n) ;;
      let* c := rd t i in
      check (ceq c "=") ;;
      let iValue := S i in
      let* (j, last) := v1_cef_val (skipn iValue t) iValue 0 false false in
      let j := if Nat.ltb j n then (if Nat.eqb last 0 then j else last - 1) else j in
      let* o :=
        if store then
          let* v := cstr_init (v1_cef_unesc (j - iValue) (skipn iValue t)) in
          Ok (obj_add o (cstr (sub t iName lenName)) (JStr v))
        else Ok o in
      v1_cef_ext f t (S j) store o
  end.

(** v1_parser.c 3034-3117 [ln_parseCEF]. Result: how many bytes the position goes BACK
    (3087: *parsed = *offs - i) and the value. 3071 skips one byte behind the header. *)
Definition v1_cef (t : text) : res (nat * json) :=
  let n := List.length t in
  check (negb (Nat.ltb n 17)) ;;
  let* _ := rdall t 0 [ceq "C"; ceq "E"; ceq "F"; ceq ":"; ceq "0"; ceq "|"] in
  let* (vendor, u) := cefGetHdrField e (skipn 6 t) in
  let* (product, u) := cefGetHdrField e u in
  let* (version, u) := cefGetHdrField e u in
  let* (sigID, u) := cefGetHdrField e u in
  let* (name, u) := cefGetHdrField e u in
  let* (severity, u) := cefGetHdrField e u in
  let i := S (n - List.length u) in
  let* _ := v1_cef_ext (S n) t i false [] in
  let* ext := v1_cef_ext (S n) t i true [] in
  Ok (i, JObj [(L "DeviceVendor", JStr (cstr vendor)); (L "DeviceProduct", JStr (cstr product));
               (L "DeviceVersion", JStr (cstr version)); (L "SignatureID", JStr (cstr sigID));
               (L "Name", JStr (cstr name)); (L "Severity", JStr (cstr severity));
               (L "Extensions", JObj ext)]).

(** v1_parser.c 3124-3192 [ln_parseCheckpointLEA]: bytes passed (the position goes back by
    as many, 3181) and *value (JNull = NULL). *)
Fixpoint v1_lea (fuel : nat) (u : text) (nf : nat) (v : json) : res (nat * json) :=
  match fuel with
  | O => Ub OutOfFuel
  | S f =>
      match u with
      | [] => Ok (0, v)
      | _ =>
          let s := scan (ceq " ") u in
          let u1 := skipn s u in
          match u1 with
          | [] => if Nat.eqb nf 0 then Bad 0 else Ok (s, v)
          | _ :: _ =>
              let ln := scan (fun c => negb (ceq c ":")) u1 in
              check (Nat.ltb (ln + 1) (List.length u1)) ;;
              let u2 := skipn (S ln) u1 in
              let s2 := scan (ceq " ") u2 in
              let u3 := skipn s2 u2 in
              let lv := scan (fun c => negb (ceq c ";")) u3 in
              check (negb (Nat.ltb (List.length u3) (lv + 1))) ;;
              let o := match v with JObj o => o | _ => [] end in
              let v := JObj (obj_add o (cstr (firstn ln u1)) (JStr (cstr (firstn lv u3)))) in
              let* (k, v) := v1_lea f (skipn (S lv) u3) (S nf) v in
              Ok (s + (S ln + s2 + S lv) + k, v)
          end
      end
  end.

(** v1_ptree.c 570-625 [ln_iptablesParser]: the fields are added to the event at once. *)
Fixpoint v1_ipt (fuel : nat) (u : text) (js : fields) : fields :=
  match fuel with
  | O => js
  | S f =>
      match u with
      | [] => js
      | _ =>
          let u := skipn (scan isspace u) u in
          let n := scan (fun c => negb (isspace c || ceq c "=")) u in
          let name := firstn n u in
          match skipn n u with
          | c :: v =>
              if ceq c "=" then
                let m := scan (fun c => negb (isspace c)) v in
                v1_ipt f (skipn m v) (obj_add js (cstr name) (JStr (cstr (firstn m v))))
              else v1_ipt f (c :: v) (obj_add js (cstr name) (JStr (L "[*PRESENT*]")))
          | [] => obj_add js (cstr name) (JStr (L "[*PRESENT*]"))
          end
      end
  end.

(** [node->parser(str, strLen, &i, node, &parsed, &value)] at position [offs]: the next
    position (i + parsed, modulo 2^64; positions behind the end are all alike) and the value
    that is stored. The other types have the code of their v2 namesakes with FmtString, and
    store the consumed bytes. *)
Definition run_v1 (msg : text) (f : vfield) (offs : nat) : res (nat * json) :=
  let t := skipn offs msg in
  let fwd (r : pres) : res (nat * json) := let* (n, v) := r in Ok (offs + n, v) in
  let back (r : pres) : res (nat * json) :=
    let* (n, v) := r in Ok (if Nat.ltb offs n then List.length msg else offs - n, v) in
  match vf_kind f with
  | KDate3164 => fwd (vtext t (parseRFC3164Date e FmtString false t))
  | KDate5424 => fwd (vtext t (parseRFC5424Date e FmtString false t))
  | KNumber => fwd (vtext t (v1_number t))
  | KFloat => fwd (vtext t (v1_float t))
  | KHex => fwd (vtext t (v1_hex t))
  | KKernelTs => fwd (vtext t (parseKernelTimestamp false t))
  | KWhitespace => fwd (vtext t (parseWhitespace false t))
  | KIPv4 => fwd (vtext t (parseIPv4 false t))
  | KIPv6 => fwd (vtext t (parseIPv6 false t))
  | KWord => fwd (vtext t (parseWord false t))
  | KAlpha => fwd (vtext t (parseAlpha false t))
  | KRest => fwd (vtext t (parseRest false t))
  | KOpQuoted => fwd (parseOpQuotedString true t)
  | KQuoted => fwd (v1_quoted t)
  | KISODate => fwd (vtext t (parseISODate false t))
  | KTime24 => fwd (vtext t (parseTime24hr false t))
  | KTime12 => fwd (vtext t (parseTime12hr false t))
  | KDuration => fwd (vtext t (parseDuration false t))
  | KCisco => fwd (v1_cisco t)
  | KJson => fwd (parseJSON e true t)
  | KCee => fwd (parseCEE e offs true t)
  | KMac48 => fwd (parseMAC48 true t)
  | KNVList => fwd (v1_nvlist t)
  | KCEF => back (v1_cef t)
  | KLEA => back (let* (n, v) := v1_lea (S (List.length t)) t 0 JNull in
                  Ok (n, match v with JNull => JStr [] | _ => v end))
  | KV2Ipt => fwd (parseIptables true t)
  | KIptables => Ub NullDeref                      (* parser == NULL; never called *)
  | KStringTo => fwd (vtext t (v1_stringto (vf_data f) t))
  | KCharTo => fwd (vtext t (v1_charto (vf_data f) t))
  | KCharSep => fwd (vtext t (v1_charsep (vf_data f) t))
  | KTokenized | KRecursive | KDescent | KInterpret | KSuffixed | KNamedSuffixed =>
      Ub V1Engine                                  (* not here: [run_field] below *)
  end.

(** ** The normalizer *)

(** *endNode: its isTerminal and tags. *)
Definition endinfo := (bool * option json)%type.

Section Rec.
Variable msg : text.
(** The field parsers, in the form of [run_v1]. *)
Variable runf : vfield -> nat -> res (nat * json).

(** [r == 0 && endNode->flags.isTerminal] *)
Definition vhit (r : Z) (en : option endinfo) : er bool :=
  if Z.eqb r 0 then match en with None => EUb NullDeref | Some (tm, _) => EOk tm end else EOk false.

(** v1_ptree.c 721-741 *)
Definition vstore (f : vfield) (v : json) (js : fields) : fields :=
  if text_eqb (vf_name f) (L "-") then js else obj_add js (cstr (vf_name f)) v.

Definition vres := er (Z * fields * option endinfo).

(** State of the field loop: finished with a match, or to go on: r, event, endNode and the
    rest field with the continuation into its subtree. *)
Inductive vloop :=
| VDone (js : fields) (en : option endinfo)
| VGo (r : Z) (js : fields) (en : option endinfo)
      (rest : option (vfield * (nat -> fields -> option endinfo -> vres))).

(** v1_ptree.c 643-832 [ln_v1_normalizeRec]: r, the event and *endNode. *)
Fixpoint vrec (t : vtree) (offs : nat) (js : fields) (en : option endinfo) {struct t} : vres :=
  match t with
  | VNode p tm tg fs ls =>
      let n := List.length msg in
      if Nat.leb n offs then EOk ((- Z.of_nat (List.length p))%Z, js, Some (tm, tg)) else
      let u := skipn offs msg in
      let k := cpl p u in
      if Nat.ltb k (List.length p) then
        if Nat.ltb k (List.length u)
        then EOk (Z.of_nat (List.length u - k), js, en)               (* 664-667 *)
        else EOk ((Z.of_nat k - Z.of_nat (List.length p))%Z, js, en)  (* 671-675 *)
      else
      let offs := offs + k in
      let lastipt := match rev fs with (f, _) :: _ => vkind_eqb (vf_kind f) KIptables | [] => false end in
      do* st :=
        (fix go (fs : list (vfield * vtree)) (r : Z) (js : fields) (en : option endinfo)
             (rest : option (vfield * (nat -> fields -> option endinfo -> vres))) : er vloop :=
           match fs with
           | [] => EOk (VGo r js en rest)
           | (f, t') :: fs' =>
               if vkind_eqb (vf_kind f) KIptables then
                 if Nat.eqb offs n then go fs' r js en rest
                 else
                   do* (lft, js, en) := vrec t' n (v1_ipt (S n) (skipn offs msg) js) en in
                   do* hit := vhit lft en in
                   if hit then EOk (VDone js en)
                   else go fs' (if Z.ltb lft r then lft else r) js en rest
               else if vkind_eqb (vf_kind f) KRest then go fs' r js en (Some (f, vrec t'))
               else match runf f offs with
                    | Ub x => EUb x
                    | Bad _ => go fs' r js en rest
                    | Ok (nxt, v) =>
                        do* (lft, js, en) := vrec t' nxt js en in
                        do* hit := vhit lft en in
                        if hit then EOk (VDone (vstore f v js) en)
                        else go fs' (if (Z.ltb 0 lft && Z.ltb lft r)%bool then lft else r) js en rest
                    end
           end) fs (Z.of_nat (n - offs)) js en None in
      match st with
      | VDone js en => EOk (0%Z, js, en)
      | VGo r js en rest =>
          match nth_error msg offs with
          | None => EOk (0%Z, js, Some (tm, tg))                      (* 754-758: offs == strLen *)
          | Some c =>
              do* (r, js, en) :=
                (fix lit (l : list (ascii * vtree)) : vres :=
                   match l with
                   | [] => EOk (r, js, en)
                   | (c', t') :: l' =>
                       if ceq c c' then
                         do* (lft, js, en) := vrec t' (S offs) js en in
                         EOk (if Z.ltb lft r then lft else r, js, en)
                       else lit l'
                   end) ls in
              do* hit := vhit r en in
              if hit then EOk (r, js, en) else
              match rest with
              | None => EOk (r, js, en)
              | Some (f, sub) =>
                  (* 787-826; i is offs unless an iptables parser moved it last *)
                  let i := if lastipt then n else offs in
                  do* (lft, js, en) := sub n js en in
                  if (asserts_on e && negb (Z.eqb lft 0 && match en with Some (b, _) => b | None => false end))%bool
                  then EUb AssertFail
                  else EOk (0%Z, vstore f (JStr (cstr (skipn i msg))) js, en)
              end
          end
      end
  end.
End Rec.

(** v1_ptree.c 533-556 [addUnparsedField]: [s + offs] where s is the C string of the message. *)
Definition addUnparsed (msg : text) (offs : nat) (js : fields) : er fields :=
  let s := cstr msg in
  if Nat.ltb (List.length s) offs then EUb OobRead
  else EOk (obj_add (obj_add js (L "originalmsg") (JStr s)) (L "unparsed-data") (JStr (skipn offs s))).

(** v1_ptree.c 835-883 [ln_v1_normalize]; [js0] is the object passed in. Result: did a rule
    match (the return code is 0 either way), and the event. *)
Definition v1_normalize (runf : vfield -> nat -> res (nat * json)) (t : vtree) (as_ : list annot)
  (msg : text) (js0 : fields) : er (bool * fields) :=
  do* (lft, js, en) := vrec msg runf t 0 js0 None in
  do* hit := vhit lft en in
  if hit then
    match en with
    | Some (_, Some tags) =>
        do* js := annotate as_ tags (obj_add js (L "event.tags") tags) in EOk (true, js)
    | _ => EOk (true, js)
    end
  else
    do* js := addUnparsed msg (if Z.ltb lft 0 then List.length msg
                               else List.length msg - Z.to_nat lft) js in
    EOk (false, js).

(** ** Loading *)

(** v1_samp.c 687-748 [getAnnotationOp]: as in v2 but without comments. *)
Definition v1_annotOp (u : text) : aopres :=
  match getAnnotationOp u with AOps None _ => AFail | r => r end.

Fixpoint v1_annot_loop (fuel : nat) (u : text) (ops : list aop) : er (option (list aop)) :=
  match fuel with
  | O => EUb OutOfFuel
  | S f =>
      match u with
      | [] => EOk (Some ops)
      | _ => match v1_annotOp u with
             | AFail => EOk None
             | AStay => v1_annot_loop f u ops            (* nothing changes: loops forever *)
             | AOps None rest => v1_annot_loop f rest ops
             | AOps (Some op) rest => v1_annot_loop f rest (addAnnotOp ops op)
             end
      end
  end.

(** The whole library context: the v2 context (which also holds the prefix, the annotations
    and the version, shared by both engines) and ctx->ptree. *)
Record lctx : Type := { l_ctx : ctx; l_tree : vtree }.

(** v1_samp.c 760-787 [processAnnotate] *)
Definition v1_annotate (fuel : nat) (lc : lctx) (u : text) : er lctx :=
  let n := scan isFieldNameChar u in
  let tag := firstn n u in
  let v := skipn n u in
  let v := skipn (scan isspace v) v in
  match v, tag with
  | c :: v, _ :: _ =>
      if negb (ceq c ":") then EOk lc
      else do* r := v1_annot_loop fuel v [] in
           match r with
           | None => EOk lc
           | Some ops =>
               EOk {| l_ctx := set_annots (l_ctx lc) (addAnnotToSet (c_annots (l_ctx lc)) (tag, ops));
                      l_tree := l_tree lc |}
           end
  | _, _ => EOk lc
  end.

(** v1_samp.c 568-596 [processRule], 520-556 [processTags] (the code of samp.c) *)
Definition v1_rule (lc : lctx) (u : text) : er lctx :=
  do* r := processTags u None None in
  match r with
  | None => EOk lc
  | Some (_, []) => EOk lc
  | Some (tags, sample) =>
      let rule := (match c_prefix (l_ctx lc) with Some p => p | None => [] end) ++ sample in
      do* t := vaddSamp (option_map JArr tags) rule (l_tree lc) in
      EOk {| l_ctx := l_ctx lc; l_tree := t |}
  end.

(** v1_samp.c 789-822 [ln_v1_processSamp], 410-460 [getLineType], [getPrefix], [extendPrefix] *)
Definition v1_samp (afuel : nat) (lc : lctx) (line : text) : er lctx :=
  match getLineType line with
  | None => EOk lc
  | Some (ty, u) =>
      if text_eqb ty (L "prefix") then
        EOk {| l_ctx := set_prefix (l_ctx lc) (Some u); l_tree := l_tree lc |}
      else if text_eqb ty (L "extendprefix") then
        match c_prefix (l_ctx lc) with
        | None => EUb NullDeref
        | Some p => EOk {| l_ctx := set_prefix (l_ctx lc) (Some (p ++ u)); l_tree := l_tree lc |}
        end
      else if text_eqb ty (L "rule") then v1_rule lc u
      else if text_eqb ty (L "annotate") then v1_annotate afuel lc u
      else EOk lc
  end.

(** v1_samp.c 825-872 [ln_v1_sampRead]: the code of samp.c with a smaller buffer. Result: the
    line, what remains, and whether the end of the file was seen. Line numbers are not
    modelled: nothing but error messages shows them. *)
Inductive vread :=
| VLine (line : text) (inp : text) (eof : bool)
| VNone
| VTooLong (inp : text)
| VFuel.
Fixpoint v1_read (fuel : nat) (inp : text) (buf : text) (cnt : N) (inParser : bool) : vread :=
  match fuel with
  | O => VFuel
  | S f =>
      match inp with
      | [] => match buf with [] => VNone | _ => VLine (rev buf) [] true end
      | c :: inp' =>
          if ceq c (chr 10) then
            let ra := (inParser && runaway (S (List.length inp')) inp')%bool in
            let inParser := (inParser && negb ra)%bool in
            let buf := if ra then [] else buf in
            let cnt := if ra then 0%N else cnt in
            match buf with
            | [] => v1_read f inp' buf cnt inParser
            | _ => if inParser then v1_read f inp' buf cnt inParser
                   else VLine (rev buf) inp' false
            end
          else if (ceq c "#" && is_nil buf)%bool then v1_read f (skip_line inp') [] 0 inParser
          else
            let inParser := if ceq c "%" then negb inParser else inParser in
            if N.leb (10 * 1024) (cnt + 1) then VTooLong inp'
            else v1_read f inp' (c :: buf) (cnt + 1) inParser
      end
  end.

(** v1_liblognorm.c 75-106 [ln_v1_loadSamples]: the loop over the lines. *)
Fixpoint v1_lines (afuel fuel : nat) (lc : lctx) (inp : text) : er lctx :=
  match fuel with
  | O => EUb OutOfFuel
  | S f =>
      match v1_read (S (S (List.length inp))) inp [] 0 false with
      | VFuel => EUb OutOfFuel
      | VTooLong inp' => v1_lines afuel f lc inp'
      | VNone => EOk lc
      | VLine line inp' eof =>
          do* lc := v1_samp afuel lc line in
          if eof then EOk lc else v1_lines afuel f lc inp'
      end
  end.

(** ** Field types that normalize the rest of the message with another set of rules *)

(** v1_parser.c 136-163 [pcons_args]: [n] = expected_argc; at most n arguments, separated by
    ':', the last takes the rest. es_str2cstr drops NUL bytes. *)
Fixpoint psplit (n : nat) (s : text) : list text :=
  match n with
  | O => []
  | S O => [s]
  | S n' =>
      let k := scan (fun c => negb (ceq c ":")) s in
      match skipn k s with
      | [] => [s]
      | _ :: s' => firstn k s :: psplit n' s'
      end
  end.
Definition pargs (raw : option text) (n : nat) : list text :=
  match raw with None => [] | Some s => psplit n (drop_nul s) end.

(** v1_parser.c 175-186 [pcons_unescape_arg] *)
Definition unesc_arg (s : text) : text := drop_nul (unescape e s).

(** The loops v1_parser.c 1672-1676 and 1686-1691 over strtok_r: the maximal runs of bytes
    that are not in [delim]. *)
Fixpoint strtok (fuel : nat) (delim s : text) : list text :=
  match fuel with
  | O => []
  | S f =>
      let isd c := existsb (ceq c) delim in
      let s := skipn (scan isd s) s in
      match s with
      | [] => []
      | _ => let k := scan (fun c => negb (isd c)) s in firstn k s :: strtok f delim (skipn k s)
      end
  end.

(** ctx->ptree and the annotation set of a context. *)
Definition vctx := (vtree * list annot)%type.

(** v1_parser.c 1414-1420 *)
Inductive itype := IDec | IHex | IFloat | IBool.

(** What the constructors put into parser_data; [SNone] is NULL. *)
Inductive vsub : Type :=
| SNone
| STok (sep rem : text) (dflt : bool) (c : option vctx)   (* tok_str, remaining_field, use_default_field, ctx *)
| SRec (rem : text) (c : vctx)                            (* remaining_field, ctx *)
| SInt (it : itype) (c : vctx)
| SSuf (sufs : list text) (vname sname : text) (c : vctx).

(** v1_liblognorm.c 47-60 [ln_v1_inherittedCtx]: a new tree, no prefix, no annotations. (The
    options are those of the parent; this engine does not use them.) *)
Definition v1_child : lctx :=
  {| l_ctx := initCtx {| opt_orig := false; opt_rule := false; opt_loc := false |}; l_tree := vnew |}.
Definition vctx_of (lc : lctx) : vctx := (l_tree lc, c_annots (l_ctx lc)).

(** v1_parser.c 1121-1173 [load_generated_parser_samples],
    [generate_context_with_field_as_prefix] *)
Definition gen_ctx (descr : text) : er vctx :=
  do* lc := v1_samp 0 v1_child (L "rule=:%default:" ++ descr ++ L "%" ++ L "%tail:rest%") in
  do* lc := v1_samp 0 lc (L "rule=:%default:" ++ descr ++ L "%") in
  EOk (vctx_of lc).

(** v1_parser.c 924-1010: the constructors of recursive and descent. *)
Definition cons_rec (fuel : nat) (self : vctx) (f : vfield) : er vsub :=
  match vf_kind f with
  | KRecursive =>
      match pargs (vf_raw f) 1 with
      | rem :: _ => EOk (SRec rem self)
      | [] => EOk (SRec (L "tail") self)
      end
  | KDescent =>
      match pargs (vf_raw f) 2 with
      | [] => EOk SNone
      | file :: more =>
          match files e (unesc_arg file) with
          | None => EOk SNone
          | Some content =>
              do* lc := v1_lines fuel (S (List.length content)) v1_child content in
              EOk (SRec (match more with rem :: _ => rem | [] => L "tail" end) (vctx_of lc))
          end
      end
  | _ => EOk SNone
  end.

(** v1_parser.c 1195-1258 [tokenized_parser_data_constructor], 1175-1193
    [parse_tokenized_content_field] *)
Definition cons_tok (fuel : nat) (self : vctx) (f : vfield) : er vsub :=
  match pargs (vf_raw f) 2 with
  | sep :: descr :: _ =>
      let sep := unescape e (unesc_arg sep) in
      match vfieldDescr (L "default:" ++ descr ++ L "%") with
      | Ub u => EUb u
      | Bad _ => EOk SNone
      | Ok (fd, _) =>
          match vf_kind fd with
          | KRecursive | KDescent =>
              do* s := cons_rec fuel self fd in
              match s with
              | SRec rem c => EOk (STok sep rem false (Some c))
              | _ => EOk (STok sep (L "tail") false None)
              end
          | _ => do* c := gen_ctx descr in EOk (STok sep (L "tail") true (Some c))
          end
      end
  | _ => EOk SNone
  end.

(** v1_parser.c 1506-1562 [interpret_parser_data_constructor] *)
Definition cons_int (f : vfield) : er vsub :=
  match pargs (vf_raw f) 2 with
  | ty :: descr :: _ =>
      let it := if (text_eqb ty (L "int") || text_eqb ty (L "base10int"))%bool then Some IDec
                else if text_eqb ty (L "base16int") then Some IHex
                else if text_eqb ty (L "float") then Some IFloat
                else if text_eqb ty (L "bool") then Some IBool else None in
      match it with
      | None => EOk SNone
      | Some it => do* c := gen_ctx descr in EOk (SInt it c)
      end
  | _ => EOk SNone
  end.

(** v1_parser.c 1634-1740 [_suffixed_parser_data_constructor], 1742-1786 *)
Definition cons_suf (raw : option text) (vname sname : text) : er vsub :=
  match pargs raw 3 with
  | delim :: list :: more =>
      let list := unesc_arg list in
      match strtok (S (List.length list)) (unesc_arg delim) list with
      | [] => EOk SNone
      | sufs =>
          match more with
          | [] => EOk SNone
          | descr :: _ => do* c := gen_ctx descr in EOk (SSuf sufs vname sname c)
          end
      end
  | _ => EOk SNone
  end.

(** v1_samp.c 288: constructor_fn(node, ctx). The code calls it when the rule is loaded; the
    result depends on nothing but the field, the files and [self] (the context the rule
    belongs to, which recursive points to), and is computed here when the field is tried.
    Misbehaviour while it runs (in the rulebase of a descent field) shows at the match. *)
Definition vsub_of (fuel : nat) (self : vctx) (f : vfield) : er vsub :=
  match vf_kind f with
  | KTokenized => cons_tok fuel self f
  | KRecursive | KDescent => cons_rec fuel self f
  | KInterpret => cons_int f
  | KSuffixed => cons_suf (vf_raw f) (L "value") (L "suffix")
  | KNamedSuffixed =>
      match pargs (vf_raw f) 3 with
      | v :: s :: rest :: _ => cons_suf (Some rest) v s
      | _ => EOk SNone
      end
  | _ => EOk SNone
  end.

(** strtol(s, NULL, base): leading blanks, a sign, for base 16 an optional 0x, digits; the
    result is clamped to the range of long (64 bits). *)
Definition digit_of (base : Z) (c : ascii) : option Z :=
  let v := if isdigit c then dval c
           else if in_range 97 102 c then (Z.of_N (code c) - 87)%Z
           else if in_range 65 70 c then (Z.of_N (code c) - 55)%Z else 16%Z in
  if Z.ltb v base then Some v else None.
Fixpoint strtol_digits (base : Z) (s : text) (acc : Z) : Z :=
  match s with
  | [] => acc
  | c :: s' => match digit_of base c with Some d => strtol_digits base s' (acc * base + d)%Z | None => acc end
  end.
Definition clamp64 (z : Z) : Z :=
  if Z.ltb z (- 2 ^ 63) then (- 2 ^ 63)%Z else if Z.leb (2 ^ 63) z then (2 ^ 63 - 1)%Z else z.
Definition strtol (base : Z) (s : text) : Z :=
  let s := skipn (scan isspace s) s in
  let '(neg, s) := match s with
                   | c :: s' => if ceq c "-" then (true, s') else if ceq c "+" then (false, s') else (false, s)
                   | [] => (false, s)
                   end in
  let s := match s with
           | z :: x :: s' => if (Z.eqb base 16 && ceq z "0" && (ceq x "x" || ceq x "X"))%bool then s' else s
           | _ => s
           end in
  let v := strtol_digits base s 0 in
  clamp64 (if neg then - v else v)%Z.

Definition casecmp (a b : text) : bool := text_eqb (map tolower a) (map tolower b).

(** v1_parser.c 1427-1475 [reinterpret_value]; None = NULL. interpret_as_int returns an
    integer as it is, without a reference of its own: json_object_put(parsed_raw), 1497, frees
    it. Simplifications: a double is its text (of a string: strtod of that text); it is not
    zero when its mantissa has a digit other than 0. *)
Definition reinterpret (it : itype) (v : json) : res (option json) :=
  match it with
  | IDec | IHex =>
      match v with
      | JStr s => Ok (Some (JInt (strtol (match it with IDec => 10 | _ => 16 end) (cstr s))))
      | JInt _ => Ub UseAfterFree
      | _ => Ok None
      end
  | IFloat =>
      Ok (Some (JDouble match v with
                        | JStr s => cstr s
                        | JInt _ | JDouble _ => json_show e v
                        | JBool true => L "1.0"
                        | _ => L "0.0"
                        end))
  | IBool =>
      Ok (Some (JBool match v with
                      | JStr s => negb (casecmp (cstr s) (L "false") || casecmp (cstr s) (L "no"))
                      | JBool b => b
                      | JInt z => negb (Z.eqb z 0)
                      | JDouble r => existsb (in_range 49 57) (firstn (scan (fun c => negb (ceq (tolower c) "e")) r) r)
                      | _ => false
                      end))
  end.

Definition get_or_null (o : fields) (k : text) : json := match obj_get o k with Some v => v | None => JNull end.
(** json_object_get_string_len *)
Definition jstr_len (v : json) : nat := match v with JStr s => List.length s | _ => 0 end.

(** [es_strbufcmp(sep, r, es_strlen(sep)) == 0]; [r] is followed by a NUL. Simplification: a
    separator that agrees with [r] and its NUL is reported as a read behind [r]. *)
Fixpoint bufcmp (sep r : text) : res bool :=
  match sep, r with
  | [], _ => Ok true
  | c :: sep', d :: r' => if ceq c d then bufcmp sep' r' else Ok false
  | c :: _, [] => if ceq c NUL then Ub OobRead else Ok false
  end.

(** v1_parser.c 1055-1110 [ln_parseTokenized]: the loop. [rest] is remaining_str, [js] json_p,
    [acc] matches; result: remaining_len and matches. *)
Fixpoint tok_loop (fuel : nat) (norm : text -> fields -> res fields) (sep rem : text) (dflt : bool)
  (rest : text) (js : fields) (acc : list json) : res (nat * list json) :=
  match fuel with
  | O => Ub OutOfFuel
  | S fu =>
      match rest with
      | [] => Ok (0, acc)
      | _ =>
          let* js := norm rest (if dflt then js else []) in
          match (if dflt then obj_get js (L "default")
                 else match obj_get js (L "unparsed-data") with Some _ => None | None => Some (JObj js) end) with
          | None => if is_nil acc then Bad 0 else Ok (List.length rest + List.length sep, acc)
          | Some m =>
              match obj_get js rem with
              | None => Ok (0, acc ++ [m])
              | Some v =>
                  match jstr_len v, v with
                  | S _, JStr r =>
                      let js := obj_del js rem in
                      let m := if dflt then m else JObj js in
                      let* same := bufcmp sep r in
                      if same
                      then tok_loop fu norm sep rem dflt (skipn (List.length sep) r)
                             (if dflt then obj_del js (L "default") else js) (acc ++ [m])
                      else Ok (List.length r, acc ++ [m])
                  | _, _ => Ok (0, acc ++ [m])
                  end
              end
          end
      end
  end.

(** The first suffix that follows, v1_parser.c 1607-1621; strncmp(suffix, u, len). *)
Fixpoint suf_find (sufs : list text) (u : text) : option text :=
  match sufs with
  | [] => None
  | s :: sufs' => if Nat.eqb (cpl s u) (List.length s) then Some s else suf_find sufs' u
  end.

(** v1_parser.c 898-920 [ln_parseRecursive], 1055-1110 [ln_parseTokenized], 1477-1500
    [ln_parseInterpret], 1585-1632 [ln_parseSuffixed]: the number of bytes (it
    may be negative: the remaining field can be longer than the text) and *value. [norm c m js]
    is ln_normalize. *)
Definition run_sub (norm : vctx -> text -> fields -> res fields) (tokenized : bool) (s : vsub) (t : text)
  : res (Z * option json) :=
  let zlen (x : text) := Z.of_nat (List.length x) in
  match s with
  | SNone => if tokenized then Bad 0 else Ok (0%Z, None)
  | STok sep rem dflt c =>
      let* (left_, l) := tok_loop (S (List.length t))
          (fun m js => match c with None => Ub NullDeref | Some c => norm c m js end) sep rem dflt t [] [] in
      Ok ((zlen t - Z.of_nat left_)%Z, Some (JArr l))
  | SRec rem c =>
      let* js := norm c t [] in
      match obj_get js (L "unparsed-data") with
      | Some _ => Ok (0%Z, None)
      | None =>
          match obj_get js rem with
          | Some v => Ok ((zlen t - Z.of_nat (jstr_len v))%Z, Some (JObj (obj_del js rem)))
          | None => Ok (zlen t, Some (JObj js))
          end
      end
  | SInt it c =>
      let* js := norm c t [] in
      match obj_get js (L "unparsed-data") with
      | Some _ => Ok (0%Z, None)
      | None =>
          let* v := reinterpret it (get_or_null js (L "default")) in
          Ok ((zlen t - Z.of_nat (jstr_len (get_or_null js (L "tail"))))%Z, v)
      end
  | SSuf sufs vname sname c =>
      let* js := norm c t [] in
      match obj_get js (L "unparsed-data") with
      | Some _ => Ok (0%Z, None)
      | None =>
          match jstring e (get_or_null js (L "tail")) with
          | None => Ub NullDeref                                   (* strncmp(suffix, NULL, len) *)
          | Some u =>
              match suf_find sufs u with
              | None => Ok (0%Z, None)
              | Some s =>
                  Ok ((zlen t - Z.of_nat (jstr_len (get_or_null js (L "tail"))) + zlen s)%Z,
                      Some (JObj (obj_add (obj_add [] vname (get_or_null js (L "default"))) sname (JStr s))))
              end
          end
      end
  end.

Definition is_sub (k : vkind) : bool :=
  match k with
  | KTokenized | KRecursive | KDescent | KInterpret | KSuffixed | KNamedSuffixed => true
  | _ => false
  end.

(** [node->parser(...)] for all types, as [run_v1]; [self] is the context of the rule. The
    fuel bounds the depth to which fields are nested (in the rules and at run time). *)
Fixpoint run_field (fuel : nat) (self : vctx) (msg : text) (f : vfield) (offs : nat) {struct fuel}
  : res (nat * json) :=
  if is_sub (vf_kind f) then
    match fuel with
    | O => Ub OutOfFuel
    | S fu =>
        let norm (c : vctx) (m : text) (js : fields) : res fields :=
          match v1_normalize (run_field fu c m) (fst c) (snd c) m js with
          | EOk (_, js) => Ok js
          | EUb u => Ub u
          end in
        match vsub_of fuel self f with
        | EUb u => Ub u
        | EOk s =>
            let t := skipn offs msg in
            let* (n, v) := run_sub norm (vkind_eqb (vf_kind f) KTokenized) s t in
            let p := (Z.of_nat offs + n)%Z in           (* modulo 2^64, as in [run_v1] *)
            Ok (if Z.ltb p 0 then List.length msg else Z.to_nat p,
                match v with Some j => j | None => JStr (cstr (firstn (Z.to_nat n) t)) end)
        end
    end
  else run_v1 msg f offs.

Variable qsort : list prs -> list prs.

(** ** The API: ln_initCtx, ln_loadSamples, ln_loadSamplesFromString, ln_normalize *)

(** liblognorm.c 61-93 [ln_initCtx]; ctx->ptree is NULL, which is never followed: only a
    context of version 1 uses it, and samp.c 1088 sets it there. *)
Definition l_init (o : opts) : lctx := {| l_ctx := initCtx o; l_tree := vnew |}.

(** samp.c 1137-1163 [ln_sampLoad], 1081-1096 [doOldCruft]: a file that does not start with
    the line "version=2" is for this engine. It gets a new tree: what an earlier file put
    into the tree is lost. *)
Definition is_v1 (content : text) : bool := negb (text_eqb (firstn 10 content) version2).
Definition l_loadFile (fuel : nat) (lc : lctx) (file : text) : er (lctx * bool) :=
  let v2 := do* (cx, ok) := loadFile e qsort fuel (l_ctx lc) file in
            EOk ({| l_ctx := cx; l_tree := l_tree lc |}, ok) in
  match files e file with
  | Some (c :: content) =>
      if (is_v1 (c :: content) && (N.eqb (c_version (l_ctx lc)) 0 || N.eqb (c_version (l_ctx lc)) 1))%bool
      then do* lc := v1_lines fuel (S (List.length (c :: content)))
                       {| l_ctx := set_version (l_ctx lc) 1; l_tree := vnew |} (c :: content) in
           EOk (lc, true)
      else v2
  | _ => v2
  end.

(** liblognorm.c 176-190, samp.c 1183-1205: always the v2 engine. *)
Definition l_loadString (fuel : nat) (lc : lctx) (s : text) : er (lctx * bool) :=
  do* (cx, ok) := loadString e qsort fuel (l_ctx lc) s in
  EOk ({| l_ctx := cx; l_tree := l_tree lc |}, ok).

(** pdag.c 1619-1633 [ln_normalize]: the dispatch. *)
Definition l_normalize (fuel : nat) (lc : lctx) (msg : text) (js0 : fields)
  : er (bool * fields * lctx) :=
  if N.eqb (c_version (l_ctx lc)) 1 then
    do* (ok, js) := v1_normalize (run_field fuel (vctx_of lc) msg) (l_tree lc) (c_annots (l_ctx lc)) msg js0 in
    EOk (ok, js, lc)
  else
    do* (ok, js, cx) := normalize fuel e (l_ctx lc) msg js0 in
    EOk (ok, js, {| l_ctx := cx; l_tree := l_tree lc |}).

End V1.
