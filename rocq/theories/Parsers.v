(** * Parsers: the v2 field parsers of /repo/src/parser.c, one definition per C function.

    Conventions (all definitions of this file):
    - [t] is what remains of the message from [*offs] on; indices are relative to
      [*offs], so the C index [*offs + k] is [k] here and [npb->strLen] is [length t].
    - [want] is [value != NULL] (the field has a name, pdag.c tryParser).
    - the result [Ok (n, v)] is: return 0, [*parsed = n], [*value = v].
    - every read of the message that the C code does not guard by its own length check
      goes through [rd] and can give [Ub OobRead].
    - malloc/strdup are assumed not to fail (the CHKN branches are not modelled). *)
From Verif Require Import Base Time.

(** parser.c 51-56 [enum FMT_MODE]. *)
Inductive fmt := FmtString | FmtNumber | FmtTsUx | FmtTsUxMs.

Definition is_string (f : fmt) : bool := match f with FmtString => true | _ => false end.

(** The parser result. *)
Definition pres := res (nat * json).

(** Success with the matched text as value. *)
Definition ok_text (want : bool) (t : text) (n : nat) : pres := Ok (n, jsub want t n).

(** ** date-rfc5424: parser.c 312-441 [ln_v2_parseRFC5424Date] *)

(** [if(len == 0 || *p++ != ch) goto done; --len;] *)
Definition expect (ch : ascii) (t : text) : res text :=
  match t with
  | c :: t' => if ceq c ch then Ok t' else Bad 0
  | [] => Bad 0
  end.

(** an integer within [lo, hi]: [x = hParseInt(..); if(x < lo || x > hi) goto done;] *)
Definition intIn (e : env) (lo hi : Z) (t : text) : res (Z * text) :=
  let* (v, u) := hParseInt e t in
  if (Z.ltb v lo || Z.ltb hi v)%bool then Bad 0 else Ok (v, u).

(** parser.c 426-430: [for(i = 0; i < prec-3; ++i) div *= 10;] in 32 bit int. *)
Fixpoint div_loop (e : env) (k : nat) (div : Z) : res Z :=
  match k with
  | O => Ok div
  | S k' => let* d := sint e 32 (div * 10) in div_loop e k' d
  end.

(** parser.c 420-433: the milliseconds added for FMT_AS_TIMESTAMP_UX_MS. *)
Definition ms_part (e : env) (secfrac : Z) (prec : nat) : res Z :=
  match prec with
  | 1%nat => sint e 32 (secfrac * 100)
  | 2%nat => sint e 32 (secfrac * 10)
  | _ => if Nat.ltb 3 prec
         then let* d := div_loop e (prec - 3) 1 in
              if Z.eqb d 0 then Ub DivZero else sint e 32 (Z.quot secfrac d)
         else Ok secfrac
  end.

Definition parseRFC5424Date (e : env) (f : fmt) (want : bool) (t : text) : pres :=
  let* (year, u) := hParseInt e t in
  let* u := expect "-" u in
  let* (month, u) := intIn e 1 12 u in
  let* u := expect "-" u in
  let* (day, u) := intIn e 1 31 u in
  let* u := expect "T" u in
  let* (hour, u) := intIn e 0 23 u in
  let* u := expect ":" u in
  let* (minute, u) := intIn e 0 59 u in
  let* u := expect ":" u in
  let* (second, u) := intIn e 0 60 u in
  (* 371-379: fractional seconds *)
  let* (secfrac, prec, u) :=
    match u with
    | c :: u' => if ceq c "." then
                   let* (v, w) := hParseInt e u' in
                   Ok (v, List.length u' - List.length w, w)
                 else Ok (0%Z, 0, u)
    | [] => Ok (0%Z, 0, u)
    end in
  (* 381-409: time zone *)
  let* (oh, om, ahead, u) :=
    match u with
    | [] => Bad 0
    | c :: u' =>
        if ceq c "Z" then Ok (0%Z, 0%Z, true, u')
        else if (ceq c "+" || ceq c "-")%bool then
          let* (oh, w) := intIn e 0 23 u' in
          let* w := expect ":" w in
          let* (om, w) := intIn e 0 59 w in
          Ok (oh, om, ceq c "+", w)
        else Bad 0
    end in
  (* 411-414: a space or the end must follow *)
  check (match u with c :: _ => ceq c " " | [] => true end) ;;
  let n := List.length t - List.length u in
  if negb want then Ok (n, JNull)
  else match f with
       | FmtString => ok_text true t n
       | _ =>
           let* ts := syslogTime2time_t year month day hour minute second oh om ahead in
           match f with
           | FmtTsUxMs =>
               let* ms := ms_part e secfrac prec in
               Ok (n, JInt (ts * 1000 + ms)%Z)
           | _ => Ok (n, JInt ts)
           end
       end.

(** ** date-rfc3164: parser.c 493-730 [ln_v2_parseRFC3164Date] *)

(** case-insensitive test against a lower-case letter: [*p == 'x' || *p == 'X'] *)
Definition letter (lc : ascii) (c : ascii) : bool := (ceq c lc || ceq c (chr (code lc - 32)))%bool.

(** parser.c 518-637: the month switch on the first three bytes. *)
Definition month3 (a b c : ascii) : option Z :=
  if letter "j" a then
    if letter "a" b then (if letter "n" c then Some 1%Z else None)
    else if letter "u" b then (if letter "n" c then Some 6%Z
                               else if letter "l" c then Some 7%Z else None)
    else None
  else if letter "f" a then
    if letter "e" b then (if letter "b" c then Some 2%Z else None) else None
  else if letter "m" a then
    if letter "a" b then (if letter "r" c then Some 3%Z
                          else if letter "y" c then Some 5%Z else None) else None
  else if letter "a" a then
    if letter "p" b then (if letter "r" c then Some 4%Z else None)
    else if letter "u" b then (if letter "g" c then Some 8%Z else None) else None
  else if letter "s" a then
    if letter "e" b then (if letter "p" c then Some 9%Z else None) else None
  else if letter "o" a then
    if letter "c" b then (if letter "t" c then Some 10%Z else None) else None
  else if letter "n" a then
    if letter "o" b then (if letter "v" c then Some 11%Z else None) else None
  else if letter "d" a then
    if letter "e" b then (if letter "c" c then Some 12%Z else None) else None
  else None.

Definition parseRFC3164Date (e : env) (f : fmt) (want : bool) (t : text) : pres :=
  match t with
  | a :: b :: c :: u =>
      match month3 a b c with
      | None => Bad 0
      | Some month =>
          let* u := expect " " u in
          (* 645-648: [*p] is read without a length check; at the end it is the NUL *)
          let* p := rd u 0 in
          let u := if ceq p " " then skipn 1 u else u in
          let* (day, u) := intIn e 1 31 u in
          let* u := expect " " u in
          let* (hour0, u) := hParseInt e u in
          (* 660-673: a value in 1971..2099 here is a year and is skipped *)
          let* (hour, u) :=
            if (Z.ltb 1970 hour0 && Z.ltb hour0 2100)%bool
            then let* u := expect " " u in hParseInt e u
            else Ok (hour0, u) in
          check (negb (Z.ltb hour 0 || Z.ltb 23 hour)) ;;
          let* u := expect ":" u in
          let* (minute, u) := intIn e 0 59 u in
          let* u := expect ":" u in
          let* (second, u) := intIn e 0 60 u in
          (* 695-702: optional trailing ':' *)
          let u := match u with c :: u' => if ceq c ":" then u' else u | [] => u end in
          let n := List.length t - List.length u in
          if negb want then Ok (n, JNull)
          else match f with
               | FmtString => ok_text true t n
               | _ =>
                   let* ts := syslogTime2time_t (cur_year e) month day hour minute second 0 0 true in
                   match f with
                   | FmtTsUxMs => Ok (n, JInt (ts * 1000)%Z)
                   | _ => Ok (n, JInt ts)
                   end
               end
      end
  | _ => Bad 0
  end.

(** ** number: parser.c 784-827 [ln_v2_parseNumber] *)
Fixpoint number_loop (e : env) (v : Z) (t : text) : res (Z * nat) :=
  match t with
  | c :: t' => if isdigit c
               then let* v' := acc10 e 64 v c in
                    let* (w, n) := number_loop e v' t' in Ok (w, S n)
               else Ok (v, 0)
  | [] => Ok (v, 0)
  end.

Definition parseNumber (e : env) (f : fmt) (maxval : Z) (want : bool) (t : text) : pres :=
  let* (v, n) := number_loop e 0 t in
  check (negb (Z.ltb 0 maxval && Z.ltb maxval v)) ;;
  check (negb (Nat.eqb n 0)) ;;
  if is_string f then ok_text want t n
  else Ok (n, if want then JInt v else JNull).

(** ** float: parser.c 883-941 [ln_v2_parseFloat].
    The double value itself is not modelled: json_object_new_double_s keeps the text. *)
Fixpoint float_loop (seen : bool) (t : text) : nat :=
  match t with
  | c :: t' => if ceq c "." then (if seen then 0 else S (float_loop true t'))
               else if isdigit c then S (float_loop seen t') else 0
  | [] => 0
  end.

Definition parseFloat (f : fmt) (want : bool) (t : text) : pres :=
  let* c := rd t 0 in
  let i := if ceq c "-" then 1 else 0 in
  let i := i + float_loop false (skipn i t) in
  check (negb (Nat.eqb i 0)) ;;
  if is_string f then ok_text want t i
  else Ok (i, if want then JDouble (firstn i t) else JNull).

(** ** hexnumber: parser.c 994-1038 [ln_v2_parseHexNumber] (uint64_t wraps) *)
Definition hexval (c : ascii) : Z :=
  let d := tolower c in
  if in_range 97 102 d then (Z.of_N (code d) - 97 + 10)%Z else (Z.of_N (code d) - 48)%Z.

Fixpoint hex_loop (v : Z) (t : text) : Z * nat :=
  match t with
  | c :: t' => if isxdigit c
               then let '(w, n) := hex_loop ((v * 16 + hexval c) mod 2 ^ 64)%Z t' in (w, S n)
               else (v, 0)
  | [] => (v, 0)
  end.

Definition parseHexNumber (f : fmt) (maxval : Z) (want : bool) (t : text) : pres :=
  let* c0 := rd t 0 in
  check (ceq c0 "0") ;;
  let* c1 := rd t 1 in
  check (ceq c1 "x") ;;
  let '(v, n) := hex_loop 0 (skipn 2 t) in
  let i := 2 + n in
  let* c := rd t i in
  check (isspace c) ;;
  check (negb (Z.ltb 0 maxval && Z.ltb maxval v)) ;;
  if is_string f then ok_text want t i
  else Ok (i, if want then JInt (wrap 64 v) else JNull).

(** ** kernel-timestamp: parser.c 1098-1145 [ln_v2_parseKernelTimestamp] *)
(** reads at [i], [i+1], ...: all must satisfy the predicates, in order. *)
Fixpoint rdall (t : text) (i : nat) (ps : list (ascii -> bool)) : res unit :=
  match ps with
  | [] => Ok tt
  | p :: ps' => let* c := rd t i in check (p c) ;; rdall t (S i) ps'
  end.

Definition parseKernelTimestamp (want : bool) (t : text) : pres :=
  let n := List.length t in
  let* c0 := rd t 0 in
  check (ceq c0 "[") ;;
  check (negb (Nat.ltb n 14)) ;;
  let* _ := rdall t 1 [isdigit; isdigit; isdigit; isdigit; isdigit] in
  (* 1121-1122: up to 7 more digits *)
  let i := 6 + scan isdigit (firstn 7 (skipn 6 t)) in
  check (Nat.ltb i n) ;;
  let* c := rd t i in
  check (ceq c ".") ;;
  let i := S i in
  check (negb (Nat.ltb n (i + 7))) ;;
  let* _ := rdall t i [isdigit; isdigit; isdigit; isdigit; isdigit; isdigit; ceq "]"] in
  ok_text want t (i + 7).

(** ** whitespace: parser.c 1157-1178 [ln_v2_parseWhitespace] *)
Definition parseWhitespace (want : bool) (t : text) : pres :=
  let* c := rd t 0 in
  check (isspace c) ;;
  ok_text want t (1 + scan isspace (skipn 1 t)).

(** ** word: parser.c 1186-1211 [ln_v2_parseWord] *)
Definition parseWord (want : bool) (t : text) : pres :=
  let n := scan (fun c => negb (ceq c " ")) t in
  check (negb (Nat.eqb n 0)) ;;
  ok_text want t n.

(** ** string-to: parser.c 1222-1265 [ln_v2_parseStringTo] *)
(** parser.c 1243-1252: the inner loop comparing the rest of the search string; [tl] is
    toFind from index j on, [u] the message from index m on. *)
Fixpoint strto_inner (tl u : text) : bool :=
  match tl, u with
  | f :: tl', c :: u' =>
      if ceq c f then match tl' with [] => true | _ => strto_inner tl' u' end
      else false
  | _, _ => false
  end.

(** parser.c 1236-1254: the outer loop; [u] is the message behind index i, which is
    incremented first. Returns the final i and chkstr. *)
Fixpoint strto_outer (toFind : text) (u : text) (i : nat) : res (nat * bool) :=
  match u with
  | [] => Ok (i, false)                       (* i == strLen *)
  | _ :: u' =>
      let i := S i in
      let* c := rd u' 0 in
      let* f0 := rdlit toFind 0 in
      if (ceq c f0 && strto_inner (skipn 1 toFind) (skipn 1 u'))%bool then Ok (i, true)
      else strto_outer toFind u' i
  end.

Definition parseStringTo (toFind : text) (want : bool) (t : text) : pres :=
  let* (i, found) := strto_outer toFind t 0 in
  check (negb (Nat.eqb i 0)) ;;
  check (negb (Nat.eqb i (List.length t))) ;;
  check found ;;
  ok_text want t i.

(** ** alpha: parser.c 1299-1325 [ln_v2_parseAlpha] *)
Definition parseAlpha (want : bool) (t : text) : pres :=
  let n := scan isalpha t in
  check (negb (Nat.eqb n 0)) ;;
  ok_text want t n.

(** membership in term_chars: parser.c 1356-1361, 1531-1536 *)
Definition mem (cs : text) (c : ascii) : bool := existsb (ceq c) cs.

(** ** char-to: parser.c 1342-1375 [ln_v2_parseCharTo] *)
Definition parseCharTo (term : text) (want : bool) (t : text) : pres :=
  let i := scan (fun c => negb (mem term c)) t in
  check (negb (Nat.eqb i 0)) ;;
  check (negb (Nat.eqb i (List.length t))) ;;
  ok_text want t i.

(** ** literal: parser.c 1430-1450 [ln_v2_parseLiteral].
    [*parsed] is set even on failure. *)
Fixpoint literal_loop (lit : text) (t : text) (j : nat) : res nat :=
  match t with
  | [] => Ok j
  | c :: t' => let* l := rdlit lit j in
               if ceq l c then literal_loop lit t' (S j) else Ok j
  end.

Definition parseLiteral (lit : text) (want : bool) (t : text) : pres :=
  let* j := literal_loop lit t 0 in
  let* l := rdlit lit j in
  if ceq l NUL then ok_text want t j else Bad j.

(** parser.c 1491-1504 [ln_combineData_Literal] *)
Definition combineLiteral (org add : text) : text := org ++ add.

(** ** char-sep: parser.c 1518-1547 [ln_v2_parseCharSeparated] *)
Definition parseCharSeparated (term : text) (want : bool) (t : text) : pres :=
  ok_text want t (scan (fun c => negb (mem term c)) t).

(** ** rest: parser.c 1579-1593 [ln_v2_parseRest] *)
Definition parseRest (want : bool) (t : text) : pres := ok_text want t (List.length t).

(** ** op-quoted-string: parser.c 1602-1644 [ln_v2_parseOpQuotedString].
    The value goes through strndup and json_object_new_string (C string), and is stored
    through [value] without a NULL check. *)
Definition store_op (want : bool) (n : nat) (s : text) : pres :=
  if want then Ok (n, JStr (cstr s)) else Ub NullDeref.

Definition parseOpQuotedString (want : bool) (t : text) : pres :=
  let* c := rd t 0 in
  if negb (ceq c """") then
    let i := scan (fun c => negb (ceq c " ")) t in
    check (negb (Nat.eqb i 0)) ;;
    store_op want i (firstn i t)
  else
    let i := 1 + scan (fun c => negb (ceq c """")) (skipn 1 t) in
    check (negb (Nat.eqb i (List.length t))) ;;
    let* q := rd t i in
    check (ceq q """") ;;
    store_op want (i + 1) (firstn (i - 1) (skipn 1 t)).

(** ** quoted-string: parser.c 1654-1686 [ln_v2_parseQuotedString] *)
Definition parseQuotedString (want : bool) (t : text) : pres :=
  check (negb (Nat.ltb (List.length t) 2)) ;;
  let* c := rd t 0 in
  check (ceq c """") ;;
  let i := 1 + scan (fun c => negb (ceq c """")) (skipn 1 t) in
  check (negb (Nat.eqb i (List.length t))) ;;
  let* q := rd t i in
  check (ceq q """") ;;
  ok_text want t (i + 1).

(** ** date-iso: parser.c 1694-1741 [ln_v2_parseISODate] *)
Definition parseISODate (want : bool) (t : text) : pres :=
  check (negb (Nat.ltb (List.length t) 10)) ;;
  let* _ := rdall t 0 [isdigit; isdigit; isdigit; isdigit; ceq "-"] in
  let* c5 := rd t 5 in
  let* c6 := rd t 6 in
  check (if ceq c5 "0" then in_range 49 57 c6
         else if ceq c5 "1" then in_range 48 50 c6 else false) ;;
  let* c7 := rd t 7 in
  check (ceq c7 "-") ;;
  let* c8 := rd t 8 in
  let* c9 := rd t 9 in
  check (if ceq c8 "0" then in_range 49 57 c9
         else if (ceq c8 "1" || ceq c8 "2")%bool then isdigit c9
         else if ceq c8 "3" then (ceq c9 "0" || ceq c9 "1")%bool else false) ;;
  ok_text want t 10.

(** ** duration: parser.c 1899-1936 [ln_v2_parseDuration] *)
Definition parseDuration (want : bool) (t : text) : pres :=
  let* c0 := rd t 0 in
  check (isdigit c0) ;;
  let* c1 := rd t 1 in
  let i := if isdigit c1 then 2 else 1 in
  let* c := rd t i in
  check (ceq c ":") ;;
  let i := S i in
  check (negb (Nat.ltb (List.length t) (i + 5))) ;;
  let* _ := rdall t i [in_range 48 53; isdigit; ceq ":"; in_range 48 53; isdigit] in
  ok_text want t (i + 5).

(** ** time-24hr: parser.c 1943-1980 [ln_v2_parseTime24hr] *)
Definition parseTime24hr (want : bool) (t : text) : pres :=
  check (negb (Nat.ltb (List.length t) 8)) ;;
  let* c0 := rd t 0 in
  let* c1 := rd t 1 in
  check (if (ceq c0 "0" || ceq c0 "1")%bool then isdigit c1
         else if ceq c0 "2" then in_range 48 51 c1 else false) ;;
  let* _ := rdall t 2 [ceq ":"; in_range 48 53; isdigit; ceq ":"; in_range 48 53; isdigit] in
  ok_text want t 8.

(** ** time-12hr: parser.c 1988-2024 [ln_v2_parseTime12hr] *)
Definition parseTime12hr (want : bool) (t : text) : pres :=
  check (negb (Nat.ltb (List.length t) 8)) ;;
  let* c0 := rd t 0 in
  let* c1 := rd t 1 in
  check (if ceq c0 "0" then isdigit c1
         else if ceq c0 "1" then in_range 48 50 c1 else false) ;;
  let* _ := rdall t 2 [ceq ":"; in_range 48 53; isdigit; ceq ":"; in_range 48 53; isdigit] in
  ok_text want t 8.

(** ** ipv4 *)
(** parser.c 2033-2057 [chkIPv4AddrByte]: returns what is behind the byte. *)
Definition chkIPv4AddrByte (t : text) : res text :=
  match t with
  | a :: t1 =>
      check (isdigit a) ;;
      let v := dval a in
      let '(v, u) :=
        match t1 with
        | b :: t2 =>
            if isdigit b then
              let v := (v * 10 + dval b)%Z in
              match t2 with
              | c :: t3 => if isdigit c then ((v * 10 + dval c)%Z, t3) else (v, t2)
              | [] => (v, t2)
              end
            else (v, t1)
        | [] => (v, t1)
        end in
      check (negb (Z.ltb 255 v)) ;;
      Ok u
  | [] => Bad 0
  end.

(** parser.c 2062-2096 [ln_v2_parseIPv4] *)
Definition parseIPv4 (want : bool) (t : text) : pres :=
  check (negb (Nat.ltb (List.length t) 7)) ;;
  let* u := chkIPv4AddrByte t in
  let* u := expect "." u in
  let* u := chkIPv4AddrByte u in
  let* u := expect "." u in
  let* u := chkIPv4AddrByte u in
  let* u := expect "." u in
  let* u := chkIPv4AddrByte u in
  ok_text want t (List.length t - List.length u).

(** ** cisco-interface-spec: parser.c 1756-1890 [ln_v2_parseCiscoInterfaceSpec] *)

(** parser.c 1786-1793: scan to ':', white space in between fails. *)
Fixpoint cisco_iface (t : text) (i : nat) : res nat :=
  match t with
  | [] => Ok i
  | c :: t' => check (negb (isspace c)) ;;
               if ceq c ":" then Ok i else cisco_iface t' (S i)
  end.

(** Success or failure of a helper parser call [ln_v2_parseX(...) == 0]. *)
Definition try_len (r : pres) : res (option nat) :=
  match r with Ok (n, _) => Ok (Some n) | Bad _ => Ok None | Ub u => Ub u end.

Definition sub (t : text) (i n : nat) : text := firstn n (skipn i t).

(** parser.c 1822-1841: optional second ip/port. Returns the new index and
    (idxIP2, lenIP2, idxPort2, lenPort2). *)
Definition cisco_ip2 (e : env) (t : text) (i : nat) : res (nat * option (nat * nat * nat * nat)) :=
  let n := List.length t in
  if negb (Nat.ltb (i + 5) n) then Ok (i, None)
  else
    let* c := rd t i in
    if negb (ceq c " ") then Ok (i, None) else
    let* d := rd t (i + 1) in
    if negb (ceq d "(") then Ok (i, None) else
    let idxIP2 := i + 2 in
    let* l := try_len (parseIPv4 false (skipn idxIP2 t)) in
    match l with
    | None => Ok (i, None)
    | Some lenIP2 =>
        let iTmp := idxIP2 + lenIP2 in
        (* 1828: [if(i < npb->strLen || c[iTmp] == '/')] *)
        let* slash := if Nat.ltb i n then Ok true else let* c := rd t iTmp in Ok (ceq c "/") in
        if negb slash then Ok (i, None) else
        let idxPort2 := S iTmp in
        let* l := try_len (parseNumber e FmtString 0 false (skipn idxPort2 t)) in
        match l with
        | None => Ok (i, None)
        | Some lenPort2 =>
            let iTmp := idxPort2 + lenPort2 in
            if negb (Nat.ltb iTmp n) then Ok (i, None) else
            let* c := rd t iTmp in
            if ceq c ")" then Ok (S iTmp, Some (idxIP2, lenIP2, idxPort2, lenPort2))
            else Ok (i, None)
        end
    end.

(** parser.c 1843-1860: optional user name. Returns new index and (idxUser, lenUser). *)
Definition cisco_user (t : text) (i : nat) : res (nat * option (nat * nat)) :=
  let n := List.length t in
  let* cond1 :=
    if Nat.ltb (i + 2) n then
      let* c := rd t i in
      if ceq c "(" then let* d := rd t (i + 1) in Ok (negb (isspace d)) else Ok false
    else Ok false in
  let* cond :=
    if cond1 then Ok true
    else if Nat.ltb (i + 3) n then
      let* c := rd t i in
      if ceq c " " then
        let* d := rd t (i + 1) in
        if ceq d "(" then let* f := rd t (i + 2) in Ok (negb (isspace f)) else Ok false
      else Ok false
    else Ok false in
  if negb cond then Ok (i, None) else
  let* c := rd t i in
  let idxUser := i + (if ceq c " " then 2 else 1) in
  let iTmp := idxUser + scan (fun c => (negb (isspace c) && negb (ceq c ")"))%bool) (skipn idxUser t) in
  if negb (Nat.ltb iTmp n) then Ok (i, None) else
  let* c := rd t iTmp in
  if ceq c ")" then Ok (S iTmp, Some (idxUser, iTmp - idxUser)) else Ok (i, None).

Definition parseCisco (e : env) (want : bool) (t : text) : pres :=
  let n := List.length t in
  let* c := rd t 0 in
  check (negb (ceq c ":" || isspace c)) ;;
  let* ip0 := try_len (parseIPv4 false t) in
  (* 1782-1798: interface name and position of the ip *)
  let* (i, iface, haveIP) :=
    match ip0 with
    | Some len => Ok (len - 1, None, Some len)
    | None => let* i := cisco_iface t 0 in Ok (i, Some i, None)
    end in
  check (negb (Nat.eqb i n)) ;;
  let i := S i in
  let* (i, idxIP, lenIP) :=
    match haveIP with
    | Some len => Ok (i, 0, len)
    | None => let* (len, _) := parseIPv4 false (skipn i t) in Ok (i + len, i, len)
    end in
  check (negb (Nat.eqb i n)) ;;
  let* c := rd t i in
  check (ceq c "/") ;;
  let i := S i in
  let idxPort := i in
  let* (lenPort, _) := parseNumber e FmtString 0 false (skipn i t) in
  let i := i + lenPort in
  let* (i, ip2) := cisco_ip2 e t i in
  let* (i, user) := cisco_user t i in
  if negb want then Ok (i, JNull)
  else
    let o := [] in
    let o := match iface with
             | Some len => obj_add_new o (L "interface") (JStr (sub t 0 len)) | None => o end in
    let o := obj_add_new o (L "ip") (JStr (sub t idxIP lenIP)) in
    let o := obj_add_new o (L "port") (JStr (sub t idxPort lenPort)) in
    let o := match ip2 with
             | Some (a, b, c, d) =>
                 obj_add_new (obj_add_new o (L "ip2") (JStr (sub t a b))) (L "port2") (JStr (sub t c d))
             | None => o end in
    let o := match user with
             | Some (a, b) => obj_add_new o (L "user") (JStr (sub t a b)) | None => o end in
    Ok (i, JObj o).

(** ** ipv6 *)

(** parser.c 2139-2173: the block loop (2106-2119 [skipIPv6AddrBlock] inlined: fails at
    the end of the message, skips up to four hex digits). Returns beginBlock, i,
    nBlocks, bHad0Abbrev, hasIPv4. *)
Fixpoint ipv6_loop (j : nat) (t : text) (begin i nb : nat) (had : bool)
  : res (nat * nat * nat * bool * bool) :=
  match j with
  | O => Ok (begin, i, nb, had, false)
  | S j' =>
      let n := List.length t in
      let begin := i in
      check (negb (Nat.eqb i n)) ;;
      let i := i + scan isxdigit (firstn 4 (skipn i t)) in
      let nb := S nb in
      if Nat.eqb i n then Ok (begin, i, nb, had, false) else
      let* c := rd t i in
      if isspace c then Ok (begin, i, nb, had, false) else
      if ceq c "." then Ok (begin, i, nb, had, true) else
      check (ceq c ":") ;;
      let i := S i in
      if Nat.eqb i n then Ok (begin, i, nb, had, false) else
      let* c := rd t i in
      if had then
        check (negb (ceq c ":")) ;; ipv6_loop j' t begin i nb had
      else if ceq c ":" then
        let i := S i in
        if Nat.eqb i n then Ok (begin, i, nb, true, false)
        else ipv6_loop j' t begin i nb true
      else ipv6_loop j' t begin i nb false
  end.

(** read at [i - k]; before the start of the field is reported as out of bounds *)
Definition rd_back (t : text) (i k : nat) : res ascii :=
  if Nat.ltb i k then Ub OobRead else rd t (i - k).

(** parser.c 2127-2203 [ln_v2_parseIPv6] *)
Definition parseIPv6 (want : bool) (t : text) : pres :=
  check (negb (Nat.ltb (List.length t) 2)) ;;
  let* c0 := rd t 0 in
  let* first := if isxdigit c0 then Ok true
                else if ceq c0 ":" then let* c1 := rd t 1 in Ok (ceq c1 ":") else Ok false in
  check first ;;
  let* (begin, i, nb, had, has4) := ipv6_loop 9 t 0 0 0 false in
  let* (i, nb) :=
    if has4 then
      check (negb (Nat.eqb begin 0)) ;;
      let* (len, _) := parseIPv4 false (skipn begin t) in
      Ok (begin + len, nb - 1)
    else Ok (i, nb) in
  check (negb (Nat.ltb 8 nb)) ;;
  check (negb (had && negb (Nat.ltb nb 8))) ;;
  let* c1 := rd_back t i 1 in
  let* trail := if ceq c1 ":" then let* c2 := rd_back t i 2 in Ok (negb (ceq c2 ":")) else Ok false in
  check (negb trail) ;;
  ok_text want t i.

(** ** v2-iptables *)
(** parser.c 2212-2217 [isValidIPTablesNameChar] *)
Definition isIptName (c : ascii) : bool := in_range 65 90 c.

(** parser.c 2221-2269 [parseIPTablesNameValue]: consumed bytes, name, value
    (JNull for a flag). *)
Definition parseIptNV (u : text) : res (nat * text * json) :=
  let n := List.length u in
  let i := scan isIptName u in
  check (negb (Nat.eqb i 0)) ;;
  if Nat.ltb i n then
    let* c := rd u i in
    check (ceq c "=" || ceq c " ")%bool ;;
    if negb (ceq c " ") then
      let iVal := S i in
      let l := scan (fun c => negb (isspace c)) (skipn iVal u) in
      Ok (iVal + l, firstn i u, JStr (sub u iVal l))
    else Ok (i, firstn i u, JNull)
  else Ok (i, firstn i u, JNull).

(** parser.c 2291-2298: stage one; consumed bytes and number of fields. *)
Fixpoint ipt_stage1 (fuel : nat) (u : text) : res (nat * nat) :=
  match fuel with
  | O => Ub OutOfFuel
  | S f =>
      match u with
      | [] => Ok (0, 0)
      | _ =>
          let* (k, _, _) := parseIptNV u in
          let u1 := skipn k u in
          let s := match u1 with c :: _ => if ceq c " " then 1 else 0 | [] => 0 end in
          let* (k', nf) := ipt_stage1 f (skipn s u1) in
          Ok (k + s + k', S nf)
      end
  end.

(** parser.c 2312-2318: stage two; the members collected. *)
Fixpoint ipt_stage2 (fuel : nat) (u : text) (o : fields) : res fields :=
  match fuel with
  | O => Ub OutOfFuel
  | S f =>
      match u with
      | [] => Ok o
      | _ =>
          let* (k, name, v) := parseIptNV u in
          let u1 := skipn k u in
          ipt_stage2 f (skipn (scan isspace u1) u1) (obj_add o (cstr name) v)
      end
  end.

(** parser.c 2287-2326 [ln_v2_parsev2IPTables]; a failure in stage two leaves [*parsed]
    set. *)
Definition parseIptables (want : bool) (t : text) : pres :=
  let* (k, nf) := ipt_stage1 (S (List.length t)) t in
  check (negb (Nat.ltb nf 2)) ;;
  if negb want then Ok (k, JNull)
  else match ipt_stage2 (S (List.length t)) t [] with
       | Ok o => Ok (k, JObj o)
       | Bad _ => Bad k
       | Ub u => Ub u
       end.

(** ** json: parser.c 2340-2378 [ln_v2_parseJSON].
    json_tokener_parse_ex is the oracle [json_tok]; the cast of the length to int is not
    modelled (messages below 2 GB). *)
Definition parseJSON (e : env) (want : bool) (t : text) : pres :=
  let* c := rd t 0 in
  check (ceq c "{" || ceq c "]")%bool ;;
  match json_tok e t with
  | None => Bad 0
  | Some (j, n) => Ok (n, if want then j else JNull)
  end.

(** ** cee-syslog: parser.c 2522-2569 [ln_v2_parseCEESyslog].
    [offs] is needed: on success [*parsed] is set to [npb->strLen], that is
    [offs + length t]. *)
Definition parseCEE (e : env) (offs : nat) (want : bool) (t : text) : pres :=
  let n := List.length t in
  check (negb (Nat.ltb n 7)) ;;
  let* _ := rdall t 0 [ceq "@"; ceq "c"; ceq "e"; ceq "e"; ceq ":"] in
  let i := 5 + scan isspace (skipn 5 t) in
  check (negb (Nat.eqb i n)) ;;
  let* c := rd t i in
  check (ceq c "{") ;;
  match json_tok e (skipn i t) with
  | None => Bad 0
  | Some (j, k) => check (Nat.eqb (i + k) n) ;;
                   Ok (offs + n, if want then j else JNull)
  end.

(** ** name-value-list *)
(** parser.c 2386-2394 [isValidNameChar] *)
Definition isValidNameChar (c : ascii) : bool :=
  (isalnum c || ceq c "." || ceq c "_" || ceq c "-")%bool.

(** [sep == 0 ? isspace(c) : c == sep] (0 = not configured) *)
Definition isSep (sep : ascii) (c : ascii) : bool := if ceq sep NUL then isspace c else ceq c sep.

(** parser.c 2449-2457 and 2478-2488: skip to an unescaped stop character.
    [odd] is [continuous_backslash % 2 == 1] (the int counter itself is not modelled). *)
Fixpoint nv_value (stop : ascii -> bool) (odd : bool) (u : text) : nat :=
  match u with
  | [] => 0
  | c :: u' => if (negb (stop c) || odd)%bool
               then S (nv_value stop (if ceq c "\" then negb odd else false) u')
               else 0
  end.

(** parser.c 2405-2511 [parseNameValue]: consumed bytes, name, value. *)
Definition parseNameValue (sep ass : ascii) (u : text) : res (nat * text * text) :=
  let n := List.length u in
  let i := scan (fun c => if negb (ceq ass NUL) then negb (ceq c ass) else isValidNameChar c) u in
  check (negb (Nat.eqb i 0)) ;;
  let* c := rd u i in
  check (if negb (ceq ass NUL) then ceq c ass else ceq c "=") ;;
  let lenName := i in
  let i := S i in
  let* q := rd u i in
  let quoted := (Nat.ltb i n && (ceq q """" || ceq q "'"))%bool in
  let quoting := if quoted then q else NUL in
  let i := if quoted then S i else i in
  let iVal := i in
  let i := i + (if quoted then nv_value (fun c => ceq c quoting) false (skipn i u)
                else nv_value (isSep sep) false (skipn i u)) in
  let* atq := if Nat.ltb i n then let* c := rd u i in Ok (ceq c quoting) else Ok false in
  let* i := if atq then Ok (S i) else if negb (ceq quoting NUL) then Bad 0 else Ok i in
  let lenVal := i - iVal - (if quoted then 1 else 0) in
  Ok (i, firstn lenName u, sub u iVal lenVal).

(** parser.c 2599-2609 / 2620-2631: the loop over the pairs (the text of stage one and
    stage two is the same; stage two also stores). Consumed bytes and members. *)
Fixpoint nv_loop (fuel : nat) (sep ass : ascii) (u : text) (o : fields) : res (nat * fields) :=
  match fuel with
  | O => Ub OutOfFuel
  | S f =>
      match u with
      | [] => Ok (0, o)
      | _ =>
          match parseNameValue sep ass u with
          | Ub x => Ub x
          | Bad _ => Ok (0, o)
          | Ok (k, name, v) =>
              let u1 := skipn k u in
              let o := obj_add o (cstr name) (JStr v) in
              if match u1 with c :: _ => negb (isSep sep c) | [] => false end then Ok (k, o)
              else
                let s := scan (isSep sep) u1 in
                let* (k', o) := nv_loop f sep ass (skipn s u1) o in
                Ok (k + s + k', o)
          end
      end
  end.

(** parser.c 2589-2637 [ln_v2_parseNameValue] *)
Definition parseNVList (sep ass : ascii) (want : bool) (t : text) : pres :=
  let* (k, o) := nv_loop (S (List.length t)) sep ass t [] in
  if negb want then Ok (k, JNull)
  else let* (_, o) := nv_loop (S (List.length t)) sep ass t [] in Ok (k, JObj o).

(** ** mac48: parser.c 2709-2754 [ln_v2_parseMAC48] *)
Definition parseMAC48 (want : bool) (t : text) : pres :=
  check (negb (Nat.ltb (List.length t) 17)) ;;
  let* _ := rdall t 0 [isxdigit; isxdigit] in
  let* d := rd t 2 in
  check (ceq d ":" || ceq d "-")%bool ;;
  let* _ := rdall t 3 [isxdigit; isxdigit; ceq d; isxdigit; isxdigit; ceq d;
                       isxdigit; isxdigit; ceq d; isxdigit; isxdigit; ceq d;
                       isxdigit; isxdigit] in
  ok_text want t 17.

(** ** cef *)
(** parser.c 2775-2797: the loop of [cefParseExtensionValue]; [u] is the message from
    index [i] on; returns the final i and iLastWordBegin. *)
Fixpoint cef_val_loop (u : text) (i last : nat) (hadSP inEsc : bool) : res (nat * nat) :=
  match u with
  | [] => Ok (i, last)
  | c :: u' =>
      if inEsc then
        check (ceq c "=" || ceq c "\" || ceq c "r" || ceq c "n" || ceq c "/")%bool ;;
        cef_val_loop u' (S i) last hadSP false
      else if ceq c "=" then Ok (i, last)
      else if ceq c "\" then cef_val_loop u' (S i) last hadSP true
      else if ceq c " " then cef_val_loop u' (S i) last true false
      else if hadSP then cef_val_loop u' (S i) i false false
      else cef_val_loop u' (S i) last false false
  end.

(** parser.c 2760-2808 [cefParseExtensionValue]. Indices are relative to the start of the
    CEF field; the sentinel 0 of iLastWordBegin is never a position in the extensions. *)
Definition cefParseExtensionValue (t : text) (i : nat) : res nat :=
  let* (j, last) := cef_val_loop (skipn i t) i 0 false false in
  if Nat.ltb j (List.length t) then Ok (if Nat.eqb last 0 then j else last - 1) else Ok j.

(** parser.c 2817-2829 [cefParseName]: number of name bytes. *)
Fixpoint cef_name (u : text) : res nat :=
  match u with
  | [] => Ok 0
  | c :: u' => if ceq c "=" then Ok 0
               else check (isalnum c || ceq c "_" || ceq c ".")%bool ;;
                    let* k := cef_name u' in Ok (S k)
  end.

(** parser.c 2881-2902: copy of an extension value; [u] is the message from the value on,
    [len] the bytes left to copy. [None] elements are uninitialised bytes. *)
Fixpoint cef_unesc (len : nat) (u : text) : list (option ascii) :=
  match len, u with
  | S len', c :: u' =>
      if ceq c "\" then
        let '(e, u'') := match u' with e :: u'' => (e, u'') | [] => (NUL, []) end in
        (if ceq e "=" then Some "="%char
         else if ceq e "n" then Some (chr 10)
         else if ceq e "r" then Some (chr 13)
         else if ceq e "\" then Some "\"%char
         else if ceq e "/" then Some "/"%char
         else None) :: cef_unesc (len' - 1) u''
      else Some c :: cef_unesc len' u'
  | _, _ => []
  end.

(** json_object_new_string on a buffer: uses every byte up to the first NUL. *)
Fixpoint cstr_init (b : list (option ascii)) : res text :=
  match b with
  | [] => Ok []
  | None :: _ => Ub UninitRead
  | Some c :: b' => if ceq c NUL then Ok [] else let* r := cstr_init b' in Ok (c :: r)
  end.

(** parser.c 2839-2916 [cefParseExtensions]; [store] is [jroot != NULL]. *)
Fixpoint cef_ext (fuel : nat) (t : text) (i : nat) (store : bool) (o : fields) : res fields :=
  match fuel with
  | O => Ub OutOfFuel
  | S f =>
      let n := List.length t in
      if negb (Nat.ltb i n) then Ok o else
      let i := i + scan (ceq " ") (skipn i t) in
      let iName := i in
      let* lenName := cef_name (skipn i t) in
      let i := i + lenName in
      let* c := rd t i in
      check (ceq c "=") ;;
      let* (iValue, lenValue, i) :=
        if Nat.ltb i n then
          let iValue := S i in
          let* j := cefParseExtensionValue t iValue in
          Ok (iValue, j - iValue, S j)
        else Ok (i, 0, i) in
      let* o :=
        if store then
          let* v := cstr_init (cef_unesc lenValue (skipn iValue t)) in
          Ok (obj_add o (cstr (sub t iName lenName)) (JStr v))
        else Ok o in
      cef_ext f t i store o
  end.

(** parser.c 2937-2944: scan of a header field; returns its length (to the '|'). *)
Fixpoint cef_hdr_scan (u : text) : res nat :=
  match u with
  | [] => Ok 0
  | c :: u' =>
      if ceq c "|" then Ok 0
      else if ceq c "\" then
        match u' with
        | d :: u'' => check (ceq d "\" || ceq d "|")%bool ;;
                      let* k := cef_hdr_scan u'' in Ok (S (S k))
        | [] => Bad 0         (* reads the terminating NUL: not '\' and not '|' *)
        end
      else let* k := cef_hdr_scan u' in Ok (S k)
  end.

(** parser.c 2958-2964: copy of a header field, escapes removed. *)
Fixpoint cef_hdr_copy (f : text) : text :=
  match f with
  | [] => []
  | c :: f' => if ceq c "\" then match f' with d :: f'' => d :: cef_hdr_copy f'' | [] => [] end
               else c :: cef_hdr_copy f'
  end.

(** parser.c 2927-2968 [cefGetHdrField]: field text and what is behind its '|'. *)
Definition cefGetHdrField (e : env) (u : text) : res (text * text) :=
  let* c := rd u 0 in
  if (asserts_on e && ceq c "|")%bool then Ub AssertFail else
  let* k := cef_hdr_scan u in
  let* c := rd u k in
  check (ceq c "|") ;;
  Ok (cef_hdr_copy (firstn k u), skipn (S k) u).

(** parser.c 2974-3060 [ln_v2_parseCEF] *)
Definition parseCEF (e : env) (want : bool) (t : text) : pres :=
  let n := List.length t in
  check (negb (Nat.ltb n 17)) ;;
  let* _ := rdall t 0 [ceq "C"; ceq "E"; ceq "F"; ceq ":"; ceq "0"; ceq "|"] in
  let* (vendor, u) := cefGetHdrField e (skipn 6 t) in
  let* (product, u) := cefGetHdrField e u in
  let* (version, u) := cefGetHdrField e u in
  let* (sigID, u) := cefGetHdrField e u in
  let* (name, u) := cefGetHdrField e u in
  let* (severity, u) := cefGetHdrField e u in
  let u := skipn (scan (ceq " ") u) u in
  let i := n - List.length u in
  let* _ := cef_ext (S n) t i false [] in
  if negb want then Ok (n, JNull)
  else
    let* ext := cef_ext (S n) t i true [] in
    Ok (n, JObj [(L "DeviceVendor", JStr (cstr vendor)); (L "DeviceProduct", JStr (cstr product));
                 (L "DeviceVersion", JStr (cstr version)); (L "SignatureID", JStr (cstr sigID));
                 (L "Name", JStr (cstr name)); (L "Severity", JStr (cstr severity));
                 (L "Extensions", JObj ext)]).

(** ** checkpoint-lea: parser.c 3069-3142 [ln_v2_parseCheckpointLEA];
    [v] is [*value] (JNull until the first field is stored), [nf] is foundFields.
    Returns consumed bytes and value. *)
Fixpoint lea_loop (fuel : nat) (term : ascii) (want : bool) (u : text) (nf : nat) (v : json)
  : res (nat * json) :=
  match fuel with
  | O => Ub OutOfFuel
  | S f =>
      match u with
      | [] => Ok (0, v)
      | _ =>
          let s := scan (ceq " ") u in
          let u1 := skipn s u in
          match u1 with
          | [] => if Nat.eqb nf 0 then Bad 0 else Ok (s, v)
          | c :: _ =>
              if ceq c term then Ok (s, v) else
              let ln := scan (fun c => negb (ceq c ":")) u1 in
              check (Nat.ltb (ln + 1) (List.length u1)) ;;
              let* cc := rd u1 ln in
              check (ceq cc ":") ;;
              let u2 := skipn (S ln) u1 in
              let s2 := scan (ceq " ") u2 in
              let u3 := skipn s2 u2 in
              let lv := scan (fun c => negb (ceq c ";")) u3 in
              check (negb (Nat.ltb (List.length u3) (lv + 1))) ;;
              let* sc := rd u3 lv in
              check (ceq sc ";") ;;
              let v := if want then
                         let o := match v with JObj o => o | _ => [] end in
                         JObj (obj_add o (cstr (firstn ln u1)) (JStr (cstr (firstn lv u3))))
                       else v in
              let* (k, v) := lea_loop f term want (skipn (S lv) u3) (S nf) v in
              Ok (s + (S ln + s2 + S lv) + k, v)
          end
      end
  end.

Definition parseLEA (term : ascii) (want : bool) (t : text) : pres :=
  lea_loop (S (List.length t)) term want t 0 JNull.

(** ** string *)
(** parser.c 3358-3370 [struct data_String]; strip_quotes is always 1 (3579).
    [s_perm = None]: every character permitted (memset 0xff, 3584). *)
Inductive qmode := QAuto | QNone | QReqd.
Record strcfg := {
  s_quote : qmode;
  s_escbs : bool;       (* esc_md is BACKSLASH or BOTH *)
  s_escdbl : bool;      (* esc_md is DOUBLE or BOTH *)
  s_exact : bool;       (* matching == ST_MATCH_EXACT *)
  s_qb : ascii;
  s_qe : ascii;
  s_perm : option text;
}.

(** parser.c 3382-3386 [stringIsPermittedChar]: [perm_chars[(unsigned)c]], a table of 256
    entries; a negative char becomes a huge index. *)
Definition isPermitted (e : env) (cfg : strcfg) (c : ascii) : res bool :=
  if (char_signed e && N.leb 128 (code c))%bool then Ub OobIndex
  else Ok (match s_perm cfg with None => true | Some l => mem l c end).

(** parser.c 3480-3521: the scan loop. Returns i, bHadEndQuote, bHadEscape. *)
Fixpoint string_scan (fuel : nat) (e : env) (cfg : strcfg) (t : text) (i : nat)
  (haveq hadesc : bool) : res (nat * bool * bool) :=
  match fuel with
  | O => Ub OutOfFuel
  | S f =>
      let n := List.length t in
      if negb (Nat.ltb i n) then Ok (i, false, hadesc) else
      let* c := rd t i in
      let* (stop, i, hadesc) :=
        if (haveq && ceq c (s_qe cfg))%bool then
          if s_escdbl cfg then
            let* dbl := if Nat.ltb (i + 1) n then let* d := rd t (i + 1) in Ok (ceq d (s_qe cfg))
                        else Ok false in
            if dbl then Ok (false, S i, true) else Ok (true, i, hadesc)
          else Ok (true, i, hadesc)
        else Ok (false, i, hadesc) in
      if stop then Ok (i, true, hadesc) else
      let* c := rd t i in
      let '(i, hadesc) := if (ceq c "\" && Nat.ltb (i + 1) n && s_escbs cfg)%bool
                          then (S i, true) else (i, hadesc) in
      let* c := rd t i in
      if (negb haveq && ceq c " ")%bool then Ok (i, false, hadesc) else
      let* p := isPermitted e cfg c in
      if negb p then Ok (i, false, hadesc) else
      string_scan f e cfg t (S i) haveq hadesc
  end.

(** parser.c 3548-3564: removal of escape characters. The C loop shifts the rest of the
    buffer left and goes on behind the shifted-in character. *)
Definition esc_here (cfg : strcfg) (c : ascii) (next : ascii) : bool :=
  ((ceq c (s_qe cfg) && ceq next (s_qe cfg) && s_escdbl cfg) || (ceq c "\" && s_escbs cfg))%bool.

Fixpoint string_unesc (cfg : strcfg) (s : text) : text :=
  match s with
  | [] => []
  | [c] => if esc_here cfg c NUL then [] else [c]
  | c :: ((d :: s'') as s') => if esc_here cfg c d then d :: string_unesc cfg s''
                               else c :: string_unesc cfg s'
  end.

(** does the removal loop find anything to remove? *)
Fixpoint has_esc (cfg : strcfg) (s : text) : bool :=
  match s with
  | [] => false
  | [c] => esc_here cfg c NUL
  | c :: ((d :: _) as s') => (esc_here cfg c d || has_esc cfg s')%bool
  end.

(** parser.c 3545-3567: the value. [raw] are the [len] bytes; strndup stops at a NUL and
    allocates only that much, while memmove always moves [len - j] bytes. *)
Definition string_value (cfg : strcfg) (hadesc : bool) (raw : text) : res json :=
  let s := cstr raw in
  if hadesc then
    if (has_esc cfg s && Nat.ltb (List.length s) (List.length raw))%bool then Ub OobWrite
    else Ok (JStr (string_unesc cfg s))
  else Ok (JStr s).

(** parser.c 3455-3571 [ln_v2_parseString] *)
Definition parseString (e : env) (cfg : strcfg) (want : bool) (t : text) : pres :=
  let n := List.length t in
  check (negb (Nat.eqb n 0)) ;;
  let* c := rd t 0 in
  let* haveq :=
    match s_quote cfg with
    | QAuto => Ok (ceq c (s_qb cfg))
    | QReqd => check (ceq c (s_qb cfg)) ;; Ok true
    | QNone => Ok false
    end in
  let* (i, endq, hadesc) := string_scan (S n) e cfg t (if haveq then 1 else 0) haveq false in
  check (negb (haveq && negb endq)) ;;
  check (negb (Nat.eqb i 0)) ;;
  let* good :=
    if (Nat.ltb i 1 || s_exact cfg)%bool then
      let k := if haveq then S i else i in
      let* c := rd t k in
      Ok (ceq c " " || Nat.eqb k n)%bool
    else Ok true in
  check good ;;
  let parsed := if endq then S i else i in
  if negb want then Ok (parsed, JNull)
  else
    let raw := if haveq then sub t 1 (parsed - 2) else firstn parsed t in
    let* v := string_value cfg hadesc raw in
    Ok (parsed, v).

(** ** The table of simple field types (pdag.c 70-103, parser bodies above) *)
Inductive motif : Type :=
| MLiteral (lit : text)
| MRFC3164 (f : fmt) | MRFC5424 (f : fmt)
| MNumber (f : fmt) (maxval : Z)
| MFloat (f : fmt)
| MHex (f : fmt) (maxval : Z)
| MKernelTs | MWhitespace | MIPv4 | MIPv6 | MWord | MAlpha | MRest
| MOpQuoted | MQuoted | MISODate | MTime24 | MTime12 | MDuration
| MCisco
| MNVList (sep ass : ascii)
| MJson | MCee | MMac48 | MCEF
| MLEA (term : ascii)
| MIptables
| MStringTo (s : text) | MCharTo (s : text) | MCharSep (s : text)
| MString (cfg : strcfg)
| MNoData (typ : text).   (* parser data block is NULL: the constructor failed *)

(** [prs->parse(npb, &offs, pdata, &parsed, value)] for the types without inner graphs. *)
Definition run_motif (e : env) (m : motif) (want : bool) (offs : nat) (t : text) : pres :=
  match m with
  | MLiteral l => parseLiteral l want t
  | MRFC3164 f => parseRFC3164Date e f want t
  | MRFC5424 f => parseRFC5424Date e f want t
  | MNumber f mx => parseNumber e f mx want t
  | MFloat f => parseFloat f want t
  | MHex f mx => parseHexNumber f mx want t
  | MKernelTs => parseKernelTimestamp want t
  | MWhitespace => parseWhitespace want t
  | MIPv4 => parseIPv4 want t
  | MIPv6 => parseIPv6 want t
  | MWord => parseWord want t
  | MAlpha => parseAlpha want t
  | MRest => parseRest want t
  | MOpQuoted => parseOpQuotedString want t
  | MQuoted => parseQuotedString want t
  | MISODate => parseISODate want t
  | MTime24 => parseTime24hr want t
  | MTime12 => parseTime12hr want t
  | MDuration => parseDuration want t
  | MCisco => parseCisco e want t
  | MNVList s a => parseNVList s a want t
  | MJson => parseJSON e want t
  | MCee => parseCEE e offs want t
  | MMac48 => parseMAC48 want t
  | MCEF => parseCEF e want t
  | MLEA c => parseLEA c want t
  | MIptables => parseIptables want t
  | MStringTo s => parseStringTo s want t
  | MCharTo s => parseCharTo s want t
  | MCharSep s => parseCharSeparated s want t
  | MString cfg => parseString e cfg want t
  | MNoData _ => Ub NullDeref
  end.
