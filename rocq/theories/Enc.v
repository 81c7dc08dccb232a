(** * Enc: the event encoders, enc_csv.c, enc_syslog.c, enc_xml.c.

    Simplifications: memory allocation does not fail, so es_addChar/es_addBuf return 0
    and the CHKR around them never leaves; [*str] is a fresh buffer on entry and is
    returned as the sequence of bytes put into it. JNull is a NULL json_object pointer
    (json_object_get_type(NULL) = json_type_null). *)
From Verif Require Import Base Time Parsers Engine Pdag Samp.

(** enc_csv.c 51-53 [hexdigit] *)
Definition hexdigit (n : N) : ascii := chr (if N.ltb n 10 then 48 + n else 55 + n).

(** enc_csv.c 76-118: what is appended for one byte. [numbuf] gets the last four hex
    digits of the byte, most significant first. (case '\0' cannot occur below strlen.) *)
Definition csv_char (c : ascii) : text :=
  if (in_range 35 91 c || N.leb 93 (code c) || ceq c " " || ceq c "!")%bool then [c]
  else if ceq c NUL then L "\u0000"
  else if ceq c """" then ["\"; """"]%char
  else if ceq c "\" then L "\\"
  else if ceq c (chr 8) then L "\b"
  else if ceq c (chr 12) then L "\f"
  else if ceq c (chr 10) then L "\n"
  else if ceq c (chr 13) then L "\r"
  else if ceq c (chr 9) then L "\t"
  else let n := code c in
       L "\u" ++ [hexdigit (n / 16 / 16 / 16 mod 16); hexdigit (n / 16 / 16 mod 16);
                  hexdigit (n / 16 mod 16); hexdigit (n mod 16)].

(** enc_csv.c 63-125 [ln_addValue_CSV] *)
Definition addValue_CSV (buf : text) : text := flat_map csv_char (cstr buf).

(** The array loop of enc_csv.c 143-151 and enc_syslog.c 119-128, over the elements from
    the last one to the first: a comma first, then the value; a NULL element ends the
    function (second component false: what follows the loop is not reached). *)
Fixpoint comma_loop (e : env) (add : text -> text) (needComma : bool) (l : list json) : text * bool :=
  match l with
  | [] => ([], true)
  | obj :: l' =>
      let c := if needComma then L "," else [] in
      match jstring e obj with
      | None => (c, false)
      | Some v => let '(r, ok) := comma_loop e add true l' in (c ++ add v ++ r, ok)
      end
  end.

Definition unsupported : text := L "***unsupported type***".

(** enc_csv.c 128-173 [ln_addField_CSV]; the caller ignores the result. *)
Definition addField_CSV (e : env) (field : json) : text :=
  match field with
  | JArr l => let '(r, ok) := comma_loop e addValue_CSV false (rev l) in
              L "[" ++ r ++ (if ok then L "]" else [])
  | JStr _ | JInt _ => match jstring e field with Some v => addValue_CSV v | None => [] end
  | JNull | JBool _ | JDouble _ | JObj _ => unsupported
  end.

(** enc_csv.c 193-202: the name list is cut at each comma and each blank. *)
Fixpoint csv_names (t : text) : list text :=
  match t with
  | [] => [[]]
  | c :: t' =>
      if (ceq c "," || ceq c " ")%bool then [] :: csv_names t'
      else match csv_names t' with
           | n :: ns => (c :: n) :: ns
           | [] => [[c]]
           end
  end.

(** enc_csv.c 193-214: one column per name; a missing member and a member with a NULL
    value leave [field] NULL and add nothing. *)
Fixpoint csv_columns (e : env) (o : fields) (needComma : bool) (names : list text) : text :=
  match names with
  | [] => []
  | n :: names' =>
      (if needComma then L "," else []) ++
      (match obj_get o n with
       | None | Some JNull => []
       | Some field => [""""%char] ++ addField_CSV e field ++ [""""%char]
       end) ++ csv_columns e o true names'
  end.

(** enc_csv.c 176-220 [ln_fmtEventToCSV]: return code and [*str]. *)
Definition fmtEventToCSV (e : env) (json : json) (extraData : option text) : res (Z * text) :=
  match json with
  | JObj o =>
      match extraData with
      | None => Ok (-1, [])%Z
      | Some names => Ok (0%Z, csv_columns e o false (csv_names (drop_nul names)))
      end
  | _ => if asserts_on e then Ub AssertFail else Ub NullDeref
  end.

(** enc_syslog.c 46-100 [ln_addValue_Syslog], one byte (case '\0' cannot occur) *)
Definition syslog_char (c : ascii) : text :=
  if ceq c NUL then L "\0"
  else if ceq c (chr 10) then L "\n"
  else if ceq c "," then L "\,"
  else if ceq c "\" then L "\\"
  else if ceq c "]" then L "\]"
  else if ceq c """" then ["\"; """"]%char
  else [c].
Definition addValue_Syslog (value : text) : text := flat_map syslog_char (cstr value).

(** enc_syslog.c 103-149 [ln_addField_Syslog]; the caller ignores the result. *)
Definition addField_Syslog (e : env) (name : text) (field : json) : res text :=
  match field with
  | JNull => if asserts_on e then Ub AssertFail
             else Ok (cstr name ++ L "=""" ++ unsupported ++ L """")
  | JArr l => let '(r, ok) := comma_loop e addValue_Syslog false (rev l) in
              Ok (cstr name ++ L "=""" ++ r ++ (if ok then L """" else []))
  | JStr _ | JInt _ =>
      Ok (cstr name ++ L "=""" ++ match jstring e field with Some v => addValue_Syslog v ++ L """" | None => [] end)
  | JBool _ | JDouble _ | JObj _ => Ok (cstr name ++ L "=""" ++ unsupported ++ L """")
  end.

(** enc_syslog.c 152-177 [ln_addTags_Syslog]: what is appended, and whether the result is
    0 (a NULL tag leaves with LN_NOMEM). The tags are copied as they are.
    json_object_array_length of anything but an array: the library asserts. *)
Definition addTags_Syslog (e : env) (taglist : json) : res (text * bool) :=
  match taglist with
  | JArr l => let '(r, ok) := comma_loop e cstr false (rev l) in
              Ok (L " event.tags=""" ++ r ++ (if ok then L """" else []), ok)
  | _ => Ub AssertFail
  end.

(** enc_syslog.c 195-204: every member but event.tags, in the order of the object. *)
Fixpoint members_Syslog (e : env) (o : fields) : res text :=
  match o with
  | [] => Ok []
  | (n, v) :: o' =>
      let* a := if text_eqb (cstr n) (L "event.tags") then Ok []
                else let* f := addField_Syslog e n v in Ok (L " " ++ f) in
      let* b := members_Syslog e o' in
      Ok (a ++ b)
  end.

(** internal.h / liblognorm.h: LN_NOMEM *)
Definition LN_NOMEM : Z := (-1)%Z.

(** enc_syslog.c 179-209 [ln_fmtEventToRFC5424]: [r] is -1 from the start; only adding the
    tags sets it (to 0, or to LN_NOMEM and nothing more is added). *)
Definition fmtEventToRFC5424 (e : env) (json : json) : res (Z * text) :=
  match json with
  | JObj o =>
      match obj_get o (L "event.tags") with
      | Some tl =>
          let* (tags, ok) := addTags_Syslog e tl in
          if ok then let* m := members_Syslog e o in Ok (0%Z, L "[cee@115" ++ tags ++ m ++ L "]")
          else Ok (LN_NOMEM, L "[cee@115" ++ tags)
      | None => let* m := members_Syslog e o in Ok ((-1)%Z, L "[cee@115" ++ m ++ L "]")
      end
  | _ => if asserts_on e then Ub AssertFail else Ub NullDeref
  end.

(** enc_xml.c 59-128 [ln_addValue_XML], one byte (case '\0' cannot occur) *)
Definition xml_char (c : ascii) : text :=
  if ceq c NUL then L "&#00;"
  else if ceq c "<" then L "&lt;"
  else if ceq c "&" then L "&amp;"
  else [c].
Definition addValue_XML (value : text) : text :=
  L "<value>" ++ flat_map xml_char (cstr value) ++ L "</value>".

(** enc_xml.c 147-154 *)
Fixpoint xml_loop (e : env) (l : list json) : text * bool :=
  match l with
  | [] => ([], true)
  | obj :: l' =>
      match jstring e obj with
      | None => ([], false)
      | Some v => let '(r, ok) := xml_loop e l' in (addValue_XML v ++ r, ok)
      end
  end.

(** enc_xml.c 131-175 [ln_addField_XML]; the caller ignores the result. *)
Definition addField_XML (e : env) (name : text) (field : json) : res text :=
  let start := L "<field name=""" ++ cstr name ++ L """>" in
  match field with
  | JNull => if asserts_on e then Ub AssertFail else Ok (start ++ unsupported ++ L "</field>")
  | JArr l => let '(r, ok) := xml_loop e (rev l) in Ok (start ++ r ++ (if ok then L "</field>" else []))
  | JStr _ | JInt _ =>
      Ok (start ++ match jstring e field with Some v => addValue_XML v ++ L "</field>" | None => [] end)
  | JBool _ | JDouble _ | JObj _ => Ok (start ++ unsupported ++ L "</field>")
  end.

(** enc_xml.c 178-198 [ln_addTags_XML]: as above *)
Fixpoint xml_tags (e : env) (l : list json) : text * bool :=
  match l with
  | [] => ([], true)
  | obj :: l' =>
      match jstring e obj with
      | None => (L "<tag>", false)
      | Some v => let '(r, ok) := xml_tags e l' in (L "<tag>" ++ cstr v ++ L "</tag>" ++ r, ok)
      end
  end.
Definition addTags_XML (e : env) (taglist : json) : res (text * bool) :=
  match taglist with
  | JArr l => let '(r, ok) := xml_tags e (rev l) in
              Ok (L "<event.tags>" ++ r ++ (if ok then L "</event.tags>" else []), ok)
  | _ => Ub AssertFail
  end.

(** enc_xml.c 216-225 *)
Fixpoint members_XML (e : env) (o : fields) : res text :=
  match o with
  | [] => Ok []
  | (n, v) :: o' =>
      let* a := if text_eqb (cstr n) (L "event.tags") then Ok [] else addField_XML e n v in
      let* b := members_XML e o' in
      Ok (a ++ b)
  end.

(** enc_xml.c 200-230 [ln_fmtEventToXML] *)
Definition fmtEventToXML (e : env) (json : json) : res (Z * text) :=
  match json with
  | JObj o =>
      match obj_get o (L "event.tags") with
      | Some tl =>
          let* (tags, ok) := addTags_XML e tl in
          if ok then let* m := members_XML e o in Ok (0%Z, L "<event>" ++ tags ++ m ++ L "</event>")
          else Ok (LN_NOMEM, L "<event>" ++ tags)
      | None => let* m := members_XML e o in Ok ((-1)%Z, L "<event>" ++ m ++ L "</event>")
      end
  | _ => if asserts_on e then Ub AssertFail else Ub NullDeref
  end.
