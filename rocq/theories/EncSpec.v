(** * EncSpec: how the three output formats are read, stated without the encoders. *)
From Verif Require Import Base.

(** [v] is a value text without NUL byte. *)
Definition no_nul (v : text) : Prop := ~ In NUL v.

(** The text of a field value that the encoders know: a string (without NUL byte) is its own text, an integer its
    decimal form as printed by the JSON library. *)
Inductive scalar (e : env) : json -> text -> Prop :=
| sc_str : forall s, no_nul s -> scalar e (JStr s) s
| sc_int : forall z, no_nul (json_show e (JInt z)) -> scalar e (JInt z) (json_show e (JInt z)).

(** Texts joined by commas. *)
Fixpoint commas (l : list text) : text :=
  match l with [] => [] | [x] => x | x :: l' => x ++ ","%char :: commas l' end.

(** ** CSV *)

(** Value of a hex digit. *)
Definition hexval (c : ascii) : option N :=
  let n := code c in
  if (N.leb 48 n && N.leb n 57)%bool then Some (n - 48)%N
  else if (N.leb 65 n && N.leb n 70)%bool then Some (n - 55)%N
  else if (N.leb 97 n && N.leb n 102)%bool then Some (n - 87)%N
  else None.

(** The escapes of RFC 4627 strings: what is written, what is meant. *)
Inductive json_escape : text -> ascii -> Prop :=
| je_quote : json_escape ["\"; """"]%char """"%char
| je_backslash : json_escape (L "\\") "\"%char
| je_b : json_escape (L "\b") (chr 8)
| je_f : json_escape (L "\f") (chr 12)
| je_n : json_escape (L "\n") (chr 10)
| je_r : json_escape (L "\r") (chr 13)
| je_t : json_escape (L "\t") (chr 9)
| je_u : forall a b c d na nb nc nd,
    hexval a = Some na -> hexval b = Some nb -> hexval c = Some nc -> hexval d = Some nd ->
    (na * 4096 + nb * 256 + nc * 16 + nd < 256)%N ->
    json_escape (L "\u" ++ [a; b; c; d]) (chr (na * 4096 + nb * 256 + nc * 16 + nd)).

(** A byte that stands for itself inside a JSON string. *)
Definition json_plain (c : ascii) : Prop := (32 <= code c)%N /\ c <> """"%char /\ c <> "\"%char.

(** [w] written inside quotes means [v]. *)
Inductive json_text : text -> text -> Prop :=
| jt_nil : json_text [] []
| jt_plain : forall c w v, json_plain c -> json_text w v -> json_text (c :: w) (c :: v)
| jt_escape : forall x c w v, json_escape x c -> json_text w v -> json_text (x ++ w) (c :: v).

(** The quoting of RFC 4180: a quote is written twice, everything else stands for itself. *)
Inductive rfc4180_text : text -> text -> Prop :=
| rt_nil : rfc4180_text [] []
| rt_plain : forall c w v, c <> """"%char -> rfc4180_text w v -> rfc4180_text (c :: w) (c :: v)
| rt_quote : forall w v, rfc4180_text w v -> rfc4180_text (""""%char :: """"%char :: w) (""""%char :: v).

(** A line of columns separated by commas: each column empty or quoted. *)
Inductive row (quoted : text -> text -> Prop) : text -> list (option text) -> Prop :=
| row_one_empty : row quoted [] [None]
| row_one : forall w v, quoted w v -> row quoted ([""""%char] ++ w ++ [""""%char]) [Some v]
| row_empty : forall t cols, row quoted t cols -> row quoted (","%char :: t) (None :: cols)
| row_more : forall w v t cols, quoted w v -> row quoted t cols ->
    row quoted ([""""%char] ++ w ++ [""""%char] ++ ","%char :: t) (Some v :: cols).

(** [names] are the names listed in [t], separated by a comma or a blank. *)
Inductive listed : text -> list text -> Prop :=
| li_one : forall n, ~ In ","%char n -> ~ In " "%char n -> listed n [n]
| li_more : forall n s t ns, ~ In ","%char n -> ~ In " "%char n -> s = ","%char \/ s = " "%char -> listed t ns ->
    listed (n ++ s :: t) (n :: ns).

(** The first member of that name. *)
Definition member (o : fields) (n : text) (x : option json) : Prop :=
  match x with
  | Some v => exists a b, o = a ++ (n, v) :: b /\ ~ In n (map fst a)
  | None => ~ In n (map fst o)
  end.

(** What a CSV column of the event shows: nothing for a missing or null member, the text of a scalar, the array in
    brackets with its elements from the last to the first. *)
Inductive csv_cell (e : env) (o : fields) (n : text) : option text -> Prop :=
| cc_missing : member o n None -> csv_cell e o n None
| cc_null : member o n (Some JNull) -> csv_cell e o n None
| cc_scalar : forall j v, member o n (Some j) -> scalar e j v -> csv_cell e o n (Some v)
| cc_array : forall l vs, member o n (Some (JArr l)) -> Forall2 (scalar e) l vs ->
    csv_cell e o n (Some (L "[" ++ commas (rev vs) ++ L "]"))
| cc_other : forall j, member o n (Some j) -> (match j with JBool _ | JDouble _ | JObj _ => True | _ => False end) ->
    csv_cell e o n (Some (L "***unsupported type***")).

(** ** RFC 5424 structured data *)

(** The escapes used inside a parameter value: line feed as backslash n; comma, backslash, closing bracket and quote
    behind a backslash. *)
Inductive sd_item : text -> text -> Prop :=
| si_nil : sd_item [] []
| si_lf : forall w v, sd_item w v -> sd_item (L "\n" ++ w) (chr 10 :: v)
| si_esc : forall c w v, In c [","; "\"; "]"; """"]%char -> sd_item w v -> sd_item ("\"%char :: c :: w) (c :: v)
| si_plain : forall c w v, ~ In c [","; "\"; "]"; """"]%char -> sd_item w v -> sd_item (c :: w) (c :: v).
(** A parameter value is a list of items separated by bare commas. *)
Inductive sd_items : text -> list text -> Prop :=
| ss_one : forall w v, sd_item w v -> sd_items w [v]
| ss_more : forall w v t vs, sd_item w v -> sd_items t vs -> sd_items (w ++ ","%char :: t) (v :: vs).
(** A parameter name in the sense of RFC 5424: printable, none of = SP ] and quote. *)
Definition sd_name (n : text) : Prop :=
  Forall (fun c => (33 <= code c <= 126)%N /\ ~ In c ["="; " "; "]"; """"]%char) n.
(** Parameters: blank, name, =, quoted value. *)
Inductive sd_params : text -> list (text * list text) -> Prop :=
| sp_nil : sd_params [] []
| sp_cons : forall n w vs t ps, sd_name n -> sd_items w vs -> sd_params t ps ->
    sd_params (" "%char :: n ++ ["="; """"]%char ++ w ++ """"%char :: t) ((n, vs) :: ps).
Definition sd_element (t : text) (ps : list (text * list text)) : Prop :=
  exists u, t = L "[cee@115" ++ u ++ L "]" /\ sd_params u ps.

(** The PARAM-VALUE of RFC 5424 itself knows three escapes only. *)
Inductive rfc5424_value : text -> text -> Prop :=
| rv_nil : rfc5424_value [] []
| rv_esc : forall c w v, In c ["\"; "]"; """"]%char -> rfc5424_value w v -> rfc5424_value ("\"%char :: c :: w) (c :: v)
| rv_lone : forall c w v, ~ In c ["\"; "]"; """"]%char -> rfc5424_value (c :: w) v -> rfc5424_value ("\"%char :: c :: w) ("\"%char :: v)
| rv_plain : forall c w v, ~ In c ["\"; "]"; """"]%char -> rfc5424_value w v -> rfc5424_value (c :: w) (c :: v).

(** The items shown for a value: a scalar is one item; an array its elements from the last to the first (an empty array
    cannot be told from an empty text). *)
Inductive shown (e : env) : json -> list text -> Prop :=
| sh_scalar : forall j v, scalar e j v -> shown e j [v]
| sh_array : forall l vs, Forall2 (scalar e) l vs -> l <> [] -> shown e (JArr l) (rev vs)
| sh_empty : shown e (JArr []) [[]]
| sh_other : forall j, (match j with JBool _ | JDouble _ | JObj _ => True | _ => False end) ->
    shown e j [L "***unsupported type***"].

(** ** XML *)

(** Character data: no < and no &, except as the two entities. *)
Inductive xml_text : text -> text -> Prop :=
| xt_nil : xml_text [] []
| xt_lt : forall w v, xml_text w v -> xml_text (L "&lt;" ++ w) ("<"%char :: v)
| xt_amp : forall w v, xml_text w v -> xml_text (L "&amp;" ++ w) ("&"%char :: v)
| xt_plain : forall c w v, c <> "<"%char -> c <> "&"%char -> xml_text w v -> xml_text (c :: w) (c :: v).
(** The values of a field element *)
Inductive xml_values : text -> list text -> Prop :=
| xv_nil : xml_values [] []
| xv_cons : forall w v t vs, xml_text w v -> xml_values t vs ->
    xml_values (L "<value>" ++ w ++ L "</value>" ++ t) (v :: vs).
(** What a field element holds: values, or bare character data *)
Inductive xml_content : text -> list text + text -> Prop :=
| xc_values : forall t vs, xml_values t vs -> xml_content t (inl vs)
| xc_bare : forall w v, w <> [] -> xml_text w v -> xml_content w (inr v).
(** A text that may stand in a double-quoted attribute as it is *)
Definition xml_attr (n : text) : Prop := Forall (fun c => ~ In c ["<"; "&"; """"]%char) n.
Inductive xml_fields : text -> list (text * (list text + text)) -> Prop :=
| xf_nil : xml_fields [] []
| xf_cons : forall n w vs t fs, xml_attr n -> xml_content w vs -> xml_fields t fs ->
    xml_fields (L "<field name=""" ++ n ++ L """>" ++ w ++ L "</field>" ++ t) ((n, vs) :: fs).
Definition xml_event (t : text) (fs : list (text * (list text + text))) : Prop :=
  exists u, t = L "<event>" ++ u ++ L "</event>" /\ xml_fields u fs.
Inductive xml_shown (e : env) : json -> list text + text -> Prop :=
| xs_scalar : forall j v, scalar e j v -> xml_shown e j (inl [v])
| xs_array : forall l vs, Forall2 (scalar e) l vs -> xml_shown e (JArr l) (inl (rev vs))
| xs_other : forall j, (match j with JBool _ | JDouble _ | JObj _ => True | _ => False end) ->
    xml_shown e j (inr (L "***unsupported type***")).

(** With event.tags: the tags' texts as they are, from the last to the first; [tags_plain] is what makes them readable. *)
Definition sd_tag (v : text) : Prop := Forall (fun c => ~ In c [","; "\"; "]"; """"]%char) v.
Definition xml_tag (v : text) : Prop := Forall (fun c => ~ In c ["<"; "&"]%char) v.
Inductive xml_tags_text : text -> list text -> Prop :=
| tt_nil : xml_tags_text [] []
| tt_cons : forall w v t vs, xml_text w v -> xml_tags_text t vs ->
    xml_tags_text (L "<tag>" ++ w ++ L "</tag>" ++ t) (v :: vs).
