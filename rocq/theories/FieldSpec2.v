(** * FieldSpec2: what the structured field types accept and deliver, written without the model. *)
From Verif Require Import Base Parsers FieldSpec.

(** ** Several texts with a separator between them *)
Fixpoint joined (sep : text) (l : list text) : text :=
  match l with
  | [] => []
  | [x] => x
  | x :: r => x ++ sep ++ joined sep r
  end.

(** Members stored one after the other under their names: a name that is there already keeps its place and gets the new
    value. *)
Definition stored_in_order (l : list (text * json)) : json :=
  JObj (fold_left (fun o m => obj_add o (fst m) (snd m)) l []).

(** ** op-quoted-string: a quoted text (delivered without the quotes), or a word that does not start with a quote *)
Definition op_quoted_g (value pre post : text) : Prop :=
  (pre = L """" ++ value ++ L """" /\ ~ In """"%char value) \/
  (value = pre /\ word_g pre post /\ forall c r, pre = c :: r -> c <> """"%char).

(** ** v2-iptables: NAME, NAME= or NAME=value *)
Definition ipt_field : Type := text * option text.
Definition ipt_ok (f : ipt_field) : Prop :=
  fst f <> [] /\ Forall upper (fst f) /\ match snd f with None => True | Some v => Forall (fun c => ~ space c) v end.
Definition ipt_text (f : ipt_field) : text :=
  fst f ++ match snd f with None => [] | Some v => L "=" ++ v end.
Definition ipt_member (f : ipt_field) : text * json :=
  (fst f, match snd f with None => JNull | Some v => JStr v end).
(** at least two of them, one blank between, possibly one blank behind the last *)
Definition ipt_g (fs : list ipt_field) (t : text) : Prop :=
  2 <= List.length fs /\ Forall ipt_ok fs /\
  (t = joined (L " ") (map ipt_text fs) \/ t = joined (L " ") (map ipt_text fs) ++ L " ").

(** ** json, cee-syslog: the JSON library is a parameter.  Its contract: no JSON text starts with ']'. *)
Definition json_contract (e : env) : Prop := forall r, json_tok e ("]"%char :: r) = None.
(** "@cee:", white space, and a JSON object (at least two bytes in all) up to the end of the message *)
Definition cee_g (e : env) (v : json) (t : text) : Prop :=
  exists blanks obj, t = L "@cee:" ++ blanks ++ obj /\ Forall space blanks /\ 2 <= List.length blanks + List.length obj /\
    (exists r, obj = L "{" ++ r) /\ json_tok e obj = Some (v, List.length obj).

(** ** cisco-interface-spec: [interface:]ip/port, possibly " (ip2/port2)", possibly "(user)" or " (user)" *)
Record cisco : Type := {
  c_iface : option text; c_ip : text; c_port : text;
  c_second : option (text * ascii * text);   (* ip2, the character behind it, port2 *)
  c_user : option (text * text)              (* blank or nothing, user *)
}.
(** [u] goes on with a second address: note that the character between ip2 and port2 can be any *)
Definition second_at (u : text) (s : text * ascii * text) (r : text) : Prop :=
  let '(ip2, x, port2) := s in
  u = L " (" ++ ip2 ++ [x] ++ port2 ++ L ")" ++ r /\ ipv4_g ip2 [x] /\ port2 <> [] /\ all_digits port2.
(** [u] goes on with a user name: no white space and no ')' in it; an empty one counts only if something follows *)
Definition user_at (u : text) (s : text * text) (r : text) : Prop :=
  let '(sp, user) := s in
  u = sp ++ L "(" ++ user ++ L ")" ++ r /\ (sp = [] \/ sp = L " ") /\
  Forall (fun c => ~ space c /\ c <> ")"%char) user /\ (user <> [] \/ r <> []).
Definition second_text (s : option (text * ascii * text)) : text :=
  match s with None => [] | Some (ip2, x, port2) => L " (" ++ ip2 ++ [x] ++ port2 ++ L ")" end.
Definition user_text (s : option (text * text)) : text :=
  match s with None => [] | Some (sp, user) => sp ++ L "(" ++ user ++ L ")" end.
(** the message [t] starts with this specification, [post] is what follows; optional parts are taken if they are there *)
Definition cisco_g (s : cisco) (t post : text) : Prop :=
  exists r1 r2,
    t = match c_iface s with None => [] | Some n => n ++ L ":" end ++ c_ip s ++ L "/" ++ c_port s ++ r1 /\
    match c_iface s with
    | None => True
    | Some n => n <> [] /\ Forall (fun c => ~ space c /\ c <> ":"%char) n /\ ~ exists p q, t = p ++ q /\ ipv4_g p q
    end /\
    ipv4_g (c_ip s) (L "/") /\ c_port s <> [] /\ max_run digit (c_port s) r1 /\
    (r1 = second_text (c_second s) ++ r2 /\ match c_second s with Some x => second_at r1 x r2 | None => forall x r, ~ second_at r1 x r end) /\
    (r2 = user_text (c_user s) ++ post /\ match c_user s with Some x => user_at r2 x post | None => forall x r, ~ user_at r2 x r end).
Definition cisco_value (s : cisco) : json :=
  JObj (match c_iface s with Some n => [(L "interface", JStr n)] | None => [] end ++
        [(L "ip", JStr (c_ip s)); (L "port", JStr (c_port s))] ++
        match c_second s with Some (ip2, _, port2) => [(L "ip2", JStr ip2); (L "port2", JStr port2)] | None => [] end ++
        match c_user s with Some (_, u) => [(L "user", JStr u)] | None => [] end).

(** ** checkpoint-lea: fields "name: value;" with blanks in front of names and values *)
Record lea_field : Type := { l_b1 : text; l_name : text; l_b2 : text; l_value : text }.
Definition blank_only (t : text) : Prop := Forall (fun c => c = " "%char) t.
Definition lea_ok (term : ascii) (f : lea_field) : Prop :=
  blank_only (l_b1 f) /\ ~ In ":"%char (l_name f) /\ blank_only (l_b2 f) /\ ~ In ";"%char (l_value f) /\
  (forall c r, l_name f ++ L ":" = c :: r -> c <> " "%char /\ c <> term) /\
  (forall c r, l_value f = c :: r -> c <> " "%char).
Definition lea_text (f : lea_field) : text := l_b1 f ++ l_name f ++ L ":" ++ l_b2 f ++ l_value f ++ L ";".
Definition lea_member (f : lea_field) : text * json := (cstr (l_name f), JStr (cstr (l_value f))).
(** the fields go on to the end of the message or to the terminator; blanks in front of it are taken, too *)
Definition lea_g (term : ascii) (fs : list lea_field) (t pre post : text) : Prop :=
  Forall (lea_ok term) fs /\ t = pre ++ post /\
  exists b, pre = List.concat (map lea_text fs) ++ b /\ blank_only b /\
    ((post = [] /\ (fs = [] -> b = [])) \/ (exists r, post = term :: r /\ term <> " "%char)).

(** ** name-value-list *)
(** characters of names when no assignator is configured *)
Definition name_char (c : ascii) : Prop :=
  In c (L "abcdefghijklmnopqrstuvwxyzABCDEFGHIJKLMNOPQRSTUVWXYZ0123456789._-").
(** the separator: the configured one, or white space (NUL: none configured) *)
Definition nv_sep (sep c : ascii) : Prop := (sep = NUL /\ space c) \/ (sep <> NUL /\ c = sep).
(** how many backslashes stand directly in front of the end of [p] *)
Definition backslashes (p : text) : nat := fold_left (fun k c => if ceq c "\" then S k else 0) p 0.
Definition escaped_after (p : text) : Prop := Nat.odd (backslashes p) = true.
(** [v] holds no stop character that is not escaped *)
Definition runs_over (stop : ascii -> Prop) (v : text) : Prop :=
  forall p c q, v = p ++ c :: q -> stop c -> escaped_after p.
(** [u] starts with name, assignment and value, [rest] follows: a quoted value up to the next unescaped quote, otherwise
    up to the next unescaped separator or the end *)
Definition nv_pair_at (sep ass : ascii) (u : text) (p : text * text) (rest : text) : Prop :=
  let '(name, v) := p in
  exists a vt, u = name ++ [a] ++ vt ++ rest /\ name <> [] /\
    ((ass = NUL /\ a = "="%char /\ Forall name_char name) \/ (ass <> NUL /\ a = ass /\ ~ In ass name)) /\
    ((exists q, (q = """"%char \/ q = "'"%char) /\ vt = [q] ++ v ++ [q] /\ runs_over (eq q) v /\ ~ escaped_after v) \/
     (vt = v /\ (forall c r, vt ++ rest = c :: r -> c <> """"%char /\ c <> "'"%char) /\ runs_over (nv_sep sep) v /\
      forall c r, rest = c :: r -> nv_sep sep c /\ ~ escaped_after v)).
(** pairs as long as there are pairs, separators between them; [post] is what is left *)
Inductive nv_g (sep ass : ascii) : text -> list (text * text) -> text -> Prop :=
| nv_none u : (forall p r, ~ nv_pair_at sep ass u p r) -> nv_g sep ass u [] u
| nv_last u p c r : nv_pair_at sep ass u p (c :: r) -> ~ nv_sep sep c -> nv_g sep ass u [p] (c :: r)
| nv_more u p s r l post : nv_pair_at sep ass u p (s ++ r) -> Forall (nv_sep sep) s ->
    (s = [] -> r = []) -> (forall c q, r = c :: q -> ~ nv_sep sep c) ->
    nv_g sep ass r l post -> nv_g sep ass u (p :: l) post.
Definition nv_member (p : text * text) : text * json := (cstr (fst p), JStr (snd p)).

(** ** string *)
(** the characters between the quotes, or the unquoted ones: plain, escaped by a backslash, a doubled end quote *)
Inductive s_item : Type := SPlain (c : ascii) | SEsc (c : ascii) | SDbl.
Definition si_text (cfg : strcfg) (x : s_item) : text :=
  match x with SPlain c => [c] | SEsc c => ["\"%char; c] | SDbl => [s_qe cfg; s_qe cfg] end.
Definition si_val (cfg : strcfg) (x : s_item) : ascii :=
  match x with SPlain c => c | SEsc c => c | SDbl => s_qe cfg end.
Definition s_text (cfg : strcfg) (l : list s_item) : text := flat_map (si_text cfg) l.
Definition s_permitted (cfg : strcfg) (c : ascii) : Prop :=
  match s_perm cfg with None => True | Some l => In c l end.
Definition si_ok (cfg : strcfg) (quoted : bool) (x : s_item) : Prop :=
  match x with
  | SPlain c => s_permitted cfg c /\ (if quoted then c <> s_qe cfg else c <> " "%char) /\ (s_escbs cfg = true -> c <> "\"%char)
  | SEsc c => s_escbs cfg = true /\ s_permitted cfg c /\ (if quoted then True else c <> " "%char)
  | SDbl => quoted = true /\ s_escdbl cfg = true /\ s_permitted cfg (s_qe cfg)
  end.
(** matching.mode=strict: a blank or the end follows *)
Definition s_follow (cfg : strcfg) (post : text) : Prop := s_exact cfg = true -> post = [] \/ exists r, post = L " " ++ r.
(** quoted text; the value is made of the characters between the quotes, escapes removed *)
Definition s_quoted_g (cfg : strcfg) (t : text) (l : list s_item) (post : text) : Prop :=
  s_quote cfg <> QNone /\ t = [s_qb cfg] ++ s_text cfg l ++ [s_qe cfg] ++ post /\ Forall (si_ok cfg true) l /\
  (s_escdbl cfg = true -> forall c r, post = c :: r -> c <> s_qe cfg) /\ s_follow cfg post.
(** unquoted text: up to a blank or a character that is not permitted; a backslash in front of it, or at the very end of
    the message, is taken as well *)
Definition s_stops (cfg : strcfg) (c : ascii) : Prop := c = " "%char \/ ~ s_permitted cfg c.
Definition s_unquoted (cfg : strcfg) (t : text) : Prop :=
  s_quote cfg = QNone \/ s_quote cfg = QAuto /\ forall r, t <> s_qb cfg :: r.
Definition s_plain_g (cfg : strcfg) (t : text) (l : list s_item) (tail post : text) : Prop :=
  s_unquoted cfg t /\
  t = s_text cfg l ++ tail ++ post /\ Forall (si_ok cfg false) l /\ s_text cfg l ++ tail <> [] /\
  ((tail = [] /\ (post = [] \/ exists c r, post = c :: r /\ s_stops cfg c /\ (c = "\"%char -> s_escbs cfg = true -> r = []))) \/
   (tail = L "\" /\ s_escbs cfg = true /\ ((post = [] /\ s_permitted cfg "\"%char) \/ exists c r, post = c :: r /\ s_stops cfg c))) /\
  s_follow cfg post.
(** its value: the text, unless there was an escape (or a dangling backslash that does not end the message): then the
    escapes are removed - and, if doubling is configured, doubled quotes become single, too *)
Definition is_escape (x : s_item) : bool := match x with SPlain _ => false | _ => true end.
Fixpoint s_collapsed (cfg : strcfg) (l : list s_item) : text :=
  match l with
  | [] => []
  | x :: r => match x, r with
              | SPlain c, SPlain d :: r' =>
                  if (s_escdbl cfg && ceq c (s_qe cfg) && ceq d (s_qe cfg))%bool then c :: s_collapsed cfg r' else c :: s_collapsed cfg r
              | _, _ => si_val cfg x :: s_collapsed cfg r
              end
  end.
Definition s_plain_value (cfg : strcfg) (l : list s_item) (tail post : text) : text :=
  if (existsb is_escape l || match tail, post with _ :: _, _ :: _ => true | _, _ => false end)%bool
  then s_collapsed cfg l else map (si_val cfg) l ++ tail.
(** what the field can be used on: no NUL in the [n] bytes taken, and no byte above 127 in them or directly behind them
    where char is signed *)
Definition s_usable (e : env) (n : nat) (t : text) : Prop :=
  ~ In NUL (firstn n t) /\ (char_signed e = true -> Forall (fun c => (code c < 128)%N) (firstn (S n) t)).

(** ** ipv6 *)
Definition hexblock (b : text) : Prop := 1 <= List.length b <= 4 /\ Forall hexdigit b.
Definition ends_here (post : text) : Prop := post = [] \/ exists c r, post = c :: r /\ space c.
(** blocks each followed by a colon *)
Definition each_colon (bs : list text) : text := List.concat (map (fun b => b ++ L ":") bs).
(** what the code takes for an address ([post] follows):
    - one to eight blocks;
    - blocks, "::" (or ":::"), blocks; the blocks counted are below eight, where nothing in front of "::" counts as one
      block, so does the third colon, and so does nothing behind it when white space follows;
    - the same with an IPv4 address as last block (not counted; anything may follow) *)
Inductive ipv6_g (pre post : text) : Prop :=
| v6_full bs : pre = joined (L ":") bs -> Forall hexblock bs -> 1 <= List.length bs <= 8 -> ends_here post ->
    2 <= List.length (pre ++ post) -> ipv6_g pre post
| v6_abbr ls stray rs : pre = joined (L ":") ls ++ L "::" ++ stray ++ joined (L ":") rs -> stray = [] \/ stray = L ":" ->
    Forall hexblock ls -> Forall hexblock rs -> ends_here post ->
    Nat.max 1 (List.length ls) + List.length stray + List.length rs + match rs, post with [], _ :: _ => 1 | _, _ => 0 end < 8 ->
    ipv6_g pre post
| v6_full4 bs q : pre = each_colon bs ++ q -> Forall hexblock bs -> 1 <= List.length bs <= 8 -> ipv4_g q post -> ipv6_g pre post
| v6_abbr4 ls stray rs q : pre = joined (L ":") ls ++ L "::" ++ stray ++ each_colon rs ++ q -> stray = [] \/ stray = L ":" ->
    Forall hexblock ls -> Forall hexblock rs -> ipv4_g q post ->
    Nat.max 1 (List.length ls) + List.length stray + List.length rs < 8 -> ipv6_g pre post.

(** ** cef *)
(** header fields: '|' and '\' are escaped by a backslash *)
Inductive cef_hc : Type := HPlain (c : ascii) | HEsc (c : ascii).
Definition hc_ok (x : cef_hc) : Prop := match x with HPlain c => c <> "|"%char /\ c <> "\"%char | HEsc c => c = "|"%char \/ c = "\"%char end.
Definition hc_text (x : cef_hc) : text := match x with HPlain c => [c] | HEsc c => ["\"%char; c] end.
Definition hc_val (x : cef_hc) : ascii := match x with HPlain c => c | HEsc c => c end.
Definition hdr_text (h : list cef_hc) : text := flat_map hc_text h.
Definition hdr_val (h : list cef_hc) : text := map hc_val h.
(** "CEF:0|" and six fields, each followed by '|'; no field is empty (where assertions are on) *)
Definition cef_header (e : env) (hs : list (list cef_hc)) (t : text) : Prop :=
  List.length hs = 6 /\ Forall (Forall hc_ok) hs /\ (asserts_on e = true -> Forall (fun h => h <> []) hs) /\
  t = L "CEF:0|" ++ flat_map (fun h => hdr_text h ++ L "|") hs.
(** extension values: '=', '\', line feed, carriage return (and '/') are escaped *)
Inductive cef_vc : Type := VPlain (c : ascii) | VEsc (c : ascii).
Definition vc_ok (x : cef_vc) : Prop := match x with VPlain c => c <> "="%char /\ c <> "\"%char | VEsc c => In c (L "=\rn/") end.
Definition vc_text (x : cef_vc) : text := match x with VPlain c => [c] | VEsc c => ["\"%char; c] end.
Definition vc_val (x : cef_vc) : ascii :=
  match x with VPlain c => c | VEsc c => if ceq c "n" then chr 10 else if ceq c "r" then chr 13 else c end.
Definition cef_extension : Type := text * list cef_vc.
Definition ext_ok (x : cef_extension) : Prop :=
  fst x <> [] /\ Forall (fun c => In c (L "abcdefghijklmnopqrstuvwxyzABCDEFGHIJKLMNOPQRSTUVWXYZ0123456789_.")) (fst x) /\ Forall vc_ok (snd x).
Definition ext_text (x : cef_extension) : text := fst x ++ L "=" ++ flat_map vc_text (snd x).
Definition ext_member (x : cef_extension) : text * json := (fst x, JStr (map vc_val (snd x))).
Definition cef_value (hs : list (list cef_hc)) (exts : json) : json :=
  JObj (combine [L "DeviceVendor"; L "DeviceProduct"; L "DeviceVersion"; L "SignatureID"; L "Name"; L "Severity"]
                (map (fun h => JStr (cstr (hdr_val h))) hs) ++ [(L "Extensions", exts)]).
