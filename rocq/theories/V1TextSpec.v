(** * V1TextSpec: the texts the v1 field types take and the values they deliver, written
      without the model (the grammars are those of FieldSpec, FieldSpec2 and DateSpec). *)
From Verif Require Import Base Parsers FieldSpec FieldSpec2 DateSpec SafetySpec V1.

(** The byte that ends a char-to or char-sep field with extra data [c]: where char is signed,
    a byte above 127 ends nothing. *)
Definition ends_v1 (e : env) (c x : ascii) : Prop :=
  x = c /\ (char_signed e = true -> (N_of_ascii x < 128)%N).

(** ** Types whose value is the text they take *)
Definition plain_type (k : vkind) : bool :=
  match k with
  | KDate3164 | KDate5424 | KNumber | KFloat | KHex | KKernelTs | KWhitespace | KIPv4 | KIPv6
  | KWord | KAlpha | KRest | KISODate | KTime24 | KTime12 | KDuration | KMac48
  | KStringTo | KCharTo | KCharSep => true
  | _ => false
  end.

(** [pre] is what the field takes when [pre ++ post] remains of the message. *)
Definition v1_takes (e : env) (f : vfield) (pre post : text) : Prop :=
  match vf_kind f with
  | KDate3164 => exists s, rfc3164_text s pre post
  | KDate5424 => exists s, rfc5424_text s pre /\ blank_or_end post
  | KNumber => pre <> [] /\ max_run digit pre post
  | KFloat => float_g pre post
  | KHex => exists hs, pre = L "0x" ++ hs /\ Forall hexdigit hs /\ exists c r, post = c :: r /\ space c
  | KKernelTs => kernel_ts_g pre post
  | KWhitespace => whitespace_g pre post
  | KIPv4 => ipv4_g pre post
  | KIPv6 => ipv6_g pre post
  | KWord => word_g pre post
  | KAlpha => alpha_g pre post
  | KRest => rest_g pre post
  | KISODate => date_iso_g pre post
  | KTime24 => time24_g pre post
  | KTime12 => time12_g pre post
  | KDuration => duration_g pre post
  | KMac48 => mac48_g pre post
  | KStringTo => exists s, vf_data f = Some s /\ string_to_g s pre post
  | KCharTo => exists c, vf_data f = Some [c] /\ pre <> [] /\ Forall (fun x => ~ ends_v1 e c x) pre /\
                 exists x r, post = x :: r /\ ends_v1 e c x
  | KCharSep => exists c, vf_data f = Some [c] /\ max_run (fun x => ~ ends_v1 e c x) pre post
  | _ => False
  end.

(** The extra data fit the type, and no number is too long for the date types. *)
Definition v1_usable (f : vfield) (t : text) : Prop :=
  match vf_kind f with
  | KDate3164 | KDate5424 => ~ long_run 10 t
  | KStringTo => exists s, vf_data f = Some s /\ 2 <= List.length s /\ ~ In NUL s
  | KCharTo | KCharSep => exists c, vf_data f = Some [c]
  | _ => True
  end.

(** ** Types with values of their own *)

(** name-value-list: name=value, white space between; it takes all that remains. *)
Inductive v1_nv_g : text -> list (text * text) -> Prop :=
| vnv_end : v1_nv_g [] []
| vnv_pair name v b u l :
    name <> [] -> Forall name_char name -> Forall (fun c => ~ space c) v -> Forall space b ->
    (u <> [] -> b <> []) -> (forall c r, u = c :: r -> ~ space c) -> v1_nv_g u l ->
    v1_nv_g (name ++ "="%char :: v ++ b ++ u) ((name, v) :: l).
Definition v1_nv_member (p : text * text) : text * json := (fst p, JStr (snd p)).

(** checkpoint-lea: as in the other engine, up to the end of the message. *)
Definition v1_lea_value (fs : list lea_field) : json :=
  match fs with [] => JStr [] | _ => stored_in_order (map lea_member fs) end.

(** cisco-interface-spec: only the text is delivered if the message ends behind the port. *)
Definition v1_cisco_value (s : cisco) (pre post : text) : json :=
  match c_second s, c_user s, post with
  | None, None, [] => JStr pre
  | _, _, _ => cisco_value s
  end.

(** cef: no backslash in front of a slash (the v1 code treats it as an escape). *)
Definition no_slash (t : text) : Prop := forall a r, t <> a ++ L "\/" ++ r.

(** cef and checkpoint-lea: the position is decreased, not increased, by the number [n] of
    bytes taken; a position in front of the message counts as its end. *)
Definition v1_back (offs n len : nat) : nat := if Nat.ltb offs n then len else offs - n.
