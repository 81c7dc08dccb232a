(** * SafetySpec: the conditions under which a field parser may misbehave.

    Independent of the parser bodies: bytes, lists and the configuration of the field. *)
From Verif Require Import Base Parsers FieldSpec.

(** [t] contains [k] consecutive digits. *)
Definition long_run (k : nat) (t : text) : Prop :=
  exists a ds b, t = a ++ ds ++ b /\ all_digits ds /\ List.length ds = k.

(** [t] ends in a backslash. *)
Definition ends_bs (t : text) : Prop := exists a, t = a ++ L "\".

(** Only 7 bit characters. *)
Definition ascii7 (t : text) : Prop := Forall (fun c => (code c < 128)%N) t.

(** The JSON library never claims to have read more than it was given. *)
Definition tok_ok (e : env) : Prop := forall t j n, json_tok e t = Some (j, n) -> n <= List.length t.

(** [hazard e m want t u]: on the remaining message [t] a field of kind [m] is exposed to the
    misbehaviour [u]. There is no line for reading outside the message: it never happens. *)
Inductive hazard (e : env) : motif -> bool -> text -> ub -> Prop :=
(* more digits in a row than the C integer type holds, on a platform that does not wrap *)
| hz_number : forall f mx want t, wraps e = false -> long_run 19 t -> hazard e (MNumber f mx) want t SignedOverflow
| hz_cisco : forall want t, wraps e = false -> long_run 19 t -> hazard e MCisco want t SignedOverflow
| hz_rfc3164 : forall f want t, wraps e = false -> long_run 10 t -> hazard e (MRFC3164 f) want t SignedOverflow
| hz_rfc5424 : forall f want t, wraps e = false -> long_run 10 t -> hazard e (MRFC5424 f) want t SignedOverflow
| hz_rfc5424_ms : forall want t, long_run 10 t -> hazard e (MRFC5424 FmtTsUxMs) want t DivZero
(* an embedded NUL: the comparison runs past the end of the literal *)
| hz_literal : forall l want t, In NUL t -> hazard e (MLiteral l) want t OobLit
(* op-quoted-string without a name *)
| hz_opq : forall t, hazard e MOpQuoted false t NullDeref
(* string: bytes >= 128 on platforms with signed char; embedded NUL *)
| hz_string_index : forall cfg want t, char_signed e = true -> ~ ascii7 t -> hazard e (MString cfg) want t OobIndex
| hz_string_nul : forall cfg t, In NUL t -> hazard e (MString cfg) true t OobWrite
(* cef: asserts compiled in; trailing backslash in a named field *)
| hz_cef_assert : forall want t, asserts_on e = true -> hazard e MCEF want t AssertFail
| hz_cef_bs : forall t, ends_bs t -> hazard e MCEF true t UninitRead
(* a field whose configuration was incomplete *)
| hz_nodata : forall ty want t, hazard e (MNoData ty) want t NullDeref.

(** A message that triggers none of them, whatever the field (apart from op-quoted-string
    without a name and fields without configuration, excluded by [m_ok]). *)
Definition harmless (e : env) (t : text) : Prop :=
  ~ long_run 10 t /\ ~ In NUL t /\ ascii7 t /\ ~ ends_bs t /\ asserts_on e = false.
Definition m_ok (m : motif) (want : bool) : Prop :=
  match m with MOpQuoted => want = true | MNoData _ => False | _ => True end.

(** The field types documented to deliver the matched text (dates, numbers and floats with
    the default format). *)
Definition text_field (m : motif) : bool :=
  match m with
  | MLiteral _ | MRFC3164 FmtString | MRFC5424 FmtString | MNumber FmtString _ | MFloat FmtString
  | MHex FmtString _ | MKernelTs | MWhitespace | MIPv4 | MIPv6 | MWord | MAlpha | MRest | MQuoted
  | MISODate | MTime24 | MTime12 | MDuration | MMac48 | MStringTo _ | MCharTo _ | MCharSep _ => true
  | _ => false
  end.
