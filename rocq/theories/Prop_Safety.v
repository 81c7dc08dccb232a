(** * Prop_Safety: C08, C09, C10 -- consumed length, undefined behaviour, delivered text. *)
From Verif Require Import Base Time Parsers FieldSpec SafetySpec IntFacts ParserSafe ParserSafe2 ParserText TestEnv.

(** ** C08 *)
(** Every field type but cee-syslog: the consumed length is within what remains of the message. *)
Theorem C08_consumed_within_message : forall e m want offs t n v,
  tok_ok e -> m <> MCee ->
  run_motif e m want offs t = Ok (n, v) -> n <= List.length t.
Proof. exact motif_len. Qed.
Print Assumptions C08_consumed_within_message.
Example C08_ex : run_motif env0 MCisco true 0 (L "outside:10.0.0.1/25 (192.168.1.1/80) rest") <> Bad 0.
Proof. vm_compute. discriminate. Qed.

(** cee-syslog reports the length of the whole message: as soon as it does not start at
    position 0 it consumes more than there is. *)
Theorem C08_cee_refuted : ~ (forall e m want offs t n v,
  tok_ok e -> run_motif e m want offs t = Ok (n, v) -> n <= List.length t).
Proof.
  intros H.
  pose (e1 := {| wraps := true; asserts_on := false; char_signed := true; cur_year := 2026;
     json_tok := fun t => Some (JObj [], List.length t); json_show := fun _ => []; json_num := fun _ => 0%Z;
     json_erroff := fun _ => 0; unescape := fun t => t; files := fun _ => None |}).
  specialize (H e1 MCee true 1 (L "@cee:{}") 8 (JObj [])).
  assert (8 <= 7); [|lia]. apply H; [|reflexivity]. intros t j n [= <- <-]. lia.
Qed.
Print Assumptions C08_cee_refuted.

(** ** C09 *)
(** Whatever the message: a field parser can misbehave only in the ways and under the
    conditions listed in [hazard]; reading outside the message is not among them. *)
Theorem C09_hazards_complete : forall e m want offs t u,
  run_motif e m want offs t = Ub u -> hazard e m want t u.
Proof. exact motif_ub. Qed.
Print Assumptions C09_hazards_complete.

Theorem C09_no_read_outside : forall e m want offs t,
  run_motif e m want offs t <> Ub OobRead.
Proof. intros e m want offs t H. apply motif_ub in H. inversion H. Qed.
Print Assumptions C09_no_read_outside.

(** No misbehaviour at all on messages without ten digits in a row, NUL, 8 bit characters or
    trailing backslash, with asserts compiled out. *)
Theorem C09_harmless_messages_are_safe : forall e m want offs t u,
  harmless e t -> m_ok m want -> run_motif e m want offs t <> Ub u.
Proof. exact motif_no_ub. Qed.
Print Assumptions C09_harmless_messages_are_safe.
Example C09_ex_harmless : forall (e : env), asserts_on e = false -> harmless e (L "ab 12 x").
Proof.
  intros e He. repeat split; auto.
  - intros (a & ds & b & H & _ & Hl). apply (f_equal (@List.length _)) in H. rewrite !app_length in H. cbn in H. lia.
  - cbn. intros H. repeat (destruct H as [H|H]; [discriminate|]). exact H.
  - repeat constructor.
  - intros [a H]. apply (f_equal (@rev _)) in H. rewrite rev_app_distr in H. discriminate.
Qed.

(** Each of the hazards is real. *)
Theorem C09_refuted :
  (* literal, message with embedded NUL *)
  run_motif env0 (MLiteral (L "ab")) false 0 (L "ab" ++ [NUL] ++ L "x") = Ub OobLit /\
  (* op-quoted-string without a name *)
  run_motif env0 MOpQuoted false 0 (L "x y") = Ub NullDeref /\
  (* number with 19 digits *)
  run_motif env0 (MNumber FmtString 0) true 0 (L "9999999999999999999") = Ub SignedOverflow /\
  (* dates with ten digits in a row *)
  run_motif env0 (MRFC5424 FmtString) true 0 (L "9999999999-01-01T00:00:00Z") = Ub SignedOverflow /\
  run_motif env0 (MRFC3164 FmtString) true 0 (L "Oct 9999999999 00:00:00") = Ub SignedOverflow /\
  (* string: 8 bit character; escaped text with NUL *)
  run_motif env0 (MString {| s_quote := QAuto; s_escbs := true; s_escdbl := true; s_exact := true; s_qb := """"; s_qe := """"; s_perm := None |})
     true 0 [chr 200] = Ub OobIndex /\
  run_motif env0 (MString {| s_quote := QAuto; s_escbs := true; s_escdbl := true; s_exact := true; s_qb := """"; s_qe := """"; s_perm := None |})
     true 0 (L "\a" ++ [NUL]) = Ub OobWrite /\
  (* cef: empty header field, trailing backslash *)
  run_motif env0 MCEF true 0 (L "CEF:0||p|v|s|n|sev|a=b") = Ub AssertFail /\
  run_motif env0 MCEF true 0 (L "CEF:0|V|p|v|s|n|sev|a=b\") = Ub UninitRead.
Proof. vm_compute. repeat split. Qed.
Print Assumptions C09_refuted.

(** With wrapping integers the division by zero of the millisecond computation is reached. *)
Theorem C09_divzero_refuted : exists e t,
  run_motif e (MRFC5424 FmtTsUxMs) true 0 t = Ub DivZero.
Proof.
  exists {| wraps := true; asserts_on := false; char_signed := true; cur_year := 2026;
     json_tok := fun _ => None; json_show := fun _ => []; json_num := fun _ => 0%Z;
     json_erroff := fun _ => 0; unescape := fun t => t; files := fun _ => None |},
   (L "2003-08-24T05:14:15.00000000000000000000000000000000000Z"). vm_compute. reflexivity.
Qed.
Print Assumptions C09_divzero_refuted.

(** ** C10 *)
Theorem C10_delivered_text_is_consumed_text : forall e m want offs t n v,
  text_field m = true -> run_motif e m want offs t = Ok (n, v) ->
  v = if want then JStr (firstn n t) else JNull.
Proof. exact motif_text_value. Qed.
Print Assumptions C10_delivered_text_is_consumed_text.
Example C10_ex : run_motif env0 MIPv6 true 3 (L "fe80::1 tail") = Ok (7, JStr (L "fe80::1")).
Proof. vm_compute. reflexivity. Qed.
