(** * Properties C22 (op-quoted-string), C28, C31, C32: the structured field types.
    Specifications: FieldSpec2.v.  Every theorem is an equivalence: the field succeeds, taking n bytes and delivering v,
    if and only if the grammar says so. *)
From Verif Require Import Base Time Parsers BaseFacts FieldSpec FieldSpec2 SafetySpec FieldFacts FieldFacts6 FieldFacts7 Engine Pdag Samp TestEnv.

(** ** C22 op-quoted-string (named) *)
Theorem C22_op_quoted_string : forall t n v, parseOpQuotedString true t = Ok (n, v) <->
  exists pre post value, t = pre ++ post /\ n = List.length pre /\ op_quoted_g value pre post /\ v = JStr (cstr value).
Proof. exact op_quoted_exact. Qed.
Print Assumptions C22_op_quoted_string.
Example C22_op_ex : parseOpQuotedString true (L """a b"" c") = Ok (5, JStr (L "a b")) /\
  parseOpQuotedString true (L "a""b c") = Ok (3, JStr (L "a""b")) /\ parseOpQuotedString true (L """ab") = Bad 0.
Proof. repeat split; reflexivity. Qed.
(** Without a field name every message the field would accept makes it store through a NULL pointer. *)
Theorem C22_unnamed_refuted : forall t n v, parseOpQuotedString true t = Ok (n, v) ->
  parseOpQuotedString false t = Ub NullDeref.
Proof.
  intros t n v. unfold parseOpQuotedString. destruct (rd t 0) as [c| |]; cbn [bind]; try discriminate. destruct (negb (ceq c """")).
  - destruct (negb (Nat.eqb _ 0)); [|discriminate]. reflexivity.
  - destruct (negb (Nat.eqb _ _)); [|discriminate]. destruct (rd t _) as [q| |]; cbn [bind]; try discriminate. destruct (ceq q """"); [reflexivity|discriminate].
Qed.
Print Assumptions C22_unnamed_refuted.
(** The value delivered stops at a NUL byte. *)
Theorem C22_nul_refuted : parseOpQuotedString true (L "a" ++ [NUL] ++ L "b") = Ok (3, JStr (L "a")).
Proof. reflexivity. Qed.
Print Assumptions C22_nul_refuted.

(** ** C28 v2-iptables *)
Theorem C28_iptables : forall want t n v, parseIptables want t = Ok (n, v) <->
  n = List.length t /\ exists fs, ipt_g fs t /\ v = if want then stored_in_order (map ipt_member fs) else JNull.
Proof. exact ipt_exact. Qed.
Print Assumptions C28_iptables.
Example C28_ex : ipt_g [(L "IN", Some (L "eth0")); (L "OUT", Some []); (L "DF", None)] (L "IN=eth0 OUT= DF") /\
  parseIptables true (L "IN=eth0 OUT= DF") = Ok (15, JObj [(L "IN", JStr (L "eth0")); (L "OUT", JStr []); (L "DF", JNull)]).
Proof.
  split; [|vm_compute; reflexivity]. split; [cbn; lia|]. split; [|left; reflexivity].
  assert (HU : forall l, forallb isIptName l = true -> Forall upper l) by (intros l H; rewrite forallb_forall in H; apply Forall_forall; intros c Hc; apply isIptName_iff; auto).
  assert (HV : forall l, forallb (fun c => negb (isspace c)) l = true -> Forall (fun c => ~ space c) l).
  { intros l H; rewrite forallb_forall in H; apply Forall_forall; intros c Hc Hs. apply isspace_iff in Hs. specialize (H c Hc). rewrite Hs in H. discriminate. }
  apply Forall_cons; [|apply Forall_cons; [|apply Forall_cons; [|apply Forall_nil]]]; (split; [discriminate|]); (split; [apply HU; reflexivity|]); cbn [snd];
    first [exact I|apply HV; reflexivity].
Qed.
(** One field is not enough, and text behind the list is not tolerated: these fail. *)
Theorem C28_one_field_refuted : (exists k, parseIptables true (L "IN=eth0") = Bad k) /\ (exists k, parseIptables true (L "IN=eth0 OUT= x") = Bad k).
Proof. split; eexists; vm_compute; reflexivity. Qed.
Print Assumptions C28_one_field_refuted.

(** ** C31 cisco-interface-spec *)
Theorem C31_cisco : forall e want t n v, wraps e = true \/ ~ long_run 19 t ->
  parseCisco e want t = Ok (n, v) <->
  exists s pre post, t = pre ++ post /\ n = List.length pre /\ cisco_g s t post /\ v = if want then cisco_value s else JNull.
Proof. exact cisco_exact. Qed.
Print Assumptions C31_cisco.
Example C31_ex : ~ long_run 19 (L "outside:176.97.252.102/50349 (10.0.0.1/80)(bob)x") /\
  parseCisco env0 true (L "outside:176.97.252.102/50349 (10.0.0.1/80)(bob)x") =
  Ok (47, JObj [(L "interface", JStr (L "outside")); (L "ip", JStr (L "176.97.252.102")); (L "port", JStr (L "50349"));
                (L "ip2", JStr (L "10.0.0.1")); (L "port2", JStr (L "80")); (L "user", JStr (L "bob"))]).
Proof.
  split; [|vm_compute; reflexivity]. intros (a & ds & b & H & HD & HL).
  assert (HC : forall k, k + 19 <= 48 -> forallb isdigit (firstn 19 (skipn k (L "outside:176.97.252.102/50349 (10.0.0.1/80)(bob)x"))) = false).
  { intros k Hk. do 30 (destruct k as [|k]; [reflexivity|]). lia. }
  assert (Hk : List.length a + 19 <= 48) by (apply (f_equal (@List.length ascii)) in H; rewrite !app_length in H; cbn [L list_ascii_of_string List.length] in H; lia).
  specialize (HC _ Hk). rewrite H in HC. rewrite skipn_app_exact, <- HL, firstn_app_exact in HC.
  assert (forallb isdigit ds = true); [|congruence]. apply forallb_forall. intros c Hc. apply isdigit_iff. eapply Forall_forall in HD; eauto.
Qed.
(** The separator of the second address is not checked: any character does. *)
Theorem C31_second_slash_refuted : parseCisco env0 true (L "1.2.3.4/5 (6.7.8.9#10)") =
  Ok (22, JObj [(L "ip", JStr (L "1.2.3.4")); (L "port", JStr (L "5")); (L "ip2", JStr (L "6.7.8.9")); (L "port2", JStr (L "10"))]).
Proof. vm_compute. reflexivity. Qed.
Print Assumptions C31_second_slash_refuted.
(** A port is any number, and an empty user name counts only if something follows it. *)
Theorem C31_loose_refuted :
  parseCisco env0 true (L "1.2.3.4/99999") = Ok (13, JObj [(L "ip", JStr (L "1.2.3.4")); (L "port", JStr (L "99999"))]) /\
  parseCisco env0 true (L "1.2.3.4/5()") = Ok (9, JObj [(L "ip", JStr (L "1.2.3.4")); (L "port", JStr (L "5"))]) /\
  parseCisco env0 true (L "1.2.3.4/5()x") = Ok (11, JObj [(L "ip", JStr (L "1.2.3.4")); (L "port", JStr (L "5")); (L "user", JStr [])]).
Proof. repeat split; vm_compute; reflexivity. Qed.
Print Assumptions C31_loose_refuted.

(** ** C32 json, cee-syslog: the JSON library is any function obeying its contract *)
Theorem C32_json : forall e want t n v, json_contract e ->
  (parseJSON e want t = Ok (n, v) <->
   (exists r, t = L "{" ++ r) /\ exists j, json_tok e t = Some (j, n) /\ v = if want then j else JNull).
Proof. exact json_exact. Qed.
Print Assumptions C32_json.
Theorem C32_cee : forall e offs want t n v,
  parseCEE e offs want t = Ok (n, v) <->
  n = offs + List.length t /\ exists j, cee_g e j t /\ v = if want then j else JNull.
Proof. exact cee_exact. Qed.
Print Assumptions C32_cee.
Example C32_ex : json_contract env0 /\ parseJSON env0 true (L "{}x") = Ok (2, JObj []) /\
  parseCEE env0 0 true (L "@cee: {}") = Ok (8, JObj []).
Proof. split; [intros r; reflexivity|]. split; vm_compute; reflexivity. Qed.
(** No array is ever accepted: the code tests for ']' where '[' is meant. *)
Theorem C32_array_refuted : forall e want r, parseJSON e want (L "[" ++ r) = Bad 0.
Proof. reflexivity. Qed.
Print Assumptions C32_array_refuted.
(** cee-syslog reports the length of the message, not the number of bytes it took: used behind other text, the position
    it reports lies behind the end of the message. *)
Theorem C32_cee_offset_refuted : forall e offs want t n v, 0 < offs ->
  parseCEE e offs want t = Ok (n, v) -> offs + List.length t < offs + n.
Proof. intros e offs want t n v Ho H. apply cee_exact in H. lia. Qed.
Print Assumptions C32_cee_offset_refuted.
Example C32_cee_offset_ex : parseCEE env0 3 true (L "@cee:{}") = Ok (10, JObj []).
Proof. vm_compute. reflexivity. Qed.
