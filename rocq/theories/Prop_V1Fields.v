(** * C74: the texts the field types of the v1 engine take, and the values they deliver.
    The grammars are in FieldSpec, FieldSpec2, DateSpec and V1TextSpec. A message is
    [before ++ t]; the field is tried behind [before]. *)
From Verif Require Import Base BaseFacts Time Parsers FieldSpec FieldSpec2 DateSpec SafetySpec FieldFacts FieldFacts6 FieldFacts7 DateFacts V1 V1FieldSpec V1TextSpec V1Text TestEnv.

Local Open Scope list_scope.

(** ** Types whose value is the text they take *)
Theorem C74_plain_fields : forall e f t before, plain_type (vf_kind f) = true -> v1_usable f t -> ~ In NUL t -> forall o v,
  run_v1 e (before ++ t) f (List.length before) = Ok (o, v) <->
  exists pre post, t = pre ++ post /\ o = List.length before + List.length pre /\ v1_takes e f pre post /\ v = JStr pre.
Proof. exact plain_exact. Qed.
Print Assumptions C74_plain_fields.

(** ** Quoted strings: the value is what stands between the quotes *)
Lemma fwd_iff offs (r : pres) o v : (let* (n, w) := r in Ok (offs + n, w)) = Ok (o, v) <-> exists n, r = Ok (n, v) /\ o = offs + n.
Proof.
  split.
  - intros E. apply bind_ok in E. destruct E as ([n w] & -> & E). injection E as <- <-. eauto.
  - intros (n & -> & ->). reflexivity.
Qed.
Theorem C74_quoted_string : forall e f t before o v, vf_kind f = KQuoted ->
  run_v1 e (before ++ t) f (List.length before) = Ok (o, v) <->
  exists inner post, t = L """" ++ inner ++ L """" ++ post /\ ~ In """"%char inner /\
    o = List.length before + List.length (L """" ++ inner ++ L """") /\ v = JStr (cstr inner).
Proof.
  intros e f t before o v HK. unfold run_v1. rewrite skipn_app_exact, HK, fwd_iff. split.
  - intros (n & H & ->). apply quoted_exact1 in H. destruct H as (inner & post & H1 & H2 & -> & H4). exists inner, post. split; [exact H1|]. split; [exact H2|].
    split; [|exact H4]. rewrite !app_length. cbn [L list_ascii_of_string List.length]. lia.
  - intros (inner & post & H1 & H2 & -> & H4). exists (List.length inner + 2). split; [apply quoted_exact1; exists inner, post; auto|].
    rewrite !app_length. cbn [L list_ascii_of_string List.length]. lia.
Qed.
Print Assumptions C74_quoted_string.
Theorem C74_op_quoted_string : forall e f t before o v, vf_kind f = KOpQuoted ->
  run_v1 e (before ++ t) f (List.length before) = Ok (o, v) <->
  exists pre post value, t = pre ++ post /\ o = List.length before + List.length pre /\ op_quoted_g value pre post /\ v = JStr (cstr value).
Proof.
  intros e f t before o v HK. unfold run_v1. rewrite skipn_app_exact, HK, fwd_iff. split.
  - intros (n & H & ->). apply op_quoted_exact in H. destruct H as (pre & post & value & H1 & -> & H3 & H4). exists pre, post, value. auto.
  - intros (pre & post & value & H1 & -> & H3 & H4). exists (List.length pre). split; [apply op_quoted_exact; exists pre, post, value; auto|reflexivity].
Qed.
Print Assumptions C74_op_quoted_string.

(** ** Structured types *)
Theorem C74_cisco : forall e f t before o v, vf_kind f = KCisco -> ~ In NUL t ->
  run_v1 e (before ++ t) f (List.length before) = Ok (o, v) <->
  exists s pre post, t = pre ++ post /\ o = List.length before + List.length pre /\ cisco_g s t post /\ v = v1_cisco_value s pre post.
Proof.
  intros e f t before o v HK HN. unfold run_v1. rewrite skipn_app_exact, HK, fwd_iff. split.
  - intros (n & H & ->). apply cisco_exact1 in H; [|exact HN]. destruct H as (s & pre & post & H1 & -> & H3 & H4). exists s, pre, post. auto.
  - intros (s & pre & post & H1 & -> & H3 & H4). exists (List.length pre). split; [apply cisco_exact1; [exact HN|]; exists s, pre, post; auto|reflexivity].
Qed.
Print Assumptions C74_cisco.
Theorem C74_json : forall e f t before o v, vf_kind f = KJson -> json_contract e ->
  run_v1 e (before ++ t) f (List.length before) = Ok (o, v) <->
  (exists r, t = L "{" ++ r) /\ exists n, json_tok e t = Some (v, n) /\ o = List.length before + n.
Proof.
  intros e f t before o v HK HC. unfold run_v1. rewrite skipn_app_exact, HK, fwd_iff. split.
  - intros (n & H & ->). apply json_exact in H; [|exact HC]. destruct H as (H1 & j & H2 & ->). eauto.
  - intros (H1 & n & H2 & ->). exists n. split; [apply json_exact; eauto|reflexivity].
Qed.
Print Assumptions C74_json.
(** cee-syslog leaves the position at the end only if it starts the message: behind other
    text it leaves it behind the end. *)
Theorem C74_cee : forall e f t before o v, vf_kind f = KCee ->
  run_v1 e (before ++ t) f (List.length before) = Ok (o, v) <->
  o = List.length before + List.length (before ++ t) /\ cee_g e v t.
Proof.
  intros e f t before o v HK. unfold run_v1. rewrite skipn_app_exact, HK, fwd_iff, app_length. split.
  - intros (n & H & ->). apply cee_exact in H. destruct H as (-> & j & H & ->). auto.
  - intros (-> & H). eexists. split; [apply cee_exact; eauto|reflexivity].
Qed.
Print Assumptions C74_cee.
Theorem C74_v2_iptables : forall e f t before o v, vf_kind f = KV2Ipt ->
  run_v1 e (before ++ t) f (List.length before) = Ok (o, v) <->
  o = List.length (before ++ t) /\ exists fs, ipt_g fs t /\ v = stored_in_order (map ipt_member fs).
Proof.
  intros e f t before o v HK. unfold run_v1. rewrite skipn_app_exact, HK, fwd_iff, app_length. split.
  - intros (n & H & ->). apply ipt_exact in H. destruct H as (-> & H). auto.
  - intros (-> & H). eexists. split; [apply ipt_exact; eauto|reflexivity].
Qed.
Print Assumptions C74_v2_iptables.
Theorem C74_name_value_list : forall e f t before o v, vf_kind f = KNVList ->
  run_v1 e (before ++ t) f (List.length before) = Ok (o, v) <->
  o = List.length (before ++ t) /\ exists l, v1_nv_g t l /\ v = stored_in_order (map v1_nv_member l).
Proof.
  intros e f t before o v HK. unfold run_v1. rewrite skipn_app_exact, HK, fwd_iff, app_length. split.
  - intros (n & H & ->). apply nvlist_exact1 in H. destruct H as (-> & H). auto.
  - intros (-> & H). eexists. split; [apply nvlist_exact1; eauto|reflexivity].
Qed.
Print Assumptions C74_name_value_list.

(** ** checkpoint-lea and cef: what they take and deliver is as in the other engine, but the
    position goes back *)
Theorem C74_checkpoint_lea : forall e f t before o v, vf_kind f = KLEA -> ~ In NUL t ->
  run_v1 e (before ++ t) f (List.length before) = Ok (o, v) <->
  o = v1_back (List.length before) (List.length t) (List.length (before ++ t)) /\
  exists fs, lea_g NUL fs t t [] /\ v = v1_lea_value fs.
Proof.
  intros e f t before o v HK HN. unfold run_v1, v1_back. rewrite skipn_app_exact, HK. split.
  - intros E. apply bind_ok in E. destruct E as ([n w] & E & E2). injection E2 as <- <-. apply bind_ok in E. destruct E as ([n' w'] & E & E2). injection E2 as <- <-.
    apply lea_exact1 in E; [|exact HN]. destruct E as (-> & fs & HG & ->). split; [reflexivity|]. exists fs. split; [exact HG|]. destruct fs; reflexivity.
  - intros (-> & fs & HG & ->).
    rewrite (proj2 (lea_exact1 t (List.length t) (match fs with [] => JNull | _ => stored_in_order (map lea_member fs) end) HN)).
    + cbn [bind]. destruct fs; reflexivity.
    + split; [reflexivity|]. eauto.
Qed.
Print Assumptions C74_checkpoint_lea.
Theorem C74_cef_header : forall e f t before o v, vf_kind f = KCEF ->
  run_v1 e (before ++ t) f (List.length before) = Ok (o, v) ->
  exists hs h rest ex, cef_header e hs h /\ t = h ++ rest /\ v = cef_value hs (JObj ex) /\
    o = v1_back (List.length before) (S (List.length h)) (List.length (before ++ t)).
Proof.
  intros e f t before o v HK. unfold run_v1, v1_back. rewrite skipn_app_exact, HK. intros E. apply bind_ok in E. destruct E as ([n w] & E & E2). injection E2 as <- <-.
  apply v1_cef_header in E. destruct E as (hs & h & rest & ex & H1 & H2 & -> & H4). exists hs, h, rest, ex. auto.
Qed.
Print Assumptions C74_cef_header.
(** One byte behind the header is lost, then come the extensions. *)
Theorem C74_cef_wellformed : forall e f before hs h x b exts, vf_kind f = KCEF ->
  cef_header e hs h -> blank_only b -> Forall ext_ok exts -> (exts = [] -> b = []) ->
  let t := h ++ x :: b ++ joined (L " ") (map ext_text exts) in
  ~ In NUL t -> no_slash t -> (forall a, t <> a ++ L "=") -> 17 <= List.length t ->
  run_v1 e (before ++ t) f (List.length before) =
  Ok (v1_back (List.length before) (S (List.length h)) (List.length (before ++ t)),
      cef_value hs (stored_in_order (map ext_member exts))).
Proof.
  intros e f before hs h x b exts HK H1 H2 H3 H4 t H5 H6 H7 H8. unfold run_v1, v1_back. rewrite skipn_app_exact, HK.
  pose proof (v1_cef_wellformed e hs h x b exts H1 H2 H3 H4 H5 H6 H7 H8) as H. fold t in H. rewrite H. reflexivity.
Qed.
Print Assumptions C74_cef_wellformed.

(** ** The hypotheses can be met, and what the fields do on concrete messages *)
Definition c74_f (k : vkind) (d : option text) : vfield := {| vf_name := L "a"; vf_kind := k; vf_data := d; vf_raw := None |}.
Example C74_plain_ex :
  (plain_type KStringTo = true /\ v1_usable (c74_f KStringTo (Some (L "- "))) (L "ab - c") /\ ~ In NUL (L "ab - c")) /\
  (v1_usable (c74_f KDate3164 None) (L "Oct 29 09:47:08 x")) /\
  run_v1 env0 (L "n: 017x") (c74_f KNumber None) 3 = Ok (6, JStr (L "017")) /\
  run_v1 env0 (L "k: ab,c") (c74_f KCharTo (Some (L ","))) 3 = Ok (5, JStr (L "ab")) /\
  run_v1 env0 (L "k: ab - c") (c74_f KStringTo (Some (L "- "))) 3 = Ok (6, JStr (L "ab ")) /\
  run_v1 env0 (L "Oct 29 09:47:08 x") (c74_f KDate3164 None) 0 = Ok (15, JStr (L "Oct 29 09:47:08")).
Proof.
  split; [split; [reflexivity|split; [exists (L "- "); split; [reflexivity|split; [cbn; lia|]]|]]|split; [|repeat split; vm_compute; reflexivity]].
  - cbn. intuition discriminate.
  - cbn. intuition discriminate.
  - intros (a & ds & b & H & HD & HL).
    assert (HC : forall k, k + 10 <= 17 -> forallb isdigit (firstn 10 (skipn k (L "Oct 29 09:47:08 x"))) = false).
    { intros k Hk. do 8 (destruct k as [|k]; [reflexivity|]). lia. }
    assert (Hk : List.length a + 10 <= 17) by (apply (f_equal (@List.length ascii)) in H; rewrite !app_length in H; cbn [L list_ascii_of_string List.length] in H; lia).
    specialize (HC _ Hk). rewrite H in HC. rewrite skipn_app_exact, <- HL, firstn_app_exact in HC.
    assert (forallb isdigit ds = true); [|congruence]. apply forallb_forall. intros c Hc. apply isdigit_iff. eapply Forall_forall in HD; eauto.
Qed.
Example C74_quoted_ex : run_v1 env0 (L "x""a b"" c") (c74_f KQuoted None) 1 = Ok (6, JStr (L "a b")) /\
  run_v1 env0 (L "x a"" c") (c74_f KOpQuoted None) 2 = Ok (4, JStr (L "a""")).
Proof. split; vm_compute; reflexivity. Qed.
Example C74_structured_ex :
  run_v1 env0 (L "x {}") (c74_f KJson None) 2 = Ok (4, JObj []) /\
  run_v1 env0 (L "x IN=eth0 OUT= DF") (c74_f KV2Ipt None) 2 = Ok (17, JObj [(L "IN", JStr (L "eth0")); (L "OUT", JStr []); (L "DF", JNull)]) /\
  run_v1 env0 (L "x a=b  c=d ") (c74_f KNVList None) 2 = Ok (11, JObj [(L "a", JStr (L "b")); (L "c", JStr (L "d"))]) /\
  v1_nv_g (L "a=b  c=d ") [(L "a", L "b"); (L "c", L "d")].
Proof.
  split; [vm_compute; reflexivity|]. split; [vm_compute; reflexivity|]. split; [vm_compute; reflexivity|].
  assert (HN : forall l, forallb isValidNameChar l = true -> Forall name_char l) by (intros l H; rewrite forallb_forall in H; apply Forall_forall; intros c Hc; apply FieldFacts9.name_iff; auto).
  assert (HS : forall l, forallb isspace l = true -> Forall space l) by (intros l H; rewrite forallb_forall in H; apply Forall_forall; intros c Hc; apply isspace_iff; auto).
  assert (HV : forall l, forallb (fun c => negb (isspace c)) l = true -> Forall (fun c => ~ space c) l) by (intros l H; rewrite forallb_forall in H; apply Forall_forall; intros c Hc; apply nspace_iff; auto).
  apply (vnv_pair (L "a") (L "b") (L "  ") (L "c=d ") [(L "c", L "d")]); try discriminate; auto.
  - intros c r [= <- _]. apply nspace_iff. reflexivity.
  - apply (vnv_pair (L "c") (L "d") (L " ") [] []); try discriminate; auto; try constructor; congruence.
Qed.
(** char-to never stops at a terminator above 127 where char is signed. *)
Theorem C74_high_byte_refuted : forall e f c t before o v, vf_kind f = KCharTo -> vf_data f = Some [c] -> ~ In NUL t ->
  char_signed e = true -> (128 <= N_of_ascii c)%N -> run_v1 e (before ++ t) f (List.length before) <> Ok (o, v).
Proof.
  intros e f c t before o v HK HD HN HS HC H. apply plain_exact in H; [|rewrite HK; reflexivity|unfold v1_usable; rewrite HK; eauto|exact HN].
  destruct H as (pre & post & _ & _ & HT & _). unfold v1_takes in HT. rewrite HK in HT. destruct HT as (c' & E & _ & _ & x & r & _ & -> & HX). rewrite HD in E. injection E as <-. specialize (HX HS). lia.
Qed.
Print Assumptions C74_high_byte_refuted.
Example C74_high_byte_ex : run_v1 env0 (L "ab" ++ [chr 200] ++ L "c") (c74_f KCharTo (Some [chr 200])) 0 = Bad 0.
Proof. vm_compute. reflexivity. Qed.
(** A cisco-interface-spec field at the end of the message delivers its text, elsewhere the parts. *)
Theorem C74_cisco_value_refuted :
  run_v1 env0 (L "1.2.3.4/5") (c74_f KCisco None) 0 = Ok (9, JStr (L "1.2.3.4/5")) /\
  run_v1 env0 (L "1.2.3.4/5 ") (c74_f KCisco None) 0 = Ok (9, JObj [(L "ip", JStr (L "1.2.3.4")); (L "port", JStr (L "5"))]).
Proof. split; vm_compute; reflexivity. Qed.
Print Assumptions C74_cisco_value_refuted.
(** cee-syslog behind other text leaves the position behind the end. *)
Theorem C74_cee_position_refuted : run_v1 env0 (L "x @cee:{}") (c74_f KCee None) 2 = Ok (11, JObj []).
Proof. vm_compute. reflexivity. Qed.
Print Assumptions C74_cee_position_refuted.
(** checkpoint-lea sets the position back into what was matched already. *)
Theorem C74_lea_position_refuted : run_v1 env0 (L "0123456789abc a: b; c: d;") (c74_f KLEA None) 14 = Ok (3, JObj [(L "a", JStr (L "b")); (L "c", JStr (L "d"))]).
Proof. vm_compute. reflexivity. Qed.
Print Assumptions C74_lea_position_refuted.
(** cef: the first byte behind the header is lost; a value cannot be empty at the end, and no
    value can contain an escaped slash. *)
Definition c74_cef (x : text) : json := JObj [(L "DeviceVendor", JStr (L "a")); (L "DeviceProduct", JStr (L "b")); (L "DeviceVersion", JStr (L "c"));
  (L "SignatureID", JStr (L "d")); (L "Name", JStr (L "e")); (L "Severity", JStr (L "f")); (L "Extensions", JObj [(x, JStr (L "1"))])].
Theorem C74_cef_first_byte_refuted :
  run_v1 env0 (L "CEF:0|a|b|c|d|e|f|src=1") (c74_f KCEF None) 0 = Ok (23, c74_cef (L "rc")) /\
  run_v1 env0 (L "CEF:0|a|b|c|d|e|f| src=1") (c74_f KCEF None) 0 = Ok (24, c74_cef (L "src")) /\
  run_v1 env0 (L "CEF:0|a|b|c|d|e|f| x=1 z=") (c74_f KCEF None) 0 = Bad 0 /\
  run_v1 env0 (L "CEF:0|a|b|c|d|e|f| x=a\/b") (c74_f KCEF None) 0 = Bad 0.
Proof. repeat split; vm_compute; reflexivity. Qed.
Print Assumptions C74_cef_first_byte_refuted.
