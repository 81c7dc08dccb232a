(** * Prop_Fields3: claims about the structured field types name-value-list, cef, checkpoint-lea and string.
    The grammars are in FieldSpec2. *)
From Verif Require Import Base Time Parsers BaseFacts FieldSpec FieldSpec2 SafetySpec FieldFacts FieldFacts2 FieldFacts8 FieldFacts9 FieldFacts10 FieldFacts11 FieldFacts12 TestEnv.

(** ** C15 ipv6 *)
Theorem C15_ipv6 : forall want t, takes_text (parseIPv6 want t) want t ipv6_g.
Proof. exact ipv6_exact. Qed.
Print Assumptions C15_ipv6.
(** Addresses of RFC 4291: eight blocks; "::" for two or more blocks, or for one block behind at least one other; six
    blocks and an IPv4 address. *)
Theorem C15_ipv6_rfc4291 : forall want post,
  (forall bs, Forall hexblock bs -> List.length bs = 8 -> ends_here post ->
     parseIPv6 want (joined (L ":") bs ++ post) = Ok (List.length (joined (L ":") bs), if want then JStr (joined (L ":") bs) else JNull)) /\
  (forall ls rs, Forall hexblock ls -> Forall hexblock rs -> ends_here post -> List.length ls + List.length rs <= 6 ->
     let a := joined (L ":") ls ++ L "::" ++ joined (L ":") rs in parseIPv6 want (a ++ post) = Ok (List.length a, if want then JStr a else JNull)) /\
  (forall bs q, Forall hexblock bs -> List.length bs = 6 -> ipv4_g q post ->
     let a := each_colon bs ++ q in parseIPv6 want (a ++ post) = Ok (List.length a, if want then JStr a else JNull)).
Proof.
  intros want post. split; [|split].
  - intros bs HF HL HE. apply ipv6_complete. apply (v6_full _ _ bs); auto; [lia|]. destruct bs as [|b1 bs]; [discriminate|]. destruct bs as [|b2 bs]; [discriminate|].
    cbn [joined]. pose proof (Forall_inv HF) as [Hb _]. rewrite !app_length. cbn [L list_ascii_of_string List.length]. lia.
  - intros ls rs HF HR HE HL a. apply ipv6_complete. apply (v6_abbr _ _ ls [] rs); auto. destruct rs, post; cbn [List.length] in *; lia.
  - intros bs q HF HL HG a. apply ipv6_complete. apply (v6_full4 _ _ bs q); auto. lia.
Qed.
Print Assumptions C15_ipv6_rfc4291.
Example C15_ex :
  parseIPv6 true (L "2001:db8:0:0:0:0:2:1 x") = Ok (20, JStr (L "2001:db8:0:0:0:0:2:1")) /\
  parseIPv6 true (L "fe80::1") = Ok (7, JStr (L "fe80::1")) /\
  parseIPv6 true (L "::ffff:192.0.2.128,") = Ok (18, JStr (L "::ffff:192.0.2.128")) /\
  parseIPv6 true (L "12345::") = Bad 0.
Proof. repeat split; vm_compute; reflexivity. Qed.
Example C15_ex2 : ipv6_g (L "fe80::1") (L " x").
Proof.
  assert (HB : forall b, forallb isxdigit b = true -> 1 <= List.length b <= 4 -> hexblock b).
  { intros b H HL. split; [exact HL|]. rewrite forallb_forall in H. apply Forall_forall. intros c Hc. apply isxdigit_iff. auto. }
  apply (v6_abbr _ _ [L "fe80"] [] [L "1"]); [reflexivity|left; reflexivity| | | |cbn; lia].
  - apply Forall_cons; [apply HB; [reflexivity|cbn; lia]|apply Forall_nil].
  - apply Forall_cons; [apply HB; [reflexivity|cbn; lia]|apply Forall_nil].
  - right. exists " "%char, (L "x"). split; [reflexivity|apply isspace_iff; reflexivity].
Qed.
(** Text that is no address is accepted: a word of hex digits; three colons; eight blocks followed by an IPv4 address. *)
Theorem C15_accepts_refuted :
  parseIPv6 true (L "dead ") = Ok (4, JStr (L "dead")) /\
  parseIPv6 true (L ":::") = Ok (3, JStr (L ":::")) /\
  parseIPv6 true (L "1:2:3:4:5:6:7:8:1.2.3.4") = Ok (23, JStr (L "1:2:3:4:5:6:7:8:1.2.3.4")).
Proof. repeat split; vm_compute; reflexivity. Qed.
Print Assumptions C15_accepts_refuted.
(** Addresses that are refused: one zero block abbreviated at the start; whether "::" at the end is accepted depends on
    what follows. *)
Theorem C15_rejects_refuted :
  parseIPv6 true (L "::2:3:4:5:6:7:8") = Bad 0 /\
  parseIPv6 true (L "1:2:3:4:5:6:7::") = Ok (15, JStr (L "1:2:3:4:5:6:7::")) /\
  parseIPv6 true (L "1:2:3:4:5:6:7:: ") = Bad 0.
Proof. repeat split; vm_compute; reflexivity. Qed.
Print Assumptions C15_rejects_refuted.

(** ** C27 name-value-list *)
Theorem C27_name_value_list : forall sep ass want t n v, parseNVList sep ass want t = Ok (n, v) <->
  exists l pre post, nv_g sep ass t l post /\ t = pre ++ post /\ n = List.length pre /\
    v = if want then stored_in_order (map nv_member l) else JNull.
Proof. exact nvlist_exact. Qed.
Print Assumptions C27_name_value_list.
Example C27_ex : parseNVList NUL NUL true (L "a=b c=""d e"" f") = Ok (12, JObj [(L "a", JStr (L "b")); (L "c", JStr (L "d e"))]).
Proof. vm_compute. reflexivity. Qed.
Example C27_ex2 : nv_g NUL NUL (L "a=b x") [(L "a", L "b")] (L "x").
Proof.
  apply nv_more with (s := L " ") (r := L "x").
  - exists "="%char, (L "b"). split; [reflexivity|]. split; [discriminate|]. split.
    + left. split; [reflexivity|]. split; [reflexivity|]. apply Forall_cons; [left; reflexivity|constructor].
    + right. split; [reflexivity|]. split; [intros c r [= <- _]; split; discriminate|]. split.
      * intros p c q HE HS. destruct p as [|x p]; [|destruct p; discriminate]. injection HE as <- _. exfalso. destruct HS as [[_ HS]|[HS _]]; [|congruence]. apply isspace_iff in HS. discriminate HS.
      * intros c r [= <- _]. split; [left; split; [reflexivity|apply isspace_iff; reflexivity]|]. intros HE. discriminate HE.
  - apply Forall_cons; [left; split; [reflexivity|apply isspace_iff; reflexivity]|constructor].
  - discriminate.
  - intros c q [= <- _] [[_ HS]|[HS _]]; [apply isspace_iff in HS; discriminate HS|congruence].
  - apply nv_none. intros [nm vv] r (a & vt & E & Hn & _). destruct nm as [|c nm]; [congruence|]. injection E as _ E. destruct nm; discriminate.
Qed.
(** It always succeeds: on text holding no pair at all, it takes nothing and delivers an empty object. *)
Theorem C27_always_matches_refuted : forall sep ass want t, exists n v, parseNVList sep ass want t = Ok (n, v).
Proof. intros sep ass want t. destruct (nvlist_total sep ass want t) as (n & v & H). exists n, v. exact H. Qed.
Print Assumptions C27_always_matches_refuted.
Example C27_nothing_ex : parseNVList NUL NUL true (L "!!!") = Ok (0, JObj []).
Proof. vm_compute. reflexivity. Qed.
(** A backslash protects a separator or quote but is not removed from the value. *)
Theorem C27_escape_kept_refuted : parseNVList "," ":" true (L "a b:c d,e:f\,g") =
  Ok (14, JObj [(L "a b", JStr (L "c d")); (L "e", JStr (L "f\,g"))]).
Proof. vm_compute. reflexivity. Qed.
Print Assumptions C27_escape_kept_refuted.

(** ** C29 cef *)
(** Whatever is accepted starts with a CEF header, the whole message is taken, and the six header fields delivered are the
    texts between the bars, escapes removed. *)
Theorem C29_cef_header : forall e want t n v, parseCEF e want t = Ok (n, v) ->
  n = List.length t /\ exists hs h ext, cef_header e hs h /\ t = h ++ ext /\
    if want then exists o, v = cef_value hs (JObj o) else v = JNull.
Proof. exact cef_header_sound. Qed.
Print Assumptions C29_cef_header.
(** Every well-formed message is accepted, and the extensions are delivered unescaped under their names. *)
Theorem C29_cef_wellformed : forall e want hs h b exts,
  cef_header e hs h -> blank_only b -> Forall ext_ok exts -> ~ In NUL (joined (L " ") (map ext_text exts)) ->
  let t := h ++ b ++ joined (L " ") (map ext_text exts) in
  17 <= List.length t ->
  parseCEF e want t = Ok (List.length t, if want then cef_value hs (stored_in_order (map ext_member exts)) else JNull).
Proof. exact cef_wellformed. Qed.
Print Assumptions C29_cef_wellformed.
Definition c29_hs : list (list cef_hc) := map (map HPlain) [L "a"; L "b"; L "c"; L "d"; L "e"] ++ [[HPlain "f"; HEsc "|"; HEsc "\"]].
Definition c29_exts : list cef_extension := [(L "x", map VPlain (L "1 2")); (L "y", [VPlain "3"]); (L "z", [VEsc "="; VEsc "n"])].
Example C29_ex :
  cef_header env0 c29_hs (L "CEF:0|a|b|c|d|e|f\|\\|") /\ Forall ext_ok c29_exts /\
  joined (L " ") (map ext_text c29_exts) = L "x=1 2 y=3 z=\=\n" /\
  parseCEF env0 true (L "CEF:0|a|b|c|d|e|f\|\\| x=1 2 y=3 z=\=\n") =
    Ok (39, cef_value c29_hs (JObj [(L "x", JStr (L "1 2")); (L "y", JStr (L "3")); (L "z", JStr ["="%char; chr 10])])).
Proof.
  split.
  { split; [reflexivity|]. split; [|split; [intros _; repeat (apply Forall_cons; [discriminate|]); constructor|reflexivity]].
    repeat (apply Forall_cons; [repeat (apply Forall_cons; [cbn; first [split; discriminate|tauto]|]); constructor|]). constructor. }
  split; [|split; [reflexivity|vm_compute; reflexivity]].
  repeat (apply Forall_cons; [split; [discriminate|]; split; [apply Forall_forall; intros c Hc; apply mem_In; cbn in Hc; destruct Hc as [<-|[]]; reflexivity
    |repeat (apply Forall_cons; [cbn; first [split; discriminate|tauto]|]); constructor]|]). constructor.
Qed.
(** An empty header field aborts a build with assertions. *)
Theorem C29_empty_field_refuted : forall e want, asserts_on e = true -> parseCEF e want (L "CEF:0||b|c|d|e|f|x=1") = Ub AssertFail.
Proof. intros e want H. unfold parseCEF, cefGetHdrField. cbn. rewrite H. reflexivity. Qed.
Print Assumptions C29_empty_field_refuted.
(** A backslash at the end of the last value makes the code use memory it never wrote. *)
Theorem C29_trailing_backslash_refuted : parseCEF env0 true (L "CEF:0|a|b|c|d|e|f|a=b\") = Ub UninitRead.
Proof. vm_compute. reflexivity. Qed.
Print Assumptions C29_trailing_backslash_refuted.
(** Malformed extensions that are accepted: an empty name; a name cut out of the middle of an escape. *)
Theorem C29_loose_refuted :
  parseCEF env0 true (L "CEF:0|a|b|c|d|e|f|=") = Ok (19, cef_value (map (map HPlain) [L "a"; L "b"; L "c"; L "d"; L "e"; L "f"]) (JObj [([], JStr [])])) /\
  parseCEF env0 true (L "CEF:0|a|b|c|d|e|f|a=x \=b=c") = Ok (27, cef_value (map (map HPlain) [L "a"; L "b"; L "c"; L "d"; L "e"; L "f"]) (JObj [(L "a", JStr (L "x =")); (L "b", JStr (L "c"))])).
Proof. split; vm_compute; reflexivity. Qed.
Print Assumptions C29_loose_refuted.
(** A message of fewer than 17 bytes is refused even if it is well-formed (possible only with empty fields). *)
Theorem C29_short_refuted : forall e want t, List.length t < 17 -> parseCEF e want t = Bad 0.
Proof. intros e want t H. unfold parseCEF. destruct (Nat.ltb_spec (List.length t) 17) as [HH|HH]; [reflexivity|lia]. Qed.
Print Assumptions C29_short_refuted.

(** ** C30 checkpoint-lea *)
Theorem C30_checkpoint_lea : forall term want t n v, parseLEA term want t = Ok (n, v) <->
  exists fs pre post, lea_g term fs t pre post /\ n = List.length pre /\
    v = match fs with [] => JNull | _ => if want then stored_in_order (map lea_member fs) else JNull end.
Proof. exact lea_exact. Qed.
Print Assumptions C30_checkpoint_lea.
Example C30_ex : 
  lea_g "]" [{| l_b1 := []; l_name := L "a"; l_b2 := L " "; l_value := L "v w" |}; {| l_b1 := L " "; l_name := L "b"; l_b2 := []; l_value := [] |}] (L "a: v w; b:; ] x") (L "a: v w; b:; ") (L "] x") /\
  parseLEA "]" true (L "a: v w; b:; ] x") = Ok (12, JObj [(L "a", JStr (L "v w")); (L "b", JStr [])]).
Proof.
  split; [|vm_compute; reflexivity]. split.
  - assert (HN : forall c l, mem l c = false -> ~ In c l) by (intros c l H Hi; apply mem_In in Hi; congruence).
    assert (HB : blank_only (L " ")) by (apply Forall_cons; [reflexivity|apply Forall_nil]).
    apply Forall_cons; [|apply Forall_cons; [|apply Forall_nil]].
    + split; [apply Forall_nil|]. split; [apply HN; reflexivity|]. split; [exact HB|]. split; [apply HN; reflexivity|]. split; intros c r [= <- _]; try split; discriminate.
    + split; [exact HB|]. split; [apply HN; reflexivity|]. split; [apply Forall_nil|]. split; [intros []|]. split; [intros c r [= <- _]; split; discriminate|intros c r H; discriminate H].
  - split; [reflexivity|]. exists (L " "). split; [reflexivity|]. split; [apply Forall_cons; [reflexivity|constructor]|]. right. exists (L " x"). split; [reflexivity|discriminate].
Qed.
(** No field at all is accepted too (an empty message, or the terminator at once): null is delivered. A name can be empty. *)
Theorem C30_empty_refuted :
  (forall term want, parseLEA term want [] = Ok (0, JNull)) /\
  (forall want, parseLEA "]" want (L "] x") = Ok (0, JNull)) /\
  parseLEA NUL true (L ": v;") = Ok (4, JObj [([], JStr (L "v"))]).
Proof. repeat split. Qed.
Print Assumptions C30_empty_refuted.
(** White space other than blanks stays in the value; so do blanks in front of the semicolon. *)
Theorem C30_trim_refuted : parseLEA NUL true (L "a: v ;") = Ok (6, JObj [(L "a", JStr (L "v "))]).
Proof. vm_compute. reflexivity. Qed.
Print Assumptions C30_trim_refuted.

(** ** C33 string *)
Theorem C33_string : forall e cfg want t n v,
  s_qe cfg <> "\"%char -> s_qe cfg <> NUL -> s_usable e n t ->
  (parseString e cfg want t = Ok (n, v) <->
   (exists l post, s_quoted_g cfg t l post /\ n = 2 + List.length (s_text cfg l) /\ v = if want then JStr (map (si_val cfg) l) else JNull) \/
   (exists l tail post, s_plain_g cfg t l tail post /\ n = List.length (s_text cfg l ++ tail) /\ v = if want then JStr (s_plain_value cfg l tail post) else JNull)).
Proof. exact string_exact2. Qed.
Print Assumptions C33_string.
(** the default configuration *)
Definition c33_cfg : strcfg := {| s_quote := QAuto; s_escbs := true; s_escdbl := true; s_exact := true; s_qb := """"; s_qe := """"; s_perm := None |}.
Example C33_ex : s_usable env0 9 (L """a""""b\""c"" x") /\
  s_quoted_g c33_cfg (L """a""""b\""c"" x") [SPlain "a"; SDbl; SPlain "b"; SEsc """"; SPlain "c"] (L " x") /\
  parseString env0 c33_cfg true (L """a""""b\""c"" x") = Ok (9, JStr (L "a""b""c")) /\
  s_plain_g c33_cfg (L "ab\\c x") [SPlain "a"; SPlain "b"; SEsc "\"; SPlain "c"] [] (L " x") /\
  parseString env0 c33_cfg true (L "ab\\c x") = Ok (5, JStr (L "ab\c")).
Proof.
  split.
  { split; [intros H; apply mem_In in H; discriminate H|]. intros _. repeat (apply Forall_cons; [reflexivity|]). constructor. }
  split; [|split; [vm_compute; reflexivity|split; [|vm_compute; reflexivity]]].
  - split; [discriminate|]. split; [reflexivity|]. split.
    + repeat (apply Forall_cons; [cbn; repeat split; discriminate || auto|]). constructor.
    + split; [intros _ c r [= <- _]; discriminate|]. intros _. right. eexists. reflexivity.
  - split; [right; split; [reflexivity|intros r; discriminate]|]. split; [reflexivity|]. split.
    + repeat (apply Forall_cons; [cbn; repeat split; discriminate || auto|]). constructor.
    + split; [discriminate|]. split; [|intros _; right; eexists; reflexivity]. left. split; [reflexivity|]. right. exists " "%char, (L "x"). split; [reflexivity|]. split; [left; reflexivity|discriminate].
Qed.
(** Where char is signed, a byte above 127 indexes the table of permitted characters below its start. *)
Theorem C33_high_byte_refuted : parseString env0 c33_cfg true [chr 200] = Ub OobIndex.
Proof. vm_compute. reflexivity. Qed.
Print Assumptions C33_high_byte_refuted.
(** A NUL byte together with an escape makes the code write behind the end of the value. *)
Theorem C33_nul_refuted : parseString env0 c33_cfg true (L "a\b" ++ [NUL] ++ L "c") = Ub OobWrite.
Proof. vm_compute. reflexivity. Qed.
Print Assumptions C33_nul_refuted.
(** In unquoted text a doubled quote collapses only if there is a backslash escape elsewhere. *)
Theorem C33_doubling_refuted :
  parseString env0 c33_cfg true (L "ab""""c") = Ok (5, JStr (L "ab""""c")) /\
  parseString env0 c33_cfg true (L "a\b""""c") = Ok (6, JStr (L "ab""c")).
Proof. split; vm_compute; reflexivity. Qed.
Print Assumptions C33_doubling_refuted.
(** A dangling backslash is taken and dropped in front of a blank, kept at the end of the message. *)
Theorem C33_dangling_refuted :
  parseString env0 c33_cfg true (L "ab\ c") = Ok (3, JStr (L "ab")) /\
  parseString env0 c33_cfg true (L "ab\") = Ok (3, JStr (L "ab\")).
Proof. split; vm_compute; reflexivity. Qed.
Print Assumptions C33_dangling_refuted.
