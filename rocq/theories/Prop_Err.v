(** * Prop_Err: error messages (C81, C82). *)
From Coq Require DecimalString DecimalN.
From Verif Require Import Base Time Parsers Engine Pdag Samp GraphSpec LineSpec RuleSpec LoadSpec OneSpec Err ErrSpec FrameFacts EngineFacts2 BaseFacts AnnotFacts LineFacts LoadText LoadTop ErrFacts ErrLoad ErrQuiet TestEnv.
From Verif Require Prop_Load.

(** ** C81: what goes wrong is reported, with file and line *)

(** A rule line "rule=TAGS:RULE" that is processed: an error message, or a field description
    without a name, or the rule is in the rulebase, with its tags, at this file and line. *)
Theorem C81_rule_line_reported : forall e badint load m_load afuel cx tags r cx' ok, Forall good_tag tags -> r <> [] ->
  processSamp e load afuel cx (rule_line tags r) = EOk (cx', ok) ->
  m_processSamp e badint m_load afuel cx (rule_line tags r) <> [] \/
  nameless_field (in_force (c_prefix cx) ++ r) \/ recorded cx' (tag_list tags) (c_file cx) (c_line cx).
Proof. intros. eapply rule_says; eauto. Qed.
Print Assumptions C81_rule_line_reported.

Lemma split_name nm r nm2 r2 : ~ In ":"%char nm -> getTypeName (nm ++ ":"%char :: r) = Some (nm2, r2) -> r2 = r.
Proof.
  intros H. unfold getTypeName. rewrite scan_all_but by auto. cbv zeta. destruct (_ && _)%bool; [|discriminate]. intros H0. assert (E : r2 = skipn (S (List.length nm)) (nm ++ ":"%char :: r)) by congruence. rewrite E.
  rewrite skipn_app. rewrite skipn_all2 by lia. replace (S (List.length nm) - List.length nm) with 1 by lia. reflexivity.
Qed.
(** The same for a line "type=NAME:RULE", whatever the name is (up to 1023 bytes). *)
Theorem C81_type_line_reported : forall e badint load m_load afuel cx nm r cx' ok, ~ In ":"%char nm -> (N.of_nat (List.length nm) < 1024)%N ->
  processSamp e load afuel cx (L "type=" ++ nm ++ ":"%char :: r) = EOk (cx', ok) ->
  m_processSamp e badint m_load afuel cx (L "type=" ++ nm ++ ":"%char :: r) <> [] \/
  nameless_field r \/ recorded cx' None (c_file cx) (c_line cx).
Proof.
  intros e badint load m_load afuel cx nm r cx' ok H1 H2 H. eapply type_says in H as [H|[(x & y & HG & HN)|H]]; eauto.
  - apply split_name in HG; auto. subst y. auto.
  - apply in_or_app. right. left. reflexivity.
  - rewrite scan_all_but by auto. exact H2.
Qed.
Print Assumptions C81_type_line_reported.

(** A load that fails has told why. *)
Theorem C81_failed_load_reported : forall e badint q fuel cx t cx', loadString e q fuel cx t = EOk (cx', false) -> m_loadString e badint q fuel cx t <> [].
Proof. intros. eapply loadString_fails; eauto. Qed.
Print Assumptions C81_failed_load_reported.
Theorem C81_failed_file_reported : forall e badint q fuel cx f cx', loadFile e q fuel cx f = EOk (cx', false) -> m_loadFile e badint q fuel cx f <> [].
Proof. intros. eapply load_fails; eauto. Qed.
Print Assumptions C81_failed_file_reported.

(** The messages of a text, or a file, are those of its lines (C46), one after the other, and
    nothing else. *)
Theorem C81_messages_of_text : forall e badint q fuel cx t ls, ~ In NUL t -> no_eof e false t -> rulebase false t 0 ls ->
  m_loadString e badint q fuel cx t =
  reported e badint (loadSamples e q fuel 2) (m_loadSamples e badint q fuel 2) fuel (set_pos (set_version cx 2) (L "--NO-FILE--") 0) ls.
Proof.
  intros e badint q fuel cx t ls HN HE HR. unfold m_loadString. rewrite cstr_nonul by auto. cbv zeta. apply m_load_lines_reported; auto; cbn [c_line set_pos]; lia.
Qed.
Print Assumptions C81_messages_of_text.
Theorem C81_messages_of_file : forall e badint q fuel cx f t ls, files e f = Some (version2 ++ t) -> c_version cx = 0%N \/ c_version cx = 2%N -> rulebase true t 1 ls ->
  m_loadFile e badint q (S fuel) cx f =
  reported e badint (loadSamples e q fuel 2) (m_loadSamples e badint q fuel 2) fuel (set_pos (set_version (set_pos cx f 0) 2) f 1) ls.
Proof.
  intros e badint q fuel cx f t ls HF HV HR. unfold m_loadFile. cbn [m_loadSamples]. rewrite HF.
  assert (HL : exists c0 c1, version2 ++ t = c0 :: c1) by (eexists _, _; reflexivity). destruct HL as (c0 & c1 & HL). rewrite HL. cbv zeta. rewrite <- HL.
  assert (H10 : firstn 10 (version2 ++ t) = version2) by reflexivity. assert (S10 : skipn 10 (version2 ++ t) = t) by reflexivity. rewrite H10, S10.
  change (text_eqb version2 version2) with true. cbn iota. change (c_version (set_pos cx f 0)) with (c_version cx).
  assert (HX : (negb (N.eqb (c_version cx) 0) && negb (N.eqb 2 (c_version cx)))%bool = false) by (destruct HV as [-> | ->]; reflexivity). rewrite HX. cbn [negb]. cbn iota.
  apply m_load_lines_reported; auto; [cbn [c_line set_pos]; lia|intros x Hx; reflexivity|]. rewrite app_length. change (List.length version2) with 10. lia.
Qed.
Print Assumptions C81_messages_of_file.

(** Without include lines every message carries the name of the file that is loaded and the
    number of one of its lines. *)
Lemma reported_where e badint load m_load afuel : forall ls cx, (forall l n u, In (l, n) ls -> l <> L "include" ++ u) ->
  Forall (fun m => m_file m = c_file cx /\ exists l, In (l, m_line m) ls) (reported e badint load m_load afuel cx ls).
Proof.
  induction ls as [|[l n] ls IH]; intros cx HI; cbn [reported]; [constructor|]. set (cx1 := set_pos cx (c_file cx) n). apply Forall_app. split.
  - assert (HA : forall b, Forall (fun m => m_file m = c_file cx /\ exists l0, In (l0, m_line m) ((l, n) :: ls)) (at_pos cx1 b)).
    { intros b. unfold at_pos. apply Forall_map. apply Forall_forall. intros x _. cbn [m_file m_line]. split; [reflexivity|]. exists l. left. reflexivity. }
    unfold m_processSamp. destruct (getLineType l) as [[ty u]|] eqn:EG; [|constructor].
    destruct (text_eqb ty (L "prefix")); [constructor|]. destruct (text_eqb ty (L "extendprefix")); [constructor|]. destruct (text_eqb ty (L "rule")); [apply HA|]. destruct (text_eqb ty (L "type")); [apply HA|]. destruct (text_eqb ty (L "annotate")); [apply HA|].
    destruct (text_eqb ty (L "include")) eqn:EI; [|apply HA]. exfalso. apply text_eqb_true in EI. subst ty.
    unfold getLineType in EG. cbv zeta in EG. set (k := scan (fun c => negb (ceq c "=")) l) in *. apply (HI l n (skipn k l)); [left; reflexivity|]. rewrite <- (firstn_skipn k l) at 1. clearbody k. destruct (firstn k l) as [|c0 f0]; [discriminate|]. assert (E : c0 :: f0 = L "include") by congruence. rewrite E. reflexivity.
  - destruct (processSamp e load afuel cx1 l) as [[c1 ok]|] eqn:EP; [|constructor]. destruct ok; [|constructor]. pose proof (processSamp_pos e load afuel cx1 l) as HP. rewrite EP in HP. cbn [opost fst] in HP. destruct HP as [HP _].
    eapply Forall_impl; [|apply IH; intros l0 n0 u0 Hin; apply (HI l0 n0 u0); right; exact Hin]. intros m [A (l0 & B)]. split; [rewrite A; exact HP|]. exists l0. right. exact B.
Qed.

Theorem C81_line_numbers : forall e badint q fuel cx t ls m, ~ In NUL t -> no_eof e false t -> rulebase false t 0 ls ->
  (forall l n u, In (l, n) ls -> l <> L "include" ++ u) -> In m (m_loadString e badint q fuel cx t) ->
  m_file m = L "--NO-FILE--" /\ exists l, In (l, m_line m) ls.
Proof.
  intros e badint q fuel cx t ls m HN HE HR HI Hm. rewrite (C81_messages_of_text e badint q fuel cx t ls HN HE HR) in Hm.
  pose proof (reported_where e badint (loadSamples e q fuel 2) (m_loadSamples e badint q fuel 2) fuel ls (set_pos (set_version cx 2) (L "--NO-FILE--") 0) HI) as HF.
  rewrite Forall_forall in HF. exact (HF m Hm).
Qed.
Print Assumptions C81_line_numbers.
Theorem C81_line_numbers_file : forall e badint q fuel cx f t ls m, files e f = Some (version2 ++ t) -> c_version cx = 0%N \/ c_version cx = 2%N -> rulebase true t 1 ls ->
  (forall l n u, In (l, n) ls -> l <> L "include" ++ u) -> In m (m_loadFile e badint q (S fuel) cx f) ->
  m_file m = f /\ exists l, In (l, m_line m) ls.
Proof.
  intros e badint q fuel cx f t ls m HF HV HR HI Hm. rewrite (C81_messages_of_file e badint q fuel cx f t ls HF HV HR) in Hm.
  pose proof (reported_where e badint (loadSamples e q fuel 2) (m_loadSamples e badint q fuel 2) fuel ls (set_pos (set_version (set_pos cx f 0) 2) f 1) HI) as HA.
  rewrite Forall_forall in HA. exact (HA m Hm).
Qed.
Print Assumptions C81_line_numbers_file.

(** No message without a reason: a text, or a file, of rules, prefixes and types written with
    the plain field descriptions of the manual loads without any message. *)
Theorem C81_no_false_alarm : forall e badint q fuel o t ls, ~ In NUL t -> no_eof e false t -> rulebase false t 0 ls -> clean e [] None ls ->
  m_loadString e badint q fuel (initCtx o) t = [].
Proof.
  intros e badint q fuel o t ls HN HE HR HC. rewrite (C81_messages_of_text e badint q fuel (initCtx o) t ls HN HE HR). eapply clean_quiet; [exact HC|reflexivity|]. intros x [].
Qed.
Print Assumptions C81_no_false_alarm.
Theorem C81_no_false_alarm_file : forall e badint q fuel o f t ls, files e f = Some (version2 ++ t) -> rulebase true t 1 ls -> clean e [] None ls ->
  m_loadFile e badint q (S fuel) (initCtx o) f = [].
Proof.
  intros e badint q fuel o f t ls HF HR HC. rewrite (C81_messages_of_file e badint q fuel (initCtx o) f t ls HF (or_introl eq_refl) HR). eapply clean_quiet; [exact HC|reflexivity|]. intros x [].
Qed.
Print Assumptions C81_no_false_alarm_file.

(** ** The hypotheses can be met, and faults that stay silent *)
Import Prop_Load.
Local Open Scope list_scope.
Definition no_bad : json -> bool := fun _ => false.
(** Line numbers and texts of the messages of a rulebase. *)
Definition msgs (l : list string) : list (N * string) := map (fun m => (m_line m, S_ (b_text (m_body m)))) (m_loadString env0 no_bad isort 200 (initCtx no_opts) (lines l)).
Definition loaded (l : list string) : option bool := match load0 no_opts l with EOk (_, ok) => Some ok | _ => None end.

Definition faulty : list string := ["rule=:%a:word% x"; "rule=:%a:wort%"; "# comment"; "rool=:a"; "type=who:b"; "type=@w:"; "rule=:%a%"; "rule=:%n:@nobody%"; "annotate=t:*x"; "rule=:%c:char-to%"]%string.
Example faulty_messages : loaded faulty = Some true /\ msgs faulty =
  [(2, "invalid field type 'wort'"); (4, "invalid record type detected: 'rool'"); (5, "user-defined type name must start with '@'");
   (6, "error: actual message sample part is missing in type def"); (7, "field definition wrong in: a%"); (8, "unknown user-defined type '@nobody'"); (9, "invalid annotate operation '*': *x");
   (10, "char-to type needs 'extradata' parameter")]%N%string.
Proof. vm_compute. auto. Qed.
Example missing_include : loaded ["include=/nofile"; "rule=:a"]%string = Some false /\ msgs ["include=/nofile"; "rule=:a"]%string = [(0%N, "cannot open rulebase '/nofile'")]%string.
Proof. vm_compute. auto. Qed.

Definition items81 : list item := map (fun s => Line (L s)) ["type=@who:user %u:word%"; "prefix=login "; "rule=in:%w:@who% at %t:char-to:\x3a%:%-:rest%"; "rule=out:%n:number% out"]%string.
Example no_false_alarm_example : rulebase false (write items81) 0 (numbered 0 items81) /\ clean env0 [] None (numbered 0 items81).
Proof.
  split; [apply numbered_ok; vm_compute; reflexivity|].
  assert (HL : forall names l, Forall (plain_conf names) (map literal_conf l)) by (intros names l; apply Forall_map; apply Forall_forall; intros; constructor).
  unfold items81. cbn [numbered map].
  pose proof (cl_type env0 [] None (L "@who") (L "user %u:word%")) as H1.
  eapply H1; clear H1.
  - split; [eexists; reflexivity|]. split; [cbn; intros H; repeat destruct H as [H|H]; try discriminate; tauto|]. split; [cbn; intros H; repeat destruct H as [H|H]; try discriminate; tauto|]. split; [cbn; intros c H; repeat destruct H as [H|H]; subst; try reflexivity; tauto|reflexivity].
  - discriminate.
  - cbn. intros H; repeat destruct H as [H|H]; try discriminate; tauto.
  - eapply rc_field; [vm_compute; reflexivity|discriminate|vm_compute; reflexivity|apply rc_nil].
  - apply Forall_app. split; [apply HL|]. constructor; [|constructor]. apply (pc_alone _ (L "u") (L "word")); [cbn; tauto|cbn; intros H; repeat destruct H as [H|H]; try discriminate; tauto|left; discriminate].
  - apply cl_prefix.
    pose proof (cl_rule env0 [L "@who"] (Some (L "login ")) [L "in"] (L "%w:@who% at %t:char-to:\x3a%:%-:rest%")) as H2. eapply H2; clear H2.
    + repeat constructor; cbn; try discriminate; intros H; repeat destruct H as [H|H]; try discriminate; tauto.
    + discriminate.
    + cbn. intros H; repeat destruct H as [H|H]; try discriminate; tauto.
    + eapply rc_field; [vm_compute; reflexivity|discriminate|vm_compute; reflexivity|]. eapply rc_field; [vm_compute; reflexivity|discriminate|vm_compute; reflexivity|]. eapply rc_field; [vm_compute; reflexivity|discriminate|vm_compute; reflexivity|apply rc_nil].
    + apply Forall_app. split; [apply HL|]. constructor; [apply (pc_custom _ (L "w") (L "@who")); [left; reflexivity|reflexivity| |]; cbn; intros H; repeat destruct H as [H|H]; try discriminate; tauto|].
      apply Forall_app. split; [apply HL|]. constructor; [apply (pc_extra _ (L "t") (L "char-to") (L "\x3a")); [cbn; tauto|]; cbn; intros H; repeat destruct H as [H|H]; try discriminate; tauto|].
      apply Forall_app. split; [apply HL|]. constructor; [|constructor]. apply (pc_alone _ (L "-") (L "rest")); [cbn; tauto|cbn; intros H; repeat destruct H as [H|H]; try discriminate; tauto|right; discriminate].
    + pose proof (cl_rule env0 [L "@who"] (Some (L "login ")) [L "out"] (L "%n:number% out")) as H2. eapply H2; clear H2; [..|apply cl_nil].
      * repeat constructor; cbn; try discriminate; intros H; repeat destruct H as [H|H]; try discriminate; tauto.
      * discriminate.
      * cbn. intros H; repeat destruct H as [H|H]; try discriminate; tauto.
      * eapply rc_field; [vm_compute; reflexivity|discriminate|vm_compute; reflexivity|]. apply rc_last; [discriminate|vm_compute; reflexivity].
      * apply Forall_app. split; [apply HL|]. constructor; [|apply HL]. apply (pc_alone _ (L "n") (L "number")); [cbn; tauto|cbn; intros H; repeat destruct H as [H|H]; try discriminate; tauto|left; discriminate].
Qed.

(** Not every fault is reported: a rule line without ':', a field without a name, a type line
    without ':', an annotation without ':', a line that starts with '='; each is ignored. *)
Theorem C81_every_fault_reported_refuted :
  Forall (fun l => loaded [l] = Some true /\ msgs [l] = [] /\ forall m, run0 no_opts [l] m = run0 no_opts [] m)
    ["rule=abc"; "rule=:%:word%"; "type=@abc"; "annotate=abc"; "=abc"]%string.
Proof. repeat constructor; intros m; vm_compute; reflexivity. Qed.
Print Assumptions C81_every_fault_reported_refuted.
(** Not every message has a reason: the field "%-:string%" is as documented, and works. *)
Theorem C81_no_false_alarm_string_refuted : loaded ["rule=:%-:string%"]%string = Some true /\ msgs ["rule=:%-:string%"]%string = [(1%N, "invalid param for hexnumber: ")]%string /\
  run0 no_opts ["rule=:%-:string%"]%string "abc" = EOk (true, []).
Proof. vm_compute. auto. Qed.
Print Assumptions C81_no_false_alarm_string_refuted.
(** Messages about a field description print the text behind it from a buffer that has no end
    mark. *)
Theorem C81_ends_with_text_refuted : exists m, In m (m_loadString env0 no_bad isort 200 (initCtx no_opts) (lines ["rule=:%a%"]%string)) /\ b_open (m_body m) = true.
Proof. eexists. split; [left; vm_compute; reflexivity|reflexivity]. Qed.
Print Assumptions C81_ends_with_text_refuted.

(** A fault that is reported need not be harmless: loading goes on and follows a null pointer. *)
Theorem C81_reported_is_harmless_refuted :
  msgs ["rule=:%{""type"":""literal""}%"]%string = [(1%N, "literal type needs 'text' parameter")]%string /\ load0 no_opts ["rule=:%{""type"":""literal""}%"]%string = EUb NullDeref.
Proof. vm_compute. auto. Qed.
Print Assumptions C81_reported_is_harmless_refuted.

(** ** C82: delivery *)
Theorem C82_only_with_callback : forall c file line t errno, errprintf c file line t errno = None <-> cb_err c = false.
Proof.
  intros c file line t errno. unfold errprintf. destruct (cb_err c); cbn [negb]; [|tauto]. split; [|discriminate].
  destruct errno, file; cbv zeta; discriminate.
Qed.
Print Assumptions C82_only_with_callback.

(** A message of ordinary length arrives in full, with file and line in front, and the length
    is that of the text. *)
Definition ordinary (parts : list text) : Prop := (N.of_nat (List.length (List.concat parts)) < 8192)%N.
Lemma cut_all n t : (N.of_nat (List.length t) < n)%N -> cut n t = t.
Proof. intros H. unfold cut. apply firstn_all2. lia. Qed.
Theorem C82_complete_message : forall c f line t, cb_err c = true -> ~ In NUL f -> ordinary [f; Err.digits line; t; L "rulebase file []: "] ->
  exists cookie, errprintf c (Some f) line t None =
  Some (cookie, L "rulebase file " ++ f ++ L "[" ++ Err.digits line ++ L "]: " ++ t, N.of_nat (List.length (L "rulebase file " ++ f ++ L "[" ++ Err.digits line ++ L "]: " ++ t))).
Proof.
  intros c f line t HC HF HO. unfold ordinary in HO. cbn [List.concat] in HO. rewrite !app_length in HO. change (List.length (L "rulebase file []: ")) with 18 in HO. cbn [List.length] in HO.
  unfold errprintf. rewrite HC. cbn [negb]. unfold fit8k. assert (HT : N.leb 8192 (N.of_nat (List.length t)) = false) by (apply N.leb_gt; lia). rewrite HT. cbv zeta. rewrite cstr_id by auto.
  rewrite cut_all; [eexists; reflexivity|]. rewrite !app_length. change (List.length (L "rulebase file ")) with 14. change (List.length (L "[")) with 1. change (List.length (L "]: ")) with 3. lia.
Qed.
Print Assumptions C82_complete_message.
Theorem C82_complete_with_reason : forall c f line t why, cb_err c = true -> ~ In NUL f -> ordinary [f; Err.digits line; t; why; L "rulebase file []: : "] -> (N.of_nat (List.length why) < 1023)%N ->
  exists cookie, errprintf c (Some f) line t (Some why) =
  Some (cookie, L "rulebase file " ++ f ++ L "[" ++ Err.digits line ++ L "]: " ++ t ++ L ": " ++ why, N.of_nat (List.length (L "rulebase file " ++ f ++ L "[" ++ Err.digits line ++ L "]: " ++ t ++ L ": " ++ why))).
Proof.
  intros c f line t why HC HF HO HW. unfold ordinary in HO. cbn [List.concat] in HO. rewrite !app_length in HO. change (List.length (L "rulebase file []: : ")) with 20 in HO. cbn [List.length] in HO.
  unfold errprintf. rewrite HC. cbn [negb]. unfold fit8k. assert (HT : N.leb 8192 (N.of_nat (List.length t)) = false) by (apply N.leb_gt; lia). rewrite HT. cbv zeta. rewrite cstr_id by auto.
  rewrite (cut_all 1023 why) by exact HW. rewrite (cut_all 9216 (t ++ _)).
  - rewrite cut_all; [eexists; reflexivity|]. rewrite !app_length. change (List.length (L "rulebase file ")) with 14. change (List.length (L "[")) with 1. change (List.length (L "]: ")) with 3. change (List.length (L ": ")) with 2. lia.
  - rewrite !app_length. change (List.length (L ": ")) with 2. lia.
Qed.
Print Assumptions C82_complete_with_reason.

(** The number in the text is the line number. *)
Theorem C82_line_readable : forall n m, Err.digits n = Err.digits m -> n = m.
Proof.
  intros n m H. unfold Err.digits, L in H. apply (f_equal string_of_list_ascii) in H. rewrite !string_of_list_ascii_of_string in H.
  apply (f_equal DecimalString.NilZero.uint_of_string) in H. apply DecimalN.Unsigned.to_uint_inj.
  assert (HN : forall k, N.to_uint k <> Decimal.Nil) by (intros k; destruct k; [discriminate|]; intros HX; apply (f_equal N.of_uint) in HX; rewrite DecimalN.Unsigned.of_to in HX; discriminate).
  rewrite !DecimalString.NilZero.usu in H by auto. congruence.
Qed.
Print Assumptions C82_line_readable.

(** Whatever the message is, the text that is handed over fits into the buffers: it has at most
    9215 bytes. *)
Theorem C82_never_too_long : forall c file line t errno cookie msg len, errprintf c file line t errno = Some (cookie, msg, len) -> (N.of_nat (List.length msg) <= 9215)%N.
Proof.
  assert (HC : forall x, (N.of_nat (List.length (cut 9216 x)) <= 9215)%N). { intros x. unfold cut. pose proof (firstn_le_length (N.to_nat (9216 - 1)) x). lia. }
  assert (HF : forall x, (N.of_nat (List.length (fit8k x)) <= 9215)%N).
  { intros x. unfold fit8k. destruct (N.leb_spec 8192 (N.of_nat (List.length x))); [|lia]. rewrite !app_length. pose proof (firstn_le_length (N.to_nat 8187) x). change (List.length (L "...")) with 3. change (List.length [chr 10]) with 1. lia. }
  intros c file line t errno cookie msg len H. unfold errprintf in H. destruct (cb_err c); cbn [negb] in H; [|discriminate]. cbv zeta in H.
  destruct errno as [s|], file as [f|]; injection H as _ <- _; auto.
Qed.
Print Assumptions C82_never_too_long.

(** Refuted: the callback gets the cookie it was registered with. It gets the one of the debug
    callback. *)
Theorem C82_cookie_refuted : exists c cookie, cookie <> 0 /\ c = setErrMsgCB no_callbacks cookie /\ forall file line t errno, exists msg len, errprintf c file line t errno = Some (0, msg, len).
Proof.
  exists (setErrMsgCB no_callbacks 7), 7. split; [discriminate|]. split; [reflexivity|]. intros file line t errno. unfold errprintf. cbn [cb_err setErrMsgCB negb]. cbv zeta. destruct errno, file; eexists _, _; reflexivity.
Qed.
Print Assumptions C82_cookie_refuted.
Theorem C82_debug_cookie_refuted : forall c k1 k2 file line t errno, exists msg len, errprintf (setErrMsgCB (setDebugCB c k1) k2) file line t errno = Some (k1, msg, len) /\ errprintf (setDebugCB (setErrMsgCB c k2) k1) file line t errno = Some (k1, msg, len).
Proof. intros. unfold errprintf. cbn [cb_err setErrMsgCB setDebugCB negb]. cbv zeta. destruct errno, file; eexists _, _; split; reflexivity. Qed.
Print Assumptions C82_debug_cookie_refuted.
(** Refuted: the length that is handed over is that of the text. It is larger when the text is
    cut. *)
Theorem C82_length_refuted : exists c file line t cookie msg len, errprintf c file line t None = Some (cookie, msg, len) /\ (N.of_nat (List.length msg) < len)%N.
Proof.
  exists (setErrMsgCB no_callbacks 1), (Some (repeat "f"%char (N.to_nat 9300))), 1%N, (L "x"). eexists _, _, _. split; [vm_compute; reflexivity|]. vm_compute. reflexivity.
Qed.
Print Assumptions C82_length_refuted.
Example delivered : errprintf (setErrMsgCB no_callbacks 3) (Some (L "/etc/rb")) 12 (L "invalid field type 'wort'") None = Some (0, L "rulebase file /etc/rb[12]: invalid field type 'wort'", 52%N).
Proof. reflexivity. Qed.
Example ordinary_met : ordinary [L "/etc/rb"; Err.digits 12; L "invalid field type 'wort'"; L "rulebase file []: "].
Proof. reflexivity. Qed.
