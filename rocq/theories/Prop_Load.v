(** * Prop_Load: C43-C47, C58 and C36 for rulebase texts -- loading. *)
From Verif Require Import Base Parsers Engine Pdag Samp TestEnv FieldSpec SafetySpec EngineSpec EngineWf GraphSpec RuleSpec BuiltSpec History LineSpec SimSpec LoadSpec AnnotSpec
  BaseFacts EngineFacts2 HeapFacts EngineFacts EngineFacts3 EngineHist EngineTotal EngineCheck BuiltFacts RuleFacts SimFacts LineFacts LoadText LoadSim AnnotFacts LoadTop LoadTop2 Prop_Graph Prop_Rules.
Open Scope list_scope.
From Coq Require Import ZifyBool ZifyNat ZifyN Permutation.

(** ** C46: every line once, in order *)
Definition finish (q : list prs -> list prs) (x : er (ctx * bool)) : er (ctx * bool) :=
  do* (cx, ok) := x in if ok then do* cx := optimize q cx in EOk (cx, true) else EOk (cx, false).
Lemma finish_pos q x y : rsim like x y -> same_result (do* (cx, ok) := x in if negb ok then EOk (cx, false) else do* cx := optimize q cx in EOk (cx, true)) (finish q y).
Proof.
  destruct x as [[c ok]|u], y as [[c' ok']|u']; cbn; try tauto. intros [A B]. cbn in A, B. subst ok'. unfold finish. cbn [ebind]. destruct ok; cbn [negb]; [|split; auto].
  unfold optimize. rewrite A. cbn [c_nodes c_types c_root set_pos]. destruct (optimize_all q _ _); cbn; auto. split; auto. unfold eqpos. reflexivity.
Qed.
(** A rulebase given as a string is read line by line: each line is processed exactly once, in
    order, with its own line number. *)
Theorem C46_string_line_by_line : forall e q fuel c t ls, ~ In NUL t -> no_eof e false t -> rulebase false t 0 ls ->
  same_result (loadString e q fuel c t)
    (finish q (process e (loadSamples e q fuel 2) fuel (set_pos (set_version c 2) (L "--NO-FILE--") 0) ls)).
Proof.
  intros e q fuel c t ls HN HE HR. unfold loadString. rewrite cstr_nonul by auto. apply finish_pos. apply load_lines_process; auto. reflexivity.
Qed.
Print Assumptions C46_string_line_by_line.
Theorem C46_file_line_by_line : forall e q fuel c f t ls, files e f = Some (version2 ++ t) -> c_version c = 0%N \/ c_version c = 2%N -> rulebase true t 1 ls ->
  same_result (loadFile e q (S fuel) c f)
    (finish q (process e (loadSamples e q fuel 2) fuel (set_pos (set_version c 2) f 1) ls)).
Proof.
  intros e q fuel c f t ls HF HV HR. unfold loadFile. cbn [loadSamples]. rewrite HF. change (version2 ++ t) with ("v"%char :: skipn 1 (version2 ++ t)) at 1. cbn iota.
  change ("v"%char :: skipn 1 (version2 ++ t)) with (version2 ++ t). rewrite text_eqb_version. cbn [negb]. cbn iota. change (c_version (set_pos c f 0)) with (c_version c).
  replace (negb (N.eqb (c_version c) 0) && negb (N.eqb 2 (c_version c)))%bool with false by (destruct HV as [-> | ->]; reflexivity). change (Nat.eqb 1 1) with true. cbn iota.
  apply finish_pos. change (skipn 10 (version2 ++ t)) with t. change (set_pos (set_version (set_pos c f 0) 2) f 1) with (set_pos (set_version c 2) f 1).
  apply load_lines_process; auto; try reflexivity; try (intros ? ?; reflexivity); rewrite app_length; lia.
Qed.
Print Assumptions C46_file_line_by_line.

(** ** C44 *)
Theorem C44_comments_and_blank_lines_string : forall e q fuel c items,
  Forall (good_item false) items -> ~ In NUL (write items) -> no_eof e false (write items) ->
  same_outcome (loadString e q fuel c (write items)) (loadString e q fuel c (write (filter is_line items))).
Proof.
  intros e q fuel c items HG HN HE. destruct (write_rb false items HG 0%N) as (ls & R1 & E1). destruct (write_rb false _ (good_filter false items HG) 0%N) as (ls' & R2 & E2).
  apply outcome_rsim. eapply loadString_same; eauto; [intros Hin; apply HN; apply in_write_filter; exact Hin|rewrite E1, E2, lines_of_filter; reflexivity|intros x Hx; apply HE; apply in_write_filter; exact Hx].
Qed.
Print Assumptions C44_comments_and_blank_lines_string.
Theorem C44_comments_and_blank_lines_file : forall e q fuel c f f' items,
  Forall (good_item true) items -> files e f = Some (version2 ++ write items) -> files e f' = Some (version2 ++ write (filter is_line items)) ->
  same_outcome (loadFile e q fuel c f) (loadFile e q fuel c f').
Proof.
  intros e q fuel c f f' items HG HF HF'. destruct (write_rb true items HG 1%N) as (ls & R1 & E1). destruct (write_rb true _ (good_filter true items HG) 1%N) as (ls' & R2 & E2).
  apply outcome_rsim. eapply loadFile_same; eauto. rewrite E1, E2, lines_of_filter. reflexivity.
Qed.
Print Assumptions C44_comments_and_blank_lines_file.
Theorem C44_last_line_feed_string : forall e q fuel c items w,
  Forall (good_item false) (items ++ [Line w]) -> ~ In NUL (write (items ++ [Line w])) -> no_eof e false (write (items ++ [Line w])) ->
  same_outcome (loadString e q fuel c (write items ++ w)) (loadString e q fuel c (write items ++ w ++ [LF])).
Proof.
  intros e q fuel c items w HG HN HE. pose proof HG as HG0. apply Forall_app in HG as [HG HW]. pose proof (Forall_inv HW) as (W1 & W2 & W3).
  assert (EW : write (items ++ [Line w]) = write items ++ w ++ [LF]) by (unfold write; rewrite flat_map_app; cbn; rewrite app_nil_r; reflexivity).
  destruct (write_rb false _ HG0 0%N) as (ls & R1 & E1). destruct (write_rb_last false items w HG W1 ltac:(discriminate) 0%N) as (ls' & R2 & E2). rewrite EW in *.
  assert (HI : forall x, In x (write items ++ w) -> In x (write items ++ w ++ [LF])) by (intros x Hx; rewrite app_assoc; apply in_or_app; left; exact Hx).
  apply outcome_rsim. eapply loadString_same; eauto; [|intros x Hx; apply HE; auto]. rewrite E1, E2, lines_of_app. reflexivity.
Qed.
Print Assumptions C44_last_line_feed_string.
Theorem C44_last_line_feed_file : forall e q fuel c f f' items w,
  Forall (good_item true) (items ++ [Line w]) -> files e f = Some (version2 ++ write items ++ w) -> files e f' = Some (version2 ++ write items ++ w ++ [LF]) ->
  same_outcome (loadFile e q fuel c f) (loadFile e q fuel c f').
Proof.
  intros e q fuel c f f' items w HG HF HF'. pose proof HG as HG0. apply Forall_app in HG as [HG HW]. pose proof (Forall_inv HW) as (W1 & W2 & W3).
  assert (EW : write (items ++ [Line w]) = write items ++ w ++ [LF]) by (unfold write; rewrite flat_map_app; cbn; rewrite app_nil_r; reflexivity).
  destruct (write_rb true _ HG0 1%N) as (ls & R1 & E1). destruct (write_rb_last true items w HG W1 W3 1%N) as (ls' & R2 & E2). rewrite EW in *.
  apply outcome_rsim. eapply loadFile_same; eauto. rewrite E1, E2, lines_of_app. reflexivity.
Qed.
Print Assumptions C44_last_line_feed_file.
(** Contexts with the same rules give the same results. *)
Theorem C44_same_rules_same_results : forall e c c' msg fuel js0, same_rules c c' -> c_opts c = c_opts c' -> opt_loc (c_opts c) = false ->
  visible (normalize fuel e c msg js0) = visible (normalize fuel e c' msg js0).
Proof. intros. apply normalize_sim; auto. Qed.
Print Assumptions C44_same_rules_same_results.

(** ** C45 *)
Theorem C45_prefix_string : forall e q fuel c ls, c_prefix c = None -> good_plines None ls ->
  Forall good_line (map written ls) -> Forall good_line (expand None ls) ->
  ~ In NUL (write_lines (map written ls)) -> ~ In NUL (write_lines (expand None ls)) ->
  no_eof e false (write_lines (map written ls)) -> no_eof e false (write_lines (expand None ls)) ->
  same_rules_loaded (loadString e q fuel c (write_lines (map written ls))) (loadString e q fuel c (write_lines (expand None ls))).
Proof. intros. apply rsame_loaded. apply loadString_prefix; auto. Qed.
Print Assumptions C45_prefix_string.
Theorem C45_prefix_file : forall e q fuel c f f' ls, c_prefix c = None -> good_plines None ls ->
  Forall good_line (map written ls) -> Forall good_line (expand None ls) ->
  files e f = Some (version2 ++ write_lines (map written ls)) -> files e f' = Some (version2 ++ write_lines (expand None ls)) ->
  same_rules_loaded (loadFile e q fuel c f) (loadFile e q fuel c f').
Proof. intros. apply rsame_loaded. eapply loadFile_prefix; eauto. Qed.
Print Assumptions C45_prefix_file.

(** ** C36 for texts *)
Definition nofile : text := L "--NO-FILE--".
(** A rulebase text with rules of built-in fields, at most 255 rule lines, loads, and the
    result matches exactly the messages one of the rules matches. *)
Theorem C36_loaded_text : forall e q o fuel t ls k rs al,
  prints_no_nul e -> permutes q -> ~ In NUL t -> no_eof e false t -> rulebase false t 0 ls ->
  reads_rules e (builtin e) nofile None ls k rs -> annots_read fuel ls al -> k <= 255 ->
  exists cx, loadString e q fuel (initCtx o) t = EOk (cx, true) /\
    forall msg nf js0 ok out cx', ~ In NUL msg -> normalize nf e cx msg js0 = EOk (ok, out, cx') ->
      (ok = true <-> exists r, In r rs /\ loaded_rule_matches e r msg).
Proof.
  intros e q o fuel t ls k rs al HP HQ HN HE HR HL HA HK. destruct (loadString_succeeds e q (builtin e) (fun c H => H) fuel o t ls k rs al HQ HN HR HE HL HA HK) as (cx & EL & _).
  exists cx. split; auto. intros msg nf js0 ok out cx' HM H. destruct (loadString_ready e q (builtin e) (fun c H => H) fuel o t ls k rs cx HN HR HE HL EL) as [HRd HT].
  eapply C36_exactly_the_rules; eauto.
Qed.
Print Assumptions C36_loaded_text.
Theorem C36_loaded_file : forall e q o fuel f t ls k rs al,
  prints_no_nul e -> permutes q -> files e f = Some (version2 ++ t) -> rulebase true t 1 ls ->
  reads_rules e (builtin e) f None ls k rs -> annots_read fuel ls al -> k <= 255 ->
  exists cx, loadFile e q (S fuel) (initCtx o) f = EOk (cx, true) /\
    forall msg nf js0 ok out cx', ~ In NUL msg -> normalize nf e cx msg js0 = EOk (ok, out, cx') ->
      (ok = true <-> exists r, In r rs /\ loaded_rule_matches e r msg).
Proof.
  intros e q o fuel f t ls k rs al HP HQ HF HR HL HA HK. destruct (loadFile_succeeds e q (builtin e) (fun c H => H) fuel o f t ls k rs al HQ HF HR HL HA HK) as (cx & EL & _).
  exists cx. split; auto. intros msg nf js0 ok out cx' HM H. destruct (loadFile_ready e q (builtin e) (fun c H => H) fuel o f t ls k rs cx HF HR HL EL) as [HRd HT].
  eapply C36_exactly_the_rules; eauto.
Qed.
Print Assumptions C36_loaded_file.

Lemma report_ok_annots cx al : has_annots cx al -> opt_rule (c_opts cx) = false -> opt_loc (c_opts cx) = false -> report_ok cx.
Proof.
  intros H H1 H2. split; [|split; congruence]. intros tag ops op Ht Hop. destruct (has_ops _ _ _ _ _ H Ht Hop) as (fvs & f & v & _ & _ & ->). eauto.
Qed.
(** ** C58: from text to result, nothing goes wrong *)
Theorem C58_loaded_text_works : forall e q o fuel t ls k rs al,
  tok_ok e -> prints_no_nul e -> permutes q -> ~ In NUL t -> no_eof e false t -> rulebase false t 0 ls ->
  reads_rules e (usable e) nofile None ls k rs -> annots_read fuel ls al -> k <= 255 -> opt_rule o = false -> opt_loc o = false ->
  exists cx, loadString e q fuel (initCtx o) t = EOk (cx, true) /\
    forall msg nf js0, harmless e msg -> List.length (c_nodes cx) + List.length msg + 2 <= nf ->
      exists ok out cx', normalize nf e cx msg js0 = EOk (ok, out, cx') /\ (ok = true <-> exists r, In r rs /\ loaded_rule_matches e r msg).
Proof.
  intros e q o fuel t ls k rs al HTok HP HQ HN HE HR HL HA HK O1 O2.
  destruct (loadString_succeeds e q (usable e) (usable_builtin e) fuel o t ls k rs al HQ HN HR HE HL HA HK) as (cx & EL & EA & EO & GK).
  exists cx. split; auto. destruct (loadString_ready e q (usable e) (usable_builtin e) fuel o t ls k rs cx HN HR HE HL EL) as [HRd HT].
  destruct (loaded_graph_ok e q k rs cx HQ HRd GK) as (rk & HG & Hrk & HU). intros msg nf js0 HM Hf.
  destruct (normalize_safe e cx msg rk nf js0 HTok HG) as (ok & out & cx' & H); auto; [apply (report_ok_annots cx al); auto; congruence|lia|].
  exists ok, out, cx'. split; auto. eapply C36_exactly_the_rules; eauto. apply HM.
Qed.
Print Assumptions C58_loaded_text_works.
Theorem C58_loaded_file_works : forall e q o fuel f t ls k rs al,
  tok_ok e -> prints_no_nul e -> permutes q -> files e f = Some (version2 ++ t) -> rulebase true t 1 ls ->
  reads_rules e (usable e) f None ls k rs -> annots_read fuel ls al -> k <= 255 -> opt_rule o = false -> opt_loc o = false ->
  exists cx, loadFile e q (S fuel) (initCtx o) f = EOk (cx, true) /\
    forall msg nf js0, harmless e msg -> List.length (c_nodes cx) + List.length msg + 2 <= nf ->
      exists ok out cx', normalize nf e cx msg js0 = EOk (ok, out, cx') /\ (ok = true <-> exists r, In r rs /\ loaded_rule_matches e r msg).
Proof.
  intros e q o fuel f t ls k rs al HTok HP HQ HF HR HL HA HK O1 O2.
  destruct (loadFile_succeeds e q (usable e) (usable_builtin e) fuel o f t ls k rs al HQ HF HR HL HA HK) as (cx & EL & EA & EO & GK).
  exists cx. split; auto. destruct (loadFile_ready e q (usable e) (usable_builtin e) fuel o f t ls k rs cx HF HR HL EL) as [HRd HT].
  destruct (loaded_graph_ok e q k rs cx HQ HRd GK) as (rk & HG & Hrk & HU). intros msg nf js0 HM Hf.
  destruct (normalize_safe e cx msg rk nf js0 HTok HG) as (ok & out & cx' & H); auto; [apply (report_ok_annots cx al); auto; congruence|lia|].
  exists ok, out, cx'. split; auto. eapply C36_exactly_the_rules; eauto. apply HM.
Qed.
Print Assumptions C58_loaded_file_works.

(** ** C43 *)
Lemma rule_entry r : ~ In LF r -> (N.of_nat (List.length r) < 64 * 1024 - 6)%N -> entry (L "rule=:" ++ r).
Proof.
  intros HL HS. assert (HLF : ~ In LF (L "rule=:" ++ r)). { intros H. apply in_app_or in H as [H|H]; [|auto]. cbn in H. repeat (destruct H as [H|H]; [discriminate|]). exact H. }
  constructor.
  - exists "r"%char, (L "ule=:" ++ r). repeat split; discriminate.
  - intros a b E. destruct HLF. rewrite E. apply in_or_app. right. left. reflexivity.
  - rewrite one_line_id by auto. rewrite app_length. change (List.length (L "rule=:")) with 6. lia.
Qed.
(** A rule of literal text (percent signs doubled) matches that text and nothing else. *)
Theorem C43_literal_rule : forall e q o fuel l,
  unescapes e -> prints_no_nul e -> permutes q -> l <> [] -> ~ In NUL l -> ~ In LF l -> ~ In "\"%char l ->
  (N.of_nat (List.length (write_literal l)) < 64 * 1024 - 6)%N -> no_eof e false (L "rule=:" ++ write_literal l ++ [LF]) ->
  exists cx, loadString e q fuel (initCtx o) (L "rule=:" ++ write_literal l ++ [LF]) = EOk (cx, true) /\
    forall msg nf js0 ok out cx', ~ In NUL msg -> normalize nf e cx msg js0 = EOk (ok, out, cx') -> (ok = true <-> msg = l).
Proof.
  intros e q o fuel l HU HP HQ Hl HN HLF HB HS HE.
  assert (HC : rule_confs e (write_literal l) (map literal_conf l)) by (apply literal_confs; auto).
  set (t := L "rule=:" ++ write_literal l ++ [LF]) in *. set (w := L "rule=:" ++ write_literal l).
  assert (Hw : ~ In LF w). { intros H. apply in_app_or in H as [H|H]; [|apply HLF; apply in_written; exact H]. cbn in H. repeat (destruct H as [H|H]; [discriminate|]). exact H. }
  assert (Hr : write_literal l <> []) by (destruct l as [|c l']; [congruence|]; cbn; destruct (ceq c "%"); discriminate).
  assert (ER : rulebase false t 0 [(w, lineno 0 1)]).
  { unfold t. rewrite app_assoc. fold w. pose proof (rb_line false w [] 0%N []) as H. rewrite one_line_id in H by auto. replace (count LF w) with 0 in H.
    - apply H; [apply rule_entry; auto; intros Hx; apply HLF; apply in_written; auto| |discriminate|constructor]. unfold w, in_field. rewrite count_app. change (count "%" (L "rule=:")) with 0. apply written_closed.
    - unfold count. symmetry. replace (filter (ceq LF) w) with (@nil ascii); [reflexivity|]. symmetry. clear - Hw. induction w as [|c w IH]; [reflexivity|]. cbn [filter]. destruct (ceq LF c) eqn:E; [apply ceq_true in E; destruct Hw; left; auto|]. apply IH. intros H. apply Hw. right. exact H. }
  assert (HNt : ~ In NUL t). { intros H. apply in_app_or in H as [H|H]; [cbn in H; repeat (destruct H as [H|H]; [discriminate|]); exact H|]. apply in_app_or in H as [H|[H|[]]]; [apply HN; apply in_written; auto|discriminate]. }
  assert (HM : Forall2 (means e) (map literal_conf l) (map (fun c => (MLiteral [c], None)) l)) by (apply literal_means; auto).
  assert (HL : reads_rules e (builtin e) nofile None [(w, lineno 0 1)] 1 [(None, map literal_conf l, (tag_list [], Some nofile, lineno 0 1))]).
  { change w with (rule_line [] (write_literal l)). apply rr_rule; auto; [eapply means_complete; exact HM|constructor]. }
  destruct (C36_loaded_text e q o fuel t _ 1 _ [] HP HQ HNt HE ER HL) as (cx & EL & HX).
  { constructor; [discriminate|constructor]. } { lia. }
  exists cx. split; auto. intros msg nf js0 ok out cx' HNm H. rewrite (HX _ _ _ _ _ _ HNm H). split.
  - intros (r & [<-|[]] & fs & HF & HT). cbn [fst snd] in HF. apply literal_fields in HF; auto. subst fs. unfold rule_matches in HT. apply literal_takes in HT; auto. lia.
  - intros ->. eexists. split; [left; reflexivity|]. exists (map (fun c => (MLiteral [c], None)) l). split; [exact HM|]. unfold rule_matches. apply literal_takes; auto. lia.
Qed.
Print Assumptions C43_literal_rule.

(** ** C47: tags as written *)
Lemma rule_of_line e good file p ls k rs : reads_rules e good file p ls k rs -> forall key cs inf, In (key, cs, inf) rs ->
  exists tags r n, In (rule_line tags r, n) ls /\ Forall good_tag tags /\ inf = (tag_list tags, Some file, n).
Proof.
  induction 1 as [p|p tags r cs n ls k rs HT Hr HC HF H IH|p tags r cs n ls k rs HT Hr HC HF H IH|p t n ls k rs H IH|p t n ls k rs H IH|p l n ls k rs HI H IH]; intros key cs0 inf Hin.
  - destruct Hin.
  - destruct Hin as [Hin|Hin]; [injection Hin as <- <- <-; exists tags, r, n; repeat split; auto; left; reflexivity|]. destruct (IH _ _ _ Hin) as (a & b & c & A & B). exists a, b, c. split; [right; exact A|exact B].
  - destruct (IH _ _ _ Hin) as (a & b & c & A & B). exists a, b, c. split; [right; exact A|exact B].
  - destruct (IH _ _ _ Hin) as (a & b & c & A & B). exists a, b, c. split; [right; exact A|exact B].
  - destruct (IH _ _ _ Hin) as (a & b & c & A & B). exists a, b, c. split; [right; exact A|exact B].
  - destruct (IH _ _ _ Hin) as (a & b & c & A & B). exists a, b, c. split; [right; exact A|exact B].
Qed.
(** On success event.tags is the list of tags, as written, of a rule line whose rule matches
    the message. *)
Theorem C47_tags_as_written : forall e q o fuel t ls k rs al cx msg nf js0 out cx',
  prints_no_nul e -> permutes q -> ~ In NUL t -> no_eof e false t -> rulebase false t 0 ls ->
  reads_rules e (builtin e) nofile None ls k rs -> annots_read fuel ls al -> k <= 255 -> loadString e q fuel (initCtx o) t = EOk (cx, true) ->
  (forall tag v, ~ annotated al [tag] (L "event.tags") v) -> ~ In NUL msg -> normalize nf e cx msg js0 = EOk (true, out, cx') ->
  exists tags r n cs, In (rule_line tags r, n) ls /\ rule_now rs None cs (tag_list tags, Some nofile, n) /\
    loaded_rule_matches e (None, cs, (tag_list tags, Some nofile, n)) msg /\
    (tags <> [] -> obj_get out (L "event.tags") = Some (JArr (map JStr tags))).
Proof.
  intros e q o fuel t ls k rs al cx msg nf js0 out cx' HP HQ HN HE HR HL HA HK EL HAn HM H.
  destruct (loadString_succeeds e q (builtin e) (fun c H => H) fuel o t ls k rs al HQ HN HR HE HL HA HK) as (cx0 & EL0 & EA & _). rewrite EL in EL0. injection EL0 as <-.
  destruct (loadString_ready e q (builtin e) (fun c H => H) fuel o t ls k rs cx HN HR HE HL EL) as [HRd HT].
  destruct (C48_last_duplicate_wins e q k rs cx msg nf js0 out cx' HP HQ HRd HK HT HM H) as (cs & tg & fl & n & Hnow & HMt & HTg); [apply (has_names cx al); auto; eapply read_clean; eauto|].
  destruct (rule_of_line _ _ _ _ _ _ _ HL _ _ _ (in_rule_now _ _ _ _ Hnow)) as (tags & r & n' & Hin & HG & E). injection E as -> -> ->.
  exists tags, r, n', cs. split; auto. split; auto. split; auto. intros Ht. apply HTg. destruct tags; [congruence|reflexivity].
Qed.
Print Assumptions C47_tags_as_written.

(** ** C49: annotations *)
(** Normalizing with the annotations [al]: a failure is reported as without annotations; on
    success the event is that without annotations, with the annotations of its tags added. *)
Theorem C49_annotated_event : forall e cx al msg nf js0 ok out cx', has_annots cx al -> clean_annots al ->
  normalize nf e cx msg js0 = EOk (ok, out, cx') ->
  exists out0 cx0, normalize nf e (set_annots cx []) msg js0 = EOk (ok, out0, cx0) /\
    (ok = false -> out = out0) /\
    (ok = true -> exists tags, (forall t, tags = Some t -> obj_get out0 (L "event.tags") = Some t) /\ annotated_event (c_opts cx) al (tags_of tags) out0 out).
Proof.
  intros e cx al msg nf js0 ok out cx' HA HC H. pose proof (normalize_annots e cx al msg nf js0 HA HC) as HN. rewrite H in HN. destruct ok.
  - destruct HN as (o0 & c0 & s & en & n & E & _ & _ & _ & HT & HE). exists o0, c0. split; auto. split; [discriminate|]. intros _. exists (n_tags n). auto.
  - destruct HN as (c0 & E). exists out, c0. split; auto. split; [auto|discriminate].
Qed.
Print Assumptions C49_annotated_event.
(** From the text of a rulebase: on success there is a rule line whose rule matches, and the
    event is the one without annotations with the annotations written for the tags of that
    line added. *)
Lemma tag_texts_id tags : Forall good_tag tags -> tags_of (tag_list tags) = tags.
Proof.
  intros H. destruct tags as [|t tags]; [reflexivity|]. unfold tag_list, tags_of, tag_texts. rewrite map_map. induction H as [|x l (_ & _ & _ & Hx) H IH]; [reflexivity|]. cbn [map]. rewrite cstr_id by auto. f_equal. exact IH.
Qed.
Lemma reported_rule e q k rs cx msg fuel js0 s en n : prints_no_nul e -> permutes q -> ready e q k rs cx -> k <= 255 -> c_types cx = [] -> ~ In NUL msg ->
  normalizeRec e cx msg fuel (c_root cx) 0 false (st0 js0) = EOk (true, s) -> r_end s = Some en -> get_node (c_nodes cx) en = EOk n ->
  exists cs, rule_now rs None cs (n_tags n, n_file n, n_line n) /\ loaded_rule_matches e (None, cs, (n_tags n, n_file n, n_line n)) msg.
Proof.
  intros HE HQ HB HK HT HN Hs Hen Hn0. destruct (ready_hr e q k rs cx HE HQ HB HK HT) as (HS & HC & HR & HH).
  pose proof (all_simple_plain cx (c_root cx) HS) as HP. eapply normalizeRec_spec with (o := js0) in Hs; [|exact HP|reflexivity]. destruct Hs as (w & en1 & HW & _ & _ & Hend & _). rewrite Hen in Hend. injection Hend as ->.
  destruct (reported_walk _ _ _ _ _ _ _ HW) as [w1 HW1].
  destruct (walk_hr e msg HN cx _ HC w1 _ HW1) as (l & inf & vs & HL & HAt & _ & n1 & Hn & _ & Einf). apply get_node_at in Hn0. assert (n1 = n) by (eapply live_fun; eauto). subst n1.
  pose proof (HC _ _ HL) as HNl. apply HH in HL as (cs & fs & Hnow & HF & <-). exists cs. rewrite <- Einf. split; [exact Hnow|]. exists fs. split; [exact HF|]. apply fields_atoms; eauto.
Qed.
Theorem C49_annotations_of_text : forall e q o fuel t ls k rs al cx msg nf js0 ok out cx',
  prints_no_nul e -> permutes q -> ~ In NUL t -> no_eof e false t -> rulebase false t 0 ls ->
  reads_rules e (builtin e) nofile None ls k rs -> annots_read fuel ls al -> k <= 255 -> loadString e q fuel (initCtx o) t = EOk (cx, true) ->
  ~ In NUL msg -> normalize nf e cx msg js0 = EOk (ok, out, cx') ->
  exists out0 cx0, normalize nf e (set_annots cx []) msg js0 = EOk (ok, out0, cx0) /\
    (ok = false -> out = out0) /\
    (ok = true -> exists tags r n cs, In (rule_line tags r, n) ls /\ rule_now rs None cs (tag_list tags, Some nofile, n) /\
      loaded_rule_matches e (None, cs, (tag_list tags, Some nofile, n)) msg /\
      (tags <> [] -> obj_get out0 (L "event.tags") = Some (JArr (map JStr tags))) /\
      annotated_event o al tags out0 out).
Proof.
  intros e q o fuel t ls k rs al cx msg nf js0 ok out cx' HP HQ HN HE HR HL HA HK EL HM H.
  destruct (loadString_succeeds e q (builtin e) (fun c H => H) fuel o t ls k rs al HQ HN HR HE HL HA HK) as (cx0 & EL0 & EA & EO & _). rewrite EL in EL0. injection EL0 as <-.
  destruct (loadString_ready e q (builtin e) (fun c H => H) fuel o t ls k rs cx HN HR HE HL EL) as [HRd HT].
  pose proof (normalize_annots e cx al msg nf js0 EA (read_clean _ _ _ HA)) as HX. rewrite H in HX. destruct ok.
  - destruct HX as (o0 & c0 & s & en & n & E & Hs & Hen & Hn & HTg & HEv). exists o0, c0. split; auto. split; [discriminate|]. intros _.
    destruct (reported_rule e q k rs cx msg nf js0 s en n HP HQ HRd HK HT HM Hs Hen Hn) as (cs & Hnow & HMt).
    destruct (rule_of_line _ _ _ _ _ _ _ HL _ _ _ (in_rule_now _ _ _ _ Hnow)) as (tags & r & n' & Hin & HG & E1). injection E1 as E1 E2 E3. rewrite E1, E2, E3 in Hnow, HMt.
    exists tags, r, n', cs. split; auto. split; auto. split; auto. split.
    + intros Ht. apply HTg. rewrite E1. destruct tags; [congruence|reflexivity].
    + rewrite E1, tag_texts_id, EO in HEv by auto. exact HEv.
  - destruct HX as (c0 & E). exists out, c0. split; auto. split; [auto|discriminate].
Qed.
Print Assumptions C49_annotations_of_text.

(** ** Examples *)
Definition env1 : env := {| wraps := false; asserts_on := false; char_signed := true; cur_year := 2026;
     json_tok := tok0; json_show := fun _ => []; json_num := fun _ => 0%Z; json_erroff := fun _ => 0; unescape := fun t => t; files := fun _ => None |}.
Definition items1 : list item :=
  [Comment (L " rules"); Blank; Line (L "prefix=pre "); Line (L "rule=a,b:user %u:word% x"); Comment []; Line (L "rule=:%x:nosuchtype% y"); Line (L "extendprefix=2 "); Blank; Line (L "rule=c:z")].
Definition text1 : text := write items1.
Fixpoint no_inner (odd : bool) (w : text) : bool :=
  match w with [] => true | c :: w' => if ceq c LF then (odd && no_inner odd w')%bool else no_inner (xorb odd (ceq "%" c)) w' end.
Definition entry_b (w : text) : bool :=
  (match w with c :: _ => negb (ceq c LF) && negb (ceq c "#") | [] => false end && negb (existsb (ceq LF) w) && (N.ltb (N.of_nat (List.length w)) 65536) && negb (in_field w))%bool.
Lemma entry_b_ok w : entry_b w = true -> good_line w.
Proof.
  unfold entry_b. rewrite !andb_true_iff. intros [[[H1 H2] H3] H4].
  assert (HL : ~ In LF w). { intros H. apply negb_true_iff in H2. assert (existsb (ceq LF) w = true); [|congruence]. apply existsb_exists. exists LF. split; auto. }
  split; [|split; auto; apply negb_true_iff; exact H4]. constructor.
  - destruct w as [|c w]; [discriminate|]. apply andb_prop in H1 as [A B]. exists c, w. split; auto. split; intros ->; [rewrite ceq_refl in A|rewrite ceq_refl in B]; discriminate.
  - intros a b E. destruct HL. rewrite E. apply in_or_app. right. left. reflexivity.
  - rewrite one_line_id by auto. apply N.ltb_lt. exact H3.
Qed.
Definition good_item_b (i : item) : bool := match i with Blank => true | Comment x => negb (existsb (ceq LF) x) | Line w => entry_b w end.
Lemma good_items_b b l : forallb good_item_b l = true -> Forall (good_item b) l.
Proof.
  intros H. apply Forall_forall. intros i Hi. rewrite forallb_forall in H. specialize (H i Hi). destruct i as [|x|w]; cbn [good_item_b good_item] in *; auto.
  - intros Hx. apply negb_true_iff in H. assert (existsb (ceq LF) x = true); [|congruence]. apply existsb_exists. exists LF. split; auto.
  - apply entry_b_ok in H as (A & B & C). auto.
Qed.
Lemma good_lines_b l : forallb entry_b l = true -> Forall good_line l.
Proof. intros H. apply Forall_forall. intros i Hi. rewrite forallb_forall in H. apply entry_b_ok. auto. Qed.
Lemma no_eof_b e t : forallb (fun c => negb (is_eof_char e false c)) t = true -> no_eof e false t.
Proof. intros H c Hc. rewrite forallb_forall in H. specialize (H c Hc). destruct (is_eof_char e false c); auto. Qed.
Lemma no_nul_b (t : text) : forallb (fun c => negb (ceq NUL c)) t = true -> ~ In NUL t.
Proof. intros H Hc. rewrite forallb_forall in H. specialize (H _ Hc). rewrite ceq_refl in H. discriminate. Qed.

Example C44_ex : Forall (good_item false) items1 /\ ~ In NUL text1 /\ no_eof env0 false text1 /\
  filter is_line items1 <> items1 /\ exists cx, loadString env0 isort 5 (initCtx no_opts) text1 = EOk (cx, true).
Proof.
  split; [apply good_items_b; vm_compute; reflexivity|]. split; [apply no_nul_b; vm_compute; reflexivity|]. split; [apply no_eof_b; vm_compute; reflexivity|]. split; [discriminate|].
  eexists. vm_compute. reflexivity.
Qed.
Definition pl1 : list pline := [Prefix (L "pre "); Rule [L "a"; L "b"] (L "user %u:word% x"); Rule [] (L "%x:nosuchtype% y"); Extend (L "2 "); Other (L "type=@t:abc"); Rule [L "c"] (L "z")].
Example C45_ex : good_plines None pl1 /\ Forall good_line (map written pl1) /\ Forall good_line (expand None pl1) /\
  expand None pl1 = map L ["rule=a,b:pre user %u:word% x"; "rule=:pre %x:nosuchtype% y"; "type=@t:abc"; "rule=c:pre 2 z"]%string /\
  no_eof env0 false (write_lines (map written pl1)) /\ ~ In NUL (write_lines (map written pl1)).
Proof.
  assert (HT : forall l, In l [L "a"; L "b"; L "c"] -> good_tag l). { intros l Hl. repeat (destruct Hl as [<-|Hl]; [split; [discriminate|]; repeat split; intros [H|[]]; discriminate|]). destruct Hl. }
  split; [|split; [apply good_lines_b; vm_compute; reflexivity|]; split; [apply good_lines_b; vm_compute; reflexivity|]; split; [reflexivity|]; split; [apply no_eof_b; vm_compute; reflexivity|apply no_nul_b; vm_compute; reflexivity]].
  cbn [pl1 good_plines]. split; [repeat constructor; apply HT; cbn; auto|]. split; [discriminate|]. split; [constructor|]. split; [discriminate|]. split; [discriminate|]. split; [right; exists (L "@t:abc"); reflexivity|]. split; [repeat constructor; apply HT; cbn; auto|]. split; [discriminate|exact I].
Qed.
Definition cs1 : list json := literals env1 (L "pre user ") ++ wordconf :: literals env1 (L " x").
Definition cs3 : list json := literals env1 (L "pre 2 z").
Definition ls1 : list (text * N) := map (fun x => (L (fst x), snd x)) [("prefix=pre ", 3%N); ("rule=a,b:user %u:word% x", 4%N); ("rule=:%x:nosuchtype% y", 6%N); ("extendprefix=2 ", 7%N); ("rule=c:z", 9%N)]%string.
Definition rs1 : list rule := [(None, cs1, (tag_list [L "a"; L "b"], Some nofile, 4%N)); (None, cs3, (tag_list [L "c"], Some nofile, 9%N))].
Fixpoint numbered (m : N) (l : list item) : list (text * N) :=
  match l with [] => [] | Line w :: r => (w, lineno m 1) :: numbered (lineno m 1) r | _ :: r => numbered (lineno m 1) r end.
Lemma no_lf_count w : ~ In LF w -> count LF w = 0.
Proof.
  intros H. unfold count. replace (filter (ceq LF) w) with (@nil ascii); [reflexivity|]. symmetry. induction w as [|c w IH]; [reflexivity|]. cbn [filter].
  destruct (ceq LF c) eqn:E; [apply ceq_true in E; destruct H; left; auto|]. apply IH. intros H'. apply H. right. exact H'.
Qed.
Lemma numbered_ok : forall l m, forallb good_item_b l = true -> rulebase false (write l) m (numbered m l).
Proof.
  induction l as [|i l IH]; intros m H; [constructor|]. cbn [forallb] in H. apply andb_prop in H as [Hi H]. unfold write. cbn [flat_map]. fold (write l). destruct i as [|x|w]; cbn [write_item numbered].
  - cbn [app]. constructor. apply IH. auto.
  - cbn [app]. rewrite <- app_assoc. cbn [app]. constructor; [|apply IH; auto]. pose proof (good_items_b false [Comment x]) as HX. cbn [forallb good_item_b] in HX. cbn [good_item_b] in Hi. rewrite Hi in HX. exact (Forall_inv (HX eq_refl)).
  - apply entry_b_ok in Hi as (A & B & C). rewrite <- app_assoc. cbn [app]. pose proof (rb_line false w (write l) m (numbered (lineno m 1) l)) as HR. rewrite one_line_id, no_lf_count in HR by auto. apply HR; auto. discriminate.
Qed.
Lemma ls1_ok : rulebase false text1 0 ls1.
Proof. assert (E : ls1 = numbered 0 items1) by (vm_compute; reflexivity). rewrite E. apply numbered_ok. vm_compute. reflexivity. Qed.
Lemma lits_usable e l : ~ In NUL l -> Forall (usable e) (map literal_conf l).
Proof.
  intros H. pose proof (lits_means e l H) as HM. induction l as [|c l IH]; cbn [map] in *; constructor; [|apply IH; [intros Hx; apply H; right; exact Hx|inversion HM; auto]].
  inversion HM as [|? ? ? ? Hc _]; subst. exists (MLiteral [c]), None. split; [exact (Hc [])|]. split; [discriminate|discriminate].
Qed.
Lemma tags_ok : Forall good_tag [L "a"; L "b"] /\ Forall good_tag [L "c"].
Proof. split; repeat constructor; try discriminate; intros [H|[]]; discriminate. Qed.
Lemma ls1_rules : reads_rules env1 (usable env1) nofile None ls1 3 rs1.
Proof.
  assert (HW : usable env1 wordconf) by (exists MWord, (Some (L "u")); split; [reflexivity|split; discriminate]).
  apply (rr_prefix _ _ _ None (L "pre ")).
  apply (rr_rule _ _ _ _ [L "a"; L "b"] (L "user %u:word% x") cs1); [apply tags_ok|discriminate| | |].
  - eapply rc_field; [reflexivity|discriminate|reflexivity|]. eapply rc_last; [discriminate|reflexivity].
  - apply Forall_app. split; [apply lits_usable; apply no_nul_b; vm_compute; reflexivity|]. constructor; [exact HW|apply lits_usable; apply no_nul_b; vm_compute; reflexivity].
  - apply (rr_error _ _ _ _ [] (L "%x:nosuchtype% y") (literals env1 (L "pre "))); [constructor|discriminate| | |].
    + eapply fa_type; [reflexivity|discriminate|reflexivity|]. eapply unknown_type_refused; [reflexivity|discriminate|discriminate|reflexivity|discriminate].
    + apply lits_usable; apply no_nul_b; vm_compute; reflexivity.
    + apply (rr_extend _ _ _ (L "pre ") (L "2 ")). apply (rr_rule _ _ _ _ [L "c"] (L "z") cs3); [apply tags_ok|discriminate| | |constructor].
      * eapply rc_last; [discriminate|reflexivity].
      * apply lits_usable; apply no_nul_b; vm_compute; reflexivity.
Qed.
Definition result1 (m : string) : option (bool * fields) :=
  match loadString env1 isort 5 (initCtx no_opts) text1 with
  | EOk (cx, true) => match normalize 100 env1 cx (L m) [] with EOk (ok, o, _) => Some (ok, o) | _ => None end
  | _ => None
  end.
(** A rulebase text with comments, prefixes and an error meets the hypotheses of C36_loaded_text,
    C46, C47 and C58. *)
Example C58_ex : tok_ok env1 /\ prints_no_nul env1 /\ permutes isort /\ ~ In NUL text1 /\ no_eof env1 false text1 /\ rulebase false text1 0 ls1 /\
  reads_rules env1 (usable env1) nofile None ls1 3 rs1 /\ annots_read 5 ls1 [] /\ harmless env1 (L "pre user bob x") /\
  result1 "pre user bob x" = Some (true, [(L "u", JStr (L "bob")); (L "event.tags", JArr [JStr (L "a"); JStr (L "b")])]) /\
  result1 "pre 2 z" = Some (true, [(L "event.tags", JArr [JStr (L "c")])]) /\
  result1 "pre z" = Some (false, [(L "originalmsg", JStr (L "pre z")); (L "unparsed-data", JStr (L "z"))]).
Proof.
  split. { intros t j n. cbn [json_tok env1]. unfold tok0. destruct (jval _ t) as [[v u]|]; [|discriminate]. intros [= _ <-]. lia. }
  split; [intros j; exact (fun H => H)|]. split; [exact isort_permutes|]. split; [apply no_nul_b; vm_compute; reflexivity|]. split; [apply no_eof_b; vm_compute; reflexivity|].
  split; [exact ls1_ok|]. split; [exact ls1_rules|]. split. { repeat (constructor; [discriminate|]). constructor. }
  split; [|split; [vm_compute; reflexivity|split; vm_compute; reflexivity]].
  split; [|split; [apply no_nul_b; vm_compute; reflexivity|split; [|split; [|reflexivity]]]].
  - intros (a & ds & b & H & H2 & Hl). assert (HD : forall d, In d ds -> In d (L "pre user bob x")) by (intros d Hd; rewrite H; apply in_or_app; right; apply in_or_app; auto).
    destruct ds as [|d ds]; [discriminate|]. assert (Hd := HD d (or_introl eq_refl)). pose proof (Forall_inv H2) as H3. cbn in Hd. repeat (destruct Hd as [<-|Hd]; [exfalso; vm_compute in H3; intuition congruence|]). destruct Hd.
  - apply Forall_forall. intros c Hc. cbn in Hc. repeat (destruct Hc as [<-|Hc]; [reflexivity|]). destruct Hc.
  - intros (a & H). apply (f_equal (@rev _)) in H. rewrite rev_app_distr in H. discriminate H.
Qed.
Example C43_ex : unescapes env0 /\ ~ In NUL (L "100% sure") /\ write_literal (L "100% sure") = L "100%% sure" /\
  run0 no_opts ["rule=:100%% sure"%string] "100% sure" = EOk (true, []) /\ no_eof env0 false (L "rule=:" ++ write_literal (L "100% sure") ++ [LF]).
Proof. split; [intros t _; reflexivity|]. split; [apply no_nul_b; vm_compute; reflexivity|]. split; [reflexivity|]. split; [vm_compute; reflexivity|apply no_eof_b; vm_compute; reflexivity]. Qed.

(** A text with annotations meets the hypotheses of C49_annotations_of_text. *)
Definition ls2 : list (text * N) := map (fun x => (L (fst x), snd x)) [("rule=a,b:x", 1%N); ("annotate=a:+f=""1"" +g= ""two words"" # comment", 2%N); ("annotate=c : +h=""9""", 3%N); ("annotate=b:+k=""3""", 4%N)]%string.
Definition text2 : text := flat_map (fun l => fst l ++ [LF]) ls2.
Definition al2 : list annotation := [(L "a", [(L "f", L "1"); (L "g", L "two words")]); (L "c", [(L "h", L "9")]); (L "b", [(L "k", L "3")])].
Lemma names_ok s : s <> []  -> forallb (fun c => existsb (ceq c) (L "abcdefghijklmnopqrstuvwxyzABCDEFGHIJKLMNOPQRSTUVWXYZ0123456789_.")) s = true -> name s.
Proof.
  intros H1 H2. split; auto. apply Forall_forall. intros c Hc. rewrite forallb_forall in H2. specialize (H2 c Hc). apply existsb_exists in H2 as (x & Hx & E). apply ceq_true in E. subst x. exact Hx.
Qed.
Lemma value_ok v : v <> [] -> forallb (fun c => negb (ceq """" c)) v = true -> forallb (fun c => negb (ceq NUL c)) v = true -> annot_value v.
Proof. intros H1 H2 H3. split; auto. split; [|apply no_nul_b; auto]. intros Hc. rewrite forallb_forall in H2. specialize (H2 _ Hc). rewrite ceq_refl in H2. discriminate. Qed.
Lemma al2_ok : annots_read 5 ls2 al2.
Proof.
  apply ar_other; [discriminate|].
  apply ar_annot.
  { exists [], (L "+f=""1"" +g= ""two words"" # comment"). split; [reflexivity|]. split; [apply names_ok; [discriminate|reflexivity]|]. split; [constructor|].
    apply (ab_add [] (L "f") [] (L "1")); [constructor|apply names_ok; [discriminate|reflexivity]|constructor|apply value_ok; [discriminate|reflexivity|reflexivity]|].
    apply (ab_add [" "%char] (L "g") [" "%char] (L "two words")); [repeat constructor|apply names_ok; [discriminate|reflexivity]|repeat constructor|apply value_ok; [discriminate|reflexivity|reflexivity]|].
    apply (ab_comment [" "%char] (L " comment")). repeat constructor. }
  { cbn. lia. }
  apply ar_annot.
  { exists [" "%char], (L " +h=""9"""). split; [reflexivity|]. split; [apply names_ok; [discriminate|reflexivity]|]. split; [repeat constructor|].
    apply (ab_add [" "%char] (L "h") [] (L "9")); [repeat constructor|apply names_ok; [discriminate|reflexivity]|constructor|apply value_ok; [discriminate|reflexivity|reflexivity]|constructor]. }
  { cbn. lia. }
  apply ar_annot.
  { exists [], (L "+k=""3"""). split; [reflexivity|]. split; [apply names_ok; [discriminate|reflexivity]|]. split; [repeat constructor|].
    apply (ab_add [] (L "k") [] (L "3")); [repeat constructor|apply names_ok; [discriminate|reflexivity]|constructor|apply value_ok; [discriminate|reflexivity|reflexivity]|constructor]. }
  { cbn. lia. }
  constructor.
Qed.
Lemma ls2_ok : rulebase false text2 0 ls2.
Proof. change ls2 with (numbered 0 (map (fun l => Line (fst l)) ls2)). change text2 with (write (map (fun l => Line (fst l)) ls2)). apply numbered_ok. vm_compute. reflexivity. Qed.
Lemma ls2_rules : reads_rules env1 (builtin env1) nofile None ls2 1 [(None, literals env1 (L "x"), (tag_list [L "a"; L "b"], Some nofile, 1%N))].
Proof.
  apply (rr_rule _ _ _ _ [L "a"; L "b"] (L "x") (literals env1 (L "x"))); [apply tags_ok|discriminate|eapply rc_last; [discriminate|reflexivity]| |].
  - eapply Forall_impl; [apply usable_builtin|]. apply lits_usable. apply no_nul_b. vm_compute. reflexivity.
  - apply rr_idle; [left; exists (L "a:+f=""1"" +g= ""two words"" # comment"); reflexivity|]. apply rr_idle; [left; exists (L "c : +h=""9"""); reflexivity|]. apply rr_idle; [left; exists (L "b:+k=""3"""); reflexivity|]. constructor.
Qed.
Definition annot_run (t : text) (m : string) : option (er (bool * fields)) :=
  match loadString env1 isort 5 (initCtx no_opts) t with
  | EOk (cx, true) => Some (match normalize 100 env1 cx (L m) [] with EOk (ok, o, _) => EOk (ok, o) | EUb u => EUb u end)
  | _ => None
  end.
Example C49_ex : ~ In NUL text2 /\ no_eof env1 false text2 /\ rulebase false text2 0 ls2 /\ annots_read 5 ls2 al2 /\
  reads_rules env1 (builtin env1) nofile None ls2 1 [(None, literals env1 (L "x"), (tag_list [L "a"; L "b"], Some nofile, 1%N))] /\
  annot_run text2 "x" = Some (EOk (true, [(L "event.tags", JArr [JStr (L "a"); JStr (L "b")]); (L "k", JStr (L "3")); (L "g", JStr (L "two words")); (L "f", JStr (L "1"))])).
Proof.
  split; [apply no_nul_b; vm_compute; reflexivity|]. split; [apply no_eof_b; vm_compute; reflexivity|]. split; [exact ls2_ok|]. split; [exact al2_ok|]. split; [exact ls2_rules|]. vm_compute. reflexivity.
Qed.

(** ** What does not hold *)
Open Scope string_scope.
Definition loaded_ok (t : text) : option bool := match loadString env0 isort 20 (initCtx no_opts) t with EOk (_, ok) => Some ok | EUb _ => None end.
Definition match_in (t : text) (m : string) : option bool :=
  match loadString env0 isort 20 (initCtx no_opts) t with EOk (cx, _) => verdict (Some cx) m | EUb _ => None end.
(** Lines in error are skipped and the load still reports success. *)
Theorem C46_error_not_reported_refuted :
  map loaded_ok [lines ["rule=:a %x:nosuchtype%"]; lines ["rule=:a %x"]; lines ["nonsense"]; lines ["unknown=x"]; lines ["type=bad:x"]] = [Some true; Some true; Some true; Some true; Some true] /\
  match_in (lines ["rule=:a %x:nosuchtype%"]) "a b" = Some false.
Proof. vm_compute. auto. Qed.
(** In a string the byte 255 ends the rulebase (where char is signed). *)
Theorem C46_byte_255_refuted : loaded_ok (L "rule=:a" ++ [chr 255] ++ lines ["b"; "rule=:c"])%list = Some true /\
  match_in (L "rule=:a" ++ [chr 255] ++ lines ["b"; "rule=:c"])%list "c" = Some false /\ match_in (L "rule=:a" ++ [chr 255] ++ lines ["b"; "rule=:c"])%list "a" = Some true.
Proof. vm_compute. auto. Qed.
(** In a file, a field broken over lines is given up if fewer than five bytes follow. *)
Definition env_f (t : text) : env := {| wraps := false; asserts_on := true; char_signed := true; cur_year := 2026;
     json_tok := tok0; json_show := fun _ => []; json_num := fun _ => 0%Z; json_erroff := fun _ => 0; unescape := fun t => t; files := fun _ => Some t |}.
Definition file_match (t : text) (m : string) : option bool :=
  match loadFile (env_f t) isort 20 (initCtx no_opts) (L "f") with EOk (cx, true) => match normalize 50 (env_f t) cx (L m) [] with EOk (ok, _, _) => Some ok | _ => None end | _ => None end.
Theorem C46_short_rest_refuted : file_match (lines ["version=2"; "rule=:%a:word"; "%"]) "x" = Some false /\ file_match (lines ["version=2"; "rule=:%a:word"; "%"; "#    "]) "x" = Some true.
Proof. vm_compute. auto. Qed.
(** A rule that is empty behind its prefix is not loaded; extendprefix without a prefix crashes. *)
Theorem C45_empty_rule_refuted : match_in (lines ["prefix=abc"; "rule=:"]) "abc" = Some false /\ match_in (lines ["rule=:abc"]) "abc" = Some true.
Proof. vm_compute. auto. Qed.
Theorem C45_extend_first_refuted : loadString env0 isort 20 (initCtx no_opts) (lines ["extendprefix=abc"]) = EUb NullDeref.
Proof. vm_compute. reflexivity. Qed.
(** An empty tag in a tag list crashes. *)
Theorem C47_empty_tag_refuted : loadString env0 isort 20 (initCtx no_opts) (lines ["rule=,:x"]) = EUb NullDeref.
Proof. vm_compute. reflexivity. Qed.
(** An incomplete configuration loads without error, then ln_normalize dereferences NULL. *)
Theorem C58_incomplete_refuted : loaded_ok (lines ["rule=:%{""type"":""char-to"",""name"":""x""}%"]) = Some true /\
  run0 no_opts ["rule=:%{""type"":""char-to"",""name"":""x""}%"] "abc" = EUb NullDeref.
Proof. vm_compute. auto. Qed.
(** Of two annotations of a field the older one wins. *)
Theorem C49_older_wins_refuted :
  annot_run (lines ["rule=a:x"; "annotate=a:+f=""old"""; "annotate=a:+f=""new"""]) "x" = Some (EOk (true, [(L "event.tags", JArr [JStr (L "a")]); (L "f", JStr (L "old"))])).
Proof. vm_compute. reflexivity. Qed.
(** An annotation with an empty value loads; ln_normalize then dereferences NULL. *)
Theorem C49_empty_value_refuted : annot_run (lines ["rule=a:x"; "annotate=a:+f="""""]) "x" = Some (EUb NullDeref).
Proof. vm_compute. reflexivity. Qed.
(** An annotation line that ends in white space is never done. *)
Theorem C49_trailing_blank_refuted : forall fuel cx, processAnnotate fuel cx (L "a:+f=""1"" ") = EUb OutOfFuel.
Proof.
  intros fuel cx. unfold processAnnotate. change (scan isFieldNameChar (L "a:+f=""1"" ")) with 1. cbn [skipn firstn L].
  assert (H : forall fl ops, annot_loop fl (L " ") ops = EUb OutOfFuel) by (induction fl as [|fl IH]; intros ops; [reflexivity|]; cbn [annot_loop L]; apply IH).
  destruct fuel as [|fl]; [reflexivity|].
  assert (E : annot_loop (S fl) (L "+f=""1"" ") [] = annot_loop fl (L " ") [AopAdd (Some (L "f")) (Some (L "1"))]) by reflexivity.
  match goal with |- ?x = _ => change x with (ebind (annot_loop (S fl) (L "+f=""1"" ") []) (fun r => match r with None => EOk cx | Some ops => EOk (set_annots cx (addAnnotToSet (c_annots cx) (L "a", ops))) end)) end.
  rewrite E, H. reflexivity.
Qed.
