(** * Prop_Many: rulebases with many rules and user-defined types (C80). *)
From Verif Require Import Base Time Parsers Engine Pdag Samp EngineSpec EngineSpec2 GraphSpec History RuleSpec BuiltSpec LineSpec SimSpec LoadSpec SafetySpec OneSpec ManySpec ManyTop EngineWf ManyTotal TestEnv.
From Verif Require Prop_Graph Prop_Engine Prop_Load.

(** A rulebase text (C46: rulebase, its lines) with up to 255 rules, prefixes and user-defined
    types, each type with any number of rules, using each other in any way: it is accepted; a
    success has a rule that takes the whole message, with its values in the object; a rule
    without user-defined types that takes the message is never overlooked; a failure reports
    the message and the rest of it. *)
Theorem C80_many_rules_text : forall e q o fuel t ls rules, prints_no_nul e -> permutes q ->
  ~ In NUL t -> no_eof e false t -> rulebase false t 0 ls -> reads_lines e [] None ls rules -> List.length rules <= 255 ->
  exists cx, loadString e q fuel (initCtx o) t = EOk (cx, true) /\ sound_and_complete e o cx rules.
Proof.
  intros e q o fuel t ls rules HE HQ HN HF HR HO HK. destruct (loadString_many e q HE HQ fuel o t ls rules HN HR HF HO HK) as (cx & E & RO).
  exists cx. split; auto. apply normalize_many. eapply made_ready; eauto.
Qed.
Print Assumptions C80_many_rules_text.
Theorem C80_many_rules_file : forall e q o fuel f t ls rules, prints_no_nul e -> permutes q ->
  files e f = Some (version2 ++ t) -> rulebase true t 1 ls -> reads_lines e [] None ls rules -> List.length rules <= 255 ->
  exists cx, loadFile e q (S fuel) (initCtx o) f = EOk (cx, true) /\ sound_and_complete e o cx rules.
Proof.
  intros e q o fuel f t ls rules HE HQ HF HR HO HK. destruct (loadFile_many e q HE HQ fuel o f t ls rules HF HR HO HK) as (cx & E & RO).
  exists cx. split; auto. apply normalize_many. eapply made_ready; eauto.
Qed.
Print Assumptions C80_many_rules_file.

(** Such a rulebase always has an answer if a type uses another type, or itself, only behind a
    field that takes a byte, or only types of a smaller rank. *)
Theorem C80_always_answers_text : forall e q o fuel t ls rules, prints_no_nul e -> permutes q ->
  ~ In NUL t -> no_eof e false t -> rulebase false t 0 ls -> reads_lines e [] None ls rules -> List.length rules <= 255 ->
  grounded rules -> sane_rules rules -> tok_ok e -> opt_rule o = false -> opt_loc o = false ->
  exists cx, loadString e q fuel (initCtx o) t = EOk (cx, true) /\
  forall msg, harmless e msg -> exists F, forall nf, F <= nf -> forall js0, exists ok out cx', normalize nf e cx msg js0 = EOk (ok, out, cx').
Proof.
  intros e q o fuel t ls rules HE HQ HN HF HR HO HK HG HS Ht O1 O2. destruct (loadString_many e q HE HQ fuel o t ls rules HN HR HF HO HK) as (cx & E & RO).
  exists cx. split; [exact E|]. eapply made_total; eauto.
Qed.
Print Assumptions C80_always_answers_text.
Theorem C80_always_answers_file : forall e q o fuel f t ls rules, prints_no_nul e -> permutes q ->
  files e f = Some (version2 ++ t) -> rulebase true t 1 ls -> reads_lines e [] None ls rules -> List.length rules <= 255 ->
  grounded rules -> sane_rules rules -> tok_ok e -> opt_rule o = false -> opt_loc o = false ->
  exists cx, loadFile e q (S fuel) (initCtx o) f = EOk (cx, true) /\
  forall msg, harmless e msg -> exists F, forall nf, F <= nf -> forall js0, exists ok out cx', normalize nf e cx msg js0 = EOk (ok, out, cx').
Proof.
  intros e q o fuel f t ls rules HE HQ HF HR HO HK HG HS Ht O1 O2. destruct (loadFile_many e q HE HQ fuel o f t ls rules HF HR HO HK) as (cx & E & RO).
  exists cx. split; [exact E|]. eapply made_total; eauto.
Qed.
Print Assumptions C80_always_answers_file.

(** ** The hypotheses can be met *)
Import Prop_Load.
Local Open Scope list_scope.
Definition items3 : list item := map (fun s => Line (L s)) ["type=@who:user %u:word%"; "type=@who:host %h:word%"; "prefix=login "; "rule=in:%w:@who%"; "rule=out:%n:number% out"]%string.
Definition text3 : text := write items3.
Definition ls3 : list (text * N) := numbered 0 items3.
Lemma ls3_ok : rulebase false text3 0 ls3.
Proof. apply numbered_ok. vm_compute. reflexivity. Qed.
Definition lit (s : string) : rfields := map (fun c => (RPlain (MLiteral [c]), None)) (L s).
Definition who (s nm : string) : rfields := lit s ++ [(RPlain MWord, Some (L nm))].
Definition rules3 : list mrule :=
  [(Some (L "@who"), who "user " "u", []); (Some (L "@who"), who "host " "h", []);
   (None, lit "login " ++ [(RType (L "@who"), Some (L "w"))], [L "in"]);
   (None, lit "login " ++ (RPlain (MNumber FmtString 0), Some (L "n")) :: lit " out", [L "out"])].
Lemma name3 : type_name (L "@who").
Proof. split; [exists (L "who"); reflexivity|]. split; [intros H; cbn in H; intuition discriminate|]. split; [intros H; cbn in H; intuition discriminate|]. split; [|reflexivity]. intros c H. cbn in H. intuition (subst; reflexivity). Qed.
Ltac flat3 := repeat first [apply Forall2_nil | apply Forall2_cons; [first [apply fr_plain; vm_compute; reflexivity | apply (fr_type _ _ _ 0); vm_compute; reflexivity]|]].
Lemma many3 : reads_lines env1 [] None ls3 rules3.
Proof.
  assert (E : ls3 = [(type_line (L "@who") (L "user %u:word%"), 1%N); (type_line (L "@who") (L "host %h:word%"), 2%N); (L "prefix=" ++ L "login ", 3%N);
    (rule_line [L "in"] (L "%w:@who%"), 4%N); (rule_line [L "out"] (L "%n:number% out"), 5%N)]) by (vm_compute; reflexivity).
  rewrite E. unfold rules3. eapply rl_type; [exact name3|discriminate|eapply rc_field; [reflexivity|discriminate|reflexivity|apply rc_nil]|discriminate|flat3|].
  change (add_name (L "@who") []) with [L "@who"].
  eapply rl_type; [exact name3|discriminate|eapply rc_field; [reflexivity|discriminate|reflexivity|apply rc_nil]|discriminate| |]; change (add_name (L "@who") [L "@who"]) with [L "@who"]; [flat3|].
  apply rl_prefix. eapply rl_rule; [|discriminate|eapply rc_field; [reflexivity|discriminate|reflexivity|apply rc_nil]|flat3|].
  - constructor; [|constructor]. split; [discriminate|]. repeat split; intros H; cbn in H; intuition discriminate.
  - eapply rl_rule; [|discriminate|eapply rc_field; [reflexivity|discriminate|reflexivity|eapply rc_last; [discriminate|reflexivity]]|flat3|apply rl_nil].
    constructor; [|constructor]. split; [discriminate|]. repeat split; intros H; cbn in H; intuition discriminate.
Qed.
Definition result3 (m : string) : option (bool * fields) :=
  match loadString env1 isort 5 (initCtx no_opts) text3 with
  | EOk (cx, true) => match normalize 100 env1 cx (L m) [] with EOk (ok, o, _) => Some (ok, o) | _ => None end
  | _ => None
  end.
Example C80_ex : prints_no_nul env1 /\ permutes isort /\ ~ In NUL text3 /\ no_eof env1 false text3 /\ rulebase false text3 0 ls3 /\
  reads_lines env1 [] None ls3 rules3 /\ List.length rules3 <= 255 /\
  result3 "login user bob" = Some (true, [(L "w", JObj [(L "u", JStr (L "bob"))]); (L "event.tags", JArr [JStr (L "in")])]) /\
  result3 "login host h1" = Some (true, [(L "w", JObj [(L "h", JStr (L "h1"))]); (L "event.tags", JArr [JStr (L "in")])]) /\
  result3 "login 5 out" = Some (true, [(L "n", JStr (L "5")); (L "event.tags", JArr [JStr (L "out")])]) /\
  result3 "login me" = Some (false, [(L "originalmsg", JStr (L "login me")); (L "unparsed-data", JStr (L "me"))]).
Proof.
  split; [intros j; exact (fun H => H)|]. split; [exact Prop_Graph.isort_permutes|]. split; [apply no_nul_b; vm_compute; reflexivity|]. split; [apply no_eof_b; vm_compute; reflexivity|].
  split; [exact ls3_ok|]. split; [exact many3|]. split; [cbn; lia|]. repeat split; vm_compute; reflexivity.
Qed.

(** A list type: it uses itself, behind a number and a comma. *)
Definition items4 : list item := map (fun s => Line (L s)) ["type=@list:%n:number%,%rest:@list%"; "type=@list:%n:number%"; "rule=ls:[%l:@list%]"]%string.
Definition text4 : text := write items4.
Definition ls4 : list (text * N) := numbered 0 items4.
Lemma ls4_ok : rulebase false text4 0 ls4.
Proof. apply numbered_ok. vm_compute. reflexivity. Qed.
Definition num4 : rfield * option text := (RPlain (MNumber FmtString 0), Some (L "n")).
Definition rules4 : list mrule :=
  [(Some (L "@list"), num4 :: lit "," ++ [(RType (L "@list"), Some (L "rest"))], []); (Some (L "@list"), [num4], []);
   (None, lit "[" ++ (RType (L "@list"), Some (L "l")) :: lit "]", [L "ls"])].
Lemma name4 : type_name (L "@list").
Proof. split; [exists (L "list"); reflexivity|]. split; [intros H; cbn in H; intuition discriminate|]. split; [intros H; cbn in H; intuition discriminate|]. split; [|reflexivity]. intros c H. cbn in H. intuition (subst; reflexivity). Qed.
Lemma many4 : reads_lines env1 [] None ls4 rules4.
Proof.
  assert (E : ls4 = [(type_line (L "@list") (L "%n:number%,%rest:@list%"), 1%N); (type_line (L "@list") (L "%n:number%"), 2%N); (rule_line [L "ls"] (L "[%l:@list%]"), 3%N)]) by (vm_compute; reflexivity).
  rewrite E. unfold rules4. eapply rl_type; [exact name4|discriminate|eapply rc_field; [reflexivity|discriminate|reflexivity|eapply rc_field; [reflexivity|discriminate|reflexivity|apply rc_nil]]|discriminate| |]; change (add_name (L "@list") []) with [L "@list"]; [flat3|].
  eapply rl_type; [exact name4|discriminate|eapply rc_field; [reflexivity|discriminate|reflexivity|apply rc_nil]|discriminate| |]; change (add_name (L "@list") [L "@list"]) with [L "@list"]; [flat3|].
  eapply rl_rule; [|discriminate|eapply rc_field; [reflexivity|discriminate|reflexivity|eapply rc_last; [discriminate|reflexivity]]|flat3|apply rl_nil].
  constructor; [|constructor]. split; [discriminate|]. repeat split; intros H; cbn in H; intuition discriminate.
Qed.
Lemma grounded4 : grounded rules4.
Proof.
  exists (fun _ => 0). intros T fs tags pre T' nm post H E. right. destruct H as [H|[H|[H|[]]]]; try discriminate; injection H as <- <- <-.
  - destruct pre as [|x pre]; cbn in E; [discriminate|]. injection E as <- E. exists (MNumber FmtString 0), (Some (L "n")). split; [left; reflexivity|reflexivity].
  - destruct pre as [|x [|y pre]]; discriminate.
Qed.
Lemma sane4 : sane_rules rules4.
Proof.
  intros key fs tags m nm H H'. destruct H as [H|[H|[H|[]]]]; injection H as <- <- <-; cbn in H';
  repeat match goal with H : _ \/ _ |- _ => destruct H as [H|H] | H : False |- _ => destruct H end; try discriminate H'; injection H' as <- <-; (split; [exact I|discriminate]).
Qed.
Definition result4 (m : string) : option (bool * fields) :=
  match loadString env1 isort 5 (initCtx no_opts) text4 with
  | EOk (cx, true) => match normalize 100 env1 cx (L m) [] with EOk (ok, o, _) => Some (ok, o) | _ => None end
  | _ => None
  end.
Example C80_answers_ex : rulebase false text4 0 ls4 /\ reads_lines env1 [] None ls4 rules4 /\ grounded rules4 /\ sane_rules rules4 /\ tok_ok env1 /\ harmless env1 (L "[1,2,30]") /\
  result4 "[1,2,30]" = Some (true, [(L "l", JObj [(L "rest", JObj [(L "rest", JObj [(L "n", JStr (L "30"))]); (L "n", JStr (L "2"))]); (L "n", JStr (L "1"))]); (L "event.tags", JArr [JStr (L "ls")])]).
Proof.
  split; [exact ls4_ok|]. split; [exact many4|]. split; [exact grounded4|]. split; [exact sane4|]. split; [intros t j n; cbn [json_tok env1]; unfold tok0; destruct (jval _ t) as [[v u]|]; [|discriminate]; intros [= _ <-]; lia|]. split; [|vm_compute; reflexivity].
  split; [|split; [apply no_nul_b; vm_compute; reflexivity|split; [|split; [|reflexivity]]]].
  - intros (a & ds & b & H & _ & Hl). apply (f_equal (@List.length _)) in H. rewrite !app_length in H. change (List.length (L "[1,2,30]")) with 8 in H. lia.
  - apply Forall_forall. intros c Hc. cbn in Hc. repeat (destruct Hc as [<-|Hc]; [reflexivity|]). destruct Hc.
  - intros (a & H). apply (f_equal (@rev _)) in H. rewrite rev_app_distr in H. discriminate H.
Qed.

(** Not true without [grounded]: a type that uses itself first never comes to an end, whatever
    the message and the fuel. *)
Definition loop_text : text := write (map (fun s => Line (L s)) ["type=@loop:%x:@loop%a"; "rule=:%y:@loop%"]%string).
Lemma loop_self e cx msg tn n p ps ti ty : get_node (c_nodes cx) tn = EOk n -> n_parsers n = p :: ps -> p_kind p = KCustom ti -> nth_error (c_types cx) ti = Some (ty, tn) ->
  forall f offs partial s, normalizeRec e cx msg f tn offs partial s = EUb OutOfFuel.
Proof.
  intros Hn Hp Hk Ht. induction f as [|f IH]; intros offs partial s; [reflexivity|]. cbn [normalizeRec]. unfold norm_step. rewrite Hn. cbn [ebind]. rewrite Hp. cbn [parser_loop].
  unfold tryParser. rewrite Hk, Ht, IH. reflexivity.
Qed.
Lemma loop_loads : exists cx, loadString env1 isort 5 (initCtx no_opts) loop_text = EOk (cx, true) /\
  exists tn n p ps ty nr pr psr, get_node (c_nodes cx) tn = EOk n /\ n_parsers n = p :: ps /\ p_kind p = KCustom 0 /\ nth_error (c_types cx) 0 = Some (ty, tn) /\
  get_node (c_nodes cx) (c_root cx) = EOk nr /\ n_parsers nr = pr :: psr /\ p_kind pr = KCustom 0.
Proof.
  destruct (loadString env1 isort 5 (initCtx no_opts) loop_text) as [[cx b]|] eqn:E; vm_compute in E; [|discriminate]. injection E as <- <-. eexists. split; [reflexivity|].
  do 8 eexists. repeat split; vm_compute; reflexivity.
Qed.
Theorem C80_self_first_refuted : exists cx, loadString env1 isort 5 (initCtx no_opts) loop_text = EOk (cx, true) /\
  forall msg nf js0, normalize nf env1 cx msg js0 = EUb OutOfFuel.
Proof.
  destruct loop_loads as (cx & E & tn & n & p & ps & ty & nr & pr & psr & H1 & H2 & H3 & H4 & H5 & H6 & H7). exists cx. split; [exact E|]. intros msg nf js0. unfold normalize.
  destruct nf as [|f]; [reflexivity|]. cbn [normalizeRec]. unfold norm_step. rewrite H5. cbn [ebind]. rewrite H6. cbn [parser_loop]. unfold tryParser. rewrite H7, H4, (loop_self _ _ _ _ _ _ _ _ _ H1 H2 H3 H4). reflexivity.
Qed.
Print Assumptions C80_self_first_refuted.
(** Not true: a rule with a user-defined type that takes the message is enough (the type goes
    on behind an attempt of another rule of it), and a success always has a rule whose fields
    take the message without gaps: C56_refuted (Prop_Engine.v). *)
