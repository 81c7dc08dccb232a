(** * Prop_Quiet: C89 -- a rulebase about which nothing was reported is complete. *)
From Coq Require Import String Permutation.
From Verif Require Import Base BaseFacts Time Parsers Engine Pdag Samp GraphSpec History SafetySpec EngineSpec EngineWf FaultSpec TrapSpec Err HeapFacts EngineFacts2 Stat StatSpec StatTop QuietSpec CompleteFacts TestEnv.
From Verif Require Prop_Stat Prop_Trap Prop_Fault Prop_Err.
Local Open Scope list_scope.

Lemma quiet_history e badint q cx : quiet e badint q cx -> history e q cx.
Proof. induction 1; [apply h_init|eapply h_load; eauto|eapply h_string; eauto|eapply h_normalize; eauto]. Qed.
Lemma log_complete : forall l h, data_complete h -> data_complete (fold_left (fun h x => upd_node h (fst x) (fun n => Engine.bump n (snd x))) l h).
Proof. induction l as [|x l IH]; intros h H; cbn [fold_left]; [exact H|]. apply IH. apply complete_quiet; auto. Qed.
Lemma normalize_ctx fuel e cx msg js ok o cx' : normalize fuel e cx msg js = EOk (ok, o, cx') -> exists log, cx' = apply_log cx log.
Proof.
  unfold normalize. intros E. apply ebind_ok in E as ([k s] & _ & E). cbv zeta in E. destruct k.
  - destruct (r_end s) as [en|]; [|discriminate]. apply ebind_ok in E as (n & _ & E). apply ebind_ok in E as (o1 & _ & E). apply ebind_ok in E as (o2 & _ & E). injection E as _ _ <-. eauto.
  - destruct (Nat.ltb _ _); [discriminate|]. injection E as _ _ <-. eauto.
Qed.

(** Every field in such a context has the data its type needs. *)
Theorem C89_complete : forall e badint q cx, permutes q -> quiet e badint q cx -> data_complete (c_nodes cx) /\ texts_there cx.
Proof.
  intros e badint q cx HQ H. assert (HD : data_complete (c_nodes cx)).
  { induction H as [o|cx fuel file cx' ok H IH E HM|cx fuel s cx' ok H IH E HM|cx fuel msg js ok o cx' H IH E].
    - intros i n p ty Hi Hp. destruct i as [|i]; [|destruct i; discriminate Hi]. injection Hi as <-. destruct Hp.
    - eapply (load_complete e badint q HQ fuel 1 cx file (cx', ok)); eauto.
    - eapply (string_complete e badint q HQ fuel cx s (cx', ok)); eauto.
    - apply normalize_ctx in E as (log & ->). cbn. apply log_complete. exact IH. }
  split; [exact HD|]. intros i n p Hi Hp HL. specialize (HD i n p). destruct (p_kind p) as [m|pn wn pm|ti] eqn:EK; [|discriminate HL|discriminate HL].
  destruct m; try discriminate HL; [eauto|]. destruct (HD typ Hi Hp). reflexivity.
Qed.
Print Assumptions C89_complete.

(** What is said of complete rulebases can be said of these: the pictures of the rulebase and of
    its use are well-formed, *)
Theorem C89_graph : forall e badint q cx addr vis, permutes q -> quiet e badint q cx -> (forall i, Forall (fun c => id_char c = true) (addr i)) ->
  (exists t vis' order stmts, dotGraph addr cx vis = EOk (t, vis') /\ new_below (c_nodes cx) everything (c_root cx) [] order /\ read_dot t = Some stmts /\
    Permutation stmts (map (shown (fun i => "l"%char :: addr i)) (flat_map (items_of (c_nodes cx) everything) order))) /\
  (exists t vis' order stmts, fullStatsDOT addr cx vis = EOk (t, vis') /\ new_below (c_nodes cx) (used (c_nodes cx)) (c_root cx) [] order /\ read_dot t = Some stmts /\
    Permutation stmts (map (shown_use (fun i => "l"%char :: addr i)) (flat_map (items_of (c_nodes cx) (used (c_nodes cx))) order))).
Proof.
  intros e badint q cx addr vis HQ H HA. pose proof (quiet_history _ _ _ _ H) as HH. destruct (C89_complete e badint q cx HQ H) as [HD _].
  split; [eapply Prop_Stat.C83_graph; eauto|eapply Prop_Stat.C83_usage_graph; eauto].
Qed.
Print Assumptions C89_graph.
(** a further load runs only into the traps of the text itself, *)
Theorem C89_next_load : forall e badint q cx, permutes q -> quiet e badint q cx ->
  forall fuel s u, fits e (cstr s) fuel -> loadString e q fuel cx s = EUb u -> load_trap e (c_prefix cx) (a_line e (cstr s)) u.
Proof. intros e badint q cx HQ H. apply (Prop_Trap.C87_string e q cx HQ (quiet_history _ _ _ _ H)). apply (C89_complete e badint q cx HQ H). Qed.
Print Assumptions C89_next_load.
(** and a message runs into no field without data: where a field misbehaves, it is a field of
    another kind, on a text that exposes it. *)
Theorem C89_messages : forall e badint q cx, tok_ok e -> permutes q -> quiet e badint q cx ->
  forall fuel msg js u, normalize fuel e cx msg js = EUb u ->
  (exists p m k, in_graph cx p /\ p_kind p = KSimple m /\ (forall ty, m <> MNoData ty) /\ hazard e m (named p) (skipn k msg) u) \/
  u = OutOfFuel \/ (cee_inside cx msg /\ (u = OobOffset \/ u = OobRead)) \/ ((named_separator cx \/ empty_annotation cx) /\ u = NullDeref) \/ (opt_rule (c_opts cx) = true /\ empty_mockup cx /\ u = OobWrite).
Proof.
  intros e badint q cx HT HQ H fuel msg js u E. apply (Prop_Fault.C86_only_listed_faults e q cx HT HQ (quiet_history _ _ _ _ H)) in E.
  destruct (C89_complete e badint q cx HQ H) as [HD _]. destruct E as [|u HX|HC|HC|HS|HA|HM HX]; auto 10.
  left. destruct HX as (p & m & k & HI & HK & HZ). exists p, m, k. split; [exact HI|]. split; [exact HK|]. split; [|exact HZ]. intros ty ->. destruct HI as (i & n & HN & HP). apply (HD i n p ty HN HP). exact HK.
Qed.
Print Assumptions C89_messages.

(** ** The hypotheses can be met *)
Definition rules89 : list string := ["type=@who:user %u:word%"; "rule=in:login %w:@who% from %ip:ipv4%"; "rule=out:logout %n:number%, %r:rest%"; "annotate=in:+kind=""session"""]%string.
Lemma quiet89 : exists cx, loadString env0 isort 200 (initCtx no_opts) (lines rules89) = EOk (cx, true) /\ m_loadString env0 Prop_Err.no_bad isort 200 (initCtx no_opts) (lines rules89) = [].
Proof. eexists. split; vm_compute; reflexivity. Qed.
Example quiet_there : exists cx, quiet env0 Prop_Err.no_bad isort cx /\ c_root cx = 0 /\ List.length (c_types cx) = 1.
Proof.
  destruct quiet89 as (cx & HL & HM). exists cx. split; [eapply q_string; [apply q_init|exact HL|exact HM]|].
  revert HL. vm_compute. intros HL. injection HL as <-. split; reflexivity.
Qed.

(** A load that returns success is not enough: *)
Definition rules89b : list string := ["rule=:a %b:char-to% c"]%string.
Theorem C89_success_is_enough_refuted : exists cx, history env0 isort cx /\ loadString env0 isort 200 (initCtx no_opts) (lines rules89b) = EOk (cx, true) /\ ~ data_complete (c_nodes cx) /\
  normalize 100 env0 cx (L "a x c") [] = EUb NullDeref.
Proof.
  assert (HX : exists cx, loadString env0 isort 200 (initCtx no_opts) (lines rules89b) = EOk (cx, true) /\ normalize 100 env0 cx (L "a x c") [] = EUb NullDeref /\
    exists i n p, nth_error (c_nodes cx) i = Some (Some n) /\ nth_error (n_parsers n) 0 = Some p /\ p_kind p = KSimple (MNoData (L "char-to"))).
  { eexists. split; [vm_compute; reflexivity|]. split; [vm_compute; reflexivity|]. exists 2. eexists. eexists. split; [vm_compute; reflexivity|]. split; vm_compute; reflexivity. }
  destruct HX as (cx & HL & HN & i & n & p & H1 & H2 & H3). exists cx. split; [eapply h_string; [apply h_init|exact HL]|]. split; [exact HL|]. split; [|exact HN].
  intros HD. apply (HD i n p (L "char-to") H1); [eapply nth_error_In; exact H2|exact H3].
Qed.
Print Assumptions C89_success_is_enough_refuted.
