(** * Prop_Rules: which messages a rulebase matches (C34, C35, C36, C37, C40, C41, C48).

    [built], [ready]: BuiltSpec.v; [rule_matches]: RuleSpec.v. *)
From Verif Require Import Base Time Parsers Engine Pdag Samp TestEnv FieldFacts3 EngineSpec GraphSpec RuleSpec BuiltSpec History BaseFacts EngineFacts EngineFacts2 EngineFacts3 HeapFacts DeleteFacts BuildFacts BuildFacts2 BuildFacts3 OptSem OptFacts LoadFacts TreeFacts TreeFacts2 BuiltFacts RuleFacts Prop_Graph.
From Coq Require Import ZifyBool ZifyNat ZifyN Permutation Sorted.

Lemma optimize_orel q cx cx' : permutes q -> msafe cx -> optimize q cx = EOk cx' ->
  orel False (c_nodes cx) (c_nodes cx') /\ msafe cx' /\ cx' = set_nodes cx (c_nodes cx') /\ exists n, live (c_nodes cx') (c_root cx) n.
Proof.
  intros HQ (G & rk & HG) E. pose proof (optimize_ok q HQ False 0%Z cx G rk HG (fun f : False => match f with end)) as HP. rewrite E in HP.
  destruct HP as (Ecx & (rk' & HG') & _ & HO & _). split; [exact HO|]. split; [exists G, rk'; rewrite Ecx; exact HG'|]. split; [exact Ecx|].
  eapply gi_live; [exact HG'|]. apply in_or_app. right. left. reflexivity.
Qed.

Lemma ready_hr e q k rs cx : prints_no_nul e -> permutes q -> ready e q k rs cx -> k <= 255 -> c_types cx = [] ->
  all_simple (c_nodes cx) /\ clean (c_nodes cx) (c_root cx) /\
  (forall key cs inf, In (key, cs, inf) rs -> key = None /\ exists fs, Forall2 (means e) cs fs) /\
  forall l inf, hr (c_nodes cx) (c_root cx) l inf <-> exists cs fs, rule_now rs None cs inf /\ Forall2 (means e) cs fs /\ atoms (simple_fields fs) = l.
Proof.
  intros HE HQ [HB|(cx0 & HB & HO)] HK HT.
  - split; [eapply built_simple; eauto|]. eapply built_hr; eauto.
  - destruct (optimize_orel q cx0 cx HQ (built_msafe _ _ _ _ HB) HO) as (HR & _ & Ecx & n & Hn).
    assert (ET : c_types cx0 = []) by (rewrite Ecx in HT; exact HT). assert (ER : c_root cx = c_root cx0) by (rewrite Ecx; reflexivity).
    destruct (built_hr e HE k rs cx0 HB HK ET) as (A & B & C). rewrite ER. split; [|split; [|split; [exact B|]]].
    + eapply orel_simple; [exact HR|]. eapply built_simple; eauto.
    + eapply orel_clean; eauto.
    + intros l inf. rewrite <- (o_hr _ _ _ HR _ _ Hn). apply C.
Qed.

Lemma in_rule_now rs key cs inf : rule_now rs key cs inf -> In (key, cs, inf) rs.
Proof. intros (a & b & -> & _). apply in_or_app. right. left. reflexivity. Qed.
Lemma rule_now_in rs key cs inf : In (key, cs, inf) rs -> exists inf', rule_now rs key cs inf'.
Proof.
  intros Hin. induction rs as [|x rs IH] using rev_ind; [destruct Hin|]. destruct x as [[key0 cs0] inf0].
  assert (Dec : (key = key0 /\ cs = cs0) \/ ~ (key = key0 /\ cs = cs0)).
  { destruct (list_eq_dec json_dec cs cs0) as [->|Hn]; [|right; intros [_ ?]; auto].
    destruct key as [a|], key0 as [b|]; [destruct (list_eq_dec ascii_dec a b) as [->|Hn]; [auto|right; intros [[= ?] _]; auto]|right; intros [? _]; discriminate|right; intros [? _]; discriminate|auto]. }
  destruct Dec as [[<- <-]|Hn]; [exists inf0; apply rule_now_snoc; auto|]. apply in_app_or in Hin as [Hin|[[= -> -> ->]|[]]]; [|tauto].
  destruct (IH Hin) as [i Hi]. exists i. apply rule_now_snoc. auto.
Qed.

(** A rulebase of rules with fields of the built-in types (no user-defined types, repeat or
    alternative), loaded with up to 255 rule lines (with any number of erroneous ones among
    them), matches exactly the messages one of its rules matches. *)
Theorem C36_exactly_the_rules : forall e q k rs cx msg fuel js0 ok o cx',
  prints_no_nul e -> permutes q -> ready e q k rs cx -> k <= 255 -> c_types cx = [] -> ~ In NUL msg ->
  normalize fuel e cx msg js0 = EOk (ok, o, cx') ->
  (ok = true <-> exists r, In r rs /\ loaded_rule_matches e r msg).
Proof.
  intros e q k rs cx msg fuel js0 ok o cx' HE HQ HB HK HT HN H.
  destruct (ready_hr e q k rs cx HE HQ HB HK HT) as (HS & HC & HR & HH).
  assert (HW : (exists w en, walk e cx msg false (c_root cx) 0 w en) <-> exists r, In r rs /\ loaded_rule_matches e r msg).
  { split.
    - intros (w & en & HW). destruct (walk_hr e msg HN cx _ HC w en HW) as (l & inf & vs & HL & HA & _). apply HH in HL as (cs & fs & Hnow & HF & <-).
      exists (None, cs, inf). split; [eapply in_rule_now; eauto|]. exists fs. split; [exact HF|]. apply fields_atoms; eauto. apply (HC _ inf). apply HH. eauto.
    - intros ([[key cs] inf] & Hin & fs & HF & HM). destruct (HR _ _ _ Hin) as [-> _]. destruct (rule_now_in _ _ _ _ Hin) as [inf' Hnow].
      assert (HL : hr (c_nodes cx) (c_root cx) (atoms (simple_fields fs)) inf') by (apply HH; eauto).
      apply fields_atoms in HM as [vs HM]; [|exact HN|exact (HC _ _ HL)]. destruct (hr_walk e msg HN cx _ _ _ _ HC HL HM) as (w & en & HW & _). eauto. }
  rewrite <- HW. pose proof (all_simple_plain cx (c_root cx) HS) as HP. destruct ok.
  - split; auto. intros _. apply normalize_success in H as (w & en & _ & _ & Hw & _); eauto.
  - split; [discriminate|]. intros (w & en & Hw). apply normalize_failure in H as [H _]; auto. destruct (H _ _ Hw).
Qed.
Print Assumptions C36_exactly_the_rules.

(** ** C34 *)
Theorem C34_loaded_rule_matches : forall e q k rs cx msg fuel js0 ok o cx' r,
  prints_no_nul e -> permutes q -> ready e q k rs cx -> k <= 255 -> c_types cx = [] -> ~ In NUL msg ->
  In r rs -> loaded_rule_matches e r msg -> normalize fuel e cx msg js0 = EOk (ok, o, cx') -> ok = true.
Proof. intros. eapply C36_exactly_the_rules; eauto. Qed.
Print Assumptions C34_loaded_rule_matches.

(** ** C35 *)
Theorem C35_adding_keeps_matches : forall e q k k' rs rs' cx cx2 msg fuel fuel' js0 js0' o cx' ok o' cx2',
  prints_no_nul e -> permutes q -> ready e q k rs cx -> ready e q k' (rs ++ rs') cx2 -> k' <= 255 -> k <= 255 -> c_types cx = [] -> c_types cx2 = [] -> ~ In NUL msg ->
  normalize fuel e cx msg js0 = EOk (true, o, cx') -> normalize fuel' e cx2 msg js0' = EOk (ok, o', cx2') -> ok = true.
Proof.
  intros e q k k' rs rs' cx cx2 msg fuel fuel' js0 js0' o cx' ok o' cx2' HE HQ H1 H2 HK' HK HT HT2 HN E1 E2.
  apply (C36_exactly_the_rules e q k rs cx msg) in E1; auto. destruct E1 as [E1 _]. destruct (E1 eq_refl) as (r & Hr & HM).
  eapply (C36_exactly_the_rules e q k' (rs ++ rs') cx2 msg); eauto. exists r. split; auto. apply in_or_app. auto.
Qed.
Print Assumptions C35_adding_keeps_matches.

(** ** C36 *)
Theorem C36_rule_adds_exactly_its_messages : forall e q k k' rs r cx cx2 msg fuel fuel' js0 js0' ok o cx' ok2 o' cx2',
  prints_no_nul e -> permutes q -> ready e q k rs cx -> ready e q k' (rs ++ [r]) cx2 -> k' <= 255 -> k <= 255 -> c_types cx = [] -> c_types cx2 = [] -> ~ In NUL msg ->
  normalize fuel e cx msg js0 = EOk (ok, o, cx') -> normalize fuel' e cx2 msg js0' = EOk (ok2, o', cx2') ->
  (ok2 = true <-> ok = true \/ loaded_rule_matches e r msg).
Proof.
  intros e q k k' rs r cx cx2 msg fuel fuel' js0 js0' ok o cx' ok2 o' cx2' HE HQ H1 H2 HK' HK HT HT2 HN E1 E2.
  rewrite (C36_exactly_the_rules e q k rs cx msg _ _ _ _ _ HE HQ H1 HK HT HN E1), (C36_exactly_the_rules e q k' (rs ++ [r]) cx2 msg _ _ _ _ _ HE HQ H2 HK' HT2 HN E2). split.
  - intros (x & Hx & HM). apply in_app_or in Hx as [Hx|[<-|[]]]; eauto.
  - intros [(x & Hx & HM)|HM]; [exists x|exists r]; (split; [apply in_or_app; cbn; auto|auto]).
Qed.
Print Assumptions C36_rule_adds_exactly_its_messages.

(** ** C48 *)
Lemma reported_walk e cx msg w : forall nd offs en, walk e cx msg false nd offs w en -> exists w1, walk e cx msg false nd offs w1 (reported cx msg false nd offs w en).
Proof.
  induction w as [|st w IH]; intros nd offs en H; inversion H as [? n ? Hn Ht HE|? n ? i p to v ? ? Hn Hi Ha HW]; subst.
  - exists []. cbn [reported]. destruct (stops_at cx msg false en offs); exact H.
  - cbn [reported st_prs st_to]. unfold stops_at. red in Hn. rewrite Hn. destruct (n_term n && (Nat.eqb offs (List.length msg) || false))%bool eqn:ES.
    + exists []. apply andb_prop in ES as [ET EO]. rewrite orb_false_r in EO. apply Nat.eqb_eq in EO. apply (walk_end e cx msg false nd n offs); auto.
    + destruct (IH _ _ _ HW) as [w1 H1]. eexists. eapply walk_step; eauto.
Qed.
(** On success event.tags is the tag list of a rule that matches the message; of several rules
    with the same fields, the tags of the one loaded last. *)
Theorem C48_last_duplicate_wins : forall e q k rs cx msg fuel js0 o cx',
  prints_no_nul e -> permutes q -> ready e q k rs cx -> k <= 255 -> c_types cx = [] -> ~ In NUL msg ->
  normalize fuel e cx msg js0 = EOk (true, o, cx') -> ~ In (L "event.tags") (annot_names (c_annots cx)) ->
  exists cs tags file line, rule_now rs None cs (tags, file, line) /\ loaded_rule_matches e (None, cs, (tags, file, line)) msg /\
    forall t, tags = Some t -> obj_get o (L "event.tags") = Some t.
Proof.
  intros e q k rs cx msg fuel js0 o cx' HE HQ HB HK HT HN H HA.
  destruct (ready_hr e q k rs cx HE HQ HB HK HT) as (HS & HC & HR & HH).
  pose proof (all_simple_plain cx (c_root cx) HS) as HP. apply normalize_success in H as (w & en & rep & nr & HW & _ & Erep & Hrep & _ & _ & _ & Htag & _); auto.
  destruct (reported_walk _ _ _ _ _ _ _ HW) as [w1 HW1]. rewrite <- Erep in HW1.
  destruct (walk_hr e msg HN cx _ HC w1 rep HW1) as (l & inf & vs & HL & HAt & _ & n & Hn & _ & Einf). assert (n = nr) by (eapply live_fun; eauto). subst n.
  pose proof (HC _ _ HL) as HNl. apply HH in HL as (cs & fs & Hnow & HF & <-). exists cs, (n_tags nr), (n_file nr), (n_line nr). rewrite <- Einf. split; [exact Hnow|]. split.
  - exists fs. split; [exact HF|]. apply fields_atoms; eauto.
  - intros t Et. rewrite (Htag HA), Et. reflexivity.
Qed.
Print Assumptions C48_last_duplicate_wins.

(** ** C40 *)
(** The optimizer, on any graph reached by any history whose fields are all of the built-in
    types and whose literals contain no NUL: the same messages match. *)
Definition simple_graph (cx : ctx) : Prop := forall i n p, live (c_nodes cx) i n -> In p (n_parsers n) -> simple p.
Definition nul_free (cx : ctx) : Prop := forall i n p t, live (c_nodes cx) i n -> In p (n_parsers n) -> p_kind p = KSimple (MLiteral t) -> ~ In NUL t.
Lemma nul_free_clean cx r : nul_free cx -> clean (c_nodes cx) r.
Proof.
  intros H l inf (ps & b & n & HP & _ & _ & _ & <-). clear - H HP. induction HP as [i|i n p ps j Hi Hp HP IH]; [intros []|].
  rewrite atoms_cons. intros Hin. apply in_app_or in Hin as [Hin|Hin]; [|auto]. destruct (atoms_of_field (p_kind p) (p_name p)) as [(t & Ek & En)|E].
  - rewrite Ek, En in Hin. cbn in Hin. apply in_map_iff in Hin as (x & [= ->] & Hx). exact (H _ _ _ _ Hi Hp Ek Hx).
  - rewrite E in Hin. destruct Hin as [Hin|[]]. discriminate.
Qed.
Lemma optimize_walks e q cx cx2 msg : permutes q -> safe_graph cx -> simple_graph cx -> nul_free cx -> optimize q cx = EOk cx2 -> ~ In NUL msg ->
  plain cx2 (c_root cx2) /\ c_root cx2 = c_root cx /\ c_annots cx2 = c_annots cx /\ c_opts cx2 = c_opts cx /\
  (forall w en, walk e cx msg false (c_root cx) 0 w en -> exists w2 en2 n n2, walk e cx2 msg false (c_root cx) 0 w2 en2 /\ (forall o, fields_of o w2 = fields_of o w) /\
       node_at cx en n /\ node_at cx2 en2 n2 /\ n_tags n2 = n_tags n) /\
  (forall w2 en2, walk e cx2 msg false (c_root cx) 0 w2 en2 -> exists w en n n2, walk e cx msg false (c_root cx) 0 w en /\ (forall o, fields_of o w2 = fields_of o w) /\
       node_at cx en n /\ node_at cx2 en2 n2 /\ n_tags n2 = n_tags n).
Proof.
  intros HQ HM HS HF HO HN. apply msafe_spec in HM. destruct (optimize_orel q cx cx2 HQ HM HO) as (HR & _ & Ecx & n & Hn).
  assert (ER : c_root cx2 = c_root cx) by (rewrite Ecx; reflexivity).
  pose proof (nul_free_clean cx (c_root cx) HF) as HC. pose proof (orel_clean _ _ _ _ _ HR Hn HC) as HC2.
  split; [apply all_simple_plain; eapply orel_simple; [exact HR|exact HS]|]. split; [exact ER|]. split; [rewrite Ecx; reflexivity|]. split; [rewrite Ecx; reflexivity|]. split.
  - intros w en HW. destruct (walk_hr e msg HN cx _ HC w en HW) as (l & inf & vs & HL & HA & HV & m & Hm & _ & Ei). apply (o_hr _ _ _ HR _ _ Hn) in HL.
    destruct (hr_walk e msg HN cx2 _ _ _ _ HC2 HL HA) as (w2 & en2 & HW2 & HV2 & m2 & Hm2 & _ & Ei2). exists w2, en2, m, m2. split; auto. split; [intros o; rewrite HV, HV2; reflexivity|]. split; auto. split; auto. congruence.
  - intros w2 en2 HW. destruct (walk_hr e msg HN cx2 _ HC2 w2 en2 HW) as (l & inf & vs & HL & HA & HV & m & Hm & _ & Ei). apply (o_hr _ _ _ HR _ _ Hn) in HL.
    destruct (hr_walk e msg HN cx _ _ _ _ HC HL HA) as (w & en & HW2 & HV2 & m2 & Hm2 & _ & Ei2). exists w, en, m2, m. split; auto. split; [intros o; rewrite HV, HV2; reflexivity|]. split; auto. split; auto. congruence.
Qed.
Theorem C40_same_messages_match : forall e q cx cx2 msg fuel fuel2 js0 ok o cx' ok2 o2 cx2',
  permutes q -> safe_graph cx -> simple_graph cx -> nul_free cx -> optimize q cx = EOk cx2 -> ~ In NUL msg ->
  normalize fuel e cx msg js0 = EOk (ok, o, cx') -> normalize fuel2 e cx2 msg js0 = EOk (ok2, o2, cx2') -> ok2 = ok.
Proof.
  intros e q cx cx2 msg fuel fuel2 js0 ok o cx' ok2 o2 cx2' HQ HM HS HF HO HN E1 E2.
  destruct (optimize_walks e q cx cx2 msg HQ HM HS HF HO HN) as (HP2 & ER & _ & _ & A & B). pose proof (all_simple_plain cx (c_root cx) HS) as HP.
  destruct ok, ok2; auto.
  - apply normalize_success in E1 as (w & en & _ & _ & HW & _); auto. apply A in HW as (w2 & en2 & _ & _ & HW2 & _). apply normalize_failure in E2 as [E2 _]; auto. rewrite ER in E2. destruct (E2 _ _ HW2).
  - apply normalize_success in E2 as (w & en & _ & _ & HW & _); auto. rewrite ER in HW. apply B in HW as (w2 & en2 & _ & _ & HW2 & _). apply normalize_failure in E1 as [E1 _]; auto. destruct (E1 _ _ HW2).
Qed.
Print Assumptions C40_same_messages_match.
(** Whatever is extracted after optimization is what some match of the graph before it
    extracts. *)
Theorem C40_fields_of_a_match : forall e q cx cx2 msg fuel js0 o2 cx2',
  permutes q -> safe_graph cx -> simple_graph cx -> nul_free cx -> optimize q cx = EOk cx2 -> ~ In NUL msg ->
  normalize fuel e cx2 msg js0 = EOk (true, o2, cx2') ->
  exists w en, walk e cx msg false (c_root cx) 0 w en /\
    forall k, k <> L "event.tags" -> k <> L "originalmsg" -> k <> L "metadata" -> ~ In k (annot_names (c_annots cx)) -> obj_get o2 k = obj_get (fields_of js0 w) k.
Proof.
  intros e q cx cx2 msg fuel js0 o2 cx2' HQ HM HS HF HO HN E2.
  destruct (optimize_walks e q cx cx2 msg HQ HM HS HF HO HN) as (HP2 & ER & EA & _ & A & B).
  apply normalize_success in E2 as (w2 & en2 & _ & _ & HW & _ & _ & _ & HK & _); auto. rewrite ER in HW. apply B in HW as (w & en & _ & _ & HW2 & HV & _). exists w, en. split; auto.
  intros k K1 K2 K3 K4. rewrite HK by (auto; rewrite EA; auto). rewrite HV. reflexivity.
Qed.
Print Assumptions C40_fields_of_a_match.
(** So for a message with only one possible result the result is the same. *)
Theorem C40_same_fields_if_unambiguous : forall e q cx cx2 msg fuel fuel2 js0 o cx' o2 cx2',
  permutes q -> safe_graph cx -> simple_graph cx -> nul_free cx -> optimize q cx = EOk cx2 -> ~ In NUL msg ->
  (forall w en w' en', walk e cx msg false (c_root cx) 0 w en -> walk e cx msg false (c_root cx) 0 w' en' -> fields_of js0 w = fields_of js0 w') ->
  normalize fuel e cx msg js0 = EOk (true, o, cx') -> normalize fuel2 e cx2 msg js0 = EOk (true, o2, cx2') ->
  forall k, k <> L "event.tags" -> k <> L "originalmsg" -> k <> L "metadata" -> ~ In k (annot_names (c_annots cx)) -> obj_get o2 k = obj_get o k.
Proof.
  intros e q cx cx2 msg fuel fuel2 js0 o cx' o2 cx2' HQ HM HS HF HO HN HU E1 E2 k K1 K2 K3 K4.
  destruct (C40_fields_of_a_match e q cx cx2 msg fuel2 js0 o2 cx2' HQ HM HS HF HO HN E2) as (w & en & HW & HK). rewrite HK by auto.
  apply normalize_success in E1 as (w1 & en1 & _ & _ & HW1 & _ & _ & _ & HK1 & _); [|exact (all_simple_plain cx (c_root cx) HS)]. rewrite HK1 by auto. rewrite (HU _ _ _ _ HW HW1). reflexivity.
Qed.
Print Assumptions C40_same_fields_if_unambiguous.

(** ** C41 *)
Lemma sorts_sorts_prio q : permutes q -> sorts q -> sorts_prio q.
Proof.
  intros HP HS l lo HR.
  assert (HC : forall x y, In x l -> In y l -> parserCmp x y = (p_prio x - p_prio y)%Z).
  { intros x y Hx Hy. pose proof (HR _ Hx). pose proof (HR _ Hy). unfold parserCmp. apply wrap_fits; [lia|]. unfold fits. change (2 ^ (32 - 1))%Z with 2147483648%Z. lia. }
  assert (HI : in_order (q l)) by (apply HS; exists p_prio; intros x y Hx Hy; rewrite HC; auto).
  assert (HQ : forall x, In x (q l) -> In x l) by (intros x Hx; eapply Permutation_in; eauto).
  revert HI HQ. generalize (q l) as l'. intros l' HI. induction HI as [|p l' Hp HI IH]; intros HQ; [constructor|]. cbn [map]. constructor; [apply IH; intros; apply HQ; cbn; auto|].
  apply Forall_forall. intros z Hz. apply in_map_iff in Hz as (y & <- & Hy). specialize (Hp y Hy). rewrite HC in Hp by (apply HQ; cbn; auto). lia.
Qed.

Lemma mk_prio_value a b : (0 <= a < 8388608)%Z -> (0 <= b < 256)%Z -> mk_prio a b = (a * 256 + b)%Z.
Proof. intros Ha Hb. unfold mk_prio. apply wrap_fits; [lia|]. unfold fits. change (2 ^ (32 - 1))%Z with 2147483648%Z. lia. Qed.
(** The priority of a field: assigned priority first, then that of the field type. *)
Theorem C41_priority_is_lexicographic : forall a b a' b', (0 <= a < 8388608)%Z -> (0 <= a' < 8388608)%Z -> (0 <= b < 256)%Z -> (0 <= b' < 256)%Z ->
  ((mk_prio a b <= mk_prio a' b')%Z <-> (a < a' \/ (a = a' /\ b <= b'))%Z).
Proof. intros. rewrite !mk_prio_value by auto. lia. Qed.
Print Assumptions C41_priority_is_lexicographic.

(** priority= of the configuration, 30000 if there is none *)
Definition assigned_priority (e : env) (conf : json) : Z := match jget conf "priority" with None | Some JNull => 30000%Z | Some v => get_int e v end.
Theorem C41_priority_of_field : forall e addp cx conf cx' p, newParser e addp cx conf = EOk (cx', Some p) ->
  exists b, (0 <= b < 256)%Z /\ p_prio p = mk_prio (assigned_priority e conf) b.
Proof.
  intros e addp cx conf cx' p. unfold newParser, assigned_priority.
  destruct (jget conf "type") as [tv|]; [|discriminate].
  assert (HT : forall ty r pr m, simple_type e ty r = Some (pr, m) -> (0 <= pr < 256)%Z).
  { intros ty r pr m. unfold simple_type. repeat (match goal with |- (if ?b then _ else _) = _ -> _ => destruct b end; [intros [= <- _]; lia|]). discriminate. }
  destruct tv; try discriminate;
  (match goal with |- context [need_str e ?x] => destruct (need_str e x) as [typ|] end; [|discriminate]; cbn [ebind]; cbv zeta;
   match goal with |- context [negb ?b] => destruct b end; cbn [negb]; [|discriminate];
   match goal with |- context [ebind ?x _] => destruct x as [name|] end; cbn [ebind]; [|discriminate];
   match goal with |- context [match ?c with Some ti => EOk (cx, KCustom ti, _) | None => _ end] => destruct c end; cbn [ebind p_kind p_name];
   [intros [= _ <-]; eexists; split; [|reflexivity]; lia|];
   match goal with |- context [text_eqb ?ty (L "repeat")] => destruct (text_eqb ty (L "repeat")) end;
   [match goal with |- context [construct_repeat e addp ?r cx] => destruct (construct_repeat e addp r cx) as [[cx2 k2]|] end; cbn [ebind]; [|discriminate];
     intros [= _ <-]; eexists; split; [|reflexivity]; lia
   |match goal with |- context [simple_type e ?ty ?r] => destruct (simple_type e ty r) as [[pr [m2|]]|] eqn:ES end; cbn [ebind]; try discriminate;
     intros [= _ <-]; eexists; split; [|reflexivity]; eapply HT; eauto]).
Qed.
Print Assumptions C41_priority_of_field.

(** All priorities come from assigned priorities between 0 and 2^23 - 1. *)
Definition priorities_fit (cx : ctx) : Prop :=
  forall i n p, live (c_nodes cx) i n -> In p (n_parsers n) -> exists a b, (0 <= a < 8388608)%Z /\ (0 <= b < 256)%Z /\ p_prio p = mk_prio a b.
(** After optimization the fields of every node reachable from the main rulebase or a type are
    those of the node before, in order of priority. *)
Theorem C41_sorted_permutation : forall q cx cx2, permutes q -> sorts q -> safe_graph cx -> priorities_fit cx -> optimize q cx = EOk cx2 ->
  forall i ps j n2, In i (owners cx) -> path (c_nodes cx2) i ps j -> live (c_nodes cx2) j n2 ->
  (exists n, live (c_nodes cx) j n /\ n_term n2 = n_term n /\ n_tags n2 = n_tags n /\
     Permutation (map (fun p => (p_conf p, p_name p, p_prio p)) (n_parsers n2)) (map (fun p => (p_conf p, p_name p, p_prio p)) (n_parsers n))) /\
  forall l1 p l2 p' l3, n_parsers n2 = l1 ++ p :: l2 ++ p' :: l3 -> (p_prio p <= p_prio p')%Z.
Proof.
  intros q cx cx2 HQ HS HM HP E i ps j n2 Hi HPa Hn2. apply msafe_spec in HM. destruct HM as (G & rk & HG).
  assert (HR : prio_range 0 (c_nodes cx)). { intros x n p Hx Hp. destruct (HP _ _ _ Hx Hp) as (a & b & Ha & Hb & ->). rewrite mk_prio_value by auto. lia. }
  pose proof (optimize_ok q HQ True 0%Z cx G rk HG (fun _ => conj (sorts_sorts_prio q HQ HS) HR)) as HO. rewrite E in HO. destruct HO as (_ & _ & _ & HO & HB).
  split.
  - destruct (o_live _ _ _ HO _ _ Hn2) as (n & Hn & E1 & E2 & _ & _ & E3 & _). exists n. auto.
  - intros l1 p l2 p' l3 El. specialize (HB I i Hi ps j n2 HPa Hn2). unfold ordered, prios in HB. rewrite El, map_app in HB. clear El. cbn [map] in HB.
    induction (map p_prio l1) as [|x l IH]; cbn in HB; inversion HB as [|? ? HB1 HB2]; subst; auto.
    rewrite Forall_forall in HB2. apply HB2. rewrite map_app. apply in_or_app. right. left. reflexivity.
Qed.
Print Assumptions C41_sorted_permutation.

(** ** A rulebase that meets the hypotheses *)
Lemma unknown_type_refused e types l s : jget (JObj l) "type" = Some (JStr s) -> cstr s <> L "alternative" -> cstr s <> L "repeat" ->
  simple_type e (cstr s) [] = None -> hd_error (cstr s) <> Some "@"%char -> refused e types (JObj l).
Proof.
  intros HJ H1 H2 HS H3 cx d _. unfold addParser. cbn [addInternal]. unfold addInternal_step. rewrite HJ. unfold need_str at 1. cbn [jstring ebind].
  destruct (text_eqb (cstr s) (L "alternative")) eqn:E1; [apply text_eqb_true in E1; congruence|].
  unfold addInstance, newParser. rewrite HJ. unfold need_str at 1. cbn [jstring ebind]. cbv zeta.
  destruct (text_eqb (cstr s) (L "repeat")) eqn:E2; [apply text_eqb_true in E2; congruence|]. rewrite HS.
  assert (E3 : match cstr s with [] => false | c :: _ => ceq c "@" end = false). { destruct (cstr s) as [|c r]; auto. cbn in H3. unfold ceq. destruct (Ascii.eqb_spec c "@"); [congruence|reflexivity]. }
  rewrite E3. reflexivity.
Qed.

Definition r1 : text := L "user %u:word% failed".
Definition r2 : text := L "user root".
Definition r3 : text := L "user %x:nosuchtype% z".
Definition ok_ctx (r : er ctx) : ctx := match r with EOk c => c | _ => initCtx no_opts end.
Definition cxa : ctx := ok_ctx (addSampToTree env0 (initCtx no_opts) r1 0 (Some (JArr [JStr (L "a")]))).
Definition cxb : ctx := ok_ctx (addSampToTree env0 cxa r3 0 None).
Definition cxc : ctx := ok_ctx (addSampToTree env0 cxb r2 0 None).
Definition cxd : ctx := ok_ctx (addSampToTree env0 cxc r1 0 (Some (JArr [JStr (L "b")]))).
Definition cxo : ctx := ok_ctx (optimize isort cxd).
Definition wordconf : json := JObj [(L "name", JStr (L "u")); (L "type", JStr (L "word"))].
Definition confs1 : list json := literals env0 (L "user ") ++ wordconf :: literals env0 (L " failed").
Definition confs2 : list json := literals env0 (L "user root").
Definition info (cx : ctx) (t : option json) : rule_info := (t, Some (c_file cx), c_line cx).
Definition rsa : list rule := [(None, confs1, info cxa (Some (JArr [JStr (L "a")])))].
Definition rsd : list rule := [(None, confs1, info cxa (Some (JArr [JStr (L "a")]))); (None, confs2, info cxa None); (None, confs1, info cxa (Some (JArr [JStr (L "b")])))].
Lemma confs1_ok : rule_confs env0 r1 confs1.
Proof. eapply rc_field; [reflexivity|discriminate|reflexivity|]. change (literals env0 (L " failed")) with (literals env0 (L " failed")). eapply rc_last; [discriminate|reflexivity]. Qed.
Lemma confs2_ok : rule_confs env0 r2 confs2.
Proof. eapply rc_last; [discriminate|reflexivity]. Qed.
Lemma lit_means e c : c <> NUL -> means e (literal_conf c) (MLiteral [c], None).
Proof. intros Hc ts. unfold flat_field, newParser. cbn. change zero with NUL. destruct (ceq c NUL) eqn:E; [apply ceq_true in E; congruence|reflexivity]. Qed.
Lemma lits_means e l : ~ In NUL l -> Forall2 (means e) (map literal_conf l) (map (fun c => (MLiteral [c], None)) l).
Proof. intros H. induction l as [|c l IH]; cbn; constructor; [apply lit_means; intros ->; apply H; left; auto|apply IH; intros Hin; apply H; right; auto]. Qed.
Lemma means_complete e ts cs fs : Forall2 (means e) cs fs -> Forall (complete e ts) cs.
Proof. induction 1 as [|c f cs fs Hm H IH]; constructor; auto. exists (KSimple (fst f)), (snd f). apply Hm. Qed.
Definition fields1 : list field := map (fun c => (MLiteral [c], None)) (L "user ") ++ (MWord, Some (L "u")) :: map (fun c => (MLiteral [c], None)) (L " failed").
Definition fields2 : list field := map (fun c => (MLiteral [c], None)) (L "user root").
Lemma confs1_mean : Forall2 (means env0) confs1 fields1.
Proof. apply Forall2_app; [apply lits_means; vm_compute; intuition discriminate|]. constructor; [intros ts; reflexivity|apply lits_means; vm_compute; intuition discriminate]. Qed.
Lemma confs2_mean : Forall2 (means env0) confs2 fields2.
Proof. apply lits_means. vm_compute. intuition discriminate. Qed.
Lemma built_a : built env0 1 rsa cxa.
Proof.
  change rsa with (@nil rule ++ rsa). eapply (built_rule env0 0 [] (initCtx no_opts) r1 confs1 None 0 (Some (JArr [JStr (L "a")])) cxa); [constructor|reflexivity|exact confs1_ok|eapply means_complete; exact confs1_mean|vm_compute; reflexivity].
Qed.
Lemma built_d : built env0 4 rsd cxd.
Proof.
  assert (Hb : built env0 2 rsa cxb).
  { eapply (built_error env0 1 rsa cxa r3 (literals env0 (L "user ")) None 0 None cxb); [exact built_a|reflexivity| |eapply means_complete; apply lits_means; vm_compute; intuition discriminate|vm_compute; reflexivity].
    eapply fa_type; [reflexivity|discriminate|reflexivity|]. eapply unknown_type_refused; [reflexivity|discriminate|discriminate|reflexivity|discriminate]. }
  assert (Hc : built env0 3 (rsa ++ [(None, confs2, info cxa None)]) cxc).
  { eapply (built_rule env0 2 rsa cxb r2 confs2 None 0 None cxc); [exact Hb|reflexivity|exact confs2_ok|eapply means_complete; exact confs2_mean|vm_compute; reflexivity]. }
  exact (built_rule env0 3 _ cxc r1 confs1 None 0 (Some (JArr [JStr (L "b")])) cxd Hc eq_refl confs1_ok (means_complete _ _ _ _ confs1_mean) ltac:(vm_compute; reflexivity)).
Qed.
Lemma ready_o : ready env0 isort 4 rsd cxo.
Proof. right. exists cxd. split; [exact built_d|vm_compute; reflexivity]. Qed.
Lemma env0_nonul : prints_no_nul env0.
Proof. intros j. vm_compute. intros []. Qed.

Example C36_ex : ready env0 isort 4 rsd cxo /\ c_types cxo = [] /\ prints_no_nul env0 /\ permutes isort /\
  loaded_rule_matches env0 (None, confs1, info cxa None) (L "user bob failed") /\
  (exists cx', normalize 50 env0 cxo (L "user bob failed") [] = EOk (true, [(L "u", JStr (L "bob")); (L "event.tags", JArr [JStr (L "b")])], cx')) /\
  (exists o cx', normalize 50 env0 cxo (L "user root") [] = EOk (true, o, cx')) /\
  (exists o cx', normalize 50 env0 cxo (L "user bob") [] = EOk (false, o, cx')).
Proof.
  split; [exact ready_o|]. split; [reflexivity|]. split; [exact env0_nonul|]. split; [exact isort_permutes|]. split.
  - exists fields1. split; [exact confs1_mean|]. unfold rule_matches. let x := eval vm_compute in fields1 in change fields1 with x.
    repeat (eapply ft_cons; [vm_compute; lia|vm_compute; reflexivity|]). apply ft_nil.
  - split; [eexists; vm_compute; reflexivity|]. split; eexists; eexists; vm_compute; reflexivity.
Qed.
Example C48_ex : rule_now rsd None confs1 (info cxa (Some (JArr [JStr (L "b")]))) /\ In (None, confs1, info cxa (Some (JArr [JStr (L "a")]))) rsd.
Proof. split; [exists [(None, confs1, info cxa (Some (JArr [JStr (L "a")]))); (None, confs2, info cxa None)], []; split; [reflexivity|intros i []]|left; reflexivity]. Qed.

(** *** What does not hold *)
Open Scope string_scope.
(** The rules are those of one load: a rule loaded into a context whose graph has been
    optimized by an earlier load can be lost, and other messages match instead. *)
Definition load_twice (l1 l2 : list string) : option ctx :=
  match loadString env0 isort 200 (initCtx no_opts) (lines l1) with
  | EOk (cx, true) => match loadString env0 isort 200 cx (lines l2) with EOk (cx2, true) => Some cx2 | _ => None end
  | _ => None
  end.
Definition verdict (cx : option ctx) (m : string) : option bool :=
  match cx with Some cx => match normalize 50 env0 cx (L m) [] with EOk (ok, _, _) => Some ok | _ => None end | None => None end.
Theorem C34_second_load_refuted : exists cx, load_twice ["rule=:hello world"] ["rule=:help"] = Some cx /\
  verdict (Some cx) "help" = Some false /\ verdict (Some cx) "hello worldelp" = Some true.
Proof.
  assert (H : match load_twice ["rule=:hello world"] ["rule=:help"] with Some cx => verdict (Some cx) "help" = Some false /\ verdict (Some cx) "hello worldelp" = Some true | None => False end) by (vm_compute; auto).
  destruct (load_twice ["rule=:hello world"] ["rule=:help"]) as [cx|]; [|destruct H]. exists cx. auto.
Qed.
Print Assumptions C34_second_load_refuted.
(** With alternative: a rule that shares a node with an alternative of another rule also
    matches behind the other alternatives. *)
Definition rbalt : list string := ["rule=:%{""type"":""alternative"",""parser"":[{""type"":""literal"",""text"":""a""},{""type"":""literal"",""text"":""b""}]}%x"; "rule=:ac"].
Theorem C36_alternative_refuted : run0 no_opts rbalt "bc" = EOk (true, []).
Proof. vm_compute. reflexivity. Qed.

(** ** C37 *)
(** Up to 255 rule lines: C34. The 256th field of a node wipes it out: nothing matches. *)
Theorem C37_no_loss_up_to_255 : forall e q k rs cx msg fuel js0 ok o cx' r,
  prints_no_nul e -> permutes q -> ready e q k rs cx -> k <= 255 -> c_types cx = [] -> ~ In NUL msg ->
  In r rs -> loaded_rule_matches e r msg -> normalize fuel e cx msg js0 = EOk (ok, o, cx') -> ok = true.
Proof. exact C34_loaded_rule_matches. Qed.
Print Assumptions C37_no_loss_up_to_255.
Definition word_rules : list string := flat_map (fun a => map (fun b => ("rule=:%" ++ a ++ b ++ ":word%")%string) letters) letters.
Definition matches_after (n : nat) (m : string) : option bool :=
  verdict (match load0 no_opts (firstn n word_rules) with EOk (cx, true) => Some cx | _ => None end) m.
Theorem C37_256_refuted : matches_after 255 "w" = Some true /\ matches_after 256 "w" = Some false.
Proof. vm_compute. auto. Qed.

(** ** C40: what optimization changes *)
Definition load_raw (l : list string) : option ctx :=
  match load_lines env0 (fun cx _ => EOk (cx, false)) 1000 1000 false (initCtx no_opts) (lines l) with EOk (cx, true) => Some cx | _ => None end.
Definition result_of (cx : option ctx) (m : string) : option (bool * fields) :=
  match cx with Some cx => match normalize 50 env0 cx (L m) [] with EOk (ok, o, _) => Some (ok, o) | _ => None end | None => None end.
Definition optimized (cx : option ctx) : option ctx := match cx with Some cx => match optimize isort cx with EOk c => Some c | _ => None end | None => None end.
(** a message that matches in two ways; a message that does not match *)
Theorem C40_ambiguous_refuted :
  result_of (load_raw ["rule=:%a:word%"; "rule=:%b:number%"]) "12" = Some (true, [(L "a", JStr (L "12"))]) /\
  result_of (optimized (load_raw ["rule=:%a:word%"; "rule=:%b:number%"])) "12" = Some (true, [(L "b", JStr (L "12"))]).
Proof. vm_compute. auto. Qed.
Theorem C40_unparsed_refuted :
  result_of (load_raw ["rule=:hello world"]) "hello you" = Some (false, [(L "originalmsg", JStr (L "hello you")); (L "unparsed-data", JStr (L "you"))]) /\
  result_of (optimized (load_raw ["rule=:hello world"])) "hello you" = Some (false, [(L "originalmsg", JStr (L "hello you")); (L "unparsed-data", JStr (L "hello you"))]).
Proof. vm_compute. auto. Qed.

(** isort sorts *)
Lemma sgn_le a b : Z.sgn a = Z.sgn b -> ((a <= 0)%Z <-> (b <= 0)%Z). Proof. intros H. destruct (Z.sgn_spec a) as [[]|[[]|[]]], (Z.sgn_spec b) as [[]|[[]|[]]]; lia. Qed.
Lemma isort_sorts : sorts isort.
Proof.
  intros l (key & HK).
  assert (HK2 : forall x y, In x l -> In y l -> ((parserCmp x y <= 0)%Z <-> (key x <= key y)%Z)). { intros x y Hx Hy. rewrite (sgn_le _ _ (HK x y Hx Hy)). lia. }
  clear HK. assert (HI : forall x, In x l -> In x l) by auto. revert HI. generalize l at 1 3. intros l0. induction l0 as [|p l0 IH]; intros HI; cbn [isort fold_right]; [constructor|].
  fold (isort l0). assert (IH' : in_order (isort l0)) by (apply IH; intros; apply HI; cbn; auto). clear IH.
  assert (HI2 : forall x, In x (isort l0) -> In x l) by (intros x Hx; apply HI; right; eapply Permutation_in; [apply isort_permutes|exact Hx]).
  assert (Hp : In p l) by (apply HI; left; auto). clear HI. revert IH' HI2. generalize (isort l0) as s. intros s HS. induction HS as [|q s Hq HS IHs]; intros HI2; cbn [insert_prs].
  - repeat constructor. intros x [].
  - assert (Hql : In q l) by (apply HI2; left; auto). destruct (Z.leb_spec (parserCmp p q) 0) as [Hle|Hgt].
    + constructor; [|constructor; auto]. intros x [<-|Hx]; auto. apply HK2; auto; [apply HI2; right; auto|]. apply HK2 in Hle; auto. specialize (Hq x Hx). apply HK2 in Hq; auto; [lia|apply HI2; right; auto].
    + constructor; [|apply IHs; intros; apply HI2; right; auto]. intros x Hx. apply (Permutation_in _ (insert_perm p s)) in Hx as [<-|Hx]; [|auto].
      apply HK2; auto. destruct (Z.le_gt_cases (key p) (key q)) as [H|H]; [|lia]. apply HK2 in H; auto. lia.
Qed.
Example C40_ex : safe_graph cxd /\ simple_graph cxd /\ nul_free cxd /\ optimize isort cxd = EOk cxo.
Proof.
  split; [apply msafe_spec; eapply built_msafe; exact built_d|]. split; [exact (built_simple _ _ _ _ built_d ltac:(lia) eq_refl)|]. split; [|vm_compute; reflexivity].
  intros i n p t Hn Hp Hk. destruct (built_exact env0 4 rsd cxd built_d ltac:(lia)) as (T & _). pose proof (t_flat _ _ T _ _ _ Hn Hp) as HF. rewrite Hk in HF.
  apply flat_simple_type in HF as (ty & rest & pr & HS). eapply literal_type_nonul; [exact env0_nonul|exact HS].
Qed.
Example C41_ex : sorts isort /\ permutes isort /\ safe_graph cxd /\ priorities_fit cxd.
Proof.
  split; [exact isort_sorts|]. split; [exact isort_permutes|]. split; [apply C40_ex|]. intros i n p Hn Hp.
  assert (HA : forallb (fun o => match o with Some n => forallb (fun p => Z.eqb (p_prio p / 256) 30000) (n_parsers n) | None => true end) (c_nodes cxd) = true) by (vm_compute; reflexivity).
  rewrite forallb_forall in HA. specialize (HA _ (nth_error_In _ _ Hn)). cbn in HA. rewrite forallb_forall in HA. specialize (HA _ Hp). apply Z.eqb_eq in HA.
  exists 30000%Z, (p_prio p mod 256)%Z. split; [lia|]. pose proof (Z.mod_pos_bound (p_prio p) 256 ltac:(lia)). split; [auto|]. rewrite mk_prio_value by lia. rewrite <- HA. rewrite Z.mul_comm. apply Z.div_mod. lia.
Qed.
(** Larger assigned priorities wrap around in int and are tried first. *)
Theorem C41_overflow_refuted :
  mk_prio 8388609 32 = (-2147483360)%Z /\
  run0 no_opts ["rule=:%{""type"":""word"",""name"":""a"",""priority"":8388609}%"; "rule=:%{""type"":""number"",""name"":""b"",""priority"":1}%"] "12" = EOk (true, [(L "a", JStr (L "12"))]).
Proof. vm_compute. auto. Qed.
