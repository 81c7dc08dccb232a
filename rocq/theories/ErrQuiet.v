(** * ErrQuiet: no message without a reason. *)
From Verif Require Import Base Time Parsers Engine Pdag Samp GraphSpec LineSpec RuleSpec LoadSpec OneSpec Err ErrSpec FrameFacts SimFacts EngineFacts2 BaseFacts AnnotFacts LineFacts LoadText ErrFacts ErrLoad OneTop.
From Verif Require ManyTop.

Section Quiet.
Variable e : env.
Variable badint : json -> bool.

Lemma findType_in ts nm : In nm (map fst ts) -> forall i, exists k, findType ts nm i = Some k.
Proof. induction ts as [|[a x] ts IH]; [intros []|]. intros [H|H] i; cbn [findType]; [cbn in H; subst a; rewrite text_eqb_refl; eauto|]. destruct (text_eqb a nm); eauto. Qed.

Lemma plain_quiet names conf : plain_conf names conf -> forall addp m_addp cx, incl names (map fst (c_types cx)) -> m_newParser e badint addp m_addp cx conf = [].
Proof.
  intros H addp m_addp cx HI. destruct H as [c|nm T HT HN HX|nm T x HT HN|nm T HT HA HN HN2].
  - reflexivity.
  - unfold m_newParser. cbn [jget]. change (obj_get (str_obj _) (L "type")) with (Some (JStr T)). change (obj_get (str_obj _) (L "name")) with (Some (JStr nm)). cbn [jstring]. rewrite (cstr_id nm) by auto.
    destruct (text_eqb nm (L "-")) eqn:EN.
    + apply text_eqb_true in EN. subst nm. destruct HX as [HX|HX]; [destruct (HX eq_refl)|]. unfold types_alone in HT. cbn [map] in HT. repeat (destruct HT as [HT|HT]; [subst T; first [destruct (HX eq_refl)|reflexivity]|]). destruct HT.
    + unfold types_alone in HT. cbn [map] in HT. clear HX. repeat (destruct HT as [HT|HT]; [subst T; reflexivity|]). destruct HT.
  - unfold m_newParser. cbn [jget]. change (obj_get (str_obj _) (L "type")) with (Some (JStr T)). change (obj_get (str_obj _) (L "name")) with (Some (JStr nm)). cbn [jstring]. rewrite (cstr_id nm) by auto.
    destruct (text_eqb nm (L "-")); unfold types_extra in HT; cbn [map] in HT; repeat (destruct HT as [HT|HT]; [subst T; reflexivity|]); destruct HT.
  - unfold m_newParser. cbn [jget]. change (obj_get (str_obj _) (L "type")) with (Some (JStr T)). change (obj_get (str_obj _) (L "name")) with (Some (JStr nm)). cbn [jstring]. rewrite (cstr_id nm), (cstr_id T) by auto.
    destruct T as [|c T]; [discriminate|]. cbn [hd] in HA. subst c. change (ceq "@" "@") with true. cbv zeta. cbn iota. destruct (findType_in (c_types cx) ("@"%char :: T) (HI _ HT) 0) as (k & ->). reflexivity.
Qed.
Lemma plain_obj names conf : plain_conf names conf -> exists l T, conf = JObj l /\ jget conf "type" = Some (JStr T) /\ text_eqb (cstr T) (L "alternative") = false.
Proof.
  intros H. destruct H as [c|nm T HT HN HX|nm T x HT HN|nm T HT HA HN HN2].
  - eexists _, (L "literal"). split; [reflexivity|]. split; reflexivity.
  - eexists _, T. split; [reflexivity|]. split; [reflexivity|]. unfold types_alone in HT. cbn [map] in HT. repeat (destruct HT as [HT|HT]; [subst T; reflexivity|]). destruct HT.
  - eexists _, T. split; [reflexivity|]. split; [reflexivity|]. unfold types_extra in HT. cbn [map] in HT. repeat (destruct HT as [HT|HT]; [subst T; reflexivity|]). destruct HT.
  - eexists _, T. split; [reflexivity|]. split; [reflexivity|]. rewrite cstr_id by auto. destruct T as [|c T]; [discriminate|]. cbn [hd] in HA. subst c. reflexivity.
Qed.
Lemma plain_add names conf cx dag : plain_conf names conf -> incl names (map fst (c_types cx)) -> m_addParser e badint cx dag conf = [].
Proof.
  intros H HI. unfold m_addParser. cbn [m_addInternal]. unfold m_addInternal_step. destruct (plain_obj _ _ H) as (l & T & -> & HT & HA). rewrite HT. cbn [jstring]. rewrite HA. eapply plain_quiet; eauto.
Qed.

Lemma add_types cx dag conf cx' o : addParser e cx dag conf = EOk (cx', o) -> c_types cx' = c_types cx.
Proof. intros H. pose proof (addParser_nodes e cx dag conf) as HN. rewrite H in HN. cbn [opost fst] in HN. rewrite HN. reflexivity. Qed.
Lemma lits_types cx dag l cx' o : add_literals e cx dag l = EOk (cx', o) -> c_types cx' = c_types cx.
Proof. intros H. pose proof (add_literals_nodes e l cx dag) as HN. rewrite H in HN. cbn [opost fst] in HN. rewrite HN. reflexivity. Qed.
Lemma lits_quiet : forall l cx dag, m_add_literals e badint cx dag l = [].
Proof.
  induction l as [|c l IH]; intros cx dag; cbn [m_add_literals]; auto. destruct dag as [d|]; auto.
  rewrite (plain_add [] (literal_conf c)); [|constructor|intros x []]. cbn [app]. destruct (addParser e cx d (literal_conf c)) as [[c1 [d2|]]|]; auto.
Qed.
Lemma legacy_quiet u r : parseLegacyFieldDescr e u = Ok r -> ~ In "{"%char u -> m_parseLegacyFieldDescr e u = [].
Proof.
  unfold parseLegacyFieldDescr, m_parseLegacyFieldDescr. cbv zeta. set (n := scan _ u). destruct (N.leb 1023 (N.of_nat n)); [discriminate|]. destruct (Nat.eqb n (List.length u)); [discriminate|]. destruct (Nat.eqb n 0); [discriminate|].
  cbn [negb]. cbn [bind]. intros H HB. set (v := skipn (S n) u) in *. set (m := scan _ v) in *. destruct (skipn m v) as [|c w] eqn:E; [discriminate|].
  destruct (ceq c "{") eqn:EC; auto. apply ceq_true in EC. subst c. destruct HB. rewrite <- (firstn_skipn (S n) u). fold v. rewrite <- (firstn_skipn m v), E. apply in_or_app. right. apply in_or_app. right. left. reflexivity.
Qed.
Lemma fieldDescr_quiet u r : fieldDescr e u = Ok r -> ~ In "{"%char u -> m_fieldDescr e u = [].
Proof.
  unfold fieldDescr, m_fieldDescr. set (v := skipn (scan isspace (skipn 1 u)) (skipn 1 u)). intros H HB.
  assert (HV : ~ In "{"%char v). { intros HX. apply HB. rewrite <- (firstn_skipn 1 u). apply in_or_app. right. rewrite <- (firstn_skipn (scan isspace (skipn 1 u)) (skipn 1 u)). apply in_or_app. right. exact HX. }
  clearbody v. destruct v as [|c w]; [discriminate|]. destruct (ceq c "{" || ceq c "[")%bool.
  - cbv zeta. destruct (json_tok e (c :: w)) as [[j k]|]; [|discriminate]. destruct j; try discriminate; (destruct (skipn k (c :: w)) as [|d y]; [discriminate|destruct (ceq d "%"); [reflexivity|discriminate]]).
  - eapply legacy_quiet; eauto.
Qed.
Lemma rule_quiet names : forall f rule cs cx dag, rule_confs e rule cs -> Forall (plain_conf names) cs -> ~ In "{"%char rule -> incl names (map fst (c_types cx)) -> m_add_rule e badint f cx dag rule = [].
Proof.
  induction f as [|f IH]; intros rule cs cx dag HR HC HB HI; cbn [m_add_rule]; auto. destruct rule as [|c0 rule0]; auto. set (rule := c0 :: rule0) in *.
  destruct (literal_part rule) as [lit rest] eqn:EL. cbv zeta. rewrite lits_quiet. cbn [app].
  destruct (literal_part_suffix _ _ _ _ (Nat.le_refl _) EL) as [[a HA] _].
  destruct (add_literals e cx dag _) as [[c1 [dag1|]]|] eqn:E1; auto. apply lits_types in E1.
  inversion HR as [HQ|ru li H1 H2 HQ HQ2|ru li re rest' conf cs' H1 H2 H3 H4 HQ HQ2].
  - subst ru. pose proof (eq_trans (eq_sym EL) H2) as H5. injection H5 as _ ->. reflexivity.
  - subst ru. pose proof (eq_trans (eq_sym EL) H1) as H5. injection H5 as <- <-. rewrite H3. destruct rest as [|x0 rest0]; [tauto|]. set (rest := x0 :: rest0) in *.
    assert (HB2 : ~ In "{"%char rest). { intros HX. apply HB. rewrite HA. apply in_or_app. right. exact HX. }
    rewrite (fieldDescr_quiet _ _ H3 HB2). cbn [app]. destruct dag1 as [d|]; auto. subst cs. apply Forall_app in HC as [_ HC]. inversion HC as [|x y HC1 HC2 HZ]; subst.
    rewrite (plain_add names conf c1 d HC1) by (rewrite E1; exact HI). cbn [app]. destruct (addParser e c1 d conf) as [[c2 [dag2|]]|] eqn:E2; auto. apply add_types in E2.
    eapply IH; [exact H4|exact HC2| |rewrite E2, E1; exact HI]. destruct (fieldDescr_suffix e _ _ _ H3) as (b & HBB). intros HX. apply HB2. rewrite HBB. apply in_or_app. right. exact HX.
Qed.

Section Lines.
Variable load : ctx -> text -> er (ctx * bool).
Variable m_load : ctx -> text -> list message.
Variable afuel : nat.
Lemma clean_quiet : forall names p ls, clean e names p ls -> forall cx, c_prefix cx = p -> incl names (map fst (c_types cx)) -> reported e badint load m_load afuel cx ls = [].
Proof.
  induction 1 as [names p|names p tags r cs n ls HT Hr HB HC HP H IH|names p T r cs n ls HT Hr HB HC HP H IH|names p t n ls H IH|names p t n ls H IH]; intros cx EP HI; cbn [reported]; auto.
  - set (cx1 := set_pos cx (c_file cx) n). assert (EM : m_processSamp e badint m_load afuel cx1 (rule_line tags r) = []).
    { unfold m_processSamp, rule_line. change (L "rule=" ++ comma tags ++ ":"%char :: r) with (L "rule" ++ "="%char :: (comma tags ++ ":"%char :: r)).
      rewrite getLineType_eq; [|discriminate|cbn; intros HX; repeat destruct HX as [HX|HX]; try discriminate; tauto].
      change (text_eqb (L "rule") (L "prefix")) with false. change (text_eqb (L "rule") (L "extendprefix")) with false. change (text_eqb (L "rule") (L "rule")) with true. cbn iota.
      unfold m_processRule. rewrite processTags_ok by auto. cbn [ebind]. destruct r as [|c0 r]; [tauto|]. unfold m_addSampToTree. fold (in_force (c_prefix cx1)). change (c_prefix cx1) with (c_prefix cx). rewrite EP.
      rewrite (rule_quiet names _ _ cs); auto. }
    rewrite EM. cbn [app]. rewrite proc_rule by auto. destruct (addSampToTree e cx1 _ _ _) as [c2|] eqn:E2; [|reflexivity]. cbn [ebind]. pose proof (addSamp_nodes e cx1 (in_force (c_prefix cx1) ++ r) (c_root cx1) (tag_list tags)) as HN. rewrite E2 in HN. cbn [opost] in HN.
    apply IH; rewrite HN; auto.
  - set (cx1 := set_pos cx (c_file cx) n).
    unfold type_line. rewrite proc_type. unfold processType. rewrite getTypeName_ok by auto. destruct r as [|c0 r]; [tauto|]. set (r0 := c0 :: r) in *.
    assert (HX : exists cx2 nd, (let '(cx, nd) := match findType (c_types cx1) T 0 with
        | Some i => (cx1, match nth_error (c_types cx1) i with Some (_, d) => d | None => 0 end)
        | None => let '(cx', d) := newPDAG cx1 in (set_types cx' (c_types cx' ++ [(T, d)]), d) end in addSampToTree e cx r0 nd None) = addSampToTree e cx2 r0 nd None /\
       m_processType e badint cx1 (T ++ ":"%char :: r0) = m_addSampToTree e badint cx2 r0 nd /\ c_prefix cx2 = p /\ incl (T :: names) (map fst (c_types cx2))).
    { unfold m_processType. rewrite getTypeName_ok by auto. subst r0. destruct (findType (c_types cx1) T 0) as [i|] eqn:EF.
      - eexists _, _. split; [reflexivity|]. split; [reflexivity|]. split; [exact EP|]. intros x [<-|Hx]; [|apply HI; exact Hx].
        apply ManyTop.findType_some in EF as (j & y & _ & HH & _). apply nth_error_In in HH. change (c_types cx1) with (c_types cx). apply (in_map fst) in HH. exact HH.
      - unfold newPDAG. eexists _, _. split; [reflexivity|]. split; [reflexivity|]. split; [exact EP|]. cbn [c_types set_types]. rewrite map_app. intros x [<-|Hx]; apply in_or_app; [right; left; reflexivity|left; apply HI; exact Hx]. }
    destruct HX as (cx2 & nd & EX & EM & EP2 & HI2). rewrite EX.
    assert (EQ : m_processSamp e badint m_load afuel cx1 (L "type=" ++ T ++ ":"%char :: r0) = []).
    { unfold m_processSamp. change (L "type=" ++ T ++ ":"%char :: r0) with (L "type" ++ "="%char :: T ++ ":"%char :: r0).
      rewrite getLineType_eq; [|discriminate|cbn; intros HX; repeat destruct HX as [HX|HX]; try discriminate; tauto].
      change (text_eqb (L "type") (L "prefix")) with false. change (text_eqb (L "type") (L "extendprefix")) with false. change (text_eqb (L "type") (L "rule")) with false. change (text_eqb (L "type") (L "type")) with true. cbn iota.
      rewrite EM. unfold m_addSampToTree. rewrite (rule_quiet (T :: names) _ _ cs); auto. }
    rewrite EQ. cbn [app]. destruct (addSampToTree e cx2 r0 nd None) as [c2|] eqn:E2; [|reflexivity]. cbn [ebind]. pose proof (addSamp_nodes e cx2 r0 nd None) as HN. rewrite E2 in HN. cbn [opost] in HN.
    apply IH; rewrite HN; auto.
  - set (cx1 := set_pos cx (c_file cx) n). rewrite proc_prefix. assert (EM : m_processSamp e badint m_load afuel cx1 (L "prefix=" ++ t) = []).
    { unfold m_processSamp. change (L "prefix=" ++ t) with (L "prefix" ++ "="%char :: t). rewrite getLineType_eq; [|discriminate|cbn; intros HX; repeat destruct HX as [HX|HX]; try discriminate; tauto]. reflexivity. }
    rewrite EM. cbn [app]. apply IH; auto.
  - set (cx1 := set_pos cx (c_file cx) n). rewrite (proc_extend e load afuel cx1 p t) by exact EP. assert (EM : m_processSamp e badint m_load afuel cx1 (L "extendprefix=" ++ t) = []).
    { unfold m_processSamp. change (L "extendprefix=" ++ t) with (L "extendprefix" ++ "="%char :: t). rewrite getLineType_eq; [|discriminate|cbn; intros HX; repeat destruct HX as [HX|HX]; try discriminate; tauto]. reflexivity. }
    rewrite EM. cbn [app]. apply IH; auto.
Qed.
End Lines.
End Quiet.
