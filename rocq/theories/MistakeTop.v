(** * MistakeTop: mistakes in a rulebase are reported with file and line. *)
From Verif Require Import Base Time Parsers Engine Pdag Samp OneSpec LoadText GraphSpec LineSpec LineFacts RuleSpec LoadSpec Err ErrSpec FrameFacts SimFacts EngineFacts2 BaseFacts TypeFacts ErrFacts ErrQuiet OneTop MistakeSpec MistakeFacts MistakeFacts2.
From Verif Require ManyTop.

Section Top.
Variable e : env.
Variable badint : json -> bool.

Lemma wrong_fewer names names' j : incl names' names -> wrong e names j -> wrong e names' j.
Proof.
  intros HI H. destruct H as [j HO HA|l HG|l T HT HX HN HC|l HT HP|l T k HI0 HT HG|l T k vs s HI0 HT HS HN|l k' k vs v s HI0 HT HV HK HS HN|l k v HI0 HT HG HN|l s HT HS HL|l k v s HT HI0 HK HS HL|l k v HT HI0 HK HN1 HN2|l k a m k' v s HT HI0 HK HM HV HK2 HS HN|l T ms k v HI0 HT HV HN|l T es ms k v HI0 HT HV HN HN2|l fs f s HT HI0 HL HF HS HD].
  - apply wr_kind; auto.
  - apply wr_untyped; auto.
  - apply (wr_type _ _ l T); auto. intros (T' & HE & HX2). apply HC. eauto.
  - apply wr_alternative; auto.
  - eapply wr_missing; eauto.
  - eapply wr_choice; eauto.
  - eapply wr_string_choice; eauto.
  - eapply wr_nv_char; eauto.
  - eapply wr_lea_char; eauto.
  - eapply wr_quote_char; eauto.
  - eapply wr_permitted; eauto.
  - eapply wr_class; eauto.
  - eapply wr_member; eauto.
  - eapply wr_member_any_case; eauto.
  - eapply wr_dot; eauto.
Qed.
Lemma mistaken_fewer names names' j : incl names' names -> mistaken e names j -> mistaken e names' j.
Proof.
  intros HI. induction 1 as [j HW|l j HJ HM IH|l ps j HT HP HJ HM IH|l k j HT HJ HK HM IH].
  - apply mi_here. eapply wrong_fewer; eauto.
  - eapply mi_elem; eauto.
  - eapply mi_alternative; eauto.
  - eapply mi_repeat; eauto.
Qed.

Variable load : ctx -> text -> er (ctx * bool).
Variable m_load : ctx -> text -> list message.
Variable afuel : nat.

(** what a type line does: a context with the type, and then the rule *)
Lemma type_start cx T r : type_name T -> r <> [] -> exists cx2 nd,
  processSamp e load afuel cx (type_line T r) = (do* cx' := addSampToTree e cx2 r nd None in EOk (cx', true)) /\
  m_processSamp e badint m_load afuel cx (type_line T r) = at_pos cx (m_addSampToTree e badint cx2 r nd) /\
  c_prefix cx2 = c_prefix cx /\ c_file cx2 = c_file cx /\ incl (map fst (c_types cx2)) (T :: map fst (c_types cx)).
Proof.
  intros HT Hr. unfold type_line. rewrite proc_type. unfold processType. rewrite getTypeName_ok by auto. destruct r as [|c0 r]; [tauto|]. set (r0 := c0 :: r) in *.
  assert (EQ : m_processSamp e badint m_load afuel cx (L "type=" ++ T ++ ":"%char :: r0) = at_pos cx (m_processType e badint cx (T ++ ":"%char :: r0))).
  { unfold m_processSamp. change (L "type=" ++ T ++ ":"%char :: r0) with (L "type" ++ "="%char :: T ++ ":"%char :: r0).
    rewrite getLineType_eq; [|discriminate|cbn; intros HX; repeat destruct HX as [HX|HX]; try discriminate; tauto].
    change (text_eqb (L "type") (L "prefix")) with false. change (text_eqb (L "type") (L "extendprefix")) with false. change (text_eqb (L "type") (L "rule")) with false. change (text_eqb (L "type") (L "type")) with true. reflexivity. }
  rewrite EQ. unfold m_processType. rewrite getTypeName_ok by auto. subst r0. destruct (findType (c_types cx) T 0) as [i|] eqn:EF.
  - eexists _, _. split; [reflexivity|]. split; [reflexivity|]. split; [reflexivity|]. split; [reflexivity|]. intros x Hx. right. exact Hx.
  - unfold newPDAG. eexists _, _. split; [reflexivity|]. split; [reflexivity|]. split; [reflexivity|]. split; [reflexivity|]. cbn [c_types set_types set_nodes]. rewrite map_app. intros x Hx. apply in_app_or in Hx as [Hx|[<-|[]]]; [right; exact Hx|left; reflexivity].
Qed.
Lemma rule_start cx tags r : Forall good_tag tags -> r <> [] ->
  m_processSamp e badint m_load afuel cx (rule_line tags r) = at_pos cx (m_addSampToTree e badint cx (in_force (c_prefix cx) ++ r) (c_root cx)).
Proof.
  intros HT Hr. unfold m_processSamp, rule_line. change (L "rule=" ++ comma tags ++ ":"%char :: r) with (L "rule" ++ "="%char :: (comma tags ++ ":"%char :: r)).
  rewrite getLineType_eq; [|discriminate|cbn; intros HX; repeat destruct HX as [HX|HX]; try discriminate; tauto].
  change (text_eqb (L "rule") (L "prefix")) with false. change (text_eqb (L "rule") (L "extendprefix")) with false. change (text_eqb (L "rule") (L "rule")) with true. cbn iota.
  unfold m_processRule. rewrite processTags_ok by auto. destruct r as [|c0 r]; [tauto|]. reflexivity.
Qed.
Lemma at_pos_ne' cx b : b <> [] -> exists m, In m (at_pos cx b) /\ m_file m = c_file cx /\ m_line m = c_line cx.
Proof. destruct b as [|x b]; [tauto|]. intros _. eexists. split; [left; reflexivity|]. auto. Qed.
Lemma bad_line_says names line cx r : bad_line e names (c_prefix cx) line -> incl (map fst (c_types cx)) names -> processSamp e load afuel cx line = EOk r ->
  exists m, In m (m_processSamp e badint m_load afuel cx line) /\ m_file m = c_file cx /\ m_line m = c_line cx.
Proof.
  intros HB HI H. destruct HB as [tags ru cs conf HT Hr HC HIn HM|T ru cs conf HT Hr HC HIn HM].
  - rewrite rule_start by auto. apply at_pos_ne'. rewrite proc_rule in H by auto. apply ebind_ok in H as (c1 & H & _). unfold addSampToTree in H. apply ebind_ok in H as (x & H & _). unfold m_addSampToTree.
    eapply rule_reported; [eapply mistaken_fewer; [exact HI|exact HM]|exact HC|exact HIn|reflexivity|exact H].
  - destruct (type_start cx T ru HT Hr) as (cx2 & nd & E1 & E2 & E3 & E4 & HI2). rewrite E2. apply at_pos_ne'. rewrite E1 in H. apply ebind_ok in H as (c1 & H & _). unfold addSampToTree in H. apply ebind_ok in H as (x & H & _). unfold m_addSampToTree.
    eapply rule_reported; [eapply mistaken_fewer; [|exact HM]|exact HC|exact HIn|reflexivity|exact H]. intros y Hy. apply HI2 in Hy as [<-|Hy]; [left; reflexivity|right; auto].
Qed.
Lemma reached names p a names' p' : upto names p a names' p' -> forall cx line n b r, c_prefix cx = p -> incl (map fst (c_types cx)) names -> process e load afuel cx (a ++ (line, n) :: b) = EOk r ->
  exists cx2 r2, c_prefix cx2 = p' /\ incl (map fst (c_types cx2)) names' /\ c_file cx2 = c_file cx /\ processSamp e load afuel (set_pos cx2 (c_file cx2) n) line = EOk r2 /\
    incl (m_processSamp e badint m_load afuel (set_pos cx2 (c_file cx2) n) line) (reported e badint load m_load afuel cx (a ++ (line, n) :: b)).
Proof.
  induction 1 as [names p|names p tags r0 n0 ls names' p' HT Hr H IH|names p T r0 n0 ls names' p' HT Hr H IH|names p t n0 ls names' p' H IH|names p t n0 ls names' p' H IH|names p l n0 ls names' p' HL H IH]; intros cx line n b r EP HI HP.
  - cbn [app process reported] in *. apply ebind_ok in HP as (x & HP & _). exists cx, x. split; [exact EP|]. split; [exact HI|]. split; [reflexivity|]. split; [exact HP|]. apply incl_appl. apply incl_refl.
  - cbn [app process reported] in *. set (cx1 := set_pos cx (c_file cx) n0) in *. apply ebind_ok in HP as ([c1 ok] & HP & HQ). rewrite HP. rewrite proc_rule in HP by auto. apply ebind_ok in HP as (c2 & HP & HE). injection HE as <- <-.
    pose proof (addSamp_nodes e cx1 (in_force (c_prefix cx1) ++ r0) (c_root cx1) (tag_list tags)) as HN. rewrite HP in HN. cbn [opost] in HN.
    destruct (IH c2 line n b r) as (cx2 & r2 & A1 & A2 & A3 & A4 & A5); [rewrite HN; exact EP|rewrite HN; exact HI|exact HQ|]. exists cx2, r2. split; [exact A1|]. split; [exact A2|]. split; [rewrite A3, HN; reflexivity|]. split; [exact A4|]. apply incl_appr. exact A5.
  - cbn [app process reported] in *. set (cx1 := set_pos cx (c_file cx) n0) in *. apply ebind_ok in HP as ([c1 ok] & HP & HQ). rewrite HP. destruct (type_start cx1 T r0 HT Hr) as (cx3 & nd & E1 & E2 & E3 & E4 & HI2). rewrite E1 in HP. apply ebind_ok in HP as (c2 & HP & HE). injection HE as <- <-.
    pose proof (addSamp_nodes e cx3 r0 nd None) as HN. rewrite HP in HN. cbn [opost] in HN.
    destruct (IH c2 line n b r) as (cx2 & r2 & A1 & A2 & A3 & A4 & A5); [rewrite HN; cbn [c_prefix set_nodes]; rewrite E3; exact EP|rewrite HN; intros x Hx; apply HI2 in Hx as [<-|Hx]; [left; reflexivity|right; apply HI; exact Hx]|exact HQ|]. exists cx2, r2. split; [exact A1|]. split; [exact A2|]. split; [rewrite A3, HN; cbn [c_file set_nodes]; rewrite E4; reflexivity|]. split; [exact A4|]. apply incl_appr. exact A5.
  - cbn [app process reported] in *. set (cx1 := set_pos cx (c_file cx) n0) in *. rewrite proc_prefix in *. cbn [ebind] in HP.
    destruct (IH (set_prefix cx1 (Some t)) line n b r) as (cx2 & r2 & A1 & A2 & A3 & A4 & A5); [reflexivity|exact HI|exact HP|]. exists cx2, r2. split; [exact A1|]. split; [exact A2|]. split; [exact A3|]. split; [exact A4|]. apply incl_appr. exact A5.
  - cbn [app process reported] in *. set (cx1 := set_pos cx (c_file cx) n0) in *. rewrite (proc_extend e load afuel cx1 p t) in * by exact EP. cbn [ebind] in HP.
    destruct (IH (set_prefix cx1 (Some (p ++ t))) line n b r) as (cx2 & r2 & A1 & A2 & A3 & A4 & A5); [reflexivity|exact HI|exact HP|]. exists cx2, r2. split; [exact A1|]. split; [exact A2|]. split; [exact A3|]. split; [exact A4|]. apply incl_appr. exact A5.
  - cbn [app process reported] in *. set (cx1 := set_pos cx (c_file cx) n0) in *. apply ebind_ok in HP as ([c1 ok] & HP & HQ). pose proof (proc_idle e load afuel cx1 l HL) as HN. rewrite HP in *. cbn [opost fst snd] in HN. destruct HN as [-> HN].
    destruct (IH c1 line n b r) as (cx2 & r2 & A1 & A2 & A3 & A4 & A5); [rewrite HN; exact EP|rewrite HN; exact HI|exact HQ|]. exists cx2, r2. split; [exact A1|]. split; [exact A2|]. split; [rewrite A3, HN; reflexivity|]. split; [exact A4|]. apply incl_appr. exact A5.
Qed.
Lemma reported_there a names' p' line n b cx r : upto (map fst (c_types cx)) (c_prefix cx) a names' p' -> bad_line e names' p' line -> process e load afuel cx (a ++ (line, n) :: b) = EOk r ->
  exists m, In m (reported e badint load m_load afuel cx (a ++ (line, n) :: b)) /\ m_file m = c_file cx /\ m_line m = n.
Proof.
  intros HU HB H. destruct (reached _ _ _ _ _ HU cx line n b r eq_refl (incl_refl _) H) as (cx2 & r2 & A1 & A2 & A3 & A4 & A5). subst p'.
  destruct (bad_line_says names' line (set_pos cx2 (c_file cx2) n) r2 HB A2 A4) as (m & B1 & B2 & B3). exists m. split; [apply A5; exact B1|]. split; [rewrite B2; exact A3|exact B3].
Qed.
End Top.
