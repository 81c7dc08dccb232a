(** * ErrFacts: a step that fails says so. *)
From Verif Require Import Base Time Parsers Engine Pdag Samp OneSpec LoadText GraphSpec LineSpec RuleSpec LoadSpec Err ErrSpec FrameFacts SimFacts EngineFacts2 BaseFacts.

Lemma app_ne_l {A} (a b : list A) : a <> [] -> a ++ b <> [].
Proof. destruct a; [tauto|discriminate]. Qed.
Lemma app_ne_r {A} (a b : list A) : b <> [] -> a ++ b <> [].
Proof. destruct a; [auto|discriminate]. Qed.

Section Facts.
Variable e : env.
Variable badint : json -> bool.

Section Add.
Variable addp : ctx -> nat -> json -> er (ctx * option (option nat)).
Variable m_addp : ctx -> nat -> json -> list body.

Lemma newParser_none cx conf cx' : newParser e addp cx conf = EOk (cx', None) -> m_newParser e badint addp m_addp cx conf <> [].
Proof.
  unfold newParser, m_newParser. destruct (jget conf "type") as [tv|]; [|discriminate].
  destruct tv; try discriminate; unfold need_str; cbv zeta; (destruct (jstring e _) as [typ|]; cbn [ebind]; [|discriminate]);
  (destruct (match typ with c :: _ => ceq c "@" | [] => false end);
   [destruct (findType (c_types cx) typ 0) as [i|]; [|intros _; discriminate]|destruct (text_eqb typ (L "repeat")) eqn:ER; [|destruct (simple_type e typ []) as [pm|] eqn:ES; [|intros _; discriminate]]]);
  cbn [negb orb]; intros H; exfalso; apply ebind_ok in H as (nm & _ & H); apply ebind_ok in H as ([[c k] pr] & _ & H); discriminate.
Qed.
Lemma addInstance_none cx conf dag next cx' : addInstance e addp cx conf dag next = EOk (cx', None) -> m_newParser e badint addp m_addp cx conf <> [].
Proof.
  unfold addInstance. intros H. apply ebind_ok in H as ([c o] & H1 & H2). destruct o as [p|]; [|apply newParser_none in H1; exact H1].
  exfalso. destruct dag as [d|]; [|discriminate]. apply ebind_ok in H2 as (n & _ & H2). destruct (find_same _ _ _).
  - apply ebind_ok in H2 as (h & _ & H2). discriminate.
  - apply ebind_ok in H2 as ([c2 nn] & _ & H2). discriminate.
Qed.

Section Loop.
Variable inner : ctx -> amode -> option nat -> json -> option nat -> ares.
Variable m_inner : ctx -> amode -> option nat -> json -> option nat -> list body.
Hypothesis Hinner : forall cx mode dag conf next cx', inner cx mode dag conf next = EOk (cx', None) -> m_inner cx mode dag conf next <> [].

Lemma addParsers_none : forall l cx mode dag next pnext cx', addParsers_loop e addp inner cx mode l dag next pnext = EOk (cx', None) ->
  m_addParsers_loop e badint addp m_addp inner m_inner cx mode l dag next pnext <> [].
Proof.
  induction l as [|j l IH]; intros cx mode dag next pnext cx' H; cbn [addParsers_loop m_addParsers_loop] in *; [destruct mode; discriminate|].
  apply ebind_ok in H as ([c r] & H1 & H2). rewrite H1. destruct r as [[d nx]|].
  - apply app_ne_r. destruct mode; eapply IH; exact H2.
  - apply app_ne_l. destruct j; try (apply ebind_ok in H1 as ([c1 r1] & H3 & H4); destruct r1; [discriminate|]; eapply addInstance_none; exact H3).
    apply ebind_ok in H1 as ([c1 r1] & H3 & H4). destruct r1 as [[ld nx]|]; [discriminate|]. eapply Hinner. exact H3.
Qed.
Lemma addInternal_step_none cx mode dag conf next cx' : addInternal_step e addp inner cx mode dag conf next = EOk (cx', None) ->
  m_addInternal_step e badint addp m_addp inner m_inner cx mode dag conf next <> [].
Proof.
  unfold addInternal_step, m_addInternal_step. destruct conf as [| | | | |l|l]; try discriminate; [apply addParsers_none|].
  destruct (jget (JObj l) "type") as [tv|] eqn:ET; [|discriminate].
  assert (HT : forall typ, jstring e tv = Some typ -> (if text_eqb typ (L "alternative") then
     match jget (JObj l) "parser" with Some (JArr ps) => addParsers_loop e addp inner cx Alt ps dag next next | _ => EOk (cx, None) end
     else do* (cx, r) := addInstance e addp cx (JObj l) dag next in EOk (cx, match r with None => None | Some nx => Some (match mode with Seq => Some nx | Alt => dag end, Some nx) end)) = EOk (cx', None) ->
     match jstring e tv with None => [] | Some typ => if text_eqb typ (L "alternative") then
       match jget (JObj l) "parser" with Some (JArr ps) => m_addParsers_loop e badint addp m_addp inner m_inner cx Alt ps dag next next
       | o => [say "alternative type needs array of parsers. Object: '" (json_show e (JObj l) ++ L "', type is " ++ type_name_of o)] end else m_newParser e badint addp m_addp cx (JObj l) end <> []).
  { intros typ E H. rewrite E. destruct (text_eqb typ (L "alternative")).
    - destruct (jget (JObj l) "parser") as [[]|]; try discriminate. eapply addParsers_none; exact H.
    - apply ebind_ok in H as ([c r] & H1 & H2). destruct r; [discriminate|]. eapply addInstance_none; exact H1. }
  destruct tv; try discriminate; unfold need_str; (destruct (jstring e _) as [typ|] eqn:E; cbn [ebind]; [|discriminate]); intros H; apply (HT typ); auto.
Qed.
End Loop.
End Add.

Lemma addInternal_none : forall f cx mode dag conf next cx', addInternal e f cx mode dag conf next = EOk (cx', None) -> m_addInternal e badint f cx mode dag conf next <> [].
Proof. induction f as [|f IH]; intros cx mode dag conf next cx' H; [discriminate|]. cbn [addInternal m_addInternal] in *. eapply addInternal_step_none; [exact IH|exact H]. Qed.
Lemma addParser_none cx dag conf cx' : addParser e cx dag conf = EOk (cx', None) -> m_addParser e badint cx dag conf <> [].
Proof. unfold addParser, m_addParser. intros H. apply ebind_ok in H as ([c r] & H1 & H2). destruct r as [[]|]; [discriminate|]. eapply addInternal_none; exact H1. Qed.
Lemma add_literals_none : forall l cx dag cx', add_literals e cx dag l = EOk (cx', None) -> m_add_literals e badint cx dag l <> [].
Proof.
  induction l as [|c l IH]; intros cx dag cx' H; cbn [add_literals m_add_literals] in *; [discriminate|]. destruct dag as [d|]; [|discriminate].
  apply ebind_ok in H as ([c1 r] & H1 & H2). rewrite H1. destruct r as [dag'|]; [apply app_ne_r; eapply IH; exact H2|apply app_ne_l; eapply addParser_none; exact H1].
Qed.

Lemma scan_all (f : ascii -> bool) u : Forall (fun c => f c = true) (firstn (scan f u) u).
Proof. induction u as [|c u IH]; cbn [scan]; [constructor|]. destruct (f c) eqn:E; cbn [firstn]; constructor; auto. Qed.
Lemma legacy_bad u k : parseLegacyFieldDescr e u = Bad k -> m_parseLegacyFieldDescr e u <> [] \/ exists u', u = ":"%char :: u'.
Proof.
  unfold parseLegacyFieldDescr, m_parseLegacyFieldDescr. cbv zeta. set (n := scan (fun c => negb (ceq c ":")) u).
  destruct (N.leb 1023 (N.of_nat n)); [left; discriminate|]. destruct (Nat.eqb n (List.length u)) eqn:EL; [left; discriminate|].
  destruct (Nat.eqb n 0) eqn:E0.
  - intros _. right. apply Nat.eqb_eq in E0. destruct u as [|c u]; [apply Nat.eqb_neq in EL; cbn in EL; lia|]. unfold n in E0. cbn [scan] in E0. destruct (negb (ceq c ":")) eqn:EC; [discriminate|].
    apply negb_false_iff in EC. apply ceq_true in EC. subst c. eauto.
  - cbn [negb]. cbn [bind]. destruct (skipn _ (skipn (S n) u)) as [|c w]; [left; discriminate|]. intros H. exfalso.
    destruct (if ceq c "{" then _ else _) as [js v]. destruct v as [|d v]; [discriminate|]. destruct (if ceq d "%" then _ else _) as [ed v']. discriminate.
Qed.
Lemma fieldDescr_bad c u k : fieldDescr e (c :: u) = Bad k -> m_fieldDescr e (c :: u) <> [] \/ exists ws b, u = ws ++ ":"%char :: b /\ Forall (fun c => isspace c = true) ws.
Proof.
  unfold fieldDescr, m_fieldDescr. cbn [skipn]. destruct (skipn (scan isspace u) u) as [|d v] eqn:E; [discriminate|]. cbv zeta. destruct (ceq d "{" || ceq d "[")%bool.
  - intros H. left. destruct (json_tok e (d :: v)) as [[j m]|]; [|discriminate]. destruct j; try discriminate; (destruct (skipn m (d :: v)) as [|x y]; [discriminate|destruct (ceq x "%"); discriminate]).
  - intros H. apply legacy_bad in H as [H|(u' & H)]; [left; exact H|]. right. exists (firstn (scan isspace u) u), u'. split; [|apply scan_all]. rewrite <- H, <- E. symmetry. apply firstn_skipn.
Qed.
Lemma legacy_suffix u u' j : parseLegacyFieldDescr e u = Ok (u', j) -> exists a, u = a ++ u'.
Proof.
  unfold parseLegacyFieldDescr. cbv zeta. set (n := scan _ u). destruct (negb (N.leb 1023 (N.of_nat n))); [|discriminate]. destruct (negb (Nat.eqb n (List.length u))); [|discriminate]. destruct (negb (Nat.eqb n 0)); [|discriminate].
  cbn [bind]. remember (skipn (S n) u) as v eqn:Ev. remember (scan _ v) as m. remember (skipn m v) as w eqn:Ew. destruct w as [|c w]; [discriminate|].
  assert (HS : forall k, exists a, u = a ++ skipn k (c :: w)).
  { intros k. exists (firstn (S n) u ++ firstn m v ++ firstn k (c :: w)). rewrite <- !app_assoc. rewrite firstn_skipn. rewrite Ew. rewrite firstn_skipn. rewrite Ev. symmetry. apply firstn_skipn. }
  intros H.
  assert (HW : exists k, snd (if ceq c "{" then match json_tok e (c :: w) with Some (j, k) => (Some j, skipn k (c :: w)) | None => (None, skipn (json_erroff e (c :: w)) (c :: w)) end else (None, c :: w)) = skipn k (c :: w)).
  { destruct (ceq c "{"); [destruct (json_tok e (c :: w)) as [[j0 k0]|]; eexists; reflexivity|exists 0; reflexivity]. }
  destruct (if ceq c "{" then _ else _) as [js v0]. cbn [snd] in HW. destruct HW as (k & ->). destruct (HS k) as (a & HA). destruct (skipn k (c :: w)) as [|d y]; [discriminate|].
  destruct (ceq d "%").
  - injection H as <- _. exists (a ++ [d]). rewrite <- app_assoc. exact HA.
  - injection H as <- _. exists (a ++ d :: firstn (S (scan (fun c0 => negb (ceq c0 "%")) y)) y). rewrite <- app_assoc. cbn [app]. rewrite firstn_skipn. exact HA.
Qed.
Lemma fieldDescr_suffix u u' j : fieldDescr e u = Ok (u', j) -> exists a, u = a ++ u'.
Proof.
  unfold fieldDescr. set (v := skipn (scan isspace (skipn 1 u)) (skipn 1 u)). assert (HV : u = (firstn 1 u ++ firstn (scan isspace (skipn 1 u)) (skipn 1 u)) ++ v).
  { rewrite <- app_assoc. unfold v. rewrite firstn_skipn. symmetry. apply firstn_skipn. }
  destruct v as [|c w]; [discriminate|]. destruct (ceq c "{" || ceq c "[")%bool.
  - intros H. assert (HK : exists k d, skipn k (c :: w) = d :: u').
    { destruct (json_tok e (c :: w)) as [[j0 k]|]; [|discriminate]. destruct j0; try discriminate; (destruct (skipn k (c :: w)) as [|d y] eqn:EK; [discriminate|destruct (ceq d "%"); [|discriminate]; injection H as <- _; eauto]). }
    destruct HK as (k & d & HK). eexists ((_ ++ _) ++ [d]). rewrite HV at 1. rewrite <- (firstn_skipn k (c :: w)) at 1. rewrite HK. rewrite <- (app_assoc _ [d] u'), <- (app_assoc _ (firstn k (c :: w))). reflexivity.
  - intros H. apply legacy_suffix in H as (a & H). eexists. rewrite HV at 1. rewrite H. rewrite app_assoc. reflexivity.
Qed.
Lemma literal_part_suffix : forall k u lit rest, List.length u <= k -> literal_part u = (lit, rest) -> (exists a, u = a ++ rest) /\ (rest = [] \/ exists r, rest = "%"%char :: r).
Proof.
  induction k as [|k IH]; intros u lit rest Hk; (destruct u as [|c u]; [intros [= <- <-]; split; [exists []; reflexivity|left; reflexivity]|]); cbn [List.length] in Hk; [lia|].
  cbn [literal_part]. destruct (ceq c "%") eqn:EC.
  - destruct u as [|d u]; [intros [= <- <-]; split; [exists [c]; reflexivity|left; reflexivity]|]. destruct (ceq d "%").
    + destruct (literal_part u) as [l r] eqn:E. intros [= <- <-]. cbn [List.length] in Hk. destruct (IH u l r ltac:(lia) E) as [[a ->] H]. split; [exists (c :: d :: a); reflexivity|exact H].
    + intros [= <- <-]. split; [exists []; reflexivity|]. apply ceq_true in EC. subst c. right. eauto.
  - destruct (literal_part u) as [l r] eqn:E. intros [= <- <-]. destruct (IH u l r ltac:(lia) E) as [[a ->] H]. split; [exists (c :: a); reflexivity|exact H].
Qed.

Lemma nameless_app a u : nameless_field u -> nameless_field (a ++ u).
Proof. intros (x & ws & b & -> & H). exists (a ++ x), ws, b. split; [apply app_assoc|exact H]. Qed.
Lemma add_rule_none : forall f cx dag rule cx', add_rule e f cx dag rule = EOk (cx', None) -> m_add_rule e badint f cx dag rule <> [] \/ nameless_field rule.
Proof.
  induction f as [|f IH]; intros cx dag rule cx' H; cbn [add_rule m_add_rule] in *; [discriminate|]. destruct rule as [|c0 rule0]; [discriminate|]. set (rule := c0 :: rule0) in *. clearbody rule.
  destruct (literal_part rule) as [lit rest] eqn:EL. destruct (literal_part_suffix _ _ _ _ (Nat.le_refl _) EL) as [[a HA] HR].
  apply ebind_ok in H as ([c1 r1] & H1 & H). cbv zeta. rewrite H1. destruct r1 as [dag1|]; [|left; apply app_ne_l; eapply add_literals_none; exact H1].
  destruct rest as [|x rest0]; [discriminate|]. destruct HR as [|(r & HR)]; [discriminate|]. injection HR as -> ->. set (rest := "%"%char :: r) in *.
  destruct (fieldDescr e rest) as [[rest' conf]|k|u] eqn:EF; [| |discriminate].
  - destruct dag1 as [d|]; [|discriminate]. apply ebind_ok in H as ([c2 r2] & H2 & H). rewrite H2. destruct r2 as [dag2|]; [|left; apply app_ne_r, app_ne_r, app_ne_l; eapply addParser_none; exact H2].
    apply IH in H as [H|H]; [left; do 3 apply app_ne_r; exact H|]. right. destruct (fieldDescr_suffix _ _ _ EF) as (b & HB). rewrite HA, HB. do 2 apply nameless_app. exact H.
  - unfold rest in EF. apply fieldDescr_bad in EF as [HF|(ws & b & -> & HW)]; [left; apply app_ne_r, app_ne_l; exact HF|].
    right. rewrite HA. apply nameless_app. exists [], ws, b. split; [reflexivity|exact HW].
Qed.

(** ** A rule that is added is recorded, or there is a message *)
Lemma recorded_here cx i n tags f l : get_node (c_nodes cx) i = EOk n -> recorded (set_nodes cx (upd_node (c_nodes cx) i (set_terminal tags f l))) tags f l.
Proof.
  intros H. unfold get_node in H. destruct (nth_error (c_nodes cx) i) as [[n0|]|] eqn:E; try discriminate. injection H as ->.
  exists i, (set_terminal tags f l n). split; [|repeat split]. unfold live, set_nodes. cbn [c_nodes].
  clear -E. revert i E. induction (c_nodes cx) as [|x h IH]; intros i E; [destruct i; discriminate|]. destruct i as [|i]; cbn in *; [injection E as ->; reflexivity|apply IH; exact E].
Qed.
Lemma addSamp_says cx rule dag tags cx' : addSampToTree e cx rule dag tags = EOk cx' ->
  m_addSampToTree e badint cx rule dag <> [] \/ nameless_field rule \/ recorded cx' tags (c_file cx) (c_line cx).
Proof.
  unfold addSampToTree, m_addSampToTree. intros H. apply ebind_ok in H as ([c r] & H1 & H2). pose proof (add_rule_nodes e (S (List.length rule)) cx (Some dag) rule) as HN. rewrite H1 in HN. cbn [opost fst] in HN. destruct r as [[en|]|]; [|discriminate|].
  - apply ebind_ok in H2 as (n & Hn & H2). injection H2 as <-. right. right.
    assert (HF : c_file c = c_file cx /\ c_line c = c_line cx) by (rewrite HN; split; reflexivity). destruct HF as [<- <-]. eapply recorded_here; exact Hn.
  - apply add_rule_none in H1 as [H1|H1]; auto.
Qed.

(** ** Lines *)
Variable load : ctx -> text -> er (ctx * bool).
Variable m_load : ctx -> text -> list message.
Variable afuel : nat.

Lemma at_pos_ne cx l : at_pos cx l <> [] <-> l <> [].
Proof. destruct l; cbn; [tauto|]. split; discriminate. Qed.
Lemma rule_says cx tags r cx' ok : Forall good_tag tags -> r <> [] -> processSamp e load afuel cx (rule_line tags r) = EOk (cx', ok) ->
  m_processSamp e badint m_load afuel cx (rule_line tags r) <> [] \/ nameless_field (in_force (c_prefix cx) ++ r) \/ recorded cx' (tag_list tags) (c_file cx) (c_line cx).
Proof.
  intros HT Hr H. rewrite proc_rule in H by auto. apply ebind_ok in H as (c & H & H'). injection H' as <- <-.
  unfold m_processSamp, rule_line. change (L "rule=" ++ comma tags ++ ":"%char :: r) with (L "rule" ++ "="%char :: (comma tags ++ ":"%char :: r)).
  rewrite getLineType_eq; [|discriminate|cbn; intros HX; repeat destruct HX as [HX|HX]; try discriminate; tauto].
  change (text_eqb (L "rule") (L "prefix")) with false. change (text_eqb (L "rule") (L "extendprefix")) with false. change (text_eqb (L "rule") (L "rule")) with true. cbn iota.
  apply addSamp_says in H as [H|[H|H]]; auto. left. apply at_pos_ne. unfold m_processRule. rewrite processTags_ok by auto. cbn [ebind]. destruct r as [|c0 r]; [tauto|]. exact H.
Qed.
Lemma getTypeName_fails u : In ":"%char u -> (N.of_nat (scan (fun c => negb (ceq c ":")) u) < 1024)%N -> getTypeName u = None -> m_getTypeName u <> [].
Proof.
  intros HI HN. unfold getTypeName, m_getTypeName. cbv zeta. set (n := scan (fun c => negb (ceq c ":")) u) in *. destruct (ceq (lrd u 0) "@"); [|intros _; discriminate]. cbn [negb andb].
  assert (Hm : Nat.min n (N.to_nat 1023) = n) by lia. rewrite Hm.
  destruct (existsb isspace (firstn n u)); [intros _; discriminate|]. cbn [negb andb]. assert (n < List.length u).
  { clear -HI. unfold n. induction u as [|c u IH]; [destruct HI|]. cbn [scan List.length]. destruct HI as [->|HI]; [rewrite ceq_refl; cbn [negb]; cbn iota; apply Nat.lt_0_succ|]. destruct (negb (ceq c ":")); [apply -> Nat.succ_lt_mono; exact (IH HI)|apply Nat.lt_0_succ]. }
  apply Nat.ltb_lt in H. rewrite H. apply N.ltb_lt in HN. rewrite HN. discriminate.
Qed.
Lemma type_says cx u cx' ok : In ":"%char u -> (N.of_nat (scan (fun c => negb (ceq c ":")) u) < 1024)%N -> processSamp e load afuel cx (L "type=" ++ u) = EOk (cx', ok) ->
  m_processSamp e badint m_load afuel cx (L "type=" ++ u) <> [] \/ (exists nm r, getTypeName u = Some (nm, r) /\ nameless_field r) \/ recorded cx' None (c_file cx) (c_line cx).
Proof.
  intros HI HN H. rewrite proc_type in H by auto. apply ebind_ok in H as (c & H & H'). injection H' as <- <-.
  unfold m_processSamp. change (L "type=" ++ u) with (L "type" ++ "="%char :: u).
  rewrite getLineType_eq; [|discriminate|cbn; intros HX; repeat destruct HX as [HX|HX]; try discriminate; tauto].
  change (text_eqb (L "type") (L "prefix")) with false. change (text_eqb (L "type") (L "extendprefix")) with false. change (text_eqb (L "type") (L "rule")) with false. change (text_eqb (L "type") (L "type")) with true. cbn iota.
  rewrite at_pos_ne. unfold processType in H. unfold m_processType. destruct (getTypeName u) as [[nm [|c0 r]]|] eqn:EG; [left; discriminate| |left; apply getTypeName_fails; auto].
  destruct (findType (c_types cx) nm 0) as [i|].
  - apply addSamp_says in H as [H|[H|H]]; eauto 6.
  - unfold newPDAG in *. apply addSamp_says in H as [H|[H|H]]; eauto 6.
Qed.
End Facts.
