(** * MistakeFacts2: mistakes in field descriptions are reported (2). *)
From Verif Require Import Base Time Parsers Engine Pdag Samp OneSpec LoadText GraphSpec LineSpec RuleSpec LoadSpec Err ErrSpec FrameFacts SimFacts EngineFacts2 BaseFacts TypeFacts ErrFacts ErrQuiet MistakeSpec MistakeFacts.

Lemma oge0 o : oge 0 o. Proof. destruct o; cbn; auto. apply Nat.le_0_l. Qed.

Section Facts.
Variable e : env.
Variable badint : json -> bool.

Lemma not_plain k : text_eqb k (L "type") = false -> text_eqb k (L "name") = false -> text_eqb k (L "priority") = false -> ~ one_of k plain_keys.
Proof. intros H1 H2 H3 H. apply Exists_exists in H as (x & HX & ->). destruct HX as [<-|[<-|[<-|[]]]]; rewrite text_eqb_refl in *; discriminate. Qed.
Lemma findType_none : forall ts T i, ~ In T (map fst ts) -> findType ts T i = None.
Proof. induction ts as [|[n d] ts IH]; intros T i H; cbn [findType]; auto. destruct (text_eqb n T) eqn:E; [apply text_eqb_true in E; destruct H; left; exact E|]. apply IH. intros HI. apply H. right. exact HI. Qed.
Lemma fmt_num_bad s : ~ one_of s ["number"; "string"]%string -> fmt_num s = None.
Proof. intros H. unfold fmt_num. rewrite !(not_one s _ _ H) by (cbn; tauto). reflexivity. Qed.
Lemma fmt_date_bad s : ~ one_of s ["string"; "timestamp-unix"; "timestamp-unix-ms"]%string -> fmt_date s = None.
Proof. intros H. unfold fmt_date. rewrite !(not_one s _ _ H) by (cbn; tauto). reflexivity. Qed.
Lemma class_bad s : ~ one_of_any_case s ["digit"; "hexdigit"; "alpha"; "alnum"]%string -> known_class s = false.
Proof. intros H. unfold known_class. rewrite !(not_one_any s _ _ H) by (cbn; tauto). reflexivity. Qed.
Lemma key_case k x y : caseeq k (L x) = true -> caseeq (L x) (L y) = false -> text_eqb k (L y) = false.
Proof. intros H HF. destruct (text_eqb k (L y)) eqn:E; auto. apply text_eqb_true in E. subst k. unfold caseeq in *. rewrite text_eqb_sym in HF. congruence. Qed.

Section Add.
Variable addp : ctx -> nat -> json -> er (ctx * option (option nat)).
Variable m_addp : ctx -> nat -> json -> list body.
Variable ts : list (text * nat).
Hypothesis Htypes : forall cx n v cx' o, addp cx n v = EOk (cx', o) -> c_types cx' = c_types cx.
Hypothesis Hnone : forall cx n v cx', addp cx n v = EOk (cx', None) -> m_addp cx n v <> [].
Hypothesis Hmis : forall cx n v r, c_types cx = ts -> mistaken e (map fst ts) v -> addp cx n v = EOk r -> m_addp cx n v <> [].
Notation m_new := (m_newParser e badint addp m_addp).

Lemma via_simple l T cx r : typed e l (L T) -> at_sign (L T) = false -> text_eqb (L T) (L "repeat") = false -> newParser e addp cx (JObj l) = EOk r ->
  (forall rest p m, rest_ok l rest -> simple_type e (L T) rest = Some (p, EOk m) -> m_simple e badint (L T) rest <> []) -> m_new cx (JObj l) <> [].
Proof.
  intros HT HA HR H HS. assert (HR2 : L T <> L "repeat") by (intros E; rewrite E, text_eqb_refl in HR; discriminate).
  destruct (proj2 (newParser_typed e badint addp m_addp l (L T) cx r HT HA H) HR2) as [H1|(rest & p & m & [H1 _] & H2 & H3)]; [exact H1|]. rewrite H3. eapply HS; eauto.
Qed.
Lemma via_repeat l cx r : typed e l (L "repeat") -> newParser e addp cx (JObj l) = EOk r ->
  (forall rest x, rest_ok l rest -> construct_repeat e addp rest cx = EOk x -> m_repeat e addp m_addp rest cx <> []) -> m_new cx (JObj l) <> [].
Proof. intros HT H HS. destruct (proj1 (newParser_typed e badint addp m_addp l _ cx r HT eq_refl H) eq_refl) as (rest & x & [H1 _] & H2 & H3). rewrite H3. eapply HS; eauto. Qed.
Lemma unknown_type l T cx r : typed e l T -> ~ one_of T type_names -> ~ (exists T', T = "@"%char :: T' /\ In T (map fst (c_types cx))) -> newParser e addp cx (JObj l) = EOk r -> m_new cx (JObj l) <> [].
Proof.
  intros HT H1 H2 H. destruct (at_sign T) eqn:EA.
  - destruct HT as (tv & HG & HS). unfold m_newParser. change (jget (JObj l) "type") with (obj_get l (L "type")). rewrite HG.
    assert (HF : findType (c_types cx) T 0 = None). { apply findType_none. intros HI. apply H2. destruct T as [|c T']; [discriminate|]. cbn in EA. apply ceq_true in EA. subst c. eauto. }
    destruct tv; try discriminate; rewrite HS; cbv zeta; fold (at_sign T); rewrite EA, HF; discriminate.
  - assert (HR : T <> L "repeat") by (intros ->; apply H1; cbn; right; left; reflexivity).
    destruct (proj2 (newParser_typed e badint addp m_addp l T cx r HT EA H) HR) as [H3|(rest & p & m & _ & H3 & _)]; [exact H3|]. rewrite simple_unknown in H3 by exact H1. discriminate.
Qed.

Ltac plain := apply not_plain; reflexivity.
Lemma wrong_reported conf cx r : c_types cx = ts -> wrong e (map fst ts) conf -> newParser e addp cx conf = EOk r -> m_new cx conf <> [].
Proof.
  intros HTS HW H. destruct HW as [j HO HA|l HG|l T HT HX HN HC|l HT HP|l T k HI HT HG|l T k vs s HI HT HS HN|l k' k vs v s HI HT HV HK HS HN|l k v HI HT HG HN|l s HT HS HL|l k v s HT HI HK HS HL|l k v HT HI HK HN1 HN2|l k a m k' v s HT HI HK HM HV HK2 HS HN|l T ms k v HI HT HV HN|l T es ms k v HI HT HV HN HN2|l fs f s HT HI HL HF HS HD].
  - destruct j; try discriminate. destruct (HO _ eq_refl).
  - unfold m_newParser. change (jget (JObj l) "type") with (obj_get l (L "type")). rewrite HG. discriminate.
  - eapply unknown_type; eauto. rewrite HTS. exact HC.
  - eapply unknown_type; [exact HT| | |exact H].
    + intros HX. apply Exists_exists in HX as (x & HX & HE). cbn in HX. repeat (destruct HX as [<-|HX]; [discriminate HE|]). destruct HX.
    + intros (T' & HE & _). discriminate.
  - cbn [needs In] in HI. repeat (destruct HI as [HI|HI]; [injection HI as <- <-|]); [..|destruct HI].
    + eapply via_simple; eauto. intros rest p m [_ HR] _. change (m_simple e badint (L "literal") rest) with (m_need "text" "literal type needs 'text' parameter" rest). unfold m_need. rewrite HR, HG by plain. discriminate.
    + eapply via_simple; eauto. intros rest p m [_ HR] _. change (m_simple e badint (L "string-to") rest) with (m_need "extradata" "string-to type needs 'extradata' parameter" rest). unfold m_need. rewrite HR, HG by plain. discriminate.
    + eapply via_simple; eauto. intros rest p m [_ HR] _. change (m_simple e badint (L "char-to") rest) with (m_need "extradata" "char-to type needs 'extradata' parameter" rest). unfold m_need. rewrite HR, HG by plain. discriminate.
    + eapply via_simple; eauto. intros rest p m [_ HR] _. change (m_simple e badint (L "char-sep") rest) with (m_need "extradata" "char-separated type needs 'extradata' parameter" rest). unfold m_need. rewrite HR, HG by plain. discriminate.
    + eapply via_repeat; eauto. intros rest x [_ HR] _. eapply m_repeat_missing; [left; reflexivity|]. rewrite HR by plain. exact HG.
    + eapply via_repeat; eauto. intros rest x [_ HR] _. eapply m_repeat_missing; [right; reflexivity|]. rewrite HR by plain. exact HG.
  - destruct HS as (v & HG & HS). cbn [choices In] in HI.
    assert (HQ : forall rest, rest_ok l rest -> k = "format"%string -> obj_get rest (L "format") = Some v) by (intros rest [_ HR] ->; rewrite HR by plain; exact HG).
    repeat (destruct HI as [HI|HI]; [injection HI as <- <- <-; eapply via_simple; eauto; intros rest p m HR _; specialize (HQ rest HR eq_refl);
      match goal with |- m_simple _ _ (L ?x) ?r <> [] => let M := eval cbv [m_simple] in (m_simple e badint (L x) r) in idtac end|]).
    + change (m_simple e badint (L "number") rest) with (m_fmt e badint "number" ": " fmt_num true rest). eapply m_fmt_value; eauto using fmt_num_bad.
    + change (m_simple e badint (L "float") rest) with (m_fmt e badint "float" ": " fmt_num false rest). eapply m_fmt_value; eauto using fmt_num_bad.
    + change (m_simple e badint (L "hexnumber") rest) with (m_fmt e badint "hexnumber" ": " fmt_num true rest). eapply m_fmt_value; eauto using fmt_num_bad.
    + change (m_simple e badint (L "date-rfc3164") rest) with (m_fmt e badint "date-rfc3164" " " fmt_date false rest). eapply m_fmt_value; eauto using fmt_date_bad.
    + change (m_simple e badint (L "date-rfc5424") rest) with (m_fmt e badint "date-rfc5424" " " fmt_date false rest). eapply m_fmt_value; eauto using fmt_date_bad.
    + destruct HI.
  - eapply via_simple; eauto. intros rest p m [HR _] _. change (m_simple e badint (L "string") rest) with (m_string e rest).
    eapply m_string_choice; eauto. apply HR; auto. cbn [string_choices In] in HI. repeat (destruct HI as [HI|HI]; [injection HI as <- <-; apply not_plain; eapply key_case; eauto|]). destruct HI.
  - eapply via_simple; eauto. intros rest p m [_ HR] _. change (m_simple e badint (L "name-value-list") rest) with (m_nv rest). unfold m_nv.
    assert (HB : one_char v = None) by (destruct v as [| | | |s0| |]; auto; destruct s0 as [|c [|c2 s0]]; auto; destruct (HN c); reflexivity).
    assert (HK : obj_get rest (L k) = Some v) by (rewrite HR; [exact HG|destruct HI as [<-|[<-|[<-|[]]]]; plain]). cbv beta zeta.
    destruct HI as [<-|[<-|[<-|[]]]]; rewrite HK, HB; repeat match goal with |- (if ?b then _ else _) <> [] => destruct b end; discriminate.
  - destruct HS as (v & HG & HS). eapply via_simple; eauto. intros rest p m [_ HR] HM. change (m_simple e badint (L "checkpoint-lea") rest) with (m_lea e rest).
    change (simple_type e (L "checkpoint-lea") rest) with (Some (4%Z, do* t := lea_conf e rest NUL in EOk (MLEA t))) in HM. assert (HM2 : (do* t := lea_conf e rest NUL in EOk (MLEA t)) = EOk m) by congruence. apply ebind_ok in HM2 as (t & HM2 & _).
    assert (HI : In (L "terminator", v) rest) by (apply obj_get_In; rewrite HR by plain; exact HG). eapply m_lea_in; eauto.
  - eapply via_simple; eauto. intros rest p m [HR _] _. change (m_simple e badint (L "string") rest) with (m_string e rest).
    eapply m_string_quote; eauto. apply HR; auto. apply Exists_exists in HK as (x & HX & HK). destruct HX as [<-|[<-|[]]]; apply not_plain; eapply key_case; eauto.
  - eapply via_simple; eauto. intros rest p m [HR _] _. change (m_simple e badint (L "string") rest) with (m_string e rest).
    eapply m_string_perm; [apply HR; [exact HI|apply not_plain; eapply key_case; eauto]|exact HK|]. destruct v; try discriminate; [destruct (HN1 _ eq_refl)|destruct (HN2 _ eq_refl)].
  - eapply via_simple; eauto. intros rest p mm [HR _] _. change (m_simple e badint (L "string") rest) with (m_string e rest).
    eapply m_string_perm; [apply HR; [exact HI|apply not_plain; eapply key_case; eauto]|exact HK|]. cbv iota. unfold m_perm_array. eapply flat_ne; [exact HM|]. cbv iota. eapply m_perm_in; eauto using class_bad.
  - assert (HP : ~ one_of k plain_keys). { intros HX. apply HN. apply Exists_exists in HX as (x & HX & ->). apply Exists_exists. exists x. split; [|reflexivity]. cbn in *. tauto. }
    assert (HF : forall x, In x ("type" :: "name" :: "priority" :: ms)%string -> text_eqb k (L x) = false) by (intros x HX; exact (not_one k _ x HN HX)).
    cbn [members In] in HI. repeat (destruct HI as [HI|HI]; [injection HI as <- <-; eapply via_simple; eauto; intros rest p m [HR _] _; specialize (HR _ _ HV HP)|]); [..|destruct HI].
    + change (m_simple e badint (L "number") rest) with (m_fmt e badint "number" ": " fmt_num true rest). eapply m_fmt_member; eauto; [apply HF|apply HF|rewrite HF; [reflexivity|]]; cbn; tauto.
    + change (m_simple e badint (L "float") rest) with (m_fmt e badint "float" ": " fmt_num false rest). eapply m_fmt_member; eauto; apply HF; cbn; tauto.
    + change (m_simple e badint (L "hexnumber") rest) with (m_fmt e badint "hexnumber" ": " fmt_num true rest). eapply m_fmt_member; eauto; [apply HF|apply HF|rewrite HF; [reflexivity|]]; cbn; tauto.
    + change (m_simple e badint (L "date-rfc3164") rest) with (m_fmt e badint "date-rfc3164" " " fmt_date false rest). eapply m_fmt_member; eauto; apply HF; cbn; tauto.
    + change (m_simple e badint (L "date-rfc5424") rest) with (m_fmt e badint "date-rfc5424" " " fmt_date false rest). eapply m_fmt_member; eauto; apply HF; cbn; tauto.
  - assert (HP : ~ one_of k plain_keys). { intros HX. apply HN. apply Exists_exists in HX as (x & HX & ->). apply Exists_exists. exists x. split; [|reflexivity]. cbn in *. tauto. }
    destruct HI as [HI|[HI|[]]]; injection HI as <- <- <-.
    + eapply via_simple; eauto. intros rest p m [HR _] _. change (m_simple e badint (L "string") rest) with (m_string e rest). exact (m_string_member e badint k v rest (HR k v HV HP) HN2).
    + eapply via_repeat; eauto. intros rest x [HR _] HX. eapply m_repeat_in with (ts := ts); eauto. eapply rc_member; [exact badint| |exact HN2]. intros HY. apply HN. apply Exists_exists in HY as (y & HY & ->). apply Exists_exists. exists y. split; [|reflexivity]. cbn in *. tauto.
  - eapply via_repeat; eauto. intros rest x [HR _] HX. eapply m_repeat_in with (ts := ts); [exact Htypes|exact Hnone| |exact HTS| |exact HX]; [eapply rc_dot; eauto|apply HR; [exact HI|plain]].
Qed.
Lemma object_reported l cx r : c_types cx = ts -> mistaken e (map fst ts) (JObj l) -> newParser e addp cx (JObj l) = EOk r -> m_new cx (JObj l) <> [].
Proof.
  intros HTS HM H. revert HTS. inversion HM as [j HW HE|l0 j HI HJ HE|l0 ps j HT HP HI HJ HE|l0 k j HT HI HK HJ HE]; subst; intros HTS.
  - eapply wrong_reported; eauto.
  - eapply unknown_type; [exact HT| | |exact H].
    + intros HX. apply Exists_exists in HX as (x & HX & HE). cbn in HX. repeat (destruct HX as [<-|HX]; [discriminate HE|]). destruct HX.
    + intros (T' & HE & _). discriminate.
  - eapply via_repeat; eauto. intros rest x [HR _] HX. eapply m_repeat_in with (ts := ts); [exact Htypes|exact Hnone| |exact HTS| |exact HX].
    + apply rc_inner; [exact HK|]. intros c n r0 Hc HE. eapply Hmis; eauto.
    + apply HR; [exact HI|]. destruct HK as [-> | ->]; plain.
Qed.
End Add.

Section Loop.
Variable addp : ctx -> nat -> json -> er (ctx * option (option nat)).
Variable m_addp : ctx -> nat -> json -> list body.
Variable ts : list (text * nat).
Hypothesis HA : addp_fr 0 addp.
Hypothesis Hnone : forall cx n v cx', addp cx n v = EOk (cx', None) -> m_addp cx n v <> [].
Hypothesis Hmis : forall cx n v r, c_types cx = ts -> mistaken e (map fst ts) v -> addp cx n v = EOk r -> m_addp cx n v <> [].
Lemma addp_types cx n v cx' o : addp cx n v = EOk (cx', o) -> c_types cx' = c_types cx.
Proof. intros H. pose proof (HA cx n v (closed0 _) (Nat.le_0_l _)) as HX. rewrite H in HX. cbn [opost fst] in HX. destruct HX as [[HX _] _]. rewrite HX. reflexivity. Qed.
Lemma inst_types cx conf dag next cx' o : addInstance e addp cx conf dag next = EOk (cx', o) -> c_types cx' = c_types cx.
Proof. intros H. pose proof (addInstance_fr e 0 addp HA conf cx dag next (closed0 _) (oge0 _) (oge0 _)) as HX. rewrite H in HX. cbn [opost fst] in HX. destruct HX as [[HX _] _]. rewrite HX. reflexivity. Qed.
Lemma inst_reported conf cx dag next r : (forall l, conf <> JArr l) -> c_types cx = ts -> mistaken e (map fst ts) conf -> addInstance e addp cx conf dag next = EOk r -> m_newParser e badint addp m_addp cx conf <> [].
Proof.
  intros HC HT HM H. unfold addInstance in H. apply ebind_ok in H as (x & H & _).
  destruct conf as [| | | | |l|l]; try (inversion HM as [j HW HE|? ? ? ? HE|? ? ? ? ? ? ? HE|? ? ? ? ? ? ? HE]; eapply wrong_reported; [exact addp_types|exact Hnone|exact HT|exact HW|exact H]).
  - destruct (HC l); reflexivity.
  - eapply object_reported; [exact addp_types|exact Hnone|exact Hmis|exact HT|exact HM|exact H].
Qed.
Variable inner : ctx -> amode -> option nat -> json -> option nat -> ares.
Variable m_inner : ctx -> amode -> option nat -> json -> option nat -> list body.
Hypothesis HI : inner_fr 0 inner.
Hypothesis Inone : forall cx mode dag conf next cx', inner cx mode dag conf next = EOk (cx', None) -> m_inner cx mode dag conf next <> [].
Hypothesis Imis : forall cx mode dag conf next r, c_types cx = ts -> mistaken e (map fst ts) conf -> inner cx mode dag conf next = EOk r -> m_inner cx mode dag conf next <> [].
Lemma inner_types cx mode dag conf next cx' o : inner cx mode dag conf next = EOk (cx', o) -> c_types cx' = c_types cx.
Proof. intros H. pose proof (HI cx mode dag conf next (closed0 _) (oge0 _) (oge0 _)) as HX. rewrite H in HX. cbn [opost fst] in HX. destruct HX as [[HX _] _]. rewrite HX. reflexivity. Qed.

Lemma loop_reported j : mistaken e (map fst ts) j -> forall l cx mode dag next pnext r, c_types cx = ts -> In j l -> addParsers_loop e addp inner cx mode l dag next pnext = EOk r ->
  m_addParsers_loop e badint addp m_addp inner m_inner cx mode l dag next pnext <> [].
Proof.
  intros HM. induction l as [|j0 l IH]; intros cx mode dag next pnext r HT HJ H; [destruct HJ|]. cbn [addParsers_loop m_addParsers_loop] in *.
  apply ebind_ok in H as ([c1 o] & H1 & H2). rewrite H1.
  assert (HC : c_types c1 = ts).
  { destruct j0 as [| | | | |l0|l0]; apply ebind_ok in H1 as ([c2 o2] & H1 & H3); assert (EC : c2 = c1) by congruence; subst c2; (try (apply inst_types in H1; congruence)); apply inner_types in H1; congruence. }
  destruct HJ as [-> |HJ].
  - apply app_ne_l. destruct j as [| | | | |l0|l0]; apply ebind_ok in H1 as (x & H1 & _); try (eapply inst_reported; [|exact HT|exact HM|exact H1]; discriminate). eapply Imis; eauto.
  - destruct o as [[d nx]|].
    + apply app_ne_r. destruct mode; eapply IH; eauto.
    + apply app_ne_l. destruct j0 as [| | | | |l0|l0]; apply ebind_ok in H1 as ([c2 r2] & H1 & H3);
      try (destruct r2; [discriminate|]; eapply addInstance_none; exact H1). destruct r2 as [[ld nx]|]; [discriminate|]. eapply Inone; exact H1.
Qed.
Lemma step_reported cx mode dag conf next r : c_types cx = ts -> mistaken e (map fst ts) conf -> addInternal_step e addp inner cx mode dag conf next = EOk r ->
  m_addInternal_step e badint addp m_addp inner m_inner cx mode dag conf next <> [].
Proof.
  intros HT HM. unfold addInternal_step, m_addInternal_step. destruct conf as [| | | | |l|l]; try discriminate.
  - intros H. inversion HM as [j HW HE|l0 j HJ HJM HE|? ? ? ? ? ? ? HE|? ? ? ? ? ? ? HE].
    + exfalso. inversion HW as [j0 H0 H1 HX|? ? HX|? ? ? ? ? ? HX|? ? ? HX|? ? ? ? ? ? HX|? ? ? ? ? ? ? ? ? HX|? ? ? ? ? ? ? ? ? ? ? ? HX|? ? ? ? ? ? ? HX|? ? ? ? ? HX|? ? ? ? ? ? ? ? ? HX|? ? ? ? ? ? ? ? HX|? ? ? ? ? ? ? ? ? ? ? ? ? ? ? HX|? ? ? ? ? ? ? ? ? HX|? ? ? ? ? ? ? ? ? ? ? HX|? ? ? ? ? ? ? ? ? ? HX]. eapply H1; reflexivity.
    + eapply loop_reported; eauto.
  - change (jget (JObj l) "type") with (obj_get l (L "type")). destruct (obj_get l (L "type")) as [tv|] eqn:EG; [|discriminate].
    assert (HX : forall typ, jstring e tv = Some typ -> (if text_eqb typ (L "alternative") then
       match jget (JObj l) "parser" with Some (JArr ps) => addParsers_loop e addp inner cx Alt ps dag next next | _ => EOk (cx, None) end
       else do* (cx, r) := addInstance e addp cx (JObj l) dag next in EOk (cx, match r with None => None | Some nx => Some (match mode with Seq => Some nx | Alt => dag end, Some nx) end)) = EOk r ->
       match jstring e tv with None => [] | Some typ => if text_eqb typ (L "alternative") then
         match jget (JObj l) "parser" with Some (JArr ps) => m_addParsers_loop e badint addp m_addp inner m_inner cx Alt ps dag next next
         | o => [say "alternative type needs array of parsers. Object: '" (json_show e (JObj l) ++ L "', type is " ++ type_name_of o)] end else m_newParser e badint addp m_addp cx (JObj l) end <> []).
    { intros typ E H. rewrite E. destruct (text_eqb typ (L "alternative")) eqn:EA.
      - change (jget (JObj l) "parser") with (obj_get l (L "parser")) in *. destruct (obj_get l (L "parser")) as [[]|] eqn:EP; try discriminate.
        apply text_eqb_true in EA. subst typ.
        assert (HTT : forall T, typed e l T -> T = L "alternative") by (intros T (v & HV & HS); congruence).
        inversion HM as [j HW HE|? ? ? ? HE|l1 ps j HTY HP HJ HJM HE|l1 k j HTY HJ HK HJM HE].
        + exfalso. subst j. inversion HW as [j0 H0 H1 HX|l1 H0 HX|l1 T H0 H1 H2 H3 HX|l1 H0 H1 HX|l1 T k H0 H1 H2 HX|l1 T k vs s H0 H1 H2 H3 HX|l1 k' k vs v s H0 H1 H2 H3 H4 H5 HX|l1 k v H0 H1 H2 H3 HX|l1 s H1 H2 H3 HX|l1 k v s H1 H2 H3 H4 H5 HX|l1 k v H1 H2 H3 H4 H5 HX|l1 k a m k' v s H1 H2 H3 H4 H5 H6 H7 H8 HX|l1 T ms k v H0 H1 H2 H3 HX|l1 T es ms k v H0 H1 H2 H3 H4 HX|l1 fs f s H1 H2 H3 H4 H5 H6 HX]; subst.
          * eapply H0; reflexivity.
          * congruence.
          * apply HTT in H0. tauto.
          * eapply H1; exact EP.
          * apply HTT in H1. cbn in H0. repeat (destruct H0 as [H0|H0]; [injection H0 as <- <-; discriminate H1|]). destruct H0.
          * apply HTT in H1. cbn in H0. repeat (destruct H0 as [H0|H0]; [injection H0 as <- <- <-; discriminate H1|]). destruct H0.
          * apply HTT in H1. discriminate.
          * apply HTT in H1. discriminate.
          * apply HTT in H1. discriminate.
          * apply HTT in H1. discriminate.
          * apply HTT in H1. discriminate.
          * apply HTT in H1. discriminate.
          * apply HTT in H1. cbn in H0. repeat (destruct H0 as [H0|H0]; [injection H0 as <- <-; discriminate H1|]). destruct H0.
          * apply HTT in H1. cbn in H0. repeat (destruct H0 as [H0|H0]; [injection H0 as <- <- <-; discriminate H1|]). destruct H0.
          * apply HTT in H1. discriminate.
        + assert (ps = l0) by congruence. subst ps. eapply loop_reported; eauto.
        + apply HTT in HTY. discriminate.
      - apply ebind_ok in H as (x & H & _). eapply inst_reported; [discriminate|exact HT|exact HM|exact H]. }
    destruct tv; try discriminate; unfold need_str; (destruct (jstring e _) as [typ|] eqn:E; cbn [ebind]; [|discriminate]); intros H; apply (HX typ); auto.
Qed.
End Loop.

Lemma addp_of_fr f : addp_fr 0 (fun cx d j => do* (cx, r) := addInternal e f cx Seq (Some d) j None in EOk (cx, match r with None => None | Some (en, _) => Some en end)).
Proof.
  intros cx n conf HC HN. eapply opost_bind; [apply (addInternal_fr e 0 f cx Seq (Some n) conf None HC (oge0 _) (oge0 _))|]. intros [c1 [[d nx]|]] [A B]; cbn [opost fst snd] in *; split; auto. apply oge0.
Qed.
Lemma internal_reported ts : forall f cx mode dag conf next r, c_types cx = ts -> mistaken e (map fst ts) conf -> addInternal e f cx mode dag conf next = EOk r -> m_addInternal e badint f cx mode dag conf next <> [].
Proof.
  induction f as [|f IH]; intros cx mode dag conf next r HT HM H; [discriminate|]. cbn [addInternal m_addInternal] in *.
  eapply step_reported; [apply addp_of_fr| | |apply addInternal_fr| |exact IH|exact HT|exact HM|exact H].
  - intros c n v c' H1. apply ebind_ok in H1 as ([c1 o] & H1 & H2). destruct o as [[]|]; [discriminate|]. eapply addInternal_none; exact H1.
  - intros c n v r0 HTc HMv H1. apply ebind_ok in H1 as (x & H1 & _). eapply IH; eauto.
  - intros c mo d cf nx c' H1. eapply addInternal_none; exact H1.
Qed.
Lemma addParser_reported cx dag conf r : mistaken e (map fst (c_types cx)) conf -> addParser e cx dag conf = EOk r -> m_addParser e badint cx dag conf <> [].
Proof. intros HM H. unfold addParser, m_addParser in *. apply ebind_ok in H as (x & H & _). eapply internal_reported; eauto. Qed.

Lemma rule_reported names conf : mistaken e names conf -> forall f rule cs cx dag r, rule_confs e rule cs -> In conf cs -> map fst (c_types cx) = names -> add_rule e f cx dag rule = EOk r -> m_add_rule e badint f cx dag rule <> [].
Proof.
  intros HM. induction f as [|f IH]; intros rule cs cx dag r HR HI HT H; [discriminate|]. cbn [add_rule m_add_rule] in *.
  destruct rule as [|c0 rule0]; [inversion HR as [HQ HQ2|ru li H1 H2 HQ HQ2|ru li re rest' cf cs' H1 H2 H3 H4 HQ HQ2]; [subst cs; destruct HI|tauto|cbn in H1; injection H1 as _ <-; tauto]|]. set (rule := c0 :: rule0) in *.
  destruct (literal_part rule) as [lit rest] eqn:EL. cbv zeta. apply ebind_ok in H as ([c1 o] & H1 & H2). rewrite H1.
  assert (HL : In conf (literals e lit) -> m_add_literals e badint cx dag (cstr (drop_nul (unescape e lit))) <> []).
  { unfold literals. intros HIL. exfalso. apply in_map_iff in HIL as (c & <- & _).
    assert (HG : typed e [(L "type", JStr (L "literal")); (L "text", JStr [c])] (L "literal")) by (eexists; split; reflexivity).
    assert (HTT : forall T, typed e [(L "type", JStr (L "literal")); (L "text", JStr [c])] T -> T = L "literal") by (intros T (v & HV & HS); destruct HG as (v2 & HV2 & HS2); congruence).
    unfold literal_conf in HM. inversion HM as [j HW HE|? ? ? ? HE|l1 ps j HTY HP HJ HJM HE|l1 k j HTY HJ HK HJM HE].
    - subst j. inversion HW as [j0 X0 X1 HX|l1 X0 HX|l1 T X0 X1 X2 X3 HX|l1 X0 X1 HX|l1 T k X0 X1 X2 HX|l1 T k vs s X0 X1 X2 X3 HX|l1 k' k vs v s X0 X1 X2 X3 X4 X5 HX|l1 k v X0 X1 X2 X3 HX|l1 s X1 X2 X3 HX|l1 k v s X1 X2 X3 X4 X5 HX|l1 k v X1 X2 X3 X4 X5 HX|l1 k a m k' v s X1 X2 X3 X4 X5 X6 X7 X8 HX|l1 T ms k v X0 X1 X2 X3 HX|l1 T es ms k v X0 X1 X2 X3 X4 HX|l1 fs f0 s X1 X2 X3 X4 X5 X6 HX]; subst.
      + eapply X0; reflexivity.
      + discriminate.
      + apply HTT in X0. subst T. apply X2. left. reflexivity.
      + apply HTT in X0. discriminate.
      + apply HTT in X1. cbn in X0. repeat (destruct X0 as [X0|X0]; [injection X0 as <- <-; try discriminate X1|]); [discriminate X2|destruct X0].
      + apply HTT in X1. cbn in X0. repeat (destruct X0 as [X0|X0]; [injection X0 as <- <- <-; discriminate X1|]). destruct X0.
      + apply HTT in X1. discriminate.
      + apply HTT in X1. discriminate.
      + apply HTT in X1. discriminate.
      + apply HTT in X1. discriminate.
      + apply HTT in X1. discriminate.
      + apply HTT in X1. discriminate.
      + apply HTT in X1. cbn in X0. repeat (destruct X0 as [X0|X0]; [injection X0 as <- <-; discriminate X1|]). destruct X0.
      + apply HTT in X1. cbn in X0. repeat (destruct X0 as [X0|X0]; [injection X0 as <- <- <-; discriminate X1|]). destruct X0.
      + apply HTT in X1. discriminate.
    - apply HTT in HTY. discriminate.
    - apply HTT in HTY. discriminate. }
  destruct o as [dag1|]; [|apply app_ne_l; eapply add_literals_none; exact H1].
  pose proof (lits_types e _ _ _ _ _ H1) as HT1.
  inversion HR as [HQ HQ2|ru li X1 X2 HQ HQ2|ru li re rest' cf cs' X1 X2 X3 X4 HQ HQ2].
  - subst ru. assert (EQ : li = lit) by congruence. subst li cs. apply app_ne_l. apply HL. exact HI.
  - subst ru. assert (li = lit /\ re = rest) as [-> ->] by (split; congruence). subst cs. apply in_app_or in HI as [HI|HI]; [apply app_ne_l; apply HL; exact HI|]. apply app_ne_r.
    destruct rest as [|r0 rest0]; [tauto|]. set (rest := r0 :: rest0) in *. rewrite X3 in *. apply app_ne_r. destruct dag1 as [d|]; [|discriminate]. apply ebind_ok in H2 as ([c2 o2] & H3 & H4).
    assert (HT2 : map fst (c_types c2) = names) by (rewrite (add_types e _ _ _ _ _ H3), HT1; exact HT). rewrite H3.
    destruct HI as [-> |HI].
    + apply app_ne_l. eapply addParser_reported; [|exact H3]. rewrite HT1, HT. exact HM.
    + destruct o2 as [d2|]; [apply app_ne_r; eapply IH; eauto|apply app_ne_l; eapply addParser_none; exact H3].
Qed.
End Facts.
