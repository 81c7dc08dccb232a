(** * Prop_Alt: the alternative field type (C42).

    [abuilt], [aready], [arule_matches], [compatible], [rules_fit]: AltSpec.v. *)
From Verif Require Import Base Time Parsers Engine Pdag Samp TestEnv EngineSpec GraphSpec RuleSpec BuiltSpec AltSpec History BaseFacts EngineFacts EngineFacts2 EngineFacts3 HeapFacts DeleteFacts BuildFacts BuildFacts2 BuildFacts3 OptSem OptFacts LoadFacts TreeFacts TreeFacts2 BuiltFacts RuleFacts AltFacts AltFacts2 Prop_Graph Prop_Rules.
From Coq Require Import ZifyBool ZifyNat ZifyN.

Definition all_compatible (rs : list (arule * rule_info)) : Prop := forall r1 r2, In r1 (map fst rs) -> In r2 (map fst rs) -> compatible r1 r2.

Lemma aready_hr e q rs cx : prints_no_nul e -> permutes q -> aready e q rs cx -> all_compatible rs -> rules_fit (map fst rs) ->
  all_simple (c_nodes cx) /\ clean (c_nodes cx) (c_root cx) /\
  forall l inf, hr (c_nodes cx) (c_root cx) l inf <-> exists ss cs fs, arule_now rs ss inf /\ Forall2 (fun c s => In c s) cs ss /\ Forall2 (means e) cs fs /\ atoms (simple_fields fs) = l.
Proof.
  intros HE HQ HA HC HR.
  assert (HB : forall cx0, abuilt e rs cx0 -> all_simple (c_nodes cx0) /\ clean (c_nodes cx0) (c_root cx0) /\
    forall l inf, hr (c_nodes cx0) (c_root cx0) l inf <-> exists ss cs fs, arule_now rs ss inf /\ Forall2 (fun c s => In c s) cs ss /\ Forall2 (means e) cs fs /\ atoms (simple_fields fs) = l).
  { intros cx0 HB. destruct (abuilt_exact e rs cx0 HB HC HR) as (W & _ & _ & _ & HI). destruct (wide_hr e HE cx0 W) as (A & B & C). split; [exact B|]. split; [exact A|].
    intros l inf. rewrite C. split; intros (ss & cs & fs & H & H1); exists ss, cs, fs; (split; [apply HI; exact H|exact H1]). }
  destruct HA as [HA|(cx0 & HA & HO)]; [apply HB; exact HA|].
  destruct (optimize_orel q cx0 cx HQ (abuilt_msafe _ _ _ HA) HO) as (HRel & _ & Ecx & n & Hn). assert (ER : c_root cx = c_root cx0) by (rewrite Ecx; reflexivity).
  destruct (HB cx0 HA) as (A & B & C). rewrite ER. split; [eapply orel_simple; eauto|]. split; [eapply orel_clean; eauto|].
  intros l inf. rewrite <- (o_hr _ _ _ HRel _ _ Hn). apply C.
Qed.

Lemma same_steps_in cs : forall ss ss', same_steps ss ss' -> Forall2 (fun c s => In c s) cs ss -> Forall2 (fun c s => In c s) cs ss'.
Proof. induction cs as [|c cs IH]; intros ss ss' HS HF; inversion HF; subst; inversion HS; subst; constructor; [apply H2; auto|eapply IH; eauto]. Qed.
Lemma arule_now_in rs ss inf : arule_now rs ss inf -> exists ss0, In (ss0, inf) rs /\ same_steps ss0 ss.
Proof. intros (a & b & s0 & -> & HS & _). exists s0. split; auto. apply in_or_app. right. left. reflexivity. Qed.
Lemma same_steps_dec a b : same_steps a b \/ ~ same_steps a b.
Proof.
  revert b. induction a as [|s a IH]; intros [|t b]; [left; constructor|right; intros H; inversion H|right; intros H; inversion H|].
  assert (D : same_step s t \/ ~ same_step s t).
  { destruct (Forall_dec (fun x => In x t) (fun x => in_dec json_dec x t) s) as [H1|H1].
    - destruct (Forall_dec (fun x => In x s) (fun x => in_dec json_dec x s) t) as [H2|H2].
      + left. intros x. rewrite Forall_forall in H1, H2. split; auto.
      + right. intros H. apply H2. apply Forall_forall. intros x Hx. apply H. exact Hx.
    - right. intros H. apply H1. apply Forall_forall. intros x Hx. apply H. exact Hx. }
  destruct D as [D|D]; [|right; intros H; inversion H; auto]. destruct (IH b) as [H|H]; [left; constructor; auto|right; intros H2; inversion H2; auto].
Qed.
Lemma arule_in_now rs ss inf : In (ss, inf) rs -> exists inf', arule_now rs ss inf'.
Proof.
  intros Hin. induction rs as [|[s0 i0] rs IH] using rev_ind; [destruct Hin|].
  destruct (same_steps_dec s0 ss) as [H|H]; [exists i0; apply arule_now_snoc; auto|].
  apply in_app_or in Hin as [Hin|[[= -> ->]|[]]]; [|exfalso; apply H; apply same_steps_refl]. destruct (IH Hin) as [i Hi]. exists i. apply arule_now_snoc. auto.
Qed.

(** ** C42 *)
(** A rulebase of rules with alternatives matches exactly the messages that one of its rules
    matches when one field is chosen in every step, provided the rules have no field in common
    where they part and all of them fit. *)
Theorem C42_alternatives_are_unions : forall e q rs cx msg fuel js0 ok o cx',
  prints_no_nul e -> permutes q -> aready e q rs cx -> all_compatible rs -> rules_fit (map fst rs) -> ~ In NUL msg ->
  normalize fuel e cx msg js0 = EOk (ok, o, cx') ->
  (ok = true <-> exists ss inf, In (ss, inf) rs /\ arule_matches e ss msg).
Proof.
  intros e q rs cx msg fuel js0 ok o cx' HE HQ HB HC HR HN H.
  destruct (aready_hr e q rs cx HE HQ HB HC HR) as (HS & HCl & HH).
  assert (HW : (exists w en, walk e cx msg false (c_root cx) 0 w en) <-> exists ss inf, In (ss, inf) rs /\ arule_matches e ss msg).
  { split.
    - intros (w & en & HW). destruct (walk_hr e msg HN cx _ HCl w en HW) as (l & inf & vs & HL & HA & _). pose proof (HCl _ _ HL) as HNl. apply HH in HL as (ss & cs & fs & Hnow & HI & HF & <-).
      destruct (arule_now_in _ _ _ Hnow) as (ss0 & Hin & HSs). exists ss0, inf. split; [exact Hin|]. exists cs, fs. split; [eapply same_steps_in; [apply same_steps_sym; exact HSs|exact HI]|]. split; [exact HF|]. apply fields_atoms; eauto.
    - intros (ss & inf & Hin & cs & fs & HI & HF & HM). destruct (arule_in_now _ _ _ Hin) as [inf' Hnow].
      assert (HL : hr (c_nodes cx) (c_root cx) (atoms (simple_fields fs)) inf') by (apply HH; exists ss, cs, fs; auto).
      apply fields_atoms in HM as [vs HM]; [|exact HN|exact (HCl _ _ HL)]. destruct (hr_walk e msg HN cx _ _ _ _ HCl HL HM) as (w & en & HW & _). eauto. }
  rewrite <- HW. pose proof (all_simple_plain cx (c_root cx) HS) as HP. destruct ok.
  - split; auto. intros _. apply normalize_success in H as (w & en & _ & _ & Hw & _); eauto.
  - split; [discriminate|]. intros (w & en & Hw). apply normalize_failure in H as [H _]; auto. destruct (H _ _ Hw).
Qed.
Print Assumptions C42_alternatives_are_unions.

(** The same messages match as with one rule for each choice of alternatives. *)
Theorem C42_same_as_one_rule_per_choice : forall e q rs cx k rs2 cx2 msg fuel js0 ok o cx' fuel2 js2 ok2 o2 cx2',
  prints_no_nul e -> permutes q -> aready e q rs cx -> all_compatible rs -> rules_fit (map fst rs) ->
  ready e q k rs2 cx2 -> k <= 255 -> c_types cx2 = [] ->
  (forall cs, (exists key inf, In (key, cs, inf) rs2) <-> exists ss inf, In (ss, inf) rs /\ Forall2 (fun c s => In c s) cs ss) ->
  ~ In NUL msg -> normalize fuel e cx msg js0 = EOk (ok, o, cx') -> normalize fuel2 e cx2 msg js2 = EOk (ok2, o2, cx2') -> ok = ok2.
Proof.
  intros e q rs cx k rs2 cx2 msg fuel js0 ok o cx' fuel2 js2 ok2 o2 cx2' HE HQ HB HC HR HB2 HK HT HS HN H1 H2.
  apply (C42_alternatives_are_unions e q rs cx msg) in H1; auto. apply (C36_exactly_the_rules e q k rs2 cx2 msg) in H2; auto.
  assert (HX : ok = true <-> ok2 = true).
  { rewrite H1, H2. split.
    - intros (ss & inf & Hin & cs & fs & HI & HF & HM). destruct (proj2 (HS cs) (ex_intro _ ss (ex_intro _ inf (conj Hin HI)))) as (key & inf2 & Hin2). exists (key, cs, inf2). split; [exact Hin2|]. exists fs. auto.
    - intros ([[key cs] inf2] & Hin2 & fs & HF & HM). destruct (proj1 (HS cs) (ex_intro _ key (ex_intro _ inf2 Hin2))) as (ss & inf & Hin & HI). exists ss, inf. split; [exact Hin|]. exists cs, fs. auto. }
  destruct ok, ok2; auto; [symmetry|]; apply HX; reflexivity.
Qed.
Print Assumptions C42_same_as_one_rule_per_choice.

(** On success event.tags is the tag list of a rule that matches the message. *)
Theorem C42_tags_of_a_matching_rule : forall e q rs cx msg fuel js0 o cx',
  prints_no_nul e -> permutes q -> aready e q rs cx -> all_compatible rs -> rules_fit (map fst rs) -> ~ In NUL msg ->
  normalize fuel e cx msg js0 = EOk (true, o, cx') -> ~ In (L "event.tags") (annot_names (c_annots cx)) ->
  exists ss tags file line, In (ss, (tags, file, line)) rs /\ arule_matches e ss msg /\ forall t, tags = Some t -> obj_get o (L "event.tags") = Some t.
Proof.
  intros e q rs cx msg fuel js0 o cx' HE HQ HB HC HR HN H HA.
  destruct (aready_hr e q rs cx HE HQ HB HC HR) as (HS & HCl & HH).
  pose proof (all_simple_plain cx (c_root cx) HS) as HP. apply normalize_success in H as (w & en & rep & nr & HW & _ & Erep & Hrep & _ & _ & _ & Htag & _); auto.
  destruct (reported_walk _ _ _ _ _ _ _ HW) as [w1 HW1]. rewrite <- Erep in HW1.
  destruct (walk_hr e msg HN cx _ HCl w1 rep HW1) as (l & inf & vs & HL & HAt & _ & n & Hn & _ & Einf). assert (n = nr) by (eapply live_fun; eauto). subst n.
  pose proof (HCl _ _ HL) as HNl. apply HH in HL as (ss & cs & fs & Hnow & HI & HF & <-). destruct (arule_now_in _ _ _ Hnow) as (ss0 & Hin & HSs).
  exists ss0, (n_tags nr), (n_file nr), (n_line nr). rewrite <- Einf. split; [exact Hin|]. split.
  - exists cs, fs. split; [eapply same_steps_in; [apply same_steps_sym; exact HSs|exact HI]|]. split; [exact HF|]. apply fields_atoms; eauto.
  - intros t Et. rewrite (Htag HA), Et. reflexivity.
Qed.
Print Assumptions C42_tags_of_a_matching_rule.


(** ** A rulebase that meets the hypotheses *)
(** Compatibility by walking along both rules. *)
Inductive compat : arule -> arule -> Prop :=
| cp_nil_l : forall r, compat [] r
| cp_nil_r : forall r, compat r []
| cp_same : forall s t q r, same_step s t -> compat q r -> compat (s :: q) (t :: r)
| cp_part : forall s t q r, s <> [] -> (forall c, In c s -> ~ In c t) -> compat (s :: q) (t :: r).
Lemma compat_compatible a b : compat a b -> compatible a b.
Proof.
  induction 1 as [r|r|s t q r HS H IH|s t q r HN HD]; intros p1 s1 q1 p2 s2 q2 E1 E2 HP.
  - destruct p1; discriminate.
  - destruct p2; discriminate.
  - inversion HP as [|x y p1' p2' Hxy HP' Ea Eb]; subst; cbn [app] in E1, E2.
    + injection E1 as <- <-. injection E2 as <- <-. left. exact HS.
    + injection E1 as <- ->. injection E2 as <- ->. eapply IH; eauto.
  - inversion HP as [|x y p1' p2' Hxy HP' Ea Eb]; subst; cbn [app] in E1, E2.
    + injection E1 as <- <-. injection E2 as <- <-. right. exact HD.
    + injection E1 as <- ->. injection E2 as <- ->. exfalso. destruct s as [|c s]; [congruence|]. apply (HD c); [left; auto|apply Hxy; left; auto].
Qed.
Lemma compat_refl a : compat a a.
Proof. induction a; constructor; auto. intros c. tauto. Qed.
Lemma compat_prefix (p a b : arule) : compat a b -> compat (p ++ a)%list (p ++ b)%list.
Proof. intros H. induction p; cbn [app]; auto. constructor; auto. intros c. tauto. Qed.
Lemma compat_comm a b : compat a b -> (forall s, In s b -> s <> []) -> compat b a.
Proof.
  induction 1 as [r|r|s t q r HS H IH|s t q r HN HD]; intros HB; [constructor|constructor| |].
  - apply cp_same; [intros c; symmetry; apply HS|apply IH; intros; apply HB; right; auto].
  - apply cp_part; [apply HB; left; auto|]. intros c H1 H2. exact (HD c H2 H1).
Qed.

Definition aconf : json := JObj [(L "type", JStr (L "alternative")); (L "parser", JArr [JObj [(L "type", JStr (L "number")); (L "name", JStr (L "n"))]; literal_conf "-"])].
Definition achoice : astep := [JObj [(L "type", JStr (L "number")); (L "name", JStr (L "n"))]; literal_conf "-"].
Definition ar1 : text := L "user %{""type"":""alternative"",""parser"":[{""type"":""number"",""name"":""n""},{""type"":""literal"",""text"":""-""}]}% in".
Definition ar2 : text := L "user root".
Definition one_each (cs : list json) : arule := map (fun c => [c]) cs.
Definition as1 : arule := (one_each (literals env0 (L "user ")) ++ achoice :: one_each (literals env0 (L " in")))%list.
Definition as2 : arule := one_each (literals env0 (L "user root")).
Definition atag : option json := Some (JArr [JStr (L "login")]).
Definition acx1 : ctx := ok_ctx (addSampToTree env0 (initCtx no_opts) ar1 0 atag).
Definition acx2 : ctx := ok_ctx (addSampToTree env0 acx1 ar2 0 None).
Definition acxo : ctx := ok_ctx (optimize isort acx2).
Definition ars : list (arule * rule_info) := [(as1, info acx1 atag); (as2, info acx1 None)].

Lemma literals_steps l : ~ In NUL l -> Forall2 (steps_of env0) (map literal_conf l) (map (fun c => [[c]]) (map literal_conf l)).
Proof.
  intros H. induction l as [|c l IH]; cbn [map]; constructor; [|apply IH; intros Hin; apply H; right; auto].
  apply so_field. exists (KSimple (MLiteral [c])), None. apply (lit_means env0 c). intros ->. apply H. left. auto.
Qed.
Lemma concat_one cs : List.concat (map (fun c : json => [[c]]) cs) = one_each cs.
Proof. induction cs; cbn; f_equal; auto. Qed.
Lemma as1_ok : rule_steps env0 ar1 as1.
Proof.
  exists (literals env0 (L "user ") ++ aconf :: literals env0 (L " in"))%list, (map (fun c => [[c]]) (literals env0 (L "user ")) ++ [achoice] :: map (fun c => [[c]]) (literals env0 (L " in")))%list.
  split; [|split].
  - eapply rc_field; [vm_compute; reflexivity|discriminate|vm_compute; reflexivity|]. eapply rc_last; [discriminate|vm_compute; reflexivity].
  - apply Forall2_app; [apply literals_steps; vm_compute; intuition discriminate|]. constructor; [|apply literals_steps; vm_compute; intuition discriminate].
    eapply so_alternative; [reflexivity|reflexivity|discriminate|]. constructor; [|constructor; [|constructor]].
    + eexists. eexists. vm_compute. reflexivity.
    + exists (KSimple (MLiteral ["-"%char])), None. apply (lit_means env0 "-"). discriminate.
  - rewrite concat_app, concat_one. cbn [List.concat app]. rewrite concat_one. reflexivity.
Qed.
Lemma as2_ok : rule_steps env0 ar2 as2.
Proof.
  exists (literals env0 (L "user root")), (map (fun c => [[c]]) (literals env0 (L "user root"))). split; [|split].
  - eapply rc_last; [discriminate|vm_compute; reflexivity].
  - apply literals_steps. vm_compute. intuition discriminate.
  - symmetry. apply concat_one.
Qed.
Lemma acx1_ok : addSampToTree env0 (initCtx no_opts) ar1 (c_root (initCtx no_opts)) atag = EOk acx1.
Proof. vm_compute. reflexivity. Qed.
Lemma acx2_ok : addSampToTree env0 acx1 ar2 (c_root acx1) None = EOk acx2.
Proof. vm_compute. reflexivity. Qed.
Lemma ars_ready : aready env0 isort ars acxo.
Proof.
  right. exists acx2. split; [|vm_compute; reflexivity].
  assert (H1 : abuilt env0 [(as1, info acx1 atag)] acx1) by exact (ab_rule env0 [] _ ar1 as1 atag acx1 (ab_init env0 no_opts) as1_ok acx1_ok).
  exact (ab_rule env0 _ acx1 ar2 as2 None acx2 H1 as2_ok acx2_ok).
Qed.
Lemma ars_compatible : all_compatible ars.
Proof.
  assert (H12 : compat as1 as2).
  { change as2 with (one_each (literals env0 (L "user ")) ++ one_each (literals env0 (L "root")))%list. apply compat_prefix. apply cp_part; [discriminate|]. intros c [<-|[<-|[]]] [H|[]]; discriminate. }
  assert (H21 : compat as2 as1). { apply compat_comm; [exact H12|]. intros s Hs ->. vm_compute in Hs. intuition discriminate. }
  intros r1 r2 [<-|[<-|[]]] [<-|[<-|[]]]; apply compat_compatible; auto using compat_refl.
Qed.
Example C42_ex : prints_no_nul env0 /\ permutes isort /\ aready env0 isort ars acxo /\ all_compatible ars /\ rules_fit (map fst ars) /\
  (exists cx', normalize 50 env0 acxo (L "user 17 in") [] = EOk (true, [(L "n", JStr (L "17")); (L "event.tags", JArr [JStr (L "login")])], cx')) /\
  (exists cx', normalize 50 env0 acxo (L "user - in") [] = EOk (true, [(L "event.tags", JArr [JStr (L "login")])], cx')) /\
  (exists cx', normalize 50 env0 acxo (L "user root") [] = EOk (true, [], cx')) /\
  (exists o cx', normalize 50 env0 acxo (L "user 17- in") [] = EOk (false, o, cx')).
Proof.
  split; [exact env0_nonul|]. split; [exact isort_permutes|]. split; [exact ars_ready|]. split; [exact ars_compatible|]. split; [vm_compute; lia|].
  split; [eexists; vm_compute; reflexivity|]. split; [eexists; vm_compute; reflexivity|]. split; [eexists; vm_compute; reflexivity|]. eexists. eexists. vm_compute. reflexivity.
Qed.

(** *** What does not hold *)
Open Scope string_scope.
Definition lit_ (s : string) : string := "{""type"":""literal"",""text"":""" ++ s ++ """}".
Definition alt_ (l : list string) : string := "%{""type"":""alternative"",""parser"":[" ++ String.concat "," l ++ "]}%".
Definition verdict_of (l : list string) (m : string) : option bool :=
  match load0 no_opts l with EOk (cx, true) => verdict (Some cx) m | _ => None end.
(** Rules that have a field in common where they part: the alternatives of the later rule are
    lost or the rest of the earlier rule can follow the other alternatives. *)
Theorem C42_shared_field_refuted :
  verdict_of ["rule=:ay"; "rule=:bz"; "rule=:" ++ alt_ [lit_ "a"; lit_ "b"] ++ "x"] "ax" = Some false /\
  verdict_of ["rule=:ay"; "rule=:" ++ alt_ [lit_ "a"; lit_ "b"] ++ "x"] "by" = Some true /\
  verdict_of ["rule=:" ++ alt_ [lit_ "a"; lit_ "b"] ++ "x"; "rule=:ay"] "by" = Some true.
Proof. vm_compute. auto. Qed.
(** A sequence of fields as one of the alternatives: the rest of the rule follows the last
    sequence only. *)
Theorem C42_sequence_refuted :
  verdict_of ["rule=:" ++ alt_ ["[" ++ lit_ "a" ++ "," ++ lit_ "b" ++ "]"; "[" ++ lit_ "c" ++ "," ++ lit_ "d" ++ "]"] ++ "x"] "cdx" = Some true /\
  verdict_of ["rule=:" ++ alt_ ["[" ++ lit_ "a" ++ "," ++ lit_ "b" ++ "]"; "[" ++ lit_ "c" ++ "," ++ lit_ "d" ++ "]"] ++ "x"] "abx" = Some false.
Proof. vm_compute. auto. Qed.
