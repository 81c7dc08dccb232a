(** * C68-C73: rulebases without "version=2" (the v1 engine). *)
From Verif Require Import Base BaseFacts Parsers FieldFacts SafetySpec Engine EngineFacts2 Pdag Samp LineSpec LineFacts BuiltSpec LoadSpec AnnotSpec AnnotFacts SynFacts TestEnv LoadTop2 LoadTop Prop_Load V1 V1Spec V1Facts V1Add V1Match V1LoadSpec V1Load V1Total V1FieldSpec V1Field V1Top.

Local Open Scope list_scope.

(** ** C68 *)
Theorem C68_v1_file_loads : forall e fuel q lc0 f rs al al0, unescape e [] = [] ->
  v1_file e fuel (c_prefix (l_ctx lc0)) f rs al -> no_v2 lc0 -> has_annots (l_ctx lc0) al0 -> clean_annots al0 ->
  exists lc, l_loadFile e q fuel lc0 f = EOk (lc, true).
Proof.
  intros e fuel q lc0 f rs al al0 Hue HF HV HA HC. destruct (v1_loaded e fuel Hue q lc0 f rs al al0 HF HV HA HC) as (lc & E & _). eauto.
Qed.
Print Assumptions C68_v1_file_loads.

Theorem C68_success_reports_a_rule : forall e fuel q lc0 f rs al al0 lc, unescape e [] = [] ->
  v1_file e fuel (c_prefix (l_ctx lc0)) f rs al -> no_v2 lc0 -> has_annots (l_ctx lc0) al0 -> clean_annots al0 ->
  (forall r, In r rs -> tame (fst r)) -> l_loadFile e q fuel lc0 f = EOk (lc, true) ->
  forall nf msg js0 out lc', l_normalize e nf lc msg js0 = EOk (true, out, lc') ->
  exists its tags vs, effective rs (its, tag_list tags) /\ matches_closed msg (run_field e nf (vctx_of lc) msg) its vs /\ v1_event js0 vs tags (al0 ++ al) out.
Proof.
  intros e fuel q lc0 f rs al al0 lc Hue HF HV HA HC HT HL nf msg js0 out lc' H.
  destruct (v1_loaded e fuel Hue q lc0 f rs al al0 HF HV HA HC) as (lc1 & E & HS). rewrite HL in E. injection E as <-.
  eapply success; eauto.
Qed.
Print Assumptions C68_success_reports_a_rule.

(** ** C69 *)
Theorem C69_matching_rule_found : forall e fuel q lc0 f rs al al0 lc, unescape e [] = [] ->
  v1_file e fuel (c_prefix (l_ctx lc0)) f rs al -> no_v2 lc0 -> has_annots (l_ctx lc0) al0 -> clean_annots al0 ->
  (forall r, In r rs -> tame (fst r)) -> l_loadFile e q fuel lc0 f = EOk (lc, true) ->
  forall nf msg js0 ok out lc', ~ In NUL msg -> l_normalize e nf lc msg js0 = EOk (ok, out, lc') ->
  forall its tg vs, In (its, tg) rs -> matches_inside msg (run_field e nf (vctx_of lc) msg) its vs -> ok = true.
Proof.
  intros e fuel q lc0 f rs al al0 lc Hue HF HV HA HC HT HL nf msg js0 ok out lc' HN H its tg vs HI HM.
  destruct (v1_loaded e fuel Hue q lc0 f rs al al0 HF HV HA HC) as (lc1 & E & HS). rewrite HL in E. injection E as <-.
  destruct ok; auto. exfalso. destruct (failure e lc rs (al0 ++ al) nf msg js0 out lc' HS HT HN H) as (_ & HX & _).
  destruct (eff_ex rs its tg HI) as (tg' & HE). exact (HX _ _ _ HE HM).
Qed.
Print Assumptions C69_matching_rule_found.

Theorem C69_exactly_the_rules : forall e fuel q lc0 f rs al al0 lc, unescape e [] = [] -> tok_ok e ->
  v1_file e fuel (c_prefix (l_ctx lc0)) f rs al -> no_v2 lc0 -> has_annots (l_ctx lc0) al0 -> clean_annots al0 ->
  (forall r, In r rs -> tame (fst r) /\ never_empty (fst r)) -> l_loadFile e q fuel lc0 f = EOk (lc, true) ->
  forall nf msg js0 ok out lc', ~ In NUL msg -> l_normalize e nf lc msg js0 = EOk (ok, out, lc') ->
  (ok = true <-> exists its tg vs, In (its, tg) rs /\ matches_inside msg (run_field e nf (vctx_of lc) msg) its vs).
Proof.
  intros e fuel q lc0 f rs al al0 lc Hue HTok HF HV HA HC HT HL nf msg js0 ok out lc' HN H. split.
  - intros ->. destruct (C68_success_reports_a_rule e fuel q lc0 f rs al al0 lc Hue HF HV HA HC (fun r HI => proj1 (HT r HI)) HL nf msg js0 out lc' H) as (its & tags & vs & HE & (o' & TK & HO) & _).
    apply eff_in in HE. exists its, (tag_list tags), vs. split; auto. exists o'. split; auto. apply takes_strict; auto. apply (HT _ HE).
  - intros (its & tg & vs & HI & HM). eapply C69_matching_rule_found with (rs := rs); eauto. intros r Hr. apply HT. exact Hr.
Qed.
Print Assumptions C69_exactly_the_rules.

(** Two rulebases with the same rules, in whatever order and however often: the same messages
    are recognised. With more rules no message is lost. *)
Theorem C69_more_rules_no_loss : forall e fuel q lc0 lc0' f f' rs rs' al al' al0 al0' lc1 lc2, unescape e [] = [] -> tok_ok e ->
  v1_file e fuel (c_prefix (l_ctx lc0)) f rs al -> v1_file e fuel (c_prefix (l_ctx lc0')) f' rs' al' -> no_v2 lc0 -> no_v2 lc0' ->
  has_annots (l_ctx lc0) al0 -> clean_annots al0 -> has_annots (l_ctx lc0') al0' -> clean_annots al0' ->
  (forall r, In r rs' -> tame (fst r)) -> (forall r, In r rs -> never_empty (fst r)) -> incl (map fst rs) (map fst rs') ->
  l_loadFile e q fuel lc0 f = EOk (lc1, true) -> l_loadFile e q fuel lc0' f' = EOk (lc2, true) ->
  forall nf msg js0 ok2 out1 out2 x y, ~ In NUL msg ->
  l_normalize e nf lc1 msg js0 = EOk (true, out1, x) -> l_normalize e nf lc2 msg js0 = EOk (ok2, out2, y) -> ok2 = true.
Proof.
  intros e fuel q lc0 lc0' f f' rs rs' al al' al0 al0' lc1 lc2 Hue HTok HF HF' HV HV' HA HC HA' HC' HT HE HI HL HL' nf msg js0 ok2 out1 out2 x y HN H1 H2.
  assert (HT1 : forall r, In r rs -> tame (fst r)).
  { intros r Hr. assert (HX : In (fst r) (map fst rs')) by (apply HI, in_map, Hr). apply in_map_iff in HX. destruct HX as (r' & <- & Hr'). apply HT. exact Hr'. }
  destruct (proj1 (C69_exactly_the_rules e fuel q lc0 f rs al al0 lc1 Hue HTok HF HV HA HC (fun r Hr => conj (HT1 r Hr) (HE r Hr)) HL nf msg js0 true out1 x HN H1) eq_refl) as (its & tg & vs & HIn & HM).
  assert (HX : In its (map fst rs')) by (apply HI; apply in_map_iff; exists (its, tg); auto). apply in_map_iff in HX. destruct HX as ([its' tg'] & E & Hr'). cbn [fst] in E. subst its'.
  assert (HM2 : matches_inside msg (run_field e nf (vctx_of lc2) msg) its vs) by (destruct HM as (o' & TK & HO); exists o'; split; [eapply takes_ctx; [apply (HE _ HIn)|exact TK]|exact HO]).
  exact (C69_matching_rule_found e fuel q lc0' f' rs' al' al0' lc2 Hue HF' HV' HA' HC' HT HL' nf msg js0 ok2 out2 y HN H2 its tg' vs Hr' HM2).
Qed.
Print Assumptions C69_more_rules_no_loss.

(** ** C70 *)
Theorem C70_failure_report : forall e fuel q lc0 f rs al al0 lc, unescape e [] = [] ->
  v1_file e fuel (c_prefix (l_ctx lc0)) f rs al -> no_v2 lc0 -> has_annots (l_ctx lc0) al0 -> clean_annots al0 ->
  (forall r, In r rs -> tame (fst r)) -> l_loadFile e q fuel lc0 f = EOk (lc, true) ->
  forall nf msg js0 out lc', ~ In NUL msg -> l_normalize e nf lc msg js0 = EOk (false, out, lc') ->
  exists a b, msg = a ++ b /\ v1_report js0 msg b out /\ (rs <> [] -> got_to (run_field e nf (vctx_of lc) msg) msg rs a).
Proof.
  intros e fuel q lc0 f rs al al0 lc Hue HF HV HA HC HT HL nf msg js0 out lc' HN H.
  destruct (v1_loaded e fuel Hue q lc0 f rs al al0 HF HV HA HC) as (lc1 & E & HS). rewrite HL in E. injection E as <-.
  destruct (failure e lc rs (al0 ++ al) nf msg js0 out lc' HS HT HN H) as (_ & _ & HX). exact HX.
Qed.
Print Assumptions C70_failure_report.

(** ** C71 *)
Theorem C71_always_answers : forall e fuel q lc0 f rs al al0 lc, unescape e [] = [] -> tok_ok e ->
  v1_file e fuel (c_prefix (l_ctx lc0)) f rs al -> no_v2 lc0 -> has_annots (l_ctx lc0) al0 -> clean_annots al0 ->
  (forall r, In r rs -> tame (fst r)) -> (forall r x, In r rs -> In (VF x) (fst r) -> vf_kind x = KIptables \/ complete x) -> l_loadFile e q fuel lc0 f = EOk (lc, true) ->
  forall nf msg js0, harmless e msg -> exists ok out, l_normalize e nf lc msg js0 = EOk (ok, out, lc).
Proof.
  intros e fuel q lc0 f rs al al0 lc Hue HTok HF HV HA HC HT HK HL nf msg js0 HM.
  destruct (v1_loaded e fuel Hue q lc0 f rs al al0 HF HV HA HC) as (lc1 & E & HS). rewrite HL in E. injection E as <-.
  eapply answers; eauto; [apply HM|]. intros r x Hr Hx _ NK o u. destruct (HK _ _ Hr Hx) as [X|HX]; [congruence|]. rewrite run_plain by (eapply complete_plain; exact HX). apply complete_safe; eauto.
Qed.
Print Assumptions C71_always_answers.
(** In general: misbehaviour only through a hazard of one of the fields. *)
Theorem C71_hazards_complete : forall e fuel q lc0 f rs al al0 lc, unescape e [] = [] -> tok_ok e ->
  v1_file e fuel (c_prefix (l_ctx lc0)) f rs al -> no_v2 lc0 -> has_annots (l_ctx lc0) al0 -> clean_annots al0 ->
  (forall r, In r rs -> tame (fst r)) -> l_loadFile e q fuel lc0 f = EOk (lc, true) ->
  forall nf msg js0, ~ In NUL msg -> (forall r x u, In r rs -> In (VF x) (fst r) -> vf_kind x <> KIptables -> ~ vhazard e x msg u) ->
  exists ok out, l_normalize e nf lc msg js0 = EOk (ok, out, lc).
Proof.
  intros e fuel q lc0 f rs al al0 lc Hue HTok HF HV HA HC HT HL nf msg js0 HN HM.
  destruct (v1_loaded e fuel Hue q lc0 f rs al al0 HF HV HA HC) as (lc1 & E & HS). rewrite HL in E. injection E as <-.
  eapply answers; eauto. intros r x Hr Hx _ NK o u EU. destruct (is_sub (vf_kind x)) eqn:ES; [eapply HM; eauto; apply vz_sub; exact ES|].
  rewrite run_plain in EU by exact ES. eapply HM; eauto. eapply run_v1_ub; eauto.
Qed.
Print Assumptions C71_hazards_complete.

(** ** C72 *)
(** Normalizing changes nothing in the context. *)
Theorem C72_normalize_keeps_context : forall e nf lc msg js0 ok out lc', c_version (l_ctx lc) = 1%N ->
  l_normalize e nf lc msg js0 = EOk (ok, out, lc') -> lc' = lc.
Proof.
  intros e nf lc msg js0 ok out lc' HV H. unfold l_normalize in H. rewrite HV in H. change (N.eqb 1 1) with true in H. cbn iota in H.
  destruct (v1_normalize _ _ _ _ _ _) as [[? ?]|]; [|discriminate]. cbn [ebind] in H. congruence.
Qed.
Print Assumptions C72_normalize_keeps_context.

(** A second file replaces the rules of the first: the answers are those of a context into
    which only the second file was loaded (with the same prefix and annotations in force). *)
Theorem C72_second_file_replaces : forall e fuel q lc1 lc2 f t, files e f = Some t -> t <> [] -> (forall u, t <> L "version=2" ++ LF :: u) ->
  no_v2 lc1 -> no_v2 lc2 -> set_version (l_ctx lc1) 1 = set_version (l_ctx lc2) 1 -> l_loadFile e q fuel lc1 f = l_loadFile e q fuel lc2 f.
Proof.
  intros e fuel q lc1 lc2 f t HF Ht HV H1 H2 HE. unfold l_loadFile. rewrite HF. destruct t as [|c t]; [congruence|]. rewrite (version_v1 _ HV).
  replace (N.eqb (c_version (l_ctx lc1)) 0 || N.eqb (c_version (l_ctx lc1)) 1)%bool with true by (destruct H1 as [-> | ->]; reflexivity).
  replace (N.eqb (c_version (l_ctx lc2)) 0 || N.eqb (c_version (l_ctx lc2)) 1)%bool with true by (destruct H2 as [-> | ->]; reflexivity).
  cbn [andb]. rewrite HE. reflexivity.
Qed.
Print Assumptions C72_second_file_replaces.

(** Files of the two kinds do not mix: the second kind is refused and changes nothing that
    normalization depends on. *)
Theorem C72_v2_file_refused : forall e fuel q lc f t, files e f = Some (L "version=2" ++ LF :: t) -> c_version (l_ctx lc) = 1%N ->
  exists lc', l_loadFile e q (S fuel) lc f = EOk (lc', false) /\
    forall nf msg js0, exists r, l_normalize e nf lc' msg js0 = (do* (ok, js) := r in EOk (ok, js, lc')) /\ l_normalize e nf lc msg js0 = (do* (ok, js) := r in EOk (ok, js, lc)).
Proof.
  intros e fuel q lc f t HF HV. unfold l_loadFile. rewrite HF. change (L "version=2" ++ LF :: t) with ("v"%char :: L "ersion=2" ++ LF :: t). cbn iota.
  change ("v"%char :: L "ersion=2" ++ LF :: t) with (version2 ++ t). unfold is_v1. change (firstn 10 (version2 ++ t)) with version2. rewrite (text_eqb_refl version2). cbn [negb andb].
  unfold loadFile. cbn [loadSamples]. rewrite HF. change (L "version=2" ++ LF :: t) with ("v"%char :: L "ersion=2" ++ LF :: t). cbn iota.
  change ("v"%char :: L "ersion=2" ++ LF :: t) with (version2 ++ t). change (firstn 10 (version2 ++ t)) with version2. rewrite (text_eqb_refl version2).
  change (c_version (set_pos (l_ctx lc) f 0)) with (c_version (l_ctx lc)). rewrite HV. change (negb (N.eqb 1 0) && negb (N.eqb 2 1))%bool with true. cbn iota. cbn [ebind].
  eexists. split; [reflexivity|]. intros nf msg js0. exists (v1_normalize e (run_field e nf (vctx_of lc) msg) (l_tree lc) (c_annots (l_ctx lc)) msg js0).
  unfold l_normalize. cbn [l_ctx]. change (c_version (set_pos (l_ctx lc) f 0)) with (c_version (l_ctx lc)). rewrite HV. change (N.eqb 1 1) with true. cbn iota. cbn [l_tree].
  change (c_annots (set_pos (l_ctx lc) f 0)) with (c_annots (l_ctx lc)). split; reflexivity.
Qed.
Print Assumptions C72_v2_file_refused.

Theorem C72_v1_file_refused : forall e fuel q lc f t, files e f = Some t -> t <> [] -> (forall u, t <> L "version=2" ++ LF :: u) ->
  c_version (l_ctx lc) = 2%N -> exists lc', l_loadFile e q (S fuel) lc f = EOk (lc', false) /\ l_tree lc' = l_tree lc /\ l_ctx lc' = set_pos (l_ctx lc) f 0.
Proof.
  intros e fuel q lc f t HF Ht HV H. unfold l_loadFile. rewrite HF. destruct t as [|c t]; [congruence|]. rewrite H. cbn [N.eqb Pos.eqb orb]. rewrite andb_false_r.
  unfold loadFile. cbn [loadSamples]. rewrite HF. change (c_version (set_pos (l_ctx lc) f 0)) with (c_version (l_ctx lc)). rewrite H.
  apply version_v1 in HV. unfold is_v1 in HV. destruct (text_eqb (firstn 10 (c :: t)) version2); [discriminate|].
  change (negb (N.eqb 2 0) && negb (N.eqb 1 2))%bool with true. cbn iota. cbn [ebind]. eexists. split; [reflexivity|]. split; reflexivity.
Qed.
Print Assumptions C72_v1_file_refused.

(** ** C73 *)
Theorem C73_hazards_complete : forall e msg f offs u, tok_ok e -> run_v1 e msg f offs = Ub u -> vhazard e f msg u.
Proof. intros; eapply run_v1_ub; eauto. Qed.
Print Assumptions C73_hazards_complete.
Theorem C73_no_read_outside : forall e msg f offs, tok_ok e -> run_v1 e msg f offs <> Ub OobRead.
Proof. intros e msg f offs HT E. apply run_v1_ub in E; auto. inversion E. Qed.
Print Assumptions C73_no_read_outside.
Theorem C73_ends_inside : forall e msg f offs o' v, tok_ok e -> ends_inside (vf_kind f) = true -> offs <= List.length msg ->
  run_v1 e msg f offs = Ok (o', v) -> offs <= o' <= List.length msg.
Proof. intros; eapply run_v1_inside; eauto. Qed.
Print Assumptions C73_ends_inside.
Theorem C73_not_at_the_end : forall e msg f o' v, tok_ok e -> may_be_empty (vf_kind f) = false -> run_v1 e msg f (List.length msg) <> Ok (o', v).
Proof. intros; apply run_v1_end; auto. Qed.
Print Assumptions C73_not_at_the_end.

(** ** Examples *)
Lemma numbered_file : forall l m, forallb good_item_b l = true -> rulebase true (write l) m (numbered m l).
Proof.
  induction l as [|i l IH]; intros m H; [constructor|]. cbn [forallb] in H. apply andb_prop in H as [Hi H]. unfold write. cbn [flat_map]. fold (write l). destruct i as [|x|w]; cbn [write_item numbered].
  - cbn [app]. constructor. apply IH. auto.
  - cbn [app]. rewrite <- app_assoc. cbn [app]. constructor; [|apply IH; auto]. pose proof (good_items_b true [Comment x]) as HX. cbn [forallb good_item_b] in HX. cbn [good_item_b] in Hi. rewrite Hi in HX. exact (Forall_inv (HX eq_refl)).
  - apply entry_b_ok in Hi as (A & B & C). rewrite <- app_assoc. cbn [app]. pose proof (rb_line true w (write l) m (numbered (lineno m 1) l)) as HR. rewrite one_line_id, no_lf_count in HR by auto. apply HR; auto.
    intros _ a b E. exfalso. apply B. rewrite E. apply in_or_app. right. left. reflexivity.
Qed.
Definition env_v (t : text) : env := {| wraps := false; asserts_on := false; char_signed := true; cur_year := 2026;
     json_tok := tok0; json_show := fun _ => []; json_num := fun _ => 0%Z; json_erroff := fun _ => 0; unescape := fun t => t; files := fun _ => Some t |}.
Definition items_v : list item :=
  [Comment (L " rules"); Line (L "prefix=pre "); Line (L "rule=a,b:user %u:word% from % ip:ipv4 %"); Blank;
   Line (L "annotate=a:+host=""h"""); Line (L "rule=:100%% %n:char-to:;%;%-:rest%"); Line (L "include=x")].
Definition text_v : text := write items_v.
Definition fld (nm : string) (k : vkind) (d : option string) : vfield :=
  {| vf_name := L nm; vf_kind := k; vf_data := option_map L d; vf_raw := option_map L d |}.
Definition its_v1 : list vitem := lit (L "pre user ") ++ VF (fld "u" KWord None) :: lit (L " from ") ++ [VF (fld "ip" KIPv4 None)].
Definition its_v2 : list vitem := lit (L "pre 100% ") ++ VF (fld "n" KCharTo (Some ";"%string)) :: lit (L ";") ++ [VF (fld "-" KRest None)].
Definition rs_v : list vrule := [(its_v1, tag_list [L "a"; L "b"]); (its_v2, tag_list [])].
Definition al_v : list annotation := [(L "a", [(L "host", L "h")])].
Definition field_name_b (w : text) : bool := (negb (is_nil w) && negb (existsb (ceq ":") w) && negb (isspace (hd NUL w)) && negb (ceq (hd NUL w) "%"))%bool.

Lemma vtype_find_in ty k : vtype_find vtypes (L ty) = Some k -> In (ty, k) vtypes.
Proof.
  assert (LI : forall a b : string, L a = L b -> a = b).
  { intros a b H. rewrite <- (string_of_list_ascii_of_string a), <- (string_of_list_ascii_of_string b). unfold L in H. rewrite H. reflexivity. }
  generalize vtypes. induction l as [|[n k'] l IH]; [discriminate|]. cbn [vtype_find]. destruct (text_eqb (L ty) (L n)) eqn:E; [|right; auto].
  intros [= ->]. apply text_eqb_true in E. apply LI in E. subst. left. reflexivity.
Qed.
Ltac in_types := apply vtype_find_in; vm_compute; reflexivity.
Lemma name_chars_b t : forallb (fun c => existsb (ceq c) (L "abcdefghijklmnopqrstuvwxyzABCDEFGHIJKLMNOPQRSTUVWXYZ0123456789_.")) t = true -> Forall name_char t.
Proof.
  intros H. apply Forall_forall. intros c Hc. rewrite forallb_forall in H. specialize (H c Hc). apply existsb_exists in H. destruct H as (x & Hx & E). apply ceq_true in E. subst x. exact Hx.
Qed.

Lemma text_lit_v e s its : (forall t, unescape e t = t) -> (N.of_nat (List.length s) < 65536)%N -> its = lit s -> rule_text e (doubled s) its.
Proof. intros He Hs ->. pose proof (rt_lit e s) as H. rewrite He in H. apply H. exact Hs. Qed.
Lemma text_field_v e s ft f u its : (forall t, unescape e t = t) -> (N.of_nat (List.length s) < 65536)%N -> field_text e ft f -> rule_text e u its ->
  rule_text e (doubled s ++ "%"%char :: ft ++ u) (lit s ++ VF f :: its).
Proof. intros He Hs HF HU. pose proof (rt_field e s ft f u its) as H. rewrite He in H. apply H; auto. Qed.

Lemma reads_v e : (forall t, unescape e t = t) -> v1_reads e 10 None (numbered 0 items_v) rs_v al_v.
Proof.
  intros He.
  apply (vr_prefix e 10 None (L "pre ")).
  apply (vr_rule e 10 (Some (L "pre ")) [L "a"; L "b"] (L "user %u:word% from % ip:ipv4 %") its_v1); [apply tags_ok|discriminate| |].
  { change (in_force (Some (L "pre ")) ++ L "user %u:word% from % ip:ipv4 %") with (doubled (L "pre user ") ++ "%"%char :: L "u:word%" ++ doubled (L " from ") ++ "%"%char :: L " ip:ipv4 %" ++ doubled []).
    apply text_field_v; [exact He|reflexivity| |apply text_field_v; [exact He|reflexivity| |apply text_lit_v; [exact He|reflexivity|reflexivity]]].
    - apply (ft_plain e [] (L "u") "word" [] KWord); [apply Forall_nil|apply Forall_nil|discriminate|intros [X|[]]; discriminate|reflexivity|discriminate|in_types].
    - apply (ft_plain e (L " ") (L "ip") "ipv4" (L " ") KIPv4); [repeat constructor|repeat constructor|discriminate|intros [X|[X|[]]]; discriminate|reflexivity|discriminate|in_types]. }
  apply (vr_annot e 10 _ (L "a") [] (L "+host=""h""") [(L "host", L "h")]); [split; [discriminate|apply name_chars_b; reflexivity]|constructor| |cbn; lia|].
  { apply (vb_add [] (L "host") [] (L "h") [] []); try constructor; try discriminate.
    - apply name_chars_b; reflexivity.
    - split; intros [X|[]]; discriminate. }
  apply (vr_rule e 10 (Some (L "pre ")) [] (L "100%% %n:char-to:;%;%-:rest%") its_v2); [constructor|discriminate| |].
  { change (in_force (Some (L "pre ")) ++ L "100%% %n:char-to:;%;%-:rest%") with (doubled (L "pre 100% ") ++ "%"%char :: L "n:char-to:;%" ++ doubled (L ";") ++ "%"%char :: L "-:rest%" ++ doubled []).
    apply text_field_v; [exact He|reflexivity| |apply text_field_v; [exact He|reflexivity| |apply text_lit_v; [exact He|reflexivity|reflexivity]]].
    - pose proof (ft_extra e [] (L "n") "char-to" [] KCharTo (L ";")) as H. rewrite He in H. apply H; [apply Forall_nil|apply Forall_nil|discriminate|intros [X|[]]; discriminate|reflexivity|discriminate|in_types|intros [X|[]]; discriminate].
    - apply (ft_plain e [] (L "-") "rest" [] KRest); [apply Forall_nil|apply Forall_nil|discriminate|intros [X|[]]; discriminate|reflexivity|discriminate|in_types]. }
  apply vr_idle; [|apply vr_nil]. left. exists (L "include"), (L "x"). split; [reflexivity|]. split.
  - cbn. intros X. repeat (destruct X as [X|X]; [discriminate|]). exact X.
  - cbn. intros X. repeat (destruct X as [X|X]; [discriminate|]). exact X.
Qed.
Lemma file_v : v1_file (env_v text_v) 10 None (L "f") rs_v al_v.
Proof.
  exists text_v, 0%N, (numbered 0 items_v). split; [reflexivity|]. split; [discriminate|]. split; [intros u; discriminate|].
  split; [apply numbered_file; vm_compute; reflexivity|]. split; [|apply reads_v; reflexivity].
  assert (H : forallb (fun l => N.ltb (N.of_nat (List.length (fst l))) (10 * 1024)) (numbered 0 items_v) = true) by (vm_compute; reflexivity).
  apply Forall_forall. intros x Hx. rewrite forallb_forall in H. apply N.ltb_lt. apply H. exact Hx.
Qed.
Lemma tame_v : forall r, In r rs_v -> tame (fst r) /\ never_empty (fst r) /\ forall x, In (VF x) (fst r) -> complete x.
Proof.
  assert (NE : forall l1 f l2 g, may_be_empty (vf_kind f) = false -> (may_be_empty (vf_kind g) = false \/ vf_kind g = KRest) -> never_empty (lit l1 ++ VF f :: lit l2 ++ [VF g])).
  { intros l1 f l2 g H1 H2 x HI. apply in_app_or in HI. destruct HI as [HI|[HI|HI]].
    - exfalso. apply in_map_iff in HI. destruct HI as (c & X & _). discriminate.
    - injection HI as <-. auto.
    - apply in_app_or in HI. destruct HI as [HI|[HI|[]]]; [apply in_map_iff in HI; destruct HI as (c & X & _); discriminate|injection HI as <-; auto]. }
  assert (CO : forall l1 f l2 g, complete f -> complete g -> forall x, In (VF x) (lit l1 ++ VF f :: lit l2 ++ [VF g]) -> complete x).
  { intros l1 f l2 g H1 H2 x HI. apply in_app_or in HI. destruct HI as [HI|[HI|HI]].
    - exfalso. apply in_map_iff in HI. destruct HI as (c & X & _). discriminate.
    - injection HI as <-. auto.
    - apply in_app_or in HI. destruct HI as [HI|[HI|[]]]; [apply in_map_iff in HI; destruct HI as (c & X & _); discriminate|injection HI as <-; auto]. }
  intros r [<-|[<-|[]]]; cbn [fst]; unfold its_v1, its_v2.
  - split; [cbn; repeat split; try (intros [X|X]; discriminate)|]. split; [apply NE; cbn; auto|apply CO; cbn; auto].
  - split; [cbn; repeat split; auto; try (intros [X|X]; discriminate)|]. split; [apply NE; cbn; auto|apply CO; cbn; auto; eauto].
Qed.
Lemma no_annots_init o : has_annots (l_ctx (l_init o)) [] /\ clean_annots [].
Proof. split; [apply has_none; reflexivity|]. intros tag fvs f v []. Qed.
Definition run_v (t : text) (m : string) : er (bool * fields) :=
  do* (lc, ok) := l_loadFile (env_v t) isort 200 (l_init no_opts) (L "f") in
  do* (ok, js, _) := l_normalize (env_v t) 100 lc (L m) [] in EOk (ok, js).

(** The hypotheses of C68-C71 are met by this file; a message of each kind. *)
Example C68_ex : unescape (env_v text_v) [] = [] /\ tok_ok (env_v text_v) /\ no_v2 (l_init no_opts) /\
  v1_file (env_v text_v) 10 (c_prefix (l_ctx (l_init no_opts))) (L "f") rs_v al_v /\ has_annots (l_ctx (l_init no_opts)) [] /\ clean_annots [] /\
  (forall r, In r rs_v -> tame (fst r) /\ never_empty (fst r)) /\ (forall r x, In r rs_v -> In (VF x) (fst r) -> complete x) /\
  run_v text_v "pre user joe from 1.2.3.4" = EOk (true, [(L "ip", JStr (L "1.2.3.4")); (L "u", JStr (L "joe")); (L "event.tags", JArr [JStr (L "a"); JStr (L "b")]); (L "host", JStr (L "h"))]) /\
  run_v text_v "pre 100% x;yz" = EOk (true, [(L "n", JStr (L "x"))]) /\
  run_v text_v "pre user joe from 1.2.3" = EOk (false, [(L "originalmsg", JStr (L "pre user joe from 1.2.3")); (L "unparsed-data", JStr (L "1.2.3"))]).
Proof.
  split; [reflexivity|]. split; [|split; [left; reflexivity|split; [exact file_v|]]].
  - intros t j n. cbn [json_tok env_v]. unfold tok0. destruct (jval _ t) as [[v u]|]; [|discriminate]. intros [= _ <-]. lia.
  - split; [apply no_annots_init|]. split; [apply (no_annots_init no_opts)|]. split; [intros r Hr; destruct (tame_v r Hr) as (A & B & _); auto|].
    split; [intros r x Hr; apply (tame_v r Hr)|]. split; [vm_compute; reflexivity|]. split; vm_compute; reflexivity.
Qed.

Definition ok_v (l : list string) (m : string) : option bool := match run_v (lines l) m with EOk (b, _) => Some b | EUb _ => None end.

(** C68 is about rules with well-formed text, and with iptables and rest only at the end.
    Else a message may be reported that no rule describes: behind a faulty rule, *)
Theorem C68_faulty_rule_refuted :
  ok_v ["rule=:a"; "rule=:ax%b:bad%"; "rule=:axyz"] "axax" = Some true /\ ok_v ["rule=:a"; "rule=:ax%b:bad%"; "rule=:axyz"] "axyz" = Some false /\
  ok_v ["rule=:a"; "rule=:axyz"] "axyz" = Some true /\ ok_v ["rule=:a"; "rule=:axyz"] "axax" = Some false.
Proof. vm_compute. auto. Qed.
(** with iptables in the middle (and with the fields of the rule given up), *)
Theorem C68_iptables_refuted : run_v (lines ["rule=:%a:iptables%%b:word%"; "rule=:%c:word%xyz"]) "foo" = EOk (true, [(L "foo", JStr (L "[*PRESENT*]"))]).
Proof. vm_compute. auto. Qed.
(** with rest in the middle (where assert() is compiled out). *)
Theorem C68_rest_refuted : run_v (lines ["rule=:%x:rest% foo"]) "ab" = EOk (true, [(L "x", JStr (L "ab"))]).
Proof. vm_compute. auto. Qed.
(** A field with the same name as an earlier one is not reported; its value is lost. *)
Theorem C68_same_name_refuted : run_v (lines ["rule=:%x:word% %x:word%"]) "a b" = EOk (true, [(L "x", JStr (L "a"))]).
Proof. vm_compute. auto. Qed.

(** C69 needs fields that match a byte at least: a field char-sep at the end of the message is
    tried or not depending on the other rules, and an empty rest does not match. *)
Theorem C69_empty_field_refuted : ok_v ["rule=:ab%x:char-sep:,%"] "ab" = Some true /\ ok_v ["rule=:ab%x:char-sep:,%"; "rule=:ac"] "ab" = Some false.
Proof. vm_compute. auto. Qed.
Theorem C69_empty_rest_refuted : ok_v ["rule=:a%x:rest%"] "a" = Some false /\ ok_v ["rule=:a%x:rest%"] "ab" = Some true.
Proof. vm_compute. auto. Qed.

(** C70: the rest reported is not the shortest. *)
Theorem C70_longest_refuted :
  match run_v (lines ["rule=:%a:word% foo"; "rule=:xy"]) "xz fo" with EOk (false, o) => obj_get o (L "unparsed-data") | _ => None end = Some (JStr (L "z fo")) /\
  match run_v (lines ["rule=:%a:word% foo"]) "xz f1" with EOk (false, o) => obj_get o (L "unparsed-data") | _ => None end = Some (JStr (L "1")).
Proof. vm_compute. auto. Qed.

(** C71: the conditions are needed. *)
Theorem C71_refuted :
  match l_loadFile (env_v (lines ["rule=:ab"])) isort 9 (l_init no_opts) (L "f") with EOk (lc, _) => l_normalize (env_v []) 9 lc [NUL; "a"%char] [] | EUb u => EUb u end = EOk (false, [(L "originalmsg", JStr []); (L "unparsed-data", JStr [])], match l_loadFile (env_v (lines ["rule=:ab"])) isort 9 (l_init no_opts) (L "f") with EOk (lc, _) => lc | _ => l_init no_opts end) /\
  match l_loadFile (env_v (lines ["rule=:%x:char-to:b%b"])) isort 9 (l_init no_opts) (L "f") with EOk (lc, _) => l_normalize (env_v []) 9 lc [NUL; "b"%char; "c"%char] [] | EUb u => EUb u end = EUb OobRead /\
  run_v (lines ["rule=:%x:char-to%"]) "ab" = EUb NullDeref /\ run_v (lines ["rule=:%x:string-to%"]) "ab" = EUb NullDeref /\ run_v (lines ["rule=:%x:char-sep:%"]) "ab" = EUb UninitRead /\
  run_v (lines ["extendprefix=x"]) "ab" = EUb NullDeref.
Proof. vm_compute. auto 10. Qed.

(** C72: rules loaded from a string take over; those of the file are not used any more. A
    second file discards the rules of the first. *)
Theorem C72_string_refuted : exists lc1 lc2, let e := env_v (lines ["rule=:abc"]) in
  l_loadFile e isort 9 (l_init no_opts) (L "f") = EOk (lc1, true) /\ l_loadString e isort 9 lc1 (lines ["rule=:xyz"]) = EOk (lc2, true) /\
  (exists o x, l_normalize e 20 lc1 (L "abc") [] = EOk (true, o, x)) /\ (exists o x, l_normalize e 20 lc2 (L "abc") [] = EOk (false, o, x)).
Proof. eexists. eexists. cbv zeta. split; [vm_compute; reflexivity|]. split; [vm_compute; reflexivity|]. split; eexists; eexists; vm_compute; reflexivity. Qed.
Definition env_two : env := {| wraps := false; asserts_on := false; char_signed := true; cur_year := 2026;
     json_tok := tok0; json_show := fun _ => []; json_num := fun _ => 0%Z; json_erroff := fun _ => 0; unescape := fun t => t;
     files := fun f => Some (if text_eqb f (L "f") then lines ["rule=:abc"] else if text_eqb f (L "g") then lines ["rule=:xyz"] else lines ["version=2"; "rule=:abc"]) |}.
Theorem C72_first_file_lost_refuted : exists lc1 lc2 lc3, 
  l_loadFile env_two isort 9 (l_init no_opts) (L "f") = EOk (lc1, true) /\ l_loadFile env_two isort 9 lc1 (L "g") = EOk (lc2, true) /\ l_loadFile env_two isort 9 lc1 (L "h") = EOk (lc3, false) /\
  (exists o x, l_normalize env_two 20 lc1 (L "abc") [] = EOk (true, o, x)) /\ (exists o x, l_normalize env_two 20 lc2 (L "abc") [] = EOk (false, o, x)).
Proof. do 3 eexists. split; [vm_compute; reflexivity|]. split; [vm_compute; reflexivity|]. split; [vm_compute; reflexivity|]. split; eexists; eexists; vm_compute; reflexivity. Qed.

(** C73: three types end outside or go back. *)
Theorem C73_position_refuted :
  run_v1 (env_v []) (L "x a: b; c") (fld "x" KLEA None) 2 = Bad 0 /\ run_v1 (env_v []) (L "xxxxxxx a: b;") (fld "x" KLEA None) 8 = Ok (3, JObj [(L "a", JStr (L "b"))]) /\
  run_v1 (env_v []) (L "x @cee: {}") (fld "x" KCee None) 2 = Ok (12, JObj []) /\
  run_v1 (env_v []) (L "CEF:0|V|P|V|S|N|6| a=1") (fld "x" KCEF None) 0 <> Bad 0.
Proof. vm_compute. repeat split; discriminate. Qed.
Example C73_ex : run_v1 (env_v []) (L "ab 12;c") (fld "x" KCharTo (Some ";"%string)) 3 = Ok (5, JStr (L "12")) /\ vhazard (env_v []) (fld "x" KCharTo None) (L "ab") NullDeref /\
  run_v1 (env_v []) (L "ab") (fld "x" KCharTo None) 0 = Ub NullDeref.
Proof. split; [reflexivity|]. split; [|reflexivity]. apply vz_char_none; [cbn; auto|reflexivity]. Qed.
