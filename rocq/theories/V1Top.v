(** * V1Top: normalization with a loaded v1 rulebase. *)
From Verif Require Import Base BaseFacts Parsers FieldFacts SafetySpec Engine EngineFacts2 Pdag Samp LineSpec BuiltSpec LoadSpec AnnotSpec AnnotFacts SynFacts V1 V1Spec V1Facts V1Add V1Match V1LoadSpec V1Load V1Total V1FieldSpec V1Field.

(** ** Storing values *)
Lemma stored_dec f k : {stored_as f k} + {~ stored_as f k}.
Proof.
  unfold stored_as. destruct (text_eqb (vf_name f) (L "-")) eqn:E1.
  - apply text_eqb_true in E1. right. tauto.
  - apply text_eqb_false in E1. destruct (text_eqb (cstr (vf_name f)) k) eqn:E2; [apply text_eqb_true in E2|apply text_eqb_false in E2]; [left|right]; tauto.
Qed.
Lemma vstore_get f v js k : obj_get (vstore f v js) k = if stored_dec f k then Some v else obj_get js k.
Proof.
  unfold vstore. destruct (stored_dec f k) as [(H1 & <-)|H].
  - rewrite (proj2 (text_eqb_false _ _) H1). apply obj_get_add_same.
  - destruct (text_eqb (vf_name f) (L "-")) eqn:E1; [reflexivity|]. apply text_eqb_false in E1. apply obj_get_add_other. intros X. apply H. split; auto.
Qed.
Lemma fold_get kvs js k : let out := fold_left (fun o (m : text * json) => obj_add o (fst m) (snd m)) kvs js in
  (exists a w b, kvs = a ++ (k, w) :: b /\ ~ In k (map fst b) /\ obj_get out k = Some w) \/ (~ In k (map fst kvs) /\ obj_get out k = obj_get js k).
Proof.
  cbv zeta. induction kvs as [|[x y] kvs IH] using rev_ind; [right; split; [intros []|reflexivity]|]. rewrite fold_left_app. cbn [fold_left fst snd].
  destruct (text_eqb x k) eqn:EX.
  - apply text_eqb_true in EX. subst x. left. exists kvs, y, []. split; [reflexivity|]. split; [intros []|]. apply obj_get_add_same.
  - apply text_eqb_false in EX. rewrite obj_get_add_other by auto. destruct IH as [(a & w & b & -> & HN & E)|(HN & E)].
    + left. exists a, w, (b ++ [(x, y)]). split; [rewrite <- app_assoc; reflexivity|]. split; [|exact E]. rewrite map_app. intros H. apply in_app_or in H as [H|[H|[]]]; [auto|]. exact (EX H).
    + right. split; [|exact E]. rewrite map_app. intros H. apply in_app_or in H as [H|[H|[]]]; [auto|]. exact (EX H).
Qed.
Lemma store_one_get f v js k : (exists w, gives f v k w /\ obj_get (store_one f v js) k = Some w) \/ ((forall w, ~ gives f v k w) /\ obj_get (store_one f v js) k = obj_get js k).
Proof.
  unfold store_one, gives. destruct (vkind_eqb (vf_kind f) KIptables) eqn:EK.
  - apply vkind_eqb_true in EK. destruct v as [|b0| | | |l|kvs];
      try (right; split; [intros w [(X & _)|(_ & a & b & X & _)]; [congruence|discriminate X]|reflexivity]).
    destruct (fold_get kvs js k) as [(a & w & b & -> & HN & E)|(HN & E)]; [left; exists w; split; [right; eauto|exact E]|right; split; [|exact E]].
    intros w [(X & _)|(_ & a & b & X & _)]; [congruence|]. injection X as ->. apply HN. rewrite map_app. apply in_or_app. right. left. reflexivity.
  - assert (NK : vf_kind f <> KIptables) by (intros X; rewrite X in EK; discriminate EK). rewrite vstore_get. destruct (stored_dec f k) as [H|H]; [left; eauto 6|right]. split; [|reflexivity].
    intros w [(_ & X & _)|(X & _)]; tauto.
Qed.
Lemma store_all_get vs js k :
  (exists v, value_of vs k v /\ obj_get (store_all vs js) k = Some v) \/ ((forall v, ~ value_of vs k v) /\ obj_get (store_all vs js) k = obj_get js k).
Proof.
  induction vs as [|[f v] vs IH].
  - right. split; auto. intros v (b & f & x & a & E & _). destruct b; discriminate.
  - cbn [store_all]. destruct (store_one_get f v (store_all vs js) k) as [(w & H & E1)|(H & E1)]; rewrite E1.
    + left. exists w. split; auto. exists [], f, v, vs. split; [reflexivity|]. split; [exact H|]. intros g x [].
    + destruct IH as [(w & (b & g & x & a & -> & Hg & Hb) & E)|(HN & E)].
      * left. exists w. split; auto. exists ((f, v) :: b), g, x, a. split; [reflexivity|]. split; auto. intros y z [[= <- <-]|HI]; eauto.
      * right. split; auto. intros w (b & g & x & a & E2 & Hg & Hb). destruct b as [|[y z] b]; injection E2 as -> -> E2; [exact (H w Hg)|].
        apply (HN w). exists b, g, x, a. split; auto. split; auto. intros ? ? ?. eapply Hb. right. eauto.
Qed.

(** ** What the lines give *)
Lemma v1_body_clean u fvs : v1_body u fvs -> forall f v, In (f, v) fvs -> ~ In NUL f /\ ~ In NUL v.
Proof.
  induction 1 as [|b f b' v u fvs H1 H2 H3 H4 H5 IH]; intros g w HI; [destruct HI|]. destruct HI as [[= <- <-]|HI]; [|auto].
  split; [|destruct H4 as (_ & _ & H4); exact H4]. intros HX. destruct H2 as (_ & H2). rewrite Forall_forall in H2. specialize (H2 _ HX).
  unfold name_char in H2. cbn in H2. repeat (destruct H2 as [H2|H2]; [discriminate|]). exact H2.
Qed.
Lemma v1_reads_clean e fuel p ls rs al : v1_reads e fuel p ls rs al -> clean_annots al.
Proof.
  induction 1 as [p|p tags r its n ls rs al HT HR HX HL IH|p t n ls rs al HL IH|p t n ls rs al HL IH|p tag b u fvs n ls rs al HN HB HV HF HL IH|p l n ls rs al HI HL IH]; auto.
  - intros tag fvs f v [].
  - intros tag' fvs' f v [[= <- <-]|HI] HI2; [eapply v1_body_clean; eauto|eapply IH; eauto].
Qed.
Lemma v1_reads_tags e fuel p ls rs al : v1_reads e fuel p ls rs al -> forall its tg, In (its, tg) rs -> exists tags, tg = tag_list tags /\ Forall good_tag tags.
Proof.
  induction 1 as [p|p tags r its n ls rs al HT HR HX HL IH|p t n ls rs al HL IH|p t n ls rs al HL IH|p tag b u fvs n ls rs al HN HB HV HF HL IH|p l n ls rs al HI HL IH]; auto.
  - intros its tg [].
  - intros its' tg [[= <- <-]|HI]; eauto.
Qed.
Lemma eff_in rs r : effective rs r -> In r rs.
Proof. intros (b & a & -> & _). apply in_or_app. right. left. reflexivity. Qed.
Lemma vitems_dec (a b : list vitem) : {a = b} + {a <> b}.
Proof.
  assert (TD : forall x y : text, {x = y} + {x <> y}) by (apply list_eq_dec, ascii_dec).
  apply list_eq_dec. decide equality; [apply ascii_dec|]. decide equality; try (apply TD); try (decide equality; apply TD).
Qed.
Lemma eff_ex rs its tg : In (its, tg) rs -> exists tg', effective rs (its, tg').
Proof.
  induction rs as [|[i t] rs IH] using rev_ind; intros HI; [destruct HI|].
  destruct (vitems_dec i its) as [->|Hne].
  - exists t, rs, []. split; [reflexivity|]. intros [].
  - apply in_app_or in HI. destruct HI as [HI|[E|[]]]; [|congruence]. destruct (IH HI) as (tg' & b & a & -> & H).
    exists tg', b, (a ++ [(i, t)]). split; [rewrite <- app_assoc; reflexivity|]. rewrite map_app. intros X. apply in_app_or in X.
    destruct X as [X|[X|[]]]; auto.
Qed.

(** ** Limits *)
Lemma run_plain e fuel c msg f o : is_sub (vf_kind f) = false -> run_field e fuel c msg f o = run_v1 e msg f o.
Proof. intros H. destruct fuel; cbn [run_field]; rewrite H; reflexivity. Qed.
Lemma empty_sub k : may_be_empty k = false -> is_sub k = false.
Proof. destruct k; auto. Qed.
Lemma takes_strict e fuel cx msg its o o' vs : tok_ok e -> never_empty its -> takes msg (run_field e fuel cx msg) (S (List.length msg)) its o o' vs ->
  takes msg (run_field e fuel cx msg) (List.length msg) its o o' vs.
Proof.
  intros HT HN. induction 1 as [o|c its o o' vs H1 H2 IH|f its o o1 v o' vs HK HL HR H2 IH|f o HK HL].
  - apply tk_nil.
  - apply tk_char; auto. apply IH. intros g Hg. apply HN. right. exact Hg.
  - apply tk_field with (o1 := o1); auto; [|apply IH; intros g Hg; apply HN; right; exact Hg].
    destruct (Nat.eq_dec o (List.length msg)) as [->|]; [|lia]. exfalso. unfold field_takes in HR. destruct (vkind_eqb (vf_kind f) KIptables); [lia|]. destruct (HN f) as [X|X]; [left; reflexivity| |congruence].
    rewrite run_plain in HR by (apply empty_sub; exact X). exact (run_v1_end e msg f o1 v HT X HR).
  - apply tk_rest; auto.
Qed.

Lemma takes_ctx e fuel cx fuel' cx' msg lim its o o' vs : never_empty its -> takes msg (run_field e fuel cx msg) lim its o o' vs -> takes msg (run_field e fuel' cx' msg) lim its o o' vs.
Proof.
  intros HN. induction 1 as [o|c its o o' vs H1 H2 IH|f its o o1 v o' vs HK HL HR H2 IH|f o HK HL].
  - apply tk_nil.
  - apply tk_char; auto. apply IH. intros g Hg. apply HN. right. exact Hg.
  - apply tk_field with (o1 := o1); auto; [|apply IH; intros g Hg; apply HN; right; exact Hg].
    unfold field_takes in *. destruct (vkind_eqb (vf_kind f) KIptables); [exact HR|]. destruct (HN f) as [X|X]; [left; reflexivity| |congruence]. apply empty_sub in X. rewrite run_plain in * by exact X. exact HR.
  - apply tk_rest; auto.
Qed.
Lemma complete_plain f : complete f -> is_sub (vf_kind f) = false.
Proof. unfold complete. destruct (vf_kind f); auto; contradiction. Qed.

Section Top.
Variable e : env.
Variable afuel : nat.
Hypothesis Hue : unescape e [] = [].

Lemma version_v1 t : (forall u, t <> L "version=2" ++ LF :: u) -> is_v1 t = true.
Proof.
  intros H. unfold is_v1. destruct (text_eqb (firstn 10 t) version2) eqn:E; [|reflexivity]. exfalso. apply text_eqb_true in E.
  apply (H (skipn 10 t)). transitivity (firstn 10 t ++ skipn 10 t); [symmetry; apply firstn_skipn|]. rewrite E. reflexivity.
Qed.

(** A context in the state that loading leaves behind. *)
Definition v1_state (lc : lctx) (rs : list vrule) (al : list annotation) : Prop :=
  usable e (l_tree lc) /\ (forall x tg, has_rule (l_tree lc) x tg <-> effective rs (x, tg)) /\
  has_annots (l_ctx lc) al /\ clean_annots al /\ c_version (l_ctx lc) = 1%N /\
  (forall its tg, In (its, tg) rs -> exists tags, tg = tag_list tags /\ Forall good_tag tags).

Lemma v1_loaded q lc0 f rs al al0 : v1_file e afuel (c_prefix (l_ctx lc0)) f rs al -> no_v2 lc0 -> has_annots (l_ctx lc0) al0 -> clean_annots al0 ->
  exists lc, l_loadFile e q afuel lc0 f = EOk (lc, true) /\ v1_state lc rs (al0 ++ al).
Proof.
  intros (t & n & ls & HF & Ht & HV & HR & HS & HL) HC HA HCA.
  destruct (v1_load e afuel Hue q lc0 f t n ls rs al HF Ht (version_v1 t HV) HC HR HS HL) as (lc & E & U & R & A & O & V).
  exists lc. split; auto. split; auto. split; auto. split; [auto|]. split; [|split; [auto|eapply v1_reads_tags; eauto]].
  pose proof (v1_reads_clean _ _ _ _ _ _ HL) as HCL. intros tag fvs g v HI HI2. apply in_app_or in HI. destruct HI; [eapply HCA; eauto|eapply HCL; eauto].
Qed.

Lemma v1_state_tame lc rs al : v1_state lc rs al -> (forall r, In r rs -> tame (fst r)) -> tame_tree (l_tree lc).
Proof. intros (_ & R & _) HT its tags HR. apply R in HR. apply eff_in in HR. apply (HT _ HR). Qed.

Lemma tags_good rs its tg : (forall its tg, In (its, tg) rs -> exists tags, tg = tag_list tags /\ Forall good_tag tags) -> effective rs (its, tg) ->
  exists tags, tg = tag_list tags /\ Forall good_tag tags.
Proof. intros H HE. apply (H its). apply eff_in. exact HE. Qed.

Lemma tag_texts_v1 tags : Forall good_tag tags -> tag_texts (JArr (map JStr tags)) = tags.
Proof.
  intros H. cbn [tag_texts]. rewrite map_map. induction H as [|x l (_ & _ & _ & Hx) H IH]; [reflexivity|].
  cbn [map]. rewrite AnnotFacts.cstr_id by auto. f_equal. exact IH.
Qed.

Lemma event_ok cx al vs js0 tags : has_annots cx al -> clean_annots al -> Forall good_tag tags ->
  exists out, match tag_list tags with
    | Some tg => annotate (c_annots cx) tg (obj_add (store_all vs js0) (L "event.tags") tg)
    | None => EOk (store_all vs js0) end = EOk out /\ v1_event js0 vs tags al out.
Proof.
  intros HA HC HG. destruct tags as [|t0 tags0].
  - cbn [tag_list]. eexists. split; [reflexivity|]. intros k. right. split; [intros v (t & fvs & [] & _)|]. right. split; [intros (_ & X); congruence|].
    apply store_all_get.
  - remember (t0 :: tags0) as tags. assert (HE : tag_list tags = Some (JArr (map JStr tags))) by (subst; reflexivity).
    rewrite HE. destruct (annotate_adds cx al (JArr (map JStr tags)) (obj_add (store_all vs js0) (L "event.tags") (JArr (map JStr tags))) HA HC) as (out & E & AD).
    rewrite E. exists out. split; auto. intros k. rewrite tag_texts_v1 in AD by auto. destruct (AD k) as [X|(HN & X)]; [left; exact X|right].
    split; auto. destruct (text_eqb (L "event.tags") k) eqn:EK.
    + apply text_eqb_true in EK. subst k. left. split; auto. split; [subst; discriminate|]. rewrite X. apply obj_get_add_same.
    + apply text_eqb_false in EK. right. split; [intros (Y & _); congruence|]. rewrite X, obj_get_add_other by auto. apply store_all_get.
Qed.

Lemma v1_normalize_eq fuel lc msg js0 : c_version (l_ctx lc) = 1%N ->
  l_normalize e fuel lc msg js0 = do* (ok, js) := v1_normalize e (run_field e fuel (vctx_of lc) msg) (l_tree lc) (c_annots (l_ctx lc)) msg js0 in EOk (ok, js, lc).
Proof. intros H. unfold l_normalize. rewrite H. reflexivity. Qed.

Lemma success lc rs al fuel msg js0 out lc' : v1_state lc rs al -> (forall r, In r rs -> tame (fst r)) ->
  l_normalize e fuel lc msg js0 = EOk (true, out, lc') ->
  lc' = lc /\ exists its tags vs, effective rs (its, tag_list tags) /\ matches_closed msg (run_field e fuel (vctx_of lc) msg) its vs /\ v1_event js0 vs tags al out.
Proof.
  intros HS HT H. pose proof HS as ((G & _) & R & A & C & V & TG). rewrite v1_normalize_eq in H by auto. unfold v1_normalize in H.
  destruct (vrec e msg (run_field e fuel (vctx_of lc) msg) (l_tree lc) 0 js0 None) as [[[r js] en]|] eqn:EV; [|discriminate]. cbn [ebind] in H.
  pose proof (vrec_spec e msg (run_field e fuel (vctx_of lc) msg) (l_tree lc) G (v1_state_tame _ _ _ HS HT) _ _ _ _ _ _ EV) as [(its & vs & o' & tg & -> & -> & HR & TK & HO & ->)|(_ & _ & HV & _)].
  - cbn [vhit Z.eqb ebind] in H. apply R in HR. destruct (tags_good rs its tg TG HR) as (tags & -> & HG).
    destruct (event_ok (l_ctx lc) al vs js0 tags A C HG) as (out' & E & EV').
    destruct (tag_list tags) as [tg|] eqn:ET; [rewrite E in H; cbn [ebind] in H|cbn [ebind] in H; injection E as <-].
    + injection H as <- <-. split; auto. exists its, tags, vs. rewrite ET. split; auto. split; [exists o'; auto|auto].
    + injection H as <- <-. split; auto. exists its, tags, vs. rewrite ET. split; auto. split; [exists o'; auto|auto].
  - rewrite HV in H. cbn [ebind] in H. destruct (addUnparsed _ _ _); discriminate.
Qed.

Lemma unparsed_ok msg k js : ~ In NUL msg -> k <= List.length msg -> exists out, addUnparsed msg k js = EOk out /\ v1_report js msg (skipn k msg) out.
Proof.
  intros HN Hk. unfold addUnparsed. rewrite AnnotFacts.cstr_id by auto. destruct (Nat.ltb_spec (List.length msg) k); [lia|].
  eexists. split; [reflexivity|]. split; [|split].
  - rewrite obj_get_add_other by discriminate. apply obj_get_add_same.
  - apply obj_get_add_same.
  - intros x H1 H2. rewrite !obj_get_add_other by auto. reflexivity.
Qed.

Lemma failure lc rs al fuel msg js0 out lc' : v1_state lc rs al -> (forall r, In r rs -> tame (fst r)) -> ~ In NUL msg ->
  l_normalize e fuel lc msg js0 = EOk (false, out, lc') ->
  lc' = lc /\ (forall its tg vs, effective rs (its, tg) -> ~ matches_inside msg (run_field e fuel (vctx_of lc) msg) its vs) /\
  exists a b, msg = a ++ b /\ v1_report js0 msg b out /\ (rs <> [] -> got_to (run_field e fuel (vctx_of lc) msg) msg rs a).
Proof.
  intros HS HT HN H. pose proof HS as ((G & _) & R & A & C & V & TG). rewrite v1_normalize_eq in H by auto. unfold v1_normalize in H.
  destruct (vrec e msg (run_field e fuel (vctx_of lc) msg) (l_tree lc) 0 js0 None) as [[[r js] en]|] eqn:EV; [|discriminate]. cbn [ebind] in H.
  pose proof (vrec_spec e msg (run_field e fuel (vctx_of lc) msg) (l_tree lc) G (v1_state_tame _ _ _ HS HT) _ _ _ _ _ _ EV) as [(its & vs & o' & tg & -> & -> & HR & TK & HO & ->)|(-> & NM & HV & RC & HB)].
  - cbn [vhit Z.eqb ebind] in H. exfalso. destruct tg as [tg|]; [|discriminate]. destruct (annotate _ _ _); discriminate.
  - rewrite HV in H. cbn [ebind] in H.
    set (k := if Z.ltb r 0 then List.length msg else List.length msg - Z.to_nat r) in *.
    assert (Hk : k <= List.length msg) by (subst k; destruct (Z.ltb r 0); lia).
    destruct (unparsed_ok msg k js0 HN Hk) as (out' & E & RP). rewrite E in H. cbn [ebind] in H. injection H as <- <-.
    split; auto. split.
    + intros its tg vs HE (o' & TK & HO). apply R in HE. exact (NM _ _ _ _ HE TK HO).
    + exists (firstn k msg), (skipn k msg). split; [symmetry; apply firstn_skipn|]. split; auto. intros HRS.
      assert (RU : ruled (l_tree lc)). { destruct rs as [|[i t] rs]; [congruence|]. destruct (eff_ex ((i, t) :: rs) i t) as (tg' & X); [left; auto|]. exists i, tg'. apply R. exact X. }
      destruct (RC RU) as (its1 & its2 & tags & o' & vs & HR & TK & HH). exists its1, its2, tags, vs, o'. split; [apply R; auto|]. split; auto.
      rewrite firstn_length. subst k. destruct HH as [(H1 & H2)|(H1 & H2)]; destruct (Z.ltb_spec r 0); lia.
Qed.

Lemma answers lc rs al fuel msg js0 : v1_state lc rs al -> (forall r, In r rs -> tame (fst r)) -> ~ In NUL msg ->
  (forall r f, In r rs -> In (VF f) (fst r) -> vf_kind f <> KRest -> vf_kind f <> KIptables -> forall o u, run_field e fuel (vctx_of lc) msg f o <> Ub u) ->
  exists ok out, l_normalize e fuel lc msg js0 = EOk (ok, out, lc).
Proof.
  intros HS HT HN HU. pose proof HS as ((G & _) & R & A & C & V & TG). rewrite v1_normalize_eq by auto. unfold v1_normalize.
  assert (TT := v1_state_tame _ _ _ HS HT).
  assert (SF : safe_tree (run_field e fuel (vctx_of lc) msg) (l_tree lc)). { intros its tags f HR HI HK HK2. apply R in HR. apply eff_in in HR. apply (HU _ _ HR HI HK HK2). }
  destruct (vrec_total e msg (run_field e fuel (vctx_of lc) msg) (l_tree lc) G TT SF 0 js0 None) as ([[r js] en] & EV). rewrite EV. cbn [ebind].
  pose proof (vrec_spec e msg (run_field e fuel (vctx_of lc) msg) (l_tree lc) G TT _ _ _ _ _ _ EV) as [(its & vs & o' & tg & -> & -> & HR & TK & HO & ->)|(-> & NM & HV & RC & HB)].
  - cbn [vhit Z.eqb ebind]. apply R in HR. destruct (tags_good rs its tg TG HR) as (tags & -> & HG).
    destruct (event_ok (l_ctx lc) al vs js0 tags A C HG) as (out' & E & EV').
    destruct (tag_list tags) as [tg|]; [rewrite E|]; cbn [ebind]; eauto.
  - rewrite HV. cbn [ebind].
    set (k := if Z.ltb r 0 then List.length msg else List.length msg - Z.to_nat r) in *.
    assert (Hk : k <= List.length msg) by (subst k; destruct (Z.ltb r 0); lia).
    destruct (unparsed_ok msg k js0 HN Hk) as (out' & E & RP). rewrite E. cbn [ebind]. eauto.
Qed.
End Top.
