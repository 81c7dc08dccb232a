(** * EncFacts2: structured data and XML *)
From Verif Require Import Base Time Parsers Engine Pdag Samp BaseFacts FieldFacts FieldFacts10 Enc EncSpec EncFacts.

(** ** Structured data *)
Lemma sd_item_delim w v w' v' d d' r r' : sd_item w v -> sd_item w' v' -> In d [","; """"]%char -> In d' [","; """"]%char ->
  w ++ d :: r = w' ++ d' :: r' -> w = w' /\ v = v' /\ d = d' /\ r = r'.
Proof.
  intros H. revert w' v'.
  assert (HD : forall x, In x [","; """"]%char -> In x [","; "\"; "]"; """"]%char /\ x <> "\"%char).
  { intros x [<-|[<-|[]]]; cbn [In]; split; auto; discriminate. }
  assert (HB : ~ ~ In "\"%char [","; "\"; "]"; """"]%char) by (cbn [In]; tauto).
  assert (HNn : ~ In "n"%char [","; "\"; "]"; """"]%char) by (cbn [In]; intuition discriminate).
  induction H as [|w v H IH|c w v Hc H IH|c w v Hc H IH]; intros w' v' H' Hd Hd' HE;
    (destruct H' as [|w' v' H'|c' w' v' Hc' H'|c' w' v' Hc' H']; cbn [L list_ascii_of_string app] in HE;
     injection HE; intros;
     repeat match goal with X : ?a = ?b |- _ => first [is_var a; subst a | is_var b; subst b] end;
     try (exfalso; match goal with
       | X : In ?x [","; """"]%char |- _ => apply HD in X; destruct X; congruence
       | X : In ?x [","; """"]%char |- _ => apply HD in X; destruct X; contradiction
       | _ => contradiction
       end)); auto.
  all: match goal with X : sd_item ?w1 ?v1, Y : _ = ?w1 ++ _ :: _ |- _ => destruct (IH _ _ X Hd Hd' Y) as (-> & -> & -> & ->); auto end.
Qed.

Lemma sd_items_delim w vs w' vs' r r' : sd_items w vs -> sd_items w' vs' ->
  w ++ """"%char :: r = w' ++ """"%char :: r' -> w = w' /\ vs = vs' /\ r = r'.
Proof.
  assert (HQ : In """"%char [","; """"]%char) by (cbn [In]; auto).
  assert (HC : In ","%char [","; """"]%char) by (cbn [In]; auto).
  intros H. revert w' vs'. induction H as [w v H|w v t vs H Ht IH]; intros w' vs' H' HE.
  - destruct H' as [w' v' H'|w' v' t' vs' H' Ht'].
    + destruct (sd_item_delim _ _ _ _ _ _ _ _ H H' HQ HQ HE) as (-> & -> & _ & ->). auto.
    + rewrite <- app_assoc in HE. cbn [app] in HE. destruct (sd_item_delim _ _ _ _ _ _ _ _ H H' HQ HC HE) as (_ & _ & HF & _). discriminate HF.
  - rewrite <- app_assoc in HE. cbn [app] in HE. destruct H' as [w' v' H'|w' v' t' vs' H' Ht'].
    + destruct (sd_item_delim _ _ _ _ _ _ _ _ H H' HC HQ HE) as (_ & _ & HF & _). discriminate HF.
    + rewrite <- app_assoc in HE. cbn [app] in HE. destruct (sd_item_delim _ _ _ _ _ _ _ _ H H' HC HC HE) as (-> & -> & _ & HE').
      destruct (IH _ _ Ht' HE') as (-> & -> & ->). auto.
Qed.

Lemma notin_delim (P : ascii -> Prop) d n n' r r' : Forall P n -> Forall P n' -> ~ P d -> n ++ d :: r = n' ++ d :: r' -> n = n' /\ r = r'.
Proof.
  intros H H' Hd. revert n' H'. induction H as [|c n Hc H IH]; intros n' H' HE; destruct H' as [|c' n' Hc' H']; cbn [app] in HE; injection HE; intros; subst; auto; try contradiction.
  injection HE as HE. destruct (IH _ H' HE) as [-> ->]. auto.
Qed.

Lemma sd_params_fun t ps : sd_params t ps -> forall ps', sd_params t ps' -> ps' = ps.
Proof.
  induction 1 as [|n w vs t ps Hn Hw Ht IH]; intros ps' H'; [inversion H'; reflexivity|].
  remember (" "%char :: n ++ ["="; """"]%char ++ w ++ """"%char :: t) as u eqn:Eu. destruct H' as [|n' w' vs' t' ps' Hn' Hw' Ht']; [discriminate Eu|].
  injection Eu as Eu. destruct (notin_delim _ "="%char _ _ _ _ Hn' Hn (fun H => proj2 H (or_introl eq_refl)) Eu) as [-> Eu'].
  injection Eu' as Eu'. destruct (sd_items_delim _ _ _ _ _ _ Hw' Hw Eu') as (-> & -> & ->). rewrite (IH _ Ht'). reflexivity.
Qed.

Lemma sd_element_fun t ps ps' : sd_element t ps -> sd_element t ps' -> ps' = ps.
Proof.
  intros (u & -> & H) (u' & HE & H'). apply app_inv_head in HE. apply app_inv_tail in HE. subst u'. eapply sd_params_fun; eassumption.
Qed.

Lemma syslog_value_ok v : no_nul v -> sd_item (addValue_Syslog v) v.
Proof.
  intros Hv. unfold addValue_Syslog. rewrite cstr_id by exact Hv. induction v as [|c v IH]; [constructor|]. cbn [flat_map].
  assert (Hc : c <> NUL) by (intros ->; apply Hv; left; reflexivity).
  assert (Hv' : no_nul v) by (intros HI; apply Hv; right; exact HI). specialize (IH Hv').
  unfold syslog_char. replace (ceq c NUL) with false by (symmetry; apply ceq_false; exact Hc).
  destruct (ceq c (chr 10)) eqn:E1; [apply ceq_true in E1; subst; apply si_lf; exact IH|].
  destruct (ceq c ",") eqn:E2; [apply ceq_true in E2; subst; apply si_esc; [cbn [In]; auto|exact IH]|].
  destruct (ceq c "\") eqn:E3; [apply ceq_true in E3; subst; apply si_esc; [cbn [In]; auto|exact IH]|].
  destruct (ceq c "]") eqn:E4; [apply ceq_true in E4; subst; apply si_esc; [cbn [In]; auto|exact IH]|].
  destruct (ceq c """") eqn:E5; [apply ceq_true in E5; subst; apply si_esc; [cbn [In]; auto|exact IH]|].
  apply ceq_false in E2, E3, E4, E5. apply si_plain; [|exact IH]. cbn [In]. intuition congruence.
Qed.

Lemma sd_items_commas add vs : (forall v, In v vs -> sd_item (add v) v) -> vs <> [] -> sd_items (commas (map add vs)) vs.
Proof.
  induction vs as [|v vs IH]; intros H HN; [congruence|]. destruct vs as [|v' vs]; cbn [map commas].
  - apply ss_one. apply H. left. reflexivity.
  - apply ss_more; [apply H; left; reflexivity|]. apply IH; [intros x Hx; apply H; right; exact Hx|discriminate].
Qed.

Lemma sd_plain t : forallb (fun c => negb (mem [","; "\"; "]"; """"]%char c)) t = true -> sd_item t t.
Proof.
  induction t as [|c t IH]; [constructor|]. cbn [forallb]. intros H. apply andb_true_iff in H as [H1 H2].
  apply si_plain; [|apply IH, H2]. rewrite <- mem_In. apply negb_true_iff in H1. congruence.
Qed.

Lemma sd_name_cstr n : sd_name n -> cstr n = n.
Proof.
  intros H. apply cstr_id. intros HI. unfold sd_name in H. rewrite Forall_forall in H. destruct (H _ HI) as [[HL _] _]. vm_compute in HL. apply HL. reflexivity.
Qed.

Lemma syslog_field_ok e n j vs : sd_name n -> shown e j vs -> exists w,
  addField_Syslog e n j = Ok (n ++ ["="; """"]%char ++ w ++ [""""%char]) /\ sd_items w vs.
Proof.
  intros Hn HS. pose proof (sd_name_cstr _ Hn) as HC. destruct HS as [j v Hj|l vs HF HN| |j Hj].
  - exists (addValue_Syslog v). destruct (scalar_jstring _ _ _ Hj) as [HJ HV].
    split; [|apply ss_one, syslog_value_ok, HV]. destruct Hj; cbn [addField_Syslog]; rewrite HJ, HC; reflexivity.
  - exists (commas (map addValue_Syslog (rev vs))). split.
    + cbn [addField_Syslog]. rewrite (comma_loop_ok e addValue_Syslog _ _ (Forall2_rev' _ _ _ HF)). rewrite HC. destruct (rev vs); reflexivity.
    + apply sd_items_commas.
      * intros v Hv. apply syslog_value_ok. pose proof (scalars_no_nul _ _ _ HF) as HX. rewrite Forall_forall in HX. apply HX. apply in_rev. exact Hv.
      * intros HX. apply (f_equal (@rev _)) in HX. rewrite rev_involutive in HX. cbn [rev] in HX. subst vs. inversion HF; subst. congruence.
  - exists []. split; [cbn [addField_Syslog rev comma_loop]; rewrite HC; reflexivity|]. apply ss_one. constructor.
  - exists unsupported. split; [|apply ss_one, sd_plain; reflexivity]. destruct j; try contradiction; cbn [addField_Syslog]; rewrite HC; reflexivity.
Qed.

Lemma syslog_members_ok e o ps : ~ In (L "event.tags") (map fst o) ->
  Forall2 (fun m p => fst m = fst p /\ sd_name (fst m) /\ shown e (snd m) (snd p)) o ps ->
  exists t, members_Syslog e o = Ok t /\ sd_params t ps.
Proof.
  intros HN H. induction H as [|[n j] [n' vs] o ps (HE & Hn & Hs) H IH]; [exists []; split; [reflexivity|constructor]|].
  cbn [fst snd] in *. subst n'. destruct IH as (t & Ht & Hp); [intros HI; apply HN; right; exact HI|].
  destruct (syslog_field_ok _ _ _ _ Hn Hs) as (w & Hf & Hw). eexists. split.
  - cbn [members_Syslog]. rewrite (sd_name_cstr _ Hn). replace (text_eqb n (L "event.tags")) with false.
    + rewrite Hf. cbn [bind]. rewrite Ht. cbn [bind]. reflexivity.
    + symmetry. apply text_eqb_false. intros ->. apply HN. left. reflexivity.
  - cbn [L list_ascii_of_string app]. rewrite <- !app_assoc. cbn [app]. rewrite <- !app_assoc. cbn [app]. apply (sp_cons n w vs t ps); auto.
Qed.

Lemma get_none o n : ~ In n (map fst o) -> obj_get o n = None.
Proof. intros H. apply (member_get o n None). exact H. Qed.

Lemma syslog_event_ok e o ps : ~ In (L "event.tags") (map fst o) ->
  Forall2 (fun m p => fst m = fst p /\ sd_name (fst m) /\ shown e (snd m) (snd p)) o ps ->
  exists r out, fmtEventToRFC5424 e (JObj o) = Ok (r, out) /\ sd_element out ps.
Proof.
  intros HN H. destruct (syslog_members_ok _ _ _ HN H) as (t & Ht & Hp). exists (-1)%Z, (L "[cee@115" ++ t ++ L "]"). split.
  - cbn [fmtEventToRFC5424]. rewrite (get_none _ _ HN), Ht. reflexivity.
  - exists t. auto.
Qed.

(** with tags *)
Lemma sd_tag_item v : sd_tag v -> sd_item v v.
Proof. induction 1; constructor; auto. Qed.

Lemma syslog_members_split e a b ta tb : members_Syslog e a = Ok ta -> members_Syslog e b = Ok tb -> members_Syslog e (a ++ b) = Ok (ta ++ tb).
Proof.
  revert ta. induction a as [|[n j] a IH]; intros ta Ha Hb.
  - injection Ha as <-. exact Hb.
  - cbn [app members_Syslog] in *. destruct (if text_eqb (cstr n) (L "event.tags") then _ else _) as [x|k|u]; try discriminate Ha. cbn [bind] in *.
    destruct (members_Syslog e a) as [y|k|u]; try discriminate Ha. cbn [bind] in *. assert (ta = x ++ y) as -> by congruence.
    rewrite (IH y eq_refl Hb). cbn [bind]. rewrite app_assoc. reflexivity.
Qed.

Lemma syslog_tags_ok e a b tags vs psa psb :
  ~ In (L "event.tags") (map fst a) -> ~ In (L "event.tags") (map fst b) ->
  Forall2 (scalar e) tags vs -> Forall sd_tag vs -> tags <> [] ->
  Forall2 (fun m p => fst m = fst p /\ sd_name (fst m) /\ shown e (snd m) (snd p)) a psa ->
  Forall2 (fun m p => fst m = fst p /\ sd_name (fst m) /\ shown e (snd m) (snd p)) b psb ->
  exists out, fmtEventToRFC5424 e (JObj (a ++ (L "event.tags", JArr tags) :: b)) = Ok (0%Z, out) /\
    sd_element out ((L "event.tags", rev vs) :: psa ++ psb).
Proof.
  intros HA HB HF HP HN Ha Hb.
  destruct (syslog_members_ok _ _ _ HA Ha) as (ta & Hta & Hpa). destruct (syslog_members_ok _ _ _ HB Hb) as (tb & Htb & Hpb).
  assert (HM : members_Syslog e (a ++ (L "event.tags", JArr tags) :: b) = Ok (ta ++ tb)).
  { apply syslog_members_split; [exact Hta|]. cbn [members_Syslog]. rewrite Htb. reflexivity. }
  assert (HG : obj_get (a ++ (L "event.tags", JArr tags) :: b) (L "event.tags") = Some (JArr tags)).
  { apply (member_get _ _ (Some (JArr tags))). exists a, b. auto. }
  exists (L "[cee@115" ++ (L " event.tags=""" ++ commas (map cstr (rev vs)) ++ L """") ++ (ta ++ tb) ++ L "]"). split.
  - cbn [fmtEventToRFC5424]. rewrite HG. cbn [addTags_Syslog]. rewrite (comma_loop_ok e cstr _ _ (Forall2_rev' _ _ _ HF)). cbn [bind].
    rewrite HM. cbn [bind]. destruct (rev vs); reflexivity.
  - exists ((L " event.tags=""" ++ commas (map cstr (rev vs)) ++ L """") ++ (ta ++ tb)). split; [f_equal; apply app_assoc|].
    assert (HPP : forall x y p q, sd_params x p -> sd_params y q -> sd_params (x ++ y) (p ++ q)).
    { intros x y p q H. induction H as [|n w ws t ps Hn Hw Ht IH]; intros Hq; [exact Hq|].
      cbn [app]. rewrite <- !app_assoc. cbn [app]. rewrite <- app_assoc. cbn [app]. apply (sp_cons n w ws (t ++ y) (ps ++ q)); auto. }
    apply (HPP _ _ [(L "event.tags", rev vs)]); [|apply HPP; assumption].
    change (L " event.tags=""") with (" "%char :: L "event.tags" ++ ["="; """"]%char). rewrite <- app_comm_cons, <- !app_assoc. cbn [app].
    apply (sp_cons (L "event.tags") _ (rev vs) [] []); [| |constructor].
    + unfold sd_name. assert (HX : forallb (fun c => (N.leb 33 (code c) && N.leb (code c) 126) && negb (mem ["="; " "; "]"; """"]%char c))%bool (L "event.tags") = true) by reflexivity.
      rewrite forallb_forall in HX. apply Forall_forall. intros c Hc. specialize (HX c Hc). apply andb_true_iff in HX as [HX1 HX2].
      apply andb_true_iff in HX1 as [HX0 HX1]. apply N.leb_le in HX0, HX1. apply negb_true_iff in HX2. split; [split; assumption|]. rewrite <- mem_In. congruence.
    + apply sd_items_commas.
      * intros v Hv. apply in_rev in Hv. pose proof (scalars_no_nul _ _ _ HF) as HX. rewrite Forall_forall in HX, HP. rewrite cstr_id by (apply HX, Hv). apply sd_tag_item, HP, Hv.
      * intros HX. apply (f_equal (@rev _)) in HX. rewrite rev_involutive in HX. cbn [rev] in HX. subst vs. inversion HF; subst. congruence.
Qed.

(** ** XML *)
Lemma xml_text_delim w v w' v' r r' : xml_text w v -> xml_text w' v' ->
  w ++ "<"%char :: r = w' ++ "<"%char :: r' -> w = w' /\ v = v' /\ r = r'.
Proof.
  intros H. revert w' v'.
  induction H as [|w v H IH|w v H IH|c w v Hc Hc2 H IH]; intros w' v' H' HE;
    (destruct H' as [|w' v' H'|w' v' H'|c' w' v' Hc' Hc2' H']; cbn [L list_ascii_of_string app] in HE; try discriminate HE;
     injection HE; intros;
     repeat match goal with X : ?a = ?b |- _ => first [is_var a; subst a | is_var b; subst b] end; try congruence; auto).
  all: match goal with X : xml_text ?w1 ?v1, Y : _ = ?w1 ++ _ :: _ |- _ => destruct (IH _ _ X Y) as (-> & -> & ->); auto end.
Qed.

Lemma xml_values_delim w vs w' vs' r r' : xml_values w vs -> xml_values w' vs' ->
  w ++ L "</" ++ r = w' ++ L "</" ++ r' -> w = w' /\ vs = vs' /\ r = r'.
Proof.
  intros H. revert w' vs'. induction H as [|w v t vs H Ht IH]; intros w' vs' H' HE; destruct H' as [|w' v' t' vs' H' Ht'].
  - injection HE as HE. auto.
  - cbn [L list_ascii_of_string app] in HE. discriminate HE.
  - cbn [L list_ascii_of_string app] in HE. discriminate HE.
  - rewrite <- !app_assoc in HE. apply app_inv_head in HE.
    destruct (xml_text_delim _ _ _ _ _ _ H H' HE) as (-> & -> & HE2). injection HE2 as HE2.
    destruct (IH _ _ Ht' HE2) as (-> & -> & ->). auto.
Qed.

Lemma xml_text_hd w v : xml_text w v -> forall r, w <> "<"%char :: r.
Proof. intros [|w0 v0 H|w0 v0 H|c w0 v0 H]; intros r; try discriminate. intros HE. congruence. Qed.

Lemma xml_content_delim w x w' x' r r' : xml_content w x -> xml_content w' x' ->
  w ++ L "</" ++ r = w' ++ L "</" ++ r' -> w = w' /\ x = x' /\ r = r'.
Proof.
  intros [t vs H|w0 v Hn H] [t' vs' H'|w0' v' Hn' H'] HE.
  - destruct (xml_values_delim _ _ _ _ _ _ H H' HE) as (-> & -> & ->). auto.
  - exfalso. destruct w0' as [|c w0']; [congruence|]. destruct H; cbn [L list_ascii_of_string app] in HE; injection HE as <- _; exact (xml_text_hd _ _ H' _ eq_refl).
  - exfalso. destruct w0 as [|c w0]; [congruence|]. destruct H'; cbn [L list_ascii_of_string app] in HE; injection HE as -> _; exact (xml_text_hd _ _ H _ eq_refl).
  - destruct (xml_text_delim _ _ _ _ _ _ H H' HE) as (-> & -> & HE2). injection HE2 as ->. auto.
Qed.

Lemma xml_fields_fun t fs : xml_fields t fs -> forall fs', xml_fields t fs' -> fs' = fs.
Proof.
  induction 1 as [|n w vs t fs Hn Hw Ht IH]; intros fs' H'; [inversion H'; reflexivity|].
  remember (L "<field name=""" ++ n ++ L """>" ++ w ++ L "</field>" ++ t) as u eqn:Eu. destruct H' as [|n' w' vs' t' fs' Hn' Hw' Ht']; [discriminate Eu|].
  apply app_inv_head in Eu. change (L """>") with (""""%char :: L ">") in Eu.
  destruct (notin_delim _ """"%char _ _ _ _ Hn' Hn (fun H => H (or_intror (or_intror (or_introl eq_refl)))) Eu) as [-> Eu'].
  injection Eu' as Eu'. destruct (xml_content_delim _ _ _ _ _ _ Hw' Hw Eu') as (-> & -> & HE). injection HE as ->.
  rewrite (IH _ Ht'). reflexivity.
Qed.

Lemma xml_event_fun t fs fs' : xml_event t fs -> xml_event t fs' -> fs' = fs.
Proof.
  intros (u & -> & H) (u' & HE & H'). apply app_inv_head in HE. apply app_inv_tail in HE. subst u'. eapply xml_fields_fun; eassumption.
Qed.

Lemma xml_value_ok v : no_nul v -> exists w, addValue_XML v = L "<value>" ++ w ++ L "</value>" /\ xml_text w v.
Proof.
  intros Hv. exists (flat_map xml_char v). split; [unfold addValue_XML; rewrite cstr_id by exact Hv; reflexivity|].
  induction v as [|c v IH]; [constructor|]. cbn [flat_map].
  assert (Hc : c <> NUL) by (intros ->; apply Hv; left; reflexivity).
  assert (Hv' : no_nul v) by (intros HI; apply Hv; right; exact HI). specialize (IH Hv').
  unfold xml_char. replace (ceq c NUL) with false by (symmetry; apply ceq_false; exact Hc).
  destruct (ceq c "<") eqn:E1; [apply ceq_true in E1; subst; apply xt_lt; exact IH|].
  destruct (ceq c "&") eqn:E2; [apply ceq_true in E2; subst; apply xt_amp; exact IH|].
  apply ceq_false in E1, E2. apply xt_plain; auto.
Qed.

Lemma xml_loop_ok e l vs : Forall2 (scalar e) l vs -> exists t, xml_loop e l = (t, true) /\ xml_values t vs.
Proof.
  induction 1 as [|j v l vs Hj H (t & Ht & Hv)]; [exists []; split; [reflexivity|constructor]|]. cbn [xml_loop].
  destruct (scalar_jstring _ _ _ Hj) as [-> HN]. rewrite Ht. destruct (xml_value_ok v HN) as (w & Hw & Hx). eexists. split; [reflexivity|].
  rewrite Hw, <- !app_assoc. apply xv_cons; assumption.
Qed.

Lemma xml_plain t : forallb (fun c => negb (mem ["<"; "&"]%char c)) t = true -> xml_text t t.
Proof.
  induction t as [|c t IH]; [constructor|]. cbn [forallb]. intros H. apply andb_true_iff in H as [H1 H2].
  apply negb_true_iff in H1. assert (HI : ~ In c ["<"; "&"]%char) by (rewrite <- mem_In; congruence).
  apply xt_plain; [intros ->; apply HI; left; reflexivity|intros ->; apply HI; right; left; reflexivity|apply IH, H2].
Qed.

Lemma xml_field_ok e n j x : no_nul n -> xml_shown e j x -> exists w,
  addField_XML e n j = Ok (L "<field name=""" ++ n ++ L """>" ++ w ++ L "</field>") /\ xml_content w x.
Proof.
  intros Hn HS. pose proof (cstr_id n Hn) as HC. destruct HS as [j v Hj|l vs HF|j Hj].
  - destruct (scalar_jstring _ _ _ Hj) as [HJ HV]. destruct (xml_value_ok v HV) as (w & Hw & Hx).
    exists (L "<value>" ++ w ++ L "</value>"). split.
    + destruct Hj; cbn [addField_XML]; rewrite HJ, HC, Hw; rewrite <- !app_assoc; reflexivity.
    + apply xc_values. rewrite <- (app_nil_r (L "</value>")). apply xv_cons; [exact Hx|constructor].
  - destruct (xml_loop_ok _ _ _ (Forall2_rev' _ _ _ HF)) as (t & Ht & Hv). exists t. split.
    + cbn [addField_XML]. rewrite Ht, HC, <- !app_assoc. reflexivity.
    + apply xc_values, Hv.
  - exists unsupported. split; [|apply xc_bare; [discriminate|apply xml_plain; reflexivity]].
    destruct j; try contradiction; cbn [addField_XML]; rewrite HC, <- !app_assoc; reflexivity.
Qed.

Lemma xml_members_ok e o fs : ~ In (L "event.tags") (map fst o) ->
  Forall2 (fun m p => fst m = fst p /\ no_nul (fst m) /\ xml_attr (fst m) /\ xml_shown e (snd m) (snd p)) o fs ->
  exists t, members_XML e o = Ok t /\ xml_fields t fs.
Proof.
  intros HN H. induction H as [|[n j] [n' vs] o ps (HE & H0 & Hn & Hs) H IH]; [exists []; split; [reflexivity|constructor]|].
  cbn [fst snd] in *. subst n'. destruct IH as (t & Ht & Hp); [intros HI; apply HN; right; exact HI|].
  destruct (xml_field_ok _ _ _ _ H0 Hs) as (w & Hf & Hw). eexists. split.
  - cbn [members_XML]. rewrite (cstr_id n H0). replace (text_eqb n (L "event.tags")) with false.
    + rewrite Hf. cbn [bind]. rewrite Ht. cbn [bind]. reflexivity.
    + symmetry. apply text_eqb_false. intros ->. apply HN. left. reflexivity.
  - rewrite <- !app_assoc. apply (xf_cons n w vs t ps); auto.
Qed.

Lemma xml_event_ok e o fs : ~ In (L "event.tags") (map fst o) ->
  Forall2 (fun m p => fst m = fst p /\ no_nul (fst m) /\ xml_attr (fst m) /\ xml_shown e (snd m) (snd p)) o fs ->
  exists r out, fmtEventToXML e (JObj o) = Ok (r, out) /\ xml_event out fs.
Proof.
  intros HN H. destruct (xml_members_ok _ _ _ HN H) as (t & Ht & Hp). exists (-1)%Z, (L "<event>" ++ t ++ L "</event>"). split.
  - cbn [fmtEventToXML]. rewrite (get_none _ _ HN), Ht. reflexivity.
  - exists t. auto.
Qed.

Lemma xml_members_split e a b ta tb : members_XML e a = Ok ta -> members_XML e b = Ok tb -> members_XML e (a ++ b) = Ok (ta ++ tb).
Proof.
  revert ta. induction a as [|[n j] a IH]; intros ta Ha Hb.
  - injection Ha as <-. exact Hb.
  - cbn [app members_XML] in *. destruct (if text_eqb (cstr n) (L "event.tags") then _ else _) as [x|k|u]; try discriminate Ha. cbn [bind] in *.
    destruct (members_XML e a) as [y|k|u]; try discriminate Ha. cbn [bind] in *. assert (ta = x ++ y) as -> by congruence.
    rewrite (IH y eq_refl Hb). cbn [bind]. rewrite app_assoc. reflexivity.
Qed.

Lemma xml_tag_text v : xml_tag v -> xml_text v v.
Proof.
  induction 1 as [|c v Hc H IH]; [constructor|]. apply xt_plain; auto; intros ->; apply Hc; cbn [In]; auto.
Qed.

Lemma xml_tags_loop_ok e l vs : Forall2 (scalar e) l vs -> Forall xml_tag vs -> exists t, xml_tags e l = (t, true) /\ xml_tags_text t vs.
Proof.
  induction 1 as [|j v l vs Hj H IH]; intros HP; [exists []; split; [reflexivity|constructor]|].
  destruct (IH (Forall_inv_tail HP)) as (t & Ht & Hv). cbn [xml_tags]. destruct (scalar_jstring _ _ _ Hj) as [-> HN]. rewrite Ht.
  eexists. split; [reflexivity|]. rewrite (cstr_id v HN). apply tt_cons; [|exact Hv]. apply xml_tag_text, (Forall_inv HP).
Qed.

Lemma xml_tags_ok e a b tags vs fa fb :
  ~ In (L "event.tags") (map fst a) -> ~ In (L "event.tags") (map fst b) ->
  Forall2 (scalar e) tags vs -> Forall xml_tag vs ->
  Forall2 (fun m p => fst m = fst p /\ no_nul (fst m) /\ xml_attr (fst m) /\ xml_shown e (snd m) (snd p)) a fa ->
  Forall2 (fun m p => fst m = fst p /\ no_nul (fst m) /\ xml_attr (fst m) /\ xml_shown e (snd m) (snd p)) b fb ->
  exists tt t, fmtEventToXML e (JObj (a ++ (L "event.tags", JArr tags) :: b)) =
      Ok (0%Z, L "<event>" ++ (L "<event.tags>" ++ tt ++ L "</event.tags>") ++ t ++ L "</event>") /\
    xml_tags_text tt (rev vs) /\ xml_fields t (fa ++ fb).
Proof.
  intros HA HB HF HP Ha Hb.
  destruct (xml_members_ok _ _ _ HA Ha) as (ta & Hta & Hpa). destruct (xml_members_ok _ _ _ HB Hb) as (tb & Htb & Hpb).
  assert (HM : members_XML e (a ++ (L "event.tags", JArr tags) :: b) = Ok (ta ++ tb)).
  { apply xml_members_split; [exact Hta|]. cbn [members_XML]. rewrite Htb. reflexivity. }
  assert (HG : obj_get (a ++ (L "event.tags", JArr tags) :: b) (L "event.tags") = Some (JArr tags)).
  { apply (member_get _ _ (Some (JArr tags))). exists a, b. auto. }
  destruct (xml_tags_loop_ok e _ _ (Forall2_rev' _ _ _ HF)) as (tt & Htt & Hv); [apply Forall_rev; exact HP|].
  exists tt, (ta ++ tb). split; [|split; [exact Hv|]].
  - cbn [fmtEventToXML]. rewrite HG. cbn [addTags_XML]. rewrite Htt. cbn [bind]. rewrite HM. reflexivity.
  - clear -Hpa Hpb. revert tb Hpb. induction Hpa as [|n w vs t fs Hn Hw Ht IH]; intros tb Hpb; [exact Hpb|].
    rewrite <- !app_assoc. apply (xf_cons n w vs (t ++ tb) (fs ++ fb)); auto.
Qed.
