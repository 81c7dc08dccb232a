(** * V1Load: from the text of a v1 rulebase to its rules. *)
From Verif Require Import Base BaseFacts Parsers FieldFacts Engine EngineFacts2 Pdag Samp LineSpec BuiltSpec LoadSpec AnnotSpec LineFacts LoadText AnnotFacts SynFacts V1 V1Spec V1Facts V1Add V1LoadSpec.
From Coq Require Import ZifyBool ZifyNat ZifyN.

(** ** The reader *)
Lemma v1_read_entry : forall w f rest buf cnt inP,
  (buf <> [] \/ exists c t, w = c :: t /\ c <> LF /\ c <> "#"%char) ->
  (forall a b, w = a ++ LF :: b -> xorb inP (in_field a) = true) ->
  (forall a b, w = a ++ LF :: b -> goes_on (b ++ rest)) ->
  (cnt + N.of_nat (List.length (one_line w)) < 10 * 1024)%N ->
  v1_read (List.length w + f) (w ++ rest) buf cnt inP =
  v1_read f rest (rev (one_line w) ++ buf) (cnt + N.of_nat (List.length (one_line w))) (xorb inP (in_field w)).
Proof.
  induction w as [|c w IH]; intros f rest buf cnt inP HB HL HF HS.
  - cbn [List.length app one_line filter rev count Nat.add]. rewrite N.add_0_r. change (in_field []) with false. rewrite xorb_false_r. reflexivity.
  - cbn [List.length Nat.add v1_read app].
    destruct (ceq c (chr 10)) eqn:EC.
    + apply ceq_true in EC. change (chr 10) with LF in EC. subst c.
      destruct HB as [HB|(c & t & E & Hc & _)]; [|injection E as <- _; destruct (Hc eq_refl)].
      pose proof (HL [] w eq_refl) as HP. change (in_field []) with false in HP. rewrite xorb_false_r in HP. subst inP.
      assert (HR : (true && runaway (S (List.length (w ++ rest))) (w ++ rest))%bool = false).
      { cbn [andb]. apply goes_on_runaway; [apply (HF [] w); reflexivity|lia]. }
      rewrite HR. cbn [negb andb]. destruct buf as [|b0 buf]; [destruct (HB eq_refl)|].
      assert (EO : one_line (LF :: w) = one_line w) by reflexivity.
      assert (EI : in_field (LF :: w) = in_field w) by (rewrite in_field_cons; destruct (in_field w); reflexivity).
      rewrite EO, EI.
      apply IH; auto.
      * intros a b Hab. specialize (HL (LF :: a) b). cbn [app] in HL. rewrite Hab in HL. specialize (HL eq_refl). rewrite in_field_cons in HL. destruct (in_field a); exact HL.
      * intros a b Hab. apply (HF (LF :: a) b). cbn. rewrite Hab. reflexivity.
    + assert (HC : c <> LF) by (apply ceq_false in EC; exact EC).
      assert (HSh : (ceq c "#" && is_nil buf)%bool = false).
      { destruct buf as [|b0 buf]; [|apply andb_false_r]. destruct HB as [HB|(c' & t & E & _ & H2)]; [destruct (HB eq_refl)|]. injection E as <- _. rewrite (proj2 (ceq_false c "#") H2). reflexivity. }
      rewrite HSh.
      assert (EO : one_line (c :: w) = c :: one_line w) by (unfold one_line; cbn [filter]; unfold LF; rewrite EC; reflexivity).
      rewrite EO in *. cbn [List.length] in *. rewrite Nat2N.inj_succ in *.
      assert (HT : N.leb (10 * 1024) (cnt + 1) = false) by (apply N.leb_gt; lia). rewrite HT.
      assert (EP : (if ceq c "%" then negb inP else inP) = xorb inP (ceq "%" c)) by (rewrite (LineFacts.ceq_sym "%" c); destruct (ceq c "%"), inP; reflexivity). rewrite EP.
      rewrite IH; auto.
      * rewrite in_field_cons, xorb_assoc. cbn [rev List.length]. rewrite <- app_assoc. cbn [app]. f_equal. lia.
      * left. discriminate.
      * intros a b Hab. specialize (HL (c :: a) b). cbn [app] in HL. rewrite Hab in HL. specialize (HL eq_refl). rewrite in_field_cons in HL. rewrite xorb_assoc. exact HL.
      * intros a b Hab. apply (HF (c :: a) b). cbn. rewrite Hab. reflexivity.
      * lia.
Qed.

Lemma v1_read_line w t f : entry w -> in_field w = false -> (N.of_nat (List.length (one_line w)) < 10 * 1024)%N ->
  (forall a b, w = a ++ LF :: b -> goes_on (b ++ LF :: t)) -> List.length w < f ->
  v1_read f (w ++ LF :: t) [] 0 false = VLine (one_line w) t false.
Proof.
  intros HW HI HS HF Hf. replace f with (List.length w + (S (f - List.length w - 1))) by lia.
  rewrite v1_read_entry; auto.
  - rewrite HI, app_nil_r. cbn [v1_read xorb]. change (ceq LF (chr 10)) with true. cbn [andb negb].
    pose proof (rev_nonnil _ (entry_nonnil w HW)) as HR. destruct (rev (one_line w)) as [|b0 b] eqn:ER; [destruct (HR eq_refl)|]. cbn iota. rewrite <- ER, rev_involutive. reflexivity.
  - right. apply HW.
  - intros a b Hab. rewrite (en_inner _ HW a b Hab). reflexivity.
Qed.
Lemma v1_read_last w f : entry w -> (N.of_nat (List.length (one_line w)) < 10 * 1024)%N ->
  (forall a b, w = a ++ LF :: b -> goes_on b) -> List.length w < f ->
  v1_read f w [] 0 false = VLine (one_line w) [] true.
Proof.
  intros HW HS HF Hf. replace f with (List.length w + (S (f - List.length w - 1))) by lia.
  transitivity (v1_read (List.length w + S (f - List.length w - 1)) (w ++ []) [] 0 false); [rewrite app_nil_r; reflexivity|].
  rewrite v1_read_entry; auto.
  - rewrite app_nil_r. cbn [v1_read].
    pose proof (rev_nonnil _ (entry_nonnil w HW)) as HR. destruct (rev (one_line w)) as [|b0 b] eqn:ER; [destruct (HR eq_refl)|]. cbn iota. rewrite <- ER, rev_involutive. reflexivity.
  - right. apply HW.
  - intros a b Hab. rewrite (en_inner _ HW a b Hab). reflexivity.
  - intros a b Hab. rewrite app_nil_r. eauto.
Qed.

Section Load.
Variable e : env.
Variable afuel : nat.

Fixpoint v1_process (lc : lctx) (ls : list (text * N)) : er lctx :=
  match ls with
  | [] => EOk lc
  | (l, _) :: ls' => do* lc := v1_samp e afuel lc l in v1_process lc ls'
  end.

Definition v1_after (lc : lctx) (fuel : nat) (r : vread) : er lctx :=
      match r with
      | VFuel => EUb OutOfFuel
      | VTooLong inp' => v1_lines e afuel fuel lc inp'
      | VNone => EOk lc
      | VLine line inp' eof =>
          do* lc := v1_samp e afuel lc line in
          if eof then EOk lc else v1_lines e afuel fuel lc inp'
      end.
Lemma v1_lines_S fuel lc inp : v1_lines e afuel (S fuel) lc inp = v1_after lc fuel (v1_read (S (S (List.length inp))) inp [] 0 false).
Proof. reflexivity. Qed.

Lemma v1_lines_ok : forall t n ls, rulebase true t n ls -> short_lines ls -> forall lc fuel rf,
  List.length t <= fuel -> List.length t + 2 <= rf ->
  v1_after lc fuel (v1_read rf t [] 0 false) = v1_process lc ls.
Proof.
  induction 1 as [n|t n ls H IH|x t n ls HX H IH|x n HX|w t n ls HW HI HF H IH|w n HW HF]; intros HS lc fuel rf Hf Hr.
  - destruct rf as [|rf]; [lia|]. reflexivity.
  - destruct rf as [|rf]; [lia|]. cbn [List.length] in Hf, Hr. cbn [v1_read]. change (ceq LF (chr 10)) with true. cbn [andb negb]. cbn iota. apply IH; auto; lia.
  - destruct rf as [|rf]; [lia|]. cbn [List.length] in Hf, Hr. rewrite app_length in Hf, Hr. cbn [List.length] in Hf, Hr.
    cbn [v1_read]. change (ceq "#" (chr 10)) with false. change (ceq "#" "#") with true. cbn [andb is_nil]. cbn iota. rewrite skip_line_comment by auto. apply IH; auto; lia.
  - destruct rf as [|[|rf]]; [lia|lia|].
    cbn [v1_read]. change (ceq "#" (chr 10)) with false. change (ceq "#" "#") with true. cbn [andb is_nil]. cbn iota. rewrite skip_line_end by auto. reflexivity.
  - apply Forall_cons_iff in HS. destruct HS as (HS1 & HS). cbn [fst] in HS1. rewrite app_length in Hf, Hr. cbn [List.length] in Hf, Hr.
    specialize (HF eq_refl). rewrite v1_read_line; [|exact HW|exact HI|exact HS1|exact HF|lia]. cbn [v1_after v1_process]. destruct (v1_samp e afuel lc (one_line w)) as [lc1|]; cbn [ebind]; [|reflexivity].
    destruct fuel as [|fuel]; [lia|]. rewrite v1_lines_S. apply IH; auto; lia.
  - apply Forall_cons_iff in HS. destruct HS as (HS1 & HS). cbn [fst] in HS1.
    specialize (HF eq_refl). rewrite v1_read_last; [|exact HW|exact HS1|exact HF|lia]. cbn [v1_after v1_process]. destruct (v1_samp e afuel lc (one_line w)) as [lc1|]; cbn [ebind]; reflexivity.
Qed.
Lemma v1_lines_process t n ls lc fuel : rulebase true t n ls -> short_lines ls -> List.length t < fuel ->
  v1_lines e afuel fuel lc t = v1_process lc ls.
Proof. intros H HS Hf. destruct fuel as [|fuel]; [lia|]. rewrite v1_lines_S. eapply v1_lines_ok; eauto; lia. Qed.

(** ** One line *)
Lemma v1_line_rule lc tags r : Forall good_tag tags -> r <> [] ->
  v1_samp e afuel lc (rule_line tags r) =
  do* t := vaddSamp e (tag_list tags) (in_force (c_prefix (l_ctx lc)) ++ r) (l_tree lc) in EOk {| l_ctx := l_ctx lc; l_tree := t |}.
Proof.
  intros HT Hr. unfold v1_samp, rule_line. change (L "rule=" ++ comma tags ++ ":"%char :: r) with (L "rule" ++ "="%char :: (comma tags ++ ":"%char :: r)).
  rewrite getLineType_eq; [|discriminate|cbn; intros H; repeat destruct H as [H|H]; try discriminate; tauto].
  change (text_eqb (L "rule") (L "prefix")) with false. change (text_eqb (L "rule") (L "extendprefix")) with false. change (text_eqb (L "rule") (L "rule")) with true. cbn iota.
  unfold v1_rule. rewrite processTags_ok by auto. cbn [ebind]. destruct r as [|c r]; [tauto|]. cbn [app]. destruct tags; reflexivity.
Qed.
Lemma v1_line_prefix lc t : v1_samp e afuel lc (L "prefix=" ++ t) = EOk {| l_ctx := set_prefix (l_ctx lc) (Some t); l_tree := l_tree lc |}.
Proof.
  unfold v1_samp. change (L "prefix=" ++ t) with (L "prefix" ++ "="%char :: t). rewrite getLineType_eq; [|discriminate|cbn; intros H; repeat destruct H as [H|H]; try discriminate; tauto]. reflexivity.
Qed.
Lemma v1_line_extend lc p t : c_prefix (l_ctx lc) = Some p ->
  v1_samp e afuel lc (L "extendprefix=" ++ t) = EOk {| l_ctx := set_prefix (l_ctx lc) (Some (p ++ t)); l_tree := l_tree lc |}.
Proof.
  intros HP. unfold v1_samp. change (L "extendprefix=" ++ t) with (L "extendprefix" ++ "="%char :: t). rewrite getLineType_eq; [|discriminate|cbn; intros H; repeat destruct H as [H|H]; try discriminate; tauto].
  change (text_eqb (L "extendprefix") (L "prefix")) with false. change (text_eqb (L "extendprefix") (L "extendprefix")) with true. cbn iota. rewrite HP. reflexivity.
Qed.
Lemma v1_line_idle lc l : v1_idle l -> v1_samp e afuel lc l = EOk lc.
Proof.
  unfold v1_samp. intros [(ty & u & -> & H1 & H2)|(u & ->)]; [|reflexivity].
  destruct ty as [|c ty]; [reflexivity|]. rewrite getLineType_eq; [|discriminate|exact H1].
  assert (HN : forall s, In s ["prefix"; "extendprefix"; "rule"; "annotate"]%string -> text_eqb (c :: ty) (L s) = false).
  { intros s Hs. apply text_eqb_false. intros E. apply H2. rewrite E. apply in_map. exact Hs. }
  rewrite !HN by (cbn; tauto). reflexivity.
Qed.
Lemma v1_body_loop u fvs : v1_body u fvs -> forall fuel ops, List.length fvs + 2 <= fuel ->
  v1_annot_loop fuel u ops = EOk (Some (rev (map op_of fvs) ++ ops)).
Proof.
  induction 1 as [|b f b' v u fvs Hb Hf Hb' Hv H IH]; intros fuel ops HF.
  - destruct fuel; [cbn in HF; lia|]. reflexivity.
  - cbn [List.length] in HF. destruct fuel as [|fuel]; [lia|]. cbn [v1_annot_loop]. unfold v1_annotOp. rewrite annotop_add by auto. unfold addAnnotOp.
    set (w := b ++ _). assert (Hw : w <> []) by (unfold w; destruct b; discriminate). destruct w; [congruence|]. rewrite IH by lia. cbn [map rev op_of fst snd]. rewrite <- app_assoc. reflexivity.
Qed.
Lemma v1_line_annot lc tag b u fvs : name tag -> AnnotSpec.blanks b -> v1_body u fvs -> List.length fvs + 2 <= afuel ->
  v1_samp e afuel lc (L "annotate=" ++ tag ++ b ++ ":"%char :: u) =
  EOk {| l_ctx := set_annots (l_ctx lc) (addAnnotToSet (c_annots (l_ctx lc)) (as_annot (tag, fvs))); l_tree := l_tree lc |}.
Proof.
  intros Hn Hb Hu HF. unfold v1_samp. change (L "annotate=" ++ tag ++ b ++ ":"%char :: u) with (L "annotate" ++ "="%char :: (tag ++ b ++ ":"%char :: u)).
  rewrite getLineType_eq; [|discriminate|cbn; intros H; repeat destruct H as [H|H]; try discriminate; tauto].
  change (text_eqb (L "annotate") (L "prefix")) with false. change (text_eqb (L "annotate") (L "extendprefix")) with false. change (text_eqb (L "annotate") (L "rule")) with false. change (text_eqb (L "annotate") (L "annotate")) with true. cbn iota.
  unfold v1_annotate.
  assert (HS : scan isFieldNameChar (tag ++ b ++ ":"%char :: u) = List.length tag).
  { destruct b as [|c b]; [apply name_scan; auto; reflexivity|]. cbn [app]. apply name_scan; auto. inversion Hb as [|? ? H1 H2]; subst. revert H1. clear.
    intros H. assert (E : negb (isFieldNameChar c) = true); [|destruct (isFieldNameChar c); auto]. revert c H. apply (in_text_all (fun c => negb (isFieldNameChar c))). vm_compute. reflexivity. }
  rewrite HS, first_app, skip_app. rewrite blank_scan by (auto; reflexivity). rewrite skip_app. destruct Hn as [Hn _]. destruct tag as [|c0 t0] eqn:E; [congruence|].
  change (ceq ":" ":") with true. cbn [negb]. cbn iota. rewrite (v1_body_loop u fvs) by auto. cbn [ebind]. rewrite app_nil_r. reflexivity.
Qed.

(** ** All lines *)
Hypothesis Hue : unescape e [] = [].

(** The rules of the tree after the rules [rs] were added to rules [H]. *)
Definition after (H : list vitem -> option json -> Prop) (rs : list vrule) (x : list vitem) (tg : option json) : Prop :=
  effective rs (x, tg) \/ (~ In x (map fst rs) /\ H x tg).

Lemma effective_nil r : ~ effective [] r.
Proof. intros (a & b & E & _). destruct a; discriminate. Qed.
Lemma effective_cons r0 rs r : effective (r0 :: rs) r <-> (r = r0 /\ ~ In (fst r) (map fst rs)) \/ effective rs r.
Proof.
  split.
  - intros ([|b0 a] & b & E & N); cbn [app] in E; injection E as -> E.
    + left. subst. auto.
    + right. exists a, b. auto.
  - intros [(-> & N)|(a & b & -> & N)].
    + exists [], rs. auto.
    + exists (r0 :: a), b. auto.
Qed.

Lemma in_eff rs x : In x (map fst rs) -> exists tg, effective rs (x, tg).
Proof.
  induction rs as [|[y tg] rs IH]; [intros []|]. cbn [map fst]. intros H.
  destruct (in_dec (list_eq_dec (fun a b : vitem => ltac:(repeat decide equality))) x (map fst rs)) as [HI|HI].
  - destruct (IH HI) as (t & E). exists t. apply effective_cons. auto.
  - destruct H as [->|H]; [|tauto]. exists tg. apply effective_cons. auto.
Qed.

Lemma usable_after t t' its tags : usable e t -> good e t' -> added (has_rule t) (has_rule t') its tags -> usable e t'.
Proof. intros _ G A. split; auto. right. exists its, tags. apply A. auto. Qed.

Lemma v1_process_ok : forall p ls rs al, v1_reads e afuel p ls rs al -> forall lc, c_prefix (l_ctx lc) = p -> usable e (l_tree lc) ->
  exists lc', v1_process lc ls = EOk lc' /\ usable e (l_tree lc') /\
    (forall x tg, has_rule (l_tree lc') x tg <-> after (has_rule (l_tree lc)) rs x tg) /\
    (forall al0, has_annots (l_ctx lc) al0 -> has_annots (l_ctx lc') (al0 ++ al)) /\
    c_opts (l_ctx lc') = c_opts (l_ctx lc) /\ c_version (l_ctx lc') = c_version (l_ctx lc).
Proof.
  induction 1 as [p|p tags r its n ls rs al HT Hr HX H IH|p t n ls rs al H IH|p t n ls rs al H IH|p tag b u fvs n ls rs al H1 H2 H3 H4 H IH|p l n ls rs al HI H IH];
    intros lc HP HU; cbn [v1_process].
  - exists lc. split; auto. split; auto. split; [|split; [intros; rewrite app_nil_r; auto|auto]].
    intros x tg. unfold after. cbn. split; [auto|]. intros [X|(_ & X)]; auto. exfalso. exact (effective_nil _ X).
  - rewrite v1_line_rule by auto. rewrite HP. unfold vaddSamp.
    destruct (vadd_ok e Hue _ _ HX (S (List.length (in_force p ++ r))) (tag_list tags) (l_tree lc)) as (t' & E & G & A); auto.
    { destruct (in_force p); [exact Hr|discriminate]. }
    rewrite E. cbn [ebind].
    destruct (IH {| l_ctx := l_ctx lc; l_tree := t' |}) as (lc' & E' & U' & R' & REST); [auto|eapply usable_after; eauto|].
    exists lc'. split; auto. split; auto. split; [|exact REST]. cbn [l_tree] in R'.
    intros x tg. rewrite R'. unfold after. rewrite effective_cons. cbn [map fst In]. split.
    + intros [X|(N & X)]; auto. apply A in X. destruct X as [(-> & ->)|(NE & X)].
      * left. left. auto.
      * right. split; auto. intros [|]; auto.
    + intros [[(X & N)|X]|(N & X)]; auto.
      * injection X as -> ->. right. split; auto. apply A. auto.
      * right. split; auto. apply A. right. split; auto.
  - rewrite v1_line_prefix. cbn [ebind]. destruct (IH {| l_ctx := set_prefix (l_ctx lc) (Some t); l_tree := l_tree lc |}) as (lc' & REST); auto. exists lc'. exact REST.
  - rewrite (v1_line_extend lc p) by auto. cbn [ebind]. destruct (IH {| l_ctx := set_prefix (l_ctx lc) (Some (p ++ t)); l_tree := l_tree lc |}) as (lc' & REST); auto. exists lc'. exact REST.
  - rewrite (v1_line_annot lc tag b u fvs) by auto. cbn [ebind].
    destruct (IH {| l_ctx := set_annots (l_ctx lc) (addAnnotToSet (c_annots (l_ctx lc)) (as_annot (tag, fvs))); l_tree := l_tree lc |}) as (lc' & E' & U' & R' & A' & REST); auto.
    exists lc'. split; auto. split; auto. split; auto. split; [|exact REST]. intros al0 HA. change ((tag, fvs) :: al) with ([(tag, fvs)] ++ al). rewrite app_assoc. apply A'. cbn [l_ctx]. apply has_add. exact HA.
  - rewrite v1_line_idle by auto. cbn [ebind]. apply IH; auto.
Qed.

(** Loading a file. *)
Lemma v1_load q lc f t n ls rs al : files e f = Some t -> t <> [] -> is_v1 t = true ->
  c_version (l_ctx lc) = 0%N \/ c_version (l_ctx lc) = 1%N ->
  rulebase true t n ls -> short_lines ls -> v1_reads e afuel (c_prefix (l_ctx lc)) ls rs al ->
  exists lc', l_loadFile e q afuel lc f = EOk (lc', true) /\ usable e (l_tree lc') /\
    (forall x tg, has_rule (l_tree lc') x tg <-> effective rs (x, tg)) /\
    (forall al0, has_annots (l_ctx lc) al0 -> has_annots (l_ctx lc') (al0 ++ al)) /\
    c_opts (l_ctx lc') = c_opts (l_ctx lc) /\ c_version (l_ctx lc') = 1%N.
Proof.
  intros HF Ht HV HC HR HS HL. unfold l_loadFile. rewrite HF. destruct t as [|c t]; [congruence|]. rewrite HV.
  replace (N.eqb (c_version (l_ctx lc)) 0 || N.eqb (c_version (l_ctx lc)) 1)%bool with true by (destruct HC as [-> | ->]; reflexivity).
  cbn [andb]. erewrite v1_lines_process by (eauto; lia).
  destruct (v1_process_ok _ _ _ _ HL {| l_ctx := set_version (l_ctx lc) 1; l_tree := vnew |}) as (lc' & E & U & R & A & O & V); auto.
  { split; [apply good_new|auto]. }
  rewrite E. cbn [ebind]. exists lc'. split; auto. split; auto. split; [|auto].
  intros x tg. rewrite R. unfold after. cbn [l_tree]. split; [|auto]. intros [X|(_ & X)]; auto. exfalso. exact (new_no_rule _ _ X).
Qed.
End Load.
