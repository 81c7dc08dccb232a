(** * LoadText: from rulebase texts to rules. *)
From Verif Require Import Base Parsers Engine Pdag Samp GraphSpec RuleSpec BuiltSpec LineSpec SimSpec LoadSpec BaseFacts EngineFacts2 HeapFacts FrameFacts SimFacts LineFacts.
From Coq Require Import ZifyBool ZifyNat ZifyN.

(** ** The type of a line *)
Lemma scan_all_but c ty u : ~ In c ty -> scan (fun x => negb (ceq x c)) (ty ++ c :: u) = List.length ty.
Proof.
  induction ty as [|x ty IH]; intros H; cbn [app scan].
  - rewrite ceq_refl. reflexivity.
  - cbn [In] in H. rewrite (proj2 (ceq_false x c)) by tauto. cbn [negb]. cbn [List.length]. rewrite IH by tauto. reflexivity.
Qed.
Lemma getLineType_eq ty u : ty <> [] -> ~ In "="%char ty -> getLineType (ty ++ "="%char :: u) = Some (ty, u).
Proof.
  intros H1 H2. unfold getLineType. rewrite scan_all_but by auto. rewrite firstn_app, Nat.sub_diag, firstn_all. cbn [firstn]. rewrite app_nil_r.
  replace (S (List.length ty)) with (List.length ty + 1) by lia. rewrite <- skipn_skipn || idtac.
  assert (E : skipn (List.length ty + 1) (ty ++ "="%char :: u) = u). { rewrite skipn_app. replace (List.length ty + 1 - List.length ty) with 1 by lia. rewrite skipn_all2 by lia. reflexivity. }
  rewrite E. destruct ty; [tauto|reflexivity].
Qed.

(** ** Tags *)
Definition addb (b : option (list json)) (s : text) : option (list json) := Some ((match b with Some l => l | None => [] end) ++ [JStr (drop_nul s)]).
Lemma drop_nul_id t : ~ In NUL t -> drop_nul t = t.
Proof. induction t as [|c t IH]; intros H; auto. cbn [In] in H. cbn [drop_nul filter]. rewrite (proj2 (ceq_false c NUL)) by (intros ->; tauto). cbn [negb]. f_equal. apply IH. tauto. Qed.
Lemma processTags_one : forall t u cur b, ~ In ","%char t -> ~ In ":"%char t -> t <> [] ->
  processTags (t ++ u) cur b = processTags u (Some (in_force cur ++ t)) b.
Proof.
  induction t as [|c t IH]; intros u cur b H1 H2 H3; [tauto|]. cbn [In] in *. cbn [app processTags].
  rewrite (proj2 (ceq_false c ":")) by (intros ->; tauto). rewrite (proj2 (ceq_false c ",")) by (intros ->; tauto).
  destruct t as [|c2 t].
  - cbn [app]. reflexivity.
  - rewrite IH by (cbn in *; tauto || discriminate). cbn [in_force]. rewrite <- app_assoc. reflexivity.
Qed.
Lemma processTags_ok r : forall tags b, Forall good_tag tags ->
  processTags (comma tags ++ ":"%char :: r) None b = EOk (Some (match tags with [] => b | _ => Some ((match b with Some l => l | None => [] end) ++ map JStr tags) end, r)).
Proof.
  induction tags as [|t tags IH]; intros b H; [reflexivity|]. inversion H as [|? ? (T1 & T2 & T3 & T4) H']; subst.
  destruct tags as [|t2 tags].
  - cbn [comma]. rewrite processTags_one by auto. cbn [processTags in_force app]. change (ceq ":" ":") with true. cbn iota. rewrite drop_nul_id by auto. reflexivity.
  - change (comma (t :: t2 :: tags)) with (t ++ ","%char :: comma (t2 :: tags)). rewrite <- app_assoc. rewrite processTags_one by auto. cbn [app]. cbn [processTags]. change (ceq "," ":") with false. change (ceq "," ",") with true. cbn iota. cbn [in_force app].
    rewrite drop_nul_id by auto. rewrite IH by auto. cbn [map]. rewrite <- app_assoc. reflexivity.
Qed.

Section Lines.
Variable e : env.
Variable load : ctx -> text -> er (ctx * bool).
Variable afuel : nat.
Notation proc := (processSamp e load afuel).

Lemma proc_rule cx tags r : Forall good_tag tags -> r <> [] ->
  proc cx (rule_line tags r) = do* cx := addSampToTree e cx (in_force (c_prefix cx) ++ r) (c_root cx) (tag_list tags) in EOk (cx, true).
Proof.
  intros HT Hr. unfold processSamp, rule_line. change (L "rule=" ++ comma tags ++ ":"%char :: r) with (L "rule" ++ "="%char :: (comma tags ++ ":"%char :: r)).
  rewrite getLineType_eq; [|discriminate|cbn; intros H; repeat destruct H as [H|H]; try discriminate; tauto].
  change (text_eqb (L "rule") (L "prefix")) with false. change (text_eqb (L "rule") (L "extendprefix")) with false. change (text_eqb (L "rule") (L "rule")) with true. cbn iota.
  unfold processRule. rewrite processTags_ok by auto. cbn [ebind]. destruct r as [|c r]; [tauto|]. cbn [app]. destruct tags; reflexivity.
Qed.
Lemma proc_prefix cx t : proc cx (L "prefix=" ++ t) = EOk (set_prefix cx (Some t), true).
Proof.
  unfold processSamp. change (L "prefix=" ++ t) with (L "prefix" ++ "="%char :: t). rewrite getLineType_eq; [|discriminate|cbn; intros H; repeat destruct H as [H|H]; try discriminate; tauto]. reflexivity.
Qed.
Lemma proc_extend cx p t : c_prefix cx = Some p -> proc cx (L "extendprefix=" ++ t) = EOk (set_prefix cx (Some (p ++ t)), true).
Proof.
  intros H. unfold processSamp. change (L "extendprefix=" ++ t) with (L "extendprefix" ++ "="%char :: t). rewrite getLineType_eq; [|discriminate|cbn; intros H1; repeat destruct H1 as [H1|H1]; try discriminate; tauto].
  change (text_eqb (L "extendprefix") (L "prefix")) with false. change (text_eqb (L "extendprefix") (L "extendprefix")) with true. cbn iota. rewrite H. reflexivity.
Qed.
Lemma proc_annot cx u : proc cx (L "annotate=" ++ u) = do* cx := processAnnotate afuel cx u in EOk (cx, true).
Proof.
  unfold processSamp. change (L "annotate=" ++ u) with (L "annotate" ++ "="%char :: u). rewrite getLineType_eq; [|discriminate|cbn; intros H1; repeat destruct H1 as [H1|H1]; try discriminate; tauto]. reflexivity.
Qed.
Lemma proc_type cx u : proc cx (L "type=" ++ u) = do* cx := processType e cx u in EOk (cx, true).
Proof.
  unfold processSamp. change (L "type=" ++ u) with (L "type" ++ "="%char :: u). rewrite getLineType_eq; [|discriminate|cbn; intros H1; repeat destruct H1 as [H1|H1]; try discriminate; tauto]. reflexivity.
Qed.
Lemma proc_unknown cx ty u : ~ In "="%char ty -> ~ In ty (map L ["prefix"; "extendprefix"; "rule"; "type"; "annotate"; "include"]%string) -> proc cx (ty ++ "="%char :: u) = EOk (cx, true).
Proof.
  intros H1 H2. unfold processSamp. destruct ty as [|c0 ty]; [unfold getLineType; cbn [app scan]; change (ceq "=" "=") with true; cbn [negb firstn]; reflexivity|].
  rewrite getLineType_eq by (auto; discriminate).
  assert (HN : forall s, In s ["prefix"; "extendprefix"; "rule"; "type"; "annotate"; "include"]%string -> text_eqb (c0 :: ty) (L s) = false).
  { intros s Hs. destruct (text_eqb (c0 :: ty) (L s)) eqn:E; auto. apply text_eqb_true in E. destruct H2. rewrite E. apply in_map. exact Hs. }
  rewrite !HN by (cbn; tauto). reflexivity.
Qed.
Lemma annotate_annots fuel cx u : opost (fun c => c = set_annots cx (c_annots c)) (processAnnotate fuel cx u).
Proof.
  assert (HR : cx = set_annots cx (c_annots cx)) by (destruct cx; reflexivity).
  unfold processAnnotate. destruct (skipn _ _); [exact HR|]. destruct (firstn _ _); [exact HR|]. destruct (negb _); [exact HR|]. apply opost_any. intros [ops|]; [reflexivity|exact HR].
Qed.
Lemma proc_idle cx l : idle l -> opost (fun x => snd x = true /\ fst x = set_annots cx (c_annots (fst x))) (proc cx l).
Proof.
  assert (HR : cx = set_annots cx (c_annots cx)) by (destruct cx; reflexivity).
  intros [(u & ->)|[(ty & u & -> & H1 & H2)|(u & ->)]].
  - rewrite proc_annot. eapply opost_bind; [apply annotate_annots|]. intros c Hc. cbn. auto.
  - rewrite proc_unknown by auto. cbn. auto.
  - unfold processSamp, getLineType. cbn [scan]. change (ceq "=" "=") with true. cbn [negb firstn]. cbn. auto.
Qed.

(** ** From lines to rules *)
Lemma process_built (good : json -> Prop) (HG : forall c, good c -> complete e [] c) file : forall p ls k rs, reads_rules e good file p ls k rs -> forall cx k0 rs0, built e k0 rs0 cx -> c_types cx = [] -> c_file cx = file -> c_prefix cx = p ->
  opost (fun x => snd x = true -> exists cx1, built e (k0 + k) (rs0 ++ rs) cx1 /\ fst x = cx1 /\ c_types (fst x) = []) (process e load afuel cx ls).
Proof.
  assert (HO : forall k rs cx cx', built e k rs cx -> c_nodes cx' = c_nodes cx -> c_root cx' = c_root cx -> c_types cx' = c_types cx -> built e k rs cx') by (intros; eapply built_other; eauto).
  induction 1 as [p|p tags r cs n ls k rs HT Hr HC HF H IH|p tags r cs n ls k rs HT Hr HC HF H IH|p t n ls k rs H IH|p t n ls k rs H IH|p l n ls k rs HI H IH];
    intros cx k0 rs0 HB HTy HFi HP; cbn [process].
  - cbn. intros _. exists cx. rewrite Nat.add_0_r, app_nil_r. auto.
  - set (cx1 := set_pos cx (c_file cx) n). rewrite proc_rule by auto. change (c_prefix cx1) with (c_prefix cx). rewrite HP.
    pose proof (addSamp_nodes e cx1 (in_force p ++ r) (c_root cx1) (tag_list tags)) as HN.
    destruct (addSampToTree e cx1 _ _ _) as [cx2|] eqn:EA; [|exact I]. cbn [ebind opost] in *.
    assert (HB2 : built e (S k0) (rs0 ++ [(None, cs, (tag_list tags, Some file, n))]) cx2).
    { subst file. eapply (built_rule e k0 rs0 cx1 (in_force p ++ r) cs None); [eapply HO; eauto|reflexivity|exact HC| |exact EA]. change (c_types cx1) with (c_types cx). rewrite HTy. eapply Forall_impl; [exact HG|exact HF]. }
    replace (k0 + S k) with (S k0 + k) by lia. change (_ :: rs) with ([(None : place, cs, (tag_list tags, Some file, n))] ++ rs). rewrite app_assoc.
    eapply IH; eauto; rewrite HN; auto.
  - set (cx1 := set_pos cx (c_file cx) n). rewrite proc_rule by auto. change (c_prefix cx1) with (c_prefix cx). rewrite HP.
    pose proof (addSamp_nodes e cx1 (in_force p ++ r) (c_root cx1) (tag_list tags)) as HN.
    destruct (addSampToTree e cx1 _ _ _) as [cx2|] eqn:EA; [|exact I]. cbn [ebind opost] in *.
    assert (HB2 : built e (S k0) rs0 cx2).
    { eapply (built_error e k0 rs0 cx1 (in_force p ++ r) cs None); [eapply HO; eauto|reflexivity| | |exact EA]; change (c_types cx1) with (c_types cx); rewrite HTy; auto. eapply Forall_impl; [exact HG|exact HF]. }
    replace (k0 + S k) with (S k0 + k) by lia. eapply IH; eauto; rewrite HN; auto.
  - rewrite proc_prefix. cbn [ebind]. eapply IH; eauto; reflexivity.
  - rewrite (proc_extend _ p) by exact HP. cbn [ebind]. eapply IH; eauto; reflexivity.
  - pose proof (proc_idle (set_pos cx (c_file cx) n) l HI) as HN. destruct (proc _ l) as [[cx2 ok]|]; [|exact I]. cbn [opost fst snd ebind] in *. destruct HN as [-> HN].
    eapply IH; try (rewrite HN; auto; fail). eapply HO; [exact HB| | |]; rewrite HN; reflexivity.
Qed.
End Lines.
