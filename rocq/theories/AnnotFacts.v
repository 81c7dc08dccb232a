(** * AnnotFacts: annotations, from the line to the event. *)
From Verif Require Import Base Parsers Engine Pdag Samp LineSpec SimSpec LoadSpec AnnotSpec BaseFacts EngineFacts2 HeapFacts EngineHist SimFacts LineFacts LoadText.
From Coq Require Import ZifyBool ZifyNat ZifyN.

Lemma in_text_all (P : ascii -> bool) t : forallb P t = true -> forall c, In c t -> P c = true.
Proof. intros H c Hc. rewrite forallb_forall in H. auto. Qed.
Lemma name_char_true c : name_char c -> isFieldNameChar c = true.
Proof. apply in_text_all. vm_compute. reflexivity. Qed.
Lemma blank_true c : In c (L " " ++ map chr [9; 10; 11; 12; 13]%N) -> isspace c = true.
Proof. apply in_text_all. vm_compute. reflexivity. Qed.
Lemma name_scan f c u : name f -> isFieldNameChar c = false -> scan isFieldNameChar (f ++ c :: u) = List.length f.
Proof. intros [_ H] Hc. apply scan_app_stop; auto. eapply Forall_impl; [|exact H]. intros x. apply name_char_true. Qed.
Lemma blank_scan b c u : blanks b -> isspace c = false -> scan isspace (b ++ c :: u) = List.length b.
Proof. intros H Hc. apply scan_app_stop; auto. eapply Forall_impl; [|exact H]. intros x. apply blank_true. Qed.
Lemma skip_app {A} (a b : list A) : skipn (List.length a) (a ++ b) = b.
Proof. rewrite skipn_app, Nat.sub_diag, skipn_all. reflexivity. Qed.
Lemma first_app {A} (a b : list A) : firstn (List.length a) (a ++ b) = a.
Proof. rewrite firstn_app, Nat.sub_diag, firstn_all. cbn [firstn]. apply app_nil_r. Qed.

Lemma annotop_add b f b' v u : blanks b -> name f -> blanks b' -> annot_value v ->
  getAnnotationOp (b ++ "+"%char :: f ++ "="%char :: b' ++ """"%char :: v ++ """"%char :: u) = AOps (Some (AopAdd (Some f) (Some v))) u.
Proof.
  intros Hb Hf Hb' (Hv & Hq & Hn). unfold getAnnotationOp. rewrite blank_scan by (auto; reflexivity). rewrite skip_app.
  change (ceq "+" "#") with false. change (ceq "+" "+") with true. cbn [negb]. cbn iota.
  destruct Hf as [Hf0 Hf]. destruct f as [|c f]; [congruence|]. rewrite (app_comm_cons f _ c) || cbn [app]. 
  change (c :: f ++ "="%char :: b' ++ """"%char :: v ++ """"%char :: u) with ((c :: f) ++ "="%char :: b' ++ """"%char :: v ++ """"%char :: u).
  cbn [app]. change (c :: f ++ "="%char :: b' ++ """"%char :: v ++ """"%char :: u) with ((c :: f) ++ "="%char :: b' ++ """"%char :: v ++ """"%char :: u).
  rewrite name_scan by (try split; auto; try discriminate; reflexivity). rewrite skip_app, first_app. change (ceq "=" "=") with true. cbn [negb]. cbn iota.
  rewrite blank_scan by (auto; reflexivity). rewrite skip_app. change (ceq """" """") with true. cbn [negb]. cbn iota.
  rewrite scan_all_but by auto. rewrite first_app. change (S (List.length v)) with (1 + List.length v). rewrite <- (Nat.add_comm (List.length v) 1).
  rewrite skipn_app, skipn_all2 by lia. replace (List.length v + 1 - List.length v) with 1 by lia. cbn [app skipn].
  destruct v; [congruence|]. reflexivity.
Qed.
Lemma annotop_comment b x : blanks b -> getAnnotationOp (b ++ "#"%char :: x) = AOps None [].
Proof. intros Hb. unfold getAnnotationOp. rewrite blank_scan by (auto; reflexivity). rewrite skip_app. reflexivity. Qed.
Definition op_of (fv : text * text) : aop := AopAdd (Some (fst fv)) (Some (snd fv)).
Lemma body_loop u fvs : annot_body u fvs -> forall fuel ops, List.length fvs + 2 <= fuel ->
  annot_loop fuel u ops = EOk (Some (rev (map op_of fvs) ++ ops)).
Proof.
  induction 1 as [|b x Hb|b f b' v u fvs Hb Hf Hb' Hv H IH]; intros fuel ops HF.
  - destruct fuel; [cbn in HF; lia|]. reflexivity.
  - destruct fuel as [|[|fuel]]; [cbn in HF; lia|cbn in HF; lia|]. cbn [annot_loop]. rewrite annotop_comment by auto. destruct b; reflexivity.
  - cbn [List.length] in HF. destruct fuel as [|fuel]; [lia|]. cbn [annot_loop]. rewrite annotop_add by auto. unfold addAnnotOp.
    set (w := b ++ _). assert (Hw : w <> []) by (unfold w; destruct b; discriminate). destruct w; [congruence|]. rewrite IH by lia. cbn [map rev op_of fst snd]. rewrite <- app_assoc. reflexivity.
Qed.
Definition as_annot (a : annotation) : annot := (fst a, rev (map op_of (snd a))).
Lemma annotate_line fuel cx a b u : name (fst a) -> blanks b -> annot_body u (snd a) -> List.length (snd a) + 2 <= fuel ->
  processAnnotate fuel cx (fst a ++ b ++ ":"%char :: u) = EOk (set_annots cx (addAnnotToSet (c_annots cx) (as_annot a))).
Proof.
  intros Hn Hb Hu HF. unfold processAnnotate.
  assert (HS : scan isFieldNameChar (fst a ++ b ++ ":"%char :: u) = List.length (fst a)).
  { destruct b as [|c b]; [apply name_scan; auto; reflexivity|]. cbn [app]. apply name_scan; auto. inversion Hb as [|? ? H1 H2]; subst. revert H1. clear.
    intros H. assert (E : negb (isFieldNameChar c) = true); [|destruct (isFieldNameChar c); auto]. revert c H. apply (in_text_all (fun c => negb (isFieldNameChar c))). vm_compute. reflexivity. }
  rewrite HS, first_app, skip_app. rewrite blank_scan by (auto; reflexivity). rewrite skip_app. destruct Hn as [Hn _]. destruct (fst a) as [|c0 t0] eqn:E; [congruence|].
  change (ceq ":" ":") with true. cbn [negb]. cbn iota. rewrite (body_loop u (snd a)) by auto. cbn [ebind]. rewrite app_nil_r. unfold as_annot. rewrite E. reflexivity.
Qed.

(** ** The set of annotations *)
Definition ops_of (as_ : list annot) (tag : text) : list aop := match findAnnot as_ tag with Some ops => ops | None => [] end.
Lemma combine_other as_ tag add t : t <> tag -> findAnnot (combine_in as_ tag add) t = findAnnot as_ t.
Proof.
  intros H. induction as_ as [|[t0 o] as_ IH]; [reflexivity|]. cbn [combine_in findAnnot]. destruct (text_eqb t0 tag) eqn:E; cbn [findAnnot].
  - apply text_eqb_true in E. subst t0. replace (text_eqb tag t) with false; [reflexivity|]. symmetry. apply text_eqb_false. auto.
  - destruct (text_eqb t0 t); auto.
Qed.
Lemma combine_same as_ tag add ops : findAnnot as_ tag = Some ops -> findAnnot (combine_in as_ tag add) tag = Some (combineAnnot ops add).
Proof.
  induction as_ as [|[t0 o] as_ IH]; [discriminate|]. cbn [combine_in findAnnot]. destruct (text_eqb t0 tag) eqn:E; cbn [findAnnot]; rewrite E; [intros [= ->]; reflexivity|auto].
Qed.
Lemma combine_in_list add : forall ops op, In op (combineAnnot ops add) <-> In op ops \/ In op add.
Proof. unfold combineAnnot, addAnnotOp. induction add as [|x add IH]; intros ops op; cbn [fold_left In]; [tauto|]. rewrite IH. cbn [In]. tauto. Qed.
Lemma find_in as_ : NoDup (map fst as_) -> forall tag ops, In (tag, ops) as_ -> findAnnot as_ tag = Some ops.
Proof.
  induction as_ as [|[t o] as_ IH]; intros H tag ops Hin; [destruct Hin|]. cbn [map fst] in H. apply NoDup_cons_iff in H as [H1 H2]. cbn [findAnnot]. destruct Hin as [[= -> ->]|Hin]; [rewrite text_eqb_refl; reflexivity|].
  destruct (text_eqb t tag) eqn:E; [|auto]. apply text_eqb_true in E. subst t. destruct H1. apply in_map_iff. exists (tag, ops). auto.
Qed.
Lemma find_none as_ tag : findAnnot as_ tag = None -> ~ In tag (map fst as_).
Proof.
  induction as_ as [|[t o] as_ IH]; [auto|]. cbn [findAnnot map fst]. destruct (text_eqb t tag) eqn:E; [discriminate|]. apply text_eqb_false in E. intros H [H1|H1]; [auto|]. apply IH; auto.
Qed.
Lemma combine_fst as_ tag add : map fst (combine_in as_ tag add) = map fst as_.
Proof. induction as_ as [|[t o] as_ IH]; [reflexivity|]. cbn [combine_in]. destruct (text_eqb t tag); cbn [map fst]; congruence. Qed.
Lemma has_add cx al a : has_annots cx al -> has_annots (set_annots cx (addAnnotToSet (c_annots cx) (as_annot a))) (al ++ [a]).
Proof.
  intros [HND H]. split.
  { cbn [c_annots set_annots]. unfold addAnnotToSet, as_annot. cbn [fst snd]. destruct (findAnnot (c_annots cx) (fst a)) eqn:E; [rewrite combine_fst; exact HND|]. cbn [map fst]. constructor; [apply find_none; exact E|exact HND]. }
  intros tag. specialize (H tag). destruct a as [t fvs]. cbn [c_annots set_annots]. unfold addAnnotToSet, as_annot. cbn [fst snd].
  assert (HO : forall op, In op (rev (map op_of fvs)) <-> exists f v, In (f, v) fvs /\ op = AopAdd (Some f) (Some v)).
  { intros op. rewrite <- in_rev, in_map_iff. split; [intros ([f v] & <- & Hx); eauto|intros (f & v & Hx & ->); exists (f, v); auto]. }
  assert (HI : forall fvs0, In (tag, fvs0) (al ++ [(t, fvs)]) <-> In (tag, fvs0) al \/ (tag = t /\ fvs0 = fvs)).
  { intros fvs0. rewrite in_app_iff. cbn [In]. split; [intros [|[E|[]]]; auto; injection E; auto|intros [|[-> ->]]; auto]. }
  destruct (text_eqb t tag) eqn:E.
  - apply text_eqb_true in E. subst t. destruct (findAnnot (c_annots cx) tag) as [ops|] eqn:EF.
    + rewrite (combine_same _ _ _ _ EF). intros op. rewrite combine_in_list, H, HO. split.
      * intros [(f0 & f & v & A & B & C)|(f & v & A & B)]; [exists f0, f, v; rewrite HI; auto|exists fvs, f, v; rewrite HI; auto].
      * intros (f0 & f & v & A & B & C). rewrite HI in A. destruct A as [A|[_ ->]]; [left; exists f0, f, v; auto|right; exists f, v; auto].
    + cbn [findAnnot]. rewrite text_eqb_refl. intros op. rewrite HO. split.
      * intros (f & v & A & B). exists fvs, f, v. rewrite HI. auto.
      * intros (f0 & f & v & A & B & C). rewrite HI in A. destruct A as [A|[_ ->]]; [destruct (H _ A)|exists f, v; auto].
  - assert (Hne : t <> tag) by (apply text_eqb_false; exact E).
    assert (EF : findAnnot (match findAnnot (c_annots cx) t with Some _ => combine_in (c_annots cx) t (rev (map op_of fvs)) | None => (t, rev (map op_of fvs)) :: c_annots cx end) tag = findAnnot (c_annots cx) tag).
    { destruct (findAnnot (c_annots cx) t); [apply combine_other; auto|]. cbn [findAnnot]. rewrite E. reflexivity. }
    match goal with |- match ?x with Some _ => _ | None => _ end => assert (EF' : x = findAnnot (c_annots cx) tag) by exact EF; rewrite EF'; clear EF' end.
    destruct (findAnnot (c_annots cx) tag) as [ops|].
    + intros op. rewrite H. split; intros (f0 & f & v & A & B & C); exists f0, f, v; [rewrite HI; auto|rewrite HI in A; destruct A as [A|[A _]]; [auto|congruence]].
    + intros fvs0 A. rewrite HI in A. destruct A as [A|[A _]]; [apply (H _ A)|congruence].
Qed.
Lemma has_none cx : c_annots cx = [] -> has_annots cx [].
Proof. intros E. split; [rewrite E; constructor|]. intros tag. rewrite E. cbn. auto. Qed.
Lemma has_annots_eq cx cx' al : c_annots cx' = c_annots cx -> has_annots cx al -> has_annots cx' al.
Proof. intros E [H1 H2]. split; [rewrite E; exact H1|]. intros tag. rewrite E. apply H2. Qed.

(** ** The event *)
Lemma cstr_id t : ~ In NUL t -> cstr t = t.
Proof. induction t as [|c t IH]; intros H; auto. cbn [In] in H. cbn [cstr]. rewrite (proj2 (ceq_false c NUL)) by (intros ->; tauto). f_equal. apply IH. tauto. Qed.
Definition clean_op (op : aop) : Prop := exists f v, op = AopAdd (Some f) (Some v) /\ ~ In NUL f /\ ~ In NUL v.
(** the fields of [o'] are those of [o] and those of the operations *)
Definition adds (S : text -> text -> Prop) (o o' : fields) : Prop :=
  forall f, (exists v, S f v /\ obj_get o' f = Some (JStr v)) \/ ((forall v, ~ S f v) /\ obj_get o' f = obj_get o f).
Lemma ops_adds ops : Forall clean_op ops -> forall o, exists o', annot_ops ops o = EOk o' /\ adds (fun f v => In (AopAdd (Some f) (Some v)) ops) o o'.
Proof.
  induction 1 as [|op ops (f & v & -> & Hf & Hv) H IH]; intros o.
  - exists o. split; [reflexivity|]. intros f. right. split; auto.
  - cbn [annot_ops annot_op]. rewrite !cstr_id by auto. cbn [ebind]. destruct (IH (obj_add o f (JStr v))) as (o' & E & A). exists o'. split; auto.
    intros g. destruct (A g) as [(w & W & G)|[W G]]; [left; exists w; split; auto; right; auto|].
    destruct (text_eqb f g) eqn:E1; [apply text_eqb_true in E1; subst g; left; exists v; split; [left; reflexivity|]; rewrite G; apply obj_get_add_same|].
    assert (Hne : f <> g) by (apply text_eqb_false; auto). right. split; [intros w [E2|E2]; [congruence|apply (W _ E2)]|]. rewrite G. apply obj_get_add_other. auto.
Qed.
Lemma adds_trans (P Q R : text -> text -> Prop) o o1 o2 : adds P o o1 -> adds Q o1 o2 -> (forall f v, R f v <-> P f v \/ Q f v) -> adds R o o2.
Proof.
  intros HP HQ HR f. destruct (HQ f) as [(v & A & B)|[A B]]; [left; exists v; rewrite HR; auto|].
  destruct (HP f) as [(v & C & D)|[C D]]; [left; exists v; rewrite HR, B; auto|]. right. split; [|congruence]. intros v Hv. rewrite HR in Hv. destruct Hv as [Hv|Hv]; [apply (C _ Hv)|apply (A _ Hv)].
Qed.
Lemma adds_ext (P Q : text -> text -> Prop) o o' : (forall f v, P f v <-> Q f v) -> adds P o o' -> adds Q o o'.
Proof.
  intros HE HP f. destruct (HP f) as [(v & A & B)|[A B]]; [left; exists v; rewrite <- HE; auto|right; split; auto]. intros v Hv. rewrite <- HE in Hv. apply (A _ Hv).
Qed.
Lemma tag_adds cx al tag o : has_annots cx al -> clean_annots al ->
  exists o', annotateEventWithTag (c_annots cx) o tag = EOk o' /\ adds (annotated al [tag]) o o'.
Proof.
  intros [HND H] HC. unfold annotateEventWithTag. specialize (H tag). destruct (findAnnot (c_annots cx) tag) as [ops|].
  - destruct (ops_adds ops) with (o := o) as (o' & E & A).
    { apply Forall_forall. intros op Hop. apply H in Hop as (fvs & f & v & A & B & ->). exists f, v. split; auto. eapply HC; eauto. }
    exists o'. split; auto. eapply adds_ext; [|exact A]. intros f v. cbn beta. rewrite H. unfold annotated. split.
    + intros (fvs & f1 & v1 & X & Y & [= -> ->]). exists tag, fvs. cbn. auto.
    + intros (t & fvs & [<-|[]] & X & Y). exists fvs, f, v. auto.
  - exists o. split; auto. intros f. right. split; auto. intros v (t & fvs & [<-|[]] & X & Y). apply (H _ X).
Qed.
Lemma tags_adds cx al : has_annots cx al -> clean_annots al -> forall ts o,
  exists o', annotate_tags (c_annots cx) ts o = EOk o' /\ adds (annotated al ts) o o'.
Proof.
  intros H HC. induction ts as [|t ts IH]; intros o.
  - exists o. split; auto. intros f. right. split; auto. intros v (t & fvs & [] & _).
  - cbn [annotate_tags]. destruct (tag_adds cx al t o H HC) as (o1 & E1 & A1). rewrite E1. cbn [ebind]. destruct (IH o1) as (o2 & E2 & A2). exists o2. split; auto.
    eapply adds_trans; [exact A1|exact A2|]. intros f v. unfold annotated. cbn [In]. split.
    + intros (t0 & fvs & [<-|X] & Y); [left|right]; exists t0 || exists t; exists fvs; auto. 
    + intros [(t0 & fvs & [<-|[]] & Y)|(t0 & fvs & X & Y)]; [exists t, fvs|exists t0, fvs]; auto.
Qed.
Lemma annotate_adds cx al tags o : has_annots cx al -> clean_annots al ->
  exists o', annotate (c_annots cx) tags o = EOk o' /\ adds (annotated al (tag_texts tags)) o o'.
Proof.
  intros H HC. unfold annotate. destruct (c_annots cx) as [|x l] eqn:E.
  - exists o. split; auto. intros f. right. split; auto. intros v (t & fvs & X & Y & Z). destruct H as [HND H]. specialize (H t). rewrite E in H. cbn in H. apply (H _ Y).
  - rewrite <- E. destruct (tags_adds cx al H HC (rev (tag_texts tags)) o) as (o' & E' & A). exists o'. split; auto. eapply adds_ext; [|exact A].
    intros f v. unfold annotated. split; intros (t & fvs & X & Y); exists t, fvs; split; auto; [apply in_rev; auto|apply in_rev in X; auto].
Qed.

(** ** Conditions met by annotations that were read *)
Lemma body_clean u fvs : annot_body u fvs -> forall f v, In (f, v) fvs -> ~ In NUL f /\ ~ In NUL v.
Proof.
  induction 1 as [|b x Hb|b f b' v u fvs Hb [Hf0 Hf] Hb' (Hv & Hq & Hn) H IH]; intros f0 v0 Hin; [destruct Hin|destruct Hin|].
  destruct Hin as [[= <- <-]|Hin]; [|auto]. split; auto. intros Hx. rewrite Forall_forall in Hf. specialize (Hf _ Hx). unfold name_char in Hf.
  apply (in_text_all (fun c => negb (ceq NUL c)) _) with (c := NUL) in Hf; [discriminate Hf|vm_compute; reflexivity].
Qed.
Lemma read_clean fuel ls al : annots_read fuel ls al -> clean_annots al.
Proof.
  induction 1 as [|l n ls al H1 H2 IH|l n a ls al (b & u & E & H1 & H2 & H3) HF H4 IH]; intros tag fvs f v Hin Hf; [destruct Hin|eapply IH; eauto|].
  destruct Hin as [->|Hin]; [|eapply IH; eauto]. cbn [snd] in H3. eapply body_clean; eauto.
Qed.
(** names of annotated fields *)
Lemma has_ops cx al tag ops op : has_annots cx al -> In (tag, ops) (c_annots cx) -> In op ops -> exists fvs f v, In (tag, fvs) al /\ In (f, v) fvs /\ op = AopAdd (Some f) (Some v).
Proof. intros [HN H] H1 H2. specialize (H tag). rewrite (find_in _ HN _ _ H1) in H. apply H. exact H2. Qed.
Lemma has_names cx al k : has_annots cx al -> clean_annots al -> (forall tag v, ~ annotated al [tag] k v) -> ~ In k (annot_names (c_annots cx)).
Proof.
  intros H HC HN Hin. apply in_flat_map in Hin as ([tag ops] & Ht & Hin). apply in_flat_map in Hin as (op & Hop & Hk). destruct (has_ops _ _ _ _ _ H Ht Hop) as (fvs & f & v & A & B & ->). destruct Hk as [Hk|[]].
  destruct (HC _ _ _ _ A B) as [HC1 _]. rewrite cstr_id in Hk by exact HC1. subst k. apply (HN tag v). exists tag, fvs. cbn. auto.
Qed.

(** ** Normalizing with and without annotations *)
Lemma same_graph_annots cx a : same_graph cx (set_annots cx a).
Proof. split; [|split; reflexivity]. cbn [c_nodes set_annots]. induction (c_nodes cx) as [|[n|] h IH]; constructor; auto; [|exact I]. cbn. repeat split. Qed.
Lemma meta_same cx n r o : (exists m, add_metadata cx n r o = EOk (obj_add o (L "metadata") m) /\ (opt_rule (c_opts cx) || opt_loc (c_opts cx))%bool = true /\ forall o', add_metadata cx n r o' = EOk (obj_add o' (L "metadata") m)) \/
  (opt_rule (c_opts cx) = false /\ opt_loc (c_opts cx) = false /\ forall o', add_metadata cx n r o' = EOk o') \/ exists u, forall o', add_metadata cx n r o' = EUb u.
Proof.
  unfold add_metadata. destruct (opt_rule (c_opts cx)).
  - destruct (filter _ r) as [|c l]; [right; right; eexists; intros; reflexivity|]. cbn [ebind]. destruct (opt_loc (c_opts cx)).
    + destruct (n_file n); [|right; right; eexists; intros; reflexivity]. cbn [ebind app orb]. left. eexists. split; [reflexivity|]. split; auto.
    + cbn [ebind app orb]. left. eexists. split; [reflexivity|]. split; auto.
  - cbn [ebind]. destruct (opt_loc (c_opts cx)).
    + destruct (n_file n); [|right; right; eexists; intros; reflexivity]. cbn [ebind app orb]. left. eexists. split; [reflexivity|]. split; auto.
    + right. left. cbn [ebind app]. auto.
Qed.
Lemma text_dec (a b : text) : a = b \/ a <> b.
Proof. destruct (text_eqb a b) eqn:E; [left; apply text_eqb_true; auto|right; apply text_eqb_false; auto]. Qed.
Lemma event_adds op al ts o0 o1 : adds (annotated al ts) o0 o1 -> forall jm m,
  annotated_event op al ts
    (let o := if opt_orig op then obj_add o0 (L "originalmsg") jm else o0 in if (opt_rule op || opt_loc op)%bool then obj_add o (L "metadata") m else o)
    (let o := if opt_orig op then obj_add o1 (L "originalmsg") jm else o1 in if (opt_rule op || opt_loc op)%bool then obj_add o (L "metadata") m else o).
Proof.
  intros H jm m f. cbv zeta.
  assert (HG : forall (b1 b2 : bool) x o, f <> (L "originalmsg") \/ b1 = false -> f <> L "metadata" \/ b2 = false ->
     obj_get (if b2 then obj_add (if b1 then obj_add o (L "originalmsg") jm else o) (L "metadata") x else (if b1 then obj_add o (L "originalmsg") jm else o)) f = obj_get o f).
  { intros b1 b2 x o A B. destruct b2; [rewrite obj_get_add_other by (intros <-; destruct B; [congruence|discriminate])|]; (destruct b1; [rewrite obj_get_add_other by (intros <-; destruct A; [congruence|discriminate])|]); reflexivity. }
  split.
  - intros [[-> E]|[-> E]]; rewrite E; [|rewrite !obj_get_add_same; reflexivity]. destruct (opt_rule op || opt_loc op)%bool; [rewrite 2 (obj_get_add_other _ (L "metadata")) by discriminate|]; rewrite !obj_get_add_same; reflexivity.
  - intros HW. assert (A : f <> L "originalmsg" \/ opt_orig op = false) by (destruct (opt_orig op) eqn:E; auto; left; intros ->; apply HW; left; auto).
    assert (B : f <> L "metadata" \/ (opt_rule op || opt_loc op)%bool = false) by (destruct (_ || _)%bool eqn:E; auto; left; intros ->; apply HW; right; auto).
    rewrite !HG by auto. apply H.
Qed.
Definition tags_of (t : option json) : list text := match t with Some j => tag_texts j | None => [] end.
Lemma normalize_annots e cx al msg nf js0 : has_annots cx al -> clean_annots al ->
  match normalize nf e cx msg js0 with
  | EUb u => normalize nf e (set_annots cx []) msg js0 = EUb u
  | EOk (false, o, _) => exists c0, normalize nf e (set_annots cx []) msg js0 = EOk (false, o, c0)
  | EOk (true, o, _) => exists o0 c0 s en n, normalize nf e (set_annots cx []) msg js0 = EOk (true, o0, c0) /\
      normalizeRec e cx msg nf (c_root cx) 0 false (st0 js0) = EOk (true, s) /\ r_end s = Some en /\ get_node (c_nodes cx) en = EOk n /\
      (forall t, n_tags n = Some t -> obj_get o0 (L "event.tags") = Some t) /\
      annotated_event (c_opts cx) al (tags_of (n_tags n)) o0 o
  end.
Proof.
  intros HA HC. unfold normalize. fold (st0 js0). change (c_root (set_annots cx [])) with (c_root cx).
  rewrite <- (normalizeRec_sim e cx (set_annots cx []) msg (same_graph_annots cx [])) by reflexivity.
  destruct (normalizeRec e cx msg nf (c_root cx) 0 false (st0 js0)) as [[ok s]|u]; cbn [ebind]; auto.
  change (c_nodes (set_annots cx [])) with (c_nodes cx). change (c_opts (set_annots cx [])) with (c_opts cx). destruct ok.
  - destruct (r_end s) as [en|] eqn:Een; auto. destruct (get_node (c_nodes cx) en) as [n|u] eqn:EN; cbn [ebind]; auto. set (o := match r_js s with Some o => o | None => [] end).
    assert (HO : exists o1 o0, (match n_tags n with None => EOk o | Some tags => annotate (c_annots cx) tags (obj_add o (L "event.tags") tags) end) = EOk o1 /\
        (match n_tags n with None => EOk o | Some tags => annotate (c_annots (set_annots cx [])) tags (obj_add o (L "event.tags") tags) end) = EOk o0 /\
        adds (annotated al (tags_of (n_tags n))) o0 o1 /\ forall t, n_tags n = Some t -> obj_get o0 (L "event.tags") = Some t).
    { destruct (n_tags n) as [tags|].
      - destruct (annotate_adds cx al tags (obj_add o (L "event.tags") tags) HA HC) as (o1 & E1 & A1). exists o1, (obj_add o (L "event.tags") tags). split; auto. split; [reflexivity|]. split; auto.
        intros t [= ->]. apply obj_get_add_same.
      - exists o, o. split; auto. split; auto. split; [|discriminate]. intros f. right. split; auto. intros v (t & fvs & [] & _). }
    destruct HO as (o1 & o0 & E1 & E0 & HAd & HT). rewrite E1, E0. cbn [ebind].
    assert (HM : forall o2 o3, (exists m, add_metadata cx n (r_rule s) o2 = EOk (if (opt_rule (c_opts cx) || opt_loc (c_opts cx))%bool then obj_add o2 (L "metadata") m else o2) /\ add_metadata (set_annots cx []) n (r_rule s) o3 = EOk (if (opt_rule (c_opts cx) || opt_loc (c_opts cx))%bool then obj_add o3 (L "metadata") m else o3)) \/
         exists u, add_metadata cx n (r_rule s) o2 = EUb u /\ add_metadata (set_annots cx []) n (r_rule s) o3 = EUb u).
    { intros o2 o3. change (add_metadata (set_annots cx []) n (r_rule s) o3) with (add_metadata cx n (r_rule s) o3). destruct (meta_same cx n (r_rule s) o2) as [(m & A & B & C)|[(A & B & C)|(u & C)]].
      - left. exists m. rewrite B. auto.
      - left. exists JNull. rewrite A, B. cbn [orb]. auto.
      - right. exists u. auto. }
    match goal with |- match ebind (add_metadata cx n (r_rule s) ?a) _ with _ => _ end => match goal with |- context [add_metadata (set_annots cx []) n (r_rule s) ?b] => destruct (HM a b) as [(m & M1 & M2)|(u & M1 & M2)] end end; rewrite M1, M2; cbn [ebind]; auto.
    eexists _, _, s, en, n. split; [reflexivity|]. split; auto. split; auto. split; auto. split; [|exact (event_adds (c_opts cx) al (tags_of (n_tags n)) o0 o1 HAd (JStr msg) m)].
    intros t Et. destruct (_ || _)%bool; [rewrite obj_get_add_other by discriminate|]; (destruct (opt_orig (c_opts cx)); [rewrite obj_get_add_other by discriminate|]); auto.
  - destruct (Nat.ltb _ _); eauto.
Qed.
