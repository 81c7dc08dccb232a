(** * LoadFacts: loading any rulebase keeps the graph safe. *)
From Verif Require Import Base Parsers Engine Pdag Samp GraphSpec BaseFacts EngineFacts2 HeapFacts DeleteFacts BuildFacts BuildFacts2 BuildFacts3 OptFacts.
From Coq Require Import ZifyBool ZifyNat ZifyN Permutation.

Definition upost {A} (Q : A -> Prop) (x : er A) : Prop :=
  match x with EOk a => Q a | EUb u => u <> UseAfterFree end.
Lemma upost_bind {A B} (P : A -> Prop) (Q : B -> Prop) x (f : A -> er B) :
  upost P x -> (forall a, P a -> upost Q (f a)) -> upost Q (do* a := x in f a).
Proof. destruct x; cbn; auto. Qed.
Lemma upost_mono {A} (P Q : A -> Prop) x : upost P x -> (forall a, P a -> Q a) -> upost Q x.
Proof. destruct x; cbn; auto. Qed.
Lemma epost_upost {A} (P : A -> Prop) x : epost P x -> upost P x.
Proof. destruct x; cbn; tauto. Qed.

(** [h], with the owners [O], is safe: some references may have been lost *)
Definition hsafe (h : list (option node)) (O : list nat) : Prop := exists G rk, gi h (G ++ O) rk.
Definition msafe (cx : ctx) : Prop := hsafe (c_nodes cx) (owners cx).
(** only the heap changed, and what was allocated still is *)
Definition hstep (cx cx' : ctx) : Prop := cx' = set_nodes cx (c_nodes cx') /\ forall i n, live (c_nodes cx) i n -> exists n', live (c_nodes cx') i n'.
Lemma hstep_refl cx : hstep cx cx. Proof. split; [apply set_nodes_self|eauto]. Qed.
Lemma hstep_trans a b c : hstep a b -> hstep b c -> hstep a c.
Proof. intros [A1 A2] [B1 B2]. split; [rewrite B1, A1; reflexivity|]. intros i n Hi. destruct (A2 _ _ Hi) as [m Hm]. eauto. Qed.
Lemma hstep_owners a b : hstep a b -> owners b = owners a.
Proof. intros [E _]. rewrite E. reflexivity. Qed.

Section Load.
Variable e : env.

Lemma addParser_safe cx dag conf : msafe cx -> okref (c_nodes cx) (Some dag) ->
  upost (fun x => hstep cx (fst x) /\ msafe (fst x) /\ match snd x with None => True | Some d => okref (c_nodes (fst x)) d end) (addParser e cx dag conf).
Proof.
  intros (G & rk & HG) Hd. apply epost_upost. eapply epost_mono; [apply (addParser_ok e cx dag conf (G ++ owners cx) rk HG Hd)|].
  intros [cx' r] (E & G' & rk' & HS & HR). cbn [fst snd] in *. assert (HH : hstep cx cx') by (split; [exact E|]; intros; eapply step_survive; eauto).
  split; auto. split; auto. unfold msafe, hsafe. rewrite (hstep_owners _ _ HH). exists (G' ++ G), rk'. rewrite <- app_assoc. apply HS.
Qed.

Lemma add_literals_safe : forall l cx dag, msafe cx -> okref (c_nodes cx) dag ->
  upost (fun x => hstep cx (fst x) /\ msafe (fst x) /\ match snd x with None => True | Some d => okref (c_nodes (fst x)) d end) (add_literals e cx dag l).
Proof.
  induction l as [|c l IH]; intros cx dag HM Hd; cbn [add_literals].
  - cbn. auto using hstep_refl.
  - destruct dag as [d|]; [|cbn; discriminate]. eapply upost_bind; [apply (addParser_safe cx d (literal_conf c) HM Hd)|].
    intros [cx1 [d1|]] (A1 & A2 & A3); cbn [fst snd] in *; [|cbn; auto].
    eapply upost_mono; [apply (IH cx1 d1); auto|]. intros x (B1 & B2 & B3). split; auto. eapply hstep_trans; eauto.
Qed.

(* the fields of a rule never touch the heap *)
Lemma legacy_noub u x : parseLegacyFieldDescr e u = Ub x -> x = UninitRead.
Proof.
  unfold parseLegacyFieldDescr. intros H.
  repeat match type of H with
  | (if ?b then _ else _) = _ => destruct b; try discriminate
  | (match ?b with _ => _ end) = _ => destruct b; try discriminate
  | (let '(_, _) := ?b in _) = _ => destruct b
  end; congruence.
Qed.
Lemma fieldDescr_noub u x : fieldDescr e u = Ub x -> x = UninitRead.
Proof.
  unfold fieldDescr. intros H.
  destruct (skipn _ _); [congruence|]. destruct (ceq a "{" || ceq a "[")%bool; [|eapply legacy_noub; eauto].
  destruct (json_tok e _) as [[[] ?]|]; try discriminate; destruct (skipn _ _); try discriminate; destruct (ceq _ _); discriminate.
Qed.

Lemma add_rule_safe : forall fuel cx dag rule, msafe cx -> okref (c_nodes cx) dag ->
  upost (fun x => hstep cx (fst x) /\ msafe (fst x) /\ match snd x with None => True | Some d => okref (c_nodes (fst x)) d end) (add_rule e fuel cx dag rule).
Proof.
  induction fuel as [|f IH]; intros cx dag rule HM Hd; cbn [add_rule]; [cbn; discriminate|].
  destruct rule as [|c0 rule]; [cbn; auto using hstep_refl|].
  destruct (literal_part (c0 :: rule)) as [lit rest]. eapply upost_bind; [apply (add_literals_safe _ cx dag HM Hd)|].
  intros [cx1 [d1|]] (A1 & A2 & A3); cbn [fst snd] in *; [|cbn; auto].
  destruct rest as [|r0 rest]; [cbn; auto|].
  destruct (fieldDescr e (r0 :: rest)) as [[rest' conf]|k|u] eqn:EF; [|cbn; auto|].
  2:{ apply fieldDescr_noub in EF. subst u. cbn. discriminate. }
  destruct d1 as [d|]; [|cbn; discriminate]. eapply upost_bind; [apply (addParser_safe cx1 d conf A2 A3)|].
  intros [cx2 [d2|]] (B1 & B2 & B3); cbn [fst snd] in *; [|cbn; split; auto; eapply hstep_trans; eauto].
  eapply upost_mono; [apply (IH cx2 d2); auto|]. intros x (C1 & C2 & C3). split; auto. eapply hstep_trans; [exact A1|]. eapply hstep_trans; eauto.
Qed.

Lemma quiet_terminal tags file line : quiet (set_terminal tags file line). Proof. intros n. split; reflexivity. Qed.

Lemma addSamp_safe cx rule dag tags : msafe cx -> okref (c_nodes cx) (Some dag) ->
  upost (fun x => hstep cx x /\ msafe x) (addSampToTree e cx rule dag tags).
Proof.
  intros HM Hd. unfold addSampToTree. eapply upost_bind; [apply (add_rule_safe _ cx (Some dag) rule HM Hd)|].
  intros [cx1 [[en|]|]] (A1 & A2 & A3); cbn [fst snd] in *; [|cbn; discriminate|cbn; auto].
  destruct A3 as [n Hn]. rewrite (live_get _ _ _ Hn). cbn [ebind upost]. split.
  - split; [rewrite (proj1 A1); reflexivity|]. intros i m Hi. destruct A1 as [_ A1]. destruct (A1 _ _ Hi) as [m' Hm']. rewrite nodes_set.
    destruct (Nat.eq_dec en i) as [<-|Hne]; [eexists; apply live_upd_same; eauto|exists m'; apply live_upd_other; auto].
  - destruct A2 as (G & rk & HG). exists G, rk. rewrite nodes_set. apply gi_quiet; [apply quiet_terminal|exact HG].
Qed.

Lemma processTags_noub : forall u cur b, upost (fun _ => True) (processTags u cur b).
Proof.
  induction u as [|c u IH]; intros cur b; cbn [processTags]; [exact I|]. destruct (ceq c ":"); [exact I|]. destruct (ceq c ","); [|apply IH].
  destruct cur; [apply IH|cbn; discriminate].
Qed.

Lemma owner_ok cx i : msafe cx -> In i (owners cx) -> okref (c_nodes cx) (Some i).
Proof. intros (G & rk & HG) Hi. eapply gi_live; [exact HG|]. apply in_or_app. auto. Qed.

Lemma processRule_safe cx u : msafe cx -> upost msafe (processRule e cx u).
Proof.
  intros HM. unfold processRule. eapply upost_bind; [apply processTags_noub|]. intros [[tags [|c s]]|] _; try exact HM.
  eapply upost_mono; [apply addSamp_safe; auto|].
  - apply owner_ok; auto. left. reflexivity.
  - intros cx' [_ H]. exact H.
Qed.

Lemma findType_nth ts nm : forall k i, findType ts nm k = Some i -> exists j d, i = k + j /\ nth_error ts j = Some (nm, d).
Proof.
  induction ts as [|[n d] ts IH]; intros k i H; cbn in H; [discriminate|]. destruct (text_eqb n nm) eqn:E.
  - injection H as <-. apply text_eqb_true in E. subst n. exists 0, d. split; [lia|reflexivity].
  - destruct (IH _ _ H) as (j & d' & -> & Hj). exists (S j), d'. split; [lia|exact Hj].
Qed.

Lemma processType_safe cx u : msafe cx -> upost msafe (processType e cx u).
Proof.
  intros HM. unfold processType. destruct (getTypeName u) as [[nm [|c s]]|]; try exact HM.
  destruct (findType (c_types cx) nm 0) as [i|] eqn:EF.
  - apply findType_nth in EF as (j & d & -> & Hj). cbn [plus]. rewrite Hj.
    eapply upost_mono; [apply addSamp_safe; auto|intros cx' [_ H]; exact H].
    apply owner_ok; auto. right. apply nth_error_In in Hj. apply (in_map snd) in Hj. exact Hj.
  - unfold newPDAG. destruct HM as (G & rk & HG).
    assert (HM' : msafe (set_types (set_nodes cx (c_nodes cx ++ [Some new_node])) (c_types cx ++ [(nm, List.length (c_nodes cx))]))).
    { exists G, (fresh_rank (List.length (c_nodes cx)) rk). cbn [c_nodes set_types set_nodes owners c_root c_types].
      pose proof (s_gi _ _ _ _ _ _ _ _ _ (step_new _ _ _ True HG)) as H. eapply gi_perm; [|exact H].
      intros j. unfold owners. cbn [app c_root c_types set_types set_nodes]. rewrite map_app. cbn [map snd]. repeat (rewrite cnt_app || rewrite cnt_cons). cbn [count_occ]. lia. }
    eapply upost_mono; [apply addSamp_safe; [exact HM'|]|intros cx' [_ H]; exact H].
    apply owner_ok; auto. right. cbn [c_types set_types set_nodes]. rewrite map_app. apply in_or_app. right. left. reflexivity.
Qed.

Lemma annot_loop_noub : forall f u ops, upost (fun _ => True) (annot_loop f u ops).
Proof.
  induction f as [|f IH]; intros u ops; cbn [annot_loop]; [cbn; discriminate|]. destruct u as [|c u]; [exact I|]. destruct (getAnnotationOp (c :: u)) as [| |[op|] rest]; try exact I; apply IH.
Qed.
Lemma processAnnotate_safe f cx u : msafe cx -> upost msafe (processAnnotate f cx u).
Proof.
  intros HM. unfold processAnnotate. destruct (skipn _ _); [exact HM|]. destruct (firstn _ u); [exact HM|]. destruct (negb _); [exact HM|].
  eapply upost_bind; [apply annot_loop_noub|]. intros [ops|] _; exact HM.
Qed.

Definition load_ok (load : ctx -> text -> er (ctx * bool)) : Prop := forall cx f, msafe cx -> upost (fun x => msafe (fst x)) (load cx f).

Lemma processSamp_safe load (HL : load_ok load) af cx line : msafe cx -> upost (fun x => msafe (fst x)) (processSamp e load af cx line).
Proof.
  intros HM. unfold processSamp. destruct (getLineType line) as [[ty u]|]; [|exact HM].
  destruct (text_eqb ty _); [exact HM|]. destruct (text_eqb ty _); [destruct (c_prefix cx); [exact HM|cbn; discriminate]|].
  destruct (text_eqb ty _); [eapply upost_bind; [apply processRule_safe; exact HM|auto]|].
  destruct (text_eqb ty _); [eapply upost_bind; [apply processType_safe; exact HM|auto]|].
  destruct (text_eqb ty _); [eapply upost_bind; [apply processAnnotate_safe; exact HM|auto]|].
  destruct (text_eqb ty _); [|exact HM].
  unfold include_name. destruct (cstr u); [cbn; discriminate|]. cbn [ebind].
  eapply upost_bind; [apply HL; exact HM|]. intros [cx' ok] H. exact H.
Qed.

Lemma load_lines_safe load (HL : load_ok load) af isf : forall fuel cx inp, msafe cx -> upost (fun x => msafe (fst x)) (load_lines e load af fuel isf cx inp).
Proof.
  induction fuel as [|f IH]; intros cx inp HM; cbn [load_lines]; [cbn; discriminate|].
  destruct (sampRead e _ isf inp [] 0 false (c_line cx)) as [[line inp' eof ln|inp' ln]|inp' ln|]; [| |apply IH; exact HM|cbn; discriminate]; [|exact HM].
  eapply upost_bind; [apply (processSamp_safe load HL); exact HM|]. intros [cx' ok] H. destruct (negb ok); [exact H|]. destruct eof; [exact H|]. apply IH. exact H.
Qed.

Variable qsort : list prs -> list prs.
Hypothesis qsort_perm : forall l, Permutation (qsort l) l.

Lemma optimize_safe cx : msafe cx -> upost msafe (optimize qsort cx).
Proof.
  intros (G & rk & HG). apply epost_upost. eapply epost_mono; [apply (optimize_ok qsort qsort_perm False 0%Z cx G rk HG); intros []|].
  intros cx' (E & (rk' & HG') & _). exists G, rk'. rewrite E. exact HG'.
Qed.

Lemma loadSamples_safe : forall fuel level, load_ok (loadSamples e qsort fuel level).
Proof.
  induction fuel as [|f IH]; intros level cx file HM; cbn [loadSamples]; [cbn; discriminate|].
  destruct (files e file) as [[|c content]|]; try exact HM. destruct (_ && _)%bool; [exact HM|]. destruct (negb _); [cbn; discriminate|].
  eapply upost_bind; [apply (load_lines_safe _ (IH (S level))); exact HM|]. intros [cx' ok] H. destruct (negb ok); [exact H|].
  destruct (Nat.eqb level 1); [|exact H]. eapply upost_bind; [apply optimize_safe; exact H|]. auto.
Qed.
Lemma loadString_safe fuel cx s : msafe cx -> upost (fun x => msafe (fst x)) (loadString e qsort fuel cx s).
Proof.
  intros HM. unfold loadString. eapply upost_bind; [apply (load_lines_safe _ (loadSamples_safe fuel 2)); exact HM|]. intros [cx' ok] H. destruct (negb ok); [exact H|].
  eapply upost_bind; [apply optimize_safe; exact H|]. auto.
Qed.
End Load.
