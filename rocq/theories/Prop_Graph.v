(** * Prop_Graph: memory of the rule graph (C37, C38, C39). *)
From Verif Require Import Base Time Parsers Engine Pdag Samp TestEnv GraphSpec History BaseFacts EngineFacts2 HeapFacts DeleteFacts BuildFacts BuildFacts2 BuildFacts3 OptFacts LoadFacts NormSafe.
From Coq Require Import ZifyBool ZifyNat ZifyN Permutation.

(** ** bridging the specification and the invariant *)
Lemma gi_iff_spec cx lost : (exists rk, gi (c_nodes cx) (lost ++ owners cx) rk) <-> safe_graph_with cx lost.
Proof.
  unfold safe_graph_with, refcounts_exact, no_dangling, no_garbage, acyclic, occurrences, gi, inv. split.
  - intros (rk & (H1 & H2) & HP & HK). rewrite (positive_cedges _ HP) in H1, H2. repeat split; auto; [|exists rk; exact HK].
    intros i n Hi. specialize (HP _ _ Hi). specialize (H1 _ _ Hi). apply cnt_pos. lia.
  - intros (H1 & H2 & H3 & rk & HK). exists rk.
    assert (HP : positive (c_nodes cx)). { intros i n Hi. rewrite (H1 _ _ Hi). specialize (H3 _ _ Hi). apply cnt_pos in H3. lia. }
    rewrite (positive_cedges _ HP). auto.
Qed.
Lemma msafe_spec cx : msafe cx <-> safe_graph cx.
Proof.
  unfold msafe, hsafe, safe_graph. split; intros (G & H); exists G; apply gi_iff_spec; auto.
Qed.
Lemma sound_spec cx : sound_graph cx <-> safe_graph_with cx []. Proof. reflexivity. Qed.

Lemma init_sound o : sound_graph (initCtx o).
Proof.
  apply sound_spec. apply gi_iff_spec. exists (fun _ => 0). cbn [app]. repeat split.
  - intros [|i] n Hi; [injection Hi as <-; reflexivity|destruct i; discriminate].
  - intros j [<-|[]]. exists new_node. reflexivity.
  - intros [|i] n Hi; [injection Hi as <-; reflexivity|destruct i; discriminate].
  - intros [|i] n p t Hi Hp; [injection Hi as <-; destruct Hp|destruct i; discriminate].
Qed.

Lemma normalize_hstep fuel e cx msg js ok o cx' : normalize fuel e cx msg js = EOk (ok, o, cx') -> exists log, cx' = apply_log cx log.
Proof.
  unfold normalize. destruct (normalizeRec e cx msg fuel (c_root cx) 0 false _) as [[b s]|]; cbn [ebind]; [|discriminate].
  destruct b.
  - destruct (r_end s) as [en|]; [|discriminate]. destruct (get_node (c_nodes cx) en) as [n|]; cbn [ebind]; [|discriminate].
    match goal with |- (do* o := ?x in _) = _ -> _ => destruct x end; cbn [ebind]; [|discriminate].
    match goal with |- (do* o := ?x in _) = _ -> _ => destruct x end; cbn [ebind]; [|discriminate]. intros [= _ _ <-]. eauto.
  - destruct (Nat.ltb _ _); [discriminate|]. intros [= _ _ <-]. eauto.
Qed.
Lemma quiet_bump b : quiet (fun n => bump n b). Proof. intros n. split; reflexivity. Qed.
Lemma apply_log_msafe cx log : msafe cx -> msafe (apply_log cx log).
Proof.
  intros (G & rk & HG). exists G, rk. unfold apply_log. change (owners (set_nodes cx _)) with (owners cx). rewrite nodes_set. clear - HG.
  revert HG. generalize (c_nodes cx) as h. induction (rev log) as [|[i b] l IH]; intros h HG; cbn [fold_left]; auto. apply IH. apply gi_quiet; auto. apply quiet_bump.
Qed.

Lemma history_safe e q cx : permutes q -> history e q cx -> msafe cx.
Proof.
  intros HQ H. induction H as [o|cx fuel file cx' ok H IH E|cx fuel s cx' ok H IH E|cx fuel msg js ok o cx' H IH E].
  - apply msafe_spec. exists []. apply init_sound.
  - pose proof (loadSamples_safe e q HQ fuel 1 cx file IH) as HH. unfold loadFile in E. rewrite E in HH. exact HH.
  - pose proof (loadString_safe e q HQ fuel cx s IH) as HH. rewrite E in HH. exact HH.
  - destruct (normalize_hstep _ _ _ _ _ _ _ _ E) as [log ->]. apply apply_log_msafe. auto.
Qed.

(** ** C38 *)
(** Whatever a program does with a context - load any rulebase from files or strings, valid or
    not, normalize any messages - the graph stays safe: acyclic, no reference to freed
    memory, no count too small or too large apart from references counted in [lost], which
    nobody can follow any more. *)
Theorem C38_any_history_safe : forall e q cx, permutes q -> history e q cx -> safe_graph cx.
Proof. intros. apply msafe_spec. eapply history_safe; eauto. Qed.
Print Assumptions C38_any_history_safe.

(** and loading never touches freed memory *)
Theorem C38_loading_never_uses_freed : forall e q cx, permutes q -> history e q cx ->
  (forall fuel file, loadFile e q fuel cx file <> EUb UseAfterFree) /\
  (forall fuel s, loadString e q fuel cx s <> EUb UseAfterFree).
Proof.
  intros e q cx HQ H. pose proof (history_safe _ _ _ HQ H) as HM. split; intros.
  - pose proof (loadSamples_safe e q HQ fuel 1 cx file HM) as HH. unfold loadFile. destruct (loadSamples e q fuel 1 cx file); [discriminate|]. cbn in HH. congruence.
  - pose proof (loadString_safe e q HQ fuel cx s HM) as HH. destruct (loadString e q fuel cx s); [discriminate|]. cbn in HH. congruence.
Qed.
Print Assumptions C38_loading_never_uses_freed.

(** nor does normalizing a message, whatever the message *)
Theorem C38_normalize_never_uses_freed : forall e q cx, permutes q -> history e q cx ->
  forall fuel msg js, normalize fuel e cx msg js <> EUb UseAfterFree.
Proof.
  intros e q cx HQ H fuel msg js. pose proof (history_safe _ _ _ HQ H) as HM. apply msafe_spec in HM as (lost & _ & HD & _ & _).
  assert (HS : upost (fun _ => True) (normalize fuel e cx msg js)).
  { apply normalize_safe.
    - intros i n p t Hi Hp Ht. apply HD. apply in_or_app. left. unfold edges. apply in_flat_map. exists (Some n).
      split; [eapply nth_error_In; exact Hi|]. cbn. apply in_flat_map. exists p. auto.
    - intros t Ht. apply HD. apply in_or_app. right. apply in_or_app. right. exact Ht. }
  intros E. rewrite E in HS. cbn in HS. congruence.
Qed.
Print Assumptions C38_normalize_never_uses_freed.

(** Nothing is lost by adding a configuration (any nesting of fields, alternatives, repeats,
    arrays) as long as no node gets more than 255 fields. *)
Theorem C38_add_keeps_exact : forall e cx dag conf cx' r, sound_graph cx -> unique_keys conf -> has_room cx (objects conf) ->
  (exists n, live (c_nodes cx) dag n) -> addParser e cx dag conf = EOk (cx', r) -> sound_graph cx'.
Proof.
  intros e cx dag conf cx' r HS HU [HR1 HR2] Hd E. change (safe_graph_with cx []) in HS. apply gi_iff_spec in HS as [rk HG].
  pose proof (addParser_ok e cx dag conf _ rk HG Hd) as HP. rewrite E in HP. destruct HP as (Ecx & G & rk' & HS' & _). cbn [fst snd] in *.
  destruct (s_room _ _ _ _ _ _ _ _ _ HS' 0) as [_ HG0]; [split; [lia|]; intros i n Hi; rewrite Nat.add_0_r; eauto|].
  specialize (HG0 HU). subst G. change (safe_graph_with cx' []). apply gi_iff_spec. exists rk'. pose proof (s_gi _ _ _ _ _ _ _ _ _ HS') as HG'. rewrite Ecx. exact HG'.
Qed.
Print Assumptions C38_add_keeps_exact.

(** optimization loses nothing *)
Theorem C38_optimize_keeps_exact : forall q cx cx', permutes q -> sound_graph cx -> optimize q cx = EOk cx' -> sound_graph cx'.
Proof.
  intros q cx cx' HQ HS E. change (safe_graph_with cx []) in HS. apply gi_iff_spec in HS as [rk HG].
  pose proof (optimize_ok q HQ False 0%Z cx [] rk HG (fun f : False => match f with end)) as HP. rewrite E in HP. destruct HP as (Ecx & (rk' & HG') & _).
  change (safe_graph_with cx' []). apply gi_iff_spec. exists rk'. rewrite Ecx. exact HG'.
Qed.
Print Assumptions C38_optimize_keeps_exact.

(** ** C39 *)
(** ln_exitCtx never touches freed memory (no double free, no use after free), after any
    history. *)
Theorem C39_exit_never_uses_freed : forall e q cx, permutes q -> history e q cx -> exists h, exitCtx cx = EOk h.
Proof.
  intros e q cx HQ H. destruct (history_safe _ _ _ HQ H) as (G & rk & HI & HP & HK). unfold exitCtx. fold (owners cx).
  destruct (delete_all_ok (owners cx) (c_nodes cx) G) as (h & E & _); [|eauto]. eapply inv_perm; [|exact HI]. intros j. rewrite !cnt_app. lia.
Qed.
Print Assumptions C39_exit_never_uses_freed.

(** and frees everything if the graph is sound *)
Theorem C39_exit_frees_all : forall cx, sound_graph cx -> exists h, exitCtx cx = EOk h /\ all_freed h.
Proof. intros cx H. apply sound_graph_inv in H as (H1 & H2 & rk & H3). eapply exitCtx_ok; eauto. Qed.
Print Assumptions C39_exit_frees_all.

(** ** The hypotheses can be met *)
Lemma insert_perm p l : Permutation (insert_prs p l) (p :: l).
Proof. induction l as [|q l IH]; cbn; auto. destruct (Z.leb _ _); auto. rewrite IH. apply perm_swap. Qed.
Lemma isort_permutes : permutes isort.
Proof. intros l. induction l as [|p l IH]; cbn; auto. rewrite insert_perm. auto. Qed.

(** a rulebase with a user-defined type, alternatives, repeat and rules that fail to load *)
Open Scope string_scope.
Definition rbG : list string :=
  ["type=@pair:%k:word%=%v:number%";
   "rule=a,b:start %p:@pair% end";
   "rule=:x %{""name"":""r"", ""type"":""repeat"", ""parser"":{""name"":""n"",""type"":""number""}, ""while"":{""type"":""literal"",""text"":"",""}}% y";
   "rule=:x %{""type"":""alternative"", ""parser"":[{""type"":""ipv4""},{""type"":""word""}]}%z";
   "rule=:broken %x:nosuchtype%";
   "rule=a,b:start %p:@pair% end"].
Close Scope string_scope.
Lemma loadG : exists cx, loadString env0 isort 200 (initCtx no_opts) (lines rbG) = EOk (cx, true).
Proof. eexists. vm_compute. reflexivity. Qed.
Example C38_history_ex : exists cx, loadString env0 isort 200 (initCtx no_opts) (lines rbG) = EOk (cx, true) /\ history env0 isort cx /\ safe_graph cx.
Proof.
  destruct loadG as [cx E]. exists cx. split; [exact E|].
  assert (HH : history env0 isort cx) by exact (h_string env0 isort (initCtx no_opts) 200 (lines rbG) cx true (h_init env0 isort no_opts) E).
  split; [exact HH|]. exact (C38_any_history_safe env0 isort cx isort_permutes HH).
Qed.
Definition confG : json :=
  JArr [JObj [(L "type", JStr (L "literal")); (L "text", JStr (L "x"))];
        JObj [(L "type", JStr (L "repeat"));
              (L "parser", JArr [JObj [(L "type", JStr (L "number")); (L "name", JStr (L "n"))]]);
              (L "while", JObj [(L "type", JStr (L "literal")); (L "text", JStr (L ","))])];
        JObj [(L "type", JStr (L "word")); (L "name", JStr (L "w"))]].
Example C38_add_ex : exists cx' n, addParser env0 (initCtx no_opts) 0 confG = EOk (cx', Some (Some n)) /\ 7 <= List.length (c_nodes cx') /\ sound_graph cx' /\
  exists h, exitCtx cx' = EOk h /\ all_freed h.
Proof.
  assert (E : exists cx' n, addParser env0 (initCtx no_opts) 0 confG = EOk (cx', Some (Some n)) /\ 7 <= List.length (c_nodes cx')).
  { eexists. eexists. split; [vm_compute; reflexivity|vm_compute; lia]. }
  destruct E as (cx' & n & E & HL). exists cx', n. split; [exact E|]. split; [exact HL|].
  assert (HS : sound_graph cx').
  { eapply C38_add_keeps_exact; [apply init_sound| | | |exact E].
    - cbn. repeat (split || constructor || (intros H; cbn in H; intuition discriminate)).
    - split; [vm_compute; lia|]. intros [|i] m Hi; [injection Hi as <-; vm_compute; lia|destruct i; discriminate].
    - exists new_node. reflexivity. }
  split; auto. apply C39_exit_frees_all; auto.
Qed.

(** ** What does not hold *)
(** 256 different fields at one place: references are lost and the nodes leak. *)
Definition letters : list string := ["a";"b";"c";"d";"e";"f";"g";"h";"i";"j";"k";"l";"m";"n";"o";"p"]%string.
Definition rb256 : list string := flat_map (fun a => map (fun b => ("rule=:%" ++ a ++ b ++ ":word%")%string) letters) letters.
Definition leaks (r : er (ctx * bool)) : bool :=
  match r with
  | EOk (cx, true) => match exitCtx cx with EOk h => existsb (fun o => match o with Some _ => true | None => false end) h | _ => false end
  | _ => false
  end.
Theorem C39_leak_refuted : exists cx h, load0 no_opts rb256 = EOk (cx, true) /\ exitCtx cx = EOk h /\ ~ all_freed h /\ ~ sound_graph cx.
Proof.
  assert (HL : leaks (load0 no_opts rb256) = true) by (vm_compute; reflexivity).
  unfold leaks in HL. destruct (load0 no_opts rb256) as [[cx [|]]|]; try discriminate. destruct (exitCtx cx) as [h|] eqn:E; try discriminate.
  exists cx, h. split; [reflexivity|]. split; [exact E|].
  assert (HN : ~ all_freed h). { intros HA. apply existsb_exists in HL as (o & Ho & Hs). unfold all_freed in HA. rewrite Forall_forall in HA. rewrite (HA _ Ho) in Hs. discriminate. }
  split; auto. intros HS. apply C39_exit_frees_all in HS as (h' & E' & HA). rewrite E in E'. injection E' as <-. auto.
Qed.
Print Assumptions C39_leak_refuted.
