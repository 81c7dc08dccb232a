(** * Prop_Fault: C86 -- what can go wrong when a message is normalized. *)
From Verif Require Import Base Time Parsers Engine Pdag Samp GraphSpec SafetySpec History EngineSpec EngineWf FaultSpec LoadFacts NormSafe LabelFacts EngineFault EngineTotal EngineCheck Prop_Graph Prop_Load TestEnv.
From Coq Require Import ZifyBool ZifyNat ZifyN.

(** Whatever was loaded before, successfully or not, and whatever messages were normalized: a
    message is normalized properly, or one of the listed causes is present in the rulebase (and
    the message). In particular no freed memory, no memory outside of the message (but for
    cee-syslog) and no type, node or file name that does not exist is ever accessed. *)
Theorem C86_only_listed_faults : forall e q cx, tok_ok e -> permutes q -> history e q cx ->
  forall fuel msg js u, normalize fuel e cx msg js = EUb u -> fault cx e msg u.
Proof.
  intros e q cx Ht HQ H fuel msg js u E. destruct (history_lab e q HQ cx H) as (lab & HL & HO).
  pose proof (history_safe _ _ _ HQ H) as HM. apply msafe_spec in HM as (lost & _ & HD & _ & _).
  assert (HV : forall t, In t (owners cx) -> valid cx t).
  { intros t Hx. apply HD. apply in_or_app. right. apply in_or_app. right. exact Hx. }
  assert (HE : forall i n p t, live (c_nodes cx) i n -> In p (n_parsers n) -> In t (targets p) -> valid cx t).
  { intros i n p t Hi Hp Hx. apply HD. apply in_or_app. left. unfold edges. apply in_flat_map. exists (Some n).
    split; [eapply nth_error_In; exact Hi|]. cbn. apply in_flat_map. exists p. auto. }
  pose proof (normalize_fault e cx msg lab Ht (HV _ (or_introl eq_refl))) as HF.
  assert (X : orF e cx msg (normalize fuel e cx msg js) (fun _ => True)); [|rewrite E in X; exact X]. apply HF; clear HF.
  - intros i n p Hi Hp. destruct (HL _ _ Hi) as [_ HP]. rewrite Forall_forall in HP. destruct (HP _ Hp) as (P1 & P2 & P3).
    split; [eapply HE; eauto; left; reflexivity|]. split; [exact P2|]. destruct (p_kind p) as [m|pn wn pm|ti] eqn:Ek; [exact I| |].
    + split; (eapply HE; [exact Hi|exact Hp|]; unfold targets; rewrite Ek; cbn; auto).
    + specialize (P3 _ eq_refl). destruct (nth_error (c_types cx) ti) as [[nm tn]|] eqn:En; [|apply nth_error_None in En; lia].
      exists nm, tn. split; [reflexivity|]. apply HV. right. apply nth_error_In in En. apply (in_map snd) in En. exact En.
  - rewrite Forall_forall in HO. apply (HO (c_root cx)). left. reflexivity.
  - intros i n Hi. apply (HL _ _ Hi).
Qed.
Print Assumptions C86_only_listed_faults.

(** A rulebase without any of the causes: every harmless message is normalized, or the
    normalizer does not come to an end. *)
Theorem C86_no_traps_safe : forall e q cx, tok_ok e -> permutes q -> history e q cx -> no_traps cx ->
  forall fuel msg js, harmless e msg -> (exists r, normalize fuel e cx msg js = EOk r) \/ normalize fuel e cx msg js = EUb OutOfFuel.
Proof.
  intros e q cx Ht HQ H (T1 & T2 & T3 & T4 & T5) fuel msg js Hm. destruct (normalize fuel e cx msg js) as [r|u] eqn:E; [eauto|]. right. f_equal.
  apply (C86_only_listed_faults e q cx Ht HQ H) in E. inversion E as [|? HX|HC|HC|HS|HA|HM HX]; subst; auto; exfalso.
  - exact (harmless_not_exposed cx e msg u Hm T1 HX).
  - destruct HC as (p & k & A & B & _). exact (T2 _ A B).
  - destruct HC as (p & k & A & B & _). exact (T2 _ A B).
  - destruct HS as (rp & pn & wn & pm & b & n & p & A & B & C & D & F & G). pose proof (T3 _ _ _ _ A B _ _ C D) as HF. rewrite Forall_forall in HF. exact (G (HF _ F)).
  - destruct HA as (tag & ops & nm & v & A & B & C). destruct (T4 _ _ _ _ A B). tauto.
  - congruence.
Qed.
Print Assumptions C86_no_traps_safe.

(** ** Examples *)
From Coq Require Import String.
Local Open Scope string_scope.
Local Open Scope list_scope.
(** Every listed cause does occur (endless recursion: C07; fields: C09, C10). *)
Definition goes_wrong (o : opts) (l : list string) (msg : string) (u : ub) : Prop :=
  exists cx, history env0 isort cx /\ load0 o l = EOk (cx, true) /\ normalize 50 env0 cx (L msg) [] = EUb u.
Lemma goes_wrong_by o l msg u : match load0 o l with EOk (cx, true) => match normalize 50 env0 cx (L msg) [] with EUb u' => u' = u | EOk _ => False end | _ => False end -> goes_wrong o l msg u.
Proof.
  destruct (load0 o l) as [[cx [|]]|] eqn:E; try contradiction. intros H. exists cx. split; [eapply h_string; [apply h_init|exact E]|]. split; [exact E|].
  destruct (normalize 50 env0 cx (L msg) []); [contradiction|congruence].
Qed.
Theorem C86_listed_faults_occur :
  goes_wrong no_opts ["version=2"; "rule=:%{""name"":""r"",""type"":""repeat"",""parser"":{""name"":""n"",""type"":""number""},""while"":{""type"":""char-to"",""extradata"":"";"",""name"":""s""}}%"]%string "1,;2" NullDeref /\
  goes_wrong no_opts ["version=2"; "annotate=t:+x="""""; "rule=t:a"]%string "a" NullDeref /\
  goes_wrong {| opt_orig := false; opt_rule := true; opt_loc := false |} ["version=2"; "rule=:%{""type"":""literal"",""text"":""""}%"]%string "" OobWrite /\
  goes_wrong no_opts ["version=2"; "rule=:a%x:cee-syslog%"]%string "a@cee:{}" OobRead /\
  goes_wrong no_opts ["version=2"; "rule=:a%x:cee-syslog%b"]%string "a@cee:{}" OobOffset /\
  goes_wrong no_opts ["version=2"; "rule=:a%x:cef%b"]%string "aCEF:0|a|b|c|d|e|f|a=b\" UninitRead.
Proof. split; [|split; [|split; [|split; [|split]]]]; apply goes_wrong_by; vm_compute; reflexivity. Qed.
Print Assumptions C86_listed_faults_occur.

(** A rulebase with user-defined types and a repeat field that has none of the causes. *)
Definition rbF : list string :=
  ["version=2"; "type=@pair:%k:char-to:=%=%v:number%"; "type=@pair:none";
   "annotate=t:+src=""log""";
   "rule=t:S %p:@pair% %{""name"":""r"",""type"":""repeat"",""parser"":{""name"":""."",""type"":""number""},""while"":{""type"":""literal"",""text"":"",""}}%"]%string.
Definition cxF : ctx := Eval vm_compute in match loadString env1 isort 200 (initCtx no_opts) (lines rbF) with EOk (c, _) => c | _ => initCtx no_opts end.
Lemma cxF_loaded : loadString env1 isort 200 (initCtx no_opts) (lines rbF) = EOk (cxF, true).
Proof. vm_compute. reflexivity. Qed.
Lemma in_graph_b cx p : in_graph cx p -> In p (flat_map (fun x => match x with Some n => n_parsers n | None => [] end) (c_nodes cx)).
Proof. intros (i & n & Hn & Hp). apply in_flat_map. exists (Some n). split; [eapply nth_error_In; exact Hn|exact Hp]. Qed.
Example C86_ex : history env1 isort cxF /\ tok_ok env1 /\ no_traps cxF /\ harmless env1 (L "S a=5 1,2") /\
  exists o cx', normalize 60 env1 cxF (L "S a=5 1,2") [] = EOk (true, o, cx').
Proof.
  split; [eapply h_string; [apply h_init|exact cxF_loaded]|]. split; [intros t j n; cbn [json_tok env1]; unfold tok0; destruct (jval _ t) as [[v u]|]; [|discriminate]; intros [= _ <-]; lia|]. split.
  - split; [apply usable_b_ok; vm_compute; reflexivity|]. split; [|split; [|split]].
    + intros p Hp. apply in_graph_b in Hp. vm_compute in Hp. repeat (destruct Hp as [<-|Hp]; [discriminate|]). destruct Hp.
    + intros rp pn wn pm Hp Ek. apply (silent_b_ok cxF 20). apply in_graph_b in Hp. vm_compute in Hp.
      repeat (destruct Hp as [<-|Hp]; [first [discriminate Ek|injection Ek as <- <- <-; vm_compute; reflexivity]|]). destruct Hp.
    + intros tag ops nm v Hi Ho. vm_compute in Hi. destruct Hi as [Hi|[]]. injection Hi as <- <-. destruct Ho as [Ho|[]]. injection Ho as <- <-. split; discriminate.
    + reflexivity.
  - split; [|eexists _, _; vm_compute; reflexivity].
    split; [|split; [apply no_nul_b; vm_compute; reflexivity|split; [|split; [|reflexivity]]]].
    + intros (a & ds & b & H & _ & Hl). apply (f_equal (@List.length _)) in H. rewrite !app_length in H. change (List.length (L "S a=5 1,2")) with 9 in H. lia.
    + apply Forall_forall. intros c Hc. cbn in Hc. repeat (destruct Hc as [<-|Hc]; [reflexivity|]). destruct Hc.
    + intros (a & H). apply (f_equal (@rev _)) in H. rewrite rev_app_distr in H. discriminate H.
Qed.
