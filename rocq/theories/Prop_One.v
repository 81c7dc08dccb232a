(** * Prop_One: rulebases with one rule, repeat and user-defined types (C79). *)
From Verif Require Import Base Time Parsers Engine Pdag Samp EngineSpec EngineSpec2 GraphSpec History RuleSpec BuiltSpec LineSpec SimSpec LoadSpec SafetySpec OneSpec OneFacts OneTop OneTotal TestEnv.
From Verif Require Prop_Graph Prop_Engine Prop_Load.

Lemma types_fun (types : list (text * rfields)) : NoDup (map fst types) -> one_rule_types types.
Proof.
  intros H T fs fs'. induction types as [|[T0 f0] types IH]; [intros []|]. cbn in H. inversion H as [|? ? H1 H2]; subst. intros [E|A] [E'|B]; auto.
  - congruence.
  - injection E as -> ->. destruct H1. change T with (fst (T, fs')). apply in_map. exact B.
  - injection E' as -> ->. destruct H1. change T with (fst (T, fs)). apply in_map. exact A.
Qed.
Lemma ready_answers e o cx types tags fs : ready_one e o cx types tags fs -> NoDup (map fst types) -> answers e o cx types tags fs.
Proof.
  intros HR HN msg nf js0 ok out cx' Hm H. destruct (normalize_one e o cx types tags fs msg nf js0 ok out cx' HR HN Hm H) as (r & Hr & HC).
  assert (HF : forall r', fields_at e types msg fs 0 r' -> r' = r) by (intros r' Hr'; exact (proj1 (proj2 (at_fun e types msg (types_fun _ HN))) _ _ _ Hr' _ Hr)).
  destruct HC as [(vs & -> & -> & HO)|(HNo & -> & k & Hk & Ho)].
  - split; [split; eauto|]. split; [|discriminate]. intros vs' Hv O1 O2. apply HF in Hv. injection Hv as ->. auto.
  - split; [split; [discriminate|intros (vs & Hv); apply HF in Hv; symmetry in Hv; destruct (HNo _ Hv)]|]. split; [intros vs Hv; apply HF in Hv; symmetry in Hv; destruct (HNo _ Hv)|eauto].
Qed.

(** A rulebase text (C46: rulebase, its lines) with one rule and one rule for each
    user-defined type is accepted, and a message is answered exactly as documented: it matches
    iff the fields, literals, repeats and types take it from beginning to end, and the object
    is that of their values. *)
Theorem C79_one_rule_text : forall e q o fuel t ls types tags fs, prints_no_nul e -> permutes q ->
  ~ In NUL t -> no_eof e false t -> rulebase false t 0 ls -> one_rule e [] ls types tags fs ->
  exists cx, loadString e q fuel (initCtx o) t = EOk (cx, true) /\ answers e o cx types tags fs.
Proof.
  intros e q o fuel t ls types tags fs HE HQ HN HF HR HO. destruct (loadString_one e q HE HQ fuel o t ls types tags fs HN HR HF HO) as (cx & E & RO).
  exists cx. split; auto. apply ready_answers; auto. eapply one_rule_fun; eauto. constructor.
Qed.
Print Assumptions C79_one_rule_text.
Theorem C79_one_rule_file : forall e q o fuel f t ls types tags fs, prints_no_nul e -> permutes q ->
  files e f = Some (version2 ++ t) -> rulebase true t 1 ls -> one_rule e [] ls types tags fs ->
  exists cx, loadFile e q (S fuel) (initCtx o) f = EOk (cx, true) /\ answers e o cx types tags fs.
Proof.
  intros e q o fuel f t ls types tags fs HE HQ HF HR HO. destruct (loadFile_one e q HE HQ fuel o f t ls types tags fs HF HR HO) as (cx & E & RO).
  exists cx. split; auto. apply ready_answers; auto. eapply one_rule_fun; eauto. constructor.
Qed.
Print Assumptions C79_one_rule_file.
(** The documented outcome is unique: a message has at most one reading. *)
Theorem C79_unique : forall e ls types tags fs msg r r', one_rule e [] ls types tags fs ->
  fields_at e types msg fs 0 r -> fields_at e types msg fs 0 r' -> r = r'.
Proof.
  intros e ls types tags fs msg r r' HO H H'. refine (proj1 (proj2 (at_fun e types msg _)) _ _ _ H _ H'). apply types_fun. eapply one_rule_fun; eauto. constructor.
Qed.
Print Assumptions C79_unique.

(** Every rule with sane fields (OneSpec.v: parameters given, the while parts of repeats take
    something and store nothing) has an outcome on every harmless message (C10), and the
    normalizer gives its answer. *)
Theorem C79_outcome_exists : forall e ls types tags fs msg, one_rule e [] ls types tags fs -> all_sane types fs -> tok_ok e -> harmless e msg ->
  exists r, fields_at e types msg fs 0 r /\ forall to vs, r = Some (to, vs) -> to <= List.length msg.
Proof.
  intros e ls types tags fs msg HO HS Ht Hm. assert (HN : NoDup (map fst types)) by (eapply one_rule_fun; eauto; constructor).
  destruct (one_total e types msg Ht Hm (types_fun _ HN) _ _ _ _ HO HS) as [HT _]; [intros ? ? []|]. destruct (HT 0) as (r & Hr & HB); [apply Nat.le_0_l|]. exists r. split; auto. intros to vs E. apply (HB _ _ E).
Qed.
Print Assumptions C79_outcome_exists.
Theorem C79_always_answers : forall e q o fuel t ls types tags fs cx, prints_no_nul e -> permutes q ->
  ~ In NUL t -> no_eof e false t -> rulebase false t 0 ls -> one_rule e [] ls types tags fs -> all_sane types fs -> tok_ok e ->
  opt_rule o = false -> opt_loc o = false -> loadString e q fuel (initCtx o) t = EOk (cx, true) ->
  forall msg, harmless e msg -> exists F, forall nf, F <= nf -> forall js0, exists ok out cx', normalize nf e cx msg js0 = EOk (ok, out, cx').
Proof.
  intros e q o fuel t ls types tags fs cx HE HQ HN HF HR HO HS Ht O1 O2 HL msg Hm. destruct (loadString_one e q HE HQ fuel o t ls types tags fs HN HR HF HO) as (cx0 & E & RO). rewrite HL in E. injection E as <-.
  assert (HD : NoDup (map fst types)) by (eapply one_rule_fun; eauto; constructor). eapply one_answers; eauto. apply types_fun. exact HD.
Qed.
Print Assumptions C79_always_answers.

(** ** The hypotheses can be met *)
Import Prop_Load.
Local Open Scope list_scope.
Definition items2 : list item := map (fun s => Line (L s)) ["type=@p:%k:char-to:=%=%v:number%";
  "rule=t1:[%{""name"":""ps"",""type"":""repeat"",""parser"":{""name"":""p"",""type"":""@p""},""while"":{""type"":""literal"",""text"":"",""}}%]"]%string.
Definition text2 : text := write items2.
Definition ls2 : list (text * N) := numbered 0 items2.
Definition pfields : rfields := [(RPlain (MCharTo (L "=")), Some (L "k")); (RPlain (MLiteral (L "=")), None); (RPlain (MNumber FmtString 0), Some (L "v"))].
Definition rfields2 : rfields := [(RPlain (MLiteral (L "[")), None); (RRepeat [(RType (L "@p"), Some (L "p"))] [(RPlain (MLiteral (L ",")), None)] false, Some (L "ps")); (RPlain (MLiteral (L "]")), None)].
Lemma ls2_ok : rulebase false text2 0 ls2.
Proof. apply numbered_ok. vm_compute. reflexivity. Qed.
Ltac rdl := eapply rd_one; eapply rd_plain; reflexivity.
Lemma one2 : one_rule env1 [] ls2 [(L "@p", pfields)] [L "t1"] rfields2.
Proof.
  assert (E : ls2 = [(type_line (L "@p") (L "%k:char-to:=%=%v:number%"), 1%N);
    (rule_line [L "t1"] (L "[%{""name"":""ps"",""type"":""repeat"",""parser"":{""name"":""p"",""type"":""@p""},""while"":{""type"":""literal"",""text"":"",""}}%]"), 2%N)]) by (vm_compute; reflexivity).
  rewrite E. eapply one_type.
  - split; [exists (L "p"); reflexivity|]. split; [intros H; cbn in H; intuition discriminate|]. split; [intros H; cbn in H; intuition discriminate|]. split; [|reflexivity]. intros c H. cbn in H. intuition (subst; reflexivity).
  - intros [].
  - discriminate.
  - eapply rc_field; [reflexivity|discriminate|reflexivity|]. eapply rc_field; [reflexivity|discriminate|reflexivity|]. apply rc_nil.
  - cbn [map app]. apply (rr_cons _ _ _ [(RPlain (MCharTo (L "=")), Some (L "k"))] _ [(RPlain (MLiteral (L "=")), None); (RPlain (MNumber FmtString 0), Some (L "v"))]); [rdl|].
    apply (rr_cons _ _ _ [(RPlain (MLiteral (L "=")), None)] _ [(RPlain (MNumber FmtString 0), Some (L "v"))]); [rdl|].
    apply (rr_cons _ _ _ [(RPlain (MNumber FmtString 0), Some (L "v"))] _ []); [rdl|apply rr_nil].
  - discriminate.
  - cbn [app]. fold pfields. eapply one_last.
    + constructor; [|constructor]. split; [discriminate|]. repeat split; intros H; cbn in H; intuition discriminate.
    + discriminate.
    + eapply rc_field; [reflexivity|discriminate|reflexivity|]. eapply rc_last; [discriminate|reflexivity].
    + cbn [map fst]. apply (rr_cons _ _ _ [(RPlain (MLiteral (L "[")), None)] _ [(RRepeat [(RType (L "@p"), Some (L "p"))] [(RPlain (MLiteral (L ",")), None)] false, Some (L "ps")); (RPlain (MLiteral (L "]")), None)]); [rdl|].
      apply (rr_cons _ _ _ [(RRepeat [(RType (L "@p"), Some (L "p"))] [(RPlain (MLiteral (L ",")), None)] false, Some (L "ps"))] _ [(RPlain (MLiteral (L "]")), None)]).
      2: { apply (rr_cons _ _ _ [(RPlain (MLiteral (L "]")), None)] _ []); [rdl|apply rr_nil]. }
      eapply rd_one. eapply rd_repeat.
      * repeat (constructor; [cbn; intuition discriminate|]). constructor.
      * reflexivity.
      * split; [cbn; intuition discriminate|reflexivity].
      * reflexivity.
      * eapply rd_one. eapply (rd_type _ _ _ 0); reflexivity.
      * cbn. lia.
      * reflexivity.
      * rdl.
      * split; [reflexivity|]. intros k Hk. cbn in Hk. intuition (subst; discriminate).
Qed.
Definition types2 : list (text * rfields) := [(L "@p", pfields)].
Lemma sane2 : all_sane types2 rfields2.
Proof.
  split.
  - repeat (apply sn_cons || apply sn_nil); try (apply sn_plain; [exact I|discriminate]). apply sn_repeat.
    + repeat (apply sn_cons || apply sn_nil). apply sn_type.
    + repeat (apply sn_cons || apply sn_nil). apply sn_plain; [exact I|discriminate].
    + apply eat_here. apply eat_plain. reflexivity.
    + intros f [<-|[]]. reflexivity.
  - intros T gs [[= <- <-]|[]]. repeat (apply sn_cons || apply sn_nil); apply sn_plain; first [exact I|discriminate].
Qed.
Definition result2 (m : string) : option (bool * fields) :=
  match loadString env1 isort 5 (initCtx no_opts) text2 with
  | EOk (cx, true) => match normalize 100 env1 cx (L m) [] with EOk (ok, o, _) => Some (ok, o) | _ => None end
  | _ => None
  end.
Definition pair2 (k v : string) : json := JObj [(L "p", JObj [(L "v", JStr (L v)); (L "k", JStr (L k))])].
Example C79_ex : prints_no_nul env1 /\ permutes isort /\ ~ In NUL text2 /\ no_eof env1 false text2 /\ rulebase false text2 0 ls2 /\
  one_rule env1 [] ls2 types2 [L "t1"] rfields2 /\ all_sane types2 rfields2 /\
  result2 "[a=1,b=22]" = Some (true, [(L "ps", JArr [pair2 "a" "1"; pair2 "b" "22"]); (L "event.tags", JArr [JStr (L "t1")])]) /\
  result2 "[a=1,b=x]" = Some (false, [(L "originalmsg", JStr (L "[a=1,b=x]")); (L "unparsed-data", JStr (L "a=1,b=x]"))]).
Proof.
  split; [intros j; exact (fun H => H)|]. split; [exact Prop_Graph.isort_permutes|]. split; [apply no_nul_b; vm_compute; reflexivity|]. split; [apply no_eof_b; vm_compute; reflexivity|].
  split; [exact ls2_ok|]. split; [exact one2|]. split; [exact sane2|]. split; vm_compute; reflexivity.
Qed.

(** With more rules the meaning of a rule may change: C57_refuted, C56_refuted (Prop_Engine.v).
    The same rulebase as there, with and without the other rule: *)
Theorem C79_two_rules_refuted :
  run0 no_opts ["version=2"; "rule=:%{""name"":""r"",""type"":""repeat"",""parser"":{""name"":""."",""type"":""number""},""while"":{""type"":""literal"",""text"":"",""}}%"]%string "1,2"
  = EOk (true, [(L "r", JArr [JStr (L "1"); JStr (L "2")])]) /\
  run0 no_opts ["version=2"; "rule=:1,2%a:ipv4%"; "rule=:%{""name"":""r"",""type"":""repeat"",""parser"":{""name"":""."",""type"":""number""},""while"":{""type"":""literal"",""text"":"",""}}%"]%string "1,2"
  = EOk (true, [(L "r", JArr [JStr (L "1")])]).
Proof. split; vm_compute; reflexivity. Qed.
(** A named field in the while part of a repeat: NULL is dereferenced. *)
Theorem C79_named_while_refuted :
  run0 no_opts ["rule=:%{""name"":""r"",""type"":""repeat"",""parser"":{""name"":""."",""type"":""number""},""while"":{""name"":""w"",""type"":""literal"",""text"":"",""}}%"]%string "1,2" = EUb NullDeref.
Proof. vm_compute. reflexivity. Qed.
