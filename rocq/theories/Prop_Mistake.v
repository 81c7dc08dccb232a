(** * Prop_Mistake: mistakes in field descriptions are reported where they are (C88). *)
From Coq Require Import String.
From Verif Require Import Base Time Parsers Engine Pdag Samp GraphSpec LineSpec RuleSpec LoadSpec OneSpec Err ErrSpec EngineFacts2 LineFacts MistakeSpec MistakeFacts2 MistakeTop MistakeBack TrapSpec TestEnv.
From Verif Require Prop_Load Prop_Err.
Local Open Scope list_scope.

(** Whatever is wrong with a field description (see [wrong]), at whatever depth: describing the
    field to a context makes a message, unless it crashes. *)
Theorem C88_field_reported : forall e badint cx dag conf r, mistaken e (map fst (c_types cx)) conf -> addParser e cx dag conf = EOk r -> m_addParser e badint cx dag conf <> [].
Proof. intros. eapply addParser_reported; eauto. Qed.
Print Assumptions C88_field_reported.

(** And there is no message without a mistake, but for the four things listed in [quirk] - in
    descriptions without null values and without repeated keys. *)
Theorem C88_no_other_message : forall e badint cx dag conf r, regular conf -> addParser e cx dag conf = EOk r -> m_addParser e badint cx dag conf <> [] ->
  somewhere e (fun j => wrong e (map fst (c_types cx)) j \/ quirk e badint j) conf.
Proof. intros. eapply back_addParser; eauto. Qed.
Print Assumptions C88_no_other_message.

(** A rulebase text, or file, with such a line: the application gets a message with the name of
    the file and the number of that line. *)
Theorem C88_text_reported : forall e badint q fuel o t a line n b names p r, ~ In NUL t -> no_eof e false t -> rulebase false t 0 (a ++ (line, n) :: b) ->
  upto [] None a names p -> bad_line e names p line -> loadString e q fuel (initCtx o) t = EOk r ->
  exists m, In m (m_loadString e badint q fuel (initCtx o) t) /\ m_file m = L "--NO-FILE--" /\ m_line m = n.
Proof.
  intros e badint q fuel o t a line n b names p r HN HE HR HU HB HL. rewrite (Prop_Err.C81_messages_of_text e badint q fuel _ t _ HN HE HR).
  pose proof (Prop_Load.C46_string_line_by_line e q fuel (initCtx o) t _ HN HE HR) as HS. rewrite HL in HS.
  set (cx := set_pos (set_version (initCtx o) 2) (L "--NO-FILE--") 0) in *.
  destruct (process e (loadSamples e q fuel 2) fuel cx (a ++ (line, n) :: b)) as [x|] eqn:EP; [|destruct r; destruct HS].
  eapply reported_there; [exact HU|exact HB|exact EP].
Qed.
Print Assumptions C88_text_reported.
Theorem C88_file_reported : forall e badint q fuel o f t a line n b names p r, files e f = Some (version2 ++ t) -> rulebase true t 1 (a ++ (line, n) :: b) ->
  upto [] None a names p -> bad_line e names p line -> loadFile e q (S fuel) (initCtx o) f = EOk r ->
  exists m, In m (m_loadFile e badint q (S fuel) (initCtx o) f) /\ m_file m = f /\ m_line m = n.
Proof.
  intros e badint q fuel o f t a line n b names p r HF HR HU HB HL. rewrite (Prop_Err.C81_messages_of_file e badint q fuel (initCtx o) f t _ HF (or_introl eq_refl) HR).
  pose proof (Prop_Load.C46_file_line_by_line e q fuel (initCtx o) f t _ HF (or_introl eq_refl) HR) as HS. rewrite HL in HS.
  change (set_pos (set_version (set_pos (initCtx o) f 0) 2) f 1) with (set_pos (set_version (initCtx o) 2) f 1).
  set (cx := set_pos (set_version (initCtx o) 2) f 1) in *.
  destruct (process e (loadSamples e q fuel 2) fuel cx (a ++ (line, n) :: b)) as [x|] eqn:EP; [|destruct r; destruct HS].
  eapply reported_there; [exact HU|exact HB|exact EP].
Qed.
Print Assumptions C88_file_reported.

(** ** The hypotheses can be met *)
Import Prop_Load.
Local Open Scope list_scope.
Definition items88 : list item := map (fun s => Line (L s)) ["type=@who:user %u:word%"; "prefix=login "; "rule=in:%w:@who% at %[{""type"":""word"",""name"":""a""},{""type"":""repeat"",""name"":""b"",""parser"":[{""type"":""word"",""name"":"".""},{""type"":""rest"",""name"":""r""}],""while"":{""type"":""literal"",""text"":"",""}}]%"; "rule=:%t:@whom%"]%string.
Definition conf88 : json := JArr [JObj [(L "type", JStr (L "word")); (L "name", JStr (L "a"))];
  JObj [(L "type", JStr (L "repeat")); (L "name", JStr (L "b")); (L "parser", JArr [JObj [(L "type", JStr (L "word")); (L "name", JStr (L "."))]; JObj [(L "type", JStr (L "rest")); (L "name", JStr (L "r"))]]);
        (L "while", JObj [(L "type", JStr (L "literal")); (L "text", JStr (L ","))])]].
Lemma conf88_mistaken names : mistaken env0 names conf88.
Proof.
  eapply mi_elem; [right; left; reflexivity|]. apply mi_here. eapply wr_dot with (s := L ".").
  - eexists. split; reflexivity.
  - right. right. left. reflexivity.
  - cbn. lia.
  - left. reflexivity.
  - eexists. split; reflexivity.
  - reflexivity.
Qed.
Definition line88 : text := L "%w:@who% at %[{""type"":""word"",""name"":""a""},{""type"":""repeat"",""name"":""b"",""parser"":[{""type"":""word"",""name"":"".""},{""type"":""rest"",""name"":""r""}],""while"":{""type"":""literal"",""text"":"",""}}]%".
Example line88_bad : upto [] None (firstn 2 (numbered 0 items88)) [L "@who"] (Some (L "login ")) /\ bad_line env0 [L "@who"] (Some (L "login ")) (rule_line [L "in"] line88) /\
  nth_error (numbered 0 items88) 2 = Some (rule_line [L "in"] line88, 3%N).
Proof.
  split; [|split; [|reflexivity]].
  - apply (up_type [] None (L "@who") (L "user %u:word%") 1%N); [|discriminate|].
    + split; [eexists; reflexivity|]. split; [cbn; intros H; repeat destruct H as [H|H]; try discriminate; tauto|]. split; [cbn; intros H; repeat destruct H as [H|H]; try discriminate; tauto|]. split; [cbn; intros c H; repeat destruct H as [H|H]; subst; try reflexivity; tauto|reflexivity].
    + apply (up_prefix [L "@who"] None (L "login ") 2%N). apply up_nil.
  - eapply bl_rule with (conf := conf88).
    + repeat constructor; cbn; try discriminate; intros H; repeat destruct H as [H|H]; try discriminate; tauto.
    + discriminate.
    + eapply rc_field; [vm_compute; reflexivity|discriminate|vm_compute; reflexivity|]. eapply rc_field; [vm_compute; reflexivity|discriminate|vm_compute; reflexivity|]. apply rc_nil.
    + apply in_or_app. right. right. apply in_or_app. right. left. reflexivity.
    + apply conf88_mistaken.
Qed.
Example messages88 : Prop_Err.msgs (map (fun i => match i with Line w => S_ w | _ => ""%string end) items88) =
  [(3%N, "'repeat' parser supports dot name only if single parser is used in 'parser' part, invalid construct: "); (3%N, "repeat parser needs 'parser','while' parameters"); (4%N, "unknown user-defined type '@whom'")]%string.
Proof. vm_compute. reflexivity. Qed.

(** Descriptions which the documentation allows are reported too: a field of the type string
    which is matched but not stored, an alternative among other fields. *)
Definition dash88 : json := JObj [(L "type", JStr (L "string")); (L "name", JStr (L "-"))].
Definition alt88 : json := JArr [JObj [(L "type", JStr (L "word")); (L "name", JStr (L "a"))]; JObj [(L "type", JStr (L "alternative")); (L "parser", JArr [JObj [(L "type", JStr (L "word")); (L "name", JStr (L "b"))]])]].
Lemma regular_b conf : (fix ok (j : json) : bool := match j with JNull => false | JArr l => forallb ok l | JObj l => (fix ks (m : fields) : bool := match m with [] => true | (k, v) :: m' => ok v && negb (existsb (text_eqb k) (map fst m')) && ks m' end) l | _ => true end) conf = true -> regular conf.
Proof.
  set (ok := fix ok (j : json) : bool := match j with JNull => false | JArr l => forallb ok l | JObj l => (fix ks (m : fields) : bool := match m with [] => true | (k, v) :: m' => ok v && negb (existsb (text_eqb k) (map fst m')) && ks m' end) l | _ => true end).
  assert (HO : forall l, ok (JObj l) = true -> NoDup (map fst l) /\ forall k v, In (k, v) l -> ok v = true).
  { induction l as [|[k v] l IH]; [split; [constructor|intros k v []]|]. intros H. change (ok v && negb (existsb (text_eqb k) (map fst l)) && ok (JObj l) = true)%bool in H. apply andb_prop in H as [H H3]. apply andb_prop in H as [H1 H2]. destruct (IH H3) as [A B]. split.
    - cbn [map fst]. constructor; [|exact A]. intros HI. apply Bool.negb_true_iff in H2. assert (HX : existsb (text_eqb k) (map fst l) = true) by (apply existsb_exists; exists k; split; [exact HI|apply BaseFacts.text_eqb_refl]). congruence.
    - intros k0 v0 [HI|HI]; [injection HI as <- <-; exact H1|eapply B; eauto]. }
  assert (HW : forall j x, within j x -> ok j = true -> ok x = true).
  { induction 1 as [j|l j x HI HW IH|l k j x HI HW IH]; intros H; [exact H| |].
    - apply IH. change (forallb ok l = true) in H. rewrite forallb_forall in H. auto.
    - apply IH. apply HO in H. eapply (proj2 H); eauto. }
  intros H. split; [intros HX; apply HW in HX; [discriminate|exact H]|]. intros l HX. apply HW in HX; [|exact H]. apply HO in HX. tauto.
Qed.
Theorem C88_only_mistakes_refuted : exists conf r, regular conf /\ addParser env0 (initCtx no_opts) 0 conf = EOk r /\ ~ mistaken env0 [] conf /\ m_addParser env0 (fun _ => false) (initCtx no_opts) 0 conf <> [].
Proof.
  exists dash88, (match addParser env0 (initCtx no_opts) 0 dash88 with EOk r => r | _ => (initCtx no_opts, None) end).
  split; [apply regular_b; reflexivity|]. split; [vm_compute; reflexivity|]. split; [|vm_compute; discriminate].
  assert (HT : forall l0 T, JObj l0 = dash88 -> typed env0 l0 T -> T = L "string") by (intros l0 T HE (v & H1 & H2); injection HE as ->; vm_compute in H1; injection H1 as <-; vm_compute in H2; injection H2 as <-; reflexivity).
  intros H. unfold dash88 in H. inversion H as [j HX HE|l j HI HS HE|l ps j HY HO HI HS HE|l k j HY HI HK HS HE]; [|apply HT in HY; [discriminate HY|reflexivity]|apply HT in HY; [discriminate HY|reflexivity]].
  clear H HE j. inversion HX as [j H1 H2|l H1|l T HY H1 H2 H3|l HY H1|l T k HI HY H1|l T k vs s HI HY HS H1|l k' k vs v s HI HY H1 H2 HS H3|l k v HI HY H1 H2|l s HY H1 H2|l k v s HY H1 H2 HS H3|l k v HY H1 H2 H3 H4|l k a m k' v s HY H1 H2 H3 H4 H5 HS H6|l T ms k v HI HY H1 H2|l T es ms k v HI HY H1 H2 H3|l fs f s HY H1 H2 H3 HS HE]; subst; try (apply HT in HY; [|reflexivity]); try discriminate HY.
  - eapply H1. reflexivity.
  - vm_compute in H1. discriminate.
  - subst T. apply H2. do 31 right. left. reflexivity.
  - cbn [needs In] in HI. repeat (destruct HI as [HI|HI]; [injection HI as <- <-; discriminate HY|]). destruct HI.
  - cbn [choices In] in HI. repeat (destruct HI as [HI|HI]; [injection HI as <- <- <-; discriminate HY|]). destruct HI.
  - cbn [string_choices In] in HI. destruct H1 as [H1|[H1|[]]]; injection H1 as <- <-; (repeat (destruct HI as [HI|HI]; [injection HI as <- <-; discriminate H2|])); destruct HI.
  - apply Exists_exists in H2 as (x & HI & HX2). destruct H1 as [H1|[H1|[]]]; injection H1 as <- <-; destruct HI as [<-|[<-|[]]]; discriminate HX2.
  - destruct H1 as [H1|[H1|[]]]; injection H1 as <- <-; discriminate H2.
  - destruct H1 as [H1|[H1|[]]]; discriminate H1.
  - cbn [members In] in HI. repeat (destruct HI as [HI|HI]; [injection HI as <- <-; discriminate HY|]). destruct HI.
  - apply H2. destruct H1 as [H1|[H1|[]]]; injection H1 as <- <-; [left; reflexivity|right; left; reflexivity].
Qed.
Print Assumptions C88_only_mistakes_refuted.
Example alternative_reported : exists r, addParser env0 (initCtx no_opts) 0 alt88 = EOk r /\ map (fun b => S_ (b_text b)) (m_addParser env0 (fun _ => false) (initCtx no_opts) 0 alt88) = ["invalid field type 'alternative'"%string].
Proof. eexists. split; vm_compute; reflexivity. Qed.
