(** * Prop_Syntax: the syntax of rules (C66) and what field configurations mean (C67).

    [described], [rule_text]: SynSpec.v; [kind_of], [string_options]: TypeSpec.v. *)
From Verif Require Import Base Time Parsers Engine Pdag Samp TestEnv RuleSpec BuiltSpec SynSpec TypeSpec BaseFacts FieldFacts FieldFacts10 EngineFacts2 SynFacts TypeFacts TypeFacts2 Prop_Rules.

(** ** C66 *)
(** The text behind an opening percent sign is read as a field description exactly if it has
    the form of one; it then stands for that configuration and takes the text up to [rest]. *)
Theorem C66_field_description : forall e u rest conf, fieldDescr e ("%"%char :: u) = Ok (rest, conf) <-> described e u rest conf.
Proof. exact fieldDescr_ok. Qed.
Print Assumptions C66_field_description.

(** Literal text up to the next field. *)
Theorem C66_literal_text : forall u l rest, literal_part u = (l, rest) <->
  exists w, spelled w l /\ ((u = w /\ rest = []) \/ (u = w ++ ["%"%char] /\ rest = []) \/ exists c v, rest = "%"%char :: c :: v /\ c <> "%"%char /\ u = w ++ rest)%list.
Proof.
  intros u l rest. split; [apply (part_spelled _ _ _ _ (le_n _))|]. intros (w & Hw & [[-> ->]|[[-> ->]|(c & v & -> & Hc & ->)]]).
  - pose proof (spelled_part w l Hw [] (or_introl eq_refl)) as H. rewrite app_nil_r in H. exact H.
  - apply spelled_part_pct; exact Hw.
  - apply spelled_part; [exact Hw|]. right. eauto.
Qed.
Print Assumptions C66_literal_text.

(** A whole rule: the configurations of C34 to C36 and C42 ([rule_confs]) are those the text is
    written for. *)
Theorem C66_rule_text : forall e t cs, rule_confs e t cs <-> rule_text e t cs.
Proof. exact rule_confs_text. Qed.
Print Assumptions C66_rule_text.

(** A rule text stands for one list of configurations only. *)
Theorem C66_unambiguous : forall e t cs cs', rule_text e t cs -> rule_text e t cs' -> cs = cs'.
Proof.
  intros e t cs cs' H H'. rewrite <- rule_confs_text in H, H'. revert cs' H'. induction H as [|rule lit Hn Hl|rule lit rest rest' conf cs Hl Hr Hd Hc IH]; intros cs' H'.
  - inversion H'; subst; try congruence. match goal with HH : literal_part [] = _ |- _ => cbn in HH; injection HH as <- <- end. congruence.
  - inversion H'; subst; try congruence.
  - inversion H'; subst.
    + cbn in Hl. injection Hl as <- <-. congruence.
    + congruence.
    + match goal with HH : literal_part rule = (?a, ?b) |- _ => lazymatch b with rest => fail | _ => rewrite Hl in HH; injection HH as <- HX; subst b end end.
      match goal with HH : fieldDescr e rest = Ok (?a, _) |- _ => lazymatch a with rest' => fail | _ => rewrite Hd in HH; injection HH as HX HY; subst end end. f_equal. f_equal. apply IH. assumption.
Qed.
Print Assumptions C66_unambiguous.

(** JSON parameters are added to name, type and extra data, and replace them. *)
Lemma entry_put l k v k' : entry (put l k v) k' = if text_eqb k' k then Some v else entry l k'.
Proof.
  unfold entry. induction l as [|[k2 v2] l IH].
  - cbn. destruct (text_eqb k' k); reflexivity.
  - cbn [put]. destruct (text_eqb k k2) eqn:E.
    + apply text_eqb_true in E as <-. cbn [find fst]. destruct (text_eqb k' k); reflexivity.
    + cbn [find fst]. destruct (text_eqb k' k2) eqn:E2; [|exact IH]. apply text_eqb_true in E2 as ->. destruct (text_eqb k2 k) eqn:E3; [apply text_eqb_true in E3 as ->; rewrite text_eqb_refl in E; discriminate|reflexivity].
Qed.
Theorem C66_parameters_override : forall l ms k, NoDup (map fst ms) ->
  entry (put_all l ms) k = match entry ms k with Some v => Some v | None => entry l k end.
Proof.
  intros l ms k. revert l. induction ms as [|[k2 v2] ms IH]; intros l HN; [reflexivity|]. cbn [map fst] in HN. inversion HN; subst. cbn [put_all]. rewrite IH, entry_put by assumption.
  unfold entry at 3. cbn [find fst]. destruct (text_eqb k k2) eqn:E; [|reflexivity]. apply text_eqb_true in E as ->. cbn [option_map snd].
  destruct (entry ms k2) as [v|] eqn:EM; [|reflexivity]. exfalso. unfold entry in EM. destruct (find _ ms) as [[k3 v3]|] eqn:EF; [|discriminate]. apply find_some in EF as [EF1 EF2]. cbn [fst] in EF2. apply text_eqb_true in EF2 as <-. apply H1. apply in_map_iff. exists (k2, v3). auto.
Qed.
Print Assumptions C66_parameters_override.

(** Not every text with an error is refused: extra data without closing percent sign, and
    parameters that are no JSON, are accepted without notice. *)
Theorem C66_missing_percent_sign_refuted :
  ~ forall e u rest conf, fieldDescr e ("%"%char :: u) = Ok (rest, conf) -> exists d, u = (d ++ "%"%char :: rest)%list.
Proof.
  intros H. destruct (H env0 (L "f:char-to:x") [] (JObj [(L "name", JStr (L "f")); (L "type", JStr (L "char-to")); (L "extradata", JStr (L "x"))]) ltac:(vm_compute; reflexivity)) as (d & E).
  assert (HI : In "%"%char (L "f:char-to:x")) by (rewrite E; apply in_or_app; right; left; reflexivity). revert HI. vm_compute. intuition discriminate.
Qed.
Print Assumptions C66_missing_percent_sign_refuted.
Theorem C66_broken_parameters_refuted :
  ~ forall e name typ p u rest conf, json_tok e ("{"%char :: p ++ "%"%char :: u)%list = None ->
      fieldDescr e ("%"%char :: name ++ ":"%char :: typ ++ "{"%char :: p ++ "%"%char :: u)%list <> Ok (rest, conf).
Proof.
  intros H. apply (H env0 (L "f") (L "word") (L "oops}") [] [] (JObj [(L "name", JStr (L "f")); (L "type", JStr (L "word")); (L "extradata", JStr (L "oops}"))])); vm_compute; reflexivity.
Qed.
Print Assumptions C66_broken_parameters_refuted.

(** Examples *)
Example C66_ex_char_to : described env0 (L "f:char-to:,% next") (L " next") (JObj [(L "name", JStr (L "f")); (L "type", JStr (L "char-to")); (L "extradata", JStr (L ","))]).
Proof. apply C66_field_description. vm_compute. reflexivity. Qed.
Example C66_ex_params : described env0 (L "  n:number{""maxval"":5, ""name"":""m""}:x% y") (L " y") (JObj [(L "name", JStr (L "m")); (L "type", JStr (L "number")); (L "extradata", JStr (L "x")); (L "maxval", JInt 5)]).
Proof. apply C66_field_description. vm_compute. reflexivity. Qed.
Example C66_ex_json : described env0 (L "{""type"":""rest"", ""name"":""r""}%") [] (JObj [(L "type", JStr (L "rest")); (L "name", JStr (L "r"))]).
Proof. apply C66_field_description. vm_compute. reflexivity. Qed.
Example C66_ex_rule : rule_text env0 (L "a%%%w:word %b%") [one_literal "a"; one_literal "%"; JObj [(L "name", JStr (L "w")); (L "type", JStr (L "word"))]; one_literal "b"].
Proof.
  apply (rt_field env0 (L "a%%") (L "a%") (L "w:word %b%") (L "b%") (JObj [(L "name", JStr (L "w")); (L "type", JStr (L "word"))]) [one_literal "b"]).
  - repeat constructor; discriminate.
  - exists "w"%char, (L ":word %b%"). split; [reflexivity|discriminate].
  - apply C66_field_description. vm_compute. reflexivity.
  - apply (rt_pct env0 (L "b") (L "b")). repeat constructor; discriminate.
Qed.

(** ** C67 *)
(** A configuration with the members [l] is the field the table says. *)
Theorem C67_field_of_configuration : forall e l typ nm m, NoDup (map fst l) -> text_at l "type" (L typ) -> field_name l nm -> kind_of l typ m ->
  means e (JObj l) (m, nm).
Proof. intros e l typ nm m HD HT HN HK types. exact (kind_flat e l typ nm m types HD HT HN HK). Qed.
Print Assumptions C67_field_of_configuration.

(** Type string: if all parameters are all right they are obeyed. *)
Theorem C67_string_options : forall e l nm, NoDup (map (fun kv => map tolower (fst kv)) l) -> text_at l "type" (L "string") -> field_name l nm -> good_string_options l ->
  exists cfg, string_options l cfg /\ means e (JObj l) (MString cfg, nm).
Proof. intros e l nm HD HT HN HG. destruct (string_flat e l nm HD HT HN HG) as (cfg & HO & HF). exists cfg. split; [exact HO|]. exact HF. Qed.
Print Assumptions C67_string_options.

(** A type name that is not in the table is refused. *)
Theorem C67_unknown_type : forall e types l typ, text_at l "type" (L typ) -> ~ In typ (map fst type_priorities) -> typ <> "alternative"%string -> hd_error (L typ) <> Some "@"%char ->
  refused e types (JObj l).
Proof.
  intros e types l typ [HT HN] HI HA HC. rewrite value_get in HT.
  assert (HL : forall s, L typ = L s -> typ = s). { intros s H. apply (f_equal string_of_list_ascii) in H. unfold L in H. rewrite !string_of_list_ascii_of_string in H. exact H. }
  eapply (unknown_type_refused e types l (L typ)); [exact HT|..]; rewrite cstr_id by auto; auto.
  - intros H. apply HL in H as ->. apply HI. vm_compute. tauto.
  - destruct (simple_type e (L typ) []) as [[pr m]|] eqn:E; [|reflexivity]. exfalso. apply HI. apply in_map_iff. exists (typ, pr). split; [reflexivity|]. eapply simple_prio; eauto.
Qed.
Print Assumptions C67_unknown_type.

(** The priority of a field: the one assigned (30000 if none is), then that of its type. *)
Theorem C67_priority : forall e addp cx l typ cx' p, text_at l "type" (L typ) -> newParser e addp cx (JObj l) = EOk (cx', Some p) ->
  forall a, (value l "priority" = Some (JInt a) /\ 0 <= a < 8388608)%Z \/ (absent l "priority" /\ a = 30000%Z) ->
  exists b, p_prio p = (a * 256 + b)%Z /\ (In (typ, b) type_priorities \/ (hd_error (L typ) = Some "@"%char /\ b = custom_priority)).
Proof.
  intros e addp cx l typ cx' p [HT HTn] HP a HA. rewrite value_get in HT.
  assert (HAS : match obj_get l (L "priority") with None | Some JNull => 30000%Z | Some v => get_int e v end = a /\ (0 <= a < 8388608)%Z).
  { destruct HA as [[HA HB]|[HA ->]]; [|unfold absent in HA]; rewrite value_get in HA; rewrite HA; [|split; [reflexivity|lia]]. split; [|exact HB]. unfold get_int, get_int64. change (2 ^ 31)%Z with 2147483648%Z. lia. }
  destruct HAS as [HAS HB]. unfold newParser, jget in HP. rewrite HT in HP. rewrite need_text in HP by auto. cbn [ebind] in HP. cbv zeta in HP. rewrite HAS in HP.
  destruct (match L typ with c :: _ => ceq c "@" | [] => false end) eqn:EC.
  - destruct (findType _ _ _) as [ti|]; cbn [negb] in HP; [|discriminate]. destruct (match obj_get l (L "name") with None | Some JNull => EOk None | Some v => _ end) as [nm|]; [|discriminate]. cbn [ebind] in HP. injection HP as _ <-. cbn [p_prio].
    exists 16%Z. split; [apply mk_prio_value; lia|]. right. split; [|reflexivity]. destruct (L typ) as [|c t]; [discriminate|]. apply ceq_true in EC as ->. reflexivity.
  - destruct (text_eqb (L typ) (L "repeat")) eqn:ER; cbn [orb negb] in HP.
    + destruct (match obj_get l (L "name") with None | Some JNull => EOk None | Some v => _ end) as [nm|]; [|discriminate]. cbn [ebind] in HP. destruct (construct_repeat _ _ _ _) as [[cx2 k]|]; [|discriminate]. cbn [ebind] in HP. injection HP as _ <-. cbn [p_prio].
      exists 4%Z. split; [apply mk_prio_value; lia|]. left. apply text_eqb_true in ER. apply (f_equal string_of_list_ascii) in ER. unfold L in ER. rewrite !string_of_list_ascii_of_string in ER. subst typ. right; left; reflexivity.
    + destruct (match simple_type e (L typ) [] with Some _ => true | None => false end); cbn [negb] in HP; [|discriminate].
      destruct (match obj_get l (L "name") with None | Some JNull => EOk None | Some v => _ end) as [nm|]; [|discriminate]. cbn [ebind] in HP.
      match type of HP with context [simple_type e (L typ) ?r] => destruct (simple_type e (L typ) r) as [[pr [m|]]|] eqn:ES end; [|discriminate|discriminate]. cbn [ebind] in HP. injection HP as _ <-. cbn [p_prio].
      pose proof (simple_prio _ _ _ _ _ ES) as HI. exists pr. split; [|left; exact HI]. apply mk_prio_value; auto.
      assert (HR : forallb (fun x => Z.leb 0 (snd x) && Z.ltb (snd x) 256)%bool type_priorities = true) by (vm_compute; reflexivity). rewrite forallb_forall in HR. specialize (HR _ HI). cbn [snd] in HR. lia.
Qed.
Print Assumptions C67_priority.

Example C67_ex_number : means env0 (JObj [(L "name", JStr (L "n")); (L "type", JStr (L "number")); (L "format", JStr (L "number")); (L "maxval", JInt 99)]) (MNumber FmtNumber 99, Some (L "n")).
Proof.
  apply (C67_field_of_configuration env0 _ "number").
  - cbn [map fst]. repeat constructor; vm_compute; intuition discriminate.
  - split; [reflexivity|vm_compute; intuition discriminate].
  - apply fn_name; [split; [reflexivity|vm_compute; intuition discriminate]|discriminate].
  - apply ko_number; [right; exists (L "n"); split; [reflexivity|vm_compute; intuition discriminate]| |apply mv_int; reflexivity].
    eapply fo_named; [|left; reflexivity]. split; [reflexivity|vm_compute; intuition discriminate].
Qed.
Example C67_ex_string : exists cfg, s_quote cfg = QReqd /\ s_exact cfg = false /\ s_qb cfg = "'"%char /\
  means env0 (JObj [(L "type", JStr (L "string")); (L "Quoting.Mode", JStr (L "REQUIRED")); (L "quoting.char.begin", JStr (L "'")); (L "quoting.char.end", JStr (L "'"));
                    (L "matching.mode", JStr (L "lazy")); (L "matching.permitted", JArr [JObj [(L "class", JStr (L "alpha"))]; JObj [(L "chars", JStr (L "_-"))]])]) (MString cfg, None).
Proof.
  match goal with |- context [JObj ?l] => set (o := l) end.
  assert (HQ : same_but_case (L "Quoting.Mode") "quoting.mode") by reflexivity.
  destruct (C67_string_options env0 o None) as (cfg & (O1 & _ & O3 & _ & O5 & _) & HM).
  - cbn [o map fst]. vm_compute. repeat constructor; cbn; intuition discriminate.
  - split; [reflexivity|vm_compute; intuition discriminate].
  - apply fn_none. reflexivity.
  - split; [exists QReqd; eapply ch_word with (s := L "REQUIRED") (w := "required"%string); [exists (L "Quoting.Mode"); split; [cbn; tauto|reflexivity]|vm_compute; intuition discriminate|reflexivity|cbn; tauto]|].
    split; [exists (true, true); apply ch_none; intros k v HI; cbn [o In] in HI; repeat (destruct HI as [[= <- <-]|HI]; [discriminate|]); destruct HI|].
    split; [exists "'"%char; apply qc_char; [exists (L "quoting.char.begin"); split; [cbn; tauto|reflexivity]|discriminate]|].
    split; [exists "'"%char; apply qc_char; [exists (L "quoting.char.end"); split; [cbn; tauto|reflexivity]|discriminate]|].
    split; [exists false; eapply ch_word with (s := L "lazy") (w := "lazy"%string); [exists (L "matching.mode"); split; [cbn; tauto|reflexivity]|vm_compute; intuition discriminate|reflexivity|cbn; tauto]|].
    right. eexists. split; [exists (L "matching.permitted"); split; [cbn; tauto|reflexivity]|]. right. eexists. split; [reflexivity|].
    intros x [<-|[<-|[]]]; (eexists; split; [reflexivity|]); intros k y [[= <- <-]|[]]; (eexists; split; [reflexivity|]); intros c HC; repeat (destruct HC as [<-|HC]; [vm_compute; split; [reflexivity|discriminate]|]); destruct HC.
  - exists cfg. split; [|split; [|split; [|exact HM]]].
    + destruct O1 as [HN|s w a (k & HI & HS) Hs Hw Ha]; [exfalso; eapply HN; [|exact HQ]; cbn; tauto|]. cbn [o In] in HI.
      repeat (destruct HI as [EI|HI]; [try discriminate EI; injection EI as <- <-; try discriminate HS|]); [|destruct HI]. cbn [In] in Ha. repeat (destruct Ha as [[= <- <-]|Ha]; [try discriminate Hw; try reflexivity|]). destruct Ha.
    + destruct O5 as [HN|s w a (k & HI & HS) Hs Hw Ha]; [exfalso; eapply HN; [|reflexivity]; cbn; tauto|]. cbn [o In] in HI.
      repeat (destruct HI as [EI|HI]; [try discriminate EI; injection EI as <- <-; try discriminate HS|]); [|destruct HI]. cbn [In] in Ha. repeat (destruct Ha as [[= <- <-]|Ha]; [try discriminate Hw; try reflexivity|]). destruct Ha.
    + destruct O3 as [HN|c (k & HI & HS) Hc]; [exfalso; eapply HN; [|reflexivity]; cbn; tauto|]. cbn [o In] in HI.
      repeat (destruct HI as [EI|HI]; [try discriminate EI; injection EI as <- <-; try discriminate HS; try reflexivity|]). destruct HI.
Qed.
