(** * Prop_Enc: claims about the encoders (CSV, RFC 5424 structured data, XML). The readers are in EncSpec. *)
From Verif Require Import Base Time Parsers Engine Pdag Samp BaseFacts FieldFacts FieldFacts10 Enc EncSpec EncFacts EncFacts2 TestEnv.

(** ** C50 CSV *)
(** Whatever the names and the values: the output reads as one column per listed name, in that order, with the value of
    that member, and there is no other way to read it. *)
Theorem C50_csv_reads_back : forall e o spec names cols,
  no_nul spec -> listed spec names -> Forall2 (csv_cell e o) names cols ->
  exists out, fmtEventToCSV e (JObj o) (Some spec) = Ok (0%Z, out) /\ row json_text out cols /\
    forall cols', row json_text out cols' -> cols' = cols.
Proof.
  intros e o spec names cols H1 H2 H3. destruct (csv_event_ok e o spec names cols H1 H2 H3) as (out & HO & HR).
  exists out. split; [exact HO|]. split; [exact HR|]. intros cols' H'. exact (json_row_fun _ _ _ HR H').
Qed.
Print Assumptions C50_csv_reads_back.
(** every name list is covered *)
Theorem C50_every_list : forall spec, exists names, listed spec names.
Proof. exact listed_total. Qed.
Print Assumptions C50_every_list.
(** A reader of RFC 4180 gets the same, as long as no value holds a control character, a quote or a backslash. *)
Theorem C50_rfc4180 : forall e o spec names cols,
  no_nul spec -> listed spec names -> Forall2 (csv_cell e o) names cols ->
  (forall v, In (Some v) cols -> Forall json_plain v) ->
  exists out, fmtEventToCSV e (JObj o) (Some spec) = Ok (0%Z, out) /\ row rfc4180_text out cols /\
    forall cols', row rfc4180_text out cols' -> cols' = cols.
Proof.
  intros e o spec names cols H1 H2 H3 H4. destruct (csv_event_rfc e o spec names cols H1 H2 H3 H4) as (out & HO & HR).
  exists out. split; [exact HO|]. split; [exact HR|]. intros cols' H'. exact (rfc4180_row_fun _ _ _ HR H').
Qed.
Print Assumptions C50_rfc4180.
Example C50_ex :
  fmtEventToCSV env0 (JObj [(L "a", JStr ["x"; """"; ","; chr 10]%char); (L "b", JArr [JStr (L "1"); JStr (L "2")])]) (Some (L "b,zz a")) =
    Ok (0%Z, L """[2,1]"",,""x\"",\n""").
Proof. vm_compute. reflexivity. Qed.
Example C50_ex2 : let o := [(L "a", JStr ["x"; """"; ","; chr 10]%char); (L "b", JArr [JStr (L "1"); JStr (L "2")])] in
  no_nul (L "b,zz a") /\ listed (L "b,zz a") [L "b"; L "zz"; L "a"] /\
  Forall2 (csv_cell env0 o) [L "b"; L "zz"; L "a"] [Some (L "[2,1]"); None; Some ["x"; """"; ","; chr 10]%char].
Proof.
  cbn zeta. split; [|split].
  - unfold no_nul. rewrite <- mem_In. discriminate.
  - apply (li_more (L "b") ","%char (L "zz a")); [rewrite <- mem_In; discriminate|rewrite <- mem_In; discriminate|auto|].
    apply (li_more (L "zz") " "%char (L "a")); [rewrite <- mem_In; discriminate|rewrite <- mem_In; discriminate|auto|].
    apply li_one; rewrite <- mem_In; discriminate.
  - constructor; [|constructor; [|constructor; [|constructor]]].
    + apply (cc_array env0 _ (L "b") [JStr (L "1"); JStr (L "2")] [L "1"; L "2"]).
      * exists [(L "a", JStr ["x"; """"; ","; chr 10]%char)], []. split; [reflexivity|]. cbn [map fst In]. intros [H|[]]. discriminate H.
      * constructor; [|constructor; [|constructor]]; constructor; unfold no_nul; rewrite <- mem_In; discriminate.
    + apply cc_missing. cbn [member map fst In]. intros [H|[H|[]]]; discriminate H.
    + apply (cc_scalar env0 _ (L "a") (JStr ["x"; """"; ","; chr 10]%char)).
      * exists [], [(L "b", JArr [JStr (L "1"); JStr (L "2")])]. split; [reflexivity|]. intros [].
      * constructor. unfold no_nul. rewrite <- mem_In. discriminate.
Qed.
(** A reader of RFC 4180 does not get every value back: a backslash is read as two. *)
Theorem C50_rfc4180_refuted : exists o spec names v,
  listed spec names /\ Forall2 (csv_cell env0 o) names [Some v] /\
  forall r out w, fmtEventToCSV env0 (JObj o) (Some spec) = Ok (r, out) -> row rfc4180_text out [Some w] -> w <> v.
Proof.
  exists [(L "a", JStr (L "\"))], (L "a"), [L "a"], (L "\"). split; [|split].
  - apply li_one; rewrite <- mem_In; discriminate.
  - constructor; [|constructor]. apply (cc_scalar env0 _ (L "a") (JStr (L "\"))).
    + exists [], []. split; [reflexivity|]. intros [].
    + constructor. unfold no_nul. rewrite <- mem_In. discriminate.
  - intros r out w HO HR.
    assert (HX : fmtEventToCSV env0 (JObj [(L "a", JStr (L "\"))]) (Some (L "a")) = Ok (0%Z, [""""%char] ++ L "\\" ++ [""""%char])) by (vm_compute; reflexivity).
    rewrite HX in HO. assert (HO' : out = [""""%char] ++ L "\\" ++ [""""%char]) by (exact (eq_sym (f_equal (fun x => match x with Ok (_, y) => y | _ => [] end) HO))). subst out.
    assert (HP : row rfc4180_text ([""""%char] ++ L "\\" ++ [""""%char]) [Some (L "\\")]).
    { apply row_one. apply rt_plain; [discriminate|]. apply rt_plain; [discriminate|]. constructor. }
    pose proof (rfc4180_row_fun _ _ _ HP HR) as HE. injection HE as ->. discriminate.
Qed.
Print Assumptions C50_rfc4180_refuted.
(** The order of an array is not kept, and a comma inside an element cannot be told from the separator. *)
Theorem C50_arrays_refuted :
  fmtEventToCSV env0 (JObj [(L "a", JArr [JStr (L "1"); JStr (L "2,3")])]) (Some (L "a")) = Ok (0%Z, L """[2,3,1]""") /\
  fmtEventToCSV env0 (JObj [(L "a", JArr [JStr (L "1"); JStr (L "3"); JStr (L "2")])]) (Some (L "a")) = Ok (0%Z, L """[2,3,1]""").
Proof. split; vm_compute; reflexivity. Qed.
Print Assumptions C50_arrays_refuted.

(** ** C51 RFC 5424 structured data *)
Theorem C51_structured_data_reads_back : forall e o ps, ~ In (L "event.tags") (map fst o) ->
  Forall2 (fun m p => fst m = fst p /\ sd_name (fst m) /\ shown e (snd m) (snd p)) o ps ->
  exists r out, fmtEventToRFC5424 e (JObj o) = Ok (r, out) /\ sd_element out ps /\
    forall ps', sd_element out ps' -> ps' = ps.
Proof.
  intros e o ps H1 H2. destruct (syslog_event_ok e o ps H1 H2) as (r & out & HO & HR).
  exists r, out. split; [exact HO|]. split; [exact HR|]. intros ps' H'. exact (sd_element_fun _ _ _ HR H').
Qed.
Print Assumptions C51_structured_data_reads_back.
(** With tags: they come first, from the last to the first, and are readable as long as no tag holds a comma, a backslash,
    a closing bracket or a quote. *)
Theorem C51_with_tags : forall e a b tags vs psa psb,
  ~ In (L "event.tags") (map fst a) -> ~ In (L "event.tags") (map fst b) ->
  Forall2 (scalar e) tags vs -> Forall sd_tag vs -> tags <> [] ->
  Forall2 (fun m p => fst m = fst p /\ sd_name (fst m) /\ shown e (snd m) (snd p)) a psa ->
  Forall2 (fun m p => fst m = fst p /\ sd_name (fst m) /\ shown e (snd m) (snd p)) b psb ->
  exists out, fmtEventToRFC5424 e (JObj (a ++ (L "event.tags", JArr tags) :: b)) = Ok (0%Z, out) /\
    sd_element out ((L "event.tags", rev vs) :: psa ++ psb) /\
    forall ps', sd_element out ps' -> ps' = (L "event.tags", rev vs) :: psa ++ psb.
Proof.
  intros e a b tags vs psa psb H1 H2 H3 H4 H5 H6 H7. destruct (syslog_tags_ok e a b tags vs psa psb H1 H2 H3 H4 H5 H6 H7) as (out & HO & HR).
  exists out. split; [exact HO|]. split; [exact HR|]. intros ps' H'. exact (sd_element_fun _ _ _ HR H').
Qed.
Print Assumptions C51_with_tags.
Example C51_ex :
  fmtEventToRFC5424 env0 (JObj [(L "a", JStr (L "x""] y")); (L "event.tags", JArr [JStr (L "t1"); JStr (L "t2")]); (L "b", JArr [JStr (L "1,"); JStr (L "2")])]) =
    Ok (0%Z, L "[cee@115 event.tags=""t2,t1"" a=""x\""\] y"" b=""2,1\,""]").
Proof. vm_compute. reflexivity. Qed.
Example C51_ex2 :
  Forall2 (fun m p => fst m = fst p /\ sd_name (fst m) /\ shown env0 (snd m) (snd p)) [(L "a", JStr (L "x""] y")); (L "b", JArr [JStr (L "1,"); JStr (L "2")])]
    [(L "a", [L "x""] y"]); (L "b", [L "2"; L "1,"])].
Proof.
  assert (HS : forall s, mem s NUL = false -> scalar env0 (JStr s) s) by (intros s H; constructor; unfold no_nul; rewrite <- mem_In; congruence).
  assert (HN : forall c, (33 <= code c <= 126)%N /\ mem ["="; " "; "]"; """"]%char c = false -> sd_name [c]).
  { intros c [H1 H2]. constructor; [|constructor]. split; [exact H1|]. rewrite <- mem_In. congruence. }
  constructor; [|constructor; [|constructor]]; cbn [fst snd]; (split; [reflexivity|]).
  - split; [apply HN; vm_compute; repeat split; discriminate|]. apply sh_scalar. apply HS. reflexivity.
  - split; [apply HN; vm_compute; repeat split; discriminate|]. apply (sh_array env0 _ [L "1,"; L "2"]); [|discriminate].
    constructor; [apply HS; reflexivity|]. constructor; [apply HS; reflexivity|]. constructor.
Qed.
(** The value as a reader of RFC 5424 alone gets it: a comma and a line feed are not read back. *)
Theorem C51_rfc5424_refuted :
  (exists out, fmtEventToRFC5424 env0 (JObj [(L "a", JStr (L "1,2"))]) = Ok ((-1)%Z, L "[cee@115 a=""" ++ out ++ L """]") /\ rfc5424_value out (L "1\,2")) /\
  (exists out, fmtEventToRFC5424 env0 (JObj [(L "a", JStr [chr 10])]) = Ok ((-1)%Z, L "[cee@115 a=""" ++ out ++ L """]") /\ rfc5424_value out (L "\n")).
Proof.
  assert (HN : forall c, mem ["\"; "]"; """"]%char c = false -> ~ In c ["\"; "]"; """"]%char) by (intros c H; rewrite <- mem_In; congruence).
  split.
  - exists (L "1\,2"). split; [vm_compute; reflexivity|]. apply rv_plain; [apply HN; reflexivity|]. apply rv_lone; [apply HN; reflexivity|].
    apply rv_plain; [apply HN; reflexivity|]. apply rv_plain; [apply HN; reflexivity|]. constructor.
  - exists (L "\n"). split; [vm_compute; reflexivity|]. apply rv_lone; [apply HN; reflexivity|]. apply rv_plain; [apply HN; reflexivity|]. constructor.
Qed.
Print Assumptions C51_rfc5424_refuted.
(** Names and tags are copied as they are: two different events give the same text. *)
Theorem C51_names_tags_refuted :
  fmtEventToRFC5424 env0 (JObj [(L "a=""1"" b", JStr (L "2"))]) = fmtEventToRFC5424 env0 (JObj [(L "a", JStr (L "1")); (L "b", JStr (L "2"))]) /\
  fmtEventToRFC5424 env0 (JObj [(L "event.tags", JArr [JStr (L "t"" b=""2")])]) = fmtEventToRFC5424 env0 (JObj [(L "event.tags", JArr [JStr (L "t")]); (L "b", JStr (L "2"))]).
Proof. split; vm_compute; reflexivity. Qed.
Print Assumptions C51_names_tags_refuted.
(** A member whose value is null stops the process where assertions are compiled in; an empty array cannot be told from an empty text. *)
Theorem C51_null_refuted :
  fmtEventToRFC5424 env0 (JObj [(L "a", JNull)]) = Ub AssertFail /\ fmtEventToXML env0 (JObj [(L "a", JNull)]) = Ub AssertFail /\
  fmtEventToRFC5424 env0 (JObj [(L "a", JArr [])]) = fmtEventToRFC5424 env0 (JObj [(L "a", JStr [])]).
Proof. repeat split; vm_compute; reflexivity. Qed.
Print Assumptions C51_null_refuted.

(** ** C52 XML *)
Theorem C52_xml_reads_back : forall e o fs, ~ In (L "event.tags") (map fst o) ->
  Forall2 (fun m p => fst m = fst p /\ no_nul (fst m) /\ xml_attr (fst m) /\ xml_shown e (snd m) (snd p)) o fs ->
  exists r out, fmtEventToXML e (JObj o) = Ok (r, out) /\ xml_event out fs /\
    forall fs', xml_event out fs' -> fs' = fs.
Proof.
  intros e o fs H1 H2. destruct (xml_event_ok e o fs H1 H2) as (r & out & HO & HR).
  exists r, out. split; [exact HO|]. split; [exact HR|]. intros fs' H'. exact (xml_event_fun _ _ _ HR H').
Qed.
Print Assumptions C52_xml_reads_back.
Theorem C52_with_tags : forall e a b tags vs fa fb,
  ~ In (L "event.tags") (map fst a) -> ~ In (L "event.tags") (map fst b) ->
  Forall2 (scalar e) tags vs -> Forall xml_tag vs ->
  Forall2 (fun m p => fst m = fst p /\ no_nul (fst m) /\ xml_attr (fst m) /\ xml_shown e (snd m) (snd p)) a fa ->
  Forall2 (fun m p => fst m = fst p /\ no_nul (fst m) /\ xml_attr (fst m) /\ xml_shown e (snd m) (snd p)) b fb ->
  exists tt t, fmtEventToXML e (JObj (a ++ (L "event.tags", JArr tags) :: b)) =
      Ok (0%Z, L "<event>" ++ (L "<event.tags>" ++ tt ++ L "</event.tags>") ++ t ++ L "</event>") /\
    xml_tags_text tt (rev vs) /\ xml_fields t (fa ++ fb).
Proof. exact xml_tags_ok. Qed.
Print Assumptions C52_with_tags.
Example C52_ex :
  fmtEventToXML env0 (JObj [(L "a", JStr (L "<b> & c")); (L "event.tags", JArr [JStr (L "t")]); (L "b", JArr [JStr (L "1"); JStr (L "2")])]) =
    Ok (0%Z, L "<event><event.tags><tag>t</tag></event.tags><field name=""a""><value>&lt;b> &amp; c</value></field><field name=""b""><value>2</value><value>1</value></field></event>").
Proof. vm_compute. reflexivity. Qed.
Example C52_ex2 :
  Forall2 (fun m p => fst m = fst p /\ no_nul (fst m) /\ xml_attr (fst m) /\ xml_shown env0 (snd m) (snd p)) [(L "a", JStr (L "<b>"))] [(L "a", inl [L "<b>"])].
Proof.
  constructor; [|constructor]. cbn [fst snd]. split; [reflexivity|]. split; [unfold no_nul; rewrite <- mem_In; discriminate|]. split.
  - constructor; [|constructor]. rewrite <- mem_In. discriminate.
  - apply xs_scalar. constructor. unfold no_nul. rewrite <- mem_In. discriminate.
Qed.
(** The output need not be XML: bytes that no XML document may hold are copied, and names and tags are copied as they are. *)
Theorem C52_wellformed_refuted :
  fmtEventToXML env0 (JObj [(L "a", JStr [chr 1])]) = Ok ((-1)%Z, L "<event><field name=""a""><value>" ++ [chr 1] ++ L "</value></field></event>") /\
  fmtEventToXML env0 (JObj [(L "<", JStr [])]) = Ok ((-1)%Z, L "<event><field name=""<""><value></value></field></event>") /\
  fmtEventToXML env0 (JObj [(L "event.tags", JArr [JStr (L "<")])]) = Ok (0%Z, L "<event><event.tags><tag><</tag></event.tags></event>").
Proof. repeat split; vm_compute; reflexivity. Qed.
Print Assumptions C52_wellformed_refuted.

(** ** C53 return codes *)
Lemma comma_loop_null e add b l : (forall j, In j l -> j <> JNull) <-> snd (comma_loop e add b l) = true.
Proof.
  revert b. induction l as [|j l IH]; intros b; [cbn; split; auto; intros _ j []|]. cbn [comma_loop]. destruct (jstring e j) as [v|] eqn:E.
  - specialize (IH true). destruct (comma_loop e add true l) as [r ok]. cbn [snd] in *. rewrite <- IH. split.
    + intros H k Hk. apply H. right. exact Hk.
    + intros H k [<-|Hk]; [intros ->; discriminate E|apply H, Hk].
  - cbn [snd]. split; [|discriminate]. intros H. exfalso. destruct j; try discriminate E. apply (H JNull (or_introl eq_refl)). reflexivity.
Qed.
Lemma xml_tags_null e l : (forall j, In j l -> j <> JNull) <-> snd (xml_tags e l) = true.
Proof.
  induction l as [|j l IH]; [cbn; split; auto; intros _ j []|]. cbn [xml_tags]. destruct (jstring e j) as [v|] eqn:E.
  - destruct (xml_tags e l) as [r ok]. cbn [snd] in *. rewrite <- IH. split.
    + intros H k Hk. apply H. right. exact Hk.
    + intros H k [<-|Hk]; [intros ->; discriminate E|apply H, Hk].
  - cbn [snd]. split; [|discriminate]. intros H. exfalso. destruct j; try discriminate E. apply (H JNull (or_introl eq_refl)). reflexivity.
Qed.
Lemma get_member o n x : obj_get o n = x -> member o n x.
Proof.
  intros <-. induction o as [|[k v] o IH]; cbn [obj_get]; [intros []|]. destruct (text_eqb n k) eqn:E.
  - apply text_eqb_true in E. subst. exists [], o. split; [reflexivity|intros []].
  - apply text_eqb_false in E. destruct (obj_get o n) as [w|]; cbn [member] in *.
    + destruct IH as (a & b & -> & HN). exists ((k, v) :: a), b. split; [reflexivity|]. cbn [map fst In]. intros [H|H]; [congruence|contradiction].
    + cbn [map fst In]. intros [H|H]; [congruence|contradiction].
Qed.
(** CSV: 0 exactly when a list of names is given, -1 otherwise. The other two: 0 exactly when the event has tags and none of them is null,
    -1 otherwise; the text is complete unless a tag is null. *)
Theorem C53_return_codes : forall e o,
  (forall names r out, fmtEventToCSV e (JObj o) names = Ok (r, out) -> (r = 0%Z <-> names <> None) /\ (r = 0%Z \/ r = (-1)%Z)) /\
  (forall r out, fmtEventToRFC5424 e (JObj o) = Ok (r, out) ->
     (r = 0%Z <-> exists tags, member o (L "event.tags") (Some (JArr tags)) /\ forall j, In j tags -> j <> JNull) /\
     (r = 0%Z \/ r = (-1)%Z) /\
     ((exists u, out = L "[cee@115" ++ u ++ L "]") \/ exists tags, member o (L "event.tags") (Some (JArr tags)) /\ In JNull tags)) /\
  (forall r out, fmtEventToXML e (JObj o) = Ok (r, out) ->
     (r = 0%Z <-> exists tags, member o (L "event.tags") (Some (JArr tags)) /\ forall j, In j tags -> j <> JNull) /\
     (r = 0%Z \/ r = (-1)%Z) /\
     ((exists u, out = L "<event>" ++ u ++ L "</event>") \/ exists tags, member o (L "event.tags") (Some (JArr tags)) /\ In JNull tags)).
Proof.
  assert (HIN : forall l, (forall j, In j l -> j <> JNull) \/ In JNull l).
  { induction l as [|j l IH]; [left; intros j []|]. destruct IH as [IH|IH]; [|right; right; exact IH].
    destruct j; try (left; intros k [<-|Hk]; [discriminate|apply IH, Hk]). right. left. reflexivity. }
  intros e o. split; [|split].
  - intros [names|] r out; cbn [fmtEventToCSV]; intros HE.
    + assert (r = 0%Z) by congruence. split; [|auto]. split; [discriminate|auto].
    + assert (r = (-1)%Z) by congruence. subst. split; [|auto]. split; [discriminate|]. intros HF. contradiction.
  - intros r out. cbn [fmtEventToRFC5424]. destruct (obj_get o (L "event.tags")) as [tl|] eqn:EG.
    + destruct tl as [| | | | |l|]; cbn [addTags_Syslog bind]; try discriminate. pose proof (comma_loop_null e cstr false (rev l)) as HC.
      destruct (comma_loop e cstr false (rev l)) as [t ok]. cbn [snd] in HC. cbn [bind]. destruct ok.
      * destruct (members_Syslog e o) as [m| |]; cbn [bind]; try discriminate. intros HE. assert (r = 0%Z) by congruence. subst r. split; [|split].
        -- split; [intros _|auto]. exists l. split; [apply get_member; exact EG|]. intros j Hj. apply (proj2 HC eq_refl). apply in_rev in Hj. exact Hj.
        -- auto.
        -- left. eexists. assert (out = L "[cee@115" ++ (L " event.tags=""" ++ t ++ L """") ++ m ++ L "]") by congruence. subst out.
           rewrite (app_assoc _ m (L "]")). reflexivity.
      * intros HE. assert (r = (-1)%Z) by (unfold LN_NOMEM in HE; congruence). subst r.
        assert (HB : ~ (forall j, In j l -> j <> JNull)).
        { intros HA. assert (false = true) by (apply HC; intros j Hj; apply HA; apply in_rev; exact Hj). discriminate. }
        split; [|split].
        -- split; [discriminate|]. intros (tags & HM & HA). apply member_get in HM. assert (tags = l) by congruence. subst. contradiction.
        -- auto.
        -- right. exists l. split; [apply get_member; exact EG|]. destruct (HIN l); [contradiction|assumption].
    + destruct (members_Syslog e o) as [m| |]; cbn [bind]; try discriminate. intros HE. assert (r = (-1)%Z) by congruence. subst r. split; [|split].
      * split; [discriminate|]. intros (tags & HM & _). apply member_get in HM. congruence.
      * auto.
      * left. exists m. congruence.
  - intros r out. cbn [fmtEventToXML]. destruct (obj_get o (L "event.tags")) as [tl|] eqn:EG.
    + destruct tl as [| | | | |l|]; cbn [addTags_XML bind]; try discriminate. pose proof (xml_tags_null e (rev l)) as HC.
      destruct (xml_tags e (rev l)) as [t ok]. cbn [snd] in HC. cbn [bind]. destruct ok.
      * destruct (members_XML e o) as [m| |]; cbn [bind]; try discriminate. intros HE. assert (r = 0%Z) by congruence. subst r. split; [|split].
        -- split; [intros _|auto]. exists l. split; [apply get_member; exact EG|]. intros j Hj. apply (proj2 HC eq_refl). apply in_rev in Hj. exact Hj.
        -- auto.
        -- left. eexists. assert (out = L "<event>" ++ (L "<event.tags>" ++ t ++ L "</event.tags>") ++ m ++ L "</event>") by congruence. subst out.
           rewrite (app_assoc _ m (L "</event>")). reflexivity.
      * intros HE. assert (r = (-1)%Z) by (unfold LN_NOMEM in HE; congruence). subst r.
        assert (HB : ~ (forall j, In j l -> j <> JNull)).
        { intros HA. assert (false = true) by (apply HC; intros j Hj; apply HA; apply in_rev; exact Hj). discriminate. }
        split; [|split].
        -- split; [discriminate|]. intros (tags & HM & HA). apply member_get in HM. assert (tags = l) by congruence. subst. contradiction.
        -- auto.
        -- right. exists l. split; [apply get_member; exact EG|]. destruct (HIN l); [contradiction|assumption].
    + destruct (members_XML e o) as [m| |]; cbn [bind]; try discriminate. intros HE. assert (r = (-1)%Z) by congruence. subst r. split; [|split].
      * split; [discriminate|]. intros (tags & HM & _). apply member_get in HM. congruence.
      * auto.
      * left. exists m. congruence.
Qed.
Print Assumptions C53_return_codes.
(** So the code does not tell success from failure: a complete encoding is reported as failed. *)
Theorem C53_success_refuted :
  fmtEventToRFC5424 env0 (JObj [(L "a", JStr (L "b"))]) = Ok ((-1)%Z, L "[cee@115 a=""b""]") /\
  fmtEventToXML env0 (JObj [(L "a", JStr (L "b"))]) = Ok ((-1)%Z, L "<event><field name=""a""><value>b</value></field></event>") /\
  fmtEventToRFC5424 env0 (JObj [(L "event.tags", JArr [])]) = Ok (0%Z, L "[cee@115 event.tags=""""]").
Proof. repeat split; vm_compute; reflexivity. Qed.
Print Assumptions C53_success_refuted.
