(** * MistakeFacts: mistakes in field descriptions are reported. *)
From Verif Require Import Base Time Parsers Engine Pdag Samp OneSpec LoadText GraphSpec LineSpec RuleSpec LoadSpec Err ErrSpec FrameFacts SimFacts EngineFacts2 BaseFacts TypeFacts ErrFacts ErrQuiet MistakeSpec.

Lemma caseeq_same k a b : caseeq k a = true -> caseeq k b = caseeq a b.
Proof. unfold caseeq. intros H. apply text_eqb_true in H. rewrite H. reflexivity. Qed.
Lemma not_one k l x : ~ one_of k l -> In x l -> text_eqb k (L x) = false.
Proof. intros H HI. destruct (text_eqb k (L x)) eqn:E; auto. apply text_eqb_true in E. destruct H. apply Exists_exists. eauto. Qed.
Lemma not_one_any k l x : ~ one_of_any_case k l -> In x l -> caseeq k (L x) = false.
Proof. intros H HI. destruct (caseeq k (L x)) eqn:E; auto. destruct H. apply Exists_exists. eauto. Qed.
Lemma text_eqb_sym a b : text_eqb a b = text_eqb b a.
Proof. destruct (text_eqb a b) eqn:E, (text_eqb b a) eqn:E2; auto; [apply text_eqb_true in E|apply text_eqb_true in E2]; subst; rewrite text_eqb_refl in *; discriminate. Qed.

Section Facts.
Variable e : env.
Variable badint : json -> bool.

Definition plain_keys : list string := ["type"; "name"; "priority"]%string.
Definition rest_ok (l rest : fields) : Prop :=
  (forall k v, In (k, v) l -> ~ one_of k plain_keys -> In (k, v) rest) /\ (forall k, ~ one_of k plain_keys -> obj_get rest k = obj_get l k).

Lemma rest_is l (name : option text) : rest_ok l (match name with Some _ => obj_del (obj_del (obj_del l (L "type")) (L "priority")) (L "name") | None => obj_del (obj_del l (L "type")) (L "priority") end).
Proof.
  assert (HN : forall k x, ~ one_of k plain_keys -> In x plain_keys -> k <> L x) by (intros k x H HI ->; apply H; apply Exists_exists; eauto).
  assert (HX : forall k x, ~ one_of k plain_keys -> In x plain_keys -> text_eqb k (L x) = false) by (intros; eapply not_one; eauto).
  split.
  - intros k v HI HK. destruct name; repeat (apply In_del_other; [apply HN; [exact HK|cbn; tauto]|]); exact HI.
  - intros k HK. destruct name; rewrite ?obj_get_del by (apply HX; [exact HK|cbn; tauto]); reflexivity.
Qed.

Lemma simple_unknown T l : ~ one_of T type_names -> simple_type e T l = None.
Proof.
  intros H. unfold simple_type.
  repeat match goal with |- (if text_eqb T (L ?x) then _ else _) = None => replace (text_eqb T (L x)) with false by (symmetry; eapply not_one; [exact H|cbn; tauto]) end. reflexivity.
Qed.

Lemma m_fmt_in who colon fmtof usemax k v : forall l, In (k, v) l -> (forall l', m_fmt e badint who colon fmtof usemax ((k, v) :: l') <> []) -> m_fmt e badint who colon fmtof usemax l <> [].
Proof. induction l as [|[k0 v0] l IH]; intros HI H; [destruct HI|]. destruct HI as [HI|HI]; [injection HI as -> ->; apply H|]. cbn [m_fmt]. apply app_ne_r. apply IH; auto. Qed.
Lemma m_fmt_value who colon fmtof usemax v s l : obj_get l (L "format") = Some v -> jstring e v = Some s -> fmtof s = None -> m_fmt e badint who colon fmtof usemax l <> [].
Proof.
  intros HG HS HF. apply obj_get_In in HG. eapply m_fmt_in; [exact HG|]. intros l'. cbn [m_fmt]. apply app_ne_l.
  replace (usemax && text_eqb (L "format") (L "maxval"))%bool with false by (destruct usemax; reflexivity). rewrite text_eqb_refl, HS, HF. discriminate.
Qed.
Lemma m_fmt_member who colon fmtof usemax k v l : In (k, v) l -> text_eqb k (L "format") = false -> text_eqb k (L "name") = false -> (usemax && text_eqb k (L "maxval"))%bool = false -> m_fmt e badint who colon fmtof usemax l <> [].
Proof. intros HI H1 H2 H3. eapply m_fmt_in; [exact HI|]. intros l'. cbn [m_fmt]. apply app_ne_l. rewrite H1, H2, H3. discriminate. Qed.

Lemma m_lea_in v s : forall l t t', In (L "terminator", v) l -> jstring e v = Some s -> List.length s <> 1 -> lea_conf e l t = EOk t' -> m_lea e l <> [].
Proof.
  induction l as [|[k0 v0] l IH]; intros t t' HI HS HL H; [destruct HI|]. cbn [m_lea lea_conf] in *. destruct HI as [HI|HI].
  - injection HI as -> ->. rewrite text_eqb_refl, HS. destruct s as [|a [|b s]]; try discriminate. cbn in HL. lia.
  - destruct (text_eqb k0 (L "terminator")).
    + unfold need_str in H. destruct (jstring e v0) as [s0|]; [|discriminate]. cbn [ebind] in H. destruct s0 as [|a [|b s0]]; try discriminate. eapply IH; eauto.
    + eapply IH; eauto.
Qed.

Lemma m_string_skip kv l : m_string e l <> [] -> m_string e (kv :: l) <> [].
Proof.
  intros H. destruct kv as [k v]. cbn [m_string]. cbv zeta.
  destruct (caseeq k (L "quoting.mode")); [destruct (_ || _)%bool; [exact H|discriminate]|].
  destruct (caseeq k (L "quoting.escape.mode")); [destruct (_ || _)%bool; [exact H|discriminate]|].
  destruct (caseeq k (L "quoting.char.begin")); [destruct (match jstring e v with Some s => s | None => [] end) as [|? [|? ?]]; try discriminate; exact H|].
  destruct (caseeq k (L "quoting.char.end")); [destruct (match jstring e v with Some s => s | None => [] end) as [|? [|? ?]]; try discriminate; exact H|].
  destruct (caseeq k (L "matching.permitted")); [apply app_ne_r; exact H|].
  destruct (caseeq k (L "matching.mode")); [destruct (_ || _)%bool; [exact H|discriminate]|]. discriminate.
Qed.
Lemma m_string_in k v : forall l, In (k, v) l -> (forall l', m_string e ((k, v) :: l') <> []) -> m_string e l <> [].
Proof. induction l as [|[k0 v0] l IH]; intros HI H; [destruct HI|]. destruct HI as [HI|HI]; [injection HI as -> ->; apply H|]. apply m_string_skip. apply IH; auto. Qed.
Lemma m_string_choice k' k vs v s l : In (k, vs) string_choices -> In (k', v) l -> caseeq k' (L k) = true -> jstring e v = Some s -> ~ one_of_any_case s vs -> m_string e l <> [].
Proof.
  intros HC HI HK HS HO. eapply m_string_in; [exact HI|]. intros l'. cbn [m_string]. cbv zeta. rewrite HS.
  destruct HC as [HC|[HC|[HC|[]]]]; injection HC as <- <-.
  - rewrite HK. rewrite !(not_one_any s _ _ HO) by (cbn; tauto). discriminate.
  - rewrite (caseeq_same _ _ (L "quoting.mode") HK). change (caseeq (L "quoting.escape.mode") (L "quoting.mode")) with false. rewrite HK. rewrite !(not_one_any s _ _ HO) by (cbn; tauto). discriminate.
  - rewrite HK. rewrite (caseeq_same _ _ (L "quoting.mode") HK), (caseeq_same _ _ (L "quoting.escape.mode") HK), (caseeq_same _ _ (L "quoting.char.begin") HK), (caseeq_same _ _ (L "quoting.char.end") HK), (caseeq_same _ _ (L "matching.permitted") HK).
    change (caseeq (L "matching.mode") (L "quoting.mode")) with false. change (caseeq (L "matching.mode") (L "quoting.escape.mode")) with false. change (caseeq (L "matching.mode") (L "quoting.char.begin")) with false.
    change (caseeq (L "matching.mode") (L "quoting.char.end")) with false. change (caseeq (L "matching.mode") (L "matching.permitted")) with false. cbv iota.
    rewrite !(not_one_any s _ _ HO) by (cbn; tauto). discriminate.
Qed.
Lemma m_string_quote k v s l : In (k, v) l -> one_of_any_case k ["quoting.char.begin"; "quoting.char.end"]%string -> jstring e v = Some s -> List.length s <> 1 -> m_string e l <> [].
Proof.
  intros HI HK HS HL. eapply m_string_in; [exact HI|]. intros l'. cbn [m_string]. cbv zeta. rewrite HS.
  apply Exists_exists in HK as (x & HX & HK). destruct HX as [<-|[<-|[]]].
  - rewrite HK. rewrite (caseeq_same _ _ (L "quoting.mode") HK), (caseeq_same _ _ (L "quoting.escape.mode") HK).
    change (caseeq (L "quoting.char.begin") (L "quoting.mode")) with false. change (caseeq (L "quoting.char.begin") (L "quoting.escape.mode")) with false. cbv iota.
    destruct s as [|? [|? ?]]; try discriminate. cbn in HL. lia.
  - rewrite HK. rewrite (caseeq_same _ _ (L "quoting.mode") HK), (caseeq_same _ _ (L "quoting.escape.mode") HK), (caseeq_same _ _ (L "quoting.char.begin") HK).
    change (caseeq (L "quoting.char.end") (L "quoting.mode")) with false. change (caseeq (L "quoting.char.end") (L "quoting.escape.mode")) with false. change (caseeq (L "quoting.char.end") (L "quoting.char.begin")) with false. cbv iota.
    destruct s as [|? [|? ?]]; try discriminate. cbn in HL. lia.
Qed.
Lemma m_string_perm k v l : In (k, v) l -> caseeq k (L "matching.permitted") = true ->
  match v with JStr _ => [] | JArr a => m_perm_array e a | _ => [say "matching.permitted is invalid object type, given as '" (json_show e v)] end <> [] -> m_string e l <> [].
Proof.
  intros HI HK HM. eapply m_string_in; [exact HI|]. intros l'. cbn [m_string]. cbv zeta.
  rewrite HK. rewrite (caseeq_same _ _ (L "quoting.mode") HK), (caseeq_same _ _ (L "quoting.escape.mode") HK), (caseeq_same _ _ (L "quoting.char.begin") HK), (caseeq_same _ _ (L "quoting.char.end") HK).
  change (caseeq (L "matching.permitted") (L "quoting.mode")) with false. change (caseeq (L "matching.permitted") (L "quoting.escape.mode")) with false. change (caseeq (L "matching.permitted") (L "quoting.char.begin")) with false.
  change (caseeq (L "matching.permitted") (L "quoting.char.end")) with false. cbv iota. apply app_ne_l. exact HM.
Qed.
Lemma m_perm_in k v s : forall m, In (k, v) m -> caseeq k (L "class") = true -> jstring e v = Some s -> known_class s = false -> m_perm e m <> [].
Proof.
  induction m as [|[k0 v0] m IH]; intros HI HK HS HC; [destruct HI|]. cbn [m_perm]. destruct HI as [HI|HI]; [|apply app_ne_r; auto].
  injection HI as -> ->. apply app_ne_l. rewrite HK, (caseeq_same _ _ (L "chars") HK). change (caseeq (L "class") (L "chars")) with false. cbn [negb andb]. rewrite HS, HC. discriminate.
Qed.
Lemma flat_ne {A B} (f : A -> list B) x : forall l, In x l -> f x <> [] -> flat_map f l <> [].
Proof. induction l as [|y l IH]; intros HI H; [destruct HI|]. cbn [flat_map]. destruct HI as [->|HI]; [apply app_ne_l; auto|apply app_ne_r; auto]. Qed.
Lemma m_string_member k v l : In (k, v) l -> ~ one_of_any_case k ["quoting.mode"; "quoting.escape.mode"; "quoting.char.begin"; "quoting.char.end"; "matching.permitted"; "matching.mode"]%string -> m_string e l <> [].
Proof. intros HI HK. eapply m_string_in; [exact HI|]. intros l'. cbn [m_string]. cbv zeta. rewrite !(not_one_any k _ _ HK) by (cbn; tauto). discriminate. Qed.

Section Add.
Variable addp : ctx -> nat -> json -> er (ctx * option (option nat)).
Variable m_addp : ctx -> nat -> json -> list body.
Variable ts : list (text * nat).
Hypothesis Htypes : forall cx n v cx' o, addp cx n v = EOk (cx', o) -> c_types cx' = c_types cx.
Hypothesis Hnone : forall cx n v cx', addp cx n v = EOk (cx', None) -> m_addp cx n v <> [].

Definition rc_says (k : text) (v : json) : Prop := forall l' pn wn permit permit' cx r, c_types cx = ts -> repeat_conf e addp ((k, v) :: l') pn wn permit cx = EOk r -> m_repeat_conf e addp m_addp ((k, v) :: l') pn wn permit' cx <> [].
Lemma m_rc_in k v : rc_says k v -> forall l pn wn permit permit' cx r, c_types cx = ts -> In (k, v) l -> repeat_conf e addp l pn wn permit cx = EOk r -> m_repeat_conf e addp m_addp l pn wn permit' cx <> [].
Proof.
  intros HS. induction l as [|[k0 v0] l IH]; intros pn wn permit permit' cx r HT HI H; [destruct HI|]. destruct HI as [HI|HI]; [injection HI as -> ->; eapply HS; eauto|].
  cbn [repeat_conf m_repeat_conf] in *. unfold newPDAG in *. cbv beta iota zeta in *.
  assert (HX : forall cx0 n (K : ctx -> er (ctx * option nat * option nat * bool)) (S0 : ctx -> er (ctx * option nat * option nat * bool)) mK, c_types cx0 = ts ->
     (forall c r, c_types c = ts -> K c = EOk r -> mK c <> []) ->
     (do* (cx', en) := addp cx0 n v0 in match en with None => S0 cx' | Some None => EUb NullDeref | Some (Some en) => K (set_nodes cx' (upd_node (c_nodes cx') en set_term)) end) = EOk r ->
     m_addp cx0 n v0 ++ match addp cx0 n v0 with EOk (cx', Some (Some en)) => mK (set_nodes cx' (upd_node (c_nodes cx') en set_term)) | _ => [] end <> []).
  { intros cx0 n K S0 mK HT0 HK HE. apply ebind_ok in HE as ([c1 en] & H1 & H2). rewrite H1. destruct en as [[en|]|]; [|discriminate|apply app_ne_l; eapply Hnone; exact H1].
    apply app_ne_r. eapply HK; [|exact H2]. cbn. rewrite (Htypes _ _ _ _ _ H1). exact HT0. }
  destruct (text_eqb k0 (L "parser")).
  - apply ebind_ok in H as (good & H1 & H2). unfold m_dots. rewrite H1. destruct good; [|discriminate]. cbn [negb] in H2.
    eapply HX; [| |exact H2]; [exact HT|]. intros c r0 Hc HE. eapply IH; eauto.
  - destruct (text_eqb k0 (L "while")).
    + eapply HX; [| |exact H]; [exact HT|]. intros c r0 Hc HE. eapply IH; eauto.
    + destruct (caseeq k0 _); [eapply IH; eauto|discriminate].
Qed.
Lemma rc_member k v : ~ one_of k ["parser"; "while"]%string -> ~ one_of_any_case k ["option.permitMismatchInParser"]%string -> rc_says k v.
Proof. intros H1 H2 l' pn wn permit permit' cx r _ _. cbn [m_repeat_conf]. rewrite !(not_one k _ _ H1) by (cbn; tauto). rewrite (not_one_any k _ _ H2) by (cbn; tauto). discriminate. Qed.
Lemma rc_inner k v : k = L "parser" \/ k = L "while" -> (forall cx n r, c_types cx = ts -> addp cx n v = EOk r -> m_addp cx n v <> []) -> rc_says k v.
Proof.
  intros HK HV l' pn wn permit permit' cx r HT. cbn [repeat_conf m_repeat_conf]. unfold newPDAG. cbv beta iota zeta. destruct HK as [-> | ->].
  - rewrite text_eqb_refl. intros H. apply ebind_ok in H as (good & H1 & H2). unfold m_dots. rewrite H1. destruct good; [|discriminate]. cbn [negb] in H2. apply ebind_ok in H2 as (x & H2 & _). apply app_ne_l. eapply HV; [|exact H2]. exact HT.
  - change (text_eqb (L "while") (L "parser")) with false. rewrite text_eqb_refl. cbv iota. intros H. apply ebind_ok in H as (x & H2 & _). apply app_ne_l. eapply HV; [|exact H2]. exact HT.
Qed.
Lemma dots_some f s : says_of e f "name" s -> s = L "." -> is_dot e (JObj f) = EOk 1.
Proof. intros (v & H1 & H2) ->. unfold is_dot. cbn [jget]. rewrite H1. destruct v; try discriminate; unfold need_str; rewrite H2; cbn [ebind]; rewrite text_eqb_refl; reflexivity. Qed.
Lemma count_some j : is_dot e j = EOk 1 -> forall fs d, In j fs -> count_dots e fs = EOk d -> 0 < d.
Proof.
  intros HJ. induction fs as [|x fs IH]; intros d HI H; [destruct HI|]. cbn [count_dots] in H. apply ebind_ok in H as (a & H1 & H). apply ebind_ok in H as (b & H2 & H). assert (d = a + b) as -> by congruence.
  destruct HI as [->|HI]; [rewrite HJ in H1; injection H1 as <-; lia|]. specialize (IH _ HI H2). lia.
Qed.
Lemma rc_dot fs f s : 2 <= List.length fs -> In (JObj f) fs -> says_of e f "name" s -> s = L "." -> rc_says (L "parser") (JArr fs).
Proof.
  intros HL HI HS HD l' pn wn permit permit' cx r HT. cbn [repeat_conf m_repeat_conf]. rewrite text_eqb_refl. intros H. apply ebind_ok in H as (good & H1 & _). unfold m_dots. rewrite H1.
  unfold chkNoDupeDot in H1. apply ebind_ok in H1 as (d & H1 & H2). pose proof (count_some _ (dots_some _ _ HS HD) _ _ HI H1).
  replace good with false; [discriminate|]. assert (E : good = negb (Nat.ltb 1 (List.length fs) && Nat.ltb 0 d)) by congruence. rewrite E. destruct (Nat.ltb_spec 1 (List.length fs)); [|lia]. destruct (Nat.ltb_spec 0 d); [reflexivity|lia].
Qed.
Lemma get_none l k v : obj_get l k = None -> ~ In (k, v) l.
Proof. induction l as [|[k0 v0] l IH]; cbn [obj_get]; intros H HI; [destruct HI|]. destruct (text_eqb k k0) eqn:E; [discriminate|]. destruct HI as [HI|HI]; [injection HI as -> ->; rewrite text_eqb_refl in E; discriminate|eapply IH; eauto]. Qed.
Lemma rc_keeps : forall l pn wn permit cx cx' pn' wn' pm', repeat_conf e addp l pn wn permit cx = EOk (cx', pn', wn', pm') ->
  ((forall v, ~ In (L "parser", v) l) -> pn' = pn) /\ ((forall v, ~ In (L "while", v) l) -> wn' = wn).
Proof.
  induction l as [|[k0 v0] l IH]; intros pn wn permit cx cx' pn' wn' pm' H; cbn [repeat_conf] in H; [injection H as <- <- <- <-; auto|]. unfold newPDAG in H. cbv beta iota zeta in H.
  destruct (text_eqb k0 (L "parser")) eqn:EK.
  - apply text_eqb_true in EK. subst k0. split; [intros HN; destruct (HN v0); left; reflexivity|]. intros HN. apply ebind_ok in H as (good & H1 & H). destruct good; cbn [negb] in H; [|congruence].
    apply ebind_ok in H as ([c1 en] & H2 & H). destruct en as [[en|]|]; [|discriminate|congruence]. apply IH in H. destruct H as [_ H]. apply H. intros v HI. apply (HN v). right. exact HI.
  - destruct (text_eqb k0 (L "while")) eqn:EW.
    + apply text_eqb_true in EW. subst k0. split; [|intros HN; destruct (HN v0); left; reflexivity]. intros HN.
      apply ebind_ok in H as ([c1 en] & H2 & H). destruct en as [[en|]|]; [|discriminate|congruence]. apply IH in H. destruct H as [H _]. apply H. intros v HI. apply (HN v). right. exact HI.
    + assert (HT : forall pm, repeat_conf e addp l pn wn pm cx = EOk (cx', pn', wn', pm') -> ((forall v, ~ In (L "parser", v) ((k0, v0) :: l)) -> pn' = pn) /\ ((forall v, ~ In (L "while", v) ((k0, v0) :: l)) -> wn' = wn)).
      { intros pm HE. apply IH in HE as [A B]. split; intros HN; [apply A|apply B]; intros v HI; apply (HN v); right; exact HI. }
      destruct (caseeq k0 _); eapply HT; exact H.
Qed.
Lemma m_repeat_missing k l cx : k = "parser"%string \/ k = "while"%string -> obj_get l (L k) = None -> m_repeat e addp m_addp l cx <> [].
Proof.
  intros HK HG. unfold m_repeat. apply app_ne_r. destruct (repeat_conf e addp l None None false cx) as [[[[c1 pn] wn] pm]|] eqn:E; [|discriminate]. apply rc_keeps in E as [A B].
  destruct HK as [-> | ->]; [rewrite A by (intros v; apply get_none; exact HG); discriminate|rewrite B by (intros v; apply get_none; exact HG); destruct pn; discriminate].
Qed.
Lemma m_repeat_in k v l cx r : rc_says k v -> c_types cx = ts -> In (k, v) l -> construct_repeat e addp l cx = EOk r -> m_repeat e addp m_addp l cx <> [].
Proof. intros HS HT HI H. unfold construct_repeat in H. apply ebind_ok in H as (x & H & _). unfold m_repeat. apply app_ne_l. eapply m_rc_in; eauto. Qed.

(** what [newParser] makes of a type *)
Definition at_sign (T : text) : bool := match T with c :: _ => ceq c "@" | [] => false end.
Definition rest_for (l : fields) : fields :=
  match match jget (JObj l) "name" with None | Some JNull => None | Some v => match jstring e v with Some s => if text_eqb s (L "-") then None else Some s | None => None end end with
  Some _ => obj_del (obj_del (obj_del l (L "type")) (L "priority")) (L "name") | None => obj_del (obj_del l (L "type")) (L "priority") end.
Lemma newParser_typed l T cx r : typed e l T -> at_sign T = false -> newParser e addp cx (JObj l) = EOk r ->
  (T = L "repeat" -> exists rest x, (rest_ok l rest /\ rest = rest_for l) /\ construct_repeat e addp rest cx = EOk x /\ m_newParser e badint addp m_addp cx (JObj l) = m_repeat e addp m_addp rest cx) /\
  (T <> L "repeat" -> m_newParser e badint addp m_addp cx (JObj l) <> [] \/
     exists rest p m, (rest_ok l rest /\ rest = rest_for l) /\ simple_type e T rest = Some (p, EOk m) /\ m_newParser e badint addp m_addp cx (JObj l) = m_simple e badint T rest).
Proof.
  intros (tv & HG & HS) HA H. unfold newParser, m_newParser in *. change (jget (JObj l) "type") with (obj_get l (L "type")) in *. rewrite HG in *.
  fold (at_sign T) in *.
  assert (HE : match tv with JNull => False | _ => True end) by (destruct tv; auto; discriminate).
  unfold need_str in H. 
  assert (H' : (do* typ := match jstring e tv with Some s => EOk s | None => EUb NullDeref end in
      let custom := at_sign typ in
      let cust := if custom then findType (c_types cx) typ 0 else None in
      let known := if custom then match cust with Some _ => true | None => false end
                   else text_eqb typ (L "repeat") || match simple_type e typ [] with Some _ => true | None => false end in
      if negb known then EOk (cx, None)
      else
        do* name := match jget (JObj l) "name" with
                    | None | Some JNull => EOk None
                    | Some v => do* s := need_str e v in
                                EOk (if text_eqb s (L "-") then None else Some s)
                    end in
        let assigned := match jget (JObj l) "priority" with
                        | None | Some JNull => 30000%Z | Some v => get_int e v end in
        let rest := obj_del (obj_del l (L "type")) (L "priority") in
        let rest := match name with Some _ => obj_del rest (L "name") | None => rest end in
        do* (cx, k, prio) :=
          match cust with
          | Some ti => EOk (cx, KCustom ti, 16%Z)
          | None =>
              if text_eqb typ (L "repeat") then
                do* (cx, k) := construct_repeat e addp rest cx in EOk (cx, k, 4%Z)
              else match simple_type e typ rest with
                   | Some (prio, m) => do* m := m in EOk (cx, KSimple m, prio)
                   | None => EUb NullDeref
                   end
          end in
        EOk (cx, Some {| p_kind := k; p_name := name; p_conf := JObj l; p_prio := mk_prio assigned prio; p_child := 0 |})) = EOk r) by (destruct tv; try exact H; destruct HE).
  clear H. rename H' into H.
  match goal with |- (_ -> exists rest x, _ /\ _ /\ ?M = _) /\ _ => assert (EM : M = match jstring e tv with None => [] | Some typ => if at_sign typ then match findType (c_types cx) typ 0 with None => [quote "unknown user-defined type '" typ] | Some _ => [] end
     else let name := match jget (JObj l) "name" with None | Some JNull => None | Some v => match jstring e v with Some s => if text_eqb s (L "-") then None else Some s | None => None end end in
          let rest := obj_del (obj_del l (L "type")) (L "priority") in
          let rest := match name with Some _ => obj_del rest (L "name") | None => rest end in
          if text_eqb typ (L "repeat") then m_repeat e addp m_addp rest cx else match simple_type e typ [] with None => [quote "invalid field type '" typ] | Some _ => m_simple e badint typ rest end end) by (destruct tv; try reflexivity; destruct HE) end.
  cbv zeta in EM. rewrite EM. clear EM. rewrite HS in *. cbn [ebind] in H. cbv zeta in H. rewrite HA in *. cbv iota in H.
  set (nm := match jget (JObj l) "name" with None | Some JNull => None | Some v => match jstring e v with Some s => if text_eqb s (L "-") then None else Some s | None => None end end).
  set (rest := match nm with Some _ => obj_del (obj_del (obj_del l (L "type")) (L "priority")) (L "name") | None => obj_del (obj_del l (L "type")) (L "priority") end).
  assert (HN : forall name, match jget (JObj l) "name" with None | Some JNull => EOk None | Some v => do* s := need_str e v in EOk (if text_eqb s (L "-") then None else Some s) end = EOk name -> name = nm).
  { intros name. subst nm. destruct (jget (JObj l) "name") as [v|]; [|congruence]. unfold need_str. destruct v; try (intros HQ; injection HQ as <-; reflexivity); match goal with |- context [jstring e ?w] => destruct (jstring e w) end; cbn [ebind]; intros HQ; try discriminate; injection HQ as <-; reflexivity. }
  split; intros HR.
  - subst T. rewrite text_eqb_refl in *. cbn [orb negb] in H. apply ebind_ok in H as (name & H1 & H). apply HN in H1. subst name. fold rest in H. apply ebind_ok in H as (x & H & _). apply ebind_ok in H as (y & H & _).
    exists rest, y. split; [split; [apply rest_is|reflexivity]|]. split; [exact H|reflexivity].
  - destruct (text_eqb T (L "repeat")) eqn:ER; [apply text_eqb_true in ER; tauto|]. cbn [orb] in H. destruct (simple_type e T []) as [pm|] eqn:ES; [|left; discriminate]. right. cbn [negb] in H.
    apply ebind_ok in H as (name & H1 & H). apply HN in H1. subst name. fold rest in H. apply ebind_ok in H as (x & H & _). destruct (simple_type e T rest) as [[p m]|] eqn:ES2; [|discriminate]. apply ebind_ok in H as (m' & H & _). exists rest, p, m'. split; [split; [apply rest_is|reflexivity]|]. split; [rewrite H in ES2; exact ES2|reflexivity].
Qed.
End Add.
End Facts.
