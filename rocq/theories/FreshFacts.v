(** * FreshFacts: loading does not touch the counters of use. *)
From Verif Require Import Base Time Parsers Engine Pdag Samp GraphSpec History EngineFacts2 HeapFacts DeleteFacts BuildFacts BuildFacts2 FrameFacts OptFacts LoadFacts.

(** no node was used *)
Definition fresh (h : list (option node)) : Prop := forall i n, live h i n -> n_called n = 0%N /\ n_backtracked n = 0%N.
Lemma fresh_quiet h i f : (forall n, n_called (f n) = n_called n /\ n_backtracked (f n) = n_backtracked n) -> fresh h -> fresh (upd_node h i f).
Proof. intros Hf H j n Hj. apply live_upd in Hj as [[_ Hj]|[<- (n0 & Hn0 & ->)]]; [eapply H; eauto|]. destruct (Hf n0) as [-> ->]. eapply H; eauto. Qed.
Lemma fresh_new h : fresh h -> fresh (h ++ [Some new_node]).
Proof. intros H j n Hj. apply live_app in Hj as [Hj|[-> E]]; [eapply H; eauto|]. injection E as <-. split; reflexivity. Qed.
Lemma fresh_free h i : fresh h -> fresh (free_nth h i).
Proof. intros H j n Hj. apply live_free in Hj as [_ Hj]. eapply H; eauto. Qed.
Lemma delete_fresh : forall f h i h', fresh h -> pdagDelete f h i = EOk h' -> fresh h'.
Proof.
  induction f as [|f IH]; intros h i h' H E; [discriminate|]. rewrite pdagDelete_unfold in E. apply ebind_ok in E as (n & Hn & E). cbv zeta in E.
  assert (H1 : fresh (upd_node h i (fun n0 => set_refcnt n0 (n_refcnt n - 1)))) by (apply fresh_quiet; auto).
  destruct (Z.ltb 0 _); [injection E as <-; exact H1|]. apply ebind_ok in E as (h2 & E2 & E).
  assert (HL : forall l h h', fresh h -> del_list f h l = EOk h' -> fresh h').
  { clear - IH. induction l as [|t l IHl]; intros h h' H E; cbn [del_list] in E; [injection E as <-; exact H|]. apply ebind_ok in E as (h1 & E1 & E). eapply IHl; [|exact E]. eapply IH; eauto. }
  apply HL in E2; [|exact H1]. unfold free_node in E. apply ebind_ok in E as (x & _ & E). injection E as <-. apply fresh_free. exact E2.
Qed.
Lemma compact_fresh : forall f h p h' p', fresh h -> optLitPathCompact f h p = EOk (h', p') -> fresh h'.
Proof.
  induction f as [|f IH]; intros h p h' p' H E; [discriminate|]. cbn [optLitPathCompact] in E.
  destruct (negb _); [injection E as <- <-; auto|]. apply ebind_ok in E as (n & _ & E). destruct (_ || _)%bool; [injection E as <- <-; auto|].
  destruct (n_parsers n) as [|q0 [|q2 r]]; try (injection E as <- <-; auto; fail). destruct (negb _); [injection E as <- <-; auto|]. apply ebind_ok in E as (m & _ & E). destruct (negb _); [injection E as <- <-; auto|].
  destruct (p_kind p) as [[]| |]; try discriminate. destruct (p_kind q0) as [[]| |]; try discriminate. eapply IH in E; [exact E|apply fresh_free; exact H].
Qed.
Section QS.
Variable qs : list prs -> list prs.
Lemma component_fresh : forall f h nd h', fresh h -> componentOptimize qs f h nd = EOk h' -> fresh h'.
Proof.
  induction f as [|f IH]; intros h nd h' H E; [discriminate|]. rewrite componentOptimize_unfold in E. apply ebind_ok in E as (n & Hn & E).
  cbv zeta in E. revert E. generalize (if Nat.ltb 1 (List.length (n_parsers n)) then qs (n_parsers n) else n_parsers n). intros ps.
  assert (HU : forall h ps, fresh h -> fresh (put h nd ps)) by (intros h0 ps0 H0; apply fresh_quiet; auto).
  pose proof (HU h ps H) as H1. revert H1. generalize (put h nd ps). generalize (@nil prs).
  clear H Hn h. induction ps as [|p ps IHp]; intros dn h H E; [cbn in E; injection E as <-; exact H|]. rewrite opt_go_cons in E.
  apply ebind_ok in E as ([h1 p1] & E1 & E). apply compact_fresh in E1; auto. cbv zeta in E. apply ebind_ok in E as (h2 & E2 & E).
  eapply IH in E2; [|apply HU; exact E1]. eapply IHp; [exact E2|exact E].
Qed.
Lemma optimize_fresh cx cx' : fresh (c_nodes cx) -> optimize qs cx = EOk cx' -> fresh (c_nodes cx').
Proof.
  unfold optimize. intros H E. apply ebind_ok in E as (h & E & E2). injection E2 as <-. cbn [c_nodes set_nodes]. revert H E. generalize (c_nodes cx), (map snd (c_types cx) ++ [c_root cx]). intros h0 l. revert h0.
  induction l as [|i l IH]; intros h0 H E; cbn [optimize_all] in E; [injection E as <-; exact H|]. apply ebind_ok in E as (h1 & E1 & E). apply ebind_ok in E as (u & _ & E). eapply IH; [|exact E]. eapply component_fresh; eauto.
Qed.
End QS.

Section Field.
Variable e : env.
Section Add.
Variable addp : ctx -> nat -> json -> er (ctx * option (option nat)).
Hypothesis Hadd : forall cx n v r, fresh (c_nodes cx) -> addp cx n v = EOk r -> fresh (c_nodes (fst r)).
Lemma repeat_conf_fresh : forall l pn wn permit cx x, fresh (c_nodes cx) -> repeat_conf e addp l pn wn permit cx = EOk x -> fresh (c_nodes (fst (fst (fst x)))).
Proof.
  induction l as [|[k v] l IH]; intros pn wn permit cx x H E; cbn [repeat_conf] in *; [injection E as <-; exact H|]. cbv zeta in *.
  assert (HI : forall pn' wn' n, (do* (cx', en) := addp (fst (newPDAG cx)) n v in match en with None => EOk (cx', pn', wn', permit) | Some None => EUb NullDeref | Some (Some en) => repeat_conf e addp l pn' wn' permit (set_nodes cx' (upd_node (c_nodes cx') en set_term)) end) = EOk x -> fresh (c_nodes (fst (fst (fst x))))).
  { intros pn' wn' n HE. apply ebind_ok in HE as ([c1 en] & E1 & HE). assert (HC : fresh (c_nodes c1)) by (eapply (Hadd _ _ _ (c1, en)); [|exact E1]; cbn; apply fresh_new; exact H).
    destruct en as [[en|]|]; [|discriminate|injection HE as <-; exact HC]. eapply IH; [|exact HE]. cbn. apply fresh_quiet; auto. }
  destruct (text_eqb k (L "parser")).
  { apply ebind_ok in E as (good & EG & E). destruct good; cbn [negb] in E; [eapply HI; exact E|]. injection E as <-. exact H. }
  destruct (text_eqb k (L "while")); [eapply HI; exact E|].
  destruct (caseeq k (L "option.permitMismatchInParser")); eapply IH; eauto.
Qed.
Lemma repeat_fresh l cx cx' k : fresh (c_nodes cx) -> construct_repeat e addp l cx = EOk (cx', k) -> fresh (c_nodes cx').
Proof.
  intros H E. unfold construct_repeat in E. apply ebind_ok in E as (x & E1 & E). pose proof (repeat_conf_fresh _ _ _ _ _ _ H E1) as HC. destruct x as [[[c pn] wn] pm]. cbn [fst] in HC.
  assert (HD : forall h o h', fresh h -> match o with None => EOk h | Some n => pdagDelete (heap_fuel h) h n end = EOk h' -> fresh h') by (intros h o h' Hh Ho; destruct o; [eapply delete_fresh; eauto|injection Ho as <-; exact Hh]).
  assert (HX : forall pn wn, (do* h := match pn with None => EOk (c_nodes c) | Some n => pdagDelete (heap_fuel (c_nodes c)) (c_nodes c) n end in
     do* h := match wn with None => EOk h | Some n => pdagDelete (heap_fuel h) h n end in EOk (set_nodes c h, KSimple (MNoData (L "repeat")))) = EOk (cx', k) -> fresh (c_nodes cx')).
  { intros a b HE. apply ebind_ok in HE as (h1 & A1 & HE). apply ebind_ok in HE as (h2 & A2 & HE). injection HE as <- <-. cbn. eapply HD; [|exact A2]. eapply HD; eauto. }
  destruct pn as [pn|]; [destruct wn as [wn|]|]; [injection E as <- <-; exact HC|exact (HX (Some pn) None E)|exact (HX None wn E)].
Qed.
Lemma newParser_fresh cx conf cx' o : fresh (c_nodes cx) -> newParser e addp cx conf = EOk (cx', o) -> fresh (c_nodes cx').
Proof.
  intros H E. unfold newParser in E. destruct (jget conf "type") as [tv|]; [|injection E as <- <-; exact H].
  assert (HV : tv = JNull \/ tv <> JNull) by (destruct tv; auto; right; discriminate). destruct HV as [-> |HV]; [injection E as <- <-; exact H|].
  assert (E' : exists typ, (let custom := match typ with c :: _ => ceq c "@" | [] => false end in
      let cust := if custom then findType (c_types cx) typ 0 else None in
      let known := if custom then match cust with Some _ => true | None => false end else (text_eqb typ (L "repeat") || match simple_type e typ [] with Some _ => true | None => false end)%bool in
      if negb known then EOk (cx, None) else
        do* name := match jget conf "name" with None | Some JNull => EOk None | Some v => do* s := need_str e v in EOk (if text_eqb s (L "-") then None else Some s) end in
        let assigned := match jget conf "priority" with None | Some JNull => 30000%Z | Some v => get_int e v end in
        let rest := match conf with JObj l => l | _ => [] end in
        let rest := obj_del (obj_del rest (L "type")) (L "priority") in
        let rest := match name with Some _ => obj_del rest (L "name") | None => rest end in
        do* (cx, k, prio) := match cust with Some ti => EOk (cx, KCustom ti, 16%Z) | None => if text_eqb typ (L "repeat") then do* (cx, k) := construct_repeat e addp rest cx in EOk (cx, k, 4%Z)
           else match simple_type e typ rest with Some (prio, m) => do* m := m in EOk (cx, KSimple m, prio) | None => EUb NullDeref end end in
        EOk (cx, Some {| p_kind := k; p_name := name; p_conf := conf; p_prio := mk_prio assigned prio; p_child := 0 |})) = EOk (cx', o)).
  { destruct tv; try tauto; apply ebind_ok in E as (typ & _ & E); exists typ; exact E. }
  destruct E' as (typ & E'). clear E. cbv zeta in E'. destruct (negb _); [injection E' as <- <-; exact H|]. apply ebind_ok in E' as (nm & EN & E').
  apply ebind_ok in E' as ([[c1 k] pr] & HK & E'). injection E' as <- <-.
  destruct (if match typ with c :: _ => ceq c "@" | [] => false end then findType (c_types cx) typ 0 else None) as [ti|]; [injection HK as <- <- <-; exact H|].
  destruct (text_eqb typ (L "repeat")); [apply ebind_ok in HK as ([c2 k2] & HK & HE); injection HE as <- <- <-; eapply repeat_fresh; eauto|].
  match type of HK with match ?x with _ => _ end = _ => destruct x as [[prio m]|] end; [|discriminate]. apply ebind_ok in HK as (m0 & Hm & HK). injection HK as <- <- <-. exact H.
Qed.
Lemma addInstance_fresh cx conf dag next cx' o : fresh (c_nodes cx) -> addInstance e addp cx conf dag next = EOk (cx', o) -> fresh (c_nodes cx').
Proof.
  intros H E. unfold addInstance in E. apply ebind_ok in E as ([c1 op] & E1 & E). pose proof (newParser_fresh _ _ _ _ H E1) as HC. destruct op as [p|]; [|injection E as <- <-; exact HC]. destruct dag as [d|]; [|discriminate].
  apply ebind_ok in E as (n & Hn & E). destruct (find_same _ _ _) as [ch|].
  - apply ebind_ok in E as (h & E2 & E). injection E as <- <-. cbn [c_nodes set_nodes]. destruct (p_kind p) as [m|ti|a b pm]; try (injection E2 as <-; exact HC). apply ebind_ok in E2 as (h1 & E3 & E2). eapply delete_fresh; [|exact E2]. eapply delete_fresh; eauto.
  - apply ebind_ok in E as ([c2 nn] & E2 & E). injection E as <- <-. cbn [c_nodes set_nodes].
    assert (HC2 : fresh (c_nodes c2)). { destruct next as [x|]; [|injection E2 as <- _; cbn; apply fresh_new; exact HC]. apply ebind_ok in E2 as (m & _ & E2). injection E2 as <- _. cbn. apply fresh_quiet; auto. }
    apply fresh_quiet; auto.
Qed.
Section Loop.
Variable inner : ctx -> amode -> option nat -> json -> option nat -> ares.
Hypothesis Hinner : forall cx mode dag conf next r, fresh (c_nodes cx) -> inner cx mode dag conf next = EOk r -> fresh (c_nodes (fst r)).
Lemma loop_fresh : forall l cx mode dag next pnext r, fresh (c_nodes cx) -> addParsers_loop e addp inner cx mode l dag next pnext = EOk r -> fresh (c_nodes (fst r)).
Proof.
  induction l as [|j l IH]; intros cx mode dag next pnext r H E; cbn [addParsers_loop] in *; [destruct mode; injection E as <-; exact H|].
  apply ebind_ok in E as ([c1 o] & E1 & E).
  assert (HC : fresh (c_nodes c1)). { destruct j as [| | | | |a|a]; apply ebind_ok in E1 as ([c2 r1] & E1 & E2); injection E2 as <- _; try (eapply addInstance_fresh; eauto; fail). eapply (Hinner _ _ _ _ _ (c2, r1)); eauto. }
  destruct o as [[d nx]|]; [|injection E as <-; exact HC]. destruct mode; (eapply IH; [exact HC|exact E]).
Qed.
Lemma step_fresh cx mode dag conf next r : fresh (c_nodes cx) -> addInternal_step e addp inner cx mode dag conf next = EOk r -> fresh (c_nodes (fst r)).
Proof.
  unfold addInternal_step. intros H. destruct conf as [| | | | |l|l]; try discriminate; try (intros E; injection E as <-; exact H); [apply loop_fresh; exact H|].
  destruct (jget (JObj l) "type") as [tv|]; [|discriminate]. intros E.
  assert (HV : tv = JNull \/ tv <> JNull) by (destruct tv; auto; right; discriminate). destruct HV as [-> |HV]; [discriminate E|].
  assert (E3 : exists typ, (if text_eqb typ (L "alternative") then match jget (JObj l) "parser" with Some (JArr ps) => addParsers_loop e addp inner cx Alt ps dag next next | _ => EOk (cx, None) end
     else do* (cx, r) := addInstance e addp cx (JObj l) dag next in EOk (cx, match r with None => None | Some nx => Some (match mode with Seq => Some nx | Alt => dag end, Some nx) end)) = EOk r).
  { destruct tv; try tauto; apply ebind_ok in E as (typ & _ & E); exists typ; exact E. }
  destruct E3 as (typ & E3). destruct (text_eqb typ (L "alternative")).
  - destruct (jget (JObj l) "parser") as [[]|]; try (injection E3 as <-; exact H). eapply loop_fresh; [exact H|exact E3].
  - apply ebind_ok in E3 as ([c1 o] & E1 & E3). injection E3 as <-. eapply addInstance_fresh; eauto.
Qed.
End Loop.
End Add.
Lemma internal_fresh : forall f cx mode dag conf next r, fresh (c_nodes cx) -> addInternal e f cx mode dag conf next = EOk r -> fresh (c_nodes (fst r)).
Proof.
  induction f as [|f IH]; intros cx mode dag conf next r H E; [discriminate|]. cbn [addInternal] in *. eapply step_fresh; [|exact IH|exact H|exact E].
  intros c n v r0 Hc E1. cbn beta in *. apply ebind_ok in E1 as ([c1 o] & E1 & E2). injection E2 as <-. eapply (IH _ _ _ _ _ (c1, o)); eauto.
Qed.
Lemma addParser_fresh cx dag conf cx' o : fresh (c_nodes cx) -> addParser e cx dag conf = EOk (cx', o) -> fresh (c_nodes cx').
Proof. unfold addParser. intros H E. apply ebind_ok in E as ([c1 r] & E1 & E2). injection E2 as <- _. eapply (internal_fresh _ _ _ _ _ _ (c1, r)); eauto. Qed.
Lemma literals_fresh : forall l cx dag cx' o, fresh (c_nodes cx) -> add_literals e cx dag l = EOk (cx', o) -> fresh (c_nodes cx').
Proof.
  induction l as [|c l IH]; intros cx dag cx' o H E; cbn [add_literals] in *; [injection E as <- _; exact H|]. destruct dag as [d|]; [|discriminate].
  apply ebind_ok in E as ([c1 r] & E1 & E). eapply addParser_fresh in E1; eauto. destruct r; [eapply IH; eauto|injection E as <- _; exact E1].
Qed.
Lemma add_rule_fresh : forall f cx dag rule cx' o, fresh (c_nodes cx) -> add_rule e f cx dag rule = EOk (cx', o) -> fresh (c_nodes cx').
Proof.
  induction f as [|f IH]; intros cx dag rule cx' o H E; [discriminate|]. cbn [add_rule] in *. destruct rule as [|c0 rule]; [injection E as <- _; exact H|].
  destruct (literal_part (c0 :: rule)) as [lit rest]. cbv zeta in *. apply ebind_ok in E as ([c1 r] & E1 & E). eapply literals_fresh in E1; [|exact H].
  destruct r as [dag1|]; [|injection E as <- _; exact E1]. destruct rest as [|x rest]; [injection E as <- _; exact E1|]. destruct (fieldDescr e (x :: rest)) as [[rest' conf]|k|u]; [|injection E as <- _; exact E1|discriminate].
  destruct dag1 as [d|]; [|discriminate]. apply ebind_ok in E as ([c2 r2] & E2 & E). eapply addParser_fresh in E2; [|exact E1]. destruct r2; [eapply IH; eauto|injection E as <- _; exact E2].
Qed.
Lemma samp_fresh cx rule dag tags cx' : fresh (c_nodes cx) -> addSampToTree e cx rule dag tags = EOk cx' -> fresh (c_nodes cx').
Proof.
  unfold addSampToTree. intros H E. apply ebind_ok in E as ([c1 r] & E1 & E). eapply add_rule_fresh in E1; [|exact H]. destruct r as [[en|]|]; [|discriminate|injection E as <-; exact E1].
  apply ebind_ok in E as (n & _ & E). injection E as <-. cbn. apply fresh_quiet; auto.
Qed.
Section Line.
Variable load : ctx -> text -> er (ctx * bool).
Variable afuel : nat.
Hypothesis Hload : forall cx f r, fresh (c_nodes cx) -> load cx f = EOk r -> fresh (c_nodes (fst r)).
Lemma line_fresh cx line cx' ok : fresh (c_nodes cx) -> processSamp e load afuel cx line = EOk (cx', ok) -> fresh (c_nodes cx').
Proof.
  unfold processSamp. intros H. destruct (getLineType line) as [[ty u]|]; [|intros E; injection E as <- _; exact H].
  destruct (text_eqb ty (L "prefix")); [intros E; injection E as <- _; exact H|].
  destruct (text_eqb ty (L "extendprefix")); [destruct (c_prefix cx); [|discriminate]; intros E; injection E as <- _; exact H|].
  destruct (text_eqb ty (L "rule")).
  { intros E. apply ebind_ok in E as (c1 & E1 & E). injection E as <- _. unfold processRule in *. apply ebind_ok in E1 as (r & ER & E1). destruct r as [[tags [|x sample]]|]; [injection E1 as <-; exact H| |injection E1 as <-; exact H]. eapply samp_fresh; eauto. }
  destruct (text_eqb ty (L "type")).
  { intros E. apply ebind_ok in E as (c1 & E1 & E). injection E as <- _. unfold processType in *. destruct (getTypeName u) as [[nm [|x sample]]|]; [injection E1 as <-; exact H| |injection E1 as <-; exact H].
    destruct (findType (c_types cx) nm 0) as [i|]; [eapply samp_fresh; eauto|]. cbn [newPDAG] in *. eapply samp_fresh; [|exact E1]. cbn. apply fresh_new. exact H. }
  destruct (text_eqb ty (L "annotate")).
  { intros E. apply ebind_ok in E as (c1 & E1 & E). injection E as <- _. unfold processAnnotate in E1. cbv zeta in E1. destruct (skipn _ (skipn _ u)); [injection E1 as <-; exact H|]. destruct (firstn _ u); [injection E1 as <-; exact H|].
    destruct (negb _); [injection E1 as <-; exact H|]. apply ebind_ok in E1 as ([ops|] & _ & E1); injection E1 as <-; exact H. }
  destruct (text_eqb ty (L "include")); [|intros E; injection E as <- _; exact H].
  intros E. apply ebind_ok in E as (f & EF & E). apply ebind_ok in E as ([c1 ok1] & E1 & E). injection E as <- _. cbn. eapply (Hload _ _ (c1, ok1)); eauto.
Qed.
Lemma lines_fresh isfile : forall fuel cx inp cx' ok, fresh (c_nodes cx) -> load_lines e load afuel fuel isfile cx inp = EOk (cx', ok) -> fresh (c_nodes cx').
Proof.
  induction fuel as [|fuel IH]; intros cx inp cx' ok H E; [discriminate|]. cbn [load_lines] in *.
  destruct (sampRead e _ isfile inp [] 0 false (c_line cx)) as [[line inp' eof ln|inp' ln]|inp' ln|]; [|injection E as <- _; exact H|eapply IH; [|exact E]; exact H|discriminate].
  apply ebind_ok in E as ([c1 ok1] & E1 & E). eapply line_fresh in E1; [|exact H]. destruct ok1; cbn [negb] in E; [|injection E as <- _; exact E1]. destruct eof; [injection E as <- _; exact E1|]. eapply IH; eauto.
Qed.
End Line.
Section Load.
Variable q : list prs -> list prs.
Lemma load_fresh : forall fuel level cx file r, fresh (c_nodes cx) -> loadSamples e q fuel level cx file = EOk r -> fresh (c_nodes (fst r)).
Proof.
  induction fuel as [|fuel IH]; intros level cx file r H E; [discriminate|]. cbn [loadSamples] in *. cbv zeta in *. destruct (files e file) as [[|c0 content]|]; [injection E as <-; exact H| |first [discriminate E|injection E as <-; exact H]].
  destruct (_ && _)%bool; [first [discriminate E|injection E as <-; exact H]|]. destruct (negb _); [first [discriminate E|injection E as <-; exact H]|]. apply ebind_ok in E as ([c1 ok] & E1 & E).
  eapply lines_fresh in E1; [|exact (IH (S level))|exact H]. destruct ok; cbn [negb] in E; [|injection E as <-; exact E1]. destruct (Nat.eqb level 1); [|injection E as <-; exact E1].
  apply ebind_ok in E as (c2 & E2 & E). injection E as <-. eapply optimize_fresh; eauto.
Qed.
Lemma string_fresh fuel cx t r : fresh (c_nodes cx) -> loadString e q fuel cx t = EOk r -> fresh (c_nodes (fst r)).
Proof.
  unfold loadString. cbv zeta. intros H E. apply ebind_ok in E as ([c1 ok] & E1 & E). eapply lines_fresh in E1; [|exact (load_fresh fuel 2)|exact H]. destruct ok; cbn [negb] in E; [|injection E as <-; exact E1].
  apply ebind_ok in E as (c2 & E2 & E). injection E as <-. eapply optimize_fresh; eauto.
Qed.
Lemma init_fresh o : fresh (c_nodes (initCtx o)).
Proof. intros [|[|i]] n Hi; try discriminate Hi. injection Hi as <-. split; reflexivity. Qed.
End Load.
End Field.
