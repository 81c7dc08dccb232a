(** * CompleteFacts: when nothing is reported, every field has its data. *)
From Verif Require Import Base Time Parsers Engine Pdag Samp GraphSpec History StatSpec Err BaseFacts EngineFacts2 HeapFacts DeleteFacts BuildFacts BuildFacts2 FrameFacts OptFacts LoadFacts OptTotal ErrFacts.
From Coq Require Import Permutation.

Lemma nil_app {A} (a b : list A) : a ++ b = [] -> a = [] /\ b = [].
Proof. destruct a; [auto|discriminate]. Qed.

Definition filled (k : kind) : Prop := forall ty, k <> KSimple (MNoData ty).
Lemma complete_quiet h i f : (forall n, n_parsers (f n) = n_parsers n) -> data_complete h -> data_complete (upd_node h i f).
Proof. intros Hf H j n p ty Hj Hp. apply live_upd in Hj as [[_ Hj]|[<- (n0 & Hn0 & ->)]]; [eapply H; eauto|]. rewrite Hf in Hp. eapply H; eauto. Qed.
Lemma complete_new h : data_complete h -> data_complete (h ++ [Some new_node]).
Proof. intros H j n p ty Hj Hp. apply live_app in Hj as [Hj|[-> E]]; [eapply H; eauto|]. injection E as <-. destruct Hp. Qed.
Lemma complete_free h i : data_complete h -> data_complete (free_nth h i).
Proof. intros H j n p ty Hj Hp. apply live_free in Hj as [_ Hj]. eapply H; eauto. Qed.
Lemma complete_put h nd (f : node -> list prs) : data_complete h -> (forall n p, live h nd n -> In p (f n) -> filled (p_kind p)) -> data_complete (upd_node h nd (fun n => set_parsers n (f n))).
Proof. intros H HP j n p ty Hj Hp. apply live_upd in Hj as [[_ Hj]|[<- (n0 & Hn0 & ->)]]; [eapply H; eauto|]. eapply HP; eauto. Qed.
Lemma delete_complete : forall f h i h', data_complete h -> pdagDelete f h i = EOk h' -> data_complete h'.
Proof.
  induction f as [|f IH]; intros h i h' H E; [discriminate|]. rewrite pdagDelete_unfold in E. apply ebind_ok in E as (n & Hn & E). cbv zeta in E.
  assert (H1 : data_complete (upd_node h i (fun n0 => set_refcnt n0 (n_refcnt n - 1)))) by (apply complete_quiet; auto).
  destruct (Z.ltb 0 _); [injection E as <-; exact H1|]. apply ebind_ok in E as (h2 & E2 & E).
  assert (HL : forall l h h', data_complete h -> del_list f h l = EOk h' -> data_complete h').
  { clear - IH. induction l as [|t l IHl]; intros h h' H E; cbn [del_list] in E; [injection E as <-; exact H|]. apply ebind_ok in E as (h1 & E1 & E). eapply IHl; [|exact E]. eapply IH; eauto. }
  apply HL in E2; [|exact H1]. unfold free_node in E. apply ebind_ok in E as (x & _ & E). injection E as <-. apply complete_free. exact E2.
Qed.

(** The optimizer *)
Lemma compact_complete : forall f h p h' p', data_complete h -> filled (p_kind p) -> optLitPathCompact f h p = EOk (h', p') -> data_complete h' /\ filled (p_kind p').
Proof.
  induction f as [|f IH]; intros h p h' p' H Hp E; [discriminate|]. cbn [optLitPathCompact] in E.
  destruct (negb _); [injection E as <- <-; auto|]. apply ebind_ok in E as (n & _ & E). destruct (_ || _)%bool; [injection E as <- <-; auto|].
  destruct (n_parsers n) as [|q0 [|q2 r]]; try (injection E as <- <-; auto; fail). destruct (negb _); [injection E as <- <-; auto|]. apply ebind_ok in E as (m & _ & E). destruct (negb _); [injection E as <- <-; auto|].
  destruct (p_kind p) as [[]| |]; try discriminate. destruct (p_kind q0) as [[]| |]; try discriminate. eapply IH in E; [exact E|apply complete_free; exact H|]. cbn. discriminate.
Qed.
Section QS.
Variable qs : list prs -> list prs.
Hypothesis HQ : permutes qs.
Lemma component_complete : forall f h nd h', data_complete h -> componentOptimize qs f h nd = EOk h' -> data_complete h'.
Proof.
  induction f as [|f IH]; intros h nd h' H E; [discriminate|]. rewrite componentOptimize_unfold in E. apply ebind_ok in E as (n & Hn & E). apply get_node_live in Hn.
  assert (HP : Forall (fun p => filled (p_kind p)) (if Nat.ltb 1 (List.length (n_parsers n)) then qs (n_parsers n) else n_parsers n)).
  { assert (HF : Forall (fun p => filled (p_kind p)) (n_parsers n)) by (apply Forall_forall; intros p Hp ty; eapply H; eauto). destruct (Nat.ltb _ _); auto. eapply Permutation_Forall; [apply Permutation_sym; apply HQ|exact HF]. }
  cbv zeta in E. revert HP E. generalize (if Nat.ltb 1 (List.length (n_parsers n)) then qs (n_parsers n) else n_parsers n). intros ps HP.
  assert (HU : forall h ps, data_complete h -> Forall (fun p => filled (p_kind p)) ps -> data_complete (put h nd ps)).
  { intros h0 ps0 H0 HP0. apply (complete_put h0 nd (fun _ => ps0)); [exact H0|]. intros n0 p0 _ Hi. rewrite Forall_forall in HP0. auto. }
  assert (HD : Forall (fun p => filled (p_kind p)) []) by constructor. pose proof (HU h ps H HP) as H1. revert HD H1. generalize (put h nd ps). generalize (@nil prs).
  clear H Hn h. induction ps as [|p ps IHp]; intros dn h HD H E; [cbn in E; injection E as <-; exact H|]. inversion HP as [|? ? Hp HP']; subst. rewrite opt_go_cons in E.
  apply ebind_ok in E as ([h1 p1] & E1 & E). apply compact_complete in E1 as [A B]; auto. cbv zeta in E. apply ebind_ok in E as (h2 & E2 & E).
  eapply IH in E2; [|apply HU; [exact A|apply Forall_app; split; auto]]. eapply IHp; [exact HP'| |exact E2|exact E]. apply Forall_app. split; auto.
Qed.
Lemma optimize_complete cx cx' : data_complete (c_nodes cx) -> optimize qs cx = EOk cx' -> data_complete (c_nodes cx').
Proof.
  unfold optimize. intros H E. apply ebind_ok in E as (h & E & E2). injection E2 as <-. cbn [c_nodes set_nodes]. revert H E. generalize (c_nodes cx), (map snd (c_types cx) ++ [c_root cx]). intros h0 l. revert h0.
  induction l as [|i l IH]; intros h0 H E; cbn [optimize_all] in E; [injection E as <-; exact H|]. apply ebind_ok in E as (h1 & E1 & E). apply ebind_ok in E as (u & _ & E). eapply IH; [|exact E]. eapply component_complete; eauto.
Qed.
End QS.

(** Fields *)
Section Field.
Variable e : env.
Variable badint : json -> bool.
Lemma string_filled : forall l c o, m_string e l = [] -> string_conf e l c = EOk o -> o <> None.
Proof.
  induction l as [|[k v] l IH]; intros c o HM H; cbn [m_string string_conf] in *; [injection H as <-; discriminate|]. cbv zeta in *.
  assert (HN : forall B (f : text -> er B) r, ebind (need_str e v) f = EOk r -> exists s, jstring e v = Some s /\ f s = EOk r) by (intros B f r HX; unfold need_str in HX; destruct (jstring e v); [eauto|discriminate]).
  destruct (caseeq k (L "quoting.mode")).
  { apply HN in H as (s & HS & H). rewrite HS in HM. destruct (caseeq s (L "auto")); [eapply IH; eauto|]. destruct (caseeq s (L "none")); [eapply IH; eauto|]. destruct (caseeq s (L "required")); [eapply IH; eauto|discriminate]. }
  destruct (caseeq k (L "quoting.escape.mode")).
  { apply HN in H as (s & HS & H). rewrite HS in HM. destruct (caseeq s (L "none")); [eapply IH; eauto|]. destruct (caseeq s (L "backslash")); [eapply IH; eauto|]. destruct (caseeq s (L "double")); [eapply IH; eauto|]. destruct (caseeq s (L "both")); [eapply IH; eauto|discriminate]. }
  destruct (caseeq k (L "quoting.char.begin")).
  { apply HN in H as (s & HS & H). rewrite HS in HM. destruct s as [|x [|y s]]; try discriminate. eapply IH; eauto. }
  destruct (caseeq k (L "quoting.char.end")).
  { apply HN in H as (s & HS & H). rewrite HS in HM. destruct s as [|x [|y s]]; try discriminate. eapply IH; eauto. }
  destruct (caseeq k (L "matching.permitted")).
  { apply nil_app in HM as [_ HM]. apply ebind_ok in H as (p & _ & H). eapply IH; eauto. }
  destruct (caseeq k (L "matching.mode")).
  { apply HN in H as (s & HS & H). rewrite HS in HM. destruct (caseeq s (L "strict")); [eapply IH; eauto|]. destruct (caseeq s (L "lazy")); [eapply IH; eauto|discriminate]. }
  discriminate.
Qed.
Lemma nv_filled l : m_nv l = [] -> nv_conf l <> None.
Proof.
  unfold m_nv, nv_conf. cbv beta zeta.
  destruct (obj_get l (L "extradata")) as [v1|]; [destruct (one_char v1); [|discriminate]|]; (destruct (obj_get l (L "separator")) as [v2|]; [destruct (one_char v2); [|discriminate]|]; (destruct (obj_get l (L "assignator")) as [v3|]; [destruct (one_char v3); [|discriminate]|])); intros _; cbn; discriminate.
Qed.
Lemma need_filled k msg l : m_need k msg l = [] -> exists v, obj_get l (L k) = Some v.
Proof. unfold m_need. destruct (obj_get l (L k)); [eauto|discriminate]. Qed.
Lemma simple_filled typ l pr x m : m_simple e badint typ l = [] -> simple_type e typ l = Some (pr, x) -> x = EOk m -> filled (KSimple m).
Proof.
  intros HM HS HX ty HE. injection HE as ->. subst x. revert HM HS. unfold m_simple, simple_type.
  repeat match goal with |- _ -> (if ?b then _ else _) = _ -> _ => destruct b end; intros HM HS; try discriminate; apply (f_equal (fun o => match o with Some (_, y) => y | None => EUb NullDeref end)) in HS; cbv beta iota in HS; try discriminate;
  try (apply ebind_ok in HS as (y & _ & HS); destruct y; discriminate HS).
  - apply need_filled in HM as (v & HV). rewrite HV in HS. apply ebind_ok in HS as (s & _ & HS). discriminate.
  - apply nv_filled in HM. destruct (nv_conf l) as [[]|]; [discriminate|tauto].
  - apply need_filled in HM as (v & HV). unfold extradata in HS. rewrite HV in HS. apply ebind_ok in HS as (s & _ & HS). discriminate.
  - apply need_filled in HM as (v & HV). unfold extradata in HS. rewrite HV in HS. apply ebind_ok in HS as (s & _ & HS). discriminate.
  - apply need_filled in HM as (v & HV). unfold extradata in HS. rewrite HV in HS. apply ebind_ok in HS as (s & _ & HS). discriminate.
  - unfold construct_string in HS. apply ebind_ok in HS as (o & HO & HS). apply string_filled in HO; [|exact HM]. destruct o; [discriminate|tauto].
Qed.

Section Add.
Variable addp : ctx -> nat -> json -> er (ctx * option (option nat)).
Variable m_addp : ctx -> nat -> json -> list body.
Hypothesis Hquiet : forall cx n v r, data_complete (c_nodes cx) -> addp cx n v = EOk r -> m_addp cx n v = [] -> data_complete (c_nodes (fst r)).
Hypothesis Hnone : forall cx n v cx', addp cx n v = EOk (cx', None) -> m_addp cx n v <> [].

Lemma repeat_conf_complete : forall l pn wn permit cx x, data_complete (c_nodes cx) -> repeat_conf e addp l pn wn permit cx = EOk x -> m_repeat_conf e addp m_addp l pn wn permit cx = [] -> data_complete (c_nodes (fst (fst (fst x)))).
Proof.
  induction l as [|[k v] l IH]; intros pn wn permit cx x H E HM; cbn [repeat_conf m_repeat_conf] in *; [injection E as <-; exact H|]. cbv zeta in *.
  assert (HI : forall pn' wn' n, (do* (cx', en) := addp (fst (newPDAG cx)) n v in match en with None => EOk (cx', pn', wn', permit) | Some None => EUb NullDeref | Some (Some en) => repeat_conf e addp l pn' wn' permit (set_nodes cx' (upd_node (c_nodes cx') en set_term)) end) = EOk x ->
    m_addp (fst (newPDAG cx)) n v ++ match addp (fst (newPDAG cx)) n v with EOk (cx', Some (Some en)) => m_repeat_conf e addp m_addp l pn' wn' permit (set_nodes cx' (upd_node (c_nodes cx') en set_term)) | _ => [] end = [] -> data_complete (c_nodes (fst (fst (fst x))))).
  { intros pn' wn' n HE HX. apply nil_app in HX as [X1 X2]. apply ebind_ok in HE as ([c1 en] & E1 & HE). assert (HC : data_complete (c_nodes c1)) by (eapply (Hquiet _ _ _ (c1, en)); [|exact E1|exact X1]; cbn; apply complete_new; exact H).
    rewrite E1 in X2. destruct en as [[en|]|]; [|discriminate|apply Hnone in E1; tauto]. eapply IH; [|exact HE|exact X2]. cbn. apply complete_quiet; auto. }
  destruct (text_eqb k (L "parser")).
  { apply ebind_ok in E as (good & EG & E). rewrite EG in HM. destruct good; cbn [negb] in E; [eapply HI; [exact E|exact HM]|]. unfold m_dots in HM. rewrite EG in HM. discriminate. }
  destruct (text_eqb k (L "while")); [eapply HI; [exact E|exact HM]|].
  destruct (caseeq k (L "option.permitMismatchInParser")); [|discriminate]. eapply IH; [exact H|exact E|].
  revert HM. match goal with |- m_repeat_conf _ _ _ _ _ _ ?a _ = [] -> m_repeat_conf _ _ _ _ _ _ ?b _ = [] => generalize a, b end. clear. revert pn wn cx.
  induction l as [|[k v] l IH]; intros pn wn cx a b; cbn [m_repeat_conf]; auto. cbv zeta.
  destruct (text_eqb k (L "parser")); [destruct (chkNoDupeDot e v) as [[]|]; auto; destruct (newPDAG cx) as [c n]; destruct (m_addp c n v); [cbn [app]|discriminate]; destruct (addp c n v) as [[c1 [[en|]|]]|]; auto; apply IH|].
  destruct (text_eqb k (L "while")); [destruct (newPDAG cx) as [c n]; destruct (m_addp c n v); [cbn [app]|discriminate]; destruct (addp c n v) as [[c1 [[en|]|]]|]; auto; apply IH|].
  destruct (caseeq k (L "option.permitMismatchInParser")); [apply IH|discriminate].
Qed.
Lemma repeat_complete l cx cx' k : data_complete (c_nodes cx) -> construct_repeat e addp l cx = EOk (cx', k) -> m_repeat e addp m_addp l cx = [] -> data_complete (c_nodes cx') /\ filled k.
Proof.
  intros H E HM. unfold construct_repeat in E. unfold m_repeat in HM. apply nil_app in HM as [M1 M2]. apply ebind_ok in E as (x & E1 & E). pose proof (repeat_conf_complete _ _ _ _ _ _ H E1 M1) as HC. rewrite E1 in M2. destruct x as [[[c pn] wn] pm].
  destruct pn as [pn|]; [destruct wn as [wn|]|]; try discriminate. injection E as <- <-. split; [exact HC|]. intros ty. discriminate.
Qed.
Lemma newParser_complete cx conf cx' o : data_complete (c_nodes cx) -> newParser e addp cx conf = EOk (cx', o) -> m_newParser e badint addp m_addp cx conf = [] -> data_complete (c_nodes cx') /\ forall p, o = Some p -> filled (p_kind p).
Proof.
  intros H E HM. unfold newParser, m_newParser in *. destruct (jget conf "type") as [tv|]; [|injection E as <- <-; split; [exact H|discriminate]].
  assert (HV : tv = JNull \/ tv <> JNull) by (destruct tv; auto; right; discriminate). destruct HV as [-> |HV]; [injection E as <- <-; split; [exact H|discriminate]|].
  assert (E' : exists typ, jstring e tv = Some typ). { destruct tv; try tauto; unfold need_str in E; (destruct (jstring e _) as [typ|]; [eauto|discriminate]). }
  destruct E' as (typ & HT).
  assert (H3 : (let custom := match typ with c :: _ => ceq c "@" | [] => false end in
      let cust := if custom then findType (c_types cx) typ 0 else None in
      let known := if custom then match cust with Some _ => true | None => false end else (text_eqb typ (L "repeat") || match simple_type e typ [] with Some _ => true | None => false end)%bool in
      if negb known then EOk (cx, None) else
        do* name := match jget conf "name" with None | Some JNull => EOk None | Some v => do* s := need_str e v in EOk (if text_eqb s (L "-") then None else Some s) end in
        let assigned := match jget conf "priority" with None | Some JNull => 30000%Z | Some v => get_int e v end in
        let rest := match conf with JObj l => l | _ => [] end in
        let rest := obj_del (obj_del rest (L "type")) (L "priority") in
        let rest := match name with Some _ => obj_del rest (L "name") | None => rest end in
        do* (cx, k, prio) := match cust with Some ti => EOk (cx, KCustom ti, 16%Z) | None => if text_eqb typ (L "repeat") then do* (cx, k) := construct_repeat e addp rest cx in EOk (cx, k, 4%Z)
           else match simple_type e typ rest with Some (prio, m) => do* m := m in EOk (cx, KSimple m, prio) | None => EUb NullDeref end end in
        EOk (cx, Some {| p_kind := k; p_name := name; p_conf := conf; p_prio := mk_prio assigned prio; p_child := 0 |})) = EOk (cx', o)).
  { destruct tv; try tauto; unfold need_str at 1 in E; rewrite HT in E; exact E. }
  assert (M3 : (let custom := match typ with c :: _ => ceq c "@" | [] => false end in
          let name := match jget conf "name" with None | Some JNull => None | Some v => match jstring e v with Some s => if text_eqb s (L "-") then None else Some s | None => None end end in
          let rest := match conf with JObj l => l | _ => [] end in
          let rest := obj_del (obj_del rest (L "type")) (L "priority") in
          let rest := match name with Some _ => obj_del rest (L "name") | None => rest end in
          if custom then match findType (c_types cx) typ 0 with None => [quote "unknown user-defined type '" typ] | Some _ => [] end
          else if text_eqb typ (L "repeat") then m_repeat e addp m_addp rest cx
          else match simple_type e typ [] with None => [quote "invalid field type '" typ] | Some _ => m_simple e badint typ rest end) = []).
  { destruct tv; try tauto; rewrite HT in HM; exact HM. }
  clear E HM. cbv zeta in H3, M3. destruct (negb _); [injection H3 as <- <-; split; [exact H|discriminate]|]. apply ebind_ok in H3 as (nm & EN & H3).
  assert (HNM : match jget conf "name" with None | Some JNull => None | Some v => match jstring e v with Some s => if text_eqb s (L "-") then None else Some s | None => None end end = nm).
  { destruct (jget conf "name") as [v|]; [|injection EN as <-; reflexivity]. destruct v; try (injection EN as <-; reflexivity); unfold need_str in EN; (destruct (jstring e _) as [s|]; [injection EN as <-; reflexivity|discriminate]). }
  rewrite HNM in M3. clear HNM EN. cbv beta zeta in H3. match type of M3 with context[m_simple e badint typ ?r] => match type of H3 with context[simple_type e typ ?r2] => change r2 with r in H3; revert H3 M3; generalize r end end. intros rest H3 M3.
  apply ebind_ok in H3 as ([[c1 k] pr] & HK & H3). injection H3 as <- <-.
  assert (HG : data_complete (c_nodes c1) /\ filled k); [|destruct HG as [G1 G2]; split; [exact G1|intros p HP; injection HP as <-; exact G2]].
  destruct (match typ with c :: _ => ceq c "@" | [] => false end).
  - destruct (findType (c_types cx) typ 0) as [ti|]; [|discriminate]. injection HK as <- <- <-. split; [exact H|intros ty; discriminate].
  - destruct (text_eqb typ (L "repeat")); [apply ebind_ok in HK as ([c2 k2] & HK & HE); injection HE as <- <- <-; eapply repeat_complete; eauto|].
    destruct (simple_type e typ []) as [x|]; [|discriminate]. destruct (simple_type e typ rest) as [[prio m]|] eqn:ES; [|discriminate]. apply ebind_ok in HK as (m0 & Hm & HK). injection HK as <- <- <-. split; [exact H|]. eapply simple_filled; eauto.
Qed.
Lemma addInstance_complete cx conf dag next cx' o : data_complete (c_nodes cx) -> addInstance e addp cx conf dag next = EOk (cx', o) -> m_newParser e badint addp m_addp cx conf = [] -> data_complete (c_nodes cx').
Proof.
  intros H E HM. unfold addInstance in E. apply ebind_ok in E as ([c1 op] & E1 & E). destruct (newParser_complete _ _ _ _ H E1 HM) as [HC HP]. destruct op as [p|]; [|injection E as <- <-; exact HC]. destruct dag as [d|]; [|discriminate].
  apply ebind_ok in E as (n & Hn & E). destruct (find_same _ _ _) as [ch|].
  - apply ebind_ok in E as (h & E2 & E). injection E as <- <-. cbn [c_nodes set_nodes]. destruct (p_kind p) as [m|ti|a b pm]; try (injection E2 as <-; exact HC). apply ebind_ok in E2 as (h1 & E3 & E2). eapply delete_complete; [|exact E2]. eapply delete_complete; eauto.
  - apply ebind_ok in E as ([c2 nn] & E2 & E). injection E as <- <-. cbn [c_nodes set_nodes].
    assert (HC2 : data_complete (c_nodes c2)). { destruct next as [x|]; [|injection E2 as <- _; cbn; apply complete_new; exact HC]. apply ebind_ok in E2 as (m & _ & E2). injection E2 as <- _. cbn. apply complete_quiet; auto. }
    apply (complete_put _ d (fun n0 => push_parser (n_parsers n0) {| p_kind := p_kind p; p_name := p_name p; p_conf := p_conf p; p_prio := p_prio p; p_child := nn |})); [exact HC2|].
    intros n0 p0 Hl Hi. unfold push_parser in Hi. destruct (Nat.eqb _ 255); [destruct Hi|]. apply in_app_or in Hi as [Hi|[<-|[]]]; [intros ty; eapply HC2; eauto|cbn; apply HP; reflexivity].
Qed.

Section Loop.
Variable inner : ctx -> amode -> option nat -> json -> option nat -> ares.
Variable m_inner : ctx -> amode -> option nat -> json -> option nat -> list body.
Hypothesis Hinner : forall cx mode dag conf next r, data_complete (c_nodes cx) -> inner cx mode dag conf next = EOk r -> m_inner cx mode dag conf next = [] -> data_complete (c_nodes (fst r)).
Lemma loop_complete : forall l cx mode dag next pnext r, data_complete (c_nodes cx) -> addParsers_loop e addp inner cx mode l dag next pnext = EOk r ->
  m_addParsers_loop e badint addp m_addp inner m_inner cx mode l dag next pnext = [] -> data_complete (c_nodes (fst r)).
Proof.
  induction l as [|j l IH]; intros cx mode dag next pnext r H E HM; cbn [addParsers_loop m_addParsers_loop] in *; [destruct mode; injection E as <-; exact H|].
  apply ebind_ok in E as ([c1 o] & E1 & E). rewrite E1 in HM. apply nil_app in HM as [M1 M2].
  assert (HC : data_complete (c_nodes c1)). { destruct j as [| | | | |a|a]; apply ebind_ok in E1 as ([c2 r1] & E1 & E2); injection E2 as <- _; try (eapply addInstance_complete; eauto; fail). eapply (Hinner _ _ _ _ _ (c2, r1)); eauto. }
  destruct o as [[d nx]|]; [|injection E as <-; exact HC]. destruct mode; (eapply IH; [exact HC|exact E|exact M2]).
Qed.
Lemma step_complete cx mode dag conf next r : data_complete (c_nodes cx) -> addInternal_step e addp inner cx mode dag conf next = EOk r ->
  m_addInternal_step e badint addp m_addp inner m_inner cx mode dag conf next = [] -> data_complete (c_nodes (fst r)).
Proof.
  unfold addInternal_step, m_addInternal_step. intros H. destruct conf as [| | | | |l|l]; try discriminate; [apply loop_complete; exact H|].
  destruct (jget (JObj l) "type") as [tv|]; [|discriminate]. intros E HM.
  assert (HV : tv = JNull \/ tv <> JNull) by (destruct tv; auto; right; discriminate). destruct HV as [-> |HV]; [discriminate|].
  assert (E' : exists typ, jstring e tv = Some typ). { destruct tv; try tauto; unfold need_str in E; (destruct (jstring e _) as [typ|]; [eauto|discriminate]). }
  destruct E' as (typ & HT). rewrite HT in HM.
  assert (E3 : (if text_eqb typ (L "alternative") then match jget (JObj l) "parser" with Some (JArr ps) => addParsers_loop e addp inner cx Alt ps dag next next | _ => EOk (cx, None) end
     else do* (cx, r) := addInstance e addp cx (JObj l) dag next in EOk (cx, match r with None => None | Some nx => Some (match mode with Seq => Some nx | Alt => dag end, Some nx) end)) = EOk r).
  { destruct tv; try tauto; unfold need_str in E; rewrite HT in E; exact E. }
  destruct (text_eqb typ (L "alternative")).
  - destruct (jget (JObj l) "parser") as [[]|]; try discriminate. eapply loop_complete; [exact H|exact E3|exact HM].
  - apply ebind_ok in E3 as ([c1 o] & E1 & E3). injection E3 as <-. eapply addInstance_complete; eauto.
Qed.
End Loop.
End Add.
Lemma internal_complete : forall f cx mode dag conf next r, data_complete (c_nodes cx) -> addInternal e f cx mode dag conf next = EOk r -> m_addInternal e badint f cx mode dag conf next = [] -> data_complete (c_nodes (fst r)).
Proof.
  induction f as [|f IH]; intros cx mode dag conf next r H E HM; [discriminate|]. cbn [addInternal m_addInternal] in *. eapply step_complete; [| |exact IH|exact H|exact E|exact HM].
  - intros c n v r0 Hc E1 M1. cbn beta in *. apply ebind_ok in E1 as ([c1 o] & E1 & E2). injection E2 as <-. eapply (IH _ _ _ _ _ (c1, o)); eauto.
  - intros c n v c' E1. cbn beta in *. apply ebind_ok in E1 as ([c1 o] & E1 & E2). destruct o as [[]|]; [discriminate|]. eapply addInternal_none; exact E1.
Qed.
Lemma addParser_complete cx dag conf cx' o : data_complete (c_nodes cx) -> addParser e cx dag conf = EOk (cx', o) -> m_addParser e badint cx dag conf = [] -> data_complete (c_nodes cx').
Proof. unfold addParser, m_addParser. intros H E HM. apply ebind_ok in E as ([c1 r] & E1 & E2). injection E2 as <- _. eapply (internal_complete _ _ _ _ _ _ (c1, r)); eauto. Qed.
Lemma literals_complete : forall l cx dag cx' o, data_complete (c_nodes cx) -> add_literals e cx dag l = EOk (cx', o) -> m_add_literals e badint cx dag l = [] -> data_complete (c_nodes cx').
Proof.
  induction l as [|c l IH]; intros cx dag cx' o H E HM; cbn [add_literals m_add_literals] in *; [injection E as <- _; exact H|]. destruct dag as [d|]; [|discriminate].
  apply ebind_ok in E as ([c1 r] & E1 & E). rewrite E1 in HM. apply nil_app in HM as [M1 M2]. eapply addParser_complete in E1; eauto. destruct r; [eapply IH; eauto|injection E as <- _; exact E1].
Qed.
Lemma add_rule_complete : forall f cx dag rule cx' o, data_complete (c_nodes cx) -> add_rule e f cx dag rule = EOk (cx', o) -> m_add_rule e badint f cx dag rule = [] -> data_complete (c_nodes cx').
Proof.
  induction f as [|f IH]; intros cx dag rule cx' o H E HM; [discriminate|]. cbn [add_rule m_add_rule] in *. destruct rule as [|c0 rule]; [injection E as <- _; exact H|].
  destruct (literal_part (c0 :: rule)) as [lit rest]. cbv zeta in *. apply ebind_ok in E as ([c1 r] & E1 & E). rewrite E1 in HM. apply nil_app in HM as [M1 M2]. eapply literals_complete in E1; [|exact H|exact M1].
  destruct r as [dag1|]; [|injection E as <- _; exact E1]. destruct rest as [|x rest]; [injection E as <- _; exact E1|]. apply nil_app in M2 as [_ M2]. destruct (fieldDescr e (x :: rest)) as [[rest' conf]|k|u]; [|injection E as <- _; exact E1|discriminate].
  destruct dag1 as [d|]; [|discriminate]. apply ebind_ok in E as ([c2 r2] & E2 & E). rewrite E2 in M2. apply nil_app in M2 as [M2 M3]. eapply addParser_complete in E2; [|exact E1|exact M2]. destruct r2; [eapply IH; eauto|injection E as <- _; exact E2].
Qed.
Lemma samp_complete cx rule dag tags cx' : data_complete (c_nodes cx) -> addSampToTree e cx rule dag tags = EOk cx' -> m_addSampToTree e badint cx rule dag = [] -> data_complete (c_nodes cx').
Proof.
  unfold addSampToTree, m_addSampToTree. intros H E HM. apply ebind_ok in E as ([c1 r] & E1 & E). eapply add_rule_complete in E1; [|exact H|exact HM]. destruct r as [[en|]|]; [|discriminate|injection E as <-; exact E1].
  apply ebind_ok in E as (n & _ & E). injection E as <-. cbn. apply complete_quiet; auto.
Qed.
Lemma at_pos_nil cx l : at_pos cx l = [] -> l = []. Proof. destruct l; [auto|discriminate]. Qed.

Section Line.
Variable load : ctx -> text -> er (ctx * bool).
Variable m_load : ctx -> text -> list message.
Variable afuel : nat.
Hypothesis Hload : forall cx f r, data_complete (c_nodes cx) -> load cx f = EOk r -> m_load cx f = [] -> data_complete (c_nodes (fst r)).
Lemma line_complete cx line cx' ok : data_complete (c_nodes cx) -> processSamp e load afuel cx line = EOk (cx', ok) -> m_processSamp e badint m_load afuel cx line = [] -> data_complete (c_nodes cx').
Proof.
  unfold processSamp, m_processSamp. intros H. destruct (getLineType line) as [[ty u]|]; [|intros E _; injection E as <- _; exact H].
  destruct (text_eqb ty (L "prefix")); [intros E _; injection E as <- _; exact H|].
  destruct (text_eqb ty (L "extendprefix")); [destruct (c_prefix cx); [|discriminate]; intros E _; injection E as <- _; exact H|].
  destruct (text_eqb ty (L "rule")).
  { intros E HM. apply at_pos_nil in HM. apply ebind_ok in E as (c1 & E1 & E). injection E as <- _. unfold processRule, m_processRule in *. apply ebind_ok in E1 as (r & ER & E1). rewrite ER in HM. destruct r as [[tags [|x sample]]|]; [discriminate| |injection E1 as <-; exact H]. eapply samp_complete; eauto. }
  destruct (text_eqb ty (L "type")).
  { intros E HM. apply at_pos_nil in HM. apply ebind_ok in E as (c1 & E1 & E). injection E as <- _. unfold processType, m_processType in *. destruct (getTypeName u) as [[nm [|x sample]]|]; [discriminate| |injection E1 as <-; exact H].
    destruct (findType (c_types cx) nm 0) as [i|]; [eapply samp_complete; eauto|]. cbn [newPDAG] in *. eapply samp_complete; [|exact E1|exact HM]. cbn. apply complete_new. exact H. }
  destruct (text_eqb ty (L "annotate")).
  { intros E _. apply ebind_ok in E as (c1 & E1 & E). injection E as <- _. unfold processAnnotate in E1. cbv zeta in E1. destruct (skipn _ (skipn _ u)); [injection E1 as <-; exact H|]. destruct (firstn _ u); [injection E1 as <-; exact H|].
    destruct (negb _); [injection E1 as <-; exact H|]. apply ebind_ok in E1 as ([ops|] & _ & E1); injection E1 as <-; exact H. }
  destruct (text_eqb ty (L "include")); [|intros E _; injection E as <- _; exact H].
  intros E HM. apply ebind_ok in E as (f & EF & E). rewrite EF in HM. apply ebind_ok in E as ([c1 ok1] & E1 & E). injection E as <- _. cbn. eapply (Hload _ _ (c1, ok1)); eauto.
Qed.
Lemma lines_complete isfile : forall fuel cx inp cx' ok, data_complete (c_nodes cx) -> load_lines e load afuel fuel isfile cx inp = EOk (cx', ok) -> m_load_lines e badint load m_load afuel fuel isfile cx inp = [] -> data_complete (c_nodes cx').
Proof.
  induction fuel as [|fuel IH]; intros cx inp cx' ok H E HM; [discriminate|]. cbn [load_lines m_load_lines] in *. apply nil_app in HM as [_ HM].
  destruct (sampRead e _ isfile inp [] 0 false (c_line cx)) as [[line inp' eof ln|inp' ln]|inp' ln|]; [|injection E as <- _; exact H|eapply IH; [|exact E|exact HM]; exact H|discriminate].
  apply ebind_ok in E as ([c1 ok1] & E1 & E). rewrite E1 in HM. apply nil_app in HM as [M1 M2]. eapply line_complete in E1; [|exact H|exact M1]. destruct ok1; cbn [negb] in E; [|injection E as <- _; exact E1]. destruct eof; [injection E as <- _; exact E1|]. eapply IH; eauto.
Qed.
End Line.
Section Load.
Variable q : list prs -> list prs.
Hypothesis HQ : permutes q.
Lemma load_complete : forall fuel level cx file r, data_complete (c_nodes cx) -> loadSamples e q fuel level cx file = EOk r -> m_loadSamples e badint q fuel level cx file = [] -> data_complete (c_nodes (fst r)).
Proof.
  induction fuel as [|fuel IH]; intros level cx file r H E HM; [discriminate|]. cbn [loadSamples m_loadSamples] in *. cbv zeta in *. destruct (files e file) as [[|c0 content]|]; [discriminate| |discriminate].
  destruct (_ && _)%bool; [discriminate|]. destruct (negb _); [discriminate|]. apply ebind_ok in E as ([c1 ok] & E1 & E).
  eapply lines_complete in E1; [|exact (IH (S level))|exact H|exact HM]. destruct ok; cbn [negb] in E; [|injection E as <-; exact E1]. destruct (Nat.eqb level 1); [|injection E as <-; exact E1].
  apply ebind_ok in E as (c2 & E2 & E). injection E as <-. eapply optimize_complete; eauto.
Qed.
Lemma string_complete fuel cx t r : data_complete (c_nodes cx) -> loadString e q fuel cx t = EOk r -> m_loadString e badint q fuel cx t = [] -> data_complete (c_nodes (fst r)).
Proof.
  unfold loadString, m_loadString. cbv zeta. intros H E HM. apply ebind_ok in E as ([c1 ok] & E1 & E). eapply lines_complete in E1; [|exact (load_complete fuel 2)|exact H|exact HM]. destruct ok; cbn [negb] in E; [|injection E as <-; exact E1].
  apply ebind_ok in E as (c2 & E2 & E). injection E as <-. eapply optimize_complete; eauto.
Qed.
End Load.
End Field.
