(** * OneTop: loading a rulebase with one rule, and normalizing with it. *)
From Verif Require Import Base Time Parsers Engine Pdag Samp EngineSpec EngineSpec2 GraphSpec RuleSpec BuiltSpec LineSpec SimSpec LoadSpec OneSpec BaseFacts FieldFacts EngineFacts EngineFacts2 EngineFacts3 EngineGen HeapFacts FrameFacts SimFacts BuildFacts BuildFacts2 BuildFacts3 RuleFacts TreeFacts TreeFacts2 OptSem OptFacts OptTotal LoadFacts LineFacts LoadText LoadTop AnnotFacts OneFacts OneEngine OneLoad OneOpt EngineGen2 History.
From Verif Require V1Facts Prop_Rules.
From Coq Require Import ZifyBool ZifyNat ZifyN Permutation.

Scheme reads_field_mut := Minimality for reads_field Sort Prop
with reads_mut := Minimality for reads Sort Prop
with reads_all_mut := Minimality for reads_all Sort Prop.

(** more types do not matter *)
Section More.
Variables (e : env) (names more : list text).
Lemma flat_more conf x : flat_field e (known names) conf = Some x -> flat_field e (known (names ++ more)) conf = Some x.
Proof. unfold known. rewrite map_app. apply flat_types_app. Qed.
Lemma reads_more :
  (forall c f, reads_field e names c f -> reads_field e (names ++ more) c f) /\ (forall c fs, reads e names c fs -> reads e (names ++ more) c fs).
Proof.
  assert (R1 : forall conf m nm, flat_field e (known names) conf = Some (KSimple m, nm) -> reads_field e (names ++ more) conf (RPlain m, nm)) by (intros; apply rd_plain; apply flat_more; auto).
  assert (R2 : forall conf ti T nm, flat_field e (known names) conf = Some (KCustom ti, nm) -> nth_error names ti = Some T -> reads_field e (names ++ more) conf (RType T, nm)).
  { intros conf ti T nm H Hn. eapply rd_type; [apply flat_more; exact H|]. rewrite nth_error_app1; auto. apply nth_error_Some. congruence. }
  split; [apply (reads_field_mut e names (reads_field e (names ++ more)) (reads e (names ++ more)) (reads_all e (names ++ more)))|apply (reads_mut e names (reads_field e (names ++ more)) (reads e (names ++ more)) (reads_all e (names ++ more)))];
    auto; intros; try (econstructor; eauto; fail).
Qed.
Lemma reads_rule_more cs fs : reads_rule e names cs fs -> reads_rule e (names ++ more) cs fs.
Proof. induction 1; constructor; auto. apply reads_more. auto. Qed.
End More.
Lemma rep_types h ts more : (forall i l, rep h ts i l -> rep h (ts ++ more) i l) /\ (forall k f, den h ts k f -> den h (ts ++ more) k f).
Proof.
  assert (R4 : forall ti T tn, nth_error ts ti = Some (T, tn) -> den h (ts ++ more) (KCustom ti) (RType T)).
  { intros ti T tn Hn. eapply den_custom. rewrite nth_error_app1; eauto. apply nth_error_Some. congruence. }
  split; [apply (rep_mut h ts (rep h (ts ++ more)) (den h (ts ++ more)))|apply (den_mut h ts (rep h (ts ++ more)) (den h (ts ++ more)))]; auto; intros; try (econstructor; eauto; fail).
Qed.

(** the lines *)
Record holding (e : env) (cx : ctx) (types : list (text * rfields)) : Prop := {
  h_names : map fst (c_types cx) = map fst types;
  h_types : forall ti T tn, nth_error (c_types cx) ti = Some (T, tn) -> exists fs, In (T, fs) types /\ inner_ok (c_nodes cx) tn /\ Forall (fun f => lits_ok (fst f)) fs /\ rep (c_nodes cx) (c_types cx) tn (norm fs);
  h_data : all_data (c_nodes cx);
  h_annots : c_annots cx = [];
  h_prefix : c_prefix cx = None }.
Lemma getTypeName_ok T r : type_name T -> getTypeName (T ++ ":"%char :: r) = Some (T, r).
Proof.
  intros ((t & E) & H1 & H2 & H3 & H4). unfold getTypeName. rewrite scan_all_but by auto.
  assert (EF : firstn (List.length T) (T ++ ":"%char :: r) = T) by (rewrite firstn_app, Nat.sub_diag, firstn_all; cbn [firstn]; apply app_nil_r). rewrite EF.
  assert (ES : skipn (S (List.length T)) (T ++ ":"%char :: r) = r).
  { rewrite skipn_app. replace (S (List.length T) - List.length T) with 1 by lia. rewrite skipn_all2 by lia. reflexivity. }
  rewrite ES. assert (EL : lrd (T ++ ":"%char :: r) 0 = "@"%char) by (rewrite E; reflexivity). rewrite EL. change (ceq "@" "@") with true.
  assert (EX : existsb isspace T = false). { destruct (existsb isspace T) eqn:EE; auto. apply existsb_exists in EE as (c & Hc & Hs). rewrite (H3 c Hc) in Hs. discriminate. } rewrite EX.
  assert (EN : Nat.ltb (List.length T) (List.length (T ++ ":"%char :: r)) = true) by (apply Nat.ltb_lt; rewrite app_length; cbn; lia). rewrite EN.
  assert (EM : N.ltb (N.of_nat (List.length T)) 1024 = true) by (apply N.ltb_lt; auto). rewrite EM. cbn. rewrite cstr_id by auto. reflexivity.
Qed.
Lemma find_none ts nm : forall i, ~ In nm (map fst ts) -> findType ts nm i = None.
Proof. induction ts as [|[a x] ts IH]; intros i H; cbn; auto. cbn in H. destruct (text_eqb a nm) eqn:E; [apply text_eqb_true in E; subst; tauto|]. apply IH. tauto. Qed.

Section Lines.
Variable e : env.
Hypothesis HE : prints_no_nul e.
Variable load : ctx -> text -> er (ctx * bool).
Variable afuel : nat.

Lemma rule_lits names cs fs : reads_rule e names cs fs -> Forall (fun f => lits_ok (fst f)) fs.
Proof. induction 1; [constructor|]. apply Forall_app. split; auto. eapply reads_lits; eauto. Qed.

Lemma type_step cx types T r cs gs : holding e cx types -> good_start (c_nodes cx) (c_root cx) -> type_name T -> ~ In T (map fst types) -> r <> [] -> rule_confs e r cs -> reads_rule e (map fst types) cs gs -> gs <> [] ->
  exists cx', processSamp e load afuel cx (type_line T r) = EOk (cx', true) /\ holding e cx' (types ++ [(T, gs)]) /\ good_start (c_nodes cx') (c_root cx') /\ c_opts cx' = c_opts cx /\ c_root cx' = c_root cx.
Proof.
  intros [HN HT HD HA HP] (n0 & Hn0 & B0) HTy Hnew Hr HC HR NE. unfold type_line. rewrite proc_type. unfold processType. rewrite getTypeName_ok by auto. destruct r as [|c0 r]; [tauto|]. set (r0 := c0 :: r) in *.
  rewrite find_none by (rewrite HN; auto). unfold newPDAG. set (nd := List.length (c_nodes cx)).
  set (cx1 := set_types (set_nodes cx (c_nodes cx ++ [Some new_node])) (c_types (set_nodes cx (c_nodes cx ++ [Some new_node])) ++ [(T, nd)])).
  assert (T1 : c_types cx1 = c_types cx ++ [(T, nd)]) by reflexivity. assert (N1 : c_nodes cx1 = c_nodes cx ++ [Some new_node]) by reflexivity.
  assert (S1 : good_start (c_nodes cx1) nd). { exists new_node. split; [rewrite N1; apply live_app; right; auto|apply new_blank]. }
  assert (R1 : reads_rule e (map fst (c_types cx1)) cs gs). { rewrite T1, map_app, HN. apply reads_rule_more. exact HR. }
  destruct (addSamp_one e HE cx1 r0 cs gs nd None HC R1 S1) as (h' & E & RP & K & D & I1 & LL & PL). rewrite E. cbn [ebind].
  assert (K2 : forall i n, live (c_nodes cx) i n -> live h' i n). { intros i n Hi. apply K; [rewrite N1; apply live_app; auto|]. intros ->. apply live_lt in Hi. unfold nd in Hi. lia. }
  exists (set_nodes cx1 h'). split; [reflexivity|]. split; [|split; [|split; reflexivity]].
  - constructor; rewrite ?nodes_set; try exact HA; try exact HP; change (c_types (set_nodes cx1 h')) with (c_types cx ++ [(T, nd)]).
    + rewrite !map_app, HN. reflexivity.
    + intros ti T0 tn Hn. destruct (Nat.ltb_spec ti (List.length (c_types cx))) as [HL|HL].
      * rewrite nth_error_app1 in Hn by auto. destruct (HT _ _ _ Hn) as (fs & A1 & A2 & A3 & A4). exists fs. split; [apply in_or_app; auto|]. split; [eapply inner_frame; [|exact A2]; auto|]. split; auto.
        apply rep_types. apply (rep_frame (c_nodes cx) h' (c_types cx)); auto.
      * rewrite nth_error_app2 in Hn by auto. destruct (ti - List.length (c_types cx)) as [|[|?]]; try discriminate. injection Hn as <- <-. exists gs. split; [apply in_or_app; right; left; auto|]. split; [auto|]. split; [eapply rule_lits; eauto|exact RP].
    + apply D. rewrite N1. apply (g_data _ _ _ (grows_new (c_nodes cx))). exact HD.
  - exists n0. split; [|auto]. change (c_root (set_nodes cx1 h')) with (c_root cx). rewrite nodes_set. auto.
Qed.

Definition loaded_one (cx : ctx) (types : list (text * rfields)) (tags : list text) (fs : rfields) : Prop :=
  holding e cx types /\ rep (c_nodes cx) (c_types cx) (c_root cx) (norm fs) /\
  exists ps en n, lin (c_nodes cx) (c_root cx) ps en /\ live (c_nodes cx) en n /\ n_tags n = tag_list tags.
Lemma rule_step cx types r cs tags fs : holding e cx types -> good_start (c_nodes cx) (c_root cx) -> Forall good_tag tags -> r <> [] -> rule_confs e r cs -> reads_rule e (map fst types) cs fs ->
  exists cx', processSamp e load afuel cx (rule_line tags r) = EOk (cx', true) /\ loaded_one cx' types tags fs /\ c_opts cx' = c_opts cx.
Proof.
  intros [HN HT HD HA HP] HS HG Hr HC HR. rewrite proc_rule by auto. rewrite HP. cbn [in_force app].
  assert (R1 : reads_rule e (map fst (c_types cx)) cs fs) by (rewrite HN; exact HR).
  destruct (addSamp_one e HE cx r cs fs (c_root cx) (tag_list tags) HC R1 HS) as (h' & E & RP & K & D & I1 & LL & PL). destruct HS as (n0 & Hn0 & B0).
  rewrite E. cbn [ebind]. exists (set_nodes cx h'). split; [reflexivity|]. split; [|reflexivity]. assert (K2 : forall i n, live (c_nodes cx) i n -> ~ blank_node n -> live h' i n).
  { intros i n Hi Hb. apply K; auto. intros ->. apply Hb. rewrite (live_fun _ _ _ _ Hi Hn0). exact B0. }
  split; [|split; [exact RP|exact PL]]. constructor; auto. rewrite nodes_set. change (c_types (set_nodes cx h')) with (c_types cx).
  intros ti T tn Hn. destruct (HT _ _ _ Hn) as (gs & A1 & A2 & A3 & A4). exists gs. split; auto. split; [eapply inner_frame; eauto|]. split; auto. apply (rep_frame (c_nodes cx) h' (c_types cx)); auto.
Qed.

Lemma lines_ok : forall types0 ls types tags fs, one_rule e types0 ls types tags fs -> forall cx, holding e cx types0 -> good_start (c_nodes cx) (c_root cx) ->
  exists cx', process e load afuel cx ls = EOk (cx', true) /\ loaded_one cx' types tags fs /\ c_opts cx' = c_opts cx.
Proof.
  assert (HPos : forall cx f n types, holding e cx types -> holding e (set_pos cx f n) types) by (intros cx f n types [A B C D E]; constructor; auto).
  induction 1 as [types0 T r n ls cs gs types tags fs H1 H2 H3 H4 H5 H6 H7 IH|types0 r n tags cs fs H1 H2 H3 H4]; intros cx HH HS; cbn [process].
  - destruct (type_step (set_pos cx (c_file cx) n) types0 T r cs gs) as (cx1 & E1 & A1 & A2 & A3 & A4); auto. rewrite E1. cbn [ebind].
    destruct (IH cx1 A1 A2) as (cx2 & E2 & B1 & B2). exists cx2. split; auto. split; auto. rewrite B2, A3. reflexivity.
  - destruct (rule_step (set_pos cx (c_file cx) n) types0 r cs tags fs) as (cx1 & E1 & A1 & A3); auto. rewrite E1. cbn [ebind]. exists cx1. auto.
Qed.
End Lines.

(** After loading the lines the graph is optimized. *)
Record ready_one (e : env) (o : opts) (cx : ctx) (types : list (text * rfields)) (tags : list text) (fs : rfields) : Prop := {
  ro_types : forall ti T tn, nth_error (c_types cx) ti = Some (T, tn) -> exists gs, In (T, gs) types /\ inner_ok (c_nodes cx) tn /\ Forall (fun f => lits_ok (fst f)) gs /\ rep (c_nodes cx) (c_types cx) tn (norm gs);
  ro_root : rep (c_nodes cx) (c_types cx) (c_root cx) (norm fs);
  ro_lits : Forall (fun f => lits_ok (fst f)) fs;
  ro_end : exists en n, ends (c_nodes cx) (c_root cx) en /\ live (c_nodes cx) en n /\ n_tags n = tag_list tags;
  ro_annots : c_annots cx = [];
  ro_opts : c_opts cx = o }.

Lemma one_rule_lits e types0 ls types tags fs : prints_no_nul e -> one_rule e types0 ls types tags fs -> Forall (fun f => lits_ok (fst f)) fs.
Proof. intros HE. induction 1; auto. eapply rule_lits; eauto. Qed.
Lemma one_rule_fun e types0 ls types tags fs : one_rule e types0 ls types tags fs -> NoDup (map fst types0) -> NoDup (map fst types).
Proof. induction 1; auto. intros HD. apply IHone_rule. rewrite map_app. cbn. apply (V1Facts.NoDup_app_single _ _ HD); auto. Qed.

Section Top.
Variables (e : env) (q : list prs -> list prs).
Hypothesis HE : prints_no_nul e.
Hypothesis HQ : permutes q.

Lemma optimized_one o cx types tags fs : msafe cx -> loaded_one e cx types tags fs -> Forall (fun f => lits_ok (fst f)) fs -> c_opts cx = o ->
  exists cx', optimize q cx = EOk cx' /\ ready_one e o cx' types tags fs.
Proof.
  intros HM ([HN HT HD HA HP] & HR & ps & en & n & HL & Hn & Htg) HLi HO. destruct (optimize_total q HQ cx HM HD) as [cx' E]. exists cx'. split; auto.
  destruct (Prop_Rules.optimize_orel q cx cx' HQ HM E) as (OR & (G & rk & HG) & Ecx & nr & Hnr).
  assert (Hcl : forall i n p t, live (c_nodes cx') i n -> In p (n_parsers n) -> In t (targets p) -> exists m, live (c_nodes cx') t m) by (intros; eapply gi_target; eauto).
  assert (ET : c_types cx' = c_types cx) by (rewrite Ecx; reflexivity). assert (ER : c_root cx' = c_root cx) by (rewrite Ecx; reflexivity).
  constructor; rewrite ?ET, ?ER.
  - intros ti T tn Hti. destruct (HT _ _ _ Hti) as (gs & A1 & A2 & A3 & A4). exists gs. split; auto.
    assert (exists m, live (c_nodes cx') tn m) as [m Hm]. { eapply gi_live; [exact HG|]. apply in_or_app. right. unfold owners. rewrite ET. right. change tn with (snd (T, tn)). apply in_map. eapply nth_error_In; eauto. }
    split; [eapply inner_opt; eauto|]. split; auto. eapply rep_opt; eauto.
  - eapply rep_opt; eauto.
  - exact HLi.
  - destruct (ends_opt _ _ OR _ _ _ _ _ HL Hn Hnr) as (en' & m' & B1 & B2 & B3). exists en', m'. split; auto. split; auto. congruence.
  - rewrite Ecx. exact HA.
  - rewrite Ecx. exact HO.
Qed.

Lemma load_one load afuel fuel isfile o c t ls types tags fs : load_ok load -> msafe c -> rulebase isfile t (c_line c) ls -> (c_line c < 2 ^ 32)%N -> no_eof e isfile t -> List.length t < fuel ->
  one_rule e [] ls types tags fs -> holding e c [] -> good_start (c_nodes c) (c_root c) -> c_opts c = o ->
  exists r, (do* (cx, ok) := load_lines e load afuel fuel isfile c t in if negb ok then EOk (cx, false) else do* cx := optimize q cx in EOk (cx, true)) = EOk (r, true) /\
    ready_one e o r types tags fs.
Proof.
  intros HLd HM H1 H2 H3 H4 H5 HH HS HO. pose proof (load_lines_process e load afuel isfile t ls c fuel H1 H2 H3 H4) as HP.
  destruct (lines_ok e HE load afuel _ _ _ _ _ H5 c HH HS) as (c2 & E2 & W & WO). rewrite E2 in HP.
  pose proof (load_lines_safe e load HLd afuel isfile fuel c t HM) as HS1. destruct (load_lines e load afuel fuel isfile c t) as [[c1 ok]|]; [|destruct HP]. destruct HP as [HP1 HP2]. cbn in HP1, HP2, HS1. subst ok. cbn.
  destruct (optimized_one o c1 types tags fs) as (r & Hr & RO).
  - exact HS1.
  - destruct W as ([A1 A2 A3 A4 A5] & B1 & B2). rewrite HP1. split; [constructor; auto|]. split; auto.
  - eapply one_rule_lits; eauto.
  - rewrite HP1. cbn. congruence.
  - rewrite Hr. cbn. exists r. auto.
Qed.
Lemma fresh_holding o c : c_nodes c = c_nodes (initCtx o) -> c_types c = [] -> c_annots c = [] -> c_prefix c = None -> holding e c [].
Proof.
  intros EN ET EA EP. constructor; auto; [rewrite ET; reflexivity|rewrite ET; intros [|?] ? ?; discriminate|].
  rewrite EN. intros [|i] n p Hn Hp; [injection Hn as <-; destruct Hp|destruct i; discriminate].
Qed.
Lemma fresh_start o c : c_nodes c = c_nodes (initCtx o) -> c_root c = 0 -> good_start (c_nodes c) (c_root c).
Proof. intros EN ER. rewrite EN, ER. exists new_node. split; [reflexivity|apply new_blank]. Qed.
Lemma fresh_msafe o c : c_nodes c = c_nodes (initCtx o) -> c_root c = 0 -> c_types c = [] -> msafe c.
Proof. intros EN ER ET. unfold msafe, owners. rewrite EN, ER, ET. exact (built_msafe e 0 [] _ (built_init e o)). Qed.

Lemma loadString_one fuel o t ls types tags fs : ~ In NUL t -> rulebase false t 0 ls -> no_eof e false t -> one_rule e [] ls types tags fs ->
  exists cx, loadString e q fuel (initCtx o) t = EOk (cx, true) /\ ready_one e o cx types tags fs.
Proof.
  intros H1 H2 H3 H4. unfold loadString. rewrite cstr_nonul by auto. eapply load_one; eauto; try reflexivity.
  - apply (loadSamples_safe e q HQ).
  - apply (fresh_msafe o); reflexivity.
  - apply (fresh_holding o); reflexivity.
  - apply (fresh_start o); reflexivity.
Qed.
Lemma loadFile_one fuel o f t ls types tags fs : files e f = Some (version2 ++ t) -> rulebase true t 1 ls -> one_rule e [] ls types tags fs ->
  exists cx, loadFile e q (S fuel) (initCtx o) f = EOk (cx, true) /\ ready_one e o cx types tags fs.
Proof.
  intros HF H2 H4. unfold loadFile. cbn [loadSamples]. rewrite HF. change (version2 ++ t) with ("v"%char :: skipn 1 (version2 ++ t)) at 1. cbn iota. change ("v"%char :: skipn 1 (version2 ++ t)) with (version2 ++ t).
  rewrite text_eqb_version. cbn [negb]. cbn iota. change (c_version (set_pos (initCtx o) f 0)) with 0%N. change (N.eqb 0 0) with true. cbn [negb andb]. cbn iota. change (Nat.eqb 1 1) with true. cbn iota.
  eapply load_one; eauto; try reflexivity.
  - apply (loadSamples_safe e q HQ).
  - apply (fresh_msafe o); reflexivity.
  - intros ? ?; reflexivity.
  - rewrite app_length; cbn; lia.
  - apply (fresh_holding o); reflexivity.
  - apply (fresh_start o); reflexivity.
Qed.

(** normalizing *)
Lemma normalize_one o cx types tags fs msg nf js0 ok out cx' : ready_one e o cx types tags fs -> NoDup (map fst types) -> ~ In NUL msg -> normalize nf e cx msg js0 = EOk (ok, out, cx') ->
  exists r, fields_at e types msg fs 0 r /\
    ((exists vs, r = Some (List.length msg, vs) /\ ok = true /\ (opt_rule o = false -> opt_loc o = false -> out = report o tags msg (stored js0 vs))) \/
     ((forall vs, r <> Some (List.length msg, vs)) /\ ok = false /\ exists k, k <= List.length msg /\ out = failure_report msg k js0)).
Proof.
  intros [HT HR HLi (en & n & He & Hn & Htg) HA HO] HN Hnul HNo. pose proof HNo as HNo2. apply normalize_inv in HNo as (s & Hs & _ & HI).
  assert (Hpt0 : r_pt (st0 js0) <= 0) by (apply le_n).
  pose proof (run_ok e cx types msg Hnul HT nf _ _ _ _ _ _ _ HR Hpt0 Hs) as (r & Hr & HOut).
  destruct (norm_at e types msg Hnul fs HLi 0 r Hr) as (r' & Hr' & HAl). exists r'. split; auto. destruct r as [[to vs]|], r' as [[to' vs']|]; cbn in HAl; try tauto.
  - destruct HAl as [<- HAl]. destruct HOut as [Eok HOut]. cbn [orb] in Eok. destruct (Nat.eqb_spec to (List.length msg)) as [ET|ET]; subst ok.
    + left. exists vs'. subst to. split; auto. split; auto. intros O1 O2. destruct (HOut eq_refl) as (Hj & _ & Hen). specialize (Hen _ He).
      destruct HI as (en0 & n0 & o2 & o3 & A1 & A2 & A3 & A4 & A5). rewrite Hen in A1. injection A1 as <-. apply get_node_at in A2. unfold node_at in A2. fold (live (c_nodes cx) en n0) in A2.
      assert (n0 = n) by (eapply live_fun; eauto). subst n0. unfold add_metadata in A5. rewrite HO, O1, O2 in A5. cbn in A5. injection A5 as <-. rewrite HO in A4. rewrite Hj in A3. cbn [option_map r_js st0] in A3.
      rewrite HA, Htg in A3. rewrite <- HAl. unfold report. destruct tags as [|t0 tags]; cbn in A3; injection A3 as <-; rewrite <- ?obj_add_set; exact A4.
    + right. split; [intros vs0 [= E _]; congruence|]. split; auto. apply normalize_fails in HNo2 as (_ & k & _ & _ & Hk & Ho). exists k. split; auto. rewrite Ho. rewrite cstr_id; [reflexivity|]. intros Hin. apply Hnul. rewrite <- (firstn_skipn k msg). apply in_or_app. auto.
  - right. subst ok. split; [discriminate|]. split; auto. apply normalize_fails in HNo2 as (_ & k & _ & _ & Hk & Ho). exists k. split; auto. rewrite Ho. rewrite cstr_id; [reflexivity|]. intros Hin. apply Hnul. rewrite <- (firstn_skipn k msg). apply in_or_app. auto.
Qed.
End Top.
