(** * ManyTop: loading rulebases with many rules and user-defined types, normalizing with them. *)
From Verif Require Import Base Time Parsers Engine Pdag Samp EngineSpec EngineSpec2 GraphSpec RuleSpec BuiltSpec LineSpec SimSpec LoadSpec OneSpec ManySpec BaseFacts FieldFacts EngineFacts EngineFacts2 EngineFacts3 EngineGen HeapFacts FrameFacts SimFacts BuildFacts BuildFacts2 BuildFacts3 RuleFacts TreeFacts TreeFacts2 BuiltFacts OptSem OptFacts OptTotal LoadFacts LineFacts LoadText LoadTop AnnotFacts OneFacts OneEngine OneLoad OneOpt OneTop EngineGen2 History ManyFacts.
From Verif Require V1Facts Prop_Rules.
From Coq Require Import ZifyBool ZifyNat ZifyN Permutation.

Section Stands.
Variable e : env.
Definition fits (ts : list (text * nat)) (c : json) (l : kind * option text) : Prop :=
  flat_field e ts c = Some l /\ match fst l with KSimple _ => True | KCustom ti => nth_error ts ti <> None | KRepeat _ _ _ => False end.
Definition stands (ts : list (text * nat)) (r : mrule) (j : rule) : Prop :=
  fst (fst r) = fst (fst j) /\ fst (fst (snd j)) = tag_list (snd r) /\
  exists ls, Forall2 (fits ts) (snd (fst j)) ls /\ snd (fst r) = map (rf_of ts) ls /\ (fst (fst r) <> None -> ls <> []).
Lemma rf_more ts ts' c l : fits ts c l -> rf_of (ts ++ ts') l = rf_of ts l.
Proof. intros [_ H]. destruct l as [[m| |ti] nm]; cbn in *; auto. unfold rf_of. cbn. rewrite nth_error_app1; auto. apply nth_error_Some. auto. Qed.
Lemma fits_more ts ts' c l : fits ts c l -> fits (ts ++ ts') c l.
Proof. intros [H H2]. split; [apply flat_types_app; auto|]. destruct l as [[m| |ti] nm]; cbn in *; auto. rewrite nth_error_app1; auto. apply nth_error_Some. auto. Qed.
Lemma stands_more ts ts' r j : stands ts r j -> stands (ts ++ ts') r j.
Proof.
  intros (A & B & ls & C & D & F). split; auto. split; auto. exists ls. split; [|split; auto].
  - clear - C. induction C; constructor; auto. apply fits_more; auto.
  - rewrite D. clear - C. induction C; auto. cbn. rewrite (rf_more ts ts' x y) by auto. f_equal. auto.
Qed.
Lemma reads_fits ts names cs fs : map fst ts = names -> Forall2 (flat_reads e names) cs fs -> exists ls, Forall2 (fits ts) cs ls /\ fs = map (rf_of ts) ls.
Proof.
  intros <- H. induction H as [|c f cs fs H _ (ls & A & B)]; [exists []; split; [constructor|reflexivity]|]. destruct H as [m nm H|ti T nm H Hn].
  - exists ((KSimple m, nm) :: ls). split; [constructor; auto; split; [apply flat_names; auto|exact I]|]. cbn. rewrite B. reflexivity.
  - rewrite nth_error_map in Hn. destruct (nth_error ts ti) as [[T' x]|] eqn:E; [|discriminate]. injection Hn as ->.
    exists ((KCustom ti, nm) :: ls). split; [constructor; auto; split; [apply flat_names; auto|cbn; congruence]|]. cbn. unfold rf_of at 1. cbn. rewrite E, B. reflexivity.
Qed.
Lemma fits_complete ts cs ls : Forall2 (fits ts) cs ls -> Forall (complete e ts) cs.
Proof. induction 1 as [|c [k nm] cs ls H]; constructor; auto. exists k, nm. apply H. Qed.
Lemma fits_nonil ts cs ls : Forall2 (fits ts) cs ls -> cs <> [] -> ls <> [].
Proof. intros H. destruct H; auto. discriminate. Qed.
End Stands.

Lemma findType_some ts nm : forall i k, findType ts nm i = Some k -> exists j x, k = i + j /\ nth_error ts j = Some (nm, x) /\ find (fun t => text_eqb (fst t) nm) ts = Some (nm, x).
Proof.
  induction ts as [|[a x] ts IH]; intros i k H; cbn in H; [discriminate|]. cbn [find fst]. destruct (text_eqb a nm) eqn:E.
  - apply text_eqb_true in E. subst. injection H as <-. exists 0, x. split; [lia|]. split; reflexivity.
  - apply IH in H as (j & y & -> & A & B). exists (S j), y. split; [lia|]. split; auto.
Qed.
Lemma findType_none ts nm : forall i, findType ts nm i = None -> ~ In nm (map fst ts).
Proof. induction ts as [|[a x] ts IH]; intros i H; cbn in *; [tauto|]. destruct (text_eqb a nm) eqn:E; [discriminate|]. apply IH in H. intros [->|HI]; [rewrite text_eqb_refl in E; discriminate|tauto]. Qed.
Lemma find_nil ts nm : ~ In nm (map fst ts) -> find (fun t : text * nat => text_eqb (fst t) nm) ts = None.
Proof. induction ts as [|[a x] ts IH]; intros H; cbn in *; auto. destruct (text_eqb a nm) eqn:E; [apply text_eqb_true in E; subst; tauto|]. apply IH. tauto. Qed.
Lemma find_app_new ts nm x : ~ In nm (map fst ts) -> find (fun t : text * nat => text_eqb (fst t) nm) (ts ++ [(nm, x)]) = Some (nm, x).
Proof. induction ts as [|[a y] ts IH]; intros H; cbn in *; [rewrite text_eqb_refl; auto|]. destruct (text_eqb a nm) eqn:E; [apply text_eqb_true in E; subst; tauto|]. apply IH. tauto. Qed.
Lemma find_nth ts nm x j : NoDup (map fst ts) -> nth_error ts j = Some (nm, x) -> find (fun t : text * nat => text_eqb (fst t) nm) ts = Some (nm, x).
Proof.
  revert j. induction ts as [|[a y] ts IH]; intros j HN H; [destruct j; discriminate|]. cbn in HN. inversion HN as [|? ? N1 N2]; subst. cbn [find fst]. destruct j as [|j]; cbn in H.
  - injection H as -> ->. rewrite text_eqb_refl. reflexivity.
  - destruct (text_eqb a nm) eqn:E; [|eauto]. apply text_eqb_true in E. subst. destruct N1. apply nth_error_In in H. apply (in_map fst) in H. exact H.
Qed.

(** the lines *)
Record keeps_all (cx cx' : ctx) : Prop := {
  ka_types : exists more, c_types cx' = c_types cx ++ more;
  ka_opts : c_opts cx' = c_opts cx;
  ka_annots : c_annots cx' = c_annots cx }.
Lemma ka_refl cx : keeps_all cx cx. Proof. constructor; auto. exists []. symmetry. apply app_nil_r. Qed.
Lemma ka_trans a b c : keeps_all a b -> keeps_all b c -> keeps_all a c.
Proof. intros [[m1 T1] O1 A1] [[m2 T2] O2 A2]. constructor; try congruence. exists (m1 ++ m2). rewrite T2, T1, app_assoc. reflexivity. Qed.

Section Lines.
Variable e : env.
Variable load : ctx -> text -> er (ctx * bool).
Variable afuel : nat.

Lemma add_rule k rs cx t cs key r tags : built e k rs cx -> k < 255 -> root_of cx key = Some r -> rule_confs e t cs -> Forall (complete e (c_types cx)) cs ->
  exists cx', addSampToTree e cx t r tags = EOk cx' /\ built e (S k) (rs ++ [(key, cs, (tags, Some (c_file cx), c_line cx))]) cx' /\ cx' = set_nodes cx (c_nodes cx').
Proof.
  intros HB HK Hr HC HF. destruct (built_exact e k rs cx HB) as (T & HS & _); [lia|].
  destruct (rule_added e cx t cs r tags k T (root_owner _ _ _ Hr) HK HS HC HF) as (cx' & ps0 & E & _ & _ & Ecx & _). exists cx'. split; auto. split; auto. eapply built_rule; eauto.
Qed.

Lemma process_many : forall names p ls rs, reads_lines e names p ls rs -> forall cx k0 rs0, built e k0 rs0 cx -> k0 + List.length rs <= 255 ->
  map fst (c_types cx) = names -> NoDup names -> c_prefix cx = p ->
  exists cx' js, process e load afuel cx ls = EOk (cx', true) /\ built e (k0 + List.length rs) (rs0 ++ js) cx' /\ Forall2 (stands e (c_types cx')) rs js /\
    NoDup (map fst (c_types cx')) /\ keeps_all cx cx'.
Proof.
  assert (HO : forall k rs cx cx', built e k rs cx -> c_nodes cx' = c_nodes cx -> c_root cx' = c_root cx -> c_types cx' = c_types cx -> built e k rs cx') by (intros; eapply built_other; eauto).
  induction 1 as [names p|names p tags r cs fs n ls rs HT Hr HC HF H IH|names p T r cs fs n ls rs HT Hr HC Hne HF H IH|names p t n ls rs H IH|names p t n ls rs H IH];
    intros cx k0 rs0 HB HK HN HD HP; cbn [process List.length] in *.
  - exists cx, []. rewrite Nat.add_0_r, app_nil_r. split; auto. split; auto. split; [constructor|]. split; [rewrite HN; auto|apply ka_refl].
  - set (cx1 := set_pos cx (c_file cx) n). rewrite proc_rule by auto. change (c_prefix cx1) with (c_prefix cx). rewrite HP.
    destruct (reads_fits e (c_types cx) names cs fs HN HF) as (lbs & HL & ->). assert (HB1 : built e k0 rs0 cx1) by (eapply HO; eauto).
    destruct (add_rule k0 rs0 cx1 (in_force p ++ r) cs None (c_root cx1) (tag_list tags) HB1 ltac:(lia) eq_refl HC (fits_complete e _ _ _ HL)) as (cx2 & E & HB2 & Ecx). rewrite E. cbn [ebind].
    destruct (IH cx2 _ _ HB2) as (cx' & js & E' & B & S & D & K); [lia|rewrite Ecx; exact HN|auto|rewrite Ecx; exact HP|].
    exists cx', ((None, cs, (tag_list tags, Some (c_file cx1), c_line cx1)) :: js). split; auto. rewrite <- app_assoc in B. split; [rewrite <- plus_n_Sm; exact B|].
    assert (K0 : keeps_all cx cx2) by (constructor; try (rewrite Ecx; reflexivity); exists []; rewrite Ecx, app_nil_r; reflexivity).
    split; [|split; [auto|eapply ka_trans; eauto]]. constructor; auto. destruct K as [[more Em] _ _]. rewrite Ecx in Em. cbn in Em. rewrite Em. apply stands_more.
    split; [reflexivity|]. split; [reflexivity|]. exists lbs. split; [exact HL|]. split; [reflexivity|]. intros HH. exfalso. apply HH. reflexivity.
  - set (cx1 := set_pos cx (c_file cx) n). unfold type_line. rewrite proc_type. unfold processType. rewrite getTypeName_ok by auto. destruct r as [|c0 r]; [tauto|]. set (r0 := c0 :: r) in *.
    assert (HB1 : built e k0 rs0 cx1) by (eapply HO; eauto). unfold add_name in *. change (c_types cx1) with (c_types cx).
    assert (HX : exists cxa nd, (match findType (c_types cx) T 0 with
        | Some i => (cx1, match nth_error (c_types cx) i with Some (_, d) => d | None => 0 end)
        | None => let '(cx', d) := newPDAG cx1 in (set_types cx' (c_types cx' ++ [(T, d)]), d) end) = (cxa, nd) /\
      built e k0 rs0 cxa /\ map fst (c_types cxa) = (if in_dec (list_eq_dec ascii_dec) T names then names else names ++ [T]) /\ root_of cxa (Some T) = Some nd /\ keeps_all cx cxa /\ c_prefix cxa = p).
    { destruct (findType (c_types cx) T 0) as [i|] eqn:EF.
      - apply findType_some in EF as (j & x & -> & A & B). cbn [Nat.add]. rewrite A. exists cx1, x. split; auto. split; auto.
        destruct (in_dec (list_eq_dec ascii_dec) T names) as [Hin|Hin]; [|destruct Hin; rewrite <- HN; apply nth_error_In in A; apply (in_map fst) in A; exact A].
        split; [exact HN|]. split; [unfold root_of; change (c_types cx1) with (c_types cx); rewrite B; reflexivity|]. split; [constructor; auto; exists []; rewrite app_nil_r; reflexivity|exact HP].
      - apply findType_none in EF. eexists _, _. split; [reflexivity|]. split; [apply (built_type e k0 rs0 cx1 T HB1); unfold root_of; change (c_types cx1) with (c_types cx); rewrite find_nil; auto|].
        destruct (in_dec (list_eq_dec ascii_dec) T names) as [Hin|Hin]; [rewrite HN in EF; tauto|]. split; [cbn; rewrite map_app, HN; reflexivity|].
        split; [unfold root_of; cbn; rewrite find_app_new; auto|]. split; [constructor; auto; eexists; reflexivity|exact HP]. }
    destruct HX as (cxa & nd & EX & HBa & HNa & HRo & HKa & HPa). rewrite EX. set (names1 := if in_dec (list_eq_dec ascii_dec) T names then names else names ++ [T]) in *.
    assert (HD1 : NoDup names1). { unfold names1. destruct (in_dec (list_eq_dec ascii_dec) T names) as [Hin|Hin]; auto. apply (V1Facts.NoDup_app_single _ _ HD); auto. }
    destruct (reads_fits e (c_types cxa) names1 cs fs HNa HF) as (lbs & HL & ->).
    destruct (add_rule k0 rs0 cxa r0 cs (Some T) nd None HBa ltac:(lia) HRo HC (fits_complete e _ _ _ HL)) as (cx2 & E & HB2 & Ecx). rewrite E. cbn [ebind].
    destruct (IH cx2 _ _ HB2) as (cx' & js & E' & B & S & D & K); [lia|rewrite Ecx; exact HNa|auto|rewrite Ecx; exact HPa|].
    exists cx', ((Some T, cs, (None, Some (c_file cxa), c_line cxa)) :: js). split; auto. rewrite <- app_assoc in B. split; [rewrite <- plus_n_Sm; exact B|].
    assert (K0 : keeps_all cxa cx2) by (constructor; try (rewrite Ecx; reflexivity); exists []; rewrite Ecx, app_nil_r; reflexivity).
    split; [|split; [auto|eapply ka_trans; [exact HKa|]; eapply ka_trans; eauto]]. constructor; auto. destruct K as [[more Em] _ _]. rewrite Ecx in Em. cbn in Em. rewrite Em. apply stands_more.
    split; [reflexivity|]. split; [reflexivity|]. exists lbs. split; [exact HL|]. split; [reflexivity|]. intros _. eapply fits_nonil; eauto.
  - rewrite proc_prefix. cbn [ebind]. destruct (IH (set_prefix (set_pos cx (c_file cx) n) (Some t)) k0 rs0) as (cx' & js & E & B & S & D & K); auto; [eapply HO; eauto|].
    exists cx', js. split; auto. split; auto. split; auto. split; auto. destruct K as [K1 K2 K3]. constructor; auto.
  - rewrite (proc_extend _ _ _ _ p) by exact HP. cbn [ebind]. destruct (IH (set_prefix (set_pos cx (c_file cx) n) (Some (p ++ t))) k0 rs0) as (cx' & js & E & B & S & D & K); auto; [eapply HO; eauto|].
    exists cx', js. split; auto. split; auto. split; auto. split; auto. destruct K as [K1 K2 K3]. constructor; auto.
Qed.
End Lines.

(** paths and the fields of a rule *)
Lemma path_flat e cx ps : tidy e cx -> forall r j, path (c_nodes cx) r ps j -> Forall2 (fun c l => flat_field e (c_types cx) c = Some l) (confs ps) (labels ps).
Proof.
  intros T r j H. induction H as [|i n p ps j Hi Hp H IH]; [constructor|]. cbn [confs labels map]. constructor; auto. exact (t_flat _ _ T _ _ _ Hi Hp).
Qed.
Lemma flat_fun e ts cs la lb : Forall2 (fun c l => flat_field e ts c = Some l) cs la -> Forall2 (fits e ts) cs lb -> la = lb.
Proof. intros H. revert lb. induction H as [|c l cs ls H _ IH]; intros lb G; inversion G as [|? l2 ? ls2 [G1 _] G2]; subst; auto. f_equal; [congruence|auto]. Qed.
Lemma flat_norep e ts c k nm : flat_field e ts c = Some (k, nm) -> forall a b d, k <> KRepeat a b d.
Proof.
  unfold flat_field. intros H a b d ->. destruct (newParser _ _ _ _) as [[cx [p|]]|]; try discriminate. destruct (p_kind p) as [m| |]; try discriminate. destruct m; discriminate.
Qed.
Lemma forall2_in_l {A B} (P : A -> B -> Prop) l m x : Forall2 P l m -> In x l -> exists y, In y m /\ P x y.
Proof. induction 1 as [|a b l m H _ IH]; intros []; [subst; exists b; split; auto; left; auto|destruct IH as (y & A1 & A2); auto; exists y; split; auto; right; auto]. Qed.
Lemma forall2_in_r {A B} (P : A -> B -> Prop) l m y : Forall2 P l m -> In y m -> exists x, In x l /\ P x y.
Proof. induction 1 as [|a b l m H _ IH]; intros []; [subst; exists a; split; auto; left; auto|destruct IH as (x & A1 & A2); auto; exists x; split; auto; right; auto]. Qed.

(** what a context ready for use holds *)
Record ready_many (e : env) (o : opts) (cx : ctx) (rules : list mrule) : Prop := {
  rm_rep : all_prs no_repeat (c_nodes cx);
  rm_types : forall ti T tn, nth_error (c_types cx) ti = Some (T, tn) -> (forall n, live (c_nodes cx) tn n -> n_term n = false) /\ has_rules cx rules (Some T) tn;
  rm_root : has_rules cx rules None (c_root cx);
  rm_plain : forall fs tags, In (None, fs, tags) rules -> (forall f, In f fs -> exists m, fst f = RPlain m) ->
    exists ps b n, path (c_nodes cx) (c_root cx) ps b /\ live (c_nodes cx) b n /\ n_term n = true /\ norm fs = norm (map (rf_of (c_types cx)) (labels ps)) /\
      Forall (fun f => lits_ok (fst f)) fs /\ Forall (fun f => lits_ok (fst f)) (map (rf_of (c_types cx)) (labels ps));
  rm_annots : c_annots cx = [];
  rm_opts : c_opts cx = o }.

Section Top.
Variables (e : env) (q : list prs -> list prs).
Hypothesis HE : prints_no_nul e.
Hypothesis HQ : permutes q.

Lemma fits_lits ts cs ls : Forall2 (fits e ts) cs ls -> Forall (fun f => lits_ok (fst f)) (map (rf_of ts) ls).
Proof.
  induction 1 as [|c [k nm] cs ls [H H2] _ IH]; cbn [map]; constructor; auto. destruct k as [m| |ti]; cbn in *; [|destruct H2|exact I].
  destruct m; cbn; auto. apply flat_simple_type in H as (ty & rest & pr & H). eapply literal_type_nonul; eauto.
Qed.
Lemma live_start h i ps b n : path h i ps b -> live h b n -> exists m, live h i m.
Proof. intros H. destruct H; eauto. Qed.

Lemma optimized_many o k js cx rules : msafe cx -> built e k js cx -> k <= 255 -> Forall2 (stands e (c_types cx)) rules js -> NoDup (map fst (c_types cx)) -> c_annots cx = [] -> c_opts cx = o ->
  exists cx', optimize q cx = EOk cx' /\ ready_many e o cx' rules.
Proof.
  intros HM HB HK HS HN HA HO. destruct (optimize_total q HQ cx HM (built_data e k js cx HB HK)) as [cx' E]. exists cx'. split; auto.
  destruct (Prop_Rules.optimize_orel q cx cx' HQ HM E) as (OR & _ & Ecx & nr & Hnr). destruct (built_exact e k js cx HB HK) as (T & _ & _ & HX).
  assert (ET : c_types cx' = c_types cx) by (rewrite Ecx; reflexivity). assert (ER : c_root cx' = c_root cx) by (rewrite Ecx; reflexivity).
  assert (HR : forall key r, root_of cx key = Some r -> has_rules cx' rules key r).
  { intros key r Hr ps b n HP Hb Ht. destruct (live_start _ _ _ _ _ HP Hb) as [m Hm].
    assert (HH : hr (c_nodes cx') r (atoms (labels ps)) (n_tags n, n_file n, n_line n)) by (exists ps, b, n; auto).
    apply (o_hr _ _ _ OR _ _ Hm) in HH as (ps0 & b0 & n0 & P0 & B0 & T0 & I0 & A0).
    assert (HR0 : rule_now js key (confs ps0) (n_tags n, n_file n, n_line n)). { apply (HX _ _ Hr). exists ps0. split; auto. exists b0, n0. auto. }
    apply Prop_Rules.in_rule_now in HR0. destruct (forall2_in_r _ _ _ _ HS HR0) as ([[key0 fs] tags] & Hin & S1 & S2 & ls & S3 & S4 & S5). cbn in S1, S2, S3, S4, S5. subst key0 fs.
    exists ls, tags. rewrite ET. split; auto. split; [eapply fits_lits; eauto|]. split; [|exact S2]. rewrite <- (flat_fun e _ _ _ _ (path_flat e cx ps0 T _ _ P0) S3). exact A0. }
  constructor; rewrite ?ET, ?ER.
  - apply (o_kinds _ _ _ OR); [intros t p HKi a b d; congruence|]. intros i n p Hi Hp. exact (flat_norep _ _ _ _ _ (t_flat _ _ T _ _ _ Hi Hp)).
  - intros ti ty tn Hti. assert (Hr : root_of cx (Some ty) = Some tn) by (unfold root_of; rewrite (find_nth _ _ _ _ HN Hti); reflexivity). split; [|apply HR; exact Hr].
    intros n Hn. destruct (n_term n) eqn:Ht; auto. exfalso. destruct (HR _ _ Hr [] tn n (path_nil _ _) Hn Ht) as (ls & tags & _).
    destruct (o_live _ _ _ OR _ _ Hn) as (n0 & Hn0 & Et & _). rewrite Ht in Et.
    assert (HR0 : rule_now js (Some ty) [] (n_tags n0, n_file n0, n_line n0)). { apply (HX _ _ Hr). exists []. split; auto. exists tn, n0. split; [constructor|auto]. }
    apply Prop_Rules.in_rule_now in HR0. destruct (forall2_in_r _ _ _ _ HS HR0) as ([[key0 fs] tg] & _ & S1 & S2 & ls0 & S3 & S4 & S5). cbn in S1, S3, S5. inversion S3; subst. apply S5; auto. congruence.
  - apply HR. reflexivity.
  - intros fs tags Hin _. destruct (forall2_in_l _ _ _ _ HS Hin) as ([[key cs] inf] & Hj & S1 & S2 & ls & S3 & S4 & S5). cbn in S1, S3, S4. subst key fs.
    destruct (Prop_Rules.rule_now_in _ _ _ _ Hj) as [inf' Hnow]. apply (HX None (c_root cx) eq_refl) in Hnow as (ps0 & Ec & b0 & n0 & P0 & B0 & T0 & I0).
    assert (EL : labels ps0 = ls) by (eapply flat_fun; [eapply path_flat; eauto|rewrite Ec; eauto]).
    assert (HH : hr (c_nodes cx) (c_root cx) (atoms ls) inf') by (exists ps0, b0, n0; rewrite EL; auto).
    apply (o_hr _ _ _ OR _ _ Hnr) in HH as (ps & b & n & P1 & B1 & T1 & I1 & A1). exists ps, b, n. do 3 (split; auto). pose proof (fits_lits _ _ _ S3) as HL.
    split; [apply norm_eq; auto|]. split; auto. eapply lits_same; eauto.
  - rewrite Ecx. exact HA.
  - rewrite Ecx. exact HO.
Qed.

(** where such a context comes from *)
Definition made_many (o : opts) (rules : list mrule) (r : ctx) : Prop := exists cx js, msafe cx /\ built e (List.length rules) js cx /\ Forall2 (stands e (c_types cx)) rules js /\
  NoDup (map fst (c_types cx)) /\ c_annots cx = [] /\ c_opts cx = o /\ optimize q cx = EOk r.
Lemma made_ready o rules r : List.length rules <= 255 -> made_many o rules r -> ready_many e o r rules.
Proof.
  intros HK (cx & js & H1 & H2 & H3 & H4 & H5 & H6 & H7). destruct (optimized_many o _ js cx rules H1 H2 HK H3 H4 H5 H6) as (r' & E & RO). rewrite H7 in E. injection E as <-. exact RO.
Qed.

Lemma load_many load afuel fuel isfile o c t ls rules : load_ok load -> msafe c -> rulebase isfile t (c_line c) ls -> (c_line c < 2 ^ 32)%N -> no_eof e isfile t -> List.length t < fuel ->
  reads_lines e [] None ls rules -> List.length rules <= 255 -> built e 0 [] c -> c_types c = [] -> c_annots c = [] -> c_prefix c = None -> c_opts c = o ->
  exists r, (do* (cx, ok) := load_lines e load afuel fuel isfile c t in if negb ok then EOk (cx, false) else do* cx := optimize q cx in EOk (cx, true)) = EOk (r, true) /\
    made_many o rules r.
Proof.
  intros HLd HM H1 H2 H3 H4 H5 HK HB HT HA HP HO. pose proof (load_lines_process e load afuel isfile t ls c fuel H1 H2 H3 H4) as HPr.
  destruct (process_many e load afuel _ _ _ _ H5 c 0 [] HB HK) as (c2 & js & E2 & B & S & D & [_ K2 K3]); auto; [rewrite HT; reflexivity|constructor|]. rewrite E2 in HPr.
  pose proof (load_lines_safe e load HLd afuel isfile fuel c t HM) as HS1. destruct (load_lines e load afuel fuel isfile c t) as [[c1 ok]|]; [|destruct HPr]. destruct HPr as [HP1 HP2]. cbn in HP1, HP2, HS1. subst ok. cbn.
  assert (B1 : built e (List.length rules) js c1) by (rewrite HP1; eapply built_other; [exact B|reflexivity|reflexivity|reflexivity]).
  assert (S1 : Forall2 (stands e (c_types c1)) rules js) by (rewrite HP1; exact S). assert (D1 : NoDup (map fst (c_types c1))) by (rewrite HP1; exact D).
  assert (A1 : c_annots c1 = []) by (rewrite HP1; cbn; congruence). assert (O1 : c_opts c1 = o) by (rewrite HP1; cbn; congruence).
  destruct (optimized_many o (List.length rules) js c1 rules HS1 B1 HK S1 D1 A1 O1) as (r & Hr & RO). rewrite Hr. cbn. exists r. split; auto. exists c1, js. auto 8.
Qed.

Lemma loadString_many fuel o t ls rules : ~ In NUL t -> rulebase false t 0 ls -> no_eof e false t -> reads_lines e [] None ls rules -> List.length rules <= 255 ->
  exists cx, loadString e q fuel (initCtx o) t = EOk (cx, true) /\ made_many o rules cx.
Proof.
  intros H1 H2 H3 H4 H5. unfold loadString. rewrite cstr_nonul by auto. eapply load_many; eauto; try reflexivity.
  - apply (loadSamples_safe e q HQ).
  - apply (fresh_msafe e o); reflexivity.
  - apply (built_fresh e _ o); reflexivity.
Qed.
Lemma loadFile_many fuel o f t ls rules : files e f = Some (version2 ++ t) -> rulebase true t 1 ls -> reads_lines e [] None ls rules -> List.length rules <= 255 ->
  exists cx, loadFile e q (S fuel) (initCtx o) f = EOk (cx, true) /\ made_many o rules cx.
Proof.
  intros HF H2 H4 H5. unfold loadFile. cbn [loadSamples]. rewrite HF. change (version2 ++ t) with ("v"%char :: skipn 1 (version2 ++ t)) at 1. cbn iota. change ("v"%char :: skipn 1 (version2 ++ t)) with (version2 ++ t).
  rewrite text_eqb_version. cbn [negb]. cbn iota. change (c_version (set_pos (initCtx o) f 0)) with 0%N. change (N.eqb 0 0) with true. cbn [negb andb]. cbn iota. change (Nat.eqb 1 1) with true. cbn iota.
  eapply load_many; eauto; try reflexivity.
  - apply (loadSamples_safe e q HQ).
  - apply (fresh_msafe e o); reflexivity.
  - intros ? ?; reflexivity.
  - rewrite app_length; cbn; lia.
  - apply (built_fresh e _ o); reflexivity.
Qed.

(** normalizing *)
Lemma normalize_many o cx rules : ready_many e o cx rules -> sound_and_complete e o cx rules.
Proof.
  intros [HRep HT HR HPl HA HO] msg nf js0 ok out cx' Hnul HNo.
  assert (HF : ok = false -> (forall w en, ~ walk e cx msg false (c_root cx) 0 w en) /\ exists k, k <= List.length msg /\ out = failure_report msg k js0).
  { intros ->. apply normalize_fails in HNo as (HW & k & _ & _ & Hk & Ho). split; auto. exists k. split; auto. rewrite Ho. rewrite cstr_id; [reflexivity|]. intros Hin. apply Hnul. rewrite <- (firstn_skipn k msg). apply in_or_app. auto. }
  split; [|split].
  - intros ->. apply normalize_inv in HNo as (s & Hs & _ & en0 & n0 & o2 & o3 & A1 & A2 & A3 & A4 & A5). apply normalizeRec_sound in Hs as (w & en & last & HW & Hj & _ & He).
    assert (HLast : last = List.length msg) by (eapply (proj2 (gwalk_takes e cx rules msg Hnul HRep HT)); eauto). subst last.
    pose proof (success_rule e cx rules msg) as HSR; destruct (HSR ltac:(assumption) ltac:(assumption) ltac:(assumption) ltac:(assumption) ltac:(assumption) w en HW) as (fs & tags0 & vs & fs1 & tags & vs1 & vs2 & n & B1 & B2 & B3 & B4 & B5 & B6 & B7 & B8).
    exists fs, tags0, vs, fs1, tags, vs1, vs2. do 5 (split; [assumption|]). intros O1 O2. rewrite He in A1. injection A1 as <-. apply get_node_at in A2. unfold node_at in A2. fold (live (c_nodes cx) (reported cx msg false (c_root cx) 0 w en) n0) in A2.
    assert (n0 = n) by (eapply live_fun; eauto). subst n0. unfold add_metadata in A5. rewrite HO, O1, O2 in A5. cbn in A5. injection A5 as <-. rewrite HO in A4. rewrite Hj in A3. cbn [option_map r_js st0] in A3.
    rewrite HA, B8 in A3. rewrite B6. unfold report. destruct tags as [|t0 tags]; cbn in A3; injection A3 as <-; rewrite <- ?obj_add_set; exact A4.
  - intros fs tags vs Hin Hp HM. destruct ok; auto. destruct (HF eq_refl) as [HW _].
    assert (HPW : exists w en, walk e cx msg false (c_root cx) 0 w en) by (eapply plain_rule_walk; eauto). destruct HPW as (w & en & Hw). destruct (HW _ _ Hw).
  - intros Hok. apply HF. exact Hok.
Qed.
End Top.
