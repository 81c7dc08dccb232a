(** * Prop_Tool2: C90 -- the command line tool shows the rulebase and its use. *)
From Coq Require Import String Permutation.
From Verif Require Import Base BaseFacts Time Parsers Engine Pdag Samp GraphSpec History Enc Err Stat StatSpec Tool ToolSpec Tool2 ToolSpec2 QuietSpec EngineFacts2 HeapFacts EngineHist ToolFacts StatFacts2 StatTop FreshFacts Tool2Facts TestEnv.
From Verif Require Prop_Tool Prop_Stat Prop_Graph Prop_Quiet Prop_Err.
Local Open Scope list_scope.

(** ** Options *)
Lemma last_app f a b : last_of f (a ++ b) = match last_of f b with Some d => Some d | None => last_of f a end.
Proof.
  unfold last_of. rewrite fold_left_app. generalize (fold_left (fun r o => match f o with Some d => Some d | None => r end) a None). induction b as [|o b IH] using rev_ind; intros r; [reflexivity|].
  rewrite !fold_left_app. cbn [fold_left]. destruct (f o); auto.
Qed.
Definition state_of (l : list option2) (b : mstate) : mstate2 :=
  {| m_base := b; m_dot := dot_to l; m_stats := stats_to l; m_sdot := sdot_to l; m_ext := extended l; m_opened := files_named l |}.
Lemma options2_app opens a b : forall m, options2 opens m (a ++ b) = match options2 opens m a with inl m' => options2 opens m' b | inr x => inr x end.
Proof. induction a as [|o a IH]; intros m; cbn [app options2]; [reflexivity|]. destruct (one_option2 opens m o); auto. Qed.
Lemma plain_app a b : plain_options (a ++ b) = plain_options a ++ plain_options b. Proof. apply flat_map_app. Qed.
Lemma options_one a o : options start_state (a ++ [o]) = match options start_state a with Some m => one_option m o | None => None end.
Proof. rewrite Prop_Tool.options_app. destruct (options start_state a) as [m|]; [|reflexivity]. cbn [options]. destruct (one_option m o); reflexivity. Qed.
Lemma files_app a b : files_named (a ++ b) = files_named a ++ files_named b. Proof. apply flat_map_app. Qed.
Lemma ext_app a b : extended (a ++ b) = (extended a || extended b)%bool. Proof. apply existsb_app. Qed.
Lemma options2_ok opens l : existsb asks_version l = false -> can_open opens l ->
  match options start_state (plain_options l) with
  | Some b => options2 opens start2 l = inl (state_of l b)
  | None => exists m, options2 opens start2 l = inr (stops m [own (complaint "usage or invalid option")])
  end.
Proof.
  induction l as [|o l IH] using rev_ind; intros HV HO; [reflexivity|]. rewrite existsb_app in HV. apply orb_false_iff in HV as [HV Ho]. unfold can_open in HO. rewrite files_app in HO. apply Forall_app in HO as [HO Hf].
  specialize (IH HV HO). rewrite plain_app, options2_app. unfold state_of, dot_to, sdot_to, stats_to in *. rewrite !last_app, files_app, ext_app.
  destruct (options start_state (plain_options l)) as [b|] eqn:EP.
  - rewrite IH. cbn [options2]. destruct o as [p|a|a|a|a|]; cbn [plain_options flat_map app].
    + rewrite options_one, EP. cbn [one_option2 m_base]. destruct (one_option b p) as [b'|]; [|eexists; reflexivity]. cbn. rewrite orb_false_r, app_nil_r. reflexivity.
    + rewrite app_nil_r, EP. cbn [one_option2]. unfold open_dest. unfold files_named in *. cbn [flat_map] in *. rewrite app_nil_r in *. unfold last_of, extended, goes_to in *. cbn [fold_left existsb] in *. rewrite ?orb_false_r. destruct (text_eqb a []); [cbn; rewrite ?app_nil_r; reflexivity|]. rewrite (Forall_inv Hf). reflexivity.
    + rewrite app_nil_r, EP. cbn [one_option2]. unfold open_dest. unfold files_named in *. cbn [flat_map] in *. rewrite app_nil_r in *. unfold last_of, extended, goes_to in *. cbn [fold_left existsb] in *. rewrite ?orb_false_r. destruct (text_eqb a []); [cbn; rewrite ?app_nil_r; reflexivity|]. rewrite (Forall_inv Hf). reflexivity.
    + rewrite app_nil_r, EP. cbn [one_option2]. unfold open_dest. unfold files_named in *. cbn [flat_map] in *. rewrite app_nil_r in *. unfold last_of, extended, goes_to in *. cbn [fold_left existsb] in *. rewrite ?orb_false_r. destruct (text_eqb a (L "-")); [cbn; rewrite ?app_nil_r; reflexivity|]. rewrite (Forall_inv Hf). reflexivity.
    + rewrite app_nil_r, EP. cbn [one_option2]. unfold open_dest. unfold files_named in *. cbn [flat_map] in *. rewrite app_nil_r in *. unfold last_of, extended, goes_to in *. cbn [fold_left existsb] in *. rewrite ?orb_true_r. destruct (text_eqb a (L "-")); [cbn; rewrite ?app_nil_r; reflexivity|]. cbn [m_opened]. rewrite (Forall_inv Hf). reflexivity.
    + discriminate Ho.
  - destruct IH as [m IH]. rewrite IH. destruct o as [p|a|a|a|a|]; cbn [plain_options flat_map app]; [rewrite options_one, EP|rewrite app_nil_r, EP..]; eauto.
Qed.
(** When the options end the run, nothing was printed or written. *)
Lemma options2_stop opens : forall l m x, options2 opens m l = inr x -> x_code x = 1%Z /\ x_stdout x = [] /\ x_files x = [].
Proof.
  assert (HD : forall m std a msg k x, open_dest opens m std a msg k = inr x -> x_code x = 1%Z /\ x_stdout x = [] /\ x_files x = []).
  { intros m std a msg k x. unfold open_dest. destruct (text_eqb a std); [discriminate|]. destruct (opens a); [discriminate|]. intros E. injection E as <-. auto. }
  induction l as [|o l IH]; intros m x E; cbn [options2] in E; [discriminate|]. destruct (one_option2 opens m o) as [m'|y] eqn:E1; [eapply IH; exact E|]. injection E as <-.
  destruct o as [p|a|a|a|a|]; cbn [one_option2] in E1; try (eapply HD; exact E1); [|injection E1 as <-; auto]. destruct (one_option (m_base m) p); [discriminate|]. injection E1 as <-. auto.
Qed.

(** ** After loading *)
Section Main.
Variables (opens : text -> bool) (lfuel fuel : nat) (e : env) (badint : json -> bool) (q : list prs -> list prs) (addr : nat -> text).
Hypothesis HQ : permutes q.
Notation run := (main opens lfuel fuel e badint q addr).

Lemma load_quiet b rb cx ok : load_rb lfuel e q b rb = EOk (cx, ok) -> m_load_rb lfuel e badint q b rb = [] -> quiet e badint q cx.
Proof. unfold load_rb, m_load_rb. destruct (Z.eqb _ 1); intros E HM; [eapply q_file|eapply q_string]; try exact E; try exact HM; apply q_init. Qed.
Lemma load_rb_fresh b rb cx ok : load_rb lfuel e q b rb = EOk (cx, ok) -> fresh (c_nodes cx).
Proof. unfold load_rb. destruct (Z.eqb _ 1); intros E; [unfold loadFile in E; eapply (load_fresh e q lfuel 1 (initCtx _) rb (cx, ok))|eapply (string_fresh e q lfuel (initCtx _) rb (cx, ok))]; try exact E; apply init_fresh. Qed.
Lemma loop_quiet s : forall n cx k nbr inp out k' cx', quiet e badint q cx -> tool_loop n fuel e s cx k nbr inp = EOk (out, k', cx') -> quiet e badint q cx'.
Proof.
  induction n as [|n IH]; intros cx k nbr inp out k' cx' HQu E; [discriminate|]. cbn [tool_loop] in E. destruct (read_line inp) as [[l rest]|]; [|injection E as _ _ <-; exact HQu].
  apply ebind_ok in E as ([[o1 k1] c1] & E1 & E). apply ebind_ok in E as ([[o2 k2] c2] & E2 & E). injection E as _ _ <-. eapply IH; [|exact E2].
  unfold one_line in E1. apply ebind_ok in E1 as ([[ok o] c3] & HN & E1). assert (Hc : c3 = c1).
  { apply ebind_ok in E1 as (tg & _ & E1). destruct tg; [|injection E1 as _ _ <-; reflexivity]. cbv zeta in E1.
    destruct (obj_get o (L "unparsed-data")); [destruct (s_unparsed s)|destruct (s_parsed s)]; try (injection E1 as _ _ <-; reflexivity); apply ebind_ok in E1 as (x & _ & E1); injection E1 as _ _ <-; reflexivity. }
  subst c3. eapply q_normalize; [exact HQu|exact HN].
Qed.
Lemma normalize_quiet s cx inp out notes cx' : quiet e badint q cx -> tool_normalize fuel e s cx inp = EOk (out, notes, cx') -> quiet e badint q cx'.
Proof. intros H E. unfold tool_normalize in E. apply ebind_ok in E as ([[o k] c] & E & E2). injection E2 as _ _ <-. eapply loop_quiet; eauto. Qed.
Lemma ids_there cx : quiet e badint q cx -> exists ids, setAllIDs (c_nodes cx) [] (comps cx) = EOk ids.
Proof.
  intros H. pose proof (Prop_Graph.history_safe _ _ _ HQ (Prop_Quiet.quiet_history _ _ _ _ H)) as HM. destruct (StatFacts2.safe_good cx HM) as (rk & HG & HB & HO).
  exact (setAllIDs_total (c_nodes cx) rk HG HB (proj1 (Prop_Quiet.C89_complete e badint q cx HQ H)) (comps cx) [] (Prop_Stat.comps_live cx _ HO eq_refl)).
Qed.
End Main.

(** ** C90 *)
(** The tool says of itself, on stderr, what it says without these options *)
Definition own_notes (l : list note2) : list note := flat_map (fun x => match x with own n => [n] | _ => [] end) l.
Lemma own_map l : own_notes (map own l) = l. Proof. induction l; [reflexivity|]. cbn. f_equal. exact IHl. Qed.
Lemma own_lib l : own_notes (map lib l) = []. Proof. induction l; auto. Qed.
Lemma own_app a b : own_notes (a ++ b) = own_notes a ++ own_notes b. Proof. apply flat_map_app. Qed.

(** With -s, -S and -x the tool prints what it prints without them, and then what was asked
    for; the exit code and its own messages are the same. *)
Theorem C90_rest_unchanged : forall opens lfuel fuel e badint q addr l inp x,
  existsb asks_version l = false -> can_open opens l -> dot_to l = None ->
  main opens lfuel fuel e badint q addr l inp = EOk x ->
  exists out st sd, tool lfuel fuel e q (plain_options l) inp = EOk (x_code x, out, own_notes (x_err x)) /\
    x_stdout x = out ++ printed (stats_to l) st ++ printed (sdot_to l) sd /\
    (x_code x = 0%Z -> x_files x = written (stats_to l) st ++ written (sdot_to l) sd /\ x_opened x = files_named l) /\
    (x_code x <> 0%Z -> x_stdout x = [] /\ x_files x = []).
Proof.
  intros opens lfuel fuel e badint q addr l inp x HV HO HD E. pose proof (options2_ok opens l HV HO) as HP. unfold main in E. unfold tool.
  assert (HS : forall m ns, (forall d, printed d [] = []) -> x = stops m ns -> own_notes ns = own_notes (x_err x) -> exists st sd : text, x_stdout x = [] ++ printed (stats_to l) st ++ printed (sdot_to l) sd /\
    (x_code x = 0%Z -> x_files x = written (stats_to l) st ++ written (sdot_to l) sd /\ x_opened x = files_named l) /\ (x_code x <> 0%Z -> x_stdout x = [] /\ x_files x = [])).
  { intros m ns H0 -> _. exists [], []. rewrite !H0. cbn. split; [reflexivity|]. split; [discriminate|auto]. }
  assert (H0 : forall d, printed d [] = []) by (intros [[|f]|]; reflexivity).
  destruct (options start_state (plain_options l)) as [b|].
  2:{ destruct HP as (m & HP). rewrite HP in E. injection E as <-. edestruct (HS m _ H0 eq_refl eq_refl) as (st & sd & A). exists [], st, sd. split; [reflexivity|exact A]. }
  rewrite HP in E. cbn [state_of m_base] in E. destruct (m_repo b) as [rb|].
  2:{ injection E as <-. edestruct (HS _ _ H0 eq_refl eq_refl) as (st & sd & A). exists [], st, sd. split; [reflexivity|exact A]. }
  destruct (Z.eqb (m_used b) (-1)).
  { injection E as <-. edestruct (HS _ _ H0 eq_refl eq_refl) as (st & sd & A). exists [], st, sd. split; [reflexivity|exact A]. }
  apply ebind_ok in E as ([cx ok] & EL & E). unfold load_rb in EL. rewrite EL. cbn [ebind]. cbv zeta in E. destruct ok; cbn [negb] in E |- *.
  2:{ injection E as <-. edestruct (HS _ _ H0 eq_refl eq_refl) as (st & sd & A). exists [], st, sd. split; [cbn [x_err x_code stops]; rewrite own_app, own_lib; reflexivity|exact A]. }
  unfold show_or_run in E. apply ebind_ok in E as (ids & _ & E). cbn [state_of m_dot m_base m_stats m_sdot m_ext m_opened] in E. rewrite HD in E.
  apply ebind_ok in E as ([[out notes] cx'] & EN & E). rewrite EN. cbn [ebind]. apply ebind_ok in E as ([st vis] & _ & E). apply ebind_ok in E as ([sd vis2] & _ & E). injection E as <-.
  exists out, st, sd. cbn [x_code x_stdout x_err x_files x_opened]. rewrite own_app, own_lib, own_map. split; [reflexivity|]. split; [reflexivity|]. split; [auto|]. intros HX. destruct HX. reflexivity.
Qed.
Print Assumptions C90_rest_unchanged.

(** If loading reports nothing, the options lead to no crash. *)
Definition reports_nothing (lfuel : nat) (e : env) (badint : json -> bool) (q : list prs -> list prs) (l : list option2) : Prop :=
  forall b rb, options start_state (plain_options l) = Some b -> m_repo b = Some rb -> m_load_rb lfuel e badint q b rb = [].
Theorem C90_no_crash : forall opens lfuel fuel e badint q addr l inp, permutes q -> (forall i, Forall (fun c => id_char c = true) (addr i)) ->
  existsb asks_version l = false -> can_open opens l -> dot_to l = None -> reports_nothing lfuel e badint q l ->
  match tool lfuel fuel e q (plain_options l) inp with
  | EOk (code, out, notes) => exists x, main opens lfuel fuel e badint q addr l inp = EOk x
  | EUb u => main opens lfuel fuel e badint q addr l inp = EUb u
  end.
Proof.
  intros opens lfuel fuel e badint q addr l inp HQ HA HV HO HD HR. pose proof (options2_ok opens l HV HO) as HP. unfold main, tool.
  unfold reports_nothing in HR. destruct (options start_state (plain_options l)) as [b|]; [|destruct HP as (m & ->); eauto]. rewrite HP. cbn [state_of m_base]. destruct (m_repo b) as [rb|] eqn:ER; [|eauto]. specialize (HR b rb eq_refl ER).
  destruct (Z.eqb (m_used b) (-1)); [eauto|]. change (if Z.eqb (m_used b) 1 then loadFile e q lfuel (initCtx (m_opts b)) rb else loadString e q lfuel (initCtx (m_opts b)) rb) with (load_rb lfuel e q b rb).
  destruct (load_rb lfuel e q b rb) as [[cx ok]|u] eqn:EL; cbn [ebind]; [|reflexivity]. cbv zeta. destruct ok; cbn [negb]; [|eauto].
  pose proof (load_quiet lfuel e badint q b rb cx true EL HR) as HQu. unfold show_or_run. destruct (ids_there e badint q HQ cx HQu) as (ids & EI). rewrite EI. cbn [ebind]. cbn [state_of m_dot m_base m_stats m_sdot m_ext m_opened]. rewrite HD.
  destruct (tool_normalize fuel e (m_set b) cx inp) as [[[out notes] cx']|u] eqn:EN; cbn [ebind]; [|reflexivity].
  pose proof (normalize_quiet fuel e badint q _ _ _ _ _ _ HQu EN) as HQ'.
  assert (HX : exists st vis, match stats_to l with Some _ => fullPdagStats cx' (extended l) ids [] | None => EOk ([], []) end = EOk (st, vis)).
  { destruct (stats_to l); [|eauto]. pose proof (Prop_Graph.history_safe _ _ _ HQ (Prop_Quiet.quiet_history _ _ _ _ HQ')) as HM. destruct (extended l).
    - destruct (safe_good cx' HM) as (rk & HG & HB & HOw). unfold fullPdagStats.
      assert (HT : forall ts v, (forall y, In y ts -> In (snd y) (comps cx')) -> not_below (c_nodes cx') (comps cx') v -> exists t v', typeStats (c_nodes cx') true ids v ts = EOk (t, v') /\ not_below (c_nodes cx') (comps cx') v').
      { induction ts as [|[nm i] ts IH]; intros v Hts Hv; [exists [], v; auto|]. cbn [typeStats]. destruct (component_ext (c_nodes cx') rk HG HB (comps cx') (Prop_Stat.comps_live cx' _ HOw eq_refl) ids i v (Hts _ (or_introl eq_refl)) Hv) as (o & k & l0 & v' & E & _ & _ & _ & A4). rewrite E. cbn [ebind].
        destruct (IH v' (fun y Hy => Hts y (or_intror Hy)) A4) as (t & v2 & E2 & B). rewrite E2. cbn [ebind]. eauto. }
      destruct (HT (c_types cx') []) as (t & v & E & B). { intros y Hy. unfold comps. apply in_or_app. left. apply in_map. exact Hy. } { intros i r []. } rewrite E. cbn [ebind].
      destruct (component_ext (c_nodes cx') rk HG HB (comps cx') (Prop_Stat.comps_live cx' _ HOw eq_refl) ids (c_root cx') v) as (o & k & l0 & v' & E2 & _); [unfold comps; apply in_or_app; right; left; reflexivity|exact B|]. rewrite E2. cbn [ebind]. eauto.
    - destruct (Prop_Stat.C84_statistics e q cx' ids [] HQ (Prop_Quiet.quiet_history _ _ _ _ HQ')) as (parts & mn & vis & E & _); [intros i r []|]. rewrite E. eauto. }
  destruct HX as (st & vis & ->). cbn [ebind].
  assert (HY : exists sd v2, match sdot_to l with Some _ => fullStatsDOT addr cx' vis | None => EOk ([], vis) end = EOk (sd, v2)).
  { destruct (sdot_to l); [|eauto]. destruct (Prop_Quiet.C89_graph e badint q cx' addr vis HQ HQ' HA) as (_ & t & v & o & s & E & _). rewrite E. eauto. }
  destruct HY as (sd & v2 & ->). cbn [ebind]. eauto.
Qed.
Print Assumptions C90_no_crash.

(** -d: the picture of the rulebase that was loaded, whatever the input; the exit code is 1. *)
Theorem C90_picture : forall opens lfuel fuel e badint q addr l inp d b rb cx, permutes q -> (forall i, Forall (fun c => id_char c = true) (addr i)) ->
  existsb asks_version l = false -> can_open opens l -> dot_to l = Some d ->
  options start_state (plain_options l) = Some b -> m_repo b = Some rb -> m_used b <> (-1)%Z ->
  load_rb lfuel e q b rb = EOk (cx, true) -> m_load_rb lfuel e badint q b rb = [] ->
  exists t order stmts, main opens lfuel fuel e badint q addr l inp =
      EOk {| x_code := 1%Z; x_stdout := printed (Some d) t; x_err := []; x_files := written (Some d) t; x_opened := files_named l |} /\
    new_below (c_nodes cx) everything (c_root cx) [] order /\ read_dot t = Some stmts /\
    Permutation stmts (map (shown (fun i => "l"%char :: addr i)) (flat_map (items_of (c_nodes cx) everything) order)).
Proof.
  intros opens lfuel fuel e badint q addr l inp d b rb cx HQ HA HV HO HD HB HR HU EL HM. pose proof (options2_ok opens l HV HO) as HP. rewrite HB in HP. unfold main. rewrite HP. cbn [state_of m_base]. rewrite HR.
  apply Z.eqb_neq in HU. rewrite HU, EL. cbn [ebind negb]. rewrite HM. cbv zeta. pose proof (load_quiet lfuel e badint q b rb cx true EL HM) as HQu.
  unfold show_or_run. destruct (ids_there e badint q HQ cx HQu) as (ids & EI). rewrite EI. cbn [ebind state_of m_dot m_base m_stats m_sdot m_ext m_opened map]. rewrite HD.
  destruct (Prop_Quiet.C89_graph e badint q cx addr [] HQ HQu HA) as ((t & v & o & s & E & A1 & A2 & A3) & _). rewrite E. cbn [ebind]. exists t, o, s. split; [reflexivity|]. auto.
Qed.
Print Assumptions C90_picture.

Lemma ok_fst A B (a a' : A) (b b' : B) : EOk (a, b) = EOk (a', b') -> a = a'.
Proof. intros E. congruence. Qed.

(** -s, -S, -x: they speak about the context [cx'] that the lines of the input leave: the
    rulebase that was loaded, with the use of each line added up. *)
Lemma use_counts fuel e s cx inp ls out notes cx' : fresh (c_nodes cx) -> tool_lines inp ls -> tool_normalize fuel e s cx inp = EOk (out, notes, cx') -> same_ctx cx cx' /\ use_of_lines fuel e cx cx' ls.
Proof.
  intros HF HL E. destruct (tool_counts fuel e s cx inp ls out notes cx' HF HL E) as (HS & cxs & A & B). split; [exact HS|]. exists cxs. split; [exact A|]. intros i. pose proof (get_same _ _ i (proj1 HS)) as HG. unfold get_node in HG.
  destruct (nth_error (c_nodes cx) i) as [[m|]|], (nth_error (c_nodes cx') i) as [[n|]|] eqn:En; try exact I; try tauto. destruct HG as (G1 & G2 & G3 & G4 & _). destruct (B i n En) as [B1 B2]. repeat split; try congruence; [exact B1|exact B2].
Qed.
Theorem C90_use : forall opens lfuel fuel e badint q addr l inp ls x, permutes q -> (forall i, Forall (fun c => id_char c = true) (addr i)) ->
  existsb asks_version l = false -> can_open opens l -> dot_to l = None -> reports_nothing lfuel e badint q l -> tool_lines inp ls ->
  main opens lfuel fuel e badint q addr l inp = EOk x -> x_code x = 0%Z ->
  exists b rb cx cx' out st sd, options start_state (plain_options l) = Some b /\ m_repo b = Some rb /\ load_rb lfuel e q b rb = EOk (cx, true) /\
    use_of_lines fuel e cx cx' ls /\
    x_stdout x = out ++ printed (stats_to l) st ++ printed (sdot_to l) sd /\ x_files x = written (stats_to l) st ++ written (sdot_to l) sd /\
    (sdot_to l <> None -> exists order stmts, new_below (c_nodes cx') (used (c_nodes cx')) (c_root cx') [] order /\ read_dot sd = Some stmts /\
       Permutation stmts (map (shown_use (fun i => "l"%char :: addr i)) (flat_map (items_of (c_nodes cx') (used (c_nodes cx'))) order))) /\
    (stats_to l <> None -> extended l = false -> exists parts main,
       st = full_report (map fst (c_types cx')) (map (fun x => report (c_nodes cx') (fst x) (snd x)) parts) (report (c_nodes cx') (fst main) (snd main)) /\
       List.length parts = List.length (c_types cx') /\ counted (c_nodes cx') (map snd (c_types cx') ++ [c_root cx']) [] (parts ++ [main])) /\
    (stats_to l <> None -> extended l = true -> forest (c_nodes cx') (comps cx') -> exists parts main,
       st = full_report (map fst (c_types cx')) (map (fun x => report (c_nodes cx') (fst (fst x)) (snd (fst x)) ++ usage_report (c_nodes cx') (snd x)) parts)
              (report (c_nodes cx') (fst (fst main)) (snd (fst main)) ++ usage_report (c_nodes cx') (snd main)) /\
       Forall2 (fun r x => counted (c_nodes cx') [r] [] [fst x] /\ used_ways (c_nodes cx') r (snd x)) (map snd (c_types cx') ++ [c_root cx']) (parts ++ [main])).
Proof.
  intros opens lfuel fuel e badint q addr l inp ls x HQ HA HV HO HD HR HL E HC. pose proof (options2_ok opens l HV HO) as HP. unfold main in E. unfold reports_nothing in HR.
  destruct (options start_state (plain_options l)) as [b|]; [|destruct HP as (m & HP); rewrite HP in E; injection E as <-; discriminate HC].
  rewrite HP in E. cbn [state_of m_base] in E. destruct (m_repo b) as [rb|] eqn:ER; [|injection E as <-; discriminate HC]. specialize (HR b rb eq_refl ER).
  destruct (Z.eqb (m_used b) (-1)); [injection E as <-; discriminate HC|]. apply ebind_ok in E as ([cx ok] & EL & E). cbv zeta in E. destruct ok; cbn [negb] in E; [|injection E as <-; discriminate HC].
  pose proof (load_quiet lfuel e badint q b rb cx true EL HR) as HQu.
  unfold show_or_run in E. apply ebind_ok in E as (ids & EI & E). cbn [state_of m_dot m_base m_stats m_sdot m_ext m_opened] in E. rewrite HD in E.
  apply ebind_ok in E as ([[out notes] cx'] & EN & E). apply ebind_ok in E as ([st vis] & E1 & E). apply ebind_ok in E as ([sd vis2] & E2 & E). injection E as <-.
  pose proof (normalize_quiet fuel e badint q _ _ _ _ _ _ HQu EN) as HQ'. pose proof (Prop_Quiet.quiet_history _ _ _ _ HQ') as HH.
  destruct (use_counts fuel e (m_set b) cx inp ls out notes cx' (load_rb_fresh lfuel e q b rb cx true EL) HL EN) as (HS & HUse).
  exists b, rb, cx, cx', out, st, sd. split; [reflexivity|]. split; [exact ER|]. split; [exact EL|]. split; [exact HUse|]. split; [reflexivity|]. split; [reflexivity|]. split; [|split].
  - destruct (sdot_to l); [|tauto]. intros _. destruct (Prop_Quiet.C89_graph e badint q cx' addr vis HQ HQ' HA) as (_ & t & v & o & s & E & A1 & A2 & A3). rewrite E in E2. apply ok_fst in E2. subst sd. exists o, s. split; [assumption|split; assumption].
  - destruct (stats_to l); [|tauto]. intros _ HX. rewrite HX in E1. destruct (Prop_Stat.C84_statistics e q cx' ids [] HQ HH) as (parts & mn & v & E & A1 & A2); [intros i r []|]. rewrite E in E1. apply ok_fst in E1. exists parts, mn. split; [symmetry; exact E1|]. split; assumption.
  - destruct (stats_to l); [|tauto]. intros _ HX HFo. rewrite HX in E1.
    destruct (Prop_Stat.C85_usage e q cx' [] HQ HH (proj1 (Prop_Quiet.C89_complete e badint q cx' HQ HQ')) HFo) as (ids' & parts & mn & v & EI' & E & A & _); [intros i r []|].
    assert (ids' = ids). { rewrite (setAllIDs_same _ _ (proj1 HS)) in EI. assert (HCo : comps cx = comps cx') by (unfold comps; destruct HS as (_ & -> & -> & _); reflexivity). rewrite HCo in EI. congruence. }
    subst ids'. rewrite E in E1. apply ok_fst in E1. exists parts, mn. split; [symmetry; exact E1|exact A].
Qed.
Print Assumptions C90_use.

(** Exit codes: with 1 nothing was printed, unless -d was given. *)
Theorem C90_exit_code : forall opens lfuel fuel e badint q addr l inp x, main opens lfuel fuel e badint q addr l inp = EOk x ->
  (x_code x = 0%Z \/ x_code x = 1%Z) /\ (x_code x = 1%Z -> (x_stdout x = [] /\ x_files x = []) \/ existsb (fun o => match o with o_d _ => true | _ => false end) l = true).
Proof.
  intros opens lfuel fuel e badint q addr l inp x E. unfold main in E. destruct (options2 opens start2 l) as [m|y] eqn:EO.
  2:{ injection E as <-. destruct (options2_stop _ _ _ _ EO) as (A & B & C). auto. }
  destruct (m_repo (m_base m)); [|injection E as <-; cbn; auto]. destruct (Z.eqb _ _); [injection E as <-; cbn; auto|]. apply ebind_ok in E as ([cx ok] & _ & E). cbv zeta in E. destruct ok; cbn [negb] in E; [|injection E as <-; cbn; auto].
  unfold show_or_run in E. apply ebind_ok in E as (ids & _ & E). destruct (m_dot m) as [d|] eqn:ED.
  - apply ebind_ok in E as ([tx vv] & _ & E). injection E as <-. split; [right; reflexivity|]. intros _. right. revert EO ED. clear. revert l m.
    assert (HG : forall l s m, options2 opens s l = inl m -> existsb (fun o => match o with o_d _ => true | _ => false end) l = false -> m_dot m = m_dot s).
    { assert (HD : forall s std a msg k s', (forall d fs, m_dot (k d fs) = m_dot s) -> open_dest opens s std a msg k = inl s' -> m_dot s' = m_dot s).
      { intros s std a msg k s' Hk. unfold open_dest. destruct (text_eqb a std); [intros E; injection E as <-; apply Hk|]. destruct (opens a); [intros E; injection E as <-; apply Hk|discriminate]. }
      induction l as [|o l IH]; intros s m E HX; cbn [options2 existsb] in *; [injection E as <-; reflexivity|]. apply orb_false_iff in HX as [Ho HX]. destruct (one_option2 opens s o) as [s'|] eqn:E1; [|discriminate].
      rewrite (IH _ _ E HX). destruct o as [p|a|a|a|a|]; cbn [one_option2] in E1; try discriminate.
      - destruct (one_option (m_base s) p); [|discriminate]. injection E1 as <-. reflexivity.
      - eapply HD; [|exact E1]. reflexivity.
      - eapply HD; [|exact E1]. reflexivity.
      - refine (eq_trans (HD _ _ _ _ _ _ _ E1) _); reflexivity. }
    intros l m EO ED. destruct (existsb _ l) eqn:EX; [reflexivity|]. rewrite (HG _ _ _ EO EX) in ED. discriminate ED.
  - apply ebind_ok in E as ([[out notes] cx'] & _ & E). apply ebind_ok in E as ([st vis] & _ & E). apply ebind_ok in E as ([sd v] & _ & E). injection E as <-. split; [left; reflexivity|]. discriminate.
Qed.
Print Assumptions C90_exit_code.

(** ** The hypotheses can be met *)
Definition any_file (f : text) : bool := negb (text_eqb f (L "/no")).
Definition addr90 (i : nat) : text := repeat "z"%char (S i).
Lemma addr90_ok i : Forall (fun c => id_char c = true) (addr90 i).
Proof. unfold addr90. apply Forall_forall. intros c Hc. apply repeat_spec in Hc as ->. reflexivity. Qed.
Definition rb90 : text := lines ["rule=in:ab %n:number%"; "rule=out:ac"]%string.
Definition opts90 : list option2 := [o_plain (o_R rb90); o_S (L "old"); o_s (L "st"); o_plain (o_e (L "raw")); o_x []]%string.
Definition in90 : text := lines ["ab 7"; "zz"; "ac"]%string.
Definition run90 (l : list option2) : er outcome := main any_file 200 500 env0 Prop_Err.no_bad isort addr90 l in90.
(** the report goes to the file st, the picture of the use to stdout: root, one literal node,
    two fields behind it *)
Example use90 : match run90 opts90 with
  | EOk x => x_code x = 0%Z /\ x_opened x = [L "old"; L "st"] /\ map fst (x_files x) = [L "st"] /\ firstn (List.length in90) (x_stdout x) = in90 /\
      option_map (@List.length stmt) (read_dot (skipn (List.length in90) (x_stdout x))) = Some 9
  | EUb _ => False
  end /\ stats_to opts90 = Some (to_file (L "st")) /\ extended opts90 = true /\ sdot_to opts90 = Some to_stdout /\ can_open any_file opts90 /\ dot_to opts90 = None /\ reports_nothing 200 env0 Prop_Err.no_bad isort opts90.
Proof.
  split; [vm_compute; repeat split; reflexivity|]. split; [reflexivity|]. split; [reflexivity|]. split; [reflexivity|]. split; [repeat constructor|]. split; [reflexivity|].
  intros b rb HB HR. vm_compute in HB. injection HB as <-. cbn in HR. injection HR as <-. vm_compute. reflexivity.
Qed.
Example picture90 : match run90 [o_plain (o_R rb90); o_d (L "pic"); o_s (L "-")] with
  | EOk x => x_code x = 1%Z /\ x_stdout x = [] /\ map fst (x_files x) = [L "pic"] /\ map (fun f => option_map (@List.length stmt) (read_dot (snd f))) (x_files x) = [Some 9]
  | EUb _ => False
  end.
Proof. vm_compute. repeat split; reflexivity. Qed.
Example stop90 : run90 [o_plain (o_R rb90); o_s (L "-"); o_x (L "/no"); o_d (L "pic")] = EOk {| x_code := 1%Z; x_stdout := []; x_err := [own (complaint "Cannot open statistics DOT file")]; x_files := []; x_opened := [] |}.
Proof. vm_compute. reflexivity. Qed.
(** -d does not "print the DOT file and exit" successfully: the exit code says failure. *)
Theorem C90_picture_succeeds_refuted : exists l x, dot_to l = Some to_stdout /\ run90 l = EOk x /\ x_stdout x <> [] /\ x_code x <> 0%Z.
Proof. exists [o_plain (o_R rb90); o_d []]. eexists. split; [reflexivity|]. split; [vm_compute; reflexivity|]. split; [discriminate|discriminate]. Qed.
