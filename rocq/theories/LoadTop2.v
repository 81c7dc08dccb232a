(** * LoadTop2: loaded rulebases are well formed; prefixes; literal rules. *)
From Verif Require Import Base Parsers Engine Pdag Samp GraphSpec RuleSpec BuiltSpec SafetySpec EngineSpec EngineWf History LineSpec SimSpec LoadSpec BaseFacts EngineFacts2 HeapFacts BuildFacts BuildFacts2 FrameFacts OptSem OptFacts LoadFacts TreeFacts TreeFacts2 ConfFacts BuiltFacts RuleFacts OptTotal SimFacts LineFacts LoadText LoadSim LoadTop.
From Coq Require Import ZifyBool ZifyNat ZifyN Permutation.

Lemma usable_builtin e c : usable e c -> builtin e c.
Proof. intros (m & nm & H & _). exists (KSimple m), nm. exact H. Qed.
Lemma flat_data e ts c ty nm : flat_field e ts c <> Some (KSimple (MNoData ty), nm).
Proof.
  unfold flat_field. destruct (newParser _ _ _ _) as [[c0 [p0|]]|]; try discriminate. destruct (p_kind p0) as [m| |]; try discriminate. destruct m; discriminate.
Qed.
Lemma ready_msafe e q k rs cx : permutes q -> ready e q k rs cx -> msafe cx.
Proof.
  intros HQ [HB|(c0 & HB & HO)]; [eapply built_msafe; eauto|]. destruct (built_msafe _ _ _ _ HB) as (G & rk & HG).
  pose proof (optimize_ok q HQ False 0%Z c0 G rk HG (fun f : False => match f with end)) as HP. rewrite HO in HP. destruct HP as (E & (rk' & HG') & _).
  exists G, rk'. replace (owners cx) with (owners c0) by (rewrite E; reflexivity). exact HG'.
Qed.
Lemma usable_kinds e cx : good_kinds e (usable e) cx -> forall i n p, live (c_nodes cx) i n -> In p (n_parsers n) -> exists m, p_kind p = KSimple m /\ m <> MCee /\ m_ok m (named p).
Proof.
  intros HK i n p Hn Hp. destruct (HK i n p Hn Hp) as [(t & ->)|(c & (m & nm & HF & HM & HO) & HF2)].
  - exists (MLiteral t). split; auto. split; [discriminate|exact I].
  - rewrite HF in HF2. injection HF2 as EK EN. exists m. split; auto. split; auto. destruct m; cbn; auto.
    + specialize (HO eq_refl). unfold named. rewrite <- EN. destruct nm; congruence.
    + eapply flat_data; eauto.
Qed.
Lemma loaded_graph_ok e q k rs cx : permutes q -> ready e q k rs cx -> good_kinds e (usable e) cx -> exists rk, graph_ok cx rk /\ rk (c_root cx) <= List.length (c_nodes cx) /\ fields_usable cx.
Proof.
  intros HQ HR HK. destruct (ready_msafe _ _ _ _ _ HQ HR) as (G & rk & HG). destruct (gi_lowrank _ _ _ HG) as [HG' HB].
  destruct (gi_live _ _ _ (c_root cx) HG') as [n0 Hn0]; [apply in_or_app; right; left; reflexivity|].
  exists (lowrank (c_nodes cx) rk). split; [|split].
  - split; [exists n0; exact Hn0|]. intros i n Hn. apply Forall_forall. intros p Hp. destruct (usable_kinds _ _ HK _ _ _ Hn Hp) as (m & E & HM & _).
    assert (HT : In (p_child p) (targets p)) by (left; reflexivity).
    split; [destruct (gi_target _ _ _ _ _ _ _ HG' Hn Hp HT) as [m' Hm']; exists m'; exact Hm'|]. split; [exact (proj2 (proj2 HG') _ _ _ _ Hn Hp HT)|]. rewrite E. exact HM.
  - pose proof (HB _ _ Hn0). lia.
  - intros p m (i & n & Hn & Hp) E. destruct (usable_kinds _ _ HK _ _ _ Hn Hp) as (m' & E' & _ & HO). congruence.
Qed.

(** ** Prefixes *)
Definition samep (p p' : option text) (c c' : ctx) : Prop :=
  same_rules c c' /\ c_prefix c = p /\ c_prefix c' = p' /\ c_opts c = c_opts c' /\ c_version c = c_version c'.
Definition lsimp p p' (x y : ctx * bool) : Prop := samep p p' (fst x) (fst y) /\ snd x = snd y.
Section P.
Variable e : env.
Variables load load' : ctx -> text -> er (ctx * bool).
Variable afuel : nat.
Lemma samep_pos p p' c c' f n f' n' : samep p p' c c' -> samep p p' (set_pos c f n) (set_pos c' f' n').
Proof. intros H. exact H. Qed.
Lemma samep_nodes p p' c c' d d' : samep p p' c c' -> d = set_nodes c (c_nodes d) -> d' = set_nodes c' (c_nodes d') -> same_graph d d' -> samep p p' d d'.
Proof. intros ((A1 & A2) & A3 & A4 & A5 & A6) E E' H. split; [split; auto; rewrite E, E'; auto|]. rewrite E, E'. auto. Qed.
Lemma addSamp_p p p' c c' r d tags : samep p p' c c' -> rsim (samep p p') (addSampToTree e c r d tags) (addSampToTree e c' r d tags).
Proof.
  intros H. pose proof (addSamp_sim e c c' r d tags (proj1 (proj1 H))) as HS. pose proof (addSamp_nodes e c r d tags) as N1. pose proof (addSamp_nodes e c' r d tags) as N2.
  destruct (addSampToTree e c r d tags), (addSampToTree e c' r d tags); cbn in *; auto. eapply samep_nodes; eauto.
Qed.
Lemma processAnnotate_p p p' c c' u : samep p p' c c' -> rsim (samep p p') (processAnnotate afuel c u) (processAnnotate afuel c' u).
Proof.
  intros H. unfold processAnnotate. destruct (skipn _ _); [exact H|]. destruct (firstn _ _); [exact H|]. destruct (negb _); [exact H|]. apply rsim_eq. intros [ops|]; [|exact H].
  destruct H as ((A1 & A2) & A3). cbn. split; auto. split; auto. cbn. rewrite A2. reflexivity.
Qed.
Lemma processType_p p p' c c' u : samep p p' c c' -> rsim (samep p p') (processType e c u) (processType e c' u).
Proof.
  intros H. unfold processType. destruct (getTypeName u) as [[nm [|s0 s]]|]; try exact H.
  pose proof (proj2 (proj2 (proj1 (proj1 H)))) as ET. rewrite <- ET. destruct (findType (c_types c) nm 0); [apply addSamp_p; exact H|].
  unfold newPDAG. rewrite <- (hsim_len _ _ (proj1 (proj1 (proj1 H)))). cbn [c_types set_nodes]. apply addSamp_p.
  destruct H as (((B1 & B2 & B3) & A2) & A3). split; auto. split; auto. split; cbn; [apply new_sim; auto|]. split; [exact B2|]. rewrite B3. reflexivity.
Qed.
Lemma in_force_app p t r : in_force (Some (in_force p ++ t)) ++ r = in_force p ++ t ++ r. Proof. cbn. rewrite <- app_assoc. reflexivity. Qed.
Lemma process_prefix : forall ls p c c' ns ns' wl xl, good_plines p ls -> samep p None c c' ->
  map fst wl = map written ls -> map fst xl = expand p ls -> ns = map snd wl -> ns' = map snd xl ->
  rsim (fun x y => same_rules (fst x) (fst y) /\ c_opts (fst x) = c_opts (fst y) /\ c_version (fst x) = c_version (fst y) /\ snd x = snd y) (process e load afuel c wl) (process e load' afuel c' xl).
Proof.
  assert (HK : forall p x y, rsim (samep p None) x y -> rsim (lsimp p None) (do* c := x in EOk (c, true)) (do* c := y in EOk (c, true))).
  { intros p x y Hxy. eapply rsim_bind; [exact Hxy|]. intros a b Hab. split; auto. }
  induction ls as [|l ls IH]; intros p c c' ns ns' wl xl HG HS E1 E2 _ _.
  - destruct wl; [|discriminate]. destruct xl; [|discriminate]. cbn. destruct HS as (A & B & C & D & F). auto.
  - destruct wl as [|[w n] wl]; [discriminate|]. injection E1 as Ew E1. cbn [process].
    destruct l as [t|t|tags r|l]; cbn [written] in Ew; subst w.
    + rewrite proc_prefix. cbn [ebind]. cbn [expand] in E2. eapply (IH (Some t)); eauto. destruct HS as (A & B & C). split; auto.
    + cbn [good_plines] in HG. destruct HG as [Hp HG]. destruct p as [pt|]; [|congruence]. rewrite (proc_extend e load afuel _ pt) by apply HS. cbn [ebind]. cbn [expand in_force] in E2.
      eapply (IH (Some (pt ++ t))); eauto. destruct HS as (A & B & C). split; auto.
    + cbn [good_plines] in HG. destruct HG as (HT & Hr & HG). cbn [expand] in E2. destruct xl as [|[x nx] xl]; [discriminate|]. assert (Ex := f_equal (hd []) E2). assert (E2' := f_equal (@tl _) E2). cbn [map fst hd tl] in Ex, E2'. clear E2. rename E2' into E2. subst x. cbn [process].
      rewrite proc_rule by auto. rewrite proc_rule; [|auto|destruct (in_force p), r; cbn; congruence].
      change (c_prefix (set_pos c (c_file c) n)) with (c_prefix c). change (c_prefix (set_pos c' (c_file c') nx)) with (c_prefix c'). destruct HS as (A & B & C & D). rewrite B, C. change (in_force None ++ in_force p ++ r) with (in_force p ++ r).
      change (c_root (set_pos c (c_file c) n)) with (c_root c). change (c_root (set_pos c' (c_file c') nx)) with (c_root c'). rewrite <- (proj1 (proj2 (proj1 A))).
      eapply rsim_bind; [apply (HK p); apply (addSamp_p p None); split; [exact A|auto]|]. intros [c1 ok] [c1' ok'] [B1 B2]. cbn [fst snd] in B1, B2. subst ok'. destruct ok; [eapply IH; eauto|].
      destruct B1 as (X1 & X2 & X3 & X4 & X5). cbn. auto.
    + cbn [good_plines] in HG. destruct HG as (HI & HG). cbn [expand] in E2. destruct xl as [|[x nx] xl]; [discriminate|]. assert (Ex := f_equal (hd []) E2). assert (E2' := f_equal (@tl _) E2). cbn [map fst hd tl] in Ex, E2'. clear E2. rename E2' into E2. subst x. cbn [process].
      assert (HP : rsim (lsimp p None) (processSamp e load afuel (set_pos c (c_file c) n) l) (processSamp e load' afuel (set_pos c' (c_file c') nx) l)).
      { destruct HI as [[(u & ->)|[(ty & u & -> & H1 & H2)|(u & ->)]]|(u & ->)].
        - rewrite !proc_annot. apply HK. apply processAnnotate_p. exact HS.
        - rewrite !proc_unknown by auto. split; auto.
        - unfold processSamp, getLineType. cbn [scan]. change (ceq "=" "=") with true. cbn [negb firstn]. split; auto.
        - rewrite !proc_type. apply HK. apply processType_p. exact HS. }
      eapply rsim_bind; [exact HP|]. intros [c1 ok] [c1' ok'] [B1 B2]. cbn [fst snd] in B1, B2. subst ok'. destruct ok; [eapply IH; eauto|]. destruct B1 as (X1 & X2 & X3 & X4 & X5). cbn. auto.
Qed.
End P.

Section PT.
Variable e : env.
Variable q : list prs -> list prs.
Lemma one_line_id w : ~ In LF w -> one_line w = w.
Proof.
  intros H. unfold one_line. induction w as [|c w IH]; [reflexivity|]. cbn [filter]. assert (E : ceq c LF = false) by (apply ceq_false; intros ->; apply H; left; reflexivity).
  rewrite E. cbn [negb]. f_equal. apply IH. intros Hin. apply H. right. exact Hin.
Qed.
Lemma write_lines_items l : write_lines l = write (map Line l).
Proof. induction l as [|w l IH]; [reflexivity|]. unfold write_lines, write in *. cbn [map flat_map write_item]. rewrite IH. reflexivity. Qed.
Lemma good_lines_items b l : Forall good_line l -> Forall (good_item b) (map Line l).
Proof. induction 1 as [|w l (A & B & C) H IH]; cbn; constructor; auto. cbn. auto. Qed.
Lemma lines_of_lines l : Forall good_line l -> lines_of (map Line l) = l.
Proof. induction 1 as [|w l (A & B & C) H IH]; cbn; auto. rewrite one_line_id by auto. f_equal. exact IH. Qed.
Lemma write_lines_rb isfile l : Forall good_line l -> forall m, exists ls, rulebase isfile (write_lines l) m ls /\ map fst ls = l.
Proof.
  intros H m. rewrite write_lines_items. destruct (write_rb isfile (map Line l) (good_lines_items isfile l H) m) as (ls & A & B). exists ls. split; auto. rewrite B. apply lines_of_lines. auto.
Qed.
Definition rsame (x y : ctx * bool) : Prop := same_rules (fst x) (fst y) /\ c_opts (fst x) = c_opts (fst y) /\ snd x = snd y.
Lemma rsame_loaded x y : rsim rsame x y <-> same_rules_loaded x y.
Proof. destruct x as [[c ok]|], y as [[c' ok']|]; cbn; unfold rsame; cbn; tauto. Qed.
Lemma finish_same x y : rsim rsame x y ->
  rsim rsame (do* (cx, ok) := x in if negb ok then EOk (cx, false) else do* cx := optimize q cx in EOk (cx, true)) (do* (cx, ok) := y in if negb ok then EOk (cx, false) else do* cx := optimize q cx in EOk (cx, true)).
Proof.
  intros H. eapply rsim_bind; [exact H|]. intros [c ok] [c' ok'] (A & B & C). cbn [fst snd] in *. subst ok'. destruct ok; cbn [negb]; [|split; auto].
  pose proof (optimize_sim q c c' (proj1 A)) as HS. pose proof (optimize_nodes q c) as N1. pose proof (optimize_nodes q c') as N2.
  destruct (optimize q c), (optimize q c'); cbn in *; auto. split; [|split; [rewrite N1, N2; exact B|reflexivity]]. split; auto. cbn. rewrite N1, N2. apply A.
Qed.
Lemma load_prefix load load' afuel fuel fuel' isfile c ls : c_prefix c = None -> (c_line c < 2 ^ 32)%N -> good_plines None ls ->
  Forall good_line (map written ls) -> Forall good_line (expand None ls) ->
  no_eof e isfile (write_lines (map written ls)) -> no_eof e isfile (write_lines (expand None ls)) ->
  List.length (write_lines (map written ls)) < fuel -> List.length (write_lines (expand None ls)) < fuel' ->
  rsim rsame (load_lines e load afuel fuel isfile c (write_lines (map written ls))) (load_lines e load' afuel fuel' isfile c (write_lines (expand None ls))).
Proof.
  intros HP HN HG G1 G2 F1 F2 L1 L2.
  destruct (write_lines_rb isfile _ G1 (c_line c)) as (wl & R1 & E1). destruct (write_lines_rb isfile _ G2 (c_line c)) as (xl & R2 & E2).
  pose proof (load_lines_process e load afuel isfile _ wl c fuel R1 HN F1 L1) as P1. pose proof (load_lines_process e load' afuel isfile _ xl c fuel' R2 HN F2 L2) as P2.
  pose proof (process_prefix e load load' afuel ls None c c _ _ wl xl HG (conj (conj (same_graph_refl c) eq_refl) (conj HP (conj HP (conj eq_refl eq_refl)))) E1 E2 eq_refl eq_refl) as P3.
  destruct (process e load afuel c wl) as [[c1 ok1]|], (process e load' afuel c xl) as [[c2 ok2]|]; try (destruct P3; fail);
  destruct (load_lines e load afuel fuel isfile c _) as [[c3 ok3]|]; try (destruct P1; fail); destruct (load_lines e load' afuel fuel' isfile c _) as [[c4 ok4]|]; try (destruct P2; fail).
  - destruct P1 as [X1 X2], P2 as [Y1 Y2], P3 as (Z1 & Z2 & Z3 & Z4). cbn [fst snd] in *. subst. unfold rsame. cbn [rsim fst snd]. rewrite X1, Y1. split; [exact Z1|]. split; [exact Z2|reflexivity].
  - cbn in *. congruence.
Qed.
Lemma loadString_prefix fuel c ls : c_prefix c = None -> good_plines None ls -> Forall good_line (map written ls) -> Forall good_line (expand None ls) ->
  ~ In NUL (write_lines (map written ls)) -> ~ In NUL (write_lines (expand None ls)) -> no_eof e false (write_lines (map written ls)) -> no_eof e false (write_lines (expand None ls)) ->
  rsim rsame (loadString e q fuel c (write_lines (map written ls))) (loadString e q fuel c (write_lines (expand None ls))).
Proof. intros. unfold loadString. rewrite !cstr_nonul by auto. apply finish_same. apply load_prefix; auto. reflexivity. Qed.
Lemma loadFile_prefix fuel c f f' ls : c_prefix c = None -> good_plines None ls -> Forall good_line (map written ls) -> Forall good_line (expand None ls) ->
  files e f = Some (version2 ++ write_lines (map written ls)) -> files e f' = Some (version2 ++ write_lines (expand None ls)) ->
  rsim rsame (loadFile e q fuel c f) (loadFile e q fuel c f').
Proof.
  intros HP HG G1 G2 HF HF'. unfold loadFile. destruct fuel as [|fl]; [reflexivity|]. cbn [loadSamples]. rewrite HF, HF'.
  set (t := write_lines (map written ls)) in *. set (t' := write_lines (expand None ls)) in *.
  change (version2 ++ t) with ("v"%char :: skipn 1 (version2 ++ t)) at 1. change (version2 ++ t') with ("v"%char :: skipn 1 (version2 ++ t')) at 1. cbn iota.
  change ("v"%char :: skipn 1 (version2 ++ t)) with (version2 ++ t). change ("v"%char :: skipn 1 (version2 ++ t')) with (version2 ++ t').
  rewrite !text_eqb_version. cbn [negb]. cbn iota. change (c_version (set_pos c f 0)) with (c_version c). change (c_version (set_pos c f' 0)) with (c_version c).
  destruct (_ && _)%bool; [split; auto; apply (conj (same_graph_refl c) eq_refl)|]. change (Nat.eqb 1 1) with true. cbn iota. apply finish_same.
  change (skipn 10 (version2 ++ t)) with t. change (skipn 10 (version2 ++ t')) with t'.
  assert (HS : forall a b, same_load a b -> forall l fu isf tx, rsim lsim (load_lines e l (fl) fu isf a tx) (load_lines e l fl fu isf b tx) -> True) by auto. clear HS.
  destruct (write_lines_rb true _ G1 1%N) as (wl & R1 & E1). destruct (write_lines_rb true _ G2 1%N) as (xl & R2 & E2).
  set (c1 := set_pos (set_version (set_pos c f 0) 2) f 1). set (c2 := set_pos (set_version (set_pos c f' 0) 2) f' 1).
  assert (EF : forall x, no_eof e true x) by (intros x ? ?; reflexivity).
  pose proof (load_lines_process e (loadSamples e q fl 2) fl true t wl c1 (S (List.length (version2 ++ t))) R1 eq_refl (EF _) ltac:(rewrite app_length; lia)) as P1.
  pose proof (load_lines_process e (loadSamples e q fl 2) fl true t' xl c2 (S (List.length (version2 ++ t'))) R2 eq_refl (EF _) ltac:(rewrite app_length; lia)) as P2.
  assert (HS : samep None None c1 c2) by (split; [apply (conj (same_graph_refl c) eq_refl)|split; [exact HP|split; [exact HP|split; reflexivity]]]).
  pose proof (process_prefix e (loadSamples e q fl 2) (loadSamples e q fl 2) fl ls None c1 c2 _ _ wl xl HG HS E1 E2 eq_refl eq_refl) as P3.
  destruct (process e _ fl c1 wl) as [[c3 ok1]|], (process e _ fl c2 xl) as [[c4 ok2]|]; try (destruct P3; fail);
  destruct (load_lines e _ fl _ true c1 t) as [[c5 ok3]|]; try (destruct P1; fail); destruct (load_lines e _ fl _ true c2 t') as [[c6 ok4]|]; try (destruct P2; fail).
  - destruct P1 as [X1 X2], P2 as [Y1 Y2], P3 as (Z1 & Z2 & Z3 & Z4). cbn [fst snd] in *. subst. unfold rsame. cbn [rsim fst snd]. rewrite X1, Y1. split; [exact Z1|]. split; [exact Z2|reflexivity].
  - cbn in *. congruence.
Qed.

(** ** Literal text *)
Lemma skipn_skipn' {A} : forall a b (l : list A), skipn a (skipn b l) = skipn (b + a) l.
Proof. induction b as [|b IH]; intros l; [reflexivity|]. destruct l; cbn; [apply skipn_nil|apply IH]. Qed.
Lemma literal_part_written : forall l, literal_part (write_literal l) = (l, []).
Proof.
  induction l as [|c l IH]; [reflexivity|]. cbn [write_literal flat_map]. fold (write_literal l). destruct (ceq c "%") eqn:E.
  - apply ceq_true in E. subst c. cbn [app literal_part]. change (ceq "%" "%") with true. cbn iota. rewrite IH. reflexivity.
  - cbn [app literal_part]. rewrite E, IH. reflexivity.
Qed.
Lemma drop_nul_id l : ~ In NUL l -> drop_nul l = l.
Proof.
  intros H. unfold drop_nul. induction l as [|c l IH]; [reflexivity|]. cbn [filter]. assert (E : ceq c NUL = false) by (apply ceq_false; intros ->; apply H; left; reflexivity).
  rewrite E. cbn [negb]. f_equal. apply IH. intros Hin. apply H. right. exact Hin.
Qed.
Lemma literal_confs l : unescapes e -> l <> [] -> ~ In NUL l -> ~ In "\"%char l -> rule_confs e (write_literal l) (map literal_conf l).
Proof.
  intros HU HL HN HB. replace (map literal_conf l) with (literals e l).
  - apply rc_last; [|apply literal_part_written]. destruct l as [|c l]; [congruence|]. cbn. destruct (ceq c "%"); discriminate.
  - unfold literals. rewrite HU, drop_nul_id, cstr_nonul; auto.
Qed.
Lemma in_written c l : In c (write_literal l) -> In c l.
Proof. unfold write_literal. rewrite in_flat_map. intros (d & Hd & Hc). destruct (ceq d "%") eqn:E; [apply ceq_true in E; subst d; destruct Hc as [<-|[<-|[]]]; auto|destruct Hc as [<-|[]]; auto]. Qed.
Lemma count_app c a b : count c (a ++ b) = count c a + count c b. Proof. unfold count. rewrite filter_app, app_length. reflexivity. Qed.
Lemma written_closed l : in_field (write_literal l) = false.
Proof.
  unfold in_field. induction l as [|c l IH]; [reflexivity|]. cbn [write_literal flat_map]. fold (write_literal l). rewrite count_app. destruct (ceq c "%") eqn:E.
  - change (count "%" ["%"%char; "%"%char]) with 2. cbn [Nat.add]. rewrite !Nat.odd_succ, Nat.even_succ. exact IH.
  - replace (count "%" [c]) with 0; [exact IH|]. unfold count. cbn [filter]. destruct (ceq "%" c) eqn:E2; [|reflexivity]. apply ceq_true in E2. apply ceq_false in E. congruence.
Qed.
Lemma means_fun1 c f : c <> NUL -> means e (literal_conf c) f -> f = (MLiteral [c], None).
Proof. intros Hc H. assert (H2 : means e (literal_conf c) (MLiteral [c], None)). { intros ts. unfold flat_field, newParser. cbn. change zero with NUL. rewrite (proj2 (ceq_false c NUL) Hc). reflexivity. }
  specialize (H []). specialize (H2 []). rewrite H in H2. destruct f as [m nm]. cbn in H2. congruence. Qed.
Lemma literal_fields l : ~ In NUL l -> forall fs, Forall2 (means e) (map literal_conf l) fs -> fs = map (fun c => (MLiteral [c], None)) l.
Proof.
  induction l as [|c l IH]; intros HN fs H; inversion H as [|? f ? fs' Hf H']; subst; [reflexivity|]. cbn [map]. f_equal; [apply means_fun1; auto; intros ->; apply HN; left; reflexivity|].
  apply IH; auto. intros Hin. apply HN. right. exact Hin.
Qed.
Lemma literal_means l : ~ In NUL l -> Forall2 (means e) (map literal_conf l) (map (fun c => (MLiteral [c], None)) l).
Proof.
  intros H. induction l as [|c l IH]; cbn; constructor; [|apply IH; intros Hin; apply H; right; auto].
  intros ts. unfold flat_field, newParser. cbn. change zero with NUL. rewrite (proj2 (ceq_false c NUL)); [reflexivity|]. intros ->. apply H. left. reflexivity.
Qed.
Lemma literal_takes msg : ~ In NUL msg -> forall l, ~ In NUL l -> forall i, i <= List.length msg -> fields_take e msg (map (fun c => (MLiteral [c], None)) l) i (List.length msg) <-> skipn i msg = l.
Proof.
  intros HM. induction l as [|c l IH]; intros HN i Hi; cbn [map].
  - split; [intros H; inversion H; subst; apply skipn_all|]. intros H. apply (f_equal (@List.length _)) in H. rewrite skipn_length in H. cbn in H. replace i with (List.length msg) by lia. constructor.
  - assert (HN' : ~ In NUL l) by (intros Hin; apply HN; right; exact Hin). assert (HC : ~ In NUL [c]) by (intros [->|[]]; apply HN; left; reflexivity). split.
    + intros H. inversion H as [|? ? ? ? n v ? Hle Hrun H2]; subst. apply (lit_run e msg HM) in Hrun as ((post & E) & -> & _); auto. cbn in H2. rewrite E. cbn [app]. f_equal.
      assert (Hl : i + 1 <= List.length msg) by (apply (f_equal (@List.length _)) in E; rewrite skipn_length, app_length in E; cbn in E; lia).
      apply IH in H2; auto. rewrite <- H2. rewrite <- (skipn_skipn' 1 i), E. reflexivity.
    + intros H. assert (Hl : i + 1 <= List.length msg) by (apply (f_equal (@List.length _)) in H; rewrite skipn_length in H; cbn in H; lia).
      econstructor; [exact Hi|apply (lit_run e msg HM); [exact HC|]; split; [exists l; exact H|split; reflexivity]|]. cbn. apply IH; auto. rewrite <- (skipn_skipn' 1 i), H. reflexivity.
Qed.
End PT.
