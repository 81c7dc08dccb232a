(** * LoadTop: loading whole texts. *)
From Verif Require Import Base Parsers Engine Pdag Samp GraphSpec RuleSpec BuiltSpec History LineSpec SimSpec LoadSpec AnnotSpec BaseFacts EngineFacts2 HeapFacts BuildFacts BuildFacts2 FrameFacts OptSem OptFacts LoadFacts TreeFacts TreeFacts2 ConfFacts BuiltFacts RuleFacts OptTotal SimFacts LineFacts LoadText LoadSim AnnotFacts.
From Coq Require Import ZifyBool ZifyNat ZifyN Permutation.

(** ** Texts made of items *)
Definition lines_of (items : list item) : list text := flat_map (fun i => match i with Line w => [one_line w] | _ => [] end) items.
Lemma write_rulebase isfile tail lst : (forall m, exists ls, rulebase isfile tail m ls /\ map fst ls = lst) ->
  forall items, Forall (good_item isfile) items -> forall m, exists ls, rulebase isfile (write items ++ tail) m ls /\ map fst ls = lines_of items ++ lst.
Proof.
  intros HT. induction items as [|i items IH]; intros HG m; [apply HT|]. inversion HG as [|? ? Hi HG']; subst.
  destruct i as [|x|w]; cbn [write flat_map write_item lines_of app]; fold (write items); fold (lines_of items).
  - destruct (IH HG' (lineno m 1)) as (ls & H1 & H2). exists ls. split; auto. constructor. exact H1.
  - destruct (IH HG' (lineno m 1)) as (ls & H1 & H2). exists ls. split; auto. rewrite <- !app_assoc. cbn [app]. constructor; auto.
  - destruct Hi as (A & B & C). destruct (IH HG' (lineno m (count LF w + 1))) as (ls & H1 & H2). exists ((one_line w, lineno m (count LF w + 1)) :: ls). split; [|cbn; rewrite H2; reflexivity].
    rewrite <- !app_assoc. cbn [app]. constructor; auto. intros Hf a b E. destruct (C Hf). rewrite E. apply in_or_app. right. left. reflexivity.
Qed.
Lemma write_rb isfile items : Forall (good_item isfile) items -> forall m, exists ls, rulebase isfile (write items) m ls /\ map fst ls = lines_of items.
Proof.
  intros H m. destruct (write_rulebase isfile [] [] ltac:(intros k; exists []; split; [constructor|reflexivity]) items H m) as (ls & A & B). rewrite app_nil_r in *. eauto.
Qed.
Lemma write_rb_last isfile items w : Forall (good_item isfile) items -> entry w -> (isfile = true -> ~ In LF w) -> forall m, exists ls, rulebase isfile (write items ++ w) m ls /\ map fst ls = lines_of items ++ [one_line w].
Proof.
  intros H Hw Hf m. apply (write_rulebase isfile w [one_line w]); auto. intros k. eexists. split; [apply rb_last; auto|reflexivity].
  intros Hi a b E. destruct (Hf Hi). rewrite E. apply in_or_app. right. left. reflexivity.
Qed.
Lemma lines_of_filter items : lines_of (filter is_line items) = lines_of items.
Proof. induction items as [|[] items IH]; cbn; auto. unfold lines_of in *. cbn. rewrite IH. reflexivity. Qed.
Lemma lines_of_app a b : lines_of (a ++ b) = lines_of a ++ lines_of b. Proof. apply flat_map_app. Qed.
Lemma good_filter isfile items : Forall (good_item isfile) items -> Forall (good_item isfile) (filter is_line items).
Proof. intros H. apply Forall_forall. intros i Hi. apply filter_In in Hi as [Hi _]. rewrite Forall_forall in H. auto. Qed.
Lemma in_write_filter c items : In c (write (filter is_line items)) -> In c (write items).
Proof. unfold write. rewrite !in_flat_map. intros (i & Hi & Hc). apply filter_In in Hi as [Hi _]. eauto. Qed.

Lemma cstr_nonul t : ~ In NUL t -> cstr t = t.
Proof. induction t as [|c t IH]; intros H; auto. cbn [In] in H. cbn [cstr]. rewrite (proj2 (ceq_false c NUL)) by (intros ->; tauto). f_equal. apply IH. tauto. Qed.

Section Top.
Variable e : env.
Variable q : list prs -> list prs.

Lemma like_lsim x y : like x y -> lsim x y.
Proof. destruct x as [c ok], y as [c' ok']. intros [A B]. cbn in *. split; auto. cbn. rewrite A. apply (same_load_refl c'). Qed.
Lemma rsim_trans {A B C} (P : A -> B -> Prop) (Q : B -> C -> Prop) (R : A -> C -> Prop) x y z : rsim P x y -> rsim Q y z -> (forall a b c, P a b -> Q b c -> R a c) -> rsim R x z.
Proof. destruct x, y, z; cbn; try tauto; [eauto|congruence]. Qed.
Lemma rsim_sym {A B} (P : A -> B -> Prop) (Q : B -> A -> Prop) x y : rsim P x y -> (forall a b, P a b -> Q b a) -> rsim Q y x.
Proof. destruct x, y; cbn; try tauto; [eauto|congruence]. Qed.
Lemma lsim_trans a b c : lsim a b -> lsim b c -> lsim a c.
Proof. intros [A1 A2] [B1 B2]. split; [eapply same_load_trans; eauto|congruence]. Qed.
Lemma lsim_sym a b : lsim a b -> lsim b a.
Proof. intros [A1 A2]. split; [apply same_load_sym; auto|auto]. Qed.

(** two texts with the same lines *)
Lemma load_lines_same load afuel fuel fuel' isfile t t' ls ls' c c' :
  (forall a b f, same_load a b -> rsim lsim (load a f) (load b f)) ->
  rulebase isfile t (c_line c) ls -> rulebase isfile t' (c_line c') ls' -> map fst ls = map fst ls' ->
  (c_line c < 2 ^ 32)%N -> (c_line c' < 2 ^ 32)%N -> no_eof e isfile t -> no_eof e isfile t' -> List.length t < fuel -> List.length t' < fuel' -> same_load c c' ->
  rsim lsim (load_lines e load afuel fuel isfile c t) (load_lines e load afuel fuel' isfile c' t').
Proof.
  intros HL H1 H2 E N1 N2 F1 F2 L1 L2 HC.
  eapply rsim_trans; [eapply rsim_mono; [apply (load_lines_process e load afuel isfile t ls c fuel); auto|apply like_lsim]| |apply lsim_trans].
  eapply rsim_trans; [apply (process_load e load load HL afuel ls ls' c c' E HC)| |apply lsim_trans].
  eapply rsim_sym; [eapply rsim_mono; [apply (load_lines_process e load afuel isfile t' ls' c' fuel'); auto|apply like_lsim]|apply lsim_sym].
Qed.
Lemma loadString_same fuel c t t' ls ls' : ~ In NUL t -> ~ In NUL t' -> rulebase false t 0 ls -> rulebase false t' 0 ls' -> map fst ls = map fst ls' ->
  no_eof e false t -> no_eof e false t' -> rsim lsim (loadString e q fuel c t) (loadString e q fuel c t').
Proof.
  intros N1 N2 H1 H2 E F1 F2. unfold loadString. rewrite !cstr_nonul by auto. apply finish_load.
  eapply load_lines_same; eauto; try (cbn; lia); try reflexivity; [intros; apply loadSamples_load; auto|apply same_load_refl].
Qed.
Lemma text_eqb_version t : text_eqb (firstn 10 (version2 ++ t)) version2 = true. Proof. reflexivity. Qed.
Lemma loadFile_same fuel c f f' t t' ls ls' : files e f = Some (version2 ++ t) -> files e f' = Some (version2 ++ t') ->
  rulebase true t 1 ls -> rulebase true t' 1 ls' -> map fst ls = map fst ls' -> rsim lsim (loadFile e q fuel c f) (loadFile e q fuel c f').
Proof.
  intros HF HF' H1 H2 E. unfold loadFile. destruct fuel as [|fl]; [reflexivity|]. cbn [loadSamples]. rewrite HF, HF'.
  change (version2 ++ t) with ("v"%char :: skipn 1 (version2 ++ t)) at 1. change (version2 ++ t') with ("v"%char :: skipn 1 (version2 ++ t')) at 1. cbn iota.
  change ("v"%char :: skipn 1 (version2 ++ t)) with (version2 ++ t). change ("v"%char :: skipn 1 (version2 ++ t')) with (version2 ++ t').
  rewrite !text_eqb_version. cbn [negb]. cbn iota. change (c_version (set_pos c f 0)) with (c_version c). change (c_version (set_pos c f' 0)) with (c_version c).
  destruct (_ && _)%bool; [split; auto; apply (same_load_pos c c); apply same_load_refl|]. change (Nat.eqb 1 1) with true. cbn iota. apply finish_load.
  eapply load_lines_same; eauto; try (cbn; lia); try (intros ? ?; reflexivity); [intros; apply loadSamples_load; auto|apply (same_load_refl (set_version c 2))].
Qed.

(** ** From lines to rules: nothing goes wrong *)
Definition with_conf (al : list annotation) (cx cx' : ctx) (good : json -> Prop) : Prop :=
  (forall al0, has_annots cx al0 -> has_annots cx' (al0 ++ al)) /\ c_opts cx' = c_opts cx /\ forall c, has_conf (c_nodes cx') c -> good c \/ has_conf (c_nodes cx) c.
Lemma with_conf_trans al al' a b c g : with_conf al a b g -> with_conf al' b c g -> with_conf (al ++ al') a c g.
Proof. intros (A1 & A2 & A3) (B1 & B2 & B3). split; [intros al0 H; rewrite app_assoc; auto|]. split; [congruence|]. intros x Hx. apply B3 in Hx as [|Hx]; auto. Qed.
Lemma confs_with cx cx' cs good : confs_from cx cx' cs -> Forall good cs -> cx' = set_nodes cx (c_nodes cx') -> with_conf [] cx cx' good.
Proof. intros H HG E. split; [intros al0 HA; rewrite app_nil_r; apply (has_annots_eq cx); auto; rewrite E; reflexivity|]. split; [rewrite E; reflexivity|]. intros c Hc. apply H in Hc as [Hc|Hc]; auto. rewrite Forall_forall in HG. auto. Qed.
Lemma annots_skip fuel l n ls al : annots_read fuel ((l, n) :: ls) al -> (forall u, l <> L "annotate=" ++ u) -> annots_read fuel ls al.
Proof.
  intros H HN. remember ((l, n) :: ls) as L0 eqn:EL. destruct H as [|l0 n0 ls0 al0 H1 H2|l0 n0 a ls0 al0 (b & u & E & _) HF H1]; [discriminate| |]; injection EL as -> -> ->; auto.
  destruct (HN _ E).
Qed.
Lemma annots_first fuel u n ls al : annots_read fuel ((L "annotate=" ++ u, n) :: ls) al ->
  exists a al1 b u1, al = a :: al1 /\ u = fst a ++ b ++ ":"%char :: u1 /\ name (fst a) /\ blanks b /\ annot_body u1 (snd a) /\ List.length (snd a) + 2 <= fuel /\ annots_read fuel ls al1.
Proof.
  intros H. remember ((L "annotate=" ++ u, n) :: ls) as L0 eqn:EL. destruct H as [|l0 n0 ls0 al0 H1 H2|l0 n0 a ls0 al0 (b & u1 & E & H1 & H2 & H3) HF H4]; [discriminate| |]; injection EL as E1 -> ->; [destruct (H1 _ E1)|].
  rewrite E1 in E. apply (app_inv_head (L "annotate=")) in E. exists a, al0, b, u1. auto 8.
Qed.
Lemma split_eq (c : ascii) : forall a b x y, ~ In c a -> ~ In c b -> a ++ c :: x = b ++ c :: y -> a = b.
Proof.
  induction a as [|d a IH]; intros [|d' b] x y Ha Hb E; cbn [app] in E; auto; injection E as <- E; [destruct Hb; left; auto|destruct Ha; left; auto|].
  f_equal. apply (IH b x y); auto; intros H; [apply Ha|apply Hb]; right; auto.
Qed.
Lemma idle_not_annot ty u : ~ In "="%char ty -> ~ In ty (map L ["prefix"; "extendprefix"; "rule"; "type"; "annotate"; "include"]%string) -> forall v, ty ++ "="%char :: u <> L "annotate=" ++ v.
Proof.
  intros H1 H2 v E. change (L "annotate=" ++ v) with (L "annotate" ++ "="%char :: v) in E. apply split_eq in E; auto.
  - subst ty. apply H2. cbn [map In]. tauto.
  - intros H. cbn in H. repeat (destruct H as [H|H]; [discriminate|]). exact H.
Qed.
Section Lines.
Variable load : ctx -> text -> er (ctx * bool).
Variable afuel : nat.
Variable good : json -> Prop.
Hypothesis HG : forall c, good c -> complete e [] c.
Lemma process_total file : forall p ls k rs, reads_rules e good file p ls k rs -> forall al, annots_read afuel ls al -> forall cx k0 rs0, built e k0 rs0 cx -> k0 + k <= 255 -> c_types cx = [] -> c_file cx = file -> c_prefix cx = p ->
  exists cx', process e load afuel cx ls = EOk (cx', true) /\ with_conf al cx cx' good.
Proof.
  assert (HO : forall k rs cx cx', built e k rs cx -> c_nodes cx' = c_nodes cx -> c_root cx' = c_root cx -> c_types cx' = c_types cx -> built e k rs cx') by (intros; eapply built_other; eauto).
  assert (HI0 : forall c, with_conf [] c c good) by (intros; split; [intros al0 HA0; rewrite app_nil_r; exact HA0|split; auto]).
  induction 1 as [p|p tags r cs n ls k rs HT Hr HC HF H IH|p tags r cs n ls k rs HT Hr HC HF H IH|p t n ls k rs H IH|p t n ls k rs H IH|p l n ls k rs HI H IH];
    intros al HA cx k0 rs0 HB HK HTy HFi HP; cbn [process]; try (assert (HA' : annots_read afuel ls al) by (eapply annots_skip; [exact HA|intros u0; discriminate])).
  - inversion HA; subst. eauto.
  - assert (HF' := Forall_impl _ HG HF). set (cx1 := set_pos cx (c_file cx) n). rewrite proc_rule by auto. change (c_prefix cx1) with (c_prefix cx). rewrite HP.
    assert (HB1 : built e k0 rs0 cx1) by (eapply HO; eauto). destruct (built_exact e k0 rs0 cx1 HB1 ltac:(lia)) as (T & HS & _ & _).
    assert (HN : Forall (nflat e cx1) cs). { unfold nflat. change (c_types cx1) with (c_types cx). rewrite HTy. exact HF'. }
    destruct (rule_added e cx1 (in_force p ++ r) cs (c_root cx1) (tag_list tags) k0 T ltac:(left; reflexivity) ltac:(lia) HS HC HN) as (cx2 & ps0 & EA & _ & _ & E2 & _).
    pose proof (rule_added_confs e cx1 (in_force p ++ r) cs (c_root cx1) (tag_list tags) k0 cx2 T ltac:(left; reflexivity) ltac:(lia) HS HC HN EA) as HW.
    rewrite EA. cbn [ebind].
    destruct (IH al HA' cx2 (S k0) (rs0 ++ [(None, cs, (tag_list tags, Some (c_file cx1), c_line cx1))])) as (cx3 & E3 & W3); try (rewrite E2; auto; fail); [|lia|].
    + eapply (built_rule e k0 rs0 cx1 (in_force p ++ r) cs None); [eapply HO; eauto|reflexivity|exact HC| |exact EA]. change (c_types cx1) with (c_types cx). rewrite HTy. exact HF'.
    + exists cx3. split; [exact E3|]. eapply (with_conf_trans []); [|exact W3]. exact (confs_with cx1 cx2 cs good HW HF E2).
  - assert (HF' := Forall_impl _ HG HF). set (cx1 := set_pos cx (c_file cx) n). rewrite proc_rule by auto. change (c_prefix cx1) with (c_prefix cx). rewrite HP.
    assert (HB1 : built e k0 rs0 cx1) by (eapply HO; eauto). destruct (built_exact e k0 rs0 cx1 HB1 ltac:(lia)) as (T & HS & _ & _).
    assert (HN : Forall (nflat e cx1) cs). { unfold nflat. change (c_types cx1) with (c_types cx). rewrite HTy. exact HF'. }
    assert (HBr : broken_rule e (c_types cx1) (in_force p ++ r) cs) by (apply faulty_broken; change (c_types cx1) with (c_types cx); rewrite HTy; auto).
    destruct (rule_rejected e cx1 (in_force p ++ r) cs (c_root cx1) (tag_list tags) k0 T ltac:(left; reflexivity) ltac:(lia) HS HBr HN) as (cx2 & EA & _ & _ & E2 & _).
    pose proof (rule_rejected_confs e cx1 (in_force p ++ r) cs (c_root cx1) (tag_list tags) k0 cx2 T ltac:(left; reflexivity) ltac:(lia) HS HBr HN EA) as HW.
    rewrite EA. cbn [ebind].
    destruct (IH al HA' cx2 (S k0) rs0) as (cx3 & E3 & W3); try (rewrite E2; auto; fail); [|lia|].
    + eapply (built_error e k0 rs0 cx1 (in_force p ++ r) cs None); [eapply HO; eauto|reflexivity| | |exact EA]; change (c_types cx1) with (c_types cx); rewrite HTy; auto.
    + exists cx3. split; [exact E3|]. eapply (with_conf_trans []); [|exact W3]. exact (confs_with cx1 cx2 cs good HW HF E2).
  - rewrite proc_prefix. cbn [ebind]. destruct (IH al HA' (set_prefix (set_pos cx (c_file cx) n) (Some t)) k0 rs0) as (cx3 & E3 & W3); try reflexivity; auto; [eapply HO; eauto; reflexivity|]. exists cx3. split; [exact E3|exact W3].
  - rewrite (proc_extend e load afuel _ p) by exact HP. cbn [ebind].
    destruct (IH al HA' (set_prefix (set_pos cx (c_file cx) n) (Some (p ++ t))) k0 rs0) as (cx3 & E3 & W3); try reflexivity; auto; [eapply HO; eauto; reflexivity|]. exists cx3. split; [exact E3|exact W3].
  - destruct HI as [(u & ->)|HI].
    + apply annots_first in HA as (a & al1 & b & u1 & -> & -> & H1 & H2 & H3 & HF & HA1).
      rewrite proc_annot, annotate_line by auto. cbn [ebind]. set (cx1 := set_annots _ _).
      destruct (IH al1 HA1 cx1 k0 rs0) as (cx3 & E3 & W3); auto; [eapply HO; eauto; reflexivity|]. exists cx3. split; [exact E3|]. change (a :: al1) with ([a] ++ al1). eapply with_conf_trans; [|exact W3].
      split; [intros al0 HA0; unfold cx1; apply has_add; apply (has_annots_eq cx); auto|]. split; auto.
    + assert (EP : processSamp e load afuel (set_pos cx (c_file cx) n) l = EOk (set_pos cx (c_file cx) n, true) /\ forall u, l <> L "annotate=" ++ u).
      { destruct HI as [(ty & u & -> & H1 & H2)|(u & ->)].
        - split; [apply proc_unknown; auto|apply idle_not_annot; auto].
        - split; [|discriminate]. unfold processSamp, getLineType. cbn [scan]. change (ceq "=" "=") with true. cbn [negb firstn]. reflexivity. }
      destruct EP as [EP HN]. rewrite EP. cbn [ebind]. apply annots_skip in HA; auto. destruct (IH al HA (set_pos cx (c_file cx) n) k0 rs0) as (cx3 & E3 & W3); auto; [eapply HO; eauto; reflexivity|]. exists cx3. split; [exact E3|exact W3].
Qed.
End Lines.

Lemma built_data k rs cx : built e k rs cx -> k <= 255 -> all_data (c_nodes cx).
Proof.
  intros HB HK. destruct (built_exact e k rs cx HB HK) as (T & _). intros i n p Hn Hp HL. pose proof (t_flat _ _ T _ _ _ Hn Hp) as HF.
  unfold flat_field in HF. destruct (newParser _ _ _ _) as [[c0 [p0|]]|]; try discriminate. destruct (p_kind p) as [m| |] eqn:EK; unfold is_lit in HL; rewrite EK in HL; try (vm_compute in HL; discriminate HL).
  destruct m; try (vm_compute in HL; discriminate HL); eauto. destruct (p_kind p0) as [m0| |]; try discriminate. destruct m0; discriminate.
Qed.

(** the outcome of loading a string or a file *)
Lemma ready_pos k rs c c' : ready e q k rs c -> eqpos c' c -> ready e q k rs c'.
Proof.
  intros [HB|(c0 & HB & HO)] E; [left; eapply built_other; [exact HB|rewrite E; reflexivity|rewrite E; reflexivity|rewrite E; reflexivity]|].
  right. exists (set_pos c0 (c_file c0) (c_line c')). split; [eapply built_other; [exact HB|reflexivity|reflexivity|reflexivity]|].
  unfold optimize in *. cbn [c_nodes c_types c_root set_pos]. destruct (optimize_all q (c_nodes c0) _) as [h|]; [|discriminate]. cbn [ebind] in *. injection HO as <-. rewrite E. reflexivity.
Qed.
Section Good.
Variable good : json -> Prop.
Hypothesis HG : forall c, good c -> complete e [] c.
Lemma load_ready load afuel fuel isfile c t ls k rs r : rulebase isfile t (c_line c) ls -> (c_line c < 2 ^ 32)%N -> no_eof e isfile t -> List.length t < fuel ->
  reads_rules e good (c_file c) None ls k rs -> built e 0 [] c -> c_types c = [] -> c_prefix c = None ->
  (do* (cx, ok) := load_lines e load afuel fuel isfile c t in if negb ok then EOk (cx, false) else do* cx := optimize q cx in EOk (cx, true)) = EOk (r, true) ->
  ready e q k rs r /\ c_types r = [].
Proof.
  intros H1 H2 H3 H4 H5 H6 H7 H8 HE. pose proof (load_lines_process e load afuel isfile t ls c fuel H1 H2 H3 H4) as HP.
  pose proof (process_built e load afuel good HG (c_file c) None ls k rs H5 c 0 [] H6 H7 eq_refl H8) as HB.
  destruct (load_lines e load afuel fuel isfile c t) as [[c1 ok]|]; [|discriminate]. destruct (process e load afuel c ls) as [[c2 ok2]|]; [|destruct HP]. destruct HP as [HP1 HP2]. cbn in HP1, HP2, HE, HB. subst ok2.
  destruct ok; cbn in HE; [|discriminate]. destruct (HB eq_refl) as (c3 & HB3 & <- & HT).
  pose proof (optimize_nodes q c1) as HN. destruct (optimize q c1) as [c4|] eqn:EO; [|discriminate]. cbn in HE, HN. injection HE as <-.
  split; [|rewrite HN, HP1; exact HT]. right. exists c1. split; [|exact EO]. eapply built_other; [exact HB3| | |]; rewrite HP1; reflexivity.
Qed.
(** the kinds of the fields of the loaded graph *)
Definition good_kinds (cx : ctx) : Prop :=
  forall i n p, live (c_nodes cx) i n -> In p (n_parsers n) -> (exists t, p_kind p = KSimple (MLiteral t)) \/ exists c, good c /\ flat_field e [] c = Some (p_kind p, p_name p).
Lemma load_succeeds load afuel fuel isfile c t ls k rs al : permutes q -> rulebase isfile t (c_line c) ls -> (c_line c < 2 ^ 32)%N -> no_eof e isfile t -> List.length t < fuel ->
  reads_rules e good (c_file c) None ls k rs -> annots_read afuel ls al -> has_annots c [] -> k <= 255 -> built e 0 [] c -> (forall x, ~ has_conf (c_nodes c) x) -> c_types c = [] -> c_prefix c = None ->
  exists r, (do* (cx, ok) := load_lines e load afuel fuel isfile c t in if negb ok then EOk (cx, false) else do* cx := optimize q cx in EOk (cx, true)) = EOk (r, true) /\
    has_annots r al /\ c_opts r = c_opts c /\ good_kinds r.
Proof.
  intros HQ H1 H2 H3 H4 H5 HA HA0 HK H6 H6' H7 H8. pose proof (load_lines_process e load afuel isfile t ls c fuel H1 H2 H3 H4) as HP.
  destruct (process_total load afuel good HG (c_file c) None ls k rs H5 al HA c 0 [] H6 HK H7 eq_refl H8) as (c2 & E2 & W1 & W2 & W3).
  pose proof (process_built e load afuel good HG (c_file c) None ls k rs H5 c 0 [] H6 H7 eq_refl H8) as HB. rewrite E2 in HP, HB. cbn in HB. destruct (HB eq_refl) as (c3 & HB3 & <- & HT).
  destruct (load_lines e load afuel fuel isfile c t) as [[c1 ok]|]; [|destruct HP]. destruct HP as [HP1 HP2]. cbn in HP1, HP2. subst ok. cbn.
  assert (HB1 : built e k rs c1) by (eapply built_other; [exact HB3| | |]; rewrite HP1; reflexivity).
  assert (HM : msafe c1) by (eapply built_msafe; eauto).
  destruct (optimize_total q HQ c1) as [r Hr]; [auto|eapply built_data; eauto|]. rewrite Hr. cbn. exists r. split; auto.
  pose proof (optimize_nodes q c1) as HN. rewrite Hr in HN. cbn in HN. split; [apply (has_annots_eq c2); [rewrite HN, HP1; reflexivity|exact (W1 [] HA0)]|]. split; [rewrite HN, HP1; exact W2|].
  destruct HM as (G & rk & HGi). pose proof (optimize_ok q HQ False 0%Z c1 G rk HGi (fun f : False => match f with end)) as HP. rewrite Hr in HP. destruct HP as (_ & _ & _ & HO & _).
  pose proof (o_kinds _ _ _ HO (fun p => (exists t, p_kind p = KSimple (MLiteral t)) \/ exists c, good c /\ flat_field e [] c = Some (p_kind p, p_name p))) as HK2.
  intros i n p Hn Hp. refine (HK2 _ _ i n p Hn Hp); [intros t0 p0 E0; left; eauto|].
  intros j m p' Hm Hp'. right. destruct (built_exact e k rs c1 HB1 HK) as (T & _). pose proof (t_flat _ _ T _ _ _ Hm Hp') as HF. replace (c_types c1) with (@nil (text * nat)) in HF by (rewrite HP1; symmetry; exact HT).
  exists (p_conf p'). split; auto. destruct (W3 (p_conf p')) as [Hg|Hg]; [|exact Hg|destruct (H6' _ Hg)]. exists j, m, p'. split; auto. rewrite HP1 in Hm. exact Hm.
Qed.
Lemma built_fresh c o : c_nodes c = c_nodes (initCtx o) -> c_root c = 0 -> c_types c = [] -> built e 0 [] c.
Proof. intros. eapply (built_other e 0 [] (initCtx o)); [constructor|auto|auto|auto]. Qed.
Lemma fresh_confs o x : ~ has_conf (c_nodes (initCtx o)) x.
Proof. intros ([|i] & n & p & Hn & Hp & _); [injection Hn as <-; destruct Hp|destruct i; discriminate]. Qed.
Lemma loadString_ready fuel o t ls k rs cx : ~ In NUL t -> rulebase false t 0 ls -> no_eof e false t -> reads_rules e good (L "--NO-FILE--") None ls k rs ->
  loadString e q fuel (initCtx o) t = EOk (cx, true) -> ready e q k rs cx /\ c_types cx = [].
Proof.
  intros H1 H2 H3 H4 HE. unfold loadString in HE. rewrite cstr_nonul in HE by auto. eapply load_ready; [| | | | | | | |exact HE]; try reflexivity; eauto. apply (built_fresh _ o); reflexivity.
Qed.
Lemma loadString_succeeds fuel o t ls k rs al : permutes q -> ~ In NUL t -> rulebase false t 0 ls -> no_eof e false t -> reads_rules e good (L "--NO-FILE--") None ls k rs -> annots_read fuel ls al -> k <= 255 ->
  exists cx, loadString e q fuel (initCtx o) t = EOk (cx, true) /\ has_annots cx al /\ c_opts cx = o /\ good_kinds cx.
Proof.
  intros HQ H1 H2 H3 H4 HA HK. unfold loadString. rewrite cstr_nonul by auto.
  eapply load_succeeds; eauto; try reflexivity; try (apply has_none; reflexivity); [apply (built_fresh _ o); reflexivity|apply (fresh_confs o)].
Qed.
Lemma loadFile_ready fuel o f t ls k rs cx : files e f = Some (version2 ++ t) -> rulebase true t 1 ls -> reads_rules e good f None ls k rs ->
  loadFile e q (S fuel) (initCtx o) f = EOk (cx, true) -> ready e q k rs cx /\ c_types cx = [].
Proof.
  intros HF H2 H4. unfold loadFile. cbn [loadSamples]. rewrite HF. change (version2 ++ t) with ("v"%char :: skipn 1 (version2 ++ t)) at 1. cbn iota. change ("v"%char :: skipn 1 (version2 ++ t)) with (version2 ++ t).
  rewrite text_eqb_version. cbn [negb]. cbn iota. change (c_version (set_pos (initCtx o) f 0)) with 0%N. change (N.eqb 0 0) with true. cbn [negb andb]. cbn iota. change (Nat.eqb 1 1) with true. cbn iota.
  intros HE. eapply load_ready; [| | | | | | | |exact HE]; try reflexivity; eauto; [intros ? ?; reflexivity|rewrite app_length; cbn; lia|apply (built_fresh _ o); reflexivity].
Qed.
Lemma loadFile_succeeds fuel o f t ls k rs al : permutes q -> files e f = Some (version2 ++ t) -> rulebase true t 1 ls -> reads_rules e good f None ls k rs -> annots_read fuel ls al -> k <= 255 ->
  exists cx, loadFile e q (S fuel) (initCtx o) f = EOk (cx, true) /\ has_annots cx al /\ c_opts cx = o /\ good_kinds cx.
Proof.
  intros HQ HF H2 H4 HA HK. unfold loadFile. cbn [loadSamples]. rewrite HF. change (version2 ++ t) with ("v"%char :: skipn 1 (version2 ++ t)) at 1. cbn iota. change ("v"%char :: skipn 1 (version2 ++ t)) with (version2 ++ t).
  rewrite text_eqb_version. cbn [negb]. cbn iota. change (c_version (set_pos (initCtx o) f 0)) with 0%N. change (N.eqb 0 0) with true. cbn [negb andb]. cbn iota. change (Nat.eqb 1 1) with true. cbn iota.
  eapply load_succeeds; eauto; try reflexivity; try (apply has_none; reflexivity); [intros ? ?; reflexivity|rewrite app_length; cbn; lia|apply (built_fresh _ o); reflexivity|apply (fresh_confs o)].
Qed.
End Good.
End Top.
