(** * ManyTotal: rulebases with many rules and user-defined types always answer. *)
From Verif Require Import Base Time Parsers Engine Pdag Samp EngineSpec EngineSpec2 GraphSpec RuleSpec BuiltSpec LineSpec SimSpec LoadSpec SafetySpec EngineWf OneSpec ManySpec BaseFacts FieldFacts EngineFacts EngineFacts2 HeapFacts FrameFacts SimFacts BuildFacts BuildFacts2 BuildFacts3 RuleFacts TreeFacts TreeFacts2 ConfFacts BuiltFacts OptSem OptFacts OptTotal LoadFacts LineFacts LoadText LoadTop OneFacts EngineTotal EngineTotal2 History ManyFacts ManyTop.
From Verif Require Prop_Rules.
From Coq Require Import ZifyBool ZifyNat ZifyN Permutation.

(** ** Every branch ends at a rule *)
Definition leads (h : list (option node)) (i : nat) : Prop := exists ps b n, path h i ps b /\ live h b n /\ n_term n = true.
Definition all_lead (h : list (option node)) : Prop := forall i n p, live h i n -> In p (n_parsers n) -> leads h (p_child p).
Section Built.
Variable e : env.
Lemma path_keeps cx cx' : keeps cx cx' -> forall i ps b, path (c_nodes cx) i ps b -> path (c_nodes cx') i ps b.
Proof.
  intros K i ps b H. induction H as [|i n p ps j Hi Hp H IH]; [constructor|]. destruct (k_live _ _ K _ _ Hi) as (n' & Hn' & _ & _ & _ & _ & ex & E). econstructor; [exact Hn'|rewrite E; apply in_or_app; auto|exact IH].
Qed.
Lemma chain_leads : forall cx d cs en cx', chain e cx d cs en cx' -> tidy e cx -> forall i n p, live (c_nodes cx') i n -> In p (n_parsers n) ->
  (exists n0, live (c_nodes cx) i n0 /\ In p (n_parsers n0)) \/ exists ps, path (c_nodes cx') (p_child p) ps en.
Proof.
  intros cx d cs en cx' H. induction H as [cx d|cx d conf cs cx1 c en cx2 HS HC IH]; intros T i n p Hi Hp; [eauto|].
  assert (T1 : tidy e cx1) by (destruct HS as [[-> _]|HM]; auto; eapply made_tidy; eauto).
  destruct (IH T1 _ _ _ Hi Hp) as [(n1 & H1 & P1)|]; auto. destruct HS as [[-> _]|HM]; [eauto|]. apply made_live in HM as (n0 & q & Hd & Hq & Hc & Ec & HL).
  apply HL in H1 as [[-> ->]|[[_ H1]|[-> ->]]]; [|eauto|destruct P1]. cbn [set_parsers n_parsers] in P1. apply in_app_or in P1 as [P1|[<-|[]]]; [left; eauto|]. right. rewrite Hc.
  destruct (chain_ok e _ _ _ _ _ HC T1) as (_ & _ & ps & HP & _). eauto.
Qed.
Lemma built_len k rs cx : built e k rs cx -> List.length rs <= k.
Proof. induction 1; cbn; try lia. rewrite app_length. cbn. lia. Qed.
Lemma built_leads k rs cx : built e k rs cx -> k <= 255 -> List.length rs = k ->
  all_lead (c_nodes cx) /\ forall c, has_conf (c_nodes cx) c -> exists key cs inf, In (key, cs, inf) rs /\ In c cs.
Proof.
  intros HB. induction HB as [o|k rs cx t cs key r tags cx' HB IH Hr HC HF E|k rs cx t cs key r tags cx' HB IH Hr HC HF E|k rs cx nm HB IH Hr|k rs cx cx' HB IH E1 E2 E3]; intros HK HL.
  - split; [intros [|i] n p Hi Hp; [injection Hi as <-; destruct Hp|destruct i; discriminate]|]. intros c ([|i] & n & p & Hi & Hp & _); [injection Hi as <-; destruct Hp|destruct i; discriminate].
  - rewrite app_length in HL. cbn in HL. destruct IH as [IH1 IH2]; [lia|lia|]. destruct (built_exact e k rs cx HB) as (T & HS & _); [lia|]. pose proof (root_owner _ _ _ Hr) as Ho.
    assert (HK2 : k < 255) by lia.
    split; [|intros c Hc; apply (rule_added_confs e cx t cs r tags k cx' T Ho HK2 HS HC HF E) in Hc as [Hc|Hc]; [exists key, cs; eexists; split; [apply in_or_app; right; left; reflexivity|auto]|]; apply IH2 in Hc as (key' & cs' & inf & A & B); exists key', cs', inf; split; auto; apply in_or_app; auto].
    destruct (t_dang _ _ T r) as [n Hn]; [apply in_or_app; auto|]. destruct (chain_exists e cs cx r n k T Hn HK2 HS HF) as (en & cx1 & EA & HCh & _).
    destruct (chain_ok e _ _ _ _ _ HCh T) as (T1 & KP & _). unfold addSampToTree in E. rewrite (add_rule_confs e t cs HC) in E by lia. rewrite EA in E. cbn [ebind] in E. destruct (get_node (c_nodes cx1) en) as [m|] eqn:EG; [|discriminate]. cbn [ebind] in E. injection E as <-. apply get_node_live in EG.
    rewrite nodes_set. set (f := set_terminal tags (c_file cx1) (c_line cx1)). assert (Hf : forall n, n_parsers (f n) = n_parsers n) by reflexivity.
    assert (HU : forall i, leads (c_nodes cx1) i -> leads (upd_node (c_nodes cx1) en f) i).
    { intros i (ps & b & nb & P & B & Tb). exists ps, b. destruct (Nat.eq_dec b en) as [->|Hne]; [exists (f nb)|exists nb]; (split; [apply path_upd_quiet; auto|]); [split; [apply live_upd_same; auto|reflexivity]|split; [apply live_upd_other; auto|auto]]. }
    intros i k0 p Hi Hp. assert (HX : exists k1, live (c_nodes cx1) i k1 /\ In p (n_parsers k1)) by (apply live_upd in Hi as [[_ Hi]|[-> (n0 & Hi & ->)]]; [eauto|exists n0; auto]). destruct HX as (k1 & Hi1 & Hp1).
    destruct (chain_leads _ _ _ _ _ HCh T _ _ _ Hi1 Hp1) as [(n0 & A & B)|[ps HP]].
    + apply HU. destruct (IH1 _ _ _ A B) as (ps & b & nb & P & B1 & Tb). destruct (k_live _ _ KP _ _ B1) as (nb' & A1 & A2 & _). exists ps, b, nb'. split; [eapply path_keeps; eauto|]. split; auto. congruence.
    + exists ps, en, (f m). split; [apply path_upd_quiet; auto|]. split; [apply live_upd_same; auto|reflexivity].
  - apply built_len in HB. lia.
  - destruct IH as [IH1 IH2]; [lia|auto|]. change (set_types (fst (newPDAG cx)) (c_types cx ++ [(nm, snd (newPDAG cx))])) with (add_type cx nm). change (c_nodes (add_type cx nm)) with (c_nodes cx ++ [Some new_node]).
    assert (HL2 : forall i, leads (c_nodes cx) i -> leads (c_nodes cx ++ [Some new_node]) i). { intros i (ps & b & n & A & B & C). exists ps, b, n. split; [apply path_app_heap; auto|]. split; auto. apply live_app. auto. }
    split; [intros i n p Hi Hp; apply live_app in Hi as [Hi|[_ [= <-]]]; [apply HL2; eauto|destruct Hp]|].
    intros c (i & n & p & Hi & Hp & Ec). apply live_app in Hi as [Hi|[_ [= <-]]]; [|destruct Hp]. apply IH2. exists i, n, p. auto.
  - destruct IH as [IH1 IH2]; [lia|auto|]. rewrite E1. auto.
Qed.
End Built.

(** ** Ranks *)
Lemma atoms_split ti nm : forall ls a b, atoms ls = a ++ AField (KCustom ti) nm :: b -> exists l1 l2, ls = l1 ++ (KCustom ti, nm) :: l2 /\ atoms l1 = a.
Proof.
  induction ls as [|l ls IH]; intros a b H; [destruct a; discriminate|]. cbn [atoms flat_map] in H. fold (atoms ls) in H.
  assert (HO : forall x, atoms_of l = [x] -> x :: atoms ls = a ++ AField (KCustom ti) nm :: b -> exists l1 l2, l :: ls = l1 ++ (KCustom ti, nm) :: l2 /\ atoms l1 = a).
  { intros x Hx HE. destruct a as [|y a]; cbn in HE; injection HE as Ex HE.
    - exists [], ls. split; auto. subst x. destruct l as [[m| |ti'] nm']; cbn in Hx; try discriminate; [|injection Hx as -> ->; reflexivity].
      destruct m; try discriminate. destruct nm'; try discriminate. destruct lit as [|? [|? ?]]; discriminate.
    - apply IH in HE as (l1 & l2 & -> & <-). exists (l :: l1), l2. split; auto. cbn [atoms flat_map]. rewrite Hx. cbn. subst x. reflexivity. }
  destruct l as [[m|pn wn b0|ti'] nm']; [|eapply HO; [reflexivity|exact H]|eapply HO; [reflexivity|exact H]].
  assert (HM : atoms_of (KSimple m, nm') = [AField (KSimple m) nm'] \/ exists t, atoms_of (KSimple m, nm') = map AChar t).
  { destruct m; auto. destruct nm'; auto. right. eexists. reflexivity. }
  destruct HM as [HM|[t HM]]; [eapply HO; [exact HM|]; rewrite HM in H; exact H|]. rewrite HM in H.
  assert (HA : exists a', a = map AChar t ++ a' /\ atoms ls = a' ++ AField (KCustom ti) nm :: b).
  { clear - H. revert a H. induction t as [|c t IHt]; intros a H; [exists a; auto|]. cbn in H. destruct a as [|x a]; cbn in H; [discriminate|]. injection H as <- H. apply IHt in H as (a' & -> & HE). exists a'. auto. }
  destruct HA as (a' & -> & HE). apply IH in HE as (l1 & l2 & -> & <-). exists ((KSimple m, nm') :: l1), l2. split; auto. cbn [atoms flat_map]. rewrite HM. reflexivity.
Qed.
Definition eat_atom (a : atom) : Prop := match a with AChar c => c <> NUL | AField (KSimple m) _ => consuming m = true | _ => False end.
Lemma eat_in m nm : consuming m = true -> exists a, In a (atoms_of (KSimple m, nm)) /\ eat_atom a.
Proof.
  intros H. assert (HO : forall m', consuming m' = true -> eat_atom (AField (KSimple m') nm)) by auto.
  destruct m; try (eexists; split; [left; reflexivity|apply HO; exact H]). destruct nm as [nm|]; [eexists; split; [left; reflexivity|apply HO; exact H]|].
  cbn in H |- *. destruct lit as [|c t]; [discriminate|]. exists (AChar c). split; [left; reflexivity|]. cbn. intros ->. cbn in H. discriminate.
Qed.

Section Rank.
Variables (cx : ctx) (rules : list mrule) (R : text -> nat) (D : nat -> nat).
Notation ts := (c_types cx).
Notation h := (c_nodes cx).
Hypothesis HD : forall i n p, live h i n -> In p (n_parsers n) -> D (p_child p) < D i.
Hypothesis Hch : forall i n p, live h i n -> In p (n_parsers n) -> exists m, live h (p_child p) m.
Hypothesis HDl : forall i n, live h i n -> D i < List.length h.
Hypothesis HLead : all_lead h.
Hypothesis HP : all_prs no_repeat h.
Hypothesis HK : all_prs (fun p => match p_kind p with KSimple m => m <> MCee /\ m_ok m (named p) | KCustom ti => nth_error ts ti <> None | _ => True end) h.
Hypothesis HT : forall ti T tn, nth_error ts ti = Some (T, tn) -> (forall n, live h tn n -> n_term n = false) /\ has_rules cx rules (Some T) tn.
Hypothesis HTl : forall ti T tn, nth_error ts ti = Some (T, tn) -> exists n, live h tn n.
Hypothesis HRt : exists n, live h (c_root cx) n.
Hypothesis HR : forall T fs tags pre T' nm post, In (Some T, fs, tags) rules -> fs = pre ++ (RType T', nm) :: post ->
  R T' < R T \/ exists m nm', In (RPlain m, nm') pre /\ consuming m = true.

Definition ref (p : prs) : nat := match p_kind p with KCustom ti => match nth_error ts ti with Some (T, _) => S (R T) | None => 0 end | _ => 0 end.
Definition eatsb (p : prs) : bool := match p_kind p with KSimple m => consuming m | _ => false end.
Fixpoint lvl (fuel nd : nat) : nat :=
  match fuel with
  | 0 => 0
  | S f => match nth_error h nd with
           | Some (Some n) => list_max (map (fun p => Nat.max (ref p) (if eatsb p then 0 else lvl f (p_child p))) (n_parsers n))
           | _ => 0 end
  end.
Lemma lvl_stable : forall f f' nd n, live h nd n -> D nd < f -> D nd < f' -> lvl f nd = lvl f' nd.
Proof.
  induction f as [|f IH]; intros f' nd n Hn H H'; [lia|]. destruct f' as [|f']; [lia|]. cbn [lvl]. unfold live in Hn. rewrite Hn. f_equal. apply map_ext_in. intros p Hp.
  destruct (eatsb p); auto. f_equal. pose proof (HD _ _ _ Hn Hp). destruct (Hch _ _ _ Hn Hp) as [m Hm]. eapply IH; eauto; lia.
Qed.
Lemma list_max_in l x : In x l -> x <= list_max l.
Proof. intros H. pose proof (proj1 (list_max_le l (list_max l)) (le_n _)) as HF. rewrite Forall_forall in HF. auto. Qed.
Lemma lvl_bound K : forall f nd, (forall ps b n p, path h nd ps b -> Forall (fun p => eatsb p = false) ps -> live h b n -> In p (n_parsers n) -> ref p <= K) -> lvl f nd <= K.
Proof.
  induction f as [|f IH]; intros nd H; cbn [lvl]; [lia|]. destruct (nth_error h nd) as [[n|]|] eqn:E; try lia. apply list_max_le. apply Forall_map, Forall_forall. intros p Hp.
  apply Nat.max_lub; [eapply (H [] nd n p); eauto; constructor|]. destruct (eatsb p) eqn:EE; [lia|]. apply IH. intros ps b n' p' HPa HF Hb Hp'. apply (H (p :: ps) b n' p'); auto. econstructor; eauto.
Qed.
Lemma path_snoc ps p : forall i b n, path h i ps b -> live h b n -> In p (n_parsers n) -> path h i (ps ++ [p]) (p_child p).
Proof. induction ps as [|q ps IH]; intros i b n H Hb Hp; inversion H; subst; cbn; econstructor; eauto. constructor. Qed.
Lemma type_lvl f ti T tn : nth_error ts ti = Some (T, tn) -> lvl f tn <= R T.
Proof.
  intros Hti. apply lvl_bound. intros ps b n p HPa HF Hb Hp. unfold ref. destruct (p_kind p) as [m| |tj] eqn:EK; try lia. destruct (nth_error ts tj) as [[T' tn']|] eqn:EJ; [|lia].
  destruct (HLead _ _ _ Hb Hp) as (qs & c & nc & HQ & Hc & Ht). pose proof (path_app _ _ _ _ _ _ (path_snoc _ _ _ _ _ HPa Hb Hp) HQ) as HPP.
  destruct (HT _ _ _ Hti) as [_ HRu]. destruct (HRu _ _ _ HPP Hc Ht) as (ls & tags & Hin & HLi & HA & _).
  pose proof (lits_same ts (labels ((ps ++ [p]) ++ qs)) ls (eq_sym HA) HLi) as HLi2.
  assert (EA : atoms (labels ((ps ++ [p]) ++ qs)) = atoms (labels ps) ++ AField (KCustom tj) (p_name p) :: atoms (labels qs)).
  { unfold labels, atoms. rewrite !map_app, !flat_map_app. cbn [map flat_map]. rewrite EK. cbn [atoms_of app]. rewrite <- app_assoc. reflexivity. }
  rewrite EA in HA. apply atoms_split in HA as (l1 & l2 & -> & EL).
  assert (ES : map (rf_of ts) (l1 ++ (KCustom tj, p_name p) :: l2) = map (rf_of ts) l1 ++ (RType T', p_name p) :: map (rf_of ts) l2).
  { rewrite map_app. cbn [map]. f_equal. f_equal. unfold rf_of. cbn. rewrite EJ. reflexivity. }
  destruct (HR _ _ _ _ _ _ _ Hin ES) as [|(m & nm & Hm & HC)]; [lia|]. exfalso.
  apply in_map_iff in Hm as ([k nm1] & E1 & H1). destruct k as [m1| |]; cbn in E1; try discriminate. injection E1 as -> ->.
  destruct (eat_in m nm HC) as (a & Ha & Hea). assert (Hin2 : In a (atoms (labels ps))). { rewrite <- EL. apply in_flat_map. exists (KSimple m, nm). auto. }
  apply in_flat_map in Hin2 as (l & Hl & Hal). apply in_map_iff in Hl as (p0 & <- & Hp0). rewrite Forall_forall in HF. specialize (HF _ Hp0).
  unfold eatsb in HF. destruct (p_kind p0) as [m0| |] eqn:EK0; [|destruct Hal as [<-|[]]; exact Hea|destruct Hal as [<-|[]]; exact Hea].
  assert (HO : In a [AField (KSimple m0) (p_name p0)] -> False) by (intros [<-|[]]; cbn in Hea; congruence).
  destruct m0; try (apply HO; exact Hal). destruct (p_name p0) as [nm0|] eqn:EN0; [apply HO; exact Hal|]. cbn [atoms_of] in Hal. apply in_map_iff in Hal as (c0 & <- & Hc0).
  rewrite Forall_forall in HLi2. assert (HNo : lits_ok (fst (rf_of ts (p_kind p0, p_name p0)))). { apply HLi2. apply in_map. apply (in_map (fun p => (p_kind p, p_name p))). apply in_or_app. left. apply in_or_app. auto. }
  rewrite EK0 in HNo. cbn in HNo. cbn [consuming] in HF. destruct lit as [|c1 t]; [destruct Hc0|]. assert (c1 <> NUL) by (intros ->; apply HNo; left; auto). change zero with NUL in HF. apply ceq_false in H. rewrite H in HF. discriminate.
Qed.
Definition rkf (nd : nat) : nat := lvl (S (D nd)) nd * List.length h + D nd.
Lemma rank_ok : graph_ok2 cx rkf /\ fields_usable cx /\ exists M, forall i, valid cx i -> rkf i <= M.
Proof.
  split; [|split].
  - split; [exact HRt|]. intros i n Hi. apply Forall_forall. intros p Hp. fold (live h i n) in Hi. destruct (Hch _ _ _ Hi Hp) as [m Hm]. pose proof (HD _ _ _ Hi Hp) as HDp.
    assert (HLv : forall p, In p (n_parsers n) -> Nat.max (ref p) (if eatsb p then 0 else lvl (D i) (p_child p)) <= lvl (S (D i)) i).
    { intros p' Hp'. cbn [lvl]. unfold live in Hi. rewrite Hi. apply list_max_in. apply (in_map (fun p => Nat.max (ref p) (if eatsb p then 0 else lvl (D i) (p_child p)))). exact Hp'. }
    specialize (HLv _ Hp). specialize (HK _ _ _ Hi Hp). specialize (HP _ _ _ Hi Hp). cbv beta in HK. split; [exists m; exact Hm|]. split.
    + destruct (eatsb p) eqn:EE.
      * right. unfold eatsb in EE. destruct (p_kind p) eqn:EK; try discriminate. eapply pp_simple; eauto.
      * left. unfold rkf. rewrite (lvl_stable (S (D (p_child p))) (D i) (p_child p) m Hm) by lia. assert (lvl (D i) (p_child p) * List.length h <= lvl (S (D i)) i * List.length h) by (apply Nat.mul_le_mono_r; lia). lia.
    + destruct (p_kind p) as [mm|a b c|ti] eqn:EK; [apply HK|destruct (HP a b c); first [reflexivity|exact EK]|]. destruct (nth_error ts ti) as [[T tn]|] eqn:ET; [|congruence]. exists T, tn. split; auto.
      destruct (HTl _ _ _ ET) as [nt Hnt]. split; [exists nt; split; [exact Hnt|apply (proj1 (HT _ _ _ ET)); exact Hnt]|].
      pose proof (type_lvl (S (D tn)) ti T tn ET) as H1. assert (H2 : ref p = S (R T)) by (unfold ref; rewrite EK, ET; reflexivity). pose proof (HDl _ _ Hnt) as H3. unfold rkf.
      assert (lvl (S (D tn)) tn * List.length h <= R T * List.length h) by (apply Nat.mul_le_mono_r; lia). assert (S (R T) * List.length h <= lvl (S (D i)) i * List.length h) by (apply Nat.mul_le_mono_r; lia). lia.
  - intros p m (i & n & Hi & Hp) EK. specialize (HK _ _ _ Hi Hp). cbv beta in HK. rewrite EK in HK. apply HK.
  - exists (list_max (map rkf (seq 0 (List.length h)))). intros i [n Hn]. apply list_max_in. apply in_map. apply in_seq. assert (i < List.length h) by (apply nth_error_Some; unfold node_at in Hn; congruence). lia.
Qed.
End Rank.

Lemma made_total e q o rules r : prints_no_nul e -> permutes q -> List.length rules <= 255 -> made_many e q o rules r -> grounded rules -> sane_rules rules -> tok_ok e -> opt_rule o = false -> opt_loc o = false ->
  forall msg, harmless e msg -> exists F, forall nf, F <= nf -> forall js0, exists ok out cx', normalize nf e r msg js0 = EOk (ok, out, cx').
Proof.
  intros HE HQ HK255 HMM (R & HR) HSa Htok O1 O2 msg Hm. pose proof (made_ready e q HE HQ o rules r HK255 HMM) as [RRep RT RR RPl RA RO].
  destruct HMM as (cx & js & HM & HB & HS & HN & HA & HO & E).
  destruct (Prop_Rules.optimize_orel q cx r HQ HM E) as (OR & (G & rk & HG) & Ecx & nr & Hnr). destruct (gi_lowrank _ _ _ HG) as [HG' HBd].
  assert (Hlen : List.length js = List.length rules) by (clear - HS; induction HS; cbn; congruence).
  destruct (built_leads e _ js cx HB HK255 Hlen) as [HLd HCf]. destruct (built_exact e _ js cx HB HK255) as (T & _).
  assert (ET : c_types r = c_types cx) by (rewrite Ecx; reflexivity). assert (ER : c_root r = c_root cx) by (rewrite Ecx; reflexivity).
  assert (Hch : forall i n p, live (c_nodes r) i n -> In p (n_parsers n) -> exists m, live (c_nodes r) (p_child p) m) by (intros; eapply gi_target; eauto; left; reflexivity).
  assert (HDd : forall i n p, live (c_nodes r) i n -> In p (n_parsers n) -> lowrank (c_nodes r) rk (p_child p) < lowrank (c_nodes r) rk i).
  { intros i n p Hi Hp. destruct HG' as (_ & _ & HK'). eapply HK'; eauto. left. reflexivity. }
  assert (HLd' : all_lead (c_nodes r)).
  { intros i n p Hi Hp. destruct (Hch _ _ _ Hi Hp) as [m Hm']. destruct (o_path _ _ _ OR i n [p] (p_child p) Hi) as (ps' & HP'); [econstructor; eauto; constructor|].
    assert (HNe : ps' <> []). { intros HX. rewrite HX in HP'. pose proof (HDd _ _ _ Hi Hp) as HY. assert (EQ : i = p_child p) by (clear - HP'; inversion HP'; auto). rewrite <- EQ in HY. lia. }
    destruct ps' as [|p' ps'] using rev_ind; [congruence|]. clear IHps'. apply path_snoc_inv in HP' as (c & nc & _ & Hc & Hp' & Ech).
    destruct (HLd _ _ _ Hc Hp') as (qs & b & nb & Q1 & Q2 & Q3). rewrite Ech in Q1.
    assert (HH : hr (c_nodes cx) (p_child p) (atoms (labels qs)) (n_tags nb, n_file nb, n_line nb)) by (exists qs, b, nb; auto).
    apply (o_hr _ _ _ OR _ _ Hm') in HH as (qs' & b' & nb' & A1 & A2 & A3 & _). exists qs', b', nb'. auto. }
  assert (HK0 : all_prs (fun p => match p_kind p with KSimple m => m <> MCee /\ m_ok m (named p) | KCustom ti => nth_error (c_types r) ti <> None | _ => True end) (c_nodes r)).
  { apply (o_kinds _ _ _ OR); [intros t p ->; split; [discriminate|exact I]|]. intros i n p Hi Hp. pose proof (t_flat _ _ T _ _ _ Hi Hp) as HF.
    destruct (HCf (p_conf p)) as (key & cs & inf & Hj & Hc); [exists i, n, p; auto|]. destruct (forall2_in_r _ _ _ _ HS Hj) as ([[key0 fs] tags] & Hin & S1 & S2 & ls & S3 & S4 & _). cbn in S3, S4.
    destruct (forall2_in_l _ _ _ _ S3 Hc) as (l & Hl & HF2 & HF3). rewrite HF in HF2. injection HF2 as <-. cbn in HF3. rewrite ET.
    destruct (p_kind p) as [m| |ti] eqn:EK; auto. destruct (HSa key0 fs tags m (p_name p) Hin) as [A1 A2]; [rewrite S4; apply in_map_iff; exists (KSimple m, p_name p); auto|]. split; auto. }
  assert (HTl : forall ti ty tn, nth_error (c_types r) ti = Some (ty, tn) -> exists n, live (c_nodes r) tn n).
  { intros ti ty tn Hti. eapply gi_live; [exact HG|]. apply in_or_app. right. unfold owners. right. change tn with (snd (ty, tn)). apply in_map. eapply nth_error_In; eauto. }
  destruct (rank_ok r rules R (lowrank (c_nodes r) rk) HDd Hch HBd HLd' RRep HK0 RT HTl ltac:(rewrite ER; eauto) HR) as (GO & FU & M & HMx).
  exists (List.length msg * S M + rkf r R (lowrank (c_nodes r) rk) (c_root r) + List.length msg + 2). intros nf Hnf js0. eapply normalize_safe2; eauto.
  split; [rewrite RA; intros ? ? ? []|]. split; rewrite RO; congruence.
Qed.
