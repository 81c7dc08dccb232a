(** * AltFacts2: rulebases with alternatives. *)
From Verif Require Import Base Time Parsers Engine Pdag Samp GraphSpec RuleSpec BuiltSpec AltSpec BaseFacts EngineFacts EngineFacts2 EngineFacts3 HeapFacts DeleteFacts BuildFacts BuildFacts2 BuildFacts3 OptSem LoadFacts TreeFacts TreeFacts2 BuiltFacts RuleFacts AltFacts.
From Coq Require Import ZifyBool ZifyNat ZifyN.

Lemma wpath_ext h h' : (forall i c x, alts h i c x <-> alts h' i c x) -> forall i ss j, wpath h i ss j -> wpath h' i ss j.
Proof. intros HA i ss j H. induction H; [constructor|]. econstructor; eauto. intros x. rewrite <- HA. auto. Qed.
Lemma alts_quiet h d f : (forall n, n_parsers (f n) = n_parsers n) -> forall i c x, alts h i c x <-> alts (upd_node h d f) i c x.
Proof.
  intros Hf i c x. split.
  - intros (n & p & Hn & Hp & E). destruct (Nat.eq_dec d i) as [->|Hne]; [exists (f n), p; split; [apply live_upd_same; auto|rewrite Hf; auto]|exists n, p; split; [apply live_upd_other; auto|auto]].
  - intros (n & p & Hn & Hp & E). apply live_upd in Hn as [[_ Hn]|[<- (n0 & Hn & ->)]]; [exists n, p; auto|]. rewrite Hf in Hp. exists n0, p. auto.
Qed.
Lemma wpath_live e cx : wide e cx -> forall ss i j n, live (c_nodes cx) i n -> wpath (c_nodes cx) i ss j -> exists m, live (c_nodes cx) j m.
Proof.
  intros W ss i j n Hi H. revert n Hi. induction H; intros n Hi; eauto. destruct s as [|x s]; [congruence|]. destruct (w_child _ _ W i c x) as [m Hm]; [apply H0; left; auto|eauto].
Qed.

Definition prefix_of (pre r : arule) : Prop := exists p q, r = p ++ q /\ same_steps pre p.
Definition paths_ok (cx : ctx) (Ls : list arule) : Prop := forall ss j, wpath (c_nodes cx) (c_root cx) ss j -> exists r, In r Ls /\ prefix_of ss r.
Record akeeps (cx cx' : ctx) : Prop := {
  ak_cx : cx' = set_nodes cx (c_nodes cx');
  ak_len : List.length (c_nodes cx) <= List.length (c_nodes cx');
  ak_live : forall i n, live (c_nodes cx) i n -> exists n', live (c_nodes cx') i n' /\ n_term n' = n_term n /\ n_tags n' = n_tags n /\ n_file n' = n_file n /\ n_line n' = n_line n;
  ak_new : forall i n', live (c_nodes cx') i n' -> (exists n, live (c_nodes cx) i n) \/ (List.length (c_nodes cx) <= i /\ n_term n' = false);
  ak_wold : forall ss j, wpath (c_nodes cx) (c_root cx) ss j -> wpath (c_nodes cx') (c_root cx) ss j;
  ak_wnew : forall ss j, wpath (c_nodes cx') (c_root cx) ss j -> j < List.length (c_nodes cx) -> wpath (c_nodes cx) (c_root cx) ss j }.
Lemma akeeps_refl cx : akeeps cx cx.
Proof. constructor; auto using set_nodes_self; eauto. intros i n H. exists n. auto. Qed.
Lemma akeeps_trans a b c : akeeps a b -> akeeps b c -> akeeps a c.
Proof.
  intros A B. assert (ER : c_root b = c_root a) by (rewrite (ak_cx _ _ A); reflexivity). constructor.
  - rewrite (ak_cx _ _ B), (ak_cx _ _ A). reflexivity.
  - pose proof (ak_len _ _ A). pose proof (ak_len _ _ B). lia.
  - intros i n H. apply (ak_live _ _ A) in H as (n1 & H1 & E1 & E2 & E3 & E4). apply (ak_live _ _ B) in H1 as (n2 & H2 & F1 & F2 & F3 & F4). exists n2. repeat split; congruence.
  - intros i n' H. pose proof (ak_len _ _ A). destruct (ak_new _ _ B _ _ H) as [[n1 H1]|[H1 H2]]; [|right; split; auto; lia].
    destruct (ak_new _ _ A _ _ H1) as [|[H2 H3]]; auto. right. split; auto. destruct (ak_live _ _ B _ _ H1) as (n2 & H4 & E & _). assert (n2 = n') by (eapply live_fun; eauto). congruence.
  - intros ss j H. apply (ak_wold _ _ A) in H. rewrite <- ER in *. apply (ak_wold _ _ B). exact H.
  - intros ss j H Hj. pose proof (ak_len _ _ A). apply (ak_wnew _ _ A); auto. rewrite <- ER in *. apply (ak_wnew _ _ B); auto. lia.
Qed.

Section Rule.
Variable e : env.

Lemma made_akeeps cx d s c cx' : wide e cx -> step_made e cx d s c cx' -> akeeps cx cx'.
Proof.
  intros W HM. destruct (w_root _ _ W) as [rn Hrn]. pose proof (live_lt _ _ _ Hrn) as Hrl.
  pose proof HM as (n & added & Hd & (Ec & Ecx & k & HL) & HG & HS & HN & HLen). pose proof (live_lt _ _ _ Hd) as Hdl. constructor.
  - exact Ecx.
  - assert (Hc : live (c_nodes cx') c (set_refcnt new_node k)) by (apply HL; auto). apply live_lt in Hc. lia.
  - intros i m Hm. destruct (Nat.eq_dec i d) as [->|Hne]; [|exists m; split; [apply HL; auto|auto]]. assert (m = n) by (eapply live_fun; eauto). subst m. eexists. split; [apply HL; left; auto|auto].
  - intros i m Hm. apply HL in Hm as [[-> ->]|[[_ Hm]|[-> ->]]]; [left; eauto|left; eauto|right; split; [lia|reflexivity]].
  - intros ss j H. eapply made_wpath_old; eauto.
  - intros ss j H Hj. destruct (made_wpath_new e cx d s c cx' W HM ss _ _ H Hrl) as [[_ HP]|(-> & _)]; [auto|lia].
Qed.

Variable Ls : list arule.
Hypothesis HC : forall r1 r2, In r1 Ls -> In r2 Ls -> compatible r1 r2.
Variables K w : nat.
Hypothesis HKw : K + w <= 255.

Definition asmall (cx : ctx) (k : nat) : Prop := forall i n, live (c_nodes cx) i n -> List.length (n_parsers n) <= k.
Definition fits (cx : ctx) (d : nat) : Prop := asmall cx (K + w) /\ (asmall cx K \/ forall n, live (c_nodes cx) d n -> n_parsers n = []).
Record St (cx : ctx) (pre : arule) (d : nat) : Prop := {
  s_wide : wide e cx;
  s_paths : paths_ok cx Ls;
  s_at : wpath (c_nodes cx) (c_root cx) pre d;
  s_fits : fits cx d }.

Lemma decide cx pre d s post : St cx pre d -> In (pre ++ s :: post) Ls -> s <> [] ->
  (exists c, forall x, In x s <-> alts (c_nodes cx) d c x) \/ (forall x c', In x s -> ~ alts (c_nodes cx) d c' x).
Proof.
  intros [W HP HA _] Hin Hs. destruct (w_root _ _ W) as [rn Hrn]. destruct (wpath_live e cx W _ _ _ _ Hrn HA) as [n Hn].
  assert (Dec : (exists p, In p (n_parsers n) /\ In (p_conf p) s) \/ forall p, In p (n_parsers n) -> ~ In (p_conf p) s).
  { destruct (Exists_dec (fun p => In (p_conf p) s) (n_parsers n)) as [H|H]; [intros p; apply in_dec; apply json_dec|left; apply Exists_exists in H; auto|].
    right. intros p Hp Hx. apply H. apply Exists_exists. eauto. }
  destruct Dec as [(p & Hp & Hx)|HNo].
  - left. exists (p_child p).
    assert (HPp : path (c_nodes cx) d [p] (p_child p)) by (econstructor; eauto; constructor).
    apply path_wpath in HPp as (g & Hg & HF). inversion HF as [|? g0 ? ? Hg0 HF']; subst. inversion HF'; subst. clear HF HF'.
    inversion Hg as [|? c ? ? ? Hg1 HgA Hg2]; subst. inversion Hg2; subst.
    destruct (HP (pre ++ [g0]) (p_child p)) as (r & Hr & p0 & q0 & -> & HPre); [eapply wpath_app; eauto|].
    apply Forall2_app_inv_l in HPre as (p1 & p2 & H1 & H2 & ->). inversion H2 as [|? g1 ? ? Hg01 H3]; subst. inversion H3; subst.
    destruct (HC _ _ Hin Hr pre s post p1 g1 q0) as [HS|HD]; auto; [rewrite <- app_assoc; reflexivity| |].
    + intros x. rewrite (HS x), <- (Hg01 x). apply HgA.
    + exfalso. apply (HD (p_conf p) Hx). apply Hg01. exact Hg0.
  - right. intros x c' Hx (n' & p & Hn' & Hp & _ & <-). assert (n' = n) by (eapply live_fun; eauto). subst n'. apply (HNo p Hp Hx).
Qed.

Lemma loop_step inner addp pn cx pre d s post : St cx pre d -> In (pre ++ s :: post) Ls -> s <> [] -> Forall (complete e []) s -> List.length s <= w ->
  exists c cx', addParsers_loop e addp inner cx Alt s (Some d) None pn = EOk (cx', Some (Some c, pn)) /\ akeeps cx cx' /\ St cx' (pre ++ [s]) c.
Proof.
  intros HS Hin Hs HF Hw. pose proof HS as [W HP HA [Hf1 Hf2]]. destruct (w_root _ _ W) as [rn Hrn]. destruct (wpath_live e cx W _ _ _ _ Hrn HA) as [n Hn].
  destruct (decide cx pre d s post HS Hin Hs) as [[c Hc]|HN].
  - assert (HK' : asmall cx K). { destruct Hf2 as [|HE]; auto. exfalso. destruct s as [|x s]; [congruence|]. destruct (proj1 (Hc x) (or_introl eq_refl)) as (n' & p & Hn' & Hp & _). rewrite (HE _ Hn') in Hp. destruct Hp. }
    assert (Hl : List.length (n_parsers n) < 255). { specialize (HK' _ _ Hn). destruct s; [congruence|cbn in Hw; lia]. }
    exists c, cx. split; [eapply alt_loop_found; eauto; intros x Hx; apply Hc; auto|]. split; [apply akeeps_refl|]. constructor; auto; [|split; auto].
    eapply wpath_app; [exact HA|]. econstructor; [exact Hs|exact Hc|constructor].
  - assert (Hl : List.length (n_parsers n) + List.length s <= 255). { destruct Hf2 as [HK'|HE]; [specialize (HK' _ _ Hn); lia|rewrite (HE _ Hn); cbn; lia]. }
    destruct (alt_loop_new e inner addp pn cx d n s W Hn Hs HF HN Hl) as (c & cx' & E & HM). exists c, cx'. split; [exact E|]. pose proof (made_akeeps _ _ _ _ _ W HM) as HKp. split; [exact HKp|].
    assert (ER : c_root cx' = c_root cx) by (rewrite (ak_cx _ _ HKp); reflexivity). pose proof (made_alts _ _ _ _ _ _ W HM) as HAl.
    pose proof HM as (n0 & added & Hd & (Ec & Ecx & k & HL) & HG & HSx & _ & HLen). assert (n0 = n) by (eapply live_fun; eauto). subst n0.
    constructor.
    + eapply made_wide; eauto.
    + intros ss j H. rewrite ER in H. destruct (made_wpath_new e cx d s c cx' W HM ss _ _ H (live_lt _ _ _ Hrn)) as [[_ H']|(-> & pre' & s' & -> & Hss & H')]; [apply (HP ss j H')|].
      exists (pre ++ s :: post). split; auto. exists (pre ++ [s]), post. split; [rewrite <- app_assoc; reflexivity|]. apply same_steps_app; [eapply wpath_unique; eauto|]. constructor; [exact Hss|constructor].
    + rewrite ER. eapply wpath_app; [eapply made_wpath_old; eauto; eapply live_lt; eauto|]. econstructor; [exact Hs| |constructor].
      intros x. rewrite HAl. split; [auto|]. intros [Hx|(_ & _ & Hx)]; auto. apply (alts_lt e) in Hx; auto. lia.
    + split.
      * intros i m Hm. apply HL in Hm as [[-> ->]|[[_ Hm]|[-> ->]]]; [cbn [set_parsers n_parsers]; rewrite app_length|eauto|cbn; lia].
        destruct Hf2 as [HK'|HE]; [specialize (HK' _ _ Hn); lia|rewrite (HE _ Hn); cbn; lia].
      * right. intros m Hm. apply HL in Hm as [[E' _]|[[_ Hm]|[_ ->]]]; [apply live_lt in Hn; lia|apply live_lt in Hm; lia|reflexivity].
Qed.
Lemma loop_one addp inner cx lx d cx' c pn : addParsers_loop e addp inner cx Alt [JObj lx] (Some d) None pn = EOk (cx', Some (Some c, pn)) ->
  addInstance e addp cx (JObj lx) (Some d) None = EOk (cx', Some c).
Proof.
  cbn [addParsers_loop]. destruct (addInstance e addp cx (JObj lx) (Some d) None) as [[cx1 [c1|]]|]; cbn [ebind]; try discriminate. intros [= -> ->]. reflexivity.
Qed.
Lemma seq_loop inner addp : forall l cx pre d post pn, St cx pre d -> In (pre ++ map (fun c => [c]) l ++ post) Ls -> Forall (complete e []) l -> (l = [] \/ 1 <= w) ->
  exists c cx' pn', addParsers_loop e addp inner cx Seq l (Some d) None pn = EOk (cx', Some (Some c, pn')) /\ akeeps cx cx' /\ St cx' (pre ++ map (fun c => [c]) l) c.
Proof.
  induction l as [|x l IH]; intros cx pre d post pn HS Hin HF Hw; cbn [addParsers_loop].
  - exists d, cx, pn. split; auto. split; [apply akeeps_refl|]. cbn. rewrite app_nil_r. auto.
  - destruct Hw as [|Hw]; [discriminate|]. apply Forall_cons_iff in HF as [Hx HF].
    assert (EJ : exists lx, x = JObj lx) by (destruct Hx as (k & nm & Hk); destruct (flat_obj _ _ _ _ _ Hk) as (lx & ? & ? & -> & _); eauto). destruct EJ as [lx ->].
    cbn [map] in Hin. destruct (loop_step inner addp None cx pre d [JObj lx] (map (fun c => [c]) l ++ post) HS) as (c & cx1 & E & HK1 & HS1); auto; [discriminate|].
    apply loop_one in E. rewrite E. cbn [ebind]. destruct (IH cx1 (pre ++ [[JObj lx]]) c post (Some c) HS1) as (c2 & cx2 & pn' & E2 & HK2 & HS2); auto; [rewrite <- app_assoc; exact Hin|].
    exists c2, cx2, pn'. split; [exact E2|]. split; [eapply akeeps_trans; eauto|]. rewrite <- app_assoc in HS2. exact HS2.
Qed.

Lemma width_le s ss : In s ss -> List.length s <= width ss.
Proof. unfold width. induction ss as [|t ss IH]; [intros []|]. cbn. intros [->|H]; [lia|specialize (IH H); lia]. Qed.

Lemma conf_added cx pre d conf ss post : St cx pre d -> steps_of e conf ss -> In (pre ++ ss ++ post) Ls -> width ss <= w ->
  exists c cx', addParser e cx d conf = EOk (cx', Some (Some c)) /\ akeeps cx cx' /\ St cx' (pre ++ ss) c.
Proof.
  intros HS Hst Hin Hw. unfold addParser. cbn [addInternal]. unfold addInternal_step. destruct Hst as [conf H|l ps H H0 H1 H2|l H].
  - destruct H as (k & nm & Hk). destruct (flat_obj _ _ _ _ _ Hk) as (lx & tv & typ & -> & HJ & HNn & HTy & HAl). rewrite HJ.
    assert (HF : Forall (complete e []) [JObj lx]) by (constructor; [exists k, nm; exact Hk|constructor]).
    assert (Hw1 : List.length [JObj lx] <= w) by (eapply Nat.le_trans; [apply (width_le [JObj lx] [[JObj lx]]); left; reflexivity|exact Hw]).
    match goal with |- context [addInstance e ?a cx (JObj lx) (Some d) None] => destruct (loop_step (fun _ _ _ _ _ => EUb OutOfFuel) a None cx pre d [JObj lx] post HS Hin ltac:(discriminate) HF Hw1) as (c & cx1 & E & HK1 & HS1) end.
    apply loop_one in E. exists c, cx1. split; [|auto]. destruct tv; try congruence; rewrite HTy; cbn [ebind]; rewrite HAl, E; reflexivity.
  - rewrite H, H0.
    assert (Hw1 : List.length ps <= w) by (eapply Nat.le_trans; [apply (width_le ps [ps]); left; reflexivity|exact Hw]).
    match goal with |- context [addParsers_loop e ?a ?i cx Alt ps (Some d) None None] => destruct (loop_step i a None cx pre d ps post HS Hin H1 H2 Hw1) as (c & cx1 & E & HK1 & HS1) end.
    exists c, cx1. split; [|auto]. change (need_str e (JStr (L "alternative"))) with (@EOk text (L "alternative")). cbn [ebind]. change (text_eqb (L "alternative") (L "alternative")) with true. cbv iota. rewrite E. reflexivity.
  - assert (Hw1 : l = [] \/ 1 <= w). { destruct l as [|x l]; [left; auto|right]. eapply Nat.le_trans; [apply (width_le [x] (map (fun c => [c]) (x :: l))); left; reflexivity|exact Hw]. }
    match goal with |- context [addParsers_loop e ?a ?i cx Seq l (Some d) None None] => destruct (seq_loop i a l cx pre d post None HS Hin H Hw1) as (c & cx1 & pn' & E & HK1 & HS1) end.
    exists c, cx1. split; [|auto]. rewrite E. reflexivity.
Qed.
Lemma width_app a b : width (a ++ b) = Nat.max (width a) (width b).
Proof. unfold width. induction a as [|s a IH]; cbn; [auto|]. rewrite IH. lia. Qed.
Lemma confs_added : forall cs sss, Forall2 (steps_of e) cs sss -> forall cx pre d, St cx pre d -> In (pre ++ List.concat sss) Ls -> width (List.concat sss) <= w ->
  exists c cx', add_confs e cx (Some d) cs = EOk (cx', Some (Some c)) /\ akeeps cx cx' /\ St cx' (pre ++ List.concat sss) c.
Proof.
  intros cs sss H. induction H as [|conf ss cs sss Hst HF IH]; intros cx pre d HS Hin Hw; cbn [add_confs List.concat].
  - exists d, cx. split; auto. split; [apply akeeps_refl|]. rewrite app_nil_r. auto.
  - cbn [List.concat] in *. rewrite width_app in Hw. destruct (conf_added cx pre d conf ss (List.concat sss) HS Hst Hin) as (c & cx1 & E & HK1 & HS1); [lia|]. rewrite E. cbn [ebind].
    destruct (IH cx1 (pre ++ ss) c HS1) as (c2 & cx2 & E2 & HK2 & HS2); [rewrite <- app_assoc; exact Hin|lia|]. exists c2, cx2. split; [exact E2|]. split; [eapply akeeps_trans; eauto|]. rewrite <- app_assoc in HS2. exact HS2.
Qed.
End Rule.

(** ** rulebases *)
Definition wholds (cx : ctx) (ss : arule) (inf : rule_info) : Prop :=
  exists b n, wpath (c_nodes cx) (c_root cx) ss b /\ live (c_nodes cx) b n /\ n_term n = true /\ inf = (n_tags n, n_file n, n_line n).
Definition arule_now (rs : list (arule * rule_info)) (ss : arule) (inf : rule_info) : Prop :=
  exists rs1 rs2 ss0, rs = rs1 ++ (ss0, inf) :: rs2 /\ same_steps ss0 ss /\ forall ss1 i, In (ss1, i) rs2 -> ~ same_steps ss1 ss.
Lemma arule_now_snoc rs ss0 inf0 ss inf : arule_now (rs ++ [(ss0, inf0)]) ss inf <-> (same_steps ss0 ss /\ inf = inf0) \/ (~ same_steps ss0 ss /\ arule_now rs ss inf).
Proof.
  split.
  - intros (rs1 & rs2 & ss' & E & HS & HN). destruct rs2 as [|x rs2 _] using rev_ind.
    + apply app_inj_tail in E as [_ [= <- <-]]. auto.
    + rewrite app_comm_cons, app_assoc in E. apply app_inj_tail in E as [-> <-]. right. split; [apply (HN ss0 inf0); apply in_or_app; right; left; auto|].
      exists rs1, rs2, ss'. split; auto. split; auto. intros s1 i Hin. apply (HN s1 i). apply in_or_app. auto.
  - intros [[HS ->]|[HN (rs1 & rs2 & ss' & -> & HS & HN2)]].
    + exists rs, [], ss0. split; [reflexivity|]. split; [exact HS|]. intros ? ? [].
    + exists rs1, (rs2 ++ [(ss0, inf0)]), ss'. split; [rewrite <- app_assoc; reflexivity|]. split; auto. intros s1 i Hin. apply in_app_or in Hin as [Hin|[[= <- <-]|[]]]; eauto.
Qed.
Definition total (rs : list (arule * rule_info)) : nat := fold_right Nat.add 0 (map width (map fst rs)).
Lemma total_snoc rs x : total (rs ++ [x]) = total rs + width (fst x).
Proof. unfold total. rewrite !map_app. cbn. induction (map width (map fst rs)) as [|a l IH]; cbn in *; lia. Qed.

Theorem abuilt_exact e rs cx : abuilt e rs cx -> (forall r1 r2, In r1 (map fst rs) -> In r2 (map fst rs) -> compatible r1 r2) -> total rs <= 255 ->
  wide e cx /\ (rs <> [] -> paths_ok cx (map fst rs)) /\ (rs = [] -> forall ss j, wpath (c_nodes cx) (c_root cx) ss j -> ss = []) /\ asmall cx (total rs) /\ forall ss inf, wholds cx ss inf <-> arule_now rs ss inf.
Proof.
  intros HB. induction HB as [o|rs cx t ss tags cx' HB IH HR E|rs cx cx' HB IH E1 E2 E3]; intros HC HT.
  - assert (HNo : forall i c x, ~ alts (c_nodes (initCtx o)) i c x). { intros i c x (n & p & Hn & Hp & _). destruct i as [|i]; [injection Hn as <-; destruct Hp|destruct i; discriminate]. }
    assert (HP : forall ss j, wpath (c_nodes (initCtx o)) (c_root (initCtx o)) ss j -> ss = []). { intros ss j H. inversion H; subst; auto. destruct s as [|x s]; [congruence|]. exfalso. eapply HNo. apply H1. left; reflexivity. }
    split; [constructor|].
    + reflexivity.
    + exists new_node. reflexivity.
    + intros i c x H. destruct (HNo _ _ _ H).
    + intros i j c x y H. destruct (HNo _ _ _ H).
    + intros i c x H. destruct (HNo _ _ _ H).
    + intros i c c' x H. destruct (HNo _ _ _ H).
    + intros i n p Hn Hp. destruct i as [|i]; [injection Hn as <-; destruct Hp|destruct i; discriminate].
    + split; [congruence|]. split; [intros _; exact HP|]. split.
      * intros [|i] n Hi; [injection Hi as <-; cbn; lia|destruct i; discriminate].
      * intros ss inf. split.
        -- intros (b & n & _ & Hb & Ht & _). destruct b as [|b]; [injection Hb as <-; discriminate|destruct b; discriminate].
        -- intros (rs1 & rs2 & s0 & HE & _). destruct rs1; discriminate.
  - rewrite total_snoc in HT. cbn [fst] in HT. rewrite map_app in HC. cbn [map fst] in HC.
    destruct IH as (W & HP & HP0 & HS & HI). { intros r1 r2 H1 H2. apply HC; apply in_or_app; auto. } { lia. }
    destruct HR as (cs & sss & HRC & HF & ->). set (ss := List.concat sss) in *.
    destruct (w_root _ _ W) as [rn Hrn].
    assert (HS0 : St e (map fst rs ++ [ss]) (total rs) (width ss) cx [] (c_root cx)).
    { constructor; auto.
      - destruct rs as [|r0 rs0].
        + intros s0 j H. rewrite (HP0 eq_refl s0 j H). exists ss. split; [apply in_or_app; right; left; auto|]. exists [], ss. split; auto. constructor.
        + intros s0 j H. destruct (HP ltac:(discriminate) s0 j H) as (r & Hr & Hpr). exists r. split; auto. apply in_or_app. auto.
      - constructor.
      - split; [|left; exact HS]. intros i n Hn. specialize (HS _ _ Hn). lia. }
    destruct (confs_added e (map fst rs ++ [ss]) HC (total rs) (width ss) HT cs sss HF cx [] (c_root cx) HS0) as (en & cx1 & E1 & HK1 & HS1); [cbn; apply in_or_app; right; left; auto|auto|].
    cbn [app] in HS1. fold ss in HS1. destruct HS1 as [W1 HP1 HA1 [Hf1 _]].
    assert (ER : c_root cx1 = c_root cx) by (rewrite (ak_cx _ _ HK1); reflexivity).
    destruct (ak_live _ _ HK1 _ _ Hrn) as (rn1 & Hrn1 & _). destruct (wpath_live e cx1 W1 ss (c_root cx1) en rn1) as [m Hm]; [rewrite ER; auto|auto|].
    assert (EF : c_file cx1 = c_file cx /\ c_line cx1 = c_line cx) by (rewrite (ak_cx _ _ HK1); auto). destruct EF as [EF1 EF2].
    unfold addSampToTree in E. rewrite (add_rule_confs e t cs HRC) in E by lia. rewrite E1 in E. cbn [ebind] in E. rewrite (live_get _ _ _ Hm) in E. cbn [ebind] in E. rewrite EF1, EF2 in E. injection E as <-.
    set (f := set_terminal tags (c_file cx) (c_line cx)) in *. assert (Hf : forall n, n_parsers (f n) = n_parsers n) by reflexivity.
    pose proof (alts_quiet (c_nodes cx1) en f Hf) as HAq.
    assert (HWq : forall i s0 j, wpath (upd_node (c_nodes cx1) en f) i s0 j <-> wpath (c_nodes cx1) i s0 j).
    { intros i s0 j. split; apply wpath_ext; intros; [symmetry|]; apply HAq. }
    assert (HLq : forall i n, live (c_nodes cx1) i n -> exists n', live (upd_node (c_nodes cx1) en f) i n').
    { intros i n Hn. destruct (Nat.eq_dec en i) as [<-|Hne]; [exists (f n); apply live_upd_same; auto|exists n; apply live_upd_other; auto]. }
    rewrite nodes_set. cbn [c_root set_nodes]. split; [|split; [|split; [|split]]].
    + constructor; rewrite ?nodes_set; cbn [c_root c_types set_nodes].
      * apply (w_types _ _ W1).
      * destruct (w_root _ _ W1) as [n Hn]. eauto.
      * intros i c x H. apply HAq in H. destruct (w_child _ _ W1 _ _ _ H) as [n Hn]. eauto.
      * intros i j c x y H1 H2. apply HAq in H1, H2. eapply (w_one _ _ W1); eauto.
      * intros i c x H. apply HAq in H. eapply (w_noroot _ _ W1); eauto.
      * intros i c c' x H1 H2. apply HAq in H1, H2. eapply (w_uniq _ _ W1); eauto.
      * intros i n p Hn Hp. apply live_upd in Hn as [[_ Hn]|[<- (n0 & Hn & ->)]]; [eapply (w_flat _ _ W1); eauto|]. rewrite Hf in Hp. eapply (w_flat _ _ W1); eauto.
    + intros _ s0 j H. rewrite nodes_set in H. cbn [c_root set_nodes] in H. apply HWq in H. rewrite map_app. apply (HP1 s0 j H).
    + intros HE. destruct rs; discriminate.
    + intros i n Hn. rewrite nodes_set in Hn. rewrite total_snoc. cbn [fst]. apply live_upd in Hn as [[_ Hn]|[<- (n0 & Hn & ->)]]; [exact (Hf1 _ _ Hn)|rewrite Hf; exact (Hf1 _ _ Hn)].
    + intros s0 inf. rewrite arule_now_snoc, <- HI. unfold wholds. rewrite nodes_set. cbn [c_root set_nodes]. split.
      * intros (b & n & HPa & Hb & Ht & ->). apply HWq in HPa. apply live_upd in Hb as [[Hne Hb]|[<- (n0 & Hb & ->)]].
        -- right. split; [intros HSs; apply Hne; eapply (wpath_det e cx1 W1); [exact HA1|exact HPa|exact HSs]|].
           destruct (ak_new _ _ HK1 _ _ Hb) as [[n0 Hn0]|[_ Hfa]]; [|congruence]. destruct (ak_live _ _ HK1 _ _ Hn0) as (n1 & Hn1 & F1 & F2 & F3 & F4). assert (n1 = n) by (eapply live_fun; eauto). subst n1.
           exists b, n0. split; [apply (ak_wnew _ _ HK1); [rewrite <- ER; exact HPa|eapply live_lt; eauto]|]. split; auto. split; congruence.
        -- left. split; [eapply (wpath_unique e cx1 W1); eauto|reflexivity].
      * intros [[HSs ->]|[HNs (b & n & HPa & Hb & Ht & ->)]].
        -- exists en, (f m). split; [apply HWq; eapply wpath_same; eauto|]. split; [apply live_upd_same; auto|]. split; reflexivity.
        -- destruct (ak_live _ _ HK1 _ _ Hb) as (n1 & Hn1 & F1 & F2 & F3 & F4). apply (ak_wold _ _ HK1) in HPa. exists b, n1. split; [apply HWq; rewrite ER; exact HPa|].
           split; [|split; congruence]. apply live_upd_other; [|exact Hn1]. intros ->. apply HNs. eapply (wpath_unique e cx1 W1); [exact HA1|]. rewrite ER. exact HPa.
  - destruct IH as (W & HP & HP0 & HS & HI); auto. unfold wholds, paths_ok, asmall. rewrite E1, E2. split; [|split; [exact HP|split; [exact HP0|split; [exact HS|exact HI]]]].
    destruct W as [A B C D F G H]. constructor; rewrite ?E1, ?E2, ?E3; auto.
Qed.

Lemma abuilt_msafe e rs cx : abuilt e rs cx -> msafe cx.
Proof.
  induction 1 as [o|rs cx t ss tags cx' HB IH HR E|rs cx cx' HB IH E1 E2 E3].
  - exact (built_msafe e 0 [] _ (built_init e o)).
  - pose proof (addSamp_safe e cx t (c_root cx) tags IH (owner_ok _ _ IH (or_introl eq_refl))) as HH. rewrite E in HH. apply HH.
  - destruct IH as (G & rk & HG). exists G, rk. rewrite E1. unfold owners. rewrite E2, E3. exact HG.
Qed.

Section Meaning.
Variable e : env.
Hypothesis HE : prints_no_nul e.

Lemma wide_means cx : wide e cx -> forall r ps j, path (c_nodes cx) r ps j ->
  exists fs, labels ps = simple_fields fs /\ Forall2 (means e) (confs ps) fs /\ ~ In (AChar NUL) (atoms (labels ps)).
Proof.
  intros W r ps j H. induction H as [i|i n p ps j Hi Hp HP IH]; [exists []; split; [reflexivity|split; [constructor|intros []]]|].
  destruct IH as (fs & A & B & C). pose proof (w_flat _ _ W _ _ _ Hi Hp) as HF. destruct (flat_simple _ _ _ _ HF) as [m Ek].
  exists ((m, p_name p) :: fs). split; [cbn; rewrite Ek; unfold labels, simple_fields in *; congruence|]. split.
  - constructor; auto. intros ts. cbn. rewrite <- Ek. change ts with ([] ++ ts). apply flat_types_app. exact HF.
  - rewrite atoms_cons. intros Hin. apply in_app_or in Hin as [Hin|Hin]; [|auto]. rewrite Ek in *. destruct (atoms_of_field (KSimple m) (p_name p)) as [(t & [= ->] & En)|E].
    + rewrite En in Hin. cbn in Hin. apply in_map_iff in Hin as (x & [= ->] & Hx). apply flat_simple_type in HF as (ty & rest & pr & HS). exact (literal_type_nonul _ _ _ _ _ HE HS Hx).
    + rewrite E in Hin. destruct Hin as [Hin|[]]. discriminate.
Qed.
Lemma wide_hr cx : wide e cx -> clean (c_nodes cx) (c_root cx) /\ all_simple (c_nodes cx) /\
  forall l inf, hr (c_nodes cx) (c_root cx) l inf <-> exists ss cs fs, wholds cx ss inf /\ Forall2 (fun c s => In c s) cs ss /\ Forall2 (means e) cs fs /\ atoms (simple_fields fs) = l.
Proof.
  intros W. split; [|split].
  - intros l inf (ps & b & n & HP & _ & _ & _ & <-). destruct (wide_means cx W _ _ _ HP) as (fs & _ & _ & HN). exact HN.
  - intros i n p Hn Hp. pose proof (w_flat _ _ W _ _ _ Hn Hp) as HF. apply flat_simple in HF. exact HF.
  - intros l inf. split.
    + intros (ps & b & n & HP & Hb & Ht & Hi & <-). destruct (wide_means cx W _ _ _ HP) as (fs & HL & HF & _). destruct (path_wpath _ _ _ _ HP) as (ss & HW & HIn).
      exists ss, (confs ps), fs. split; [exists b, n; auto|]. split; auto. split; auto. congruence.
    + intros (ss & cs & fs & (b & n & HW & Hb & Ht & Hi) & HIn & HF & <-). destruct (wpath_path _ _ _ _ HW cs HIn) as (ps & HP & <-). exists ps, b, n. repeat (split; auto).
      destruct (wide_means cx W _ _ _ HP) as (fs' & HL & HF' & _). rewrite (means_fun_all _ _ _ _ HF HF'), <- HL. reflexivity.
Qed.
End Meaning.
