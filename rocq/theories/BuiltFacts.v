(** * BuiltFacts: a built context holds exactly the rules it was built from. *)
From Verif Require Import Base Parsers Engine Pdag Samp GraphSpec RuleSpec BuiltSpec EngineSpec BaseFacts EngineFacts EngineFacts2 HeapFacts BuildFacts2 BuildFacts3 TreeFacts TreeFacts2.
From Coq Require Import ZifyBool ZifyNat ZifyN.

Lemma rule_now_snoc rs key0 cs0 inf0 key cs inf : rule_now (rs ++ [(key0, cs0, inf0)]) key cs inf <->
  (key = key0 /\ cs = cs0 /\ inf = inf0) \/ (~ (key = key0 /\ cs = cs0) /\ rule_now rs key cs inf).
Proof.
  split.
  - intros (rs1 & rs2 & E & HN). destruct rs2 as [|x rs2 _] using rev_ind.
    + apply app_inj_tail in E as [_ E]. injection E as -> -> ->. auto.
    + change (rs1 ++ (key, cs, inf) :: rs2 ++ [x]) with (rs1 ++ ((key, cs, inf) :: rs2) ++ [x]) in E. rewrite app_assoc in E. apply app_inj_tail in E as [-> <-]. right. split.
      * intros [-> ->]. apply (HN inf0). apply in_or_app. right. left. reflexivity.
      * exists rs1, rs2. split; auto. intros i Hi. apply (HN i). apply in_or_app. auto.
  - intros [(-> & -> & ->)|(HN & rs1 & rs2 & -> & HN2)].
    + exists rs, []. split; auto.
    + exists rs1, (rs2 ++ [(key0, cs0, inf0)]). rewrite <- app_assoc. split; auto. intros i Hi. apply in_app_or in Hi as [Hi|[[= -> -> ->]|[]]]; [eapply HN2; eauto|apply HN; auto].
Qed.

Lemma root_owner cx key r : root_of cx key = Some r -> In r (owners cx).
Proof.
  destruct key as [nm|]; cbn; [|intros [= <-]; left; auto]. destruct (find _ (c_types cx)) as [[n d]|] eqn:E; cbn; [|discriminate]. intros [= <-]. apply find_some in E as [E _]. right. change d with (snd (n, d)). apply in_map. auto.
Qed.
Lemma find_snd_inj (ts : list (text * nat)) nm nm' a b : NoDup (map snd ts) -> find (fun t => text_eqb (fst t) nm) ts = Some a -> find (fun t => text_eqb (fst t) nm') ts = Some b -> snd a = snd b -> nm = nm'.
Proof.
  intros ND Ha Hb E. apply find_some in Ha as [Ha Ea], Hb as [Hb Eb]. apply text_eqb_true in Ea, Eb.
  assert (a = b). { clear Ea Eb. induction ts as [|t ts IH]; [destruct Ha|]. cbn in ND. inversion ND; subst. destruct Ha as [<-|Ha], Hb as [<-|Hb]; auto; exfalso; apply H1; [rewrite E|rewrite <- E]; apply in_map; auto. }
  congruence.
Qed.
Lemma root_inj cx key key' r : NoDup (owners cx) -> root_of cx key = Some r -> root_of cx key' = Some r -> key = key'.
Proof.
  intros ND H H'. unfold owners in ND. inversion ND; subst. destruct key as [nm|], key' as [nm'|]; cbn in *; auto.
  - destruct (find (fun t => text_eqb (fst t) nm) _) as [a|] eqn:Ea; [|discriminate]. destruct (find (fun t => text_eqb (fst t) nm') _) as [b|] eqn:Eb; [|discriminate]. cbn in *. f_equal. eapply find_snd_inj; eauto. congruence.
  - exfalso. injection H' as <-. destruct (find (fun t => text_eqb (fst t) nm) _) as [a|] eqn:Ea; [|discriminate]. cbn in H. injection H as H. apply find_some in Ea as [Ea _]. apply H2. rewrite <- H. apply in_map. auto.
  - exfalso. injection H as <-. destruct (find (fun t => text_eqb (fst t) nm') _) as [a|] eqn:Ea; [|discriminate]. cbn in H'. injection H' as H. apply find_some in Ea as [Ea _]. apply H2. rewrite <- H. apply in_map. auto.
Qed.
Lemma root_same cx cx' key : c_root cx' = c_root cx -> c_types cx' = c_types cx -> root_of cx' key = root_of cx key.
Proof. intros A B. destruct key; cbn; congruence. Qed.

Section Built.
Variable e : env.

Lemma faulty_broken ty t cs : faulty e ty t cs -> broken_rule e ty t cs.
Proof.
  induction 1; [eapply br_syntax; eauto|eapply br_type; eauto|eapply br_later; eauto].
Qed.

Lemma initCtx_tidy o : tidy e (initCtx o).
Proof.
  constructor; cbn.
  - intros j [<-|[]]. exists new_node. reflexivity.
  - repeat constructor. intros [].
  - intros [|i] n p q Hi; [injection Hi as <-; intros []|destruct i; discriminate].
  - intros [|i] n p Hi; [injection Hi as <-; intros []|destruct i; discriminate].
Qed.

Theorem built_exact k rs cx : built e k rs cx -> k <= 255 ->
  tidy e cx /\ small cx k /\ (forall key cs inf, In (key, cs, inf) rs -> root_of cx key <> None) /\
  forall key r, root_of cx key = Some r -> forall cs inf, rule_now rs key cs inf <-> exists ps, confs ps = cs /\ holds_rule cx r ps inf.
Proof.
  intros HB. induction HB as [o|k rs cx t cs key r tags cx' HB IH Hr HC HF E|k rs cx t cs key r tags cx' HB IH Hr HC HF E|k rs cx nm HB IH Hr|k rs cx cx' HB IH E1 E2 E3]; intros HK.
  - split; [apply initCtx_tidy|]. split; [intros [|i] n Hi; [injection Hi as <-; cbn; lia|destruct i; discriminate]|]. split; [intros key cs inf []|].
    intros key r Hr cs inf. split.
    + intros (rs1 & rs2 & HE & _). destruct rs1; discriminate.
    + intros (ps & _ & b & n & _ & Hb & Ht & _). destruct b as [|b]; [injection Hb as <-; discriminate|destruct b; discriminate].
  - destruct IH as (T & HS & HD & HI); [lia|]. destruct (rule_added e cx t cs r tags k T (root_owner _ _ _ Hr)) as (cx2 & ps0 & E2 & T2 & HS2 & Ecx & Hcs & HA & HO); auto; try lia.
    rewrite E in E2. injection E2 as <-. split; auto. split; auto.
    assert (ER : forall key, root_of cx' key = root_of cx key) by (intros key'; apply root_same; rewrite Ecx; reflexivity).
    split. { intros key' cs' inf' Hin. rewrite ER. apply in_app_or in Hin as [Hin|[[= <- <- <-]|[]]]; [eauto|congruence]. }
    intros key' r' Hr' cs' inf'. rewrite ER in Hr'. rewrite rule_now_snoc.
    assert (HND : NoDup (owners cx)) by (eapply nodup_r; apply (t_nodup _ _ T)).
    split.
    + intros [(-> & -> & ->)|(HN & HR)].
      * assert (r' = r) by congruence. subst r'. exists ps0. split; auto. apply HA. left. auto.
      * apply (HI key' r' Hr') in HR as (ps & Ec & HH). exists ps. split; auto.
        destruct (Nat.eq_dec r' r) as [->|Hne]; [|apply HO; auto; eapply root_owner; eauto]. apply HA. right. split; auto. intros Ec2. apply HN. split; [|congruence]. eapply root_inj; eauto.
    + intros (ps & Ec & HH). destruct (Nat.eq_dec r' r) as [->|Hne].
      * assert (key' = key) by (eapply root_inj; eauto). subst key'. apply HA in HH as [[-> ->]|[Hn HH]].
        -- left. repeat split; congruence.
        -- right. split; [intros [_ ->]; congruence|]. apply (HI key r Hr). eauto.
      * right. split; [intros [-> _]; congruence|]. apply (HI key' r' Hr'). exists ps. split; auto. apply HO in HH; auto. eapply root_owner; eauto.
  - destruct IH as (T & HS & HD & HI); [lia|]. destruct (rule_rejected e cx t cs r tags k T (root_owner _ _ _ Hr)) as (cx2 & E2 & T2 & HS2 & Ecx & HO); auto; try lia; [apply faulty_broken; auto|].
    rewrite E in E2. injection E2 as <-. split; auto. split; auto.
    assert (ER : forall key, root_of cx' key = root_of cx key) by (intros key'; apply root_same; rewrite Ecx; reflexivity).
    split. { intros key' cs' inf' Hin. rewrite ER. eauto. }
    intros key' r' Hr' cs' inf'. rewrite ER in Hr'. rewrite (HI key' r' Hr'). pose proof (root_owner _ _ _ Hr') as Hown. split; intros (ps & Ec & HH); exists ps; (split; auto); apply HO; auto.
  - destruct IH as (T & HS & HD & HI); [lia|]. change (set_types (fst (newPDAG cx)) (c_types cx ++ [(nm, snd (newPDAG cx))])) with (add_type cx nm).
    destruct (type_added e cx nm k T HS) as (T2 & HS2 & HO & HN). split; auto. split; auto.
    assert (HF0 : find (fun t : text * nat => text_eqb (fst t) nm) (c_types cx) = None). { cbn in Hr. destruct (find _ _); [discriminate|reflexivity]. }
    assert (ER : forall key, key <> Some nm -> root_of (add_type cx nm) key = root_of cx key).
    { intros [nm'|] Hne; [|reflexivity]. cbn [root_of]. change (c_types (add_type cx nm)) with (c_types cx ++ [(nm, List.length (c_nodes cx))]). clear HF0 HD HI Hr HB HK T HS T2 HS2 HO HN.
      f_equal. induction (c_types cx) as [|[a b] ts IH]; cbn; [|destruct (text_eqb a nm'); auto]. destruct (text_eqb nm nm') eqn:E; auto. apply text_eqb_true in E. congruence. }
    assert (ENew : root_of (add_type cx nm) (Some nm) = Some (List.length (c_nodes cx))).
    { cbn [root_of]. change (c_types (add_type cx nm)) with (c_types cx ++ [(nm, List.length (c_nodes cx))]). clear - HF0. induction (c_types cx) as [|[a b] ts IH]; cbn in *; [rewrite text_eqb_refl; reflexivity|]. destruct (text_eqb a nm); [discriminate|auto]. }
    assert (HDn : forall cs inf, ~ In (Some nm, cs, inf) rs). { intros cs inf Hin. apply HD in Hin. cbn in Hin, Hr. congruence. }
    split.
    + intros key cs inf Hin. assert (key <> Some nm) by (intros ->; eapply HDn; eauto). rewrite ER by auto. eauto.
    + intros key r' Hr' cs inf. assert (HK2 : key = Some nm \/ key <> Some nm). { destruct key as [nm'|]; [|right; discriminate]. destruct (list_eq_dec ascii_dec nm' nm); [left; congruence|right; congruence]. }
      destruct HK2 as [->|Hne].
      * rewrite ENew in Hr'. injection Hr' as <-. split; [intros (rs1 & rs2 & -> & _); exfalso; eapply HDn; apply in_or_app; right; left; reflexivity|]. intros (ps & _ & HH). destruct (HN _ _ HH).
      * rewrite ER in Hr' by auto. rewrite (HI key r' Hr'). pose proof (root_owner _ _ _ Hr') as Hown. split; intros (ps & Ec & HH); exists ps; (split; auto); apply HO; auto.
  - destruct IH as (T & HS & HD & HI); auto.
    assert (EO : owners cx' = owners cx) by (unfold owners; congruence).
    split. { destruct T as [A B C D]. constructor; rewrite ?E1, ?EO, ?E3; auto. }
    split; [intros i n; rewrite E1; apply HS|]. split; [intros key cs inf Hin; rewrite (root_same cx cx') by auto; eauto|].
    intros key r Hr cs inf. rewrite (root_same cx cx') in Hr by auto. rewrite (HI key r Hr). unfold holds_rule. rewrite E1. reflexivity.
Qed.

(** ** matching a path *)
Lemma walk_path cx msg : forall w nd offs en, walk e cx msg false nd offs w en ->
  path (c_nodes cx) nd (map st_prs w) en /\ (exists n, live (c_nodes cx) en n /\ n_term n = true) /\
  exists fs, labels (map st_prs w) = simple_fields fs /\ fields_take e msg fs offs (List.length msg).
Proof.
  intros w nd offs en H. induction H as [nd n offs Hn Ht HE|nd n offs i p to v w en Hn Hi Ha HW IH].
  - split; [constructor|]. split; [exists n; auto|]. exists []. split; auto. destruct HE as [->|HE]; [constructor|discriminate].
  - destruct IH as (HP & HT & fs & HL & HFT). split; [cbn; econstructor; [exact Hn|eapply nth_error_In; eauto|exact HP]|]. split; auto.
    destruct Ha as (m & k & Hk & Hle & -> & Hrun). exists ((m, p_name p) :: fs). split; [cbn; rewrite Hk; unfold labels, simple_fields in *; congruence|]. econstructor; eauto.
Qed.
Lemma path_walk cx msg : forall nd ps en, path (c_nodes cx) nd ps en -> (exists n, live (c_nodes cx) en n /\ n_term n = true) ->
  forall fs offs, labels ps = simple_fields fs -> fields_take e msg fs offs (List.length msg) -> exists w, walk e cx msg false nd offs w en /\ map st_prs w = ps.
Proof.
  intros nd ps en H HT. induction H as [i|i n p ps j Hi Hp HP IH]; intros fs offs HL HF.
  - destruct fs; [|discriminate]. destruct HT as (n & Hn & Ht). inversion HF; subst. exists []. split; auto. econstructor; eauto.
  - destruct fs as [|[m nm] fs]; [discriminate|]. cbn in HL. injection HL as Hk Hnm HL. inversion HF as [|? ? ? ? k v ? Hle Hrun HF2]; subst.
    destruct (IH HT fs (offs + k) HL HF2) as (w & HW & Ew). apply In_nth_error in Hp as [ix Hix].
    exists ({| st_idx := ix; st_prs := p; st_from := offs; st_to := offs + k; st_val := v |} :: w). split; [|cbn; congruence].
    econstructor; eauto. exists m, k. repeat split; auto.
Qed.
End Built.
