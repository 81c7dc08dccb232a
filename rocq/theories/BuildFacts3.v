(** * BuildFacts3: ln_pdagAddParserInstance, ln_pdagAddParsers, ln_pdagAddParserInternal. *)
From Verif Require Import Base Parsers Engine Pdag GraphSpec BaseFacts EngineFacts2 HeapFacts DeleteFacts BuildFacts BuildFacts2.
From Coq Require Import ZifyBool ZifyNat ZifyN.

Lemma find_same_in ps k conf c : find_same ps k conf = Some c -> exists p, In p ps /\ p_child p = c.
Proof. induction ps as [|p ps IH]; cbn; [discriminate|]. destruct (_ && _)%bool; [intros [= <-]; eauto|]. intros H. destruct (IH H) as (q & Hq & E). eauto. Qed.

Definition ipost (cx : ctx) (R : list nat) (rk : nat -> nat) (k : nat) (nd : Prop) (dag : option nat) (x : ctx * option nat) : Prop :=
  fst x = set_nodes cx (c_nodes (fst x)) /\
  exists G rk', step (c_nodes cx) R rk k nd (c_nodes (fst x)) [] G rk' /\
  match snd x with
  | None => True
  | Some nx => okref (c_nodes (fst x)) (Some nx) /\ below rk' (Some nx) dag
  end.

Lemma addInstance_ok e addp d (HA : addp_ok d addp) conf cx R rk dag next : gi (c_nodes cx) R rk -> jdepth conf <= d ->
  okref (c_nodes cx) dag -> okref (c_nodes cx) next -> below rk next dag ->
  epost (ipost cx R rk (objects conf) (unique_keys conf) dag) (addInstance e addp cx conf dag next).
Proof.
  intros HG Hd Hdag Hnext Hb. unfold addInstance. eapply epost_bind; [eapply (newParser_ok e addp d HA); eauto|].
  intros [cx1 op] (E1 & G1 & rk1 & HS1 & Hop). cbn [fst snd] in *.
  destruct op as [p|].
  2:{ cbn. split; auto. exists G1, rk1. split; auto. eapply step_weak; [| |exact HS1]; [lia|auto]. }
  destruct Hop as [Hlow Hpos]. destruct dag as [dg|]; [|cbn; split; discriminate].
  pose proof (okref_lt _ _ Hdag) as Hdlt.
  destruct (step_okref _ _ _ _ _ _ _ _ _ _ HG HS1 Hdag) as [n1 Hn1]. rewrite (live_get _ _ _ Hn1). cbn [ebind].
  destruct (find_same (n_parsers n1) (p_kind p) conf) as [child|] eqn:EF.
  - apply find_same_in in EF as (q & Hq & Hchild).
    set (post := ipost cx R rk (objects conf) (unique_keys conf) (Some dg)).
    assert (K : forall h2 : list (option node), step (c_nodes cx) R rk (pred (objects conf)) (unique_keys conf) h2 [] G1 rk1 ->
       (forall j m, live h2 j m -> exists m0, live (c_nodes cx1) j m0 /\ n_parsers m = n_parsers m0) ->
       epost post (EOk (set_nodes cx1 h2, Some child))).
    { intros h2 HS2 HD2. cbn [epost]. split; [cbn [fst]; rewrite E1; reflexivity|]. exists G1, rk1. cbn [fst snd]. rewrite nodes_set.
      split; [eapply step_weak; [| |exact HS2]; [lia|auto]|].
      destruct (step_okref _ _ _ _ _ _ _ _ _ _ HG HS2 Hdag) as [n2 Hn2]. destruct (HD2 _ _ Hn2) as (n1' & Hn1' & Eps).
      assert (n1' = n1) by (eapply live_fun; eauto). subst n1'. rewrite <- Eps in Hq. split.
      - eapply gi_target; [apply (s_gi _ _ _ _ _ _ _ _ _ HS2)|exact Hn2|exact Hq|]. left. exact Hchild.
      - cbn. destruct (s_gi _ _ _ _ _ _ _ _ _ HS2) as (_ & _ & HR2). eapply HR2; [exact Hn2|exact Hq|]. left. exact Hchild. }
    destruct (p_kind p) as [m|a b perm|ti]; cbn [ktargets] in HS1.
    + cbn [ebind]. apply K; eauto.
    + destruct (step_delete _ _ _ _ _ _ _ _ _ _ HG HS1) as (h2 & -> & HS2 & HD2). cbn [ebind].
      destruct (step_delete _ _ _ _ _ _ _ _ _ _ HG HS2) as (h3 & -> & HS3 & HD3). cbn [ebind]. apply K; auto.
      intros j m Hm. pose proof (del_post_trans _ _ _ HD2 HD3) as (_ & _ & _ & HD). destruct (HD _ _ Hm) as (m0 & Hm0 & SN & _). exists m0. split; auto. rewrite SN. reflexivity.
    + cbn [ebind]. apply K; eauto.
  - assert (K : forall cx2 nn rk2 Gx, cx2 = set_nodes cx (c_nodes cx2) -> step (c_nodes cx) R rk (pred (objects conf)) (unique_keys conf) (c_nodes cx2) (nn :: ktargets (p_kind p)) Gx rk2 ->
       rk2 nn < rk2 dg -> low (List.length (c_nodes cx)) rk2 (ktargets (p_kind p)) ->
       let p' := {| p_kind := p_kind p; p_name := p_name p; p_conf := p_conf p; p_prio := p_prio p; p_child := nn |} in
       epost (ipost cx R rk (objects conf) (unique_keys conf) (Some dg))
         (EOk (set_nodes cx2 (upd_node (c_nodes cx2) dg (fun n => set_parsers n (push_parser (n_parsers n) p'))), Some nn))).
    { intros cx2 nn rk2 Gx E2 HS2 Hlt Hlow2 p'. cbn [epost]. split; [cbn [fst]; rewrite E2; reflexivity|]. cbn [fst snd]. rewrite nodes_set.
      destruct (step_okref _ _ _ _ _ _ _ _ _ _ HG HS2 Hdag) as [n2 Hn2].
      assert (HS2' : step (c_nodes cx) R rk (pred (objects conf)) (unique_keys conf) (c_nodes cx2) (targets p' ++ []) Gx rk2).
      { rewrite app_nil_r. exact HS2. }
      destruct (step_attach _ _ _ _ _ _ _ _ _ dg n2 p' HS2' Hn2) as [G' HS3]; auto.
      { intros t [<-|Ht]; [exact Hlt|]. apply Hlow2; auto. }
      exists (G' ++ Gx), rk2. split; [eapply step_weak; [| |exact HS3]; [lia|auto]|]. split; [|exact Hlt].
      assert (okref (c_nodes cx2) (Some nn)) as [m Hm]. { eapply gi_live; [apply (s_gi _ _ _ _ _ _ _ _ _ HS2)|]. left. reflexivity. }
      destruct (Nat.eq_dec dg nn) as [->|Hne]; [eexists; apply live_upd_same; eauto|exists m; apply live_upd_other; auto]. }
    destruct next as [nn|].
    + destruct (step_okref _ _ _ _ _ _ _ _ _ _ HG HS1 Hnext) as [m Hm]. rewrite (live_get _ _ _ Hm). cbn [ebind].
      apply (K _ nn rk1 G1); auto.
      * rewrite E1. reflexivity.
      * rewrite nodes_set. eapply step_share; eauto.
      * pose proof (step_below _ _ _ _ _ _ _ _ _ _ _ HS1 Hnext Hdag Hb). exact H.
    + unfold newPDAG. cbn [ebind]. pose proof (step_new _ _ _ True (s_gi _ _ _ _ _ _ _ _ _ HS1)) as HN.
      pose proof (step_trans _ _ _ _ _ _ _ _ _ _ _ _ _ _ _ HG HS1 HN) as HT. cbn [app] in HT.
      apply (K _ (List.length (c_nodes cx1)) (fresh_rank (List.length (c_nodes cx1)) rk1) G1).
      * rewrite E1. reflexivity.
      * rewrite nodes_set. eapply step_weak; [| |exact HT]; [lia|tauto].
      * unfold fresh_rank. rewrite Nat.eqb_refl. pose proof (live_lt _ _ _ Hn1). destruct (Nat.eqb_spec dg (List.length (c_nodes cx1))); lia.
      * pose proof (s_len _ _ _ _ _ _ _ _ _ HS1). intros f j Hf Hj. specialize (Hlow _ _ Hf Hj). unfold fresh_rank.
        destruct (Nat.eqb_spec f (List.length (c_nodes cx1))), (Nat.eqb_spec j (List.length (c_nodes cx1))); lia.
Qed.

Definition inner_good (d : nat) (inner : ctx -> amode -> option nat -> json -> option nat -> ares) : Prop :=
  forall cx mode dag conf next R rk, gi (c_nodes cx) R rk -> jdepth conf < d ->
  okref (c_nodes cx) dag -> okref (c_nodes cx) next -> below rk next dag ->
  epost (apost cx R rk (objects conf) (unique_keys conf) dag) (inner cx mode dag conf next).

Lemma below_trans rk a b c : below rk a b -> below rk b c -> below rk a c.
Proof. destruct a, b, c; cbn; try tauto; auto. intros. lia. Qed.

(** [dag0] is the original dag; [pn]: the current [*p_nextnode] *)
Lemma addParsers_loop_ok e addp d inner (HA : addp_ok d addp) (HI : inner_good d inner) mode : forall l cx dag next pnext dag0 cx0 R rk0 k0 nd0 G rk,
  gi (c_nodes cx0) R rk0 -> cx = set_nodes cx0 (c_nodes cx) -> step (c_nodes cx0) R rk0 k0 nd0 (c_nodes cx) [] G rk ->
  okref (c_nodes cx) dag -> okref (c_nodes cx) next -> okref (c_nodes cx) pnext -> below rk next dag ->
  below rk next dag0 -> below rk pnext dag0 -> okref (c_nodes cx) dag0 ->
  (dag = dag0 \/ (mode = Seq /\ dag = pnext /\ next = None)) ->
  Forall (fun j => jdepth j < d) l ->
  epost (apost cx0 R rk0 (k0 + objs_l l) (nd0 /\ Forall unique_keys l) dag0) (addParsers_loop e addp inner cx mode l dag next pnext).
Proof.
  induction l as [|j l IH]; intros cx dag next pnext dag0 cx0 R rk0 k0 nd0 G rk HG Ecx HS Hdag Hnext Hpn Hb Hb0 Hbp Hd0 Hcase Hdl.
  - cbn [addParsers_loop]. destruct mode; cbn [epost]; (split; [exact Ecx|]); exists G, rk; cbn [fst snd]; (split; [eapply step_weak; [| |exact HS]; [lia|tauto]|]); auto.
  - inversion Hdl as [|? ? Hd1 Hd2]; subst. cbn [addParsers_loop].
    pose proof (s_gi _ _ _ _ _ _ _ _ _ HS) as HG1. cbn [app] in HG1.
    eapply (epost_bind (fun x => apost cx (G ++ R) rk (objects j) (unique_keys j) dag x /\ match snd x with Some (d1, _) => mode = Alt -> d1 = dag | None => True end)).
    { destruct j as [| | | | |la|lo];
        try (eapply epost_bind; [eapply (addInstance_ok e addp d HA _ cx (G ++ R) rk dag next); eauto; lia|];
             intros [cx1 [nx|]] (E1 & G1 & rk1 & HS1 & HR); cbn [epost fst snd] in *; (split; [|auto]); (split; [exact E1|]); exists G1, rk1; (split; [exact HS1|]); auto;
             destruct HR as [HR1 HR2]; split; [eapply (step_okref (c_nodes cx)); eauto|]; split; auto).
      eapply epost_bind; [eapply HI; eauto|]. intros [cx1 [[ld nx]|]] (E1 & G1 & rk1 & HS1 & HR); cbn [epost fst snd] in *;
        (split; [|try intros ->; auto]); (split; [exact E1|]); exists G1, rk1; (split; [exact HS1|]); auto.
      destruct HR as (HR1 & HR2 & HR3). split; auto. destruct mode; auto. eapply (step_okref (c_nodes cx)); eauto. }
    intros [cx1 r] ((E1 & G1 & rk1 & HS1 & HR) & HAlt). cbn [fst snd] in *.
    pose proof (step_trans _ _ _ _ _ _ _ _ _ _ _ _ _ _ _ HG HS HS1) as HT. cbn [app] in HT.
    assert (Ecx1 : cx1 = set_nodes cx0 (c_nodes cx1)) by (rewrite E1, Ecx; reflexivity).
    destruct r as [[dag1 next1]|].
    + destruct HR as (HR1 & HR2 & HR3).
      assert (Hfin : forall x, apost cx0 R rk0 (k0 + objects j + objs_l l) ((nd0 /\ unique_keys j) /\ Forall unique_keys l) dag0 x ->
                apost cx0 R rk0 (k0 + objs_l (j :: l)) (nd0 /\ Forall unique_keys (j :: l)) dag0 x).
      { intros x (F1 & G2 & rk2 & F2 & F3). split; auto. exists G2, rk2. split; auto. eapply step_weak; [| |exact F2].
        - unfold objs_l. cbn. lia.
        - intros [A B]. inversion B; auto. }
      assert (Hn1d0 : below rk1 next1 dag0).
      { destruct Hcase as [->|(_ & -> & _)]; [exact HR3|].
        eapply below_trans; [exact HR3|]. eapply (step_below (c_nodes cx)); eauto. }
      assert (Hd0' : okref (c_nodes cx1) dag0) by (eapply (step_okref (c_nodes cx)); eauto).
      destruct mode.
      * eapply epost_mono; [|exact Hfin]. eapply IH; eauto; try exact I.
      * assert (dag = dag0) as -> by (destruct Hcase as [|[? _]]; [auto|discriminate]). rewrite (HAlt eq_refl) in *.
        eapply epost_mono; [|exact Hfin]. eapply IH; eauto; try exact I; [eapply (step_okref (c_nodes cx)); eauto|eapply (step_below (c_nodes cx)); eauto].
    + cbn [epost]. split; [exact Ecx1|]. cbn [fst snd]. exists (G1 ++ G), rk1. split; [|exact I]. eapply step_weak; [| |exact HT].
      * unfold objs_l. cbn. lia.
      * intros [A B]. inversion B; auto.
Qed.

Lemma set_nodes_self cx : cx = set_nodes cx (c_nodes cx). Proof. destruct cx; reflexivity. Qed.

Lemma addInternal_step_ok e addp d inner (HA : addp_ok d addp) (HI : inner_good d inner) cx mode dag conf next R rk :
  gi (c_nodes cx) R rk -> jdepth conf <= d ->
  okref (c_nodes cx) dag -> okref (c_nodes cx) next -> below rk next dag ->
  epost (apost cx R rk (objects conf) (unique_keys conf) dag) (addInternal_step e addp inner cx mode dag conf next).
Proof.
  intros HG Hd Hdag Hnext Hb.
  assert (HS0 : step (c_nodes cx) R rk 0 True (c_nodes cx) [] [] rk) by (apply step_refl; auto).
  assert (HLoop : forall md l, Forall (fun j => jdepth j < d) l -> (objs_l l <= objects conf) -> (unique_keys conf -> Forall unique_keys l) ->
     epost (apost cx R rk (objects conf) (unique_keys conf) dag) (addParsers_loop e addp inner cx md l dag next next)).
  { intros md l Hl Ho Hu. eapply epost_mono; [eapply (addParsers_loop_ok e addp d inner HA HI md l cx dag next next dag cx R rk 0 True); eauto using set_nodes_self|].
    intros x (F1 & G2 & rk2 & F2 & F3). split; auto. exists G2, rk2. split; auto. eapply step_weak; [| |exact F2]; [lia|auto]. }
  unfold addInternal_step. destruct conf as [| | | | |l|l];
    try (cbn [epost]; split; [apply set_nodes_self|]; cbn [fst snd]; exists [], rk; split; [|exact I]; eapply step_weak; [| |exact HS0]; [lia|auto]; fail).
  - apply HLoop.
    + pose proof (jdepth_arr l) as HJ. eapply Forall_impl; [|exact HJ]. cbn beta. intros a Ha. lia.
    + rewrite objects_arr. auto.
    + intros Hu. apply uk_arr. exact Hu.
  - destruct (jget (JObj l) "type") as [tv|]; [|cbn; split; discriminate].
    assert (HM : epost (apost cx R rk (objects (JObj l)) (unique_keys (JObj l)) dag) (do* typ := need_str e tv in
          if text_eqb typ (L "alternative") then
            match jget (JObj l) "parser" with
            | Some (JArr ps) => addParsers_loop e addp inner cx Alt ps dag next next
            | _ => EOk (cx, None)
            end
          else
            do* (cx, r) := addInstance e addp cx (JObj l) dag next in
            EOk (cx, match r with
                     | None => None
                     | Some nx => Some (match mode with Seq => Some nx | Alt => dag end, Some nx)
                     end))).
    { eapply epost_bind; [apply need_str_ep|]. intros typ _. destruct (text_eqb typ (L "alternative")).
      - assert (HN : epost (apost cx R rk (objects (JObj l)) (unique_keys (JObj l)) dag) (EOk (cx, None))).
        { cbn [epost]; split; [apply set_nodes_self|]; cbn [fst snd]; exists [], rk; split; [|exact I]; eapply step_weak; [| |exact HS0]; [lia|auto]. }
        destruct (jget (JObj l) "parser") as [v|] eqn:EP; [|exact HN]. destruct v as [| | | | |ps|]; try exact HN.
        cbn [jget] in EP. assert (Hin : In (L "parser", JArr ps) l).
        { clear - EP. induction l as [|[k v] l IH]; cbn [obj_get] in EP; [discriminate|]. destruct (text_eqb (L "parser") k) eqn:E; [|right; auto].
          apply text_eqb_true in E. injection EP as ->. left. congruence. }
        apply HLoop.
        + pose proof (jdepth_obj l) as HJ. unfold depth_f in HJ. rewrite Forall_forall in HJ. specialize (HJ _ Hin). cbn [snd] in HJ.
          pose proof (jdepth_arr ps) as HJ2. eapply Forall_impl; [|exact HJ2]. cbn beta. intros a Ha. lia.
        + rewrite objects_obj. apply le_S. rewrite <- objects_arr. clear - Hin. unfold objs_f. induction l as [|x l IH]; [destruct Hin|]. cbn [fold_right]. destruct Hin as [->|Hin]; [cbn [snd]; lia|]. specialize (IH Hin). lia.
        + intros Hu. apply uk_obj in Hu as [_ Hu]. rewrite Forall_forall in Hu. specialize (Hu _ Hin). apply uk_arr. exact Hu.
      - eapply epost_bind; [eapply (addInstance_ok e addp d HA _ cx R rk dag next); eauto|].
        intros [cx1 [nx|]] (E1 & G1 & rk1 & HS1 & HR); cbn [epost fst snd] in *; (split; [exact E1|]); exists G1, rk1; (split; [exact HS1|]); auto.
        destruct HR as [HR1 HR2]. cbn [snd]. split; [|split; auto]. destruct mode; auto. eapply (step_okref (c_nodes cx)); eauto. }
    destruct tv; try exact HM.
Qed.

Lemma addInternal_ok e : forall fuel, inner_good fuel (addInternal e fuel).
Proof.
  induction fuel as [|f IH]; intros cx mode dag conf next R rk HG Hd Hdag Hnext Hb; [lia|].
  cbn [addInternal]. eapply (addInternal_step_ok e _ f _); eauto; try lia.
  intros cx1 n conf1 R1 rk1 HG1 Hn Hd1. eapply epost_bind; [eapply (IH cx1 Seq (Some n) conf1 None); eauto; exact I|].
  intros [cx2 [[d2 n2]|]] (E2 & G2 & rk2 & HS2 & HR2); cbn [epost fst snd] in *; (split; [exact E2|]); exists G2, rk2; (split; [exact HS2|]); auto. apply HR2.
Qed.

Lemma addParser_ok e cx dag conf R rk : gi (c_nodes cx) R rk -> okref (c_nodes cx) (Some dag) ->
  epost (fun x => fst x = set_nodes cx (c_nodes (fst x)) /\
    exists G rk', step (c_nodes cx) R rk (objects conf) (unique_keys conf) (c_nodes (fst x)) [] G rk' /\
    match snd x with None => True | Some d => okref (c_nodes (fst x)) d end) (addParser e cx dag conf).
Proof.
  intros HG Hd. unfold addParser. eapply epost_bind; [eapply (addInternal_ok e _ cx Seq (Some dag) conf None); eauto; exact I|].
  intros [cx2 [[d2 n2]|]] (E2 & G2 & rk2 & HS2 & HR2); cbn [epost fst snd] in *; (split; [exact E2|]); exists G2, rk2; (split; [exact HS2|]); auto. apply HR2.
Qed.
