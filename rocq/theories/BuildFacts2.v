(** * BuildFacts2: ln_pdagAddParser keeps the graph sound. *)
From Verif Require Import Base Parsers Engine Pdag GraphSpec BaseFacts EngineFacts2 HeapFacts DeleteFacts BuildFacts.
From Coq Require Import ZifyBool ZifyNat ZifyN.

(** ** configurations *)
Definition objs_l (l : list json) : nat := fold_right (fun j n => objects j + n) 0 l.
Definition objs_f (l : fields) : nat := fold_right (fun kv n => objects (snd kv) + n) 0 l.
Lemma objects_arr l : objects (JArr l) = objs_l l.
Proof. cbn [objects]. induction l as [|x l IH]; cbn; auto. Qed.
Lemma objects_obj l : objects (JObj l) = S (objs_f l).
Proof. reflexivity. Qed.
Lemma uk_arr l : unique_keys (JArr l) <-> Forall unique_keys l.
Proof. cbn [unique_keys]. induction l as [|x l IH]; [split; auto|]. rewrite IH. split; intros H; [destruct H; constructor|inversion H]; auto. Qed.
Lemma uk_obj l : unique_keys (JObj l) <-> NoDup (map fst l) /\ Forall (fun kv => unique_keys (snd kv)) l.
Proof.
  cbn [unique_keys]. apply and_iff_compat_l. induction l as [|x l IH]; [split; auto|]. rewrite IH. split; intros H; [destruct H; constructor|inversion H]; auto.
Qed.
Lemma obj_del_incl l k : incl (obj_del l k) l.
Proof. induction l as [|[k' v] l IH]; intros x Hx; cbn in *; auto. destruct (text_eqb k k'); cbn in *; auto. destruct Hx; auto. Qed.
Lemma obj_del_objs l k : objs_f (obj_del l k) <= objs_f l.
Proof. unfold objs_f. induction l as [|[k' v] l IH]; cbn; auto. destruct (text_eqb k k'); cbn in *; lia. Qed.
Lemma obj_del_nodup l k : NoDup (map fst l) -> NoDup (map fst (obj_del l k)).
Proof.
  induction l as [|[k' v] l IH]; cbn; auto. intros H. inversion H as [|? ? H1 H2]; subst. destruct (text_eqb k k'); auto. cbn. constructor; auto.
  intros Hin. apply H1. apply in_map_iff in Hin as (x & <- & Hx). apply in_map. eapply obj_del_incl; eauto.
Qed.
Definition depth_f (d : nat) (l : fields) : Prop := Forall (fun kv => jdepth (snd kv) < d) l.
Lemma jdepth_obj l : depth_f (jdepth (JObj l)) l.
Proof.
  unfold depth_f. cbn [jdepth]. apply Forall_forall. intros x Hx. apply le_n_S. induction l as [|y l IH]; [destruct Hx|]. cbn. destruct Hx as [->|Hx]; [lia|]. specialize (IH Hx). lia.
Qed.
Lemma jdepth_arr l : Forall (fun j => jdepth j < jdepth (JArr l)) l.
Proof.
  cbn [jdepth]. apply Forall_forall. intros x Hx. apply le_n_S. induction l as [|y l IH]; [destruct Hx|]. cbn. destruct Hx as [->|Hx]; [lia|]. specialize (IH Hx). lia.
Qed.

(** ** constructors without inner graphs *)
Definition okub (u : ub) : Prop := u <> UseAfterFree /\ u <> OutOfFuel.
Lemma need_str_ep e v : epost (fun _ => True) (need_str e v).
Proof. unfold need_str. destruct (jstring e v); cbn; auto. split; discriminate. Qed.
Ltac ep := repeat first
  [ apply need_str_ep
  | eapply epost_bind; [apply need_str_ep|]; intros
  | eapply epost_bind; [solve [eauto]|]; intros
  | match goal with |- epost _ (if ?b then _ else _) => destruct b end
  | match goal with |- epost _ (match ?b with _ => _ end) => destruct b end
  | progress cbn [epost]; split; discriminate
  | exact I ].
Lemma fmt_conf_ep e fo um l : forall f mx, epost (fun _ => True) (fmt_conf e fo um l f mx).
Proof. induction l as [|[k v] l IH]; intros f mx; cbn [fmt_conf]; ep; auto. Qed.
Lemma extradata_ep e ty l mk : epost (fun _ => True) (extradata e ty l mk).
Proof. unfold extradata. ep. Qed.
Lemma lea_conf_ep e l : forall t, epost (fun _ => True) (lea_conf e l t).
Proof. induction l as [|[k v] l IH]; intros t; cbn [lea_conf]; ep; auto. Qed.
Lemma add_perm_ep e p s : epost (fun _ => True) (add_perm e p s).
Proof. unfold add_perm. ep. Qed.
Lemma perm_members_ep e l : forall p, epost (fun _ => True) (perm_members e l p).
Proof.
  induction l as [|[k v] l IH]; intros p; cbn [perm_members]; [exact I|]. eapply epost_bind; [|intros; apply IH].
  ep; apply add_perm_ep.
Qed.
Lemma perm_array_ep e l : forall p, epost (fun _ => True) (perm_array e l p).
Proof.
  induction l as [|v l IH]; intros p; cbn [perm_array]; [exact I|]. destruct v; try (cbn; split; discriminate). eapply epost_bind; [apply perm_members_ep|intros; apply IH].
Qed.
Lemma string_conf_ep e l : forall c, epost (fun _ => True) (string_conf e l c).
Proof.
  induction l as [|[k v] l IH]; intros c; cbn [string_conf]; [exact I|].
  ep; auto; eapply epost_bind; try (intros; apply IH); ep; auto using add_perm_ep, perm_array_ep; exact I.
Qed.
Lemma simple_type_ep e ty l pr m : simple_type e ty l = Some (pr, m) -> epost (fun _ => True) m.
Proof.
  unfold simple_type. intros H.
  repeat match type of H with
  | (if ?b then _ else _) = _ => destruct b
  | Some (_, _) = Some (_, _) => injection H as <- <-
  | None = _ => discriminate
  end; try exact I; try apply extradata_ep; try (eapply epost_bind; [apply fmt_conf_ep|]; intros [? ?] _; exact I).
  - ep.
  - eapply epost_bind; [apply lea_conf_ep|]. intros; exact I.
  - unfold construct_string. eapply epost_bind; [apply string_conf_ep|]. intros [c|] _; exact I.
Qed.
Lemma simple_type_none e ty l l' : simple_type e ty l = None -> simple_type e ty l' = None.
Proof. unfold simple_type. intros H. repeat match type of H with (if ?b then _ else _) = _ => destruct b; [discriminate|] end. reflexivity. Qed.

Lemma count_dots_ep e l : epost (fun _ => True) (count_dots e l).
Proof.
  induction l as [|j l IH]; cbn [count_dots]; [exact I|]. eapply (epost_bind (fun _ => True)); [|intros; eapply epost_bind; [apply IH|intros; exact I]].
  unfold is_dot. destruct (jget j "name") as [v|]; [|exact I]. destruct v; try exact I; (eapply epost_bind; [apply need_str_ep|]; intros; exact I).
Qed.
Lemma chkNoDupeDot_ep e v : epost (fun _ => True) (chkNoDupeDot e v).
Proof. unfold chkNoDupeDot. destruct v; try exact I. eapply epost_bind; [apply count_dots_ep|]. intros. exact I. Qed.

(** ** references *)
Definition okref (h : list (option node)) (o : option nat) : Prop := match o with Some i => exists n, live h i n | None => True end.
Definition below (rk : nat -> nat) (o d : option nat) : Prop := match o, d with Some a, Some b => rk a < rk b | Some _, None => False | None, _ => True end.
Definition opt (o : option nat) : list nat := match o with Some i => [i] | None => [] end.

Lemma step_okref h R rk k nd h' F G rk' o : gi h R rk -> step h R rk k nd h' F G rk' -> okref h o -> okref h' o.
Proof. intros HG HS. destruct o; cbn; auto. intros [x Hx]. eapply step_survive; eauto. Qed.
Lemma okref_lt h i : okref h (Some i) -> i < List.length h. Proof. intros [n Hn]. eapply live_lt; eauto. Qed.
Lemma step_below h R rk k nd h' F G rk' o d : step h R rk k nd h' F G rk' -> okref h o -> okref h d -> below rk o d -> below rk' o d.
Proof. intros [_ _ HM _ _]. destruct o as [a|], d as [b|]; cbn; auto. intros [x Hx] [y Hy] H. apply HM; auto; eapply live_lt; eauto. Qed.

(** result of adding: [dag], [next] are where it started *)
Definition apost (cx : ctx) (R : list nat) (rk : nat -> nat) (k : nat) (nd : Prop) (dag : option nat)
  (x : ctx * option (option nat * option nat)) : Prop :=
  fst x = set_nodes cx (c_nodes (fst x)) /\
  exists G rk', step (c_nodes cx) R rk k nd (c_nodes (fst x)) [] G rk' /\
  match snd x with
  | None => True
  | Some (d, nx) => okref (c_nodes (fst x)) d /\ okref (c_nodes (fst x)) nx /\ below rk' nx dag
  end.
Definition addp_ok (d : nat) (addp : ctx -> nat -> json -> er (ctx * option (option nat))) : Prop :=
  forall cx n conf R rk, gi (c_nodes cx) R rk -> okref (c_nodes cx) (Some n) -> jdepth conf < d ->
  epost (fun x => fst x = set_nodes cx (c_nodes (fst x)) /\
           exists G rk', step (c_nodes cx) R rk (objects conf) (unique_keys conf) (c_nodes (fst x)) [] G rk' /\
           match snd x with None => True | Some d => okref (c_nodes (fst x)) d end) (addp cx n conf).

Definition key_once (k : string) (l : fields) (o : option nat) : Prop :=
  match o with None => True | Some _ => ~ In (L k) (map fst l) end.

Lemma set_nodes_set cx h h' : set_nodes (set_nodes cx h) h' = set_nodes cx h'. Proof. reflexivity. Qed.
Lemma nodes_set cx h : c_nodes (set_nodes cx h) = h. Proof. reflexivity. Qed.

Lemma step_drop_opt h R rk k nd h1 o F G rk1 : step h R rk k nd h1 (opt o ++ F) G rk1 ->
  exists G', step h R rk k (nd /\ o = None) h1 F G' rk1.
Proof.
  intros HS. destruct o as [i|]; cbn [opt app] in HS.
  - exists (i :: G). apply step_lose in HS. eapply step_weak; [apply le_n| |exact HS]. intros [_ ?]. discriminate.
  - exists G. eapply step_weak; [apply le_n| |exact HS]. tauto.
Qed.

(** the floats [F] rank below everything older than [D] *)
Definition low (D : nat) (rk : nat -> nat) (F : list nat) : Prop := forall f j, In f F -> j < D -> rk f < rk j.

(** a new inner graph is built and held *)
Lemma inner_ok addp d (HA : addp_ok d addp) cx h0 R0 rk0 k0 nd0 F G rk v :
  gi h0 R0 rk0 -> step h0 R0 rk0 k0 nd0 (c_nodes cx) F G rk -> low (List.length h0) rk F -> jdepth v < d ->
  epost (fun x => fst x = set_nodes cx (c_nodes (fst x)) /\
     exists G' rk', step h0 R0 rk0 (k0 + objects v) (nd0 /\ unique_keys v) (c_nodes (fst x)) (List.length (c_nodes cx) :: F) G' rk' /\
       low (List.length h0) rk' (List.length (c_nodes cx) :: F) /\
       match snd x with None => True | Some d => okref (c_nodes (fst x)) d end)
    (addp (set_nodes cx (c_nodes cx ++ [Some new_node])) (List.length (c_nodes cx)) v).
Proof.
  intros HG0 HS HL Hd. set (n := List.length (c_nodes cx)).
  pose proof (step_new _ _ _ True (s_gi _ _ _ _ _ _ _ _ _ HS)) as HN.
  pose proof (step_trans _ _ _ _ _ _ _ _ _ _ _ _ _ _ _ HG0 HS HN) as HT. cbn [app] in HT.
  pose proof (s_gi _ _ _ _ _ _ _ _ _ HT) as HG1.
  pose proof (s_len _ _ _ _ _ _ _ _ _ HS) as Hlen.
  assert (HL1 : low (List.length h0) (fresh_rank n rk) (n :: F)).
  { intros f j [<-|Hf] Hj; unfold fresh_rank; fold n in Hlen.
    - rewrite Nat.eqb_refl. destruct (Nat.eqb_spec j n); lia.
    - specialize (HL _ _ Hf Hj). destruct (Nat.eqb_spec j n), (Nat.eqb_spec f n); lia. }
  eapply epost_mono; [apply (HA (set_nodes cx (c_nodes cx ++ [Some new_node])) n v ((n :: F) ++ G ++ R0) (fresh_rank n rk))|].
  - exact HG1.
  - exists new_node. rewrite nodes_set. apply live_app. right. auto.
  - exact Hd.
  - intros [cx' en] (E & G' & rk' & HS' & Hen). cbn [fst snd] in *. rewrite set_nodes_set in E. split; [exact E|].
    rewrite nodes_set in HS'. pose proof (step_trans _ _ _ _ _ _ _ _ _ _ _ _ _ _ _ HG0 HT HS') as HT2. cbn [app] in HT2.
    exists (G' ++ G), rk'. split; [|split; [|exact Hen]].
    + eapply step_weak; [| |exact HT2]; [lia|tauto].
    + intros f j Hf Hj. pose proof (HL1 _ _ Hf Hj) as Hlt. apply (s_mono _ _ _ _ _ _ _ _ _ HS'); auto.
      * eapply gi_lt; [exact HG1|]. apply in_or_app. right. apply in_or_app. left. exact Hf.
      * rewrite app_length. fold n in Hlen |- *. lia.
Qed.

Lemma repeat_conf_ok e addp d (HA : addp_ok d addp) : forall l pn wn permit cx h0 R0 rk0 k0 nd0 G rk,
  gi h0 R0 rk0 -> step h0 R0 rk0 k0 nd0 (c_nodes cx) (opt pn ++ opt wn) G rk ->
  low (List.length h0) rk (opt pn ++ opt wn) -> depth_f d l ->
  epost (fun x => let '(cx', pn', wn', _) := x in
      cx' = set_nodes cx (c_nodes cx') /\
      exists G' rk', step h0 R0 rk0 (k0 + objs_f l)
        (nd0 /\ NoDup (map fst l) /\ Forall (fun kv => unique_keys (snd kv)) l /\ key_once "parser" l pn /\ key_once "while" l wn)
        (c_nodes cx') (opt pn' ++ opt wn') G' rk' /\ low (List.length h0) rk' (opt pn' ++ opt wn'))
    (repeat_conf e addp l pn wn permit cx).
Proof.
  induction l as [|[k v] l IH]; intros pn wn permit cx h0 R0 rk0 k0 nd0 G rk HG0 HS HL Hd.
  - cbn [repeat_conf epost]. split; [destruct cx; reflexivity|]. exists G, rk. split; [|exact HL]. eapply step_weak; [| |exact HS]; [cbn; lia|tauto].
  - inversion Hd as [|? ? Hd1 Hd2]; subst. cbn [snd] in Hd1. cbn [repeat_conf].
    assert (HW : forall G' rk' cx' pn' wn' permit' k1 nd1, cx' = set_nodes cx (c_nodes cx') ->
       step h0 R0 rk0 k1 nd1 (c_nodes cx') (opt pn' ++ opt wn') G' rk' -> low (List.length h0) rk' (opt pn' ++ opt wn') ->
       k1 <= k0 + objects v ->
       (nd0 /\ NoDup (k :: map fst l) /\ unique_keys v /\ key_once "parser" ((k, v) :: l) pn /\ key_once "while" ((k, v) :: l) wn ->
         nd1 /\ key_once "parser" l pn' /\ key_once "while" l wn') ->
       epost (fun x => let '(cx', pn', wn', _) := x in cx' = set_nodes cx (c_nodes cx') /\
         exists G' rk', step h0 R0 rk0 (k0 + objs_f ((k, v) :: l))
           (nd0 /\ NoDup (map fst ((k, v) :: l)) /\ Forall (fun kv => unique_keys (snd kv)) ((k, v) :: l) /\
            key_once "parser" ((k, v) :: l) pn /\ key_once "while" ((k, v) :: l) wn)
           (c_nodes cx') (opt pn' ++ opt wn') G' rk' /\ low (List.length h0) rk' (opt pn' ++ opt wn'))
         (repeat_conf e addp l pn' wn' permit' cx')).
    { intros G' rk' cx' pn' wn' permit' k1 nd1 Ecx HS' HL' Hk Hnd. eapply epost_mono; [eapply IH; eauto|].
      intros [[[cx2 pn2] wn2] perm2] (E & G2 & rk2 & HS2 & HL2). split; [rewrite E, Ecx; reflexivity|]. exists G2, rk2. split; [|exact HL2].
      eapply step_weak; [| |exact HS2]; [change (objs_f ((k, v) :: l)) with (objects v + objs_f l); lia|]. cbn [map fst]. intros (A1 & A2 & A3 & A4 & A5). inversion A3; subst. inversion A2; subst.
      destruct Hnd as (B1 & B2 & B3); [tauto|]. tauto. }
    assert (HStop : forall G' rk' cx' pn' wn' permit' k1 nd1, cx' = set_nodes cx (c_nodes cx') ->
       step h0 R0 rk0 k1 nd1 (c_nodes cx') (opt pn' ++ opt wn') G' rk' -> low (List.length h0) rk' (opt pn' ++ opt wn') ->
       k1 <= k0 + objects v ->
       (nd0 /\ NoDup (k :: map fst l) /\ unique_keys v /\ key_once "parser" ((k, v) :: l) pn /\ key_once "while" ((k, v) :: l) wn -> nd1) ->
       epost (fun x : ctx * option nat * option nat * bool => let '(cx', pn', wn', _) := x in cx' = set_nodes cx (c_nodes cx') /\
         exists G' rk', step h0 R0 rk0 (k0 + objs_f ((k, v) :: l))
           (nd0 /\ NoDup (map fst ((k, v) :: l)) /\ Forall (fun kv => unique_keys (snd kv)) ((k, v) :: l) /\
            key_once "parser" ((k, v) :: l) pn /\ key_once "while" ((k, v) :: l) wn)
           (c_nodes cx') (opt pn' ++ opt wn') G' rk' /\ low (List.length h0) rk' (opt pn' ++ opt wn'))
         (EOk (cx', pn', wn', permit'))).
    { intros G' rk' cx' pn' wn' permit' k1 nd1 Ecx HS' HL' Hk Hnd. cbn [epost]. split; [exact Ecx|]. exists G', rk'. split; [|exact HL'].
      eapply step_weak; [| |exact HS']; [change (objs_f ((k, v) :: l)) with (objects v + objs_f l); lia|]. intros (A1 & A2 & A3 & A4 & A5). inversion A3; subst. apply Hnd. tauto. }
    assert (HKO : forall s o, key_once s ((k, v) :: l) o -> key_once s l o).
    { intros s [i|]; cbn; auto. }
    assert (HKN : forall s o, k = L s -> key_once s ((k, v) :: l) o -> o = None).
    { intros s [i|] -> ; cbn; auto. intros Hn. exfalso. auto. }
    destruct (text_eqb k (L "parser")) eqn:E1; [|destruct (text_eqb k (L "while")) eqn:E2].
    + apply text_eqb_true in E1. destruct (chkNoDupeDot e v) as [good|u] eqn:EC; cbn [ebind].
      2:{ pose proof (chkNoDupeDot_ep e v) as HH. rewrite EC in HH. exact HH. }
      destruct (negb good).
      { apply (HStop G rk cx pn wn permit k0 nd0); auto; try lia; [destruct cx; reflexivity|tauto]. }
      unfold newPDAG.
      destruct (step_drop_opt _ _ _ _ _ _ _ _ _ _ HS) as [G1 HS1].
      assert (HL1 : low (List.length h0) rk (opt wn)). { intros f j Hf Hj. apply HL; auto. apply in_or_app. auto. }
      eapply epost_bind; [eapply (inner_ok addp d HA cx h0 R0 rk0 k0 _ (opt wn) G1 rk v); eauto|].
      intros [cx' en] (E & G' & rk' & HS' & HL' & Hen). cbn [fst snd] in *.
      destruct en as [[en|]|].
      * eapply (HW G' rk' _ (Some (List.length (c_nodes cx))) wn); [rewrite E; reflexivity| |exact HL'|apply le_n|].
        { rewrite nodes_set. apply step_quiet; [exact HG0| |apply quiet_term]. exact HS'. }
        intros (A1 & A2 & A3 & A4 & A5). inversion A2 as [|? ? A21 A22]; subst. split; [split; [split; [exact A1|]|exact A3]|].
        -- eapply HKN; [reflexivity|exact A4].
        -- split; [exact A21|eapply HKO; eauto].
      * cbn. split; discriminate.
      * eapply (HStop G' rk'); [exact E|exact HS'|exact HL'|apply le_n|]. intros (A1 & A2 & A3 & A4 & A5). split; [split; [exact A1|]|exact A3]. eapply HKN; [|exact A4]. auto.
    + apply text_eqb_true in E2. unfold newPDAG.
      assert (HS0 : step h0 R0 rk0 k0 nd0 (c_nodes cx) (opt wn ++ opt pn) G rk).
      { eapply step_F; [|exact HS]. intros j. rewrite !cnt_app. lia. }
      destruct (step_drop_opt _ _ _ _ _ _ _ _ _ _ HS0) as [G1 HS1].
      assert (HL1 : low (List.length h0) rk (opt pn)). { intros f j Hf Hj. apply HL; auto. apply in_or_app. auto. }
      eapply epost_bind; [eapply (inner_ok addp d HA cx h0 R0 rk0 k0 _ (opt pn) G1 rk v); eauto|].
      intros [cx' en] (E & G' & rk' & HS' & HL' & Hen). cbn [fst snd] in *.
      assert (HS2 : step h0 R0 rk0 (k0 + objects v) ((nd0 /\ wn = None) /\ unique_keys v) (c_nodes cx') (opt pn ++ opt (Some (List.length (c_nodes cx)))) G' rk').
      { eapply step_F; [|exact HS']. intros j. rewrite cnt_cons, cnt_app. cbn [opt]. rewrite cnt_cons. cbn [count_occ]. lia. }
      assert (HL2 : low (List.length h0) rk' (opt pn ++ opt (Some (List.length (c_nodes cx))))).
      { intros f j Hf Hj. apply HL'; auto. apply in_app_or in Hf as [Hf|[<-|[]]]; cbn; auto. }
      destruct en as [[en|]|].
      * eapply (HW G' rk' _ pn (Some (List.length (c_nodes cx)))); [rewrite E; reflexivity| |exact HL2|apply le_n|].
        { rewrite nodes_set. apply step_quiet; [exact HG0| |apply quiet_term]. exact HS2. }
        intros (A1 & A2 & A3 & A4 & A5). inversion A2 as [|? ? A21 A22]; subst. split; [split; [split; [exact A1|]|exact A3]|].
        -- eapply HKN; [reflexivity|exact A5].
        -- split; [eapply HKO; eauto|exact A21].
      * cbn. split; discriminate.
      * eapply (HStop G' rk'); [exact E|exact HS2|exact HL2|apply le_n|]. intros (A1 & A2 & A3 & A4 & A5). split; [split; [exact A1|]|exact A3]. eapply HKN; [|exact A5]. auto.
    + destruct (caseeq k _); (eapply (HW G rk cx pn wn); [destruct cx; reflexivity|exact HS|exact HL|lia|]);
        intros (A1 & A2 & A3 & A4 & A5); split; auto.
Qed.

Definition ktargets (k : kind) : list nat := match k with KRepeat a b _ => [a; b] | _ => [] end.

Lemma construct_repeat_ok e addp d (HA : addp_ok d addp) l cx R rk : gi (c_nodes cx) R rk -> depth_f d l ->
  epost (fun x => fst x = set_nodes cx (c_nodes (fst x)) /\
      exists G' rk', step (c_nodes cx) R rk (objs_f l) (NoDup (map fst l) /\ Forall (fun kv => unique_keys (snd kv)) l)
        (c_nodes (fst x)) (ktargets (snd x)) G' rk' /\ low (List.length (c_nodes cx)) rk' (ktargets (snd x)))
    (construct_repeat e addp l cx).
Proof.
  intros HG Hd. unfold construct_repeat. eapply epost_bind; [eapply (repeat_conf_ok e addp d HA l None None); eauto|].
  - apply step_refl. exact HG.
  - intros f j [].
  - intros [[[cx1 pn] wn] perm] (E & G & rk1 & HS & HL).
    assert (HS' : step (c_nodes cx) R rk (objs_f l) (NoDup (map fst l) /\ Forall (fun kv => unique_keys (snd kv)) l) (c_nodes cx1) (opt pn ++ opt wn) G rk1).
    { eapply step_weak; [| |exact HS]; [cbn; lia|]. instantiate (1 := True). cbn. tauto. }
    clear HS.
    destruct pn as [p|], wn as [w|].
    + cbn [epost fst snd ktargets]. split; auto. exists G, rk1. auto.
    + cbn [opt app] in HS'. destruct (step_delete _ _ _ _ _ _ _ _ _ _ HG HS') as (h2 & -> & HS2 & _). cbn [ebind epost fst snd ktargets].
      split; [rewrite E; reflexivity|]. exists G, rk1. split; auto. intros f j [].
    + cbn [opt app] in HS'. cbn [ebind]. destruct (step_delete _ _ _ _ _ _ _ _ _ _ HG HS') as (h2 & -> & HS2 & _). cbn [ebind epost fst snd ktargets].
      split; [rewrite E; reflexivity|]. exists G, rk1. split; auto. intros f j [].
    + cbn [ebind epost fst snd ktargets]. split; [rewrite E; reflexivity|]. exists G, rk1. split; auto.
Qed.

Lemma newParser_ok e addp d (HA : addp_ok d addp) conf cx R rk : gi (c_nodes cx) R rk -> jdepth conf <= d ->
  epost (fun x => fst x = set_nodes cx (c_nodes (fst x)) /\
      exists G' rk', step (c_nodes cx) R rk (pred (objects conf)) (unique_keys conf)
        (c_nodes (fst x)) (match snd x with Some p => ktargets (p_kind p) | None => [] end) G' rk' /\
        match snd x with
        | Some p => low (List.length (c_nodes cx)) rk' (ktargets (p_kind p)) /\ 0 < objects conf
        | None => True
        end)
    (newParser e addp cx conf).
Proof.
  intros HG Hd. unfold newParser.
  assert (HNone : epost (fun x : ctx * option prs => fst x = set_nodes cx (c_nodes (fst x)) /\
      exists G' rk', step (c_nodes cx) R rk (pred (objects conf)) (unique_keys conf)
        (c_nodes (fst x)) (match snd x with Some p => ktargets (p_kind p) | None => [] end) G' rk' /\
        match snd x with
        | Some p => low (List.length (c_nodes cx)) rk' (ktargets (p_kind p)) /\ 0 < objects conf
        | None => True
        end) (EOk (cx, None))).
  { cbn [epost fst snd]. split; [destruct cx; reflexivity|]. exists [], rk. split; auto. eapply step_weak; [| |apply step_refl; exact HG]; [lia|]. instantiate (1 := True). auto. }
  destruct conf as [| | | | | |l]; try exact HNone. cbn [jget].
  destruct (obj_get l (L "type")) as [tv|]; [|exact HNone].
  assert (HMain : epost (fun x : ctx * option prs => fst x = set_nodes cx (c_nodes (fst x)) /\
      exists G' rk', step (c_nodes cx) R rk (pred (objects (JObj l))) (unique_keys (JObj l))
        (c_nodes (fst x)) (match snd x with Some p => ktargets (p_kind p) | None => [] end) G' rk' /\
        match snd x with
        | Some p => low (List.length (c_nodes cx)) rk' (ktargets (p_kind p)) /\ 0 < objects (JObj l)
        | None => True
        end) (do* typ := need_str e tv in
      let custom := match typ with c :: _ => ceq c "@" | [] => false end in
      let cust := if custom then findType (c_types cx) typ 0 else None in
      let known := if custom then match cust with Some _ => true | None => false end
                   else (text_eqb typ (L "repeat") || match simple_type e typ [] with Some _ => true | None => false end)%bool in
      if negb known then EOk (cx, None)
      else
        do* name := match obj_get l (L "name") with
                    | None | Some JNull => EOk None
                    | Some v => do* s := need_str e v in
                                EOk (if text_eqb s (L "-") then None else Some s)
                    end in
        let assigned := match obj_get l (L "priority") with
                        | None | Some JNull => 30000%Z | Some v => get_int e v end in
        let rest := l in
        let rest := obj_del (obj_del rest (L "type")) (L "priority") in
        let rest := match name with Some _ => obj_del rest (L "name") | None => rest end in
        do* (cx, k, prio) :=
          match cust with
          | Some ti => EOk (cx, KCustom ti, 16%Z)
          | None =>
              if text_eqb typ (L "repeat") then
                do* (cx, k) := construct_repeat e addp rest cx in EOk (cx, k, 4%Z)
              else match simple_type e typ rest with
                   | Some (prio, m) => do* m := m in EOk (cx, KSimple m, prio)
                   | None => EUb NullDeref
                   end
          end in
        EOk (cx, Some {| p_kind := k; p_name := name; p_conf := JObj l;
                         p_prio := mk_prio assigned prio; p_child := 0 |}))).
  { eapply epost_bind; [apply need_str_ep|]. intros typ _. cbv zeta.
    match goal with |- epost _ (if ?b then _ else _) => destruct b end; [exact HNone|].
    eapply (epost_bind (fun _ => True)).
    { destruct (obj_get l (L "name")) as [v|]; [|exact I]. destruct v; try exact I; (eapply epost_bind; [apply need_str_ep|]; intros; exact I). }
    intros name _.
    set (rest := match name with Some _ => obj_del (obj_del (obj_del l (L "type")) (L "priority")) (L "name") | None => obj_del (obj_del l (L "type")) (L "priority") end).
    assert (Hinc : incl rest l). { unfold rest. destruct name; repeat (eapply incl_tran; [apply obj_del_incl|]); apply incl_refl. }
    assert (Hobj : objs_f rest <= objs_f l). { unfold rest. destruct name; repeat (etransitivity; [apply obj_del_objs|]); auto. }
    assert (Hnd : NoDup (map fst l) -> NoDup (map fst rest)). { unfold rest. destruct name; intros; repeat apply obj_del_nodup; auto. }
    assert (HS0 : step (c_nodes cx) R rk (pred (objects (JObj l))) (unique_keys (JObj l)) (c_nodes cx) [] [] rk).
    { eapply step_weak; [| |apply step_refl; exact HG]; [lia|]. instantiate (1 := True). auto. }
    match goal with |- context [findType ?a ?b ?c] => generalize (findType a b c) end. intros ft.
    destruct (if match typ with c :: _ => ceq c "@" | [] => false end then ft else None) as [ti|].
    - cbn [ebind epost fst snd p_kind ktargets]. split; [destruct cx; reflexivity|]. exists [], rk. split; [exact HS0|]. split; [intros f j []|rewrite objects_obj; lia].
    - destruct (text_eqb typ (L "repeat")).
      + eapply (epost_bind (fun x => fst (fst x) = set_nodes cx (c_nodes (fst (fst x))) /\
          exists G' rk', step (c_nodes cx) R rk (objs_f rest) (NoDup (map fst rest) /\ Forall (fun kv => unique_keys (snd kv)) rest)
            (c_nodes (fst (fst x))) (ktargets (snd (fst x))) G' rk' /\ low (List.length (c_nodes cx)) rk' (ktargets (snd (fst x))))).
        { eapply epost_bind; [eapply (construct_repeat_ok e addp d HA rest cx R rk HG)|].
          - pose proof (jdepth_obj l) as HJ. unfold depth_f in *. rewrite Forall_forall in *. intros kv Hkv. specialize (HJ _ (Hinc _ Hkv)). lia.
          - intros [cx1 k1] H. exact H. }
        intros [[cx1 k1] pr] (E & G' & rk' & HS & HL). cbn [ebind epost fst snd p_kind] in *. split; auto. exists G', rk'. split; [|split; [exact HL|rewrite objects_obj; lia]].
        eapply step_weak; [| |exact HS]; [rewrite objects_obj; exact Hobj|].
        intros Hu; apply uk_obj in Hu as [Hu1 Hu2]; split; [auto|]; apply Forall_forall; intros x Hx; rewrite Forall_forall in Hu2; auto.
      + destruct (simple_type e typ rest) as [[pr m]|] eqn:ES; [|cbn; split; discriminate].
        pose proof (simple_type_ep _ _ _ _ _ ES) as Hm. destruct m as [m|u]; [|exact Hm]. cbn [ebind epost fst snd p_kind ktargets].
        split; [destruct cx; reflexivity|]. exists [], rk. split; [exact HS0|]. split; [intros f j []|rewrite objects_obj; lia]. }
  destruct tv; try exact HMain. exact HNone.
Qed.
