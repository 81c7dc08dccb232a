(** * AltFacts: adding rules with alternatives to graphs in which the alternatives of a step
    share their target. *)
From Verif Require Import Base Time Parsers Engine Pdag Samp GraphSpec RuleSpec BuiltSpec AltSpec BaseFacts EngineFacts EngineFacts2 EngineFacts3 HeapFacts DeleteFacts BuildFacts BuildFacts2 BuildFacts3 OptSem LoadFacts TreeFacts TreeFacts2 BuiltFacts RuleFacts.
From Coq Require Import ZifyBool ZifyNat ZifyN.

(** [alts h i c x]: node [i] has the field [x], leading to node [c]. *)
Definition alts (h : list (option node)) (i c : nat) (x : json) : Prop :=
  exists n p, live h i n /\ In p (n_parsers n) /\ p_child p = c /\ p_conf p = x.

Inductive wpath (h : list (option node)) : nat -> arule -> nat -> Prop :=
| wp_nil : forall i, wpath h i [] i
| wp_cons : forall i c s ss j, s <> [] -> (forall x, In x s <-> alts h i c x) -> wpath h c ss j -> wpath h i (s :: ss) j.

Record wide (e : env) (cx : ctx) : Prop := {
  w_types : c_types cx = [];
  w_root : exists n, live (c_nodes cx) (c_root cx) n;
  w_child : forall i c x, alts (c_nodes cx) i c x -> exists n, live (c_nodes cx) c n;
  w_one : forall i j c x y, alts (c_nodes cx) i c x -> alts (c_nodes cx) j c y -> i = j;
  w_noroot : forall i c x, alts (c_nodes cx) i c x -> c <> c_root cx;
  w_uniq : forall i c c' x, alts (c_nodes cx) i c x -> alts (c_nodes cx) i c' x -> c = c';
  w_flat : forall i n p, live (c_nodes cx) i n -> In p (n_parsers n) -> flat_field e [] (p_conf p) = Some (p_kind p, p_name p) }.

(** ** paths *)
Lemma same_step_refl s : same_step s s. Proof. intros x. reflexivity. Qed.
Lemma same_step_sym a b : same_step a b -> same_step b a. Proof. intros H x. symmetry. apply H. Qed.
Lemma same_step_trans a b c : same_step a b -> same_step b c -> same_step a c. Proof. intros H G x. rewrite (H x). apply G. Qed.
Lemma same_steps_refl r : same_steps r r. Proof. induction r; constructor; auto using same_step_refl. Qed.
Lemma same_steps_sym a b : same_steps a b -> same_steps b a. Proof. induction 1; constructor; auto using same_step_sym. Qed.
Lemma same_steps_trans a b c : same_steps a b -> same_steps b c -> same_steps a c.
Proof. intros H. revert c. induction H; intros c G; inversion G; subst; constructor; [eapply same_step_trans; eauto|apply IHForall2; assumption]. Qed.
Lemma same_steps_app a b c d : same_steps a b -> same_steps c d -> same_steps (a ++ c) (b ++ d).
Proof. intros. apply Forall2_app; auto. Qed.

Lemma wpath_app h i ss j tt k : wpath h i ss j -> wpath h j tt k -> wpath h i (ss ++ tt) k.
Proof. induction 1; cbn; auto. intros. econstructor; eauto. Qed.
Lemma wpath_snoc_inv h ss s : forall i j, wpath h i (ss ++ [s]) j -> exists c, wpath h i ss c /\ s <> [] /\ forall x, In x s <-> alts h c j x.
Proof.
  induction ss as [|t ss IH]; intros i j H; cbn in H; inversion H; subst.
  - inversion H6; subst. exists i. split; [constructor|]. auto.
  - apply IH in H6 as (c' & A & B & C). exists c'. split; auto. econstructor; eauto.
Qed.
Lemma wpath_app_inv h ss : forall tt i k, wpath h i (ss ++ tt) k -> exists j, wpath h i ss j /\ wpath h j tt k.
Proof.
  induction ss as [|s ss IH]; intros tt i k H; cbn in H; [exists i; split; [constructor|auto]|]. inversion H; subst.
  apply IH in H6 as (j & A & B). exists j. split; auto. econstructor; eauto.
Qed.
Lemma wpath_same h : forall ss i j, wpath h i ss j -> forall ss', same_steps ss ss' -> wpath h i ss' j.
Proof.
  induction 1; intros ss' HS; inversion HS; subst; [constructor|]. econstructor; [|intros x; rewrite <- (H4 x); apply H0|auto].
  intros ->. destruct s as [|x s]; [congruence|]. destruct (proj1 (H4 x) (or_introl eq_refl)).
Qed.
Lemma wpath_unique e cx : wide e cx -> forall ss tt b, wpath (c_nodes cx) (c_root cx) ss b -> wpath (c_nodes cx) (c_root cx) tt b -> same_steps ss tt.
Proof.
  intros W ss. induction ss as [|s ss IH] using rev_ind; intros tt b H1 H2.
  - inversion H1; subst. destruct tt as [|t tt _] using rev_ind; [constructor|]. exfalso.
    apply wpath_snoc_inv in H2 as (c & _ & Ht & HA). destruct t as [|x t]; [congruence|]. apply (w_noroot _ _ W c (c_root cx) x); auto. apply HA. left; auto.
  - apply wpath_snoc_inv in H1 as (c & H1 & Hs & HA). destruct tt as [|t tt _] using rev_ind.
    + exfalso. inversion H2; subst. destruct s as [|x s]; [congruence|]. apply (w_noroot _ _ W c (c_root cx) x); auto. apply HA. left; auto.
    + apply wpath_snoc_inv in H2 as (c' & H2 & Ht & HA'). assert (c = c').
      { destruct s as [|x s]; [congruence|]. destruct t as [|y t]; [congruence|]. eapply (w_one _ _ W); [apply HA; left; eauto|apply HA'; left; eauto]. }
      subst c'. apply same_steps_app; eauto. constructor; [|constructor]. intros x. rewrite (HA x), (HA' x). reflexivity.
Qed.
Lemma wpath_det e cx : wide e cx -> forall ss tt i b c, wpath (c_nodes cx) i ss b -> wpath (c_nodes cx) i tt c -> same_steps ss tt -> b = c.
Proof.
  intros W. induction ss as [|s ss IH]; intros tt i b c H1 H2 HS; inversion HS as [|? t ? tt' Hst HS']; subst.
  - inversion H1; inversion H2; subst; auto.
  - inversion H1 as [|? c0 ? ? ? Hs A1 P1]; inversion H2 as [|? c1 ? ? ? Ht A2 P2]; subst.
    assert (c0 = c1). { destruct s as [|x s]; [congruence|]. eapply (w_uniq _ _ W i); [apply A1; left; eauto|apply A2; apply Hst; left; auto]. } subst c1. eapply IH; eauto.
Qed.

Lemma path_wpath h i ps j : path h i ps j -> exists ss, wpath h i ss j /\ Forall2 (fun c s => In c s) (confs ps) ss.
Proof.
  induction 1 as [i|i n p ps j Hn Hp HP (ss & HW & HF)]; [exists []; split; constructor|].
  set (s := map p_conf (filter (fun q => Nat.eqb (p_child q) (p_child p)) (n_parsers n))).
  assert (HA : forall x, In x s <-> alts h i (p_child p) x).
  { intros x. unfold s. rewrite in_map_iff. split.
    - intros (q & <- & Hq). apply filter_In in Hq as [Hq E]. apply Nat.eqb_eq in E. exists n, q. auto.
    - intros (n' & q & Hn' & Hq & E & <-). assert (n' = n) by (eapply live_fun; eauto). subst n'. exists q. split; auto. apply filter_In. split; auto. apply Nat.eqb_eq. auto. }
  assert (Hin : In (p_conf p) s). { apply HA. exists n, p. auto. }
  exists (s :: ss). split; [econstructor; eauto; intros E; rewrite E in Hin; destruct Hin|]. constructor; auto.
Qed.
Lemma wpath_path h i ss j : wpath h i ss j -> forall cs, Forall2 (fun c s => In c s) cs ss -> exists ps, path h i ps j /\ confs ps = cs.
Proof.
  induction 1 as [i|i c s ss j Hs HA HW IH]; intros cs HF; inversion HF; subst; [exists []; split; [constructor|reflexivity]|].
  apply HA in H2 as (n & p & Hn & Hp & <- & <-). destruct (IH _ H3) as (ps & HP & <-). exists (p :: ps). split; [econstructor; eauto|reflexivity].
Qed.

(** ** one field *)
Section Add.
Variable e : env.

Lemma addInstance_wide addp cx d n conf k nm next : c_types cx = [] -> live (c_nodes cx) d n -> List.length (n_parsers n) < 255 ->
  (forall q, In q (n_parsers n) -> flat_field e [] (p_conf q) = Some (p_kind q, p_name q)) ->
  flat_field e [] conf = Some (k, nm) ->
  (exists q, In q (n_parsers n) /\ p_conf q = conf /\ addInstance e addp cx conf (Some d) next = EOk (cx, Some (p_child q))) \/
  ((forall q, In q (n_parsers n) -> p_conf q <> conf) /\ exists pr,
    match next with
    | None => addInstance e addp cx conf (Some d) next = EOk (set_nodes cx (upd_node (c_nodes cx ++ [Some new_node]) d
        (fun n => set_parsers n (n_parsers n ++ [{| p_kind := k; p_name := nm; p_conf := conf; p_prio := pr; p_child := List.length (c_nodes cx) |}]))), Some (List.length (c_nodes cx)))
    | Some c => forall m, live (c_nodes cx) c m -> c <> d -> addInstance e addp cx conf (Some d) next = EOk (set_nodes cx (upd_node (upd_node (c_nodes cx) c (fun m => set_refcnt m (n_refcnt m + 1))) d
        (fun n => set_parsers n (n_parsers n ++ [{| p_kind := k; p_name := nm; p_conf := conf; p_prio := pr; p_child := c |}]))), Some c)
    end).
Proof.
  intros HT Hd HL HQ HF. unfold addInstance. rewrite <- HT in HF. destruct (newParser_flat e addp cx conf k nm HF) as (pr & -> & HK). rewrite HT in HF. cbn [ebind].
  rewrite (live_get _ _ _ Hd). cbn [ebind p_kind].
  destruct (find_same_spec (n_parsers n) k conf) as [(q & Hq & Hc & ->)|[-> HN]].
  - left. exists q. split; auto. split; auto. destruct k; [|destruct HK|]; cbn [ebind]; rewrite <- set_nodes_self; reflexivity.
  - right. split.
    { intros q Hq Hc. apply (HN q Hq Hc). pose proof (HQ _ Hq) as HQ'. rewrite Hc, HF in HQ'. congruence. }
    exists pr. assert (HP : forall p, push_parser (n_parsers n) p = n_parsers n ++ [p]). { intros p. unfold push_parser. replace (Nat.eqb (List.length (n_parsers n)) 255) with false by (symmetry; apply Nat.eqb_neq; lia). reflexivity. }
    destruct next as [c|].
    + intros m Hm Hne. rewrite (live_get _ _ _ Hm). cbn [ebind]. rewrite set_nodes_set, nodes_set. cbn [p_name p_conf p_prio p_kind]. do 3 f_equal.
      apply (upd_node_ext _ d n); [apply live_upd_other; auto|]. rewrite HP. reflexivity.
    + cbn [newPDAG ebind]. rewrite nodes_set, set_nodes_set. cbn [p_name p_conf p_prio p_kind]. do 3 f_equal.
      apply (upd_node_ext _ d n); [apply live_app; auto|]. rewrite HP. reflexivity.
Qed.

(** ** one step *)
Definition widened (cx : ctx) (d : nat) (n : node) (added : list prs) (c : nat) (cx' : ctx) : Prop :=
  c = List.length (c_nodes cx) /\ cx' = set_nodes cx (c_nodes cx') /\ exists k, forall i m,
    live (c_nodes cx') i m <-> (i = d /\ m = set_parsers n (n_parsers n ++ added)) \/ (i <> d /\ live (c_nodes cx) i m) \/ (i = c /\ m = set_refcnt new_node k).
Definition good_prs (c : nat) (p : prs) : Prop := p_child p = c /\ flat_field e [] (p_conf p) = Some (p_kind p, p_name p).

Lemma alt_loop_made inner addp pn cx d n c : c_types cx = [] -> live (c_nodes cx) d n ->
  (forall q, In q (n_parsers n) -> flat_field e [] (p_conf q) = Some (p_kind q, p_name q)) ->
  forall l added cx1, widened cx d n added c cx1 -> Forall (good_prs c) added -> Forall (complete e []) l ->
  (forall x q, In x l -> In q (n_parsers n) -> p_conf q <> x) -> List.length (n_parsers n) + List.length added + List.length l <= 255 ->
  exists added' cx2, addParsers_loop e addp inner cx1 Alt l (Some d) (Some c) pn = EOk (cx2, Some (Some c, pn)) /\
    widened cx d n (added ++ added') c cx2 /\ Forall (good_prs c) (added ++ added') /\
    (forall x, In x (map p_conf added') -> In x l) /\ (forall x, In x l -> In x (map p_conf (added ++ added'))) /\ List.length added' <= List.length l.
Proof.
  intros HT Hd HQ. induction l as [|x l IH]; intros added cx1 HW HG HF HN HL; cbn [addParsers_loop].
  - exists [], cx1. rewrite app_nil_r. split; auto. split; auto. split; auto. cbn. split; auto. split; [intros ? []|auto].
  - pose proof HW as (Ec & Ecx & k0 & HLv). apply Forall_cons_iff in HF as [[k [nm Hk]] HF].
    assert (EJ : exists lx, x = JObj lx) by (destruct (flat_obj _ _ _ _ _ Hk) as (lx & ? & ? & -> & _); eauto). destruct EJ as [lx EJ].
    assert (Hd1 : live (c_nodes cx1) d (set_parsers n (n_parsers n ++ added))) by (apply HLv; auto).
    assert (Hc1 : live (c_nodes cx1) c (set_refcnt new_node k0)) by (apply HLv; auto).
    assert (Hne : c <> d) by (pose proof (live_lt _ _ _ Hd); lia).
    assert (HT1 : c_types cx1 = []) by (rewrite Ecx; exact HT).
    cbn [map List.length] in HL.
    destruct (addInstance_wide addp cx1 d _ x k nm (Some c) HT1 Hd1) as [(q & Hq & Hqc & EI)|(HNo & pr & EI)].
    + cbn [set_parsers n_parsers]. rewrite app_length. lia.
    + cbn [set_parsers n_parsers]. intros q Hq. apply in_app_or in Hq as [Hq|Hq]; auto. rewrite Forall_forall in HG. apply (HG q Hq).
    + exact Hk.
    + cbn [set_parsers n_parsers] in Hq. apply in_app_or in Hq as [Hq|Hq]; [exfalso; eapply HN; [left; reflexivity|exact Hq|exact Hqc]|].
      assert (Eq : p_child q = c) by (rewrite Forall_forall in HG; apply (HG q Hq)). rewrite Eq in EI.
      destruct (IH added cx1 HW HG HF) as (added' & cx2 & E2 & HW2 & HG2 & HA & HB & HC2); [intros; apply HN; auto; right; auto|lia|].
      exists added', cx2. split. { rewrite EJ in *. rewrite EI. cbn [ebind]. exact E2. }
      split; auto. split; auto. split; [intros; right; auto|]. split; [|cbn; lia]. intros y [<-|Hy]; auto. rewrite map_app. apply in_or_app. left. rewrite <- Hqc. apply in_map. exact Hq.
    + specialize (EI _ Hc1 Hne). set (p := {| p_kind := k; p_name := nm; p_conf := x; p_prio := pr; p_child := c |}) in *. set (cx1' := set_nodes cx1 _) in *.
      assert (HW' : widened cx d n (added ++ [p]) c cx1').
      { split; auto. split; [unfold cx1'; rewrite nodes_set, Ecx, set_nodes_set; reflexivity|]. exists (k0 + 1)%Z. intros i m. unfold cx1'. rewrite nodes_set, live_upd. split.
        - intros [[Hi Hm]|[<- (m0 & Hm & ->)]].
          + apply live_upd in Hm as [[Hi' Hm]|[<- (m0 & Hm & ->)]].
            * apply HLv in Hm as [[-> _]|[Hm|[-> _]]]; [congruence|auto|congruence].
            * assert (m0 = set_refcnt new_node k0) by (eapply live_fun; eauto). subst m0. right. right. auto.
          + apply live_upd_other in Hm; auto. assert (m0 = set_parsers n (n_parsers n ++ added)) by (eapply live_fun; eauto). subst m0. left. split; auto. unfold set_parsers. cbn [n_parsers]. rewrite <- app_assoc. reflexivity.
        - intros [[-> ->]|[[Hi Hm]|[-> ->]]].
          + right. split; auto. exists (set_parsers n (n_parsers n ++ added)). split; [apply live_upd_other; auto|]. unfold set_parsers. cbn [n_parsers]. rewrite <- app_assoc. reflexivity.
          + left. split; auto. apply live_upd_other; [apply live_lt in Hm; lia|]. apply HLv. auto.
          + left. split; auto. apply (live_upd_same _ c _ (fun m => set_refcnt m (n_refcnt m + 1))) in Hc1. exact Hc1. }
      destruct (IH (added ++ [p]) cx1' HW') as (added' & cx2 & E2 & HW2 & HG2 & HA & HB & HC2); auto.
      * apply Forall_app. split; auto. constructor; [|constructor]. split; [reflexivity|exact Hk].
      * intros; apply HN; auto; right; auto.
      * rewrite app_length. cbn. lia.
      * exists (p :: added'), cx2. split. { rewrite EJ in *. rewrite EI. cbn [ebind]. exact E2. }
        rewrite <- app_assoc in HW2, HG2, HB. cbn [app] in HW2, HG2, HB. split; auto. split; auto.
        split. { intros y. cbn. intros [<-|Hy]; auto. }
        split; [|cbn; lia]. intros y [<-|Hy]; auto. rewrite map_app. apply in_or_app. right. left. reflexivity.
Qed.

(** the step [s] is at node [d] and leads to [c]; [cx'] is the context after adding it to [cx] *)
Definition step_made (cx : ctx) (d : nat) (s : astep) (c : nat) (cx' : ctx) : Prop :=
  exists n added, live (c_nodes cx) d n /\ widened cx d n added c cx' /\ Forall (good_prs c) added /\
    (forall x, In x s <-> In x (map p_conf added)) /\ (forall x c', In x s -> ~ alts (c_nodes cx) d c' x) /\ List.length added <= List.length s.

Lemma alt_loop_new inner addp pn cx d n s : wide e cx -> live (c_nodes cx) d n -> s <> [] -> Forall (complete e []) s ->
  (forall x c', In x s -> ~ alts (c_nodes cx) d c' x) -> List.length (n_parsers n) + List.length s <= 255 ->
  exists c cx', addParsers_loop e addp inner cx Alt s (Some d) None pn = EOk (cx', Some (Some c, pn)) /\ step_made cx d s c cx'.
Proof.
  intros W Hd Hs HF HN HL. destruct s as [|x s]; [congruence|]. cbn [addParsers_loop]. clear Hs.
  pose proof HF as HF0. apply Forall_cons_iff in HF as [[k [nm Hk]] HF].
  assert (EJ : exists lx, x = JObj lx) by (destruct (flat_obj _ _ _ _ _ Hk) as (lx & ? & ? & -> & _); eauto). destruct EJ as [lx EJ].
  assert (HNq : forall y q, In y (x :: s) -> In q (n_parsers n) -> p_conf q <> y).
  { intros y q Hy Hq E. apply (HN y (p_child q) Hy). exists n, q. auto. }
  assert (HQ : forall q, In q (n_parsers n) -> flat_field e [] (p_conf q) = Some (p_kind q, p_name q)) by (intros q Hq; eapply (w_flat _ _ W); eauto).
  cbn [List.length] in HL.
  destruct (addInstance_wide addp cx d n x k nm None (w_types _ _ W) Hd) as [(q & Hq & Hqc & EI)|(HNo & pr & EI)]; auto; try lia.
  { exfalso. apply (HNq x q); auto. left; auto. }
  set (c := List.length (c_nodes cx)) in *. set (p := {| p_kind := k; p_name := nm; p_conf := x; p_prio := pr; p_child := c |}) in *. set (cx1 := set_nodes cx _) in *.
  pose proof (live_lt _ _ _ Hd) as Hlt.
  assert (HW : widened cx d n [p] c cx1).
  { split; auto. split; [reflexivity|]. exists 1%Z. intros i m. unfold cx1. rewrite nodes_set, live_upd. split.
    - intros [[Hi Hm]|[<- (m0 & Hm & ->)]].
      + apply live_app in Hm as [Hm|[-> Em]]; [auto|injection Em as <-; right; right; auto].
      + apply live_app in Hm as [Hm|[E _]]; [|unfold c in *; lia]. assert (m0 = n) by (eapply live_fun; eauto). subst m0. auto.
    - intros [[-> ->]|[[Hi Hm]|[-> ->]]].
      + right. split; auto. exists n. split; [apply live_app; auto|reflexivity].
      + left. split; auto. apply live_app. auto.
      + left. split; [unfold c; lia|]. apply live_app. right. auto. }
  destruct (alt_loop_made inner addp pn cx d n c (w_types _ _ W) Hd HQ s [p] cx1 HW) as (added' & cx2 & E2 & HW2 & HG2 & HA & HB & HC2); auto.
  - constructor; [|constructor]. split; [reflexivity|exact Hk].
  - intros y q Hy. apply HNq. right; auto.
  - cbn. lia.
  - exists c, cx2. split. { rewrite EJ in *. rewrite EI. cbn [ebind]. exact E2. }
    exists n, ([p] ++ added'). split; auto. split; auto. split; auto. split; [|split; [exact HN|cbn; lia]].
    intros y. split; [intros [<-|Hy]; [left; reflexivity|apply HB; auto]|]. rewrite map_app. intros Hy. apply in_app_or in Hy as [[<-|[]]|Hy]; [left; reflexivity|right; auto].
Qed.

Lemma alt_loop_found inner addp pn cx d n c : wide e cx -> live (c_nodes cx) d n -> List.length (n_parsers n) < 255 ->
  forall s next, Forall (complete e []) s -> (forall x, In x s -> alts (c_nodes cx) d c x) -> (s <> [] \/ next = Some c) ->
  addParsers_loop e addp inner cx Alt s (Some d) next pn = EOk (cx, Some (Some c, pn)).
Proof.
  intros W Hd HL. induction s as [|x s IH]; intros next HF HA HS; cbn [addParsers_loop].
  - destruct HS as [HS|HS]; [congruence|subst; reflexivity].
  - apply Forall_cons_iff in HF as [[k [nm Hk]] HF].
    assert (EJ : exists lx, x = JObj lx) by (destruct (flat_obj _ _ _ _ _ Hk) as (lx & ? & ? & -> & _); eauto). destruct EJ as [lx EJ].
    assert (HQ : forall q, In q (n_parsers n) -> flat_field e [] (p_conf q) = Some (p_kind q, p_name q)) by (intros q Hq; eapply (w_flat _ _ W); eauto).
    destruct (HA x (or_introl eq_refl)) as (n' & q' & Hn' & Hq' & Ec' & Ex'). assert (n' = n) by (eapply live_fun; eauto). subst n'.
    destruct (addInstance_wide addp cx d n x k nm next (w_types _ _ W) Hd HL HQ Hk) as [(q & Hq & Hqc & EI)|(HNo & _)]; [|exfalso; eapply HNo; eauto].
    assert (Eq : p_child q = c). { eapply (w_uniq _ _ W d _ _ x); [exists n, q; auto|exists n, q'; auto]. }
    rewrite EJ in *. rewrite EI. cbn [ebind]. rewrite Eq. apply IH; auto. intros y Hy. apply HA. right; auto.
Qed.

(** ** the graph after a step *)
Lemma made_alts cx d s c cx' : wide e cx -> step_made cx d s c cx' -> forall i x y, alts (c_nodes cx') i x y <-> alts (c_nodes cx) i x y \/ (i = d /\ x = c /\ In y s).
Proof.
  intros W (n & added & Hd & (Ec & Ecx & k & HL) & HG & HS & HN & HLen) i x y. split.
  - intros (m & p & Hm & Hp & Ex & Ey). apply HL in Hm as [[-> ->]|[[Hi Hm]|[-> ->]]]; [|left; exists m, p; auto|destruct Hp].
    cbn [set_parsers n_parsers] in Hp. apply in_app_or in Hp as [Hp|Hp]; [left; exists n, p; auto|]. right. split; auto. rewrite Forall_forall in HG. split; [rewrite <- Ex; apply (HG p Hp)|]. apply HS. rewrite <- Ey. apply in_map. exact Hp.
  - intros [(m & p & Hm & Hp & Ex & Ey)|(-> & -> & Hy)].
    + destruct (Nat.eq_dec i d) as [->|Hne].
      * assert (m = n) by (eapply live_fun; eauto). subst m. exists (set_parsers n (n_parsers n ++ added)), p. split; [apply HL; auto|]. split; auto. cbn. apply in_or_app. auto.
      * exists m, p. split; [apply HL; auto|auto].
    + apply HS, in_map_iff in Hy as (p & <- & Hp). exists (set_parsers n (n_parsers n ++ added)), p. split; [apply HL; auto|]. split; [cbn; apply in_or_app; auto|]. split; auto. rewrite Forall_forall in HG. apply (HG p Hp).
Qed.
Lemma alts_lt cx i c x : wide e cx -> alts (c_nodes cx) i c x -> i < List.length (c_nodes cx) /\ c < List.length (c_nodes cx).
Proof. intros W H. pose proof H as (n & _ & Hn & _). destruct (w_child _ _ W _ _ _ H) as [m Hm]. split; eapply live_lt; eauto. Qed.
Lemma made_wide cx d s c cx' : wide e cx -> step_made cx d s c cx' -> wide e cx'.
Proof.
  intros W HM. pose proof (made_alts cx d s c cx' W HM) as HA. destruct HM as (n & added & Hd & (Ec & Ecx & k & HL) & HG & HS & HN & HLen).
  assert (ER : c_root cx' = c_root cx) by (rewrite Ecx; reflexivity).
  assert (HLive : forall i m, live (c_nodes cx) i m -> exists m', live (c_nodes cx') i m').
  { intros i m Hm. destruct (Nat.eq_dec i d) as [->|Hne]; [eexists; apply HL; auto|exists m; apply HL; auto]. }
  destruct (w_root _ _ W) as [rn Hrn]. constructor.
  - rewrite Ecx. apply (w_types _ _ W).
  - rewrite ER. eauto.
  - intros i x y H. apply HA in H as [H|(-> & -> & _)]; [destruct (w_child _ _ W _ _ _ H) as [m Hm]; eauto|]. exists (set_refcnt new_node k). apply HL. auto.
  - intros i j x y z H1 H2. apply HA in H1 as [H1|(-> & -> & H1)]; apply HA in H2 as [H2|(-> & E & H2)]; subst.
    + eapply (w_one _ _ W); eauto.
    + apply alts_lt in H1; auto. lia.
    + apply alts_lt in H2; auto. lia.
    + auto.
  - intros i x y H. rewrite ER. apply HA in H as [H|(-> & -> & _)]; [eapply (w_noroot _ _ W); eauto|]. pose proof (live_lt _ _ _ Hrn). lia.
  - intros i x x' y H1 H2. apply HA in H1 as [H1|(E1 & E2 & H1)]; apply HA in H2 as [H2|(E3 & E4 & H2)]; subst.
    + eapply (w_uniq _ _ W); eauto.
    + exfalso. eapply HN; eauto.
    + exfalso. eapply HN; eauto.
    + auto.
  - intros i m p Hm Hp. apply HL in Hm as [[-> ->]|[[Hi Hm]|[-> ->]]]; [|eapply (w_flat _ _ W); eauto|destruct Hp].
    cbn [set_parsers n_parsers] in Hp. apply in_app_or in Hp as [Hp|Hp]; [exact (w_flat _ _ W _ _ _ Hd Hp)|]. rewrite Forall_forall in HG. apply (HG p Hp).
Qed.
(** the paths of the new graph *)
Lemma made_wpath_old cx d s c cx' : wide e cx -> step_made cx d s c cx' -> forall i ss j, wpath (c_nodes cx) i ss j -> i < List.length (c_nodes cx) -> wpath (c_nodes cx') i ss j.
Proof.
  intros W HM i ss j H. pose proof (made_alts cx d s c cx' W HM) as HA. induction H as [i|i x s' ss j Hs HS HW IH]; intros Hi; [constructor|].
  assert (Hx : x < List.length (c_nodes cx)). { destruct s' as [|y s']; [congruence|]. eapply alts_lt; [exact W|]. apply HS. left. reflexivity. }
  econstructor; [exact Hs| |apply IH; exact Hx]. intros y. rewrite HA, HS. destruct HM as (n & added & _ & (-> & _) & _). split; [auto|]. intros [|(_ & E & _)]; auto. lia.
Qed.
Lemma made_wpath_new cx d s c cx' : wide e cx -> step_made cx d s c cx' -> forall ss i j, wpath (c_nodes cx') i ss j -> i < List.length (c_nodes cx) ->
  (j < List.length (c_nodes cx) /\ wpath (c_nodes cx) i ss j) \/ (j = c /\ exists pre s', ss = pre ++ [s'] /\ same_step s' s /\ wpath (c_nodes cx) i pre d).
Proof.
  intros W HM ss i j H. pose proof (made_alts cx d s c cx' W HM) as HA. induction H as [i|i x s' ss j Hs HS HW IH]; intros Hi; [left; split; auto; constructor|].
  assert (HX : (exists y, In y s' /\ alts (c_nodes cx) i x y) \/ (i = d /\ x = c)).
  { destruct s' as [|y s']; [congruence|]. pose proof (proj1 (HS y) (or_introl eq_refl)) as Hy. apply HA in Hy as [Hy|(-> & -> & Hy)]; [left; exists y; split; [left; auto|auto]|right; auto]. }
  assert (Ec : c = List.length (c_nodes cx)) by (destruct HM as (? & ? & _ & (-> & _) & _); auto).
  destruct HX as [(y & _ & Hy)|[-> ->]].
  - pose proof (alts_lt _ _ _ _ W Hy) as [_ Hx]. assert (HS' : forall z, In z s' <-> alts (c_nodes cx) i x z). { intros z. rewrite HS, HA. split; [intros [|(_ & E & _)]; auto; lia|auto]. }
    destruct (IH Hx) as [[Hj HP]|(-> & pre & t & -> & Ht & HP)].
    + left. split; auto. econstructor; eauto.
    + right. split; auto. exists (s' :: pre), t. split; auto. split; auto. econstructor; eauto.
  - right. assert (HNo : forall y z, ~ alts (c_nodes cx') c y z).
    { intros y z Hz. apply HA in Hz as [Hz|(E & _)]; [apply alts_lt in Hz; auto; lia|]. destruct HM as (n & _ & Hd & _). apply live_lt in Hd. lia. }
    inversion HW as [|? y t ss' ? Ht HT HW2]; subst.
    + split; auto. exists [], s'. split; auto. split; [|constructor]. intros z. rewrite HS, HA. split; [intros [Hz|(_ & _ & Hz)]; auto; apply alts_lt in Hz; auto; lia|auto].
    + exfalso. destruct t as [|z t]; [congruence|]. eapply HNo. apply HT. left. reflexivity.
Qed.
End Add.
